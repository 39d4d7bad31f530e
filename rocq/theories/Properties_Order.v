(** The comparison operators obey the laws of the traits (C94), signed zeros
    and NaN included.  [order_laws]: SpecOrder.v. *)
From Coq Require Import ZArith QArith Qabs Lqa List Lia Bool.
From Verif Require Import Words Spec WordsFacts NatModel NatFacts NatFacts2 NatFacts5 BigInt SpecInt BigIntFacts Rat SpecRat RatFacts Float SpecFloat SpecOrder
  Properties_Nat Properties_BigInt Properties_Rat Properties_Float.
Import ListNotations.
Open Scope Z_scope.

(** Laws of a comparison that never fails, and their transfer. *)
Record key_laws {K : Type} (ok : K -> Prop) (kc : K -> K -> comparison) : Prop := {
  k_refl : forall a, ok a -> kc a a = Eq;
  k_dual : forall a b, ok a -> ok b -> kc b a = CompOpp (kc a b);
  k_trans : forall a b c o, ok a -> ok b -> ok c -> kc a b = o -> kc b c = o -> kc a c = o;
  k_subst : forall a b c, ok a -> ok b -> ok c -> kc a b = Eq -> kc a c = kc b c }.
Lemma transfer {A K} (ok : A -> Prop) nan eq cmp (kok : K -> Prop) kc (key : A -> option K) : key_laws kok kc ->
  (forall a k, ok a -> key a = Some k -> kok k) -> (forall a, ok a -> (nan a = true <-> key a = None)) ->
  (forall a b, ok a -> ok b -> cmp a b = match key a, key b with Some j, Some k => Some (kc j k) | _, _ => None end) ->
  (forall a b, ok a -> ok b -> (eq a b = true <-> cmp a b = Some Eq)) -> order_laws ok nan eq cmp.
Proof.
  intros L KO N C E. assert (N0 : forall a, ok a -> nan a = false -> exists k, key a = Some k).
  { intros a H F. destruct (key a) eqn:X; [eauto|]. apply N in X; [congruence|auto]. }
  constructor.
  - intros a b Ha Hb. rewrite C by auto. rewrite !N by auto. destruct (key a), (key b); split; intros H; auto; try discriminate. destruct H; discriminate.
  - exact E.
  - intros a Ha F. destruct (N0 a Ha F) as (k & X). rewrite C by auto. rewrite X. f_equal. apply (k_refl _ _ L). eauto.
  - intros a b Ha Hb. rewrite !C by auto. destruct (key a) eqn:X, (key b) eqn:Y; try reflexivity. cbn [option_map]. f_equal. apply (k_dual _ _ L); eauto.
  - intros a b c o Ha Hb Hc. rewrite !C by auto. destruct (key a) eqn:X, (key b) eqn:Y, (key c) eqn:Z; try congruence. intros P Q. f_equal.
    apply (k_trans _ _ L k k0 k1 o); eauto; congruence.
  - intros a b c Ha Hb Hc. rewrite !C by auto. destruct (key a) eqn:X, (key b) eqn:Y, (key c) eqn:Z; try congruence. intros P. f_equal. apply (k_subst _ _ L); eauto; congruence.
Qed.
Lemma z_laws (ok : Z -> Prop) : key_laws ok Z.compare.
Proof.
  constructor.
  - intros; apply Z.compare_refl.
  - intros; apply Z.compare_antisym.
  - intros a b c o _ _ _ <-. destruct (Z.compare_spec a b); intros H1; destruct (Z.compare_spec b c); try discriminate H1; destruct (Z.compare_spec a c); auto; lia.
  - intros a b c _ _ _ H. apply Z.compare_eq in H. subst. reflexivity.
Qed.

(** *** Nat *)
Definition nat_ok (a : list Z) : Prop := canon a \/ a = nan.
Lemma nat_not_nan a : canon a -> is_nan a = false.
Proof. intros (_ & N & _). destruct a; [congruence|reflexivity]. Qed.
Theorem C94_nat : order_laws nat_ok is_nan nat_eq partial_cmp.
Proof.
  apply (transfer _ _ _ _ (fun _ => True) Z.compare (fun a => if is_nan a then None else Some (nval a)) (z_laws _)).
  - auto.
  - intros a _. destruct (is_nan a); split; congruence.
  - intros a b [Ha| ->] [Hb| ->].
    + rewrite !nat_not_nan by auto. apply (C10_nat_compare a b Ha Hb).
    + destruct (is_nan a); apply (C10_nat_compare_nan a).
    + apply (C10_nat_compare_nan b).
    + reflexivity.
  - intros a b [Ha| ->] [Hb| ->].
    + destruct (C10_nat_compare a b Ha Hb) as (C & E). rewrite E, C. split; [intros ->; rewrite Z.compare_refl; auto|]. intros H. apply Z.compare_eq. congruence.
    + destruct (C10_nat_compare_nan a) as (-> & _ & _ & ->). split; discriminate.
    + destruct (C10_nat_compare_nan b) as (_ & -> & -> & _). split; discriminate.
    + split; discriminate.
Qed.

(** *** BigInt: any sign with a canonical magnitude, so also the negative zero
    that [/] and [%] can leave behind, which is below zero. *)
Definition big_ok (x : bigint) : Prop := nat_ok (bnat x).
Definition big_key (x : bigint) : Z := if bneg x then - (2 * nval (bnat x)) - 1 else 2 * nval (bnat x).
Theorem C94_bigint : order_laws big_ok b_is_nan b_eq b_cmp.
Proof.
  assert (C : forall x y, big_ok x -> big_ok y -> b_cmp x y = match (if b_is_nan x then None else Some (big_key x)), (if b_is_nan y then None else Some (big_key y)) with Some j, Some k => Some (j ?= k) | _, _ => None end).
  { intros [a s] [b t] Hx Hy. unfold big_ok, b_is_nan, b_cmp, big_key in *. cbn [bnat bneg] in *. unfold b_is_nan. cbn [bnat].
    destruct Hx as [Ha| ->]; [|cbn [is_nan orb]; reflexivity]. destruct Hy as [Hb| ->]; [|destruct (is_nan a); reflexivity].
    rewrite !nat_not_nan by auto. cbn [orb]. destruct (C10_nat_compare a b Ha Hb) as (-> & _). pose proof (canon_nonneg a Ha). pose proof (canon_nonneg b Hb).
    destruct s, t; cbn [option_map]; f_equal; symmetry; destruct (Z.compare_spec (nval a) (nval b)); cbn [CompOpp]; (apply Z.compare_eq_iff || apply Z.compare_lt_iff || apply Z.compare_gt_iff); lia. }
  apply (transfer _ _ _ _ (fun _ => True) Z.compare (fun x => if b_is_nan x then None else Some (big_key x)) (z_laws _)).
  - auto.
  - intros x _. destruct (b_is_nan x); split; congruence.
  - exact C.
  - intros x y Hx Hy. rewrite C by auto. destruct x as [a s], y as [b t]. unfold big_ok, b_is_nan, b_eq, big_key in *. cbn [bnat bneg] in *.
    destruct Hx as [Ha| ->]; [|rewrite andb_comm; split; discriminate]. destruct Hy as [Hb| ->].
    2: { destruct (C10_nat_compare_nan a) as (_ & _ & _ & ->). rewrite andb_comm. destruct (is_nan a); split; discriminate. }
    rewrite !nat_not_nan by auto. destruct (C10_nat_compare a b Ha Hb) as (_ & E). rewrite andb_true_iff, E. pose proof (canon_nonneg a Ha). pose proof (canon_nonneg b Hb).
    split.
    + intros (S & ->). apply eqb_prop in S. subst t. rewrite Z.compare_refl. reflexivity.
    + intros H1. assert (H2 : (if s then - (2 * nval a) - 1 else 2 * nval a) = (if t then - (2 * nval b) - 1 else 2 * nval b)) by (apply Z.compare_eq; congruence).
      destruct s, t; split; try reflexivity; lia.
Qed.

(** *** Rat: any signs, reduced or not. *)
Definition rat_ok (x : rat) : Prop := ok_rat x \/ r_is_nan x = true.
Definition rkey := (bool * Z * Z)%type.
Definition rkey_ok (k : rkey) : Prop := let '(s, m, n) := k in 0 <= m /\ 0 < n.
Definition rkey_cmp (j k : rkey) : comparison :=
  let '(s, m, n) := j in let '(t, p, q) := k in
  match s, t with true, true => p * n ?= m * q | true, false => Lt | false, true => Gt | false, false => m * q ?= p * n end.
Lemma cross_lt m n p q u v : 0 <= m -> 0 <= p -> 0 <= u -> 0 < n -> 0 < q -> 0 < v -> m * q < p * n -> p * v < u * q -> m * v < u * n.
Proof. intros. assert ((m * v) * q < (u * n) * q) by nia. nia. Qed.
Lemma cross_eq m n p q u v : 0 < n -> 0 < q -> 0 < v -> m * q = p * n -> p * v = u * q -> m * v = u * n.
Proof. intros. assert ((m * v) * q = (u * n) * q) by nia. nia. Qed.
Lemma cross_subst m n p q u v : 0 < n -> 0 < q -> 0 < v -> m * q = p * n -> (m * v ?= u * n) = (p * v ?= u * q).
Proof.
  intros A B C E. rewrite (Zmult_compare_compat_r (m * v) (u * n) q) by lia. rewrite (Zmult_compare_compat_r (p * v) (u * q) n) by lia.
  f_equal; nia.
Qed.
Lemma rkey_laws : key_laws rkey_ok rkey_cmp.
Proof.
  constructor.
  - intros [[[] m] n] _; cbn [rkey_cmp]; apply Z.compare_refl.
  - intros [[[] m] n] [[[] p] q] _ _; cbn [rkey_cmp]; try reflexivity; apply Z.compare_antisym.
  - intros [[s m] n] [[t p] q] [[w u] v] o (A1 & A2) (B1 & B2) (C1 & C2). destruct s, t, w; cbn [rkey_cmp]; intros E F; try congruence.
    + destruct o; rewrite ?Z.compare_eq_iff, ?Z.compare_lt_iff, ?Z.compare_gt_iff in *; [symmetry; apply (cross_eq m n p q u v); lia|apply (cross_lt u v p q m n); lia|apply (cross_lt m n p q u v); lia].
    + destruct o; rewrite ?Z.compare_eq_iff, ?Z.compare_lt_iff, ?Z.compare_gt_iff in *; [apply (cross_eq m n p q u v); lia|apply (cross_lt m n p q u v); lia|apply (cross_lt u v p q m n); lia].
  - intros [[s m] n] [[t p] q] [[w u] v] (A1 & A2) (B1 & B2) (C1 & C2). destruct s, t, w; cbn [rkey_cmp]; try congruence; intros E; apply Z.compare_eq in E.
    + rewrite (Z.compare_antisym (m * v)), (Z.compare_antisym (p * v)). f_equal. apply cross_subst; lia.
    + apply cross_subst; lia.
Qed.
Definition rat_key (x : rat) : rkey := (bneg (rnum x), nval (bnat (rnum x)), nval (bnat (rden x))).
Theorem C94_rat : order_laws rat_ok r_is_nan r_eq r_cmp.
Proof.
  assert (NN : forall x, ok_rat x -> r_is_nan x = false).
  { intros x H. destruct (ok_rat_mk x H) as (s & m & t & n & Hm & Hn & ->). apply mk_nan; lia. }
  apply (transfer _ _ _ _ rkey_ok rkey_cmp (fun x => if r_is_nan x then None else Some (rat_key x)) rkey_laws).
  - intros x k [H|H]; [|rewrite H; discriminate]. rewrite (NN x H). intros [= <-]. destruct H as (H1 & H2 & H3). split; [apply canon_nonneg; auto|auto].
  - intros x _. destruct (r_is_nan x); split; congruence.
  - intros x y [Hx|Hx].
    + intros [Hy|Hy].
      * rewrite (NN x Hx), (NN y Hy). destruct (ok_rat_mk x Hx) as (s & m & t & n & Hm & Hn & ->). destruct (ok_rat_mk y Hy) as (s0 & m0 & t0 & n0 & Hm0 & Hn0 & ->).
        rewrite r_cmp_mk by auto. unfold rat_key, mk. cbn [rnum rden bnat bneg rkey_cmp]. rewrite !of_Z_val by lia. destruct s, s0; reflexivity.
      * rewrite Hy. rewrite (proj1 (C49_nan x y (or_intror Hy))). destruct (r_is_nan x); reflexivity.
    + intros _. rewrite Hx. apply (C49_nan x y (or_introl Hx)).
  - intros x y _ _. unfold r_eq. destruct (r_cmp x y) as [[]|]; split; congruence.
Qed.

(** *** Float *)
Lemma ext_laws : key_laws (fun _ => True) ext_compare.
Proof.
  constructor.
  - intros [|v|] _; try reflexivity. apply Qeq_alt. reflexivity.
  - intros [|v|] [|w|] _ _; try reflexivity. cbn [ext_compare]. symmetry. apply Qcompare_antisym.
  - intros [|u|] [|v|] [|w|] o _ _ _; cbn [ext_compare]; try congruence. destruct o; rewrite <- ?Qeq_alt, <- ?Qlt_alt, <- ?Qgt_alt; intros; lra.
  - intros [|u|] [|v|] [|w|] _ _ _; cbn [ext_compare]; try congruence. intros E. apply Qeq_alt in E. rewrite E. reflexivity.
Qed.
Theorem C94_float : order_laws ok_float (fun x => is_fnan (flform x)) fl_eq fl_cmp.
Proof.
  apply (transfer _ _ _ _ (fun _ => True) ext_compare flext ext_laws).
  - auto.
  - intros x _. unfold flext. destruct (flform x); cbn [is_fnan]; split; congruence.
  - intros x y Hx Hy. apply C57_compare; auto.
  - intros x y Hx Hy. rewrite C57_equal, C57_compare by auto. destruct (flext x) as [a|], (flext y) as [b|]; split; intros H.
    + destruct H as (a' & b' & A & B & E). congruence.
    + exists a, b. repeat split. congruence.
    + destruct H as (a' & b' & A & B & E). congruence.
    + discriminate.
    + destruct H as (a' & b' & A & B & E). congruence.
    + discriminate.
    + destruct H as (a' & b' & A & B & E). congruence.
    + discriminate.
Qed.
(** The laws hold although the order is not the numeric one: negative zero. *)
Example C94_case : big_ok (BI [0] true) /\ b_cmp (BI [0] true) (BI [0] false) = Some Lt /\ b_cmp (BI [7] true) (BI [0] true) = Some Lt /\
  r_cmp (mk true 2 false 4) (mk true 1 false 2) = Some Eq /\ fl_cmp (fl_neg (fu 0)) (fu 0) = Some Eq.
Proof. split; [left; split; [repeat constructor; lia|]; split; [discriminate|left; reflexivity]|]. repeat split. Qed.
Print Assumptions C94_nat.
Print Assumptions C94_bigint.
Print Assumptions C94_rat.
Print Assumptions C94_float.
