(** Rats whose denominator was overwritten with zero: property C129.

    [C84_denominator_refuted] shows how such a Rat comes about.  Full claim: it
    counts as its numerator, as a denominator of 1 does.  True of the operators
    and comparisons; false of [inv], [is_integer] and the text. *)
From Coq Require Import ZArith QArith String List Lia Bool.
From Verif Require Import Words Spec WordsFacts NatModel NatFacts NatFacts5 NatConv BigInt SpecInt BigIntFacts Rat SpecRat RatFacts Properties_Rat.
Import ListNotations.
Open Scope Z_scope.

(** Canonical parts, any denominator. *)
Definition any_rat (x : rat) : Prop := canon (bnat (rnum x)) /\ canon (bnat (rden x)).
(** The Rat meant: a denominator of zero read as one. *)
Definition mended (x : rat) : rat := if nval (bnat (rden x)) =? 0 then RT (rnum x) (BI [1] (bneg (rden x))) else x.

Lemma mended_ok x : any_rat x -> ok_rat (mended x).
Proof.
  intros (A & B). unfold mended. destruct (Z.eqb_spec (nval (bnat (rden x))) 0) as [E|E].
  - split; [exact A|]. split; [exact (of_Z_canon 1 ltac:(lia))|reflexivity].
  - split; [exact A|]. split; [exact B|]. pose proof (nval_nonneg _ (proj1 B)). lia.
Qed.
Lemma any_mk x : any_rat x -> exists s m t n, 0 <= m /\ 0 <= n /\ x = mk s m t n.
Proof.
  intros (A & B). destruct x as [[a s] [b t]]. cbn [rnum rden bnat] in *. exists s, (nval a), t, (nval b).
  split; [apply nval_nonneg, A|]. split; [apply nval_nonneg, B|]. unfold mk. rewrite !of_Z_nval by auto. reflexivity.
Qed.
Lemma mended_mk s m t n : 0 <= n -> mended (mk s m t n) = mk s m t (if n =? 0 then 1 else n).
Proof.
  intros N. unfold mended. unfold mk at 1 2 3. cbn [rnum rden bnat bneg]. rewrite of_Z_val by auto. destruct (n =? 0); reflexivity.
Qed.
Lemma scale_mended s m n : 0 <= m -> 0 <= n -> scale_denom (BI (of_Z m) s) (of_Z n) = scale_denom (BI (of_Z m) s) (of_Z (if n =? 0 then 1 else n)).
Proof.
  intros M N. unfold scale_denom. rewrite !of_Z_eq_u32 by (try lia; destruct (n =? 0); lia). destruct (Z.eqb_spec n 0) as [->|E].
  - cbn [bnat bneg]. change (1 =? 0) with false. cbn iota. rewrite nat_mul_of_Z, Z.mul_1_r by lia. reflexivity.
  - destruct (Z.eqb_spec n 0); [lia|]. reflexivity.
Qed.
Lemma mul_denom_mended m n : 0 <= m -> 0 <= n ->
  mul_denom (of_Z m) (of_Z n) = mul_denom (of_Z (if m =? 0 then 1 else m)) (of_Z (if n =? 0 then 1 else n)).
Proof.
  intros M N. unfold mul_denom. rewrite !of_Z_eq_u32 by (try lia; destruct (m =? 0), (n =? 0); lia).
  destruct (Z.eqb_spec m 0) as [->|E], (Z.eqb_spec n 0) as [->|F]; cbn [andb]; change (1 =? 0) with false; cbn [andb]; cbn iota.
  - reflexivity.
  - destruct (Z.eqb_spec n 0); [lia|]. rewrite nat_mul_of_Z, Z.mul_1_l by lia. reflexivity.
  - destruct (Z.eqb_spec m 0); [lia|]. cbn [andb]. rewrite nat_mul_of_Z, Z.mul_1_r by lia. reflexivity.
  - destruct (Z.eqb_spec m 0); [lia|]. destruct (Z.eqb_spec n 0); [lia|]. reflexivity.
Qed.
Lemma any_nan s m t n : 0 <= m -> 0 <= n -> r_is_nan (mk s m t n) = false.
Proof. intros M N. unfold r_is_nan, mk, b_is_nan. cbn [rnum rden bnat]. rewrite !is_nan_of_Z by auto. reflexivity. Qed.
Lemma cmp_mended x y : any_rat x -> any_rat y -> r_cmp x y = r_cmp (mended x) (mended y).
Proof.
  intros X Y. destruct (any_mk x X) as (s & m & t & n & M & N & ->). destruct (any_mk y Y) as (s' & m' & t' & n' & M' & N' & ->).
  rewrite !mended_mk by auto. unfold r_cmp. rewrite !any_nan by (auto; destruct (n =? 0), (n' =? 0); lia). cbn [orb]. unfold mk. cbn [rnum rden bnat].
  rewrite (scale_mended s m n'), (scale_mended s' m' n) by auto. reflexivity.
Qed.

(** ** C129 *)
Theorem C129_operators_partial : forall x y, any_rat x -> any_rat y ->
  r_add x y = r_add (mended x) (mended y) /\ r_sub x y = r_sub (mended x) (mended y) /\
  r_mul x y = r_mul (mended x) (mended y) /\ r_div x y = r_div (mended x) (mended y) /\
  r_cmp x y = r_cmp (mended x) (mended y) /\ r_eq x y = r_eq (mended x) (mended y).
Proof.
  intros x y X Y. pose proof (cmp_mended x y X Y) as C.
  assert (E : r_eq x y = r_eq (mended x) (mended y)) by (unfold r_eq; rewrite C; reflexivity).
  destruct (any_mk x X) as (s & m & t & n & M & N & ->). destruct (any_mk y Y) as (s' & m' & t' & n' & M' & N' & ->).
  rewrite !mended_mk in * by auto. set (k := if n =? 0 then 1 else n) in *. set (k' := if n' =? 0 then 1 else n') in *.
  assert (K : 0 < k) by (unfold k; destruct (Z.eqb_spec n 0); lia). assert (K' : 0 < k') by (unfold k'; destruct (Z.eqb_spec n' 0); lia).
  unfold r_add, r_sub, r_mul, r_div, r_op2. rewrite !any_nan by (auto; lia). cbn [orb].
  split; [|split; [|split; [|split; [|split; assumption]]]].
  - unfold r_add_inner, mk. cbn [rnum rden bnat]. rewrite (scale_mended s m n'), (scale_mended s' m' n), (mul_denom_mended n n') by auto. reflexivity.
  - unfold r_sub_inner, mk. cbn [rnum rden bnat]. rewrite (scale_mended s m n'), (scale_mended s' m' n), (mul_denom_mended n n') by auto. reflexivity.
  - unfold r_mul_inner. rewrite E. destruct (r_eq (mk s m t k) (mk s' m' t' k')).
    + unfold mk. cbn [rnum rden bnat bneg]. destruct (b_sqr (BI (of_Z m) s)) as [a| |]; cbn [bind]; try reflexivity.
      rewrite !of_Z_eq_u32 by lia. destruct (Z.eqb_spec k 0); [lia|]. unfold k. destruct (Z.eqb_spec n 0) as [->|F]; [|reflexivity].
      destruct t; reflexivity.
    + unfold mk. cbn [rnum rden bnat]. rewrite (mul_denom_mended n n') by auto. reflexivity.
  - unfold r_div_inner, mk. cbn [rnum rden bnat]. rewrite (scale_mended s m n'), (scale_mended s' m' n) by auto. reflexivity.
Qed.
(** So the values are those of C48 and C49. *)
Theorem C129_values_partial : forall x y, any_rat x -> any_rat y ->
  (exists z, r_add x y = Ok z /\ denotes z (rvalue (mended x) + rvalue (mended y))) /\
  (exists z, r_sub x y = Ok z /\ denotes z (rvalue (mended x) - rvalue (mended y))) /\
  (exists z, r_mul x y = Ok z /\ denotes z (rvalue (mended x) * rvalue (mended y))) /\
  (~ (rvalue (mended y) == 0)%Q -> exists z, r_div x y = Ok z /\ denotes z (rvalue (mended x) / rvalue (mended y))).
Proof.
  intros x y X Y. destruct (C129_operators_partial x y X Y) as (-> & -> & -> & -> & _).
  pose proof (mended_ok x X) as A. pose proof (mended_ok y Y) as B.
  split; [apply C48_add; auto|]. split; [apply C48_sub; auto|]. split; [apply C48_mul; auto|]. intros N. apply C48_div; auto.
Qed.
(** [inv] of a/0 is 0, [is_integer] denies that it is one, and the text shows
    the zero and is refused when read back. *)
Theorem C129_others_refuted : forall s m t, 0 < m ->
  let x := mk s m t 0 in
  (exists z, r_inv x = Some z /\ denotes z 0) /\ r_is_integer x = Some false /\ (t = false -> r_is_integer (mended x) = Some true).
Proof.
  intros s m t M x. unfold x. rewrite mended_mk by lia. change (0 =? 0) with true. cbn iota.
  unfold r_inv, r_is_integer. rewrite !mk_nan by lia. unfold mk at 1 2 3 4 5 6. cbn [rnum rden bnat bneg]. unfold b_eq_u32. cbn [bnat].
  rewrite !of_Z_eq_u32 by lia. destruct (Z.eqb_spec m 0); [lia|].
  split; [|split; [destruct t; reflexivity|intros ->]].
  - eexists. split; [reflexivity|]. change (RT (BI (of_Z 0) s) (BI (of_Z m) false)) with (mk s 0 false m). split; [apply ok_mk; lia|].
    rewrite rvalue_mk by lia. unfold sgv. destruct s; reflexivity.
  - unfold mk. cbn [rnum rden bnat bneg orb negb]. rewrite ?of_Z_eq_u32 by lia. cbn [negb]. change (1 =? 1) with true. rewrite orb_true_r. reflexivity.
Qed.
Theorem C129_text_refuted : forall pf, r_fmt_display (mk false 3 false 0) = Ok (str "3/0") /\ r_from_str pf (str "3/0") = Ok None.
Proof. intros pf. split; vm_compute; reflexivity. Qed.
(** 3/0 + 1/2 = 7/2, 3/0 = 3, 1 / (3/0) = 1/3 but inv (3/0) = 0/3. *)
Example C129_case : r_add (mk false 3 false 0) (mk false 1 false 2) = Ok (mk false 7 false 2) /\
  r_eq (mk false 3 false 0) (mk false 3 false 1) = true /\ r_div (mk false 1 false 1) (mk false 3 false 0) = Ok (mk false 1 false 3) /\
  r_mul (mk true 3 false 0) (mk true 3 true 0) = Ok (mk false 9 false 1) /\ r_inv (mk false 3 false 0) = Some (mk false 0 false 3).
Proof. vm_compute. auto. Qed.
Print Assumptions C129_operators_partial.
Print Assumptions C129_values_partial.
Print Assumptions C129_others_refuted.
Print Assumptions C129_text_refuted.
