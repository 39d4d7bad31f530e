(** Lemmas about [Rat]: normal form, arithmetic, comparison. *)
From Coq Require Import ZArith QArith List Lia Bool.
From Verif Require Import Words Spec WordsFacts NatModel NatFacts NatFacts2 NatFacts3 NatFacts4 NatFacts5
  NatConv NatPow NatPowFacts Karatsuba KaraFacts2 BigInt SpecInt BigIntFacts BigIntFacts3 BigIntFacts4 Ieee Rat SpecRat.
Import ListNotations.
Open Scope Z_scope.

(** A Rat from the signs and magnitudes of its two parts. *)
Definition mk (s : bool) (m : Z) (t : bool) (n : Z) : rat := RT (BI (of_Z m) s) (BI (of_Z n) t).

Lemma ok_mk s m t n : 0 <= m -> 0 < n -> ok_rat (mk s m t n).
Proof.
  intros. unfold ok_rat, mk. cbn [rnum rden bnat]. rewrite of_Z_val by lia.
  split; [apply of_Z_canon; lia|]. split; [apply of_Z_canon; lia|auto].
Qed.
Lemma ok_rat_mk x : ok_rat x -> exists s m t n, 0 <= m /\ 0 < n /\ x = mk s m t n.
Proof.
  destruct x as [[a s] [b t]]. intros (Ca & Cb & P). cbn [rnum rden bnat] in *.
  exists s, (nval a), t, (nval b). split; [apply canon_nonneg; auto|]. split; [auto|].
  unfold mk. rewrite !of_Z_nval by auto. reflexivity.
Qed.
Lemma rvalue_mk s m t n : 0 <= m -> 0 < n -> rvalue (mk s m t n) = (sgv s m # Z.to_pos n).
Proof.
  intros. unfold rvalue, mk, bvalue. cbn [rnum rden bnat bneg]. rewrite !of_Z_val by lia. destruct s; reflexivity.
Qed.
Lemma mk_nan s m t n : 0 <= m -> 0 <= n -> r_is_nan (mk s m t n) = false.
Proof. intros. unfold r_is_nan, mk, b_is_nan. cbn [rnum rden bnat]. rewrite !is_nan_of_Z by lia. reflexivity. Qed.

(** Equality of two fractions. *)
Lemma q_eq a b c d : 0 < b -> 0 < d -> ((a # Z.to_pos b) == (c # Z.to_pos d))%Q <-> a * d = c * b.
Proof. intros. unfold Qeq. cbn [Qnum Qden]. rewrite !Z2Pos.id by lia. tauto. Qed.

(* ------------------------------------------------------------------ *)
(** * norm *)

Lemma norm_mk s m t n : 0 <= m -> 0 < n ->
  r_norm (mk s m t n) = Ok (if m =? 0 then mk false 0 t n
                            else mk s (m / Z.gcd m n) false (n / Z.gcd m n)).
Proof.
  intros Hm Hn. unfold r_norm, mk. cbn [rnum rden bnat bneg]. unfold b_is_nan. cbn [bnat].
  rewrite !is_nan_of_Z, !of_Z_eq_u32 by lia. cbn [orb].
  replace (n =? 0) with false by (symmetry; apply Z.eqb_neq; lia). rewrite orb_false_r.
  destruct (Z.eqb_spec m 0) as [->|N]; [reflexivity|].
  cbn [bnat bneg]. rewrite (zint_intro m false m), (zint_intro n false n) by (try lia; auto).
  destruct (b_gcd_spec m n) as (x & y & E & _). rewrite E. cbn [bind]. clear E.
  assert (G : 0 < Z.gcd m n) by (pose proof (Z.gcd_nonneg m n); assert (Z.gcd m n <> 0) by (intros E; apply Z.gcd_eq_0_l in E; lia); lia).
  rewrite zint_nat, (Z.abs_eq (Z.gcd m n)), of_Z_eq_u32 by lia.
  destruct (Z.eqb_spec (Z.gcd m n) 1) as [E|E]; cbn [negb].
  - rewrite E, !Z.div_1_r. rewrite <- (zint_intro n false n) by (try lia; auto). reflexivity.
  - rewrite !div_of_Z by lia. reflexivity.
Qed.

Lemma gcd_pos m n : 0 < n -> 0 < Z.gcd m n.
Proof.
  intros. pose proof (Z.gcd_nonneg m n). assert (Z.gcd m n <> 0) by (intros E; apply Z.gcd_eq_0_r in E; lia). lia.
Qed.
Lemma gcd_div_ex m n : 0 < n -> exists a b, m = a * Z.gcd m n /\ n = b * Z.gcd m n /\
  m / Z.gcd m n = a /\ n / Z.gcd m n = b /\ Z.gcd a b = 1.
Proof.
  intros H. pose proof (gcd_pos m n H) as G.
  destruct (Z.gcd_divide_l m n) as [a Ha]. destruct (Z.gcd_divide_r m n) as [b Hb].
  assert (Da : m / Z.gcd m n = a) by (rewrite Ha at 1; apply Z.div_mul; lia).
  assert (Db : n / Z.gcd m n = b) by (rewrite Hb at 1; apply Z.div_mul; lia).
  exists a, b. repeat (split; [assumption|]). rewrite <- Da, <- Db. apply Z.gcd_div_gcd; [lia|reflexivity].
Qed.

Lemma lowest_mk s m n : 0 <= m -> 0 < n -> Z.gcd m n = 1 -> (m = 0 -> s = false) -> lowest (mk s m false n).
Proof.
  intros Hm Hn G Z0. unfold lowest, mk, bcanon, bvalue. cbn [rnum rden bnat bneg]. rewrite !of_Z_val by lia.
  split; [split; [apply of_Z_canon; lia|auto]|]. split; [split; [apply of_Z_canon; lia|auto]|].
  split; [auto|]. destruct s; [rewrite Z.gcd_opp_l|]; auto.
Qed.
Lemma lowest_inv x : lowest x -> exists s m n, 0 <= m /\ 0 < n /\ Z.gcd m n = 1 /\ (m = 0 -> s = false) /\ x = mk s m false n.
Proof.
  destruct x as [[a s] [b t]]. intros ([Ca Za] & [Cb Zb] & P & G). unfold bvalue in *. cbn [rnum rden bnat bneg] in *.
  pose proof (canon_nonneg a Ca). pose proof (canon_nonneg b Cb).
  assert (t = false) by (destruct t; [lia|reflexivity]). subst t.
  exists s, (nval a), (nval b). split; [auto|]. split; [auto|]. split; [destruct s; [rewrite Z.gcd_opp_l in G|]; auto|].
  split; [auto|]. unfold mk. rewrite !of_Z_nval by auto. reflexivity.
Qed.

(** [norm] keeps the value, yields lowest terms unless the value is zero. *)
Lemma norm_spec x : ok_rat x -> exists z, r_norm x = Ok z /\ denotes z (rvalue x) /\ unsigned_zero z /\
  (~ (rvalue x == 0)%Q -> lowest z).
Proof.
  intros H. destruct (ok_rat_mk x H) as (s & m & t & n & Hm & Hn & ->). rewrite norm_mk by auto.
  eexists. split; [reflexivity|]. rewrite rvalue_mk by auto.
  destruct (Z.eqb_spec m 0) as [->|N].
  - split; [split; [apply ok_mk; lia|rewrite rvalue_mk by lia]|].
    + apply q_eq; auto. destruct s; reflexivity.
    + split; [intros _; reflexivity|]. intros C. exfalso. apply C. destruct s; unfold Qeq; reflexivity.
  - destruct (gcd_div_ex m n Hn) as (a & b & Ea & Eb & -> & -> & G). pose proof (gcd_pos m n Hn) as P.
    assert (0 < a) by nia. assert (0 < b) by nia.
    split; [split; [apply ok_mk; lia|rewrite rvalue_mk by lia]|].
    + apply q_eq; auto. set (g := Z.gcd m n) in *. rewrite Eb, Ea. unfold sgv. destruct s; ring.
    + split; [unfold unsigned_zero, mk; cbn [rnum bnat]; rewrite of_Z_val by lia; lia|].
      intros _. apply lowest_mk; try lia.
Qed.

(* ------------------------------------------------------------------ *)
(** * Arithmetic *)

Lemma scale_mk s m n : 0 <= m -> 0 < n -> scale_denom (BI (of_Z m) s) (of_Z n) = BI (of_Z (m * n)) s.
Proof.
  intros. unfold scale_denom. rewrite of_Z_eq_u32 by lia. destruct (Z.eqb_spec n 0); [lia|]. cbn [bnat bneg].
  rewrite nat_mul_of_Z by lia. reflexivity.
Qed.
Lemma mul_denom_mk n n' : 0 < n -> 0 < n' -> mul_denom (of_Z n) (of_Z n') = of_Z (n * n').
Proof.
  intros. unfold mul_denom. rewrite !of_Z_eq_u32 by lia.
  destruct (Z.eqb_spec n 0); [lia|]. destruct (Z.eqb_spec n' 0); [lia|]. cbn [andb]. apply nat_mul_of_Z; lia.
Qed.
Lemma zint_mk k n : 0 < n -> RT (zint k) (BI (of_Z n) false) = mk (k <? 0) (Z.abs k) false n.
Proof. reflexivity. Qed.

Lemma denotes_trans z v w : denotes z v -> (v == w)%Q -> denotes z w.
Proof. intros [A B] E. split; [auto|]. rewrite B. auto. Qed.

(** The tail of every operation. *)
Lemma norm_to s m t n w : 0 <= m -> 0 < n -> (sgv s m # Z.to_pos n == w)%Q ->
  exists z, r_norm (mk s m t n) = Ok z /\ denotes z w /\ unsigned_zero z /\ (~ (w == 0)%Q -> lowest z).
Proof.
  intros Hm Hn E. destruct (norm_spec (mk s m t n) (ok_mk _ _ _ _ Hm Hn)) as (z & A & B & C & D).
  rewrite rvalue_mk in * by auto. exists z. split; [auto|]. split; [eapply denotes_trans; eauto|].
  split; [auto|]. intros N. apply D. rewrite E. auto.
Qed.

Ltac qden := unfold Qeq, Qminus, Qopp, Qplus, Qmult; cbn [Qnum Qden];
  rewrite ?Pos2Z.inj_mul, ?Z2Pos.id by nia.

Lemma r_add_inner_spec x y : ok_rat x -> ok_rat y -> exists z, r_add_inner x y = Ok z /\
  denotes z (rvalue x + rvalue y) /\ unsigned_zero z /\ (~ (rvalue x + rvalue y == 0)%Q -> lowest z).
Proof.
  intros Hx Hy. destruct (ok_rat_mk x Hx) as (s & m & t & n & Hm & Hn & ->).
  destruct (ok_rat_mk y Hy) as (s' & m' & t' & n' & Hm' & Hn' & ->).
  rewrite !rvalue_mk by auto. unfold r_add_inner, mk at 1 2 3 4 5 6. cbn [rnum rden bnat bneg].
  rewrite !scale_mk, gen_add, mul_denom_mk, zint_mk by nia.
  apply norm_to; [lia|nia|]. rewrite sgv_zint. qden. unfold sgv. destruct s, s'; ring.
Qed.
Lemma r_sub_inner_spec x y : ok_rat x -> ok_rat y -> exists z, r_sub_inner x y = Ok z /\
  denotes z (rvalue x - rvalue y) /\ unsigned_zero z /\ (~ (rvalue x - rvalue y == 0)%Q -> lowest z).
Proof.
  intros Hx Hy. destruct (ok_rat_mk x Hx) as (s & m & t & n & Hm & Hn & ->).
  destruct (ok_rat_mk y Hy) as (s' & m' & t' & n' & Hm' & Hn' & ->).
  rewrite !rvalue_mk by auto. unfold r_sub_inner, mk at 1 2 3 4 5 6. cbn [rnum rden bnat bneg].
  rewrite !scale_mk, gen_sub, mul_denom_mk, zint_mk by nia.
  apply norm_to; [lia|nia|]. rewrite sgv_zint. qden. unfold sgv. destruct s, s'; ring.
Qed.

Lemma r_cmp_mk s m t n s' m' t' n' : 0 <= m -> 0 < n -> 0 <= m' -> 0 < n' ->
  r_cmp (mk s m t n) (mk s' m' t' n') =
  Some (match s, s' with
        | false, false => m * n' ?= m' * n
        | true, true => m' * n ?= m * n'
        | true, false => Lt
        | false, true => Gt
        end).
Proof.
  intros. unfold r_cmp. rewrite !mk_nan by lia. cbn [orb]. unfold mk. cbn [rnum rden bnat].
  rewrite !scale_mk by lia. f_equal. unfold b_eq, b_lt, b_cmp, b_is_nan. cbn [bnat bneg].
  assert (0 <= m * n') by nia. assert (0 <= m' * n) by nia.
  rewrite !is_nan_of_Z, nat_eq_spec, partial_cmp_spec, !of_Z_val by (try apply of_Z_canon; lia). cbn [orb].
  assert (E : (m * n' =? m' * n) = match m * n' ?= m' * n with Eq => true | _ => false end).
  { destruct (Z.compare_spec (m * n') (m' * n)); [apply Z.eqb_eq|apply Z.eqb_neq|apply Z.eqb_neq]; lia. }
  rewrite E, (Z.compare_antisym (m * n') (m' * n)).
  destruct s, s'; cbn [eqb andb]; [destruct (m * n' ?= m' * n); reflexivity|reflexivity|reflexivity|destruct (m * n' ?= m' * n); reflexivity].
Qed.

Lemma r_mul_inner_spec x y : ok_rat x -> ok_rat y -> exists z, r_mul_inner x y = Ok z /\
  denotes z (rvalue x * rvalue y) /\ unsigned_zero z /\ (~ (rvalue x * rvalue y == 0)%Q -> lowest z).
Proof.
  intros Hx Hy. destruct (ok_rat_mk x Hx) as (s & m & t & n & Hm & Hn & ->).
  destruct (ok_rat_mk y Hy) as (s' & m' & t' & n' & Hm' & Hn' & ->).
  rewrite !rvalue_mk by auto. unfold r_mul_inner, r_eq. rewrite r_cmp_mk by auto.
  assert (SQ : s = s' -> m * n' = m' * n -> exists z,
    (do a <- b_sqr (rnum (mk s m t n));
     do b <- (if nat_eq_u32 (bnat (rden (mk s m t n))) 0 then Ok (b_from_u32 1) else b_sqr (rden (mk s m t n)));
     r_norm (RT a b)) = Ok z /\ denotes z ((sgv s m # Z.to_pos n) * (sgv s' m' # Z.to_pos n')) /\ unsigned_zero z /\
     (~ ((sgv s m # Z.to_pos n) * (sgv s' m' # Z.to_pos n') == 0)%Q -> lowest z)).
  { intros <- E. unfold mk, b_sqr. cbn [rnum rden bnat bneg]. rewrite of_Z_eq_u32 by lia.
    destruct (Z.eqb_spec n 0); [lia|]. rewrite !nat_sqr_of_Z, !of_Z_val by (try apply of_Z_canon; lia). cbn [bind].
    apply (norm_to false (m * m) false (n * n)); [nia|nia|]. qden. unfold sgv.
    destruct s; [transitivity (- m * n' * (- m) * n); [ring|]; rewrite Z.mul_opp_l, E; ring|
                 transitivity (m * n' * m * n); [ring|]; rewrite E; ring]. }
  assert (MU : exists z, r_norm (RT (b_mul (rnum (mk s m t n)) (rnum (mk s' m' t' n')))
       (BI (mul_denom (bnat (rden (mk s m t n))) (bnat (rden (mk s' m' t' n')))) false)) = Ok z /\
     denotes z ((sgv s m # Z.to_pos n) * (sgv s' m' # Z.to_pos n')) /\ unsigned_zero z /\
     (~ ((sgv s m # Z.to_pos n) * (sgv s' m' # Z.to_pos n') == 0)%Q -> lowest z)).
  { unfold mk. cbn [rnum rden bnat bneg]. rewrite gen_mul, mul_denom_mk, zint_mk by nia.
    apply norm_to; [lia|nia|]. rewrite sgv_zint. qden. reflexivity. }
  destruct s, s'; [|exact MU|exact MU|].
  - destruct (Z.compare_spec (m' * n) (m * n')) as [E|E|E]; [apply SQ; auto|exact MU|exact MU].
  - destruct (Z.compare_spec (m * n') (m' * n)) as [E|E|E]; [apply SQ; auto|exact MU|exact MU].
Qed.

Lemma r_div_inner_spec x y : ok_rat x -> ok_rat y -> ~ (rvalue y == 0)%Q -> exists z, r_div_inner x y = Ok z /\
  denotes z (rvalue x / rvalue y) /\ unsigned_zero z /\ (~ (rvalue x / rvalue y == 0)%Q -> lowest z).
Proof.
  intros Hx Hy. destruct (ok_rat_mk x Hx) as (s & m & t & n & Hm & Hn & ->).
  destruct (ok_rat_mk y Hy) as (s' & m' & t' & n' & Hm' & Hn' & ->).
  rewrite !rvalue_mk by auto. intros N.
  assert (M0 : m' <> 0) by (intros ->; apply N; destruct s'; reflexivity).
  unfold r_div_inner, mk. cbn [rnum rden bnat bneg]. rewrite of_Z_eq_u32 by lia.
  destruct (Z.eqb_spec m' 0); [lia|]. rewrite !scale_mk by lia. cbn [bnat bneg].
  apply norm_to; [nia|nia|]. unfold Qdiv, Qinv. cbn [Qnum Qden].
  destruct m' as [|p|p]; [lia| |lia].
  destruct s'; cbn [sgv Z.opp]; qden; unfold sgv; destruct s; cbn [eqb negb]; rewrite ?Pos2Z.opp_neg; nia.
Qed.
Lemma r_div_zero x y : ok_rat x -> ok_rat y -> (rvalue y == 0)%Q -> r_div_inner x y = Panic.
Proof.
  intros Hx Hy. destruct (ok_rat_mk y Hy) as (s' & m' & t' & n' & Hm' & Hn' & ->).
  rewrite rvalue_mk by auto. intros E. assert (m' = 0).
  { unfold Qeq in E. cbn [Qnum Qden] in E. unfold sgv in E. destruct s'; lia. }
  subst m'. reflexivity.
Qed.
