(** Theorems about [Float] (C53-C57, C60, C76).

    SpecFloat.v: [ok_float x] is the representation invariant; [flvalue x] is
    the rational value; [rounded m p v r] says that [r] is [v] rounded to [p]
    bits in mode [m]; [result_for m p v z] says that [z] is the Float for the
    exact value [v]: rounded with truthful accuracy, or infinite / zero when
    the exponent is out of range. *)
From Coq Require Import ZArith QArith Qabs Qround Lqa List Lia Bool.
From Verif Require Import Words Spec WordsFacts NatModel NatFacts NatFacts2 NatFacts5 NatConv NatConvFacts
  BigInt SpecInt BigIntFacts Ieee Rat SpecRat RatFacts3 Float SpecFloat FloatFacts FloatFacts3 FloatFacts4 FloatFacts5 FloatFacts6
  FloatFacts7 FloatFacts8.
Import ListNotations.
Open Scope Z_scope.

(** Floats for the cases: the integer [n] at precision 64, at precision [p]. *)
Definition fu (n : Z) : float := match fl_from_u64 n with Ok z => z | _ => fl_default end.
Definition fp (n p : Z) : float := match fl_set_precision (fu n) p with Ok z => z | _ => fl_default end.
Lemma fu_is n : 0 <= n < 2 ^ 64 -> is_integer_float n (fu n).
Proof. intros H. destruct (from_bits_exact false n H) as (z & E & I & _). unfold fu, fl_from_u64, set_u64. rewrite E. exact I. Qed.
Lemma fu_ok n : 0 < n < 2 ^ 64 -> ok_float (fu n) /\ flform (fu n) = Finite.
Proof. intros H. destruct (fu_is n ltac:(lia)) as (A & B & _). split; [auto|]. rewrite B. destruct (Z.eqb_spec n 0); [lia|auto]. Qed.
Lemma fp_ok n p : 0 < n < 2 ^ 64 -> 0 < p -> ok_float (fp n p).
Proof.
  intros H P. destruct (fu_ok n H) as (A & B). destruct (set_precision_spec (fu n) p A B P) as (z & E & R & _).
  unfold fp. rewrite E. exact R.
Qed.
Lemma neg_ok x : ok_float x -> ok_float (fl_neg x).
Proof.
  intros (A & B). split; [exact A|]. intros F. destruct (B F) as (P & N & R & (m & e & M1 & M2) & MB). split; [auto|]. split; [auto|].
  split; [auto|]. split; [|auto]. exists (- m), e. split; [cbn [fl_neg set_neg flprec]; lia|]. rewrite <- dy_opp, <- M2.
  assert (A1 := finite_val x F). assert (A2 := finite_val (fl_neg x) F). change (mag (fl_neg x)) with (mag x) in A2.
  rewrite A1, A2. cbn [fl_neg set_neg flneg]. destruct (flneg x); cbn [negb sq]; lra.
Qed.

(** ** C53
    Rounding to fewer bits, in any mode. *)
Theorem C53_round : forall x, wide_float x ->
  exists z, fl_round x 0 = Ok z /\ result_for (flmode x) (flprec x) (flvalue x) z.
Proof. exact fl_round_spec. Qed.
Theorem C53_set_precision : forall x p, ok_float x -> flform x = Finite -> 0 < p ->
  exists z, fl_set_precision x p = Ok z /\ result_for (flmode x) (Z.min (2 ^ 32 - 1) p) (flvalue x) z.
Proof. exact set_precision_spec. Qed.
(** Precision zero: the value is lost and the accuracy says in which direction;
    zeros, infinities and NaN are exact at every precision. *)
Theorem C53_set_precision_zero : forall x, ok_float x -> flform x = Finite ->
  exists z, fl_set_precision x 0 = Ok z /\ flform z = Zero /\ flprec z = 0 /\ flneg z = flneg x /\ flacc z = acc_of 0 (flvalue x).
Proof.
  intros x O F. destruct (ok_finite x O F) as (P & N). eexists. split; [unfold fl_set_precision; cbn [set_acc flform Z.eqb]; rewrite F; reflexivity|].
  split; [reflexivity|]. split; [reflexivity|]. split; [reflexivity|]. cbn [set_form set_acc set_prec flacc flneg].
  pose proof (finite_val x F) as V. pose proof (mag_pos x N) as MP. destruct (flneg x); cbn [sq make_accuracy] in *; symmetry.
  - apply acc_gt. lra.
  - apply acc_lt. lra.
Qed.
Theorem C53_set_precision_special : forall x p, 0 <= p -> flform x <> Finite ->
  exists z, fl_set_precision x p = Ok z /\ flform z = flform x /\ flneg z = flneg x /\ flacc z = Exact /\ flprec z = Z.min (2 ^ 32 - 1) p.
Proof.
  intros x p P F. unfold fl_set_precision. destruct (Z.eqb_spec p 0) as [->|NZ].
  - eexists. split; [reflexivity|]. destruct x as [mo ac fo ng pr e mt]; cbn [flform] in F. destruct fo; try congruence; repeat split.
  - destruct x as [mo ac fo ng pr e mt]; cbn [flform] in F. unfold set_acc, set_prec, fl_round, set_acc. flds.
    destruct (Z.min max_precision p <? pr); destruct fo; try congruence; (eexists; split; [reflexivity|]); repeat split.
Qed.
(** 27 = 11011b to three bits in every mode. *)
Example C53_case :
  let r m := match fl_set_precision (fl_set_mode (fu 27) m) 3 with Ok z => (flvalue z ?= 28, flvalue z ?= 24, flacc z)%Q | _ => (Lt, Lt, Exact) end in
  r ToNearestEven = (Eq, Gt, Above) /\ r ToNearestAway = (Eq, Gt, Above) /\ r ToZero = (Lt, Eq, Below) /\
  r AwayFromZero = (Eq, Gt, Above) /\ r ToNegativeInf = (Lt, Eq, Below) /\ r ToPositiveInf = (Eq, Gt, Above).
Proof. vm_compute. repeat split. Qed.
Example C53_tie : (flvalue (fp 26 3) == 24)%Q /\ (flvalue (fp 30 3) == 32)%Q /\ ok_float (fp 30 3).
Proof. split; [reflexivity|]. split; [reflexivity|]. apply fp_ok; lia. Qed.
Print Assumptions C53_round.
Print Assumptions C53_set_precision.

(** ** C54
    Full claim: the sum, difference and product of finite Floats are the exact
    result rounded to the precision and mode of the left operand; zeros and
    infinities follow IEEE 754.  True for the product. *)
Theorem C54_mul : forall x y, ok_float x -> ok_float y -> flform x = Finite -> flform y = Finite ->
  exists z, fl_mul x y = Ok z /\ result_for (flmode x) (flprec x) (flvalue x * flvalue y) z.
Proof. intros x y. apply mul_spec. Qed.
Theorem C54_mul_special : forall x y, flform x <> Nan -> flform y <> Nan -> ~ (flform x = Finite /\ flform y = Finite) ->
  exists z, fl_mul x y = Ok z /\
    ((flform x = Zero /\ flform y = Inf) \/ (flform x = Inf /\ flform y = Zero) -> flform z = Nan) /\
    ((flform x = Inf /\ flform y <> Zero) \/ (flform y = Inf /\ flform x <> Zero) -> flform z = Inf /\ flneg z = xorb (flneg x) (flneg y)) /\
    ((flform x = Zero /\ flform y <> Inf) \/ (flform y = Zero /\ flform x <> Inf) -> flform z = Zero /\ flneg z = xorb (flneg x) (flneg y)) /\
    flacc z = Exact.
Proof.
  intros x y NX NY NF. unfold fl_mul, fl_op2, fl_mul_inner, default_prec. destruct x as [m1 a1 f1 n1 p1 e1 t1], y as [m2 a2 f2 n2 p2 e2 t2].
  unfold set_prec, set_neg, set_acc, set_form. flds.
  destruct (p1 =? 0); destruct f1, f2; try congruence; try (exfalso; apply NF; split; reflexivity); flds;
    (eexists; split; [reflexivity|]); flds; destruct n1, n2; cbn;
    repeat split; intros; repeat match goal with H : _ \/ _ |- _ => destruct H as [[? ?]|[? ?]] end; congruence.
Qed.
Example C54_mul_case : let z := match fl_mul (fp 5 3) (fu 7) with Ok z => z | _ => fl_default end in
  (flvalue z == 32)%Q /\ flacc z = Below.
Proof. vm_compute. split; reflexivity. Qed.

(** For sums the code rounds with the settings of the operand with the larger
    magnitude when the signs differ.  With equal settings, or when the left
    operand is the larger, or with equal signs, the result is right. *)
Theorem C54_add_partial : forall x y, ok_float x -> ok_float y -> flform x = Finite -> flform y = Finite ->
  (flmode x = flmode y /\ flprec x = flprec y) \/ flneg x = flneg y \/ (Qabs (flvalue y) < Qabs (flvalue x))%Q ->
  exists z, fl_add x y = Ok z /\
    (~ (flvalue x + flvalue y == 0)%Q -> result_for (flmode x) (flprec x) (flvalue x + flvalue y) z) /\
    ((flvalue x + flvalue y == 0)%Q -> zero_result (flmode x) (flprec x) (toward_minus (flmode x)) z).
Proof.
  intros x y OX OY FX FY H. destruct (add_spec x y OX OY FX FY) as (z & E & A & B & C). exists z. split; [auto|].
  destruct (Qlt_le_dec (Qabs (flvalue y)) (Qabs (flvalue x))) as [L|L]; [|destruct (bool_dec (flneg x) (flneg y)) as [S|S]].
  - split; [intros _; apply A; auto|]. intros Z. exfalso. assert (V : (flvalue x == - flvalue y)%Q) by lra. rewrite V, Qabs_opp in L. lra.
  - split; [intros _; apply A; auto|]. intros Z. exfalso. rewrite (finite_val x FX), (finite_val y FY), S in Z.
    pose proof (mag_pos x (proj2 (ok_finite x OX FX))). pose proof (mag_pos y (proj2 (ok_finite y OY FY))). destruct (flneg y); cbn [sq] in Z; lra.
  - destruct H as [(M & P)|[H|H]]; [|congruence|lra]. rewrite M, P. split; [|auto]. intros NZ. apply B; [|auto]. intros [?|?]; [auto|lra].
Qed.
Theorem C54_sub_partial : forall x y, ok_float x -> ok_float y -> flform x = Finite -> flform y = Finite ->
  (flmode x = flmode y /\ flprec x = flprec y) \/ flneg x <> flneg y \/ (Qabs (flvalue y) < Qabs (flvalue x))%Q ->
  exists z, fl_sub x y = Ok z /\
    (~ (flvalue x - flvalue y == 0)%Q -> result_for (flmode x) (flprec x) (flvalue x - flvalue y) z) /\
    ((flvalue x - flvalue y == 0)%Q -> zero_result (flmode x) (flprec x) (toward_minus (flmode x)) z).
Proof.
  intros x y OX OY FX FY H. destruct (sub_spec x y OX OY FX FY) as (z & E & A & B & C). exists z. split; [auto|].
  destruct (Qlt_le_dec (Qabs (flvalue y)) (Qabs (flvalue x))) as [L|L]; [|destruct (bool_dec (flneg x) (flneg y)) as [S|S]].
  - split; [intros _; apply A; auto|]. intros Z. exfalso. assert (V : (flvalue x == flvalue y)%Q) by lra. rewrite V in L. lra.
  - destruct H as [(M & P)|[H|H]]; [|congruence|lra]. rewrite M, P. split; [|auto]. intros NZ. apply B; [|auto]. intros [?|?]; [auto|lra].
  - split; [intros _; apply A; auto|]. intros Z. exfalso. rewrite (finite_val x FX), (finite_val y FY) in Z.
    pose proof (mag_pos x (proj2 (ok_finite x OX FX))). pose proof (mag_pos y (proj2 (ok_finite y OY FY))).
    destruct (flneg x), (flneg y); try congruence; cbn [sq] in Z; lra.
Qed.
(** In the remaining case the settings of the right operand are used. *)
Theorem C54_add_other_settings_partial : forall x y, ok_float x -> ok_float y -> flform x = Finite -> flform y = Finite ->
  flneg x <> flneg y -> (Qabs (flvalue x) < Qabs (flvalue y))%Q ->
  exists z, fl_add x y = Ok z /\ result_for (flmode y) (flprec y) (flvalue x + flvalue y) z.
Proof.
  intros x y OX OY FX FY S L. destruct (add_spec x y OX OY FX FY) as (z & E & A & B & C). exists z. split; [auto|].
  apply B; [intros [?|?]; [auto|lra]|]. intros Z. assert (V : (flvalue x == - flvalue y)%Q) by lra. rewrite V, Qabs_opp in L. lra.
Qed.
(** The full claim fails: 1 (64 bits) + (-1024) (4 bits) gives -1024. *)
Theorem C54_add_refuted : exists x y z, ok_float x /\ ok_float y /\ flform x = Finite /\ flform y = Finite /\
  fl_add x y = Ok z /\ ~ rounded (flmode x) (flprec x) (flvalue x + flvalue y) (flvalue z).
Proof.
  exists (fu 1), (fl_neg (fp 1024 4)), (match fl_add (fu 1) (fl_neg (fp 1024 4)) with Ok z => z | _ => fl_default end).
  split; [apply fu_ok; lia|]. split; [apply neg_ok, fp_ok; lia|]. split; [reflexivity|]. split; [reflexivity|].
  split; [vm_compute; reflexivity|]. intros R. apply rounded_exact in R.
  - vm_compute in R. discriminate.
  - exists (- 1023), 0. split; [vm_compute; reflexivity|vm_compute; reflexivity].
Qed.
Theorem C54_sub_refuted : exists x y z, ok_float x /\ ok_float y /\ flform x = Finite /\ flform y = Finite /\
  fl_sub x y = Ok z /\ ~ rounded (flmode x) (flprec x) (flvalue x - flvalue y) (flvalue z).
Proof.
  exists (fu 1), (fp 1024 4), (match fl_sub (fu 1) (fp 1024 4) with Ok z => z | _ => fl_default end).
  split; [apply fu_ok; lia|]. split; [apply fp_ok; lia|]. split; [reflexivity|]. split; [reflexivity|].
  split; [vm_compute; reflexivity|]. intros R. apply rounded_exact in R.
  - vm_compute in R. discriminate.
  - exists (- 1023), 0. split; [vm_compute; reflexivity|vm_compute; reflexivity].
Qed.
Example C54_add_case : let z := match fl_add (fu 5) (fl_neg (fu 7)) with Ok z => z | _ => fl_default end in (flvalue z == -2)%Q.
Proof. vm_compute. reflexivity. Qed.

(** Zeros and infinities.  Sums: right except the sign of -0 + +0. *)
Theorem C54_add_special_partial : forall x y, ok_float x -> ok_float y -> 0 < flprec x -> flform x <> Nan -> flform y <> Nan ->
  ~ (flform x = Finite /\ flform y = Finite) ->
  exists z, fl_add x y = Ok z /\
    (flform x = Inf -> flform y = Inf -> flneg x <> flneg y -> flform z = Nan) /\
    (flform x = Inf -> (flform y = Inf -> flneg x = flneg y) -> flform z = Inf /\ flneg z = flneg x) /\
    (flform x <> Inf -> flform y = Inf -> flform z = Inf /\ flneg z = flneg y) /\
    (flform x = Finite -> flform y = Zero -> z = x) /\
    (flform x = Zero -> flform y = Finite -> result_for (flmode x) (flprec x) (flvalue y) z) /\
    (flform x = Zero -> flform y = Zero -> flform z = Zero /\ (flneg x = flneg y -> flneg z = flneg x)).
Proof.
  Ltac parts := repeat match goal with |- _ /\ _ => split | |- _ -> _ => intro end; try congruence; auto.
  intros x y OX OY PX NX NY NF. unfold fl_add, fl_op2, fl_add_inner. rewrite default_prec_ok by auto.
  destruct (flform x) eqn:FX, (flform y) eqn:FY; try congruence; try (exfalso; apply NF; auto; fail); cbn [is_fnan is_finite is_infinite is_zero orb andb].
  - exists x. split; [reflexivity|]. parts.
  - destruct (set_float_spec x y OY FY ltac:(lia)) as (z & E & R). exists z. destruct (Z.eqb_spec (flprec x) 0); [lia|].
    split; [exact E|]. parts.
  - unfold set_float. rewrite FY. cbn [is_finite]. destruct (Z.eqb_spec (flprec x) 0); [lia|].
    destruct (flprec x <? flprec y); (eexists; split; [reflexivity|]); cbn; parts.
  - exists x. split; [reflexivity|]. parts.
  - unfold set_float. rewrite FY. cbn [is_finite]. destruct (Z.eqb_spec (flprec x) 0); [lia|].
    destruct (flprec x <? flprec y); (eexists; split; [reflexivity|]); cbn; parts.
  - exists x. split; [reflexivity|]. parts.
  - exists x. split; [reflexivity|]. parts.
  - destruct (flneg x) eqn:SX, (flneg y) eqn:SY; cbn [eqb negb];
      (eexists; split; [reflexivity|]); cbn; parts.
    all: exfalso; match goal with H : _ -> _ |- _ => specialize (H eq_refl); discriminate end.
Qed.
Theorem C54_add_zeros_refuted : exists x y z, flform x = Zero /\ flform y = Zero /\ flmode x = ToNearestEven /\
  flneg x = true /\ flneg y = false /\ fl_add x y = Ok z /\ flneg z = true.
Proof. exists (fl_neg (fu 0)), (fu 0). eexists. repeat split. Qed.
(** Differences: the right operand is not negated when the left one is zero or
    when the right one is infinite. *)
Theorem C54_sub_from_zero_refuted : forall x y, ok_float y -> flform x = Zero -> flform y = Finite -> 0 < flprec x ->
  exists z, fl_sub x y = Ok z /\ result_for (flmode x) (flprec x) (flvalue y) z.
Proof.
  intros x y O FX FY P. unfold fl_sub, fl_op2, fl_sub_inner. rewrite default_prec_ok by auto. rewrite FX, FY. cbn [is_fnan is_finite is_infinite is_zero orb andb].
  destruct (set_float_spec x y O FY ltac:(lia)) as (z & E & R). exists z. destruct (Z.eqb_spec (flprec x) 0); [lia|]. auto.
Qed.
Theorem C54_sub_inf_refuted : forall x y, flform x <> Nan -> flform x <> Inf -> flform y = Inf -> 0 < flprec x ->
  exists z, fl_sub x y = Ok z /\ flform z = Inf /\ flneg z = flneg y.
Proof.
  intros x y NX NI FY P. unfold fl_sub, fl_op2, fl_sub_inner. rewrite default_prec_ok by auto. rewrite FY.
  destruct (flform x) eqn:FX; try congruence; cbn [is_fnan is_finite is_infinite is_zero orb andb];
    unfold set_float; rewrite FY; cbn [is_finite]; destruct (Z.eqb_spec (flprec x) 0); try lia;
    destruct (flprec x <? flprec y); (eexists; split; [reflexivity|]); split; reflexivity.
Qed.
Theorem C54_sub_special_partial : forall x y, 0 < flprec x ->
  (flform x = Inf -> flform y = Inf -> flneg x = flneg y -> exists z, fl_sub x y = Ok z /\ flform z = Nan) /\
  (flform x = Inf -> flform y <> Nan -> (flform y = Inf -> flneg x <> flneg y) -> fl_sub x y = Ok x) /\
  (flform x = Finite -> flform y = Zero -> fl_sub x y = Ok x) /\
  (flform x = Zero -> flform y = Zero -> exists z, fl_sub x y = Ok z /\ flform z = Zero /\ flneg z = flneg x && negb (flneg y)).
Proof.
  intros x y P. unfold fl_sub, fl_op2, fl_sub_inner. rewrite default_prec_ok by auto. split; [|split; [|split]].
  - intros -> -> ->. cbn [is_fnan is_finite is_infinite is_zero orb andb]. rewrite eqb_reflx. eexists. split; reflexivity.
  - intros -> N S. destruct (flform y) eqn:FY; try congruence; cbn [is_fnan is_finite is_infinite is_zero orb andb]; try reflexivity.
    specialize (S eq_refl). destruct (flneg x), (flneg y); try congruence; reflexivity.
  - intros -> ->. reflexivity.
  - intros -> ->. eexists. split; [reflexivity|]. split; reflexivity.
Qed.
(** NaN is contagious. *)
Theorem C54_nan : forall x y, flform x = Nan \/ flform y = Nan ->
  fl_add x y = Ok fl_nan /\ fl_sub x y = Ok fl_nan /\ fl_mul x y = Ok fl_nan /\ fl_div x y = Ok fl_nan.
Proof.
  intros x y H. unfold fl_add, fl_sub, fl_mul, fl_div, fl_op2.
  assert (is_fnan (flform x) || is_fnan (flform y) = true) as -> by (destruct H as [-> | ->]; [reflexivity|apply orb_true_r]).
  repeat split.
Qed.
Example C54_special_case : exists z, fl_sub (fu 0) (fu 5) = Ok z /\ (flvalue z == 5)%Q.
Proof. eexists. split; [vm_compute; reflexivity|]. vm_compute. reflexivity. Qed.
Print Assumptions C54_mul.
Print Assumptions C54_add_partial.
Print Assumptions C54_sub_partial.

(** ** C55
    Full claim: x / y is the exact quotient rounded.  It never is: the padding
    words are put at the wrong end, so that a finite result is at least 2 ^ 29
    times too small. *)
Lemma rounded_ge m p v r k : 0 < p -> (dy 1 k <= Qabs v)%Q -> rounded m p v r -> (dy 1 k <= Qabs r)%Q.
Proof.
  intros P. assert (POS : forall m v r, (0 <= v)%Q -> (dy 1 k <= v)%Q -> rounded m p v r -> (dy 1 k <= r)%Q).
  { clear m v r. intros m v r V L R. assert (RK : representable p (dy 1 k)) by (exists 1, k; split; [apply Z.pow_gt_1; lia|reflexivity]).
    assert (D0 : (0 < dy 1 k)%Q) by (apply dy_pos; lia).
    assert (BE : is_below p v r -> (dy 1 k <= r)%Q) by (intros (_ & _ & B); apply B; auto).
    assert (AB : is_above p v r -> (dy 1 k <= r)%Q) by (intros (_ & A & _); lra).
    assert (NE : is_nearest p v r -> (dy 1 k <= r)%Q).
    { intros (_ & N). specialize (N _ RK). rewrite (Qabs_neg (dy 1 k - v)) in N by lra.
      destruct (Qlt_le_dec r v); [|lra]. rewrite Qabs_neg in N by lra. lra. }
    destruct m; cbn [rounded] in R; [destruct R as [R _]|destruct R as [R _]|destruct R as [R _]|destruct R as [R _]| |]; auto. }
  intros L R. destruct (Qlt_le_dec v 0) as [N|N].
  - rewrite Qabs_neg in L by lra. assert (R' : rounded (mode_opp m) p (- v) (- r)).
    { apply rounded_opp. destruct m; exact R. }
    apply POS in R'; [|lra|lra]. rewrite <- Qabs_opp. pose proof (Qle_Qabs (- r)). lra.
  - rewrite Qabs_pos in L by lra. apply POS in R; [|lra|lra]. pose proof (Qle_Qabs r). lra.
Qed.
Theorem C55_div_refuted : forall x y z, ok_float x -> ok_float y -> flform x = Finite -> flform y = Finite ->
  fl_div x y = Ok z -> flform z = Finite ->
  (dy (2 ^ 29) 0 * Qabs (flvalue z) < Qabs (flvalue x / flvalue y))%Q /\
  ~ rounded (flmode x) (flprec x) (flvalue x / flvalue y) (flvalue z).
Proof.
  intros x y z OX OY FX FY E FZ. pose proof (div_far x y z OX OY FX FY E FZ) as D. split; [auto|]. intros R.
  destruct (ok_finite x OX FX) as (PX & NX). destruct (ok_finite y OY FY) as (PY & NY).
  destruct (mag_binade x NX) as (X1 & X2). destruct (mag_binade y NY) as (Y1 & Y2). pose proof (mag_pos y NY) as Y0.
  assert (V : (Qabs (flvalue x / flvalue y) == mag x / mag y)%Q).
  { unfold Qdiv. rewrite Qabs_Qmult, Qabs_Qinv, (finite_abs x FX NX), (finite_abs y FY NY). reflexivity. }
  set (k := flexp x - 1 - flexp y). assert (K1 : (dy 1 (flexp x - 1) == dy 1 k * dy 1 (flexp y))%Q).
  { rewrite dy_mul. replace (k + flexp y) with (flexp x - 1) by (unfold k; lia). reflexivity. }
  assert (K2 : (dy 1 (flexp x) == dy 4 k * dy 1 (flexp y - 1))%Q).
  { rewrite dy_mul. replace (k + (flexp y - 1)) with (flexp x - 2) by (unfold k; lia). rewrite (dy_to 1 (flexp x) (flexp x - 2)) by lia.
    replace (flexp x - (flexp x - 2)) with 2 by lia. reflexivity. }
  assert (D0 : (0 < dy 1 k)%Q) by (apply dy_pos; lia). assert (D4 : (dy 4 k == 4 * dy 1 k)%Q) by (unfold dy; change (inject_Z 4) with 4%Q; change (inject_Z 1) with 1%Q; ring).
  assert (L : (dy 1 k <= mag x / mag y)%Q).
  { apply Qle_shift_div_l; [auto|]. nra. }
  assert (U : (mag x / mag y < dy 4 k)%Q).
  { apply Qlt_shift_div_r; [auto|]. nra. }
  apply (rounded_ge _ _ _ _ k PX) in R; [|rewrite V; auto]. rewrite V in D.
  assert (B : (dy (2 ^ 29) 0 == 536870912)%Q) by (vm_compute; reflexivity). rewrite B in D. lra.
Qed.
(** 1 / 3 is 0 in a finite Float; 1 / 1 is 2 ^ -96. *)
Theorem C55_third_refuted : exists z, fl_div (fu 1) (fu 3) = Ok z /\ flform z = Finite /\ (flvalue z == 0)%Q.
Proof. eexists. split; [vm_compute; reflexivity|]. split; vm_compute; reflexivity. Qed.
Example C55_case : exists z, fl_div (fu 1) (fu 1) = Ok z /\ (flvalue z == dy 1 (-96))%Q.
Proof. eexists. split; [vm_compute; reflexivity|]. vm_compute. reflexivity. Qed.
(** The special cases follow IEEE 754, except that an infinity divided by
    anything is NaN. *)
Theorem C55_special_partial : forall x y, flform x <> Nan -> flform y <> Nan -> flform x <> Inf ->
  ~ (flform x = Finite /\ flform y = Finite) ->
  exists z, fl_div x y = Ok z /\ flacc z = Exact /\
    (flform x = Zero -> flform y = Zero -> flform z = Nan) /\
    (flform x = Zero -> flform y <> Zero -> flform z = Zero /\ flneg z = xorb (flneg x) (flneg y)) /\
    (flform y = Inf -> flform z = Zero /\ flneg z = xorb (flneg x) (flneg y)) /\
    (flform x = Finite -> flform y = Zero -> flform z = Inf /\ flneg z = xorb (flneg x) (flneg y)).
Proof.
  intros x y NX NY NI NF. unfold fl_div, fl_op2, fl_div_inner, default_prec. destruct x as [m1 a1 f1 n1 p1 e1 t1], y as [m2 a2 f2 n2 p2 e2 t2].
  unfold set_prec, set_neg, set_acc, set_form. flds.
  destruct (p1 =? 0); destruct f1, f2; try congruence; try (exfalso; apply NF; split; reflexivity); flds;
    (eexists; split; [reflexivity|]); flds; destruct n1, n2; cbn; repeat split; intros; congruence.
Qed.
Theorem C55_inf_refuted : forall x y, flform x = Inf -> flform y <> Nan -> exists z, fl_div x y = Ok z /\ flform z = Nan.
Proof.
  intros x y FX NY. unfold fl_div, fl_op2, fl_div_inner, default_prec. destruct x as [m1 a1 f1 n1 p1 e1 t1], y as [m2 a2 f2 n2 p2 e2 t2].
  unfold set_prec, set_neg, set_acc, set_form. flds. subst f1.
  destruct (p1 =? 0), f2; try congruence; flds; (eexists; split; [reflexivity|]); reflexivity.
Qed.
Print Assumptions C55_div_refuted.
Print Assumptions C55_special_partial.

(** ** C56 *)
Theorem C56_from_u64 : forall n, 0 <= n < 2 ^ 64 -> exists z, fl_from_u64 n = Ok z /\ is_integer_float n z.
Proof. intros n H. destruct (from_bits_exact false n H) as (z & E & I & _). exists z. auto. Qed.
(** i64::MIN panics where arithmetic overflow is checked. *)
Theorem C56_from_i64_partial : forall checks n, - 2 ^ 63 <= n < 2 ^ 63 -> checks = false \/ n <> - 2 ^ 63 ->
  exists z, fl_from_i64 checks n = Ok z /\ is_integer_float n z.
Proof.
  intros checks n H C. unfold fl_from_i64, set_i64.
  assert (I : exists a, i64 checks (Z.abs n) = Ok a /\ (if a <? 0 then a + 2 ^ 64 else a) = Z.abs n).
  { unfold i64. destruct (Z.eq_dec n (- 2 ^ 63)) as [->|N].
    - destruct C as [->|C]; [|congruence]. eexists. split; [vm_compute; reflexivity|reflexivity].
    - assert (R : - 2 ^ 63 <= Z.abs n < 2 ^ 63) by lia.
      destruct (Z.leb_spec (- 2 ^ 63) (Z.abs n)), (Z.ltb_spec (Z.abs n) (2 ^ 63)); try lia. cbn [andb].
      eexists. split; [reflexivity|]. destruct (Z.ltb_spec (Z.abs n) 0); lia. }
  destruct I as (a & E & EA). rewrite E. cbn [bind]. rewrite EA. destruct (from_bits_exact (n <? 0) (Z.abs n)) as (z & E' & J & _); [lia|].
  exists z. split; [auto|]. replace n with (sg (n <? 0) (Z.abs n)) at 1; [exact J|]. destruct (Z.ltb_spec n 0); cbn [sg]; lia.
Qed.
Theorem C56_from_i64_min_refuted : fl_from_i64 true (- 2 ^ 63) = Panic.
Proof. vm_compute. reflexivity. Qed.
Theorem C56_from_nat : forall x n, represents x n -> bits_len x <= max_exp -> exists z, fl_from_nat x = Ok z /\ is_integer_float n z.
Proof.
  intros x n [C V] B. pose proof (of_Z_nval x C) as E. assert (N0 : 0 <= nval x) by (apply nval_nonneg, C). subst n. rewrite <- E in B |- *.
  destruct (from_nat_exact (nval x) false) as (z & E1 & I & _); [auto|auto|]. exists z.
  rewrite of_Z_val by auto. split; auto.
Qed.
Theorem C56_from_bigint : forall x n, is_int x n -> bits_len (bnat x) <= max_exp -> exists z, fl_from_bigint x = Ok z /\ is_integer_float n z.
Proof.
  intros x n H B. apply is_int_iff in H. subst x. unfold fl_from_bigint, set_bigint. unfold zint in *. cbn [bnat bneg] in *.
  destruct (from_nat_exact (Z.abs n) (n <? 0)) as (z & E1 & I & _); [lia|auto|]. exists z. split; [auto|].
  replace n with (sg (n <? 0) (Z.abs n)) at 1; [exact I|]. destruct (Z.ltb_spec n 0); cbn [sg]; lia.
Qed.
(** Back to integers: truncated towards zero, saturating, with the accuracy of
    what is returned. *)
Theorem C56_truncate_to_u64 : forall x, ok_float x -> flform x = Finite ->
  exists t, is_trunc (flvalue x) t /\ let r := clamp 0 (2 ^ 64 - 1) t in truncate_to_u64 x = Some (r, acc_of (inject_Z r) (flvalue x)).
Proof. exact truncate_u64_spec. Qed.
Theorem C56_truncate_to_i64 : forall x, ok_float x -> flform x = Finite ->
  exists t, is_trunc (flvalue x) t /\ let r := clamp (- 2 ^ 63) (2 ^ 63 - 1) t in truncate_to_i64 x = Some (r, acc_of (inject_Z r) (flvalue x)).
Proof. exact truncate_i64_spec. Qed.
Theorem C56_truncate_special : forall x,
  (flform x = Zero -> truncate_to_u64 x = Some (0, Exact) /\ truncate_to_i64 x = Some (0, Exact)) /\
  (flform x = Nan -> truncate_to_u64 x = None /\ truncate_to_i64 x = None) /\
  (flform x = Inf -> flneg x = false -> truncate_to_u64 x = Some (2 ^ 64 - 1, Below) /\ truncate_to_i64 x = Some (2 ^ 63 - 1, Below)) /\
  (flform x = Inf -> flneg x = true -> truncate_to_u64 x = Some (0, Above) /\ truncate_to_i64 x = Some (- 2 ^ 63, Above)).
Proof.
  intros x. unfold truncate_to_u64, truncate_to_i64. split; [intros ->; split; reflexivity|]. split; [intros ->; split; reflexivity|].
  split; intros -> ->; split; reflexivity.
Qed.
Theorem C56_roundtrip : forall n, 0 <= n < 2 ^ 64 -> exists z, fl_from_u64 n = Ok z /\ truncate_to_u64 z = Some (n, Exact).
Proof.
  intros n H. destruct (C56_from_u64 n H) as (z & E & O & F & V & A). exists z. split; [auto|].
  destruct (Z.eqb_spec n 0) as [->|N]; [apply (C56_truncate_special z); auto|].
  destruct (truncate_u64_spec z O F) as (t & (T1 & T2) & E'). rewrite E'. assert (t = n) as ->.
  { rewrite T1; [|rewrite V; change 0%Q with (inject_Z 0); rewrite <- Zle_Qle; lia]. rewrite V. apply Qfloor_Z. }
  assert (clamp 0 (2 ^ 64 - 1) n = n) as -> by (unfold clamp; lia). rewrite (acc_eq (inject_Z n)); [auto|]. rewrite V. reflexivity.
Qed.
Example C56_case : truncate_to_i64 (fl_neg (fp 27 3)) = Some (-28, Exact) /\ truncate_to_u64 (fl_neg (fu 27)) = Some (0, Above) /\
  match fl_div (fu 1) (fu 1) with Ok z => truncate_to_u64 z = Some (0, Below) | _ => False end.
Proof. vm_compute. repeat split. Qed.
Print Assumptions C56_from_nat.
Print Assumptions C56_truncate_to_u64.
Print Assumptions C56_truncate_to_i64.

(** ** C57 *)
Theorem C57_compare : forall x y, ok_float x -> ok_float y ->
  fl_cmp x y = match flext x, flext y with Some a, Some b => Some (ext_compare a b) | _, _ => None end.
Proof. exact cmp_spec. Qed.
Theorem C57_equal : forall x y, ok_float x -> ok_float y ->
  (fl_eq x y = true <-> exists a b, flext x = Some a /\ flext y = Some b /\ ext_compare a b = Eq).
Proof.
  intros x y OX OY. pose proof (cmp_spec x y OX OY) as C. unfold fl_cmp in C. unfold fl_eq.
  destruct (fl_cmp_inner x y) as [c|].
  - destruct (flext x) as [a|], (flext y) as [b|]; try discriminate. injection C as C. split.
    + intros E. apply Z.eqb_eq in E. subst c. cbn in C. exists a, b. auto.
    + intros (a' & b' & Ea & Eb & E). injection Ea as <-. injection Eb as <-. rewrite E in C.
      destruct (Z.ltb_spec 0 c); [discriminate|]. destruct (Z.ltb_spec c 0); [discriminate|]. apply Z.eqb_eq. lia.
  - split; [discriminate|]. intros (a & b & A & B & _). rewrite A, B in C. discriminate.
Qed.
Example C57_case : fl_cmp (fl_neg (fu 0)) (fu 0) = Some Eq /\ fl_cmp (fp 5 3) (fu (5 + 2 ^ 40)) = Some Lt /\
  fl_cmp (fl_get_inf true) (fl_neg (fu 9)) = Some Lt /\ fl_cmp fl_nan fl_nan = None /\ ok_float (fp 5 3).
Proof. split; [reflexivity|]. split; [vm_compute; reflexivity|]. split; [reflexivity|]. split; [reflexivity|]. apply fp_ok; lia. Qed.
Print Assumptions C57_compare.
Print Assumptions C57_equal.

(** ** C60 *)
Theorem C60_min_precision : forall x p, ok_float x -> flform x = Finite -> 0 <= p ->
  (representable p (flvalue x) <-> required_min_precision x <= p).
Proof. intros x p O F P. apply min_prec_least; auto. apply (ok_finite x O F). Qed.
Theorem C60_is_integer : forall x, ok_float x -> flform x = Finite ->
  exists b, fl_is_integer x = Some b /\ (b = true <-> exists n, (flvalue x == inject_Z n)%Q).
Proof. exact is_integer_spec. Qed.
Theorem C60_is_integer_special : forall x,
  fl_is_integer x = match flform x with Nan => None | Zero => Some true | Inf => Some false | Finite => fl_is_integer x end.
Proof. intros x. unfold fl_is_integer. destruct (flform x); reflexivity. Qed.
Theorem C60_mant_exp : forall x, ok_float x -> flform x = Finite ->
  let (m, e) := mant_exp x in
  (flvalue x == flvalue m * dy 1 e)%Q /\ (1 # 2 <= Qabs (flvalue m) < 1)%Q /\ flprec m = flprec x /\ flmode m = flmode x.
Proof.
  intros x O F. destruct (ok_finite x O F) as (P & N). unfold mant_exp. rewrite F. cbn [is_finite]. split; [|split; [|split; reflexivity]].
  - rewrite finite_val by auto. rewrite (finite_val (set_exp x 0)) by auto. cbn [set_exp flneg].
    assert (M : (mag x == mag (set_exp x 0) * dy 1 (flexp x))%Q).
    { unfold mag. cbn [set_exp flexp flmant]. rewrite dy_mul. replace (0 - mbits (flmant x) + flexp x) with (flexp x - mbits (flmant x)) by lia.
      rewrite Z.mul_1_r. reflexivity. }
    destruct (flneg x); cbn [sq]; rewrite M; ring.
  - rewrite (finite_abs (set_exp x 0)) by auto. destruct (mag_binade (set_exp x 0) N) as (A & B). exact (conj A B).
Qed.
Theorem C60_set_mant_exp : forall x e, ok_float x -> flform x = Finite ->
  exists z, set_mant_exp x e = Ok z /\ result_for (flmode x) (flprec x) (flvalue x * dy 1 e) z.
Proof. exact set_mant_exp_spec. Qed.
Theorem C60_roundtrip : forall x, ok_float x -> flform x = Finite ->
  let (m, e) := mant_exp x in exists z, set_mant_exp m e = Ok z /\ (flvalue z == flvalue x)%Q /\ flacc z = Exact.
Proof.
  intros x O F. pose proof (C60_mant_exp x O F) as M. unfold mant_exp in *. rewrite F in *. cbn [is_finite] in *.
  destruct M as (M & _). pose proof O as (O1 & O2). destruct (O2 F) as (P & N & E & R & MB).
  assert (OM : ok_float (set_exp x 0)).
  { split; [auto|]. intros _. split; [auto|]. split; [auto|]. split; [cbn; unfold min_exp, max_exp; lia|]. split; [|auto].
    cbn [set_exp flprec]. apply min_prec_least; auto. change (required_min_precision (set_exp x 0)) with (required_min_precision x).
    apply min_prec_least; auto. }
  unfold min_exp, max_exp in E.
  destruct (set_mant_exp_spec (set_exp x 0) (flexp x) OM F) as (z & Z1 & Z2).
  exists z. split; [auto|]. apply (result_wd _ _ _ (flvalue x)) in Z2; [|symmetry; exact M].
  assert (V : (dy 1 (min_exp - 1) <= Qabs (flvalue x))%Q /\ (Qabs (flvalue x) < dy 1 (flexp x))%Q).
  { rewrite (finite_abs x F N). destruct (mag_binade x N) as (B1 & B2). split; [|auto]. eapply Qle_trans; [|exact B1].
    rewrite (dy_to 1 (flexp x - 1) (min_exp - 1)) by (unfold min_exp; lia). apply dy_le.
    pose proof (pow2_pos (flexp x - 1 - (min_exp - 1)) ltac:(unfold min_exp; lia)). lia. }
  destruct V as (V1 & V2). destruct (result_exact _ _ _ _ Z2 R V1) as (_ & ? & ?); [|auto].
  eapply Qlt_le_trans; [exact V2|]. rewrite (dy_to 1 max_exp (flexp x)) by (unfold max_exp; lia). apply dy_le.
  pose proof (pow2_pos (max_exp - flexp x) ltac:(unfold max_exp; lia)). lia.
Qed.
(** A receiver that is a clone of the argument shares its mantissa, which
    [set_mant_exp] empties before it copies it. *)
Theorem C60_set_mant_exp_shared_refuted : exists x z, ok_float x /\ flform x = Finite /\ set_mant_exp_shared x 3 = Ok z /\
  flform z = Finite /\ flmant z = [].
Proof. exists (fu 5). eexists. split; [apply fu_ok; lia|]. split; [reflexivity|]. split; [vm_compute; reflexivity|]. split; reflexivity. Qed.
Example C60_case : required_min_precision (fu 40) = 3 /\ fl_is_integer (fu 40) = Some true /\ snd (mant_exp (fu 40)) = 6 /\
  (match set_mant_exp (fu 40) (-4) with Ok z => fl_is_integer z = Some false /\ (flvalue z == 5 # 2)%Q | _ => False end).
Proof. vm_compute. repeat split. Qed.
Print Assumptions C60_min_precision.
Print Assumptions C60_is_integer.
Print Assumptions C60_mant_exp.
Print Assumptions C60_set_mant_exp.
Print Assumptions C60_roundtrip.

(** ** C76
    From<f64> and From<f32> are exact. *)
Theorem C76_from_f64 : forall b, f64_finite b -> 0 < fmag 52 11 b ->
  exists z, fl_from_f64 b = Ok z /\ ok_float z /\ flform z = Finite /\ flprec z = 53 /\ (flvalue z == f64_value b)%Q /\ flacc z = Exact.
Proof. exact from_f64_exact. Qed.
Theorem C76_from_f32 : forall b, f32_finite b -> 0 < fmag 23 8 b ->
  exists z, fl_from_f32 b = Ok z /\ ok_float z /\ flform z = Finite /\ flprec z = 53 /\ (flvalue z == f32_value b)%Q /\ flacc z = Exact.
Proof.
  intros b H N. destruct (f64_of_f32_value b H) as (A & B & C). destruct (f64_of_f32_nonzero b H N) as (D & E).
  destruct (from_f64_exact _ D E) as (z & Z1 & Z2 & Z3 & Z4 & Z5 & Z6). exists z. rewrite <- B. auto 10.
Qed.
Theorem C76_special : forall neg,
  (exists z, fl_from_f64 (fsigned 52 11 neg 0) = Ok z /\ flform z = Zero /\ flneg z = neg /\ flacc z = Exact) /\
  (exists z, fl_from_f64 (fsigned 52 11 neg (finf 52 11)) = Ok z /\ flform z = Inf /\ flneg z = neg /\ flacc z = Exact) /\
  (exists z, fl_from_f32 (fsigned 23 8 neg 0) = Ok z /\ flform z = Zero /\ flneg z = neg /\ flacc z = Exact) /\
  (exists z, fl_from_f32 (fsigned 23 8 neg (finf 23 8)) = Ok z /\ flform z = Inf /\ flneg z = neg /\ flacc z = Exact).
Proof. intros [|]; (split; [|split; [|split]]); eexists; repeat split. Qed.
(** All patterns that stand for NaN, with any payload and sign. *)
Theorem C76_nan : forall b,
  (finf 52 11 < fmag 52 11 b -> exists z, fl_from_f64 b = Ok z /\ flform z = Nan) /\
  (finf 23 8 < fmag 23 8 b -> exists z, fl_from_f32 b = Ok z /\ flform z = Nan).
Proof.
  intros b. split; intros H.
  - unfold fl_from_f64, set_f64, f_is_nan. rewrite (proj2 (Z.ltb_lt _ _) H). eexists. split; reflexivity.
  - unfold fl_from_f32, f64_of_f32, fcast, f_is_nan. rewrite (proj2 (Z.ltb_lt _ _) H). eexists. split; reflexivity.
Qed.
Example C76_case : let b := 4609434218613702656 in (* 1.5 *)
  match fl_from_f64 b with Ok z => (flvalue z == 3 # 2)%Q /\ flacc z = Exact | _ => False end.
Proof. vm_compute. split; reflexivity. Qed.
Print Assumptions C76_from_f64.
Print Assumptions C76_from_f32.
Print Assumptions C76_special.
Print Assumptions C76_nan.

Print Assumptions C53_set_precision_zero.
Print Assumptions C53_set_precision_special.
Print Assumptions C54_mul_special.
Print Assumptions C54_add_other_settings_partial.
Print Assumptions C54_add_refuted.
Print Assumptions C54_sub_refuted.
Print Assumptions C54_add_special_partial.
Print Assumptions C54_add_zeros_refuted.
Print Assumptions C54_sub_from_zero_refuted.
Print Assumptions C54_sub_inf_refuted.
Print Assumptions C54_sub_special_partial.
(** [x op= y]: NaN as for [x op y], otherwise the value of [x op y]. *)
Theorem C54_assign : forall x y,
  (flform x = Nan \/ flform y = Nan -> forall f, In f [fl_add_inner; fl_sub_inner; fl_mul_inner; fl_div_inner] ->
     exists z, fl_op2_assign f x y = Ok z /\ flform z = Nan) /\
  (flform x <> Nan -> flform y <> Nan -> fl_op2_assign fl_add_inner x y = fl_add x y /\ fl_op2_assign fl_sub_inner x y = fl_sub x y /\
     fl_op2_assign fl_mul_inner x y = fl_mul x y /\ fl_op2_assign fl_div_inner x y = fl_div x y).
Proof.
  intros x y. split.
  - intros H f _. exists (set_form x Nan). split; [|reflexivity]. unfold fl_op2_assign. destruct H as [-> | ->]; [reflexivity|]. rewrite orb_comm. reflexivity.
  - intros Hx Hy. unfold fl_add, fl_sub, fl_mul, fl_div, fl_op2, fl_op2_assign.
    replace (is_fnan (flform x) || is_fnan (flform y)) with false by (destruct (flform x), (flform y); try reflexivity; congruence). repeat split.
Qed.
Print Assumptions C54_nan.
Print Assumptions C54_assign.
Print Assumptions C55_third_refuted.
Print Assumptions C55_inf_refuted.
Print Assumptions C56_from_u64.
Print Assumptions C56_from_i64_partial.
Print Assumptions C56_from_i64_min_refuted.
Print Assumptions C56_from_bigint.
Print Assumptions C56_truncate_special.
Print Assumptions C56_roundtrip.
Print Assumptions C60_is_integer_special.
Print Assumptions C60_set_mant_exp_shared_refuted.
Print Assumptions C76_special.
