(** Addition, subtraction and multiplication of Floats. *)
From Coq Require Import ZArith QArith Qabs Qpower Lqa Lia Bool List.
From Verif Require Import Words Spec WordsFacts NatModel NatFacts NatFacts2 NatFacts3 NatFacts4 NatFacts5 NatConvFacts
  VecPrims VecFacts NatConv BigInt BigIntFacts Ieee Rat Float SpecFloat FloatFacts FloatFacts2 FloatFacts3 FloatFacts4.
Import ListNotations.
Open Scope Z_scope.

Lemma canon_self a : canon a -> a = of_Z (nval a).
Proof. intros C. apply represents_of_Z; [apply canon_nonneg; auto|]. split; auto. Qed.
Lemma nat_shl_spec a k : canon a -> 0 < nval a -> 0 <= k -> nat_shl a k = of_Z (nval a * 2 ^ k).
Proof. intros C P K. unfold nat_shl, op1. rewrite is_nan_canon by auto. apply shl_inner_of_Z; auto. Qed.

Lemma normal_nz m : normal_mant m -> 0 < nval m.
Proof. intros H. destruct (normal_pos m H) as (_ & L & B). pose proof (pow2_pos (mbits m - 1) ltac:(unfold mbits; lia)). lia. Qed.
Lemma mag_pos x : normal_mant (flmant x) -> (0 < mag x)%Q.
Proof. intros H. apply dy_pos, normal_nz. auto. Qed.

(** The operands brought to a common exponent. *)
Section ALIGN.
Variables x y : float.
Hypothesis HX : normal_mant (flmant x).
Hypothesis HY : normal_mant (flmant y).
Let ex := flexp x - mbits (flmant x).
Let ey := flexp y - mbits (flmant y).
Let e := Z.min ex ey.
Let A := nval (flmant x) * 2 ^ (ex - e).
Let B := nval (flmant y) * 2 ^ (ey - e).

Lemma align_pos : 0 < A /\ 0 < B.
Proof using HX HY.
  pose proof (normal_nz _ HX). pose proof (normal_nz _ HY). unfold A, B.
  pose proof (pow2_pos (ex - e) ltac:(lia)). pose proof (pow2_pos (ey - e) ltac:(lia)). nia.
Qed.
Lemma align_mag : (mag x == dy A e)%Q /\ (mag y == dy B e)%Q.
Proof using. unfold mag. fold ex ey. split; apply dy_to; unfold e; lia. Qed.
Lemma align_op (f : list Z -> list Z -> list Z) (g : Z -> Z -> Z) :
  (forall a b, 0 <= a -> 0 <= b -> f (of_Z a) (of_Z b) = of_Z (g a b)) ->
  (if ex <? ey then (f (flmant x) (nat_shl (flmant y) (ey - ex)), ex)
   else if ey <? ex then (f (nat_shl (flmant x) (ex - ey)) (flmant y), ey)
   else (f (flmant x) (flmant y), ex)) = (of_Z (g A B), e).
Proof using HX HY.
  intros H. destruct HX as (CX & _), HY as (CY & _). pose proof (normal_nz _ HX) as PX. pose proof (normal_nz _ HY) as PY.
  destruct align_pos as (PA & PB).
  destruct (Z.ltb_spec ex ey) as [L|L]; [|destruct (Z.ltb_spec ey ex) as [G|G]].
  - assert (E : e = ex) by lia. unfold A, B. rewrite E, Z.sub_diag, Z.mul_1_r. rewrite nat_shl_spec by (auto; lia).
    rewrite (canon_self _ CX) at 1. rewrite H; [reflexivity|lia|]. pose proof (pow2_pos (ey - ex)). nia.
  - assert (E : e = ey) by lia. unfold A, B. rewrite E, Z.sub_diag, Z.mul_1_r. rewrite nat_shl_spec by (auto; lia).
    rewrite (canon_self _ CY) at 1. rewrite H; [reflexivity| |lia]. pose proof (pow2_pos (ex - ey)). nia.
  - assert (E : e = ex) by lia. assert (E2 : ey = ex) by lia. unfold A, B. rewrite E, E2, Z.sub_diag, !Z.mul_1_r.
    rewrite (canon_self _ CX), (canon_self _ CY) at 1. rewrite H by lia. reflexivity.
Qed.
End ALIGN.

Lemma uadd_spec x y : 0 < flprec x -> normal_mant (flmant x) -> normal_mant (flmant y) ->
  exists z, uadd x y = Ok z /\ result_for (flmode x) (flprec x) (sq (flneg x) (mag x + mag y)) z.
Proof.
  intros HP HX HY. unfold uadd. rewrite (align_op x y HX HY nat_add Z.add nat_add_of_Z).
  destruct (align_pos x y HX HY) as (PA & PB). destruct (align_mag x y) as (MA & MB).
  set (e := Z.min _ _) in *. set (A := nval (flmant x) * _) in *. set (B := nval (flmant y) * _) in *.
  destruct (norm_round_spec x (of_Z (A + B)) e HP (of_Z_canon (A + B) ltac:(lia))) as (z & Z1 & Z2); [rewrite of_Z_val; lia|].
  exists z. split; [auto|]. eapply result_wd; [|exact Z2]. apply sq_wd. rewrite of_Z_val by lia. rewrite MA, MB. symmetry. apply dy_add.
Qed.

Lemma usub_spec x y : 0 < flprec x -> normal_mant (flmant x) -> normal_mant (flmant y) -> (mag y < mag x)%Q ->
  exists z, usub x y = Ok z /\ result_for (flmode x) (flprec x) (sq (flneg x) (mag x - mag y)) z.
Proof.
  intros HP HX HY LT. unfold usub.
  rewrite (align_op x y HX HY nat_sub (fun a b => Z.abs (a - b)) nat_sub_of_Z).
  destruct (align_pos x y HX HY) as (PA & PB). destruct (align_mag x y) as (MA & MB).
  set (e := Z.min _ _) in *. set (A := nval (flmant x) * _) in *. set (B := nval (flmant y) * _) in *.
  rewrite MA, MB, dy_lt in LT. rewrite of_Z_eq_u32 by lia. destruct (Z.eqb_spec (Z.abs (A - B)) 0); [lia|].
  destruct (norm_round_spec (set_mant x (of_Z (Z.abs (A - B)))) (of_Z (Z.abs (A - B))) e HP (of_Z_canon (Z.abs (A - B)) ltac:(lia))) as (z & Z1 & Z2); [rewrite of_Z_val; lia|].
  exists z. split; [auto|]. eapply result_wd; [|exact Z2]. cbn [set_mant flneg]. apply sq_wd. rewrite of_Z_val by lia. rewrite MA, MB, dy_sub.
  apply dy_wd. lia.
Qed.

(** The result of an exact zero difference. *)
Definition zero_result (m : rmode) (p : Z) (neg : bool) (z : float) : Prop :=
  flform z = Zero /\ flneg z = neg /\ flacc z = Exact /\ flmode z = m /\ flprec z = p.

Lemma usub_zero x y : normal_mant (flmant x) -> normal_mant (flmant y) -> (mag y == mag x)%Q ->
  exists z, usub x y = Ok z /\ zero_result (flmode x) (flprec x) false z.
Proof.
  intros HX HY EQ. unfold usub.
  rewrite (align_op x y HX HY nat_sub (fun a b => Z.abs (a - b)) nat_sub_of_Z).
  destruct (align_mag x y) as (MA & MB).
  set (e := Z.min _ _) in *. set (A := nval (flmant x) * _) in *. set (B := nval (flmant y) * _) in *.
  rewrite MA, MB, dy_eq in EQ. rewrite EQ, Z.sub_diag. change (Z.abs 0) with 0. rewrite of_Z_eq_u32 by lia. rewrite Z.eqb_refl.
  eexists. split; [reflexivity|]. repeat split.
Qed.

Lemma result_sign m p v z : result_for m p v z -> flform z = Zero -> flacc z = Exact -> False.
Proof. intros (_ & _ & _ & _ & H) F A. rewrite F in H. destruct H as (_ & H). rewrite A in H. destruct (flneg z); discriminate. Qed.

(** The final adjustment in [add_finite] does not touch a rounded result. *)
Definition adjust (z : float) : float :=
  if is_zero (flform z) && is_to_negative_inf (flmode z) && (match flacc z with Exact => true | _ => false end)
  then set_neg z true else z.
Lemma adjust_result m p v z : result_for m p v z -> adjust z = z.
Proof.
  intros R. unfold adjust. destruct (is_zero (flform z) && is_to_negative_inf (flmode z)) eqn:E; [|reflexivity].
  apply andb_prop in E as (E & _). destruct (flacc z) eqn:A; try reflexivity. exfalso.
  eapply result_sign; eauto. destruct (flform z); try discriminate. reflexivity.
Qed.
Lemma adjust_zero m p z : zero_result m p false z -> zero_result m p (is_to_negative_inf m) (adjust z).
Proof.
  intros (A & B & C & D & E). unfold adjust. rewrite A, C, D. cbn [is_zero andb].
  destruct (is_to_negative_inf m) eqn:I; cbn [andb]; repeat split; auto.
Qed.

(** [add_finite]: the receiver's settings when the signs agree or its magnitude
    is the larger; otherwise the other operand's. *)
Lemma add_finite_same x y : 0 < flprec x -> normal_mant (flmant x) -> normal_mant (flmant y) ->
  exists z, add_finite true x y = Ok z /\ result_for (flmode x) (flprec x) (sq (flneg x) (mag x + mag y)) z.
Proof.
  intros HP HX HY. destruct (uadd_spec x y HP HX HY) as (z & Z1 & Z2). exists z. split; [|auto].
  unfold add_finite. rewrite Z1. cbn [bind]. fold (adjust z). rewrite (adjust_result _ _ _ _ Z2). reflexivity.
Qed.
Lemma add_finite_gt x y : 0 < flprec x -> normal_mant (flmant x) -> normal_mant (flmant y) -> (mag y < mag x)%Q ->
  exists z, add_finite false x y = Ok z /\ result_for (flmode x) (flprec x) (sq (flneg x) (mag x - mag y)) z.
Proof.
  intros HP HX HY LT. destruct (usub_spec x y HP HX HY LT) as (z & Z1 & Z2). exists z. split; [|auto].
  unfold add_finite. rewrite ucmp_spec by auto. rewrite (proj1 (Qgt_alt _ _) LT). cbn [cmpz].
  change (0 <? 1) with true. cbv iota. rewrite Z1. cbn [bind]. fold (adjust z). rewrite (adjust_result _ _ _ _ Z2). reflexivity.
Qed.
Lemma add_finite_lt x y : 0 < flprec y -> normal_mant (flmant x) -> normal_mant (flmant y) -> (mag x < mag y)%Q ->
  exists z, add_finite false x y = Ok z /\ result_for (flmode y) (flprec y) (sq (flneg x) (mag x - mag y)) z.
Proof.
  intros HP HX HY LT. destruct (usub_spec (set_neg y (negb (flneg x))) x HP HY HX LT) as (z & Z1 & Z2). exists z. split.
  - unfold add_finite. rewrite ucmp_spec by auto. rewrite (proj1 (Qlt_alt _ _) LT). cbn [cmpz].
    change (0 <? -1) with false. cbv iota. rewrite Z1. cbn [bind]. fold (adjust z). rewrite (adjust_result _ _ _ _ Z2). reflexivity.
  - eapply result_wd; [|exact Z2].
    change (mag (set_neg y (negb (flneg x)))) with (mag y). change (flneg (set_neg y (negb (flneg x)))) with (negb (flneg x)).
    destruct (flneg x); cbn [sq negb]; ring.
Qed.
Lemma add_finite_eq x y : normal_mant (flmant x) -> normal_mant (flmant y) -> (mag x == mag y)%Q ->
  exists z, add_finite false x y = Ok z /\ zero_result (flmode y) (flprec y) (is_to_negative_inf (flmode y)) z.
Proof.
  intros HX HY EQ. destruct (usub_zero (set_neg y (negb (flneg x))) x HY HX EQ) as (z & Z1 & Z2). exists (adjust z). split.
  - unfold add_finite. rewrite ucmp_spec by auto. rewrite (proj1 (Qeq_alt _ _) EQ). cbn [cmpz].
    change (0 <? 0) with false. cbv iota. rewrite Z1. reflexivity.
  - apply adjust_zero. auto.
Qed.

Lemma umul_spec x y : 0 < flprec x -> normal_mant (flmant x) -> normal_mant (flmant y) ->
  exists z, umul x y = Ok z /\ result_for (flmode x) (flprec x) (sq (flneg x) (mag x * mag y)) z.
Proof.
  intros HP HX HY. unfold umul. pose proof (proj1 HX) as CX. pose proof (proj1 HY) as CY.
  pose proof (normal_nz _ HX) as PX. pose proof (normal_nz _ HY) as PY.
  assert (EM : nat_mul (flmant x) (flmant y) = of_Z (nval (flmant x) * nval (flmant y))).
  { rewrite (canon_self _ CX), (canon_self _ CY) at 1. apply nat_mul_of_Z; lia. }
  assert (PM : 0 < nval (flmant x) * nval (flmant y)) by nia.
  rewrite EM. set (m := of_Z (nval (flmant x) * nval (flmant y))).
  assert (CM : canon m) by (apply of_Z_canon; lia). assert (VM : nval m = nval (flmant x) * nval (flmant y)) by (apply of_Z_val; lia).
  assert (LM : mbits m = mbits (flmant x) + mbits (flmant y)).
  { destruct (normal_pos _ HX) as (_ & LX & BX). destruct (normal_pos _ HY) as (_ & LY & BY).
    destruct (normal_pos _ HX) as (WX & _). 
    set (a := mbits (flmant x)) in *. set (b := mbits (flmant y)) in *.
    assert (HA : 32 <= a) by (unfold a, mbits; lia). assert (HB : 32 <= b) by (unfold b, mbits; lia).
    assert (L1 : 2 ^ (a + b - 2) <= nval m).
    { replace (a + b - 2) with ((a - 1) + (b - 1)) by lia. rewrite Z.pow_add_r, VM by lia. apply Z.mul_le_mono_nonneg; try lia; apply Z.pow_nonneg; lia. }
    assert (L2 : nval m < 2 ^ (a + b)).
    { rewrite Z.pow_add_r, VM by lia. apply Z.mul_lt_mono_nonneg; lia. }
    pose proof (nval_bound m (canon_words m CM)) as B1. rewrite Wp_pow2 in B1. fold (mbits m) in B1.
    assert (U : a + b - 2 < mbits m) by (apply (Z.pow_lt_mono_r_iff 2); [lia|unfold mbits; lia|lia]).
    assert (D : mbits m <= a + b).
    { destruct (Nat.le_gt_cases (length m) 1) as [L|L]; [unfold mbits; lia|].
      pose proof (canon_lower m CM L) as B2. rewrite Wp_pow2 in B2.
      assert (32 * Z.of_nat (length m - 1) < a + b) by (apply (Z.pow_lt_mono_r_iff 2); lia).
      unfold a, b, mbits in *. lia. }
    unfold a, b, mbits in *. lia. }
  destruct (norm_round_spec x m (flexp x + flexp y - mbits m) HP CM ltac:(lia)) as (z & Z1 & Z2).
  exists z. split.
  - replace (flexp x + flexp y - mbits m + mbits m) with (flexp x + flexp y) in Z1 by lia. auto.
  - eapply result_wd; [|exact Z2]. apply sq_wd. unfold mag. rewrite dy_mul, VM, LM.
    replace (flexp x - mbits (flmant x) + (flexp y - mbits (flmant y))) with (flexp x + flexp y - (mbits (flmant x) + mbits (flmant y))) by lia.
    reflexivity.
Qed.

(** * Precision changes and copies *)
Lemma rep_mono p q v : 0 <= p <= q -> representable p v -> representable q v.
Proof.
  intros H (m & e & A & B). exists m, e. split; [|auto]. apply Z.lt_le_trans with (2 ^ p); [auto|]. apply Z.pow_le_mono_r; lia.
Qed.

(** A Float that fits the precision is its own rounding. *)
Lemma exact_result m p x : ok_float x -> flform x = Finite -> flprec x <= p -> flmode x = m ->
  result_for m p (flvalue x) (set_acc (set_prec x p) Exact).
Proof.
  intros (O1 & O2) F L E. destruct (O2 F) as (P & N & R & RP & MB). pose proof (flvalue_fin x F) as FV.
  pose proof (mag_pos x N) as MP. unfold mag in MP.
  destruct x as [mo ac fo ng p0 e mt]. flds. subst fo mo. unfold set_acc, set_prec. flds.
  eapply result_fin; eauto; try lia; [reflexivity| | |].
  - apply (rep_wd p (sq ng (flvalue (FL m ac Finite ng p0 e mt)))).
    + rewrite (sq_wd ng _ _ FV). destruct ng; cbn [sq]; ring.
    + apply rep_sq. apply (rep_mono p0 p); [lia|auto].
  - apply exact_rounded. apply (rep_wd p _ _ FV). apply (rep_mono p0 p); [lia|auto].
  - symmetry. apply acc_eq. reflexivity.
Qed.

Lemma set_precision_spec x p : ok_float x -> flform x = Finite -> 0 < p ->
  exists z, fl_set_precision x p = Ok z /\ result_for (flmode x) (Z.min max_precision p) (flvalue x) z.
Proof.
  intros O F HP. unfold fl_set_precision. destruct (Z.eqb_spec p 0); [lia|].
  assert (0 < max_precision) by (cbv; reflexivity).
  cbn [set_acc flprec]. destruct (Z.ltb_spec (Z.min max_precision p) (flprec x)) as [L|L].
  - destruct O as (O1 & O2). destruct (O2 F) as (P & N & R & _).
    destruct (fl_round_spec (set_prec (set_acc x Exact) (Z.min max_precision p))) as (z & Z1 & Z2).
    { split; [auto|]. cbn [set_prec set_acc flprec flmant flexp]. split; [lia|]. split; [auto|lia]. }
    exists z. split; [auto|]. exact Z2.
  - eexists. split; [reflexivity|]. apply exact_result; auto.
Qed.

Lemma set_float_spec z x : ok_float x -> flform x = Finite -> 0 <= flprec z ->
  let p := if flprec z =? 0 then flprec x else flprec z in
  exists r, set_float z x = Ok r /\ result_for (flmode z) p (flvalue x) r.
Proof.
  intros O F HP p. unfold set_float. rewrite F. cbn [is_finite].
  pose proof O as O'. destruct O' as (O1 & O2). destruct (O2 F) as (P & N & R & RP & MB).
  assert (OX : forall p0, ok_float (FL (flmode z) Exact Finite (flneg x) (flprec x) (flexp x) (flmant x)) /\
                          (flvalue (FL (flmode z) Exact Finite (flneg x) p0 (flexp x) (flmant x)) == flvalue x)%Q).
  { intros p0. split; [|unfold flvalue; rewrite F; reflexivity].
    split; flds; [lia|]. intros _. split; [auto|]. split; [auto|]. split; [auto|]. split; [|auto].
    unfold flvalue in *. rewrite F in RP. exact RP. }
  unfold p. destruct (Z.eqb_spec (flprec z) 0) as [E|E].
  - eexists. split; [reflexivity|]. destruct (OX (flprec x)) as (A & B). eapply result_wd; [exact B|].
    apply (exact_result (flmode z) (flprec x) (FL (flmode z) Exact Finite (flneg x) (flprec x) (flexp x) (flmant x))); auto; flds; lia.
  - destruct (Z.ltb_spec (flprec z) (flprec x)) as [L|L].
    + destruct (fl_round_spec (FL (flmode z) Exact Finite (flneg x) (flprec z) (flexp x) (flmant x))) as (r & Z1 & Z2).
      { split; [auto|]. flds. split; [lia|]. split; [auto|lia]. }
      exists r. split; [auto|]. flds. eapply result_wd; [|exact Z2]. apply (OX (flprec z)).
    + eexists. split; [reflexivity|]. destruct (OX (flprec x)) as (A & B). eapply result_wd; [exact B|].
      apply (exact_result (flmode z) (flprec z) (FL (flmode z) Exact Finite (flneg x) (flprec x) (flexp x) (flmant x))); auto; flds; lia.
Qed.
