(** Floats that lost their mantissa: property C130.

    [y.set_mant_exp(x.clone(), e)] leaves finite Floats without mantissa (C60,
    C82).  Full claim: a result computed with such a Float is NaN.  False: it
    is again a finite Float without mantissa, marked Exact. *)
From Coq Require Import ZArith List Lia Bool.
From Verif Require Import Words NatModel NatConv BigInt Ieee Rat Float Decimal.
Import ListNotations.
Open Scope Z_scope.

Definition hollow (x : float) : Prop := flform x = Finite /\ flmant x = [].
(** What comes back: no mantissa, not NaN; finite and marked Exact when the
    exponent [e] is in range, else zero or infinite. *)
Definition hollow_result (r : res float) (e : Z) : Prop :=
  exists z, r = Ok z /\ flmant z = [] /\
    (min_exp <= e <= max_exp -> flform z = Finite /\ flacc z = Exact /\ flexp z = e) /\
    (e < min_exp -> flform z = Zero) /\ (max_exp < e -> flform z = Inf).

Lemma add_nil_r a : nat_add a [] = [].
Proof. unfold nat_add, op2. cbn [is_nan]. rewrite orb_true_r. reflexivity. Qed.
Lemma sub_nil_r a : nat_sub a [] = [].
Proof. unfold nat_sub, op2. cbn [is_nan]. rewrite orb_true_r. reflexivity. Qed.
Lemma mul_nil_r a : nat_mul a [] = [].
Proof. unfold nat_mul, op2. cbn [is_nan]. rewrite orb_true_r. reflexivity. Qed.
Lemma round_hollow x e s : 0 <= flprec x -> hollow_result (set_exp_and_round (set_mant x []) e s) e.
Proof.
  intros P. unfold set_exp_and_round. destruct (Z.ltb_spec e min_exp) as [L|L].
  - eexists. split; [reflexivity|]. split; [reflexivity|]. split; [lia|]. split; [reflexivity|]. unfold min_exp, max_exp in *. lia.
  - destruct (Z.ltb_spec max_exp e) as [U|U].
    + eexists. split; [reflexivity|]. split; [reflexivity|]. split; [lia|]. split; [lia|reflexivity].
    + unfold fl_round. destruct x as [mo ac fo ng p ex m]. cbn [set_mant set_form set_exp set_acc flmode flacc flform flneg flprec flexp flmant is_finite negb] in *.
      change (mbits []) with 0. destruct (Z.leb_spec 0 p); [|lia]. eexists. split; [reflexivity|]. split; [reflexivity|]. split; [auto|]. split; lia.
Qed.
Lemma uadd_hollow x y : flmant x = [] \/ flmant y = [] -> 0 <= flprec x ->
  hollow_result (uadd x y) (Z.min (flexp x - mbits (flmant x)) (flexp y - mbits (flmant y))).
Proof.
  intros H P. unfold uadd. set (ex := flexp x - mbits (flmant x)). set (ey := flexp y - mbits (flmant y)).
  assert (E : (if ex <? ey then (nat_add (flmant x) (nat_shl (flmant y) (ey - ex)), ex)
    else if ey <? ex then (nat_add (nat_shl (flmant x) (ex - ey)) (flmant y), ey)
    else (nat_add (flmant x) (flmant y), ex)) = ([], Z.min ex ey)).
  { destruct (Z.ltb_spec ex ey); [|destruct (Z.ltb_spec ey ex)]; first [rewrite Z.min_l by lia | rewrite Z.min_r by lia];
      destruct H as [-> | ->]; f_equal; first [reflexivity | apply add_nil_r]. }
  rewrite E. cbn [fnorm is_nan bind]. change (mbits []) with 0. replace (Z.min ex ey + 0 - 0) with (Z.min ex ey) by lia. apply round_hollow. exact P.
Qed.
Lemma usub_hollow x y : flmant x = [] \/ flmant y = [] -> 0 <= flprec x ->
  hollow_result (usub x y) (Z.min (flexp x - mbits (flmant x)) (flexp y - mbits (flmant y))).
Proof.
  intros H P. unfold usub. set (ex := flexp x - mbits (flmant x)). set (ey := flexp y - mbits (flmant y)).
  assert (E : (if ex <? ey then (nat_sub (flmant x) (nat_shl (flmant y) (ey - ex)), ex)
    else if ey <? ex then (nat_sub (nat_shl (flmant x) (ex - ey)) (flmant y), ey)
    else (nat_sub (flmant x) (flmant y), ex)) = ([], Z.min ex ey)).
  { destruct (Z.ltb_spec ex ey); [|destruct (Z.ltb_spec ey ex)]; first [rewrite Z.min_l by lia | rewrite Z.min_r by lia];
      destruct H as [-> | ->]; f_equal; first [reflexivity | apply sub_nil_r]. }
  rewrite E. change (nat_eq_u32 [] 0) with false. cbn [fnorm is_nan bind]. change (mbits []) with 0. replace (Z.min ex ey + 0 - 0) with (Z.min ex ey) by lia.
  change (set_mant (set_mant x []) []) with (set_mant x []). apply round_hollow. exact P.
Qed.
Lemma add_finite_hollow same x y : flmant x = [] \/ flmant y = [] -> 0 <= flprec x -> 0 <= flprec y ->
  hollow_result (add_finite same x y) (Z.min (flexp x - mbits (flmant x)) (flexp y - mbits (flmant y))).
Proof.
  intros H P Q. unfold add_finite.
  assert (G : forall r e, hollow_result r e -> hollow_result (do z <- r; Ok (if is_zero (flform z) && is_to_negative_inf (flmode z) && match flacc z with Exact => true | _ => false end then set_neg z true else z)) e).
  { intros r e (z & -> & M & R). cbn [bind]. eexists. split; [reflexivity|]. destruct (_ && _); [split; [exact M|exact R]|split; [exact M|exact R]]. }
  apply G. destruct same; [apply uadd_hollow; auto|]. destruct (0 <? ucmp x y); [apply usub_hollow; auto|].
  rewrite Z.min_comm. apply (usub_hollow (set_neg y (negb (flneg x))) x); [tauto|exact Q].
Qed.
Lemma default_prec_fields x y : flform (default_prec x y) = flform x /\ flmant (default_prec x y) = flmant x /\ flexp (default_prec x y) = flexp x /\
  flneg (default_prec x y) = flneg x /\ (0 <= flprec x -> 0 <= flprec y -> 0 <= flprec (default_prec x y)).
Proof. unfold default_prec. destruct (flprec x =? 0); repeat split; auto. Qed.

(** ** C130 *)
(** One finite operand without mantissa is enough, whatever the other holds. *)
Theorem C130_spreads_refuted : forall x y, flform x = Finite -> flform y = Finite -> hollow x \/ hollow y -> 0 <= flprec x -> 0 <= flprec y ->
  hollow_result (fl_add x y) (Z.min (flexp x - mbits (flmant x)) (flexp y - mbits (flmant y))) /\
  hollow_result (fl_sub x y) (Z.min (flexp x - mbits (flmant x)) (flexp y - mbits (flmant y))) /\
  hollow_result (fl_mul x y) (flexp x + flexp y).
Proof.
  intros x y FX FY H P Q. assert (M : flmant x = [] \/ flmant y = []) by (unfold hollow in H; tauto).
  destruct (default_prec_fields x y) as (D1 & D2 & D3 & D4 & D5). specialize (D5 P Q).
  unfold fl_add, fl_sub, fl_mul, fl_op2. rewrite FX, FY. cbn [is_fnan orb].
  unfold fl_add_inner, fl_sub_inner, fl_mul_inner. change (flform (set_neg (default_prec x y) (negb (eqb (flneg (default_prec x y)) (flneg y))))) with (flform (default_prec x y)).
  rewrite D1, FX, FY. cbn [is_finite andb].
  split; [|split].
  - pose proof (add_finite_hollow (eqb (flneg (default_prec x y)) (flneg y)) (default_prec x y) y) as A. rewrite D2, D3 in A. apply A; auto.
  - pose proof (add_finite_hollow (negb (eqb (flneg (default_prec x y)) (flneg y))) (default_prec x y) y) as A. rewrite D2, D3 in A. apply A; auto.
  - unfold umul. set (x' := set_neg (default_prec x y) _). change (flmant x') with (flmant (default_prec x y)). change (flexp x') with (flexp (default_prec x y)). rewrite D2, D3.
    assert (E : nat_mul (flmant x) (flmant y) = []) by (destruct M as [-> | ->]; [reflexivity|apply mul_nil_r]).
    rewrite E. cbn [fnorm is_nan bind]. rewrite Z.sub_0_r. apply round_hollow. exact D5.
Qed.
(** As divisor too. *)
Theorem C130_divisor_refuted : forall x y, flform x = Finite -> hollow y -> 0 <= flprec x -> 0 <= flprec y ->
  exists e, hollow_result (fl_div x y) e.
Proof.
  intros x y FX (FY & MY) P Q. destruct (default_prec_fields x y) as (D1 & D2 & D3 & D4 & D5). specialize (D5 P Q).
  unfold fl_div, fl_op2. rewrite FX, FY. cbn [is_fnan orb]. unfold fl_div_inner.
  change (flform (set_neg (default_prec x y) (negb (eqb (flneg (default_prec x y)) (flneg y))))) with (flform (default_prec x y)).
  rewrite D1, FX, FY. cbn [is_finite andb]. unfold uquo. rewrite MY. unfold nat_div, nat_rem, op2r. cbn [is_nan]. rewrite orb_true_r. cbn [bind].
  change (fnorm nan) with (@Ok (list Z * Z) ([], 0)). cbn [bind]. eexists. apply round_hollow. exact D5.
Qed.
(** It is taken for a number by the comparisons: equal to itself, which NaN is
    not. *)
Theorem C130_compare_refuted : forall x, hollow x -> fl_cmp x x = Some Eq.
Proof.
  intros x (F & M). unfold fl_cmp, fl_cmp_inner, fl_ord. rewrite F, Z.ltb_irrefl.
  unfold ucmp. rewrite M, Z.ltb_irrefl. destruct (flneg x); reflexivity.
Qed.
(** The Float that C82_set_mant_exp_refuted reaches: 1.75 with exponent 4, its
    mantissa gone.  1.75 plus it, times it and over it. *)
Definition lost : float := set_exp (set_mant (FL ToNearestEven Exact Finite false 3 1 [7 * 2 ^ 29]) []) 4.
Definition kept : float := FL ToNearestEven Exact Finite false 3 1 [7 * 2 ^ 29].
Example C130_case : hollow lost /\
  match fl_add kept lost, fl_mul kept lost, fl_div kept lost with
  | Ok a, Ok m, Ok d => map flform [a; m; d] = [Finite; Finite; Finite] /\ map flmant [a; m; d] = [[]; []; []] /\ map flacc [a; m; d] = [Exact; Exact; Exact] /\
      flexp a = -31 /\ flexp m = 5
  | _, _, _ => False
  end.
Proof. split; [split; reflexivity|]. vm_compute. repeat split; reflexivity. Qed.
Print Assumptions C130_spreads_refuted.
Print Assumptions C130_divisor_refuted.
Print Assumptions C130_compare_refuted.
