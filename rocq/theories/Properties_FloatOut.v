(** Theorems about [Float::to_f32] and [Float::to_f64] (C58).

    [nearest mb eb p q k] (SpecRat.v): [k] is the magnitude pattern of the
    format nearest to [p / q], ties to the even pattern; [fvalue] is the value
    of a pattern. *)
From Coq Require Import ZArith QArith Qabs Lqa List Lia Bool.
From Verif Require Import Words Spec WordsFacts Ieee Rat SpecRat IeeeFacts2 RatFacts3 Float SpecFloat FloatFacts FloatFacts3 FloatFacts6 FloatFacts7
  FloatFacts8 FloatFacts9 Properties_Float.
Import ListNotations.
Open Scope Z_scope.

(** ** C58
    Full claim: the result is the nearest float with truthful accuracy.  True
    outside the interval between half the least positive float and that float. *)
Theorem C58_to_f64_partial : forall x, ok_float x -> flform x = Finite ->
  ~ (dy 1 (-1075) < Qabs (flvalue x) /\ Qabs (flvalue x) < dy 1 (-1074))%Q ->
  exists k a, fl_to_f64 x = Ok (fsigned 52 11 (flneg x) k, a) /\
    nearest 52 11 (Z.abs (Qnum (flvalue x))) (Zpos (Qden (flvalue x))) k /\
    (k < finf 52 11 -> a = acc_of (f64_value (fsigned 52 11 (flneg x) k)) (flvalue x)) /\
    (k = finf 52 11 -> a = if flneg x then Below else Above).
Proof.
  intros x O F N. destruct (to_f64_spec x O F N) as (k & a & E & A & B & C). exists k, a. split; [auto|]. split; [auto|]. split; [auto|].
  intros H. rewrite (C H). destruct (flneg x); reflexivity.
Qed.
Theorem C58_to_f32_partial : forall x, ok_float x -> flform x = Finite ->
  ~ (dy 1 (-150) < Qabs (flvalue x) /\ Qabs (flvalue x) < dy 1 (-149))%Q ->
  exists k a, fl_to_f32 x = Ok (fsigned 23 8 (flneg x) k, a) /\
    nearest 23 8 (Z.abs (Qnum (flvalue x))) (Zpos (Qden (flvalue x))) k /\
    (k < finf 23 8 -> a = acc_of (f32_value (fsigned 23 8 (flneg x) k)) (flvalue x)) /\
    (k = finf 23 8 -> a = if flneg x then Below else Above).
Proof.
  intros x O F N. destruct (to_f32_spec x O F N) as (k & a & E & A & B & C). exists k, a. split; [auto|]. split; [auto|]. split; [auto|].
  intros H. rewrite (C H). destruct (flneg x); reflexivity.
Qed.
(** Inside it the result is the least normal number, 2 ^ 52 (2 ^ 23) times the
    nearest one; for f64 it is positive even if the operand is negative. *)
Theorem C58_tiny_f64_refuted : forall x, ok_float x -> flform x = Finite ->
  (dy 1 (-1075) < Qabs (flvalue x))%Q -> (Qabs (flvalue x) < dy 1 (-1074))%Q ->
  fl_to_f64 x = Ok (2 ^ 52, if flneg x then Below else Above) /\
  ~ nearest 52 11 (Z.abs (Qnum (flvalue x))) (Zpos (Qden (flvalue x))) (2 ^ 52).
Proof.
  intros x O F A B. split.
  - unfold fl_to_f64. rewrite to_fx_window; auto; try lia. rewrite andb_false_r. reflexivity.
  - intros H. apply small_nearest in H; [lia|lia|lia|exact B].
Qed.
Theorem C58_tiny_f32_refuted : forall x, ok_float x -> flform x = Finite ->
  (dy 1 (-150) < Qabs (flvalue x))%Q -> (Qabs (flvalue x) < dy 1 (-149))%Q ->
  fl_to_f32 x = Ok (fsigned 23 8 (flneg x) (2 ^ 23), if flneg x then Below else Above) /\
  ~ nearest 23 8 (Z.abs (Qnum (flvalue x))) (Zpos (Qden (flvalue x))) (2 ^ 23).
Proof.
  intros x O F A B. split.
  - unfold fl_to_f32. rewrite to_fx_window; auto; try lia. rewrite andb_true_r. reflexivity.
  - intros H. apply small_nearest in H; [lia|lia|lia|exact B].
Qed.
(** Such operands exist: -3 * 2 ^ -1076. *)
Example C58_tiny_case : exists x, ok_float x /\ flform x = Finite /\ flneg x = true /\
  (dy 1 (-1075) < Qabs (flvalue x))%Q /\ (Qabs (flvalue x) < dy 1 (-1074))%Q /\ fl_to_f64 x = Ok (2 ^ 52, Below).
Proof.
  destruct (fu_ok 3 ltac:(lia)) as (O & F). apply neg_ok in O. assert (F' : flform (fl_neg (fu 3)) = Finite) by reflexivity.
  destruct (set_mant_exp_spec (fl_neg (fu 3)) (-1076) O F') as (z & E & R).
  assert (Z : z = match set_mant_exp (fl_neg (fu 3)) (-1076) with Ok z => z | _ => fl_default end) by (rewrite E; reflexivity).
  exists z. split; [apply R|]. rewrite Z. clear E R Z z. split; [reflexivity|]. split; [reflexivity|]. split; [vm_compute; reflexivity|]. split; vm_compute; reflexivity.
Qed.
(** Zeros, infinities, NaN. *)
Theorem C58_special : forall x,
  (flform x = Zero -> fl_to_f64 x = Ok (fsigned 52 11 (flneg x) 0, Exact) /\ fl_to_f32 x = Ok (fsigned 23 8 (flneg x) 0, Exact)) /\
  (flform x = Inf -> fl_to_f64 x = Ok (fsigned 52 11 (flneg x) (finf 52 11), Exact) /\ fl_to_f32 x = Ok (fsigned 23 8 (flneg x) (finf 23 8), Exact)) /\
  (flform x = Nan -> fl_to_f64 x = Ok (0x7FF8000000000000, Exact) /\ fl_to_f32 x = Ok (0x7FC00000, Exact)).
Proof. intros x. unfold fl_to_f64, fl_to_f32, to_fx. split; [|split]; intros ->; split; reflexivity. Qed.
(** Every finite double comes back unchanged. *)
Theorem C58_roundtrip : forall b, f64_finite b -> 0 < fmag 52 11 b ->
  exists z, fl_from_f64 b = Ok z /\ fl_to_f64 z = Ok (b, Exact).
Proof.
  intros b FB NZ. destruct (from_f64_exact b FB NZ) as (z & Z1 & Z2 & Z3 & _ & Z4 & _). exists z. split; [auto|].
  pose proof FB as (B & FI). destruct (split64 b B) as (EB & K).
  assert (AV : (Qabs (flvalue z) == dy (funits 52 (fmag 52 11 b)) (-1074))%Q).
  { rewrite Z4, fvalue_dy by auto. rewrite sq_abs. apply Qabs_pos, dy_nonneg. apply (IeeeFacts.units_nonneg 52 11 h52 h11); lia. }
  assert (U1 : 1 <= funits 52 (fmag 52 11 b)).
  { pose proof (IeeeFacts.units_mono 52 h52 0 (fmag 52 11 b) ltac:(lia) NZ). change (funits 52 0) with 0 in *. lia. }
  destruct (to_f64_spec z Z2 Z3) as (k & a & E & N & A & _).
  { intros (_ & W). rewrite AV in W. apply dy_lt in W. lia. }
  rewrite E. apply (f64_nearest_self b _ FB Z4) in N. subst k.
  assert (SG : flneg z = fneg_bit 52 11 b).
  { destruct (ok_finite z Z2 Z3) as (_ & NM). pose proof (FloatFacts5.mag_pos z NM) as MP. pose proof (finite_val z Z3) as FV. rewrite Z4, fvalue_dy in FV by auto.
    assert (0 < dy (funits 52 (fmag 52 11 b)) (-1074))%Q by (apply dy_pos; lia).
    destruct (flneg z), (fneg_bit 52 11 b); cbn [sq] in FV; try reflexivity; lra. }
  rewrite SG in *. rewrite <- EB in *. rewrite (A FI). do 2 f_equal. apply acc_eq. symmetry. exact Z4.
Qed.
Example C58_case : fl_to_f64 (fu (2 ^ 53 + 1)) = Ok (1077 * 2 ^ 52 - 2 ^ 52, Below) /\ fl_to_f32 (fl_neg (fu (2 ^ 25 - 1))) = Ok (152 * 2 ^ 23 + 2 ^ 31, Below).
Proof. split; vm_compute; reflexivity. Qed.
Print Assumptions C58_to_f64_partial.
Print Assumptions C58_to_f32_partial.
Print Assumptions C58_tiny_f64_refuted.
Print Assumptions C58_roundtrip.

Print Assumptions C58_tiny_f32_refuted.
Print Assumptions C58_special.
