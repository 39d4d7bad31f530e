(** Machine floats through [Rat] and [Float] and back (C87). *)
From Coq Require Import ZArith QArith Qabs Lqa List Lia Bool.
From Verif Require Import Words Spec WordsFacts NatModel NatFacts NatFacts2 NatFacts3 NatFacts4 NatFacts5
  NatConv NatConvFacts BigInt SpecInt BigIntFacts BigIntFacts3 Ieee Rat SpecRat RatFacts IeeeFacts IeeeFacts2 RatFacts2 RatFacts3 RatFacts4 Float SpecFloat FloatFacts FloatFacts2 FloatFacts3 FloatFacts4 FloatFacts5 FloatFacts6 FloatFacts7 FloatFacts8 FloatFacts9
  Properties_Rat Properties_Float.
Import ListNotations.
Open Scope Z_scope.

Lemma value_units mb eb b v : 0 <= - funit mb eb -> 0 <= funits mb (fmag mb eb b) -> (v == fvalue mb eb b)%Q ->
  Z.abs (Qnum v) * 2 ^ (- funit mb eb) = Zpos (Qden v) * funits mb (fmag mb eb b).
Proof.
  intros H U E. unfold fvalue, Qeq in E. cbn [Qnum Qden] in E. rewrite Z2Pos.id in E by (apply Z.pow_pos_nonneg; lia).
  apply (f_equal Z.abs) in E. rewrite !Z.abs_mul in E. rewrite (Z.abs_eq (2 ^ _)) in E by (apply Z.pow_nonneg; lia).
  replace (Z.abs (if fneg_bit mb eb b then _ else _)) with (funits mb (fmag mb eb b)) in E by (destruct (fneg_bit mb eb b); lia).
  cbn [Z.abs] in E. lia.
Qed.
Lemma sign_nonzero mb eb b x : 0 < funits mb (fmag mb eb b) -> ok_rat x -> (rvalue x == fvalue mb eb b)%Q -> fneg_bit mb eb b = bneg (rnum x).
Proof.
  intros U (C & _ & D) E. unfold fvalue, rvalue, Qeq in E. cbn [Qnum Qden] in E. unfold bvalue in E.
  rewrite (Z2Pos.id (nval _)) in E by exact D. pose proof (nval_nonneg _ (proj1 C)) as NN. set (P := Zpos _) in E. assert (PP : 0 < P) by reflexivity.
  destruct (bneg (rnum x)), (fneg_bit mb eb b); try reflexivity; exfalso; nia.
Qed.
Lemma nearest_self mb eb b v k : 1 <= mb -> 2 <= eb -> 0 <= - funit mb eb -> 0 <= fmag mb eb b <= finf mb eb -> (v == fvalue mb eb b)%Q ->
  nearest mb eb (Z.abs (Qnum v)) (Zpos (Qden v)) k -> k = fmag mb eb b.
Proof.
  intros H1 H2 U K E N. eapply (near_exact mb eb H1 H2 _ (Zpos (Qden v)) k); [lia|exact N|exact K|]. apply value_units; auto. apply (units_nonneg mb eb H1 H2). lia.
Qed.
Lemma value_not_tiny mb eb b v : 0 <= - funit mb eb -> 1 <= funits mb (fmag mb eb b) -> (v == fvalue mb eb b)%Q -> not_tiny mb eb v.
Proof.
  intros H U E. right. pose proof (value_units mb eb b v H ltac:(lia) E) as V. replace (1 - funit mb eb) with (1 + - funit mb eb) by lia. rewrite Z.pow_add_r by lia. change (2 ^ 1) with 2.
  set (X := 2 ^ (- funit mb eb)) in *. set (Y := Z.abs (Qnum v)) in *. pose proof (Pos2Z.is_pos (Qden v)). set (q := Zpos (Qden v)) in *. nia.
Qed.
Lemma split32 b : 0 <= b < 2 ^ 32 -> b = fsigned 23 8 (fneg_bit 23 8 b) (fmag 23 8 b) /\ 0 <= fmag 23 8 b < 2 ^ 31.
Proof.
  intros H. unfold fsigned, fneg_bit, fmag. change (2 ^ (23 + 8)) with (2 ^ 31). split; [|apply Z.mod_pos_bound; lia].
  destruct (Z.leb_spec (2 ^ 31) b).
  - rewrite <- (Z.mod_unique_pos b (2 ^ 31) 1 (b - 2 ^ 31)) by lia. lia.
  - symmetry. apply Z.mod_small. lia.
Qed.

Lemma signed_parts_eq mb eb f s k : 1 <= mb -> 2 <= eb -> 0 <= k <= finf mb eb -> f = fsigned mb eb s k -> f = fsigned mb eb (fneg_bit mb eb f) (fmag mb eb f).
Proof. intros A B K ->. destruct (fsigned_parts mb eb s k A B K) as [-> ->]. reflexivity. Qed.
Lemma to_f64_bits x f ex : ok_rat x -> r_to_f64 x = Ok (f, ex) -> f = fsigned 52 11 (fneg_bit 52 11 f) (fmag 52 11 f).
Proof.
  intros H. destruct (ok_rat_mk x H) as (s & m & t & n & Hm & Hn & ->). unfold r_to_f64. rewrite mk_nan by lia. unfold mk. cbn [rnum rden bnat bneg].
  rewrite (of_Z_eq_u32 n) by lia. rewrite (proj2 (Z.eqb_neq n 0)) by lia.
  destruct (quo_to_f64_spec m n Hm Hn) as (k & ex' & Q & NE & _). rewrite Q. cbn [bind]. intros E.
  assert (KR : 0 <= k <= finf 52 11) by (apply NE). apply (signed_parts_eq 52 11 f s k h52 h11 KR).
  destruct s; [rewrite fopp_pos in E by (auto using h52, h11); congruence|unfold fsigned; congruence].
Qed.
Lemma to_f32_bits x f ex : ok_rat x -> 0 < nval (bnat (rnum x)) -> r_to_f32 x = Ok (f, ex) -> f = fsigned 23 8 (fneg_bit 23 8 f) (fmag 23 8 f).
Proof.
  intros H. destruct (ok_rat_mk x H) as (s & m & t & n & Hm & Hn & ->). unfold r_to_f32. rewrite mk_nan by lia. unfold mk. cbn [rnum rden bnat bneg].
  rewrite (of_Z_eq_u32 n) by lia. rewrite (proj2 (Z.eqb_neq n 0)) by lia. rewrite of_Z_val by lia. intros M0.
  destruct (quo_to_f32_spec m n M0 Hn) as (k & ex' & Q & NE & _). rewrite Q. cbn [bind]. intros E.
  assert (KR : 0 <= k <= finf 23 8) by (apply NE). apply (signed_parts_eq 23 8 f s k h23 h8 KR).
  destruct s; [rewrite fopp_pos in E by (auto using h23, h8); congruence|unfold fsigned; congruence].
Qed.
Lemma units_pos mb b : 1 <= mb -> 0 < b -> 1 <= funits mb b.
Proof. intros H B. pose proof (units_mono mb H 0 b ltac:(lia) B). change (funits mb 0) with 0 in *. replace (funits mb 0) with 0 in * by (unfold funits; rewrite Z.div_0_l by (apply Z.pow_nonzero; lia); reflexivity). lia. Qed.

(** Every double of magnitude below 2 ^ 53, except zero, comes back from [Rat]
    bit by bit, and is reported as exact. *)
Theorem C87_rat_f64_partial : forall b, f64_finite b -> f64_field b <= 1075 -> 0 < fmag 52 11 b ->
  exists z, r_from_f64 b = Ok z /\ r_to_f64 z = Ok (b, true).
Proof.
  intros b (B & FI) F NZ. destruct (from_f64_small b B F) as (z & Z1 & (Z2 & Z3) & _). exists z. split; [exact Z1|].
  pose proof (units_pos 52 _ h52 NZ) as U1.
  destruct (RatFacts2.to_f64_spec z Z2) as (f & ex & E & S0 & N & X). destruct (split64 b B) as (EB & K).
  apply (nearest_self 52 11 b) in N; [|lia|lia|discriminate|lia|exact Z3].
  rewrite <- (sign_nonzero 52 11 b z ltac:(lia) Z2 Z3) in S0. pose proof (to_f64_bits z f ex Z2 E) as FB. rewrite S0, N in FB.
  assert (f = b) as -> by (rewrite FB; symmetry; exact EB). rewrite E. f_equal. f_equal.
  apply X; [exact (value_not_tiny 52 11 b _ ltac:(discriminate) U1 Z3)|]. split; [exact FI|]. symmetry. exact Z3.
Qed.
(** Single precision: the same, when the magnitude is below 2 ^ 53. *)
Theorem C87_rat_f32_partial : forall b, f32_finite b -> f64_field (f64_of_f32 b) <= 1075 -> 0 < fmag 23 8 b ->
  exists z, r_from_f32 b = Ok z /\ r_to_f32 z = Ok (b, true).
Proof.
  intros b (B & FI) F NZ. destruct (f64_of_f32_value b (conj B FI)) as (A1 & A2 & _).
  destruct (from_f64_small _ A1 F) as (z & Z1 & (Z2 & Z3) & _). exists z. split; [exact Z1|]. rewrite A2 in Z3.
  pose proof (units_pos 23 _ h23 NZ) as U1. 
  pose proof (value_units 23 8 b _ ltac:(discriminate) ltac:(lia) Z3) as VU. 
  assert (QN : Qnum (rvalue z) <> 0). { intros C. rewrite C in VU. cbn [Z.abs] in VU. rewrite Z.mul_0_l in VU. pose proof (Pos2Z.is_pos (Qden (rvalue z))). nia. }
  assert (NV : 0 < nval (bnat (rnum z))).
  { pose proof (nval_nonneg _ (proj1 (proj1 Z2))). cbn [rvalue Qnum] in QN. unfold bvalue in QN. destruct (bneg (rnum z)); lia. }
  destruct (RatFacts2.to_f32_spec z Z2) as (f & ex & E & S0 & N & X). { unfold Qeq. cbn [Qnum Qden]. lia. }
  destruct (split32 b B) as (EB & K).
  apply (nearest_self 23 8 b) in N; [|lia|lia|discriminate|lia|exact Z3].
  rewrite <- (sign_nonzero 23 8 b z ltac:(lia) Z2 Z3) in S0. pose proof (to_f32_bits z f ex Z2 NV E) as FB. rewrite S0, N in FB.
  assert (f = b) as -> by (rewrite FB; symmetry; exact EB). rewrite E. f_equal. f_equal.
  apply X; [exact (value_not_tiny 23 8 b _ ltac:(discriminate) U1 Z3)|]. split; [exact FI|]. symmetry. exact Z3.
Qed.

Lemma fvalue_dy32 b : (f32_value b == sq (fneg_bit 23 8 b) (dy (funits 23 (fmag 23 8 b)) (-149)))%Q.
Proof.
  unfold f32_value, fvalue. change (- funit 23 8) with 149. rewrite <- sg_dy. unfold sg.
  set (n := if fneg_bit 23 8 b then _ else _). unfold dy.
  rewrite (Qmake_Qdiv n). apply Qmult_comp; [reflexivity|]. reflexivity.
Qed.
(** A [Float] gives every single-precision number back, subnormals included. *)
Theorem C87_float_f32 : forall b, f32_finite b -> 0 < fmag 23 8 b ->
  exists z, fl_from_f32 b = Ok z /\ fl_to_f32 z = Ok (b, Exact).
Proof.
  intros b F NZ. destruct (C76_from_f32 b F NZ) as (z & Z1 & O & FI & _ & V & _). exists z. split; [exact Z1|].
  destruct F as (B & FF). destruct (split32 b B) as (EB & K). pose proof (units_pos 23 _ h23 NZ) as U1.
  assert (AV : (Qabs (flvalue z) == dy (funits 23 (fmag 23 8 b)) (-149))%Q).
  { rewrite V, fvalue_dy32. rewrite sq_abs. apply Qabs_pos, dy_nonneg. lia. }
  destruct (FloatFacts9.to_f32_spec z O FI) as (k & a & E & N & A & _).
  { intros (_ & W). rewrite AV in W. apply dy_lt in W. lia. }
  rewrite E. apply (nearest_self 23 8 b) in N; [|lia|lia|discriminate|lia|exact V]. subst k.
  assert (SG : flneg z = fneg_bit 23 8 b).
  { destruct (ok_finite z O FI) as (_ & NM). pose proof (FloatFacts5.mag_pos z NM) as MP. pose proof (finite_val z FI) as FV. rewrite V, fvalue_dy32 in FV.
    assert (0 < dy (funits 23 (fmag 23 8 b)) (-149))%Q by (apply dy_pos; lia).
    destruct (flneg z), (fneg_bit 23 8 b); cbn [sq] in FV; try reflexivity; lra. }
  rewrite SG in *. rewrite <- EB in *. rewrite (A FF). do 2 f_equal. apply acc_eq. symmetry. exact V.
Qed.
(** Above 2 ^ 53 the round trip through [Rat] fails: 2 ^ 60 comes back as
    2 ^ 44, and the conversion says it is exact. *)
Theorem C87_rat_big_refuted : exists b z b', f64_finite b /\ (f64_value b == inject_Z (2 ^ 60))%Q /\
  r_from_f64 b = Ok z /\ r_to_f64 z = Ok (b', true) /\ (f64_value b' == inject_Z (2 ^ 44))%Q.
Proof.
  exists (1083 * 2 ^ 52), (RT (BI [0; 4096] false) (BI [1] false)), (1067 * 2 ^ 52).
  split; [split; [lia|vm_compute; reflexivity]|]. split; [vm_compute; reflexivity|]. split; [vm_compute; reflexivity|]. split; vm_compute; reflexivity.
Qed.
(** Zeros: [Rat] gives both back as plus zero in double precision and panics in
    single precision; [Float] gives both back unchanged. *)
Theorem C87_rat_zero_partial : forall neg,
  (exists z, r_from_f64 (fsigned 52 11 neg 0) = Ok z /\ r_to_f64 z = Ok (0, true)).
Proof. intros neg. destruct neg; eexists; (split; [vm_compute; reflexivity|vm_compute; reflexivity]). Qed.
Theorem C87_rat_zero_f32_refuted : forall neg,
  exists z, r_from_f32 (fsigned 23 8 neg 0) = Ok z /\ r_to_f32 z = Panic.
Proof. intros neg. destruct neg; eexists; (split; [vm_compute; reflexivity|vm_compute; reflexivity]). Qed.
Theorem C87_float_special : forall neg k, k = 0 \/ k = finf 23 8 ->
  exists z, fl_from_f32 (fsigned 23 8 neg k) = Ok z /\ fl_to_f32 z = Ok (fsigned 23 8 neg k, Exact).
Proof. intros neg k [->| ->]; destruct neg; eexists; (split; [vm_compute; reflexivity|vm_compute; reflexivity]). Qed.
(** Cases: the least positive subnormal of each format, negative. *)
Example C87_case :
  (exists z, r_from_f64 (2 ^ 63 + 1) = Ok z /\ r_to_f64 z = Ok (2 ^ 63 + 1, true)) /\
  (exists z, r_from_f32 (2 ^ 31 + 1) = Ok z /\ r_to_f32 z = Ok (2 ^ 31 + 1, true)) /\
  (exists z, fl_from_f32 (2 ^ 31 + 1) = Ok z /\ fl_to_f32 z = Ok (2 ^ 31 + 1, Exact)).
Proof. split; [|split]; eexists; (split; [vm_compute; reflexivity|vm_compute; reflexivity]). Qed.
Print Assumptions C87_rat_f64_partial.
Print Assumptions C87_rat_f32_partial.
Print Assumptions C87_float_f32.
Print Assumptions C87_rat_big_refuted.
Print Assumptions C87_rat_zero_partial.
Print Assumptions C87_rat_zero_f32_refuted.
Print Assumptions C87_float_special.
