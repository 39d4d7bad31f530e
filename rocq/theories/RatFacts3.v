(** Lemmas about [Rat]: constructors, conversion from machine floats, text. *)
From Coq Require Import ZArith QArith List Lia Bool.
From Verif Require Import Words Spec WordsFacts NatModel NatFacts NatFacts2 NatFacts3 NatFacts4 NatFacts5
  NatConv NatConvFacts NatPow BigInt SpecInt BigIntFacts BigIntFacts3 BigIntFacts4 Properties_NatConv Properties_BigInt
  Ieee Rat SpecRat RatFacts IeeeFacts IeeeFacts2 RatFacts2.
Import ListNotations.
Open Scope Z_scope.

(* ------------------------------------------------------------------ *)
(** * from_f64 *)

Lemma loop_neg fuel m s : s <= 0 -> from_f64_loop fuel m s = (m, s).
Proof.
  intros H. destruct fuel; [reflexivity|]. cbn [from_f64_loop].
  rewrite (proj2 (Z.ltb_ge 0 s)) by lia. rewrite andb_false_r. reflexivity.
Qed.
Lemma loop_zero fuel s : 0 <= s <= Z.of_nat fuel -> from_f64_loop fuel 0 s = (0, 0).
Proof.
  revert s. induction fuel as [|f IH]; intros s H; [cbn [from_f64_loop]; f_equal; lia|].
  cbn [from_f64_loop]. change (Z.land 0 1 =? 0) with true. cbn [andb].
  destruct (Z.ltb_spec 0 s); [change (0 / 2) with 0; apply IH; lia|f_equal; lia].
Qed.
Lemma loop_spec fuel m s : 0 <= m -> 0 <= s -> exists m' s', from_f64_loop fuel m s = (m', s') /\
  0 <= m' <= m /\ 0 <= s' <= s /\ m' * 2 ^ s = m * 2 ^ s'.
Proof.
  revert m s. induction fuel as [|f IH]; intros m s Hm Hs.
  - exists m, s. cbn [from_f64_loop]. repeat split; lia.
  - cbn [from_f64_loop]. rewrite land1. destruct (Z.eqb_spec (m mod 2) 0) as [E|E]; cbn [andb];
      [|exists m, s; repeat split; lia].
    destruct (Z.ltb_spec 0 s) as [L|L]; [|exists m, s; repeat split; lia].
    assert (M : m = m / 2 * 2) by (pose proof (Z.div_mod m 2); lia). assert (0 <= m / 2) by (apply Z.div_pos; lia).
    destruct (IH (m / 2) (s - 1)) as (m' & s' & Q & A & B & C); [lia|lia|]. rewrite Q. exists m', s'.
    split; [reflexivity|]. split; [lia|]. split; [lia|].
    replace s with (Z.succ (s - 1)) by lia. rewrite Z.pow_succ_r by lia. rewrite M. nia.
Qed.

(** The fields of a bit pattern. *)
Definition f64_field (bits : Z) : Z := fmag 52 11 bits / 2 ^ 52.
Lemma fields bits : 0 <= bits < 2 ^ 64 ->
  Z.land (bits / 2 ^ 52) 2047 = f64_field bits /\ Z.land bits (2 ^ 52 - 1) = fmag 52 11 bits mod 2 ^ 52 /\
  0 <= f64_field bits <= 2047.
Proof.
  intros H. unfold f64_field, fmag. change (2 ^ (52 + 11)) with (2 ^ 52 * 2 ^ 11).
  rewrite Z.rem_mul_r by lia. split; [|split].
  - change 2047 with (Z.ones 11). rewrite Z.land_ones by lia. rewrite Z.add_comm, Z.mul_comm, Z.div_add_l by lia.
    rewrite (Z.div_small (bits mod 2 ^ 52)) by (apply Z.mod_pos_bound; lia). lia.
  - change (2 ^ 52 - 1) with (Z.ones 52). rewrite Z.land_ones by lia. rewrite Z.mul_comm, Z.mod_add, Z.mod_mod by lia. reflexivity.
  - rewrite Z.add_comm, Z.mul_comm, Z.div_add_l by lia.
    rewrite (Z.div_small (bits mod 2 ^ 52)) by (apply Z.mod_pos_bound; lia). rewrite Z.add_0_r.
    pose proof (Z.mod_pos_bound (bits / 2 ^ 52) (2 ^ 11)). lia.
Qed.

Lemma fvalue_sgv mb eb b : fvalue mb eb b = (sgv (fneg_bit mb eb b) (funits mb (fmag mb eb b)) # Z.to_pos (2 ^ (- funit mb eb))).
Proof. unfold fvalue, sgv. destruct (fneg_bit mb eb b); reflexivity. Qed.

(** The mantissa of a finite pattern and what the constructor makes of it. *)
Definition f64_mant (bits : Z) : Z :=
  if f64_field bits =? 0 then fmag 52 11 bits mod 2 ^ 52 else fmag 52 11 bits mod 2 ^ 52 + 2 ^ 52.
Lemma mant_bound bits : 0 <= f64_mant bits < 2 ^ 53.
Proof.
  unfold f64_mant. pose proof (Z.mod_pos_bound (fmag 52 11 bits) (2 ^ 52)). change (2 ^ 53) with (2 * 2 ^ 52).
  destruct (_ =? 0); lia.
Qed.
Lemma mant_units bits : 0 <= bits < 2 ^ 64 ->
  funits 52 (fmag 52 11 bits) = f64_mant bits * 2 ^ (Z.max (f64_field bits) 1 - 1).
Proof.
  intros H. destruct (fields bits H) as (_ & _ & FB). unfold funits, f64_mant. fold (f64_field bits).
  destruct (Z.eqb_spec (f64_field bits) 0) as [E|E].
  - rewrite E. change (Z.max 0 1 - 1) with 0. rewrite Z.pow_0_r, Z.mul_1_r. symmetry. apply Z.mod_small.
    unfold f64_field in E. pose proof (Z.div_mod (fmag 52 11 bits) (2 ^ 52)) as DM. rewrite E in DM.
    pose proof (Z.mod_pos_bound (fmag 52 11 bits) (2 ^ 52)). lia.
  - rewrite Z.max_l by lia. reflexivity.
Qed.
Lemma fmag_zero bits : 0 <= bits < 2 ^ 64 -> f_is_zero 52 11 bits = (f64_mant bits =? 0).
Proof.
  intros H. unfold f_is_zero, f64_mant, f64_field. set (k := fmag 52 11 bits).
  assert (0 <= k) by (apply Z.mod_pos_bound; lia).
  pose proof (Z.mod_pos_bound k (2 ^ 52)). pose proof (Z.div_mod k (2 ^ 52)).
  assert (0 <= k / 2 ^ 52) by (apply Z.div_pos; lia).
  destruct (Z.eqb_spec (k / 2 ^ 52) 0) as [E|E].
  - replace (k mod 2 ^ 52) with k by lia. reflexivity.
  - destruct (Z.eqb_spec k 0), (Z.eqb_spec (k mod 2 ^ 52 + 2 ^ 52) 0); lia || reflexivity.
Qed.

Lemma from_f64_eq bits : 0 <= bits < 2 ^ 64 -> f64_field bits < 2047 ->
  r_from_f64 bits =
    let '(m, s) := from_f64_loop 1100 (f64_mant bits) (1075 - Z.max (f64_field bits) 1) in
    r_norm (RT (BI (from_u64 m) (fneg_bit 52 11 bits && negb (f64_mant bits =? 0)))
               (BI (shl_inner (from_u32 1) (Z.abs s)) false)).
Proof.
  intros H F. destruct (fields bits H) as (F1 & F2 & FB). unfold r_from_f64. rewrite F1, F2.
  destruct (Z.eqb_spec (f64_field bits) 2047); [lia|]. rewrite fmag_zero by auto.
  assert (AB : forall s, (if 0 <? s then s else - s) = Z.abs s) by (intros s; destruct (Z.ltb_spec 0 s); lia).
  destruct (Z.eqb_spec (f64_field bits) 0) as [E|E].
  - replace (f64_mant bits) with (fmag 52 11 bits mod 2 ^ 52) by (unfold f64_mant; rewrite E; reflexivity).
    rewrite E. change (52 - (0 - 1022)) with (1075 - Z.max 0 1).
    destruct (from_f64_loop 1100 (fmag 52 11 bits mod 2 ^ 52) (1075 - Z.max 0 1)) as [m s]. rewrite AB. reflexivity.
  - replace (Z.lor (fmag 52 11 bits mod 2 ^ 52) (2 ^ 52)) with (f64_mant bits).
    + replace (52 - (f64_field bits - 1023)) with (1075 - Z.max (f64_field bits) 1) by lia.
      destruct (from_f64_loop 1100 (f64_mant bits) (1075 - Z.max (f64_field bits) 1)) as [m s]. rewrite AB. reflexivity.
    + unfold f64_mant. rewrite (proj2 (Z.eqb_neq _ _)) by auto.
      rewrite Z.lor_comm. pose proof (lor_low_add 1 52 (fmag 52 11 bits mod 2 ^ 52)) as L. rewrite Z.mul_1_l in L.
      rewrite L; [lia|lia|]. apply Z.mod_pos_bound. lia.
Qed.

Lemma norm_pow2 s m k : 0 <= m < 2 ^ 64 -> 0 <= k ->
  r_norm (RT (BI (from_u64 m) s) (BI (shl_inner (from_u32 1) k) false)) = r_norm (mk s m false (2 ^ k)).
Proof.
  intros Hm Hk. rewrite from_u64_of_Z by auto. change (from_u32 1) with (of_Z 1). rewrite shl_of_Z by lia.
  rewrite Z.mul_1_l. reflexivity.
Qed.

Lemma from_f64_small bits : 0 <= bits < 2 ^ 64 -> f64_field bits <= 1075 ->
  exists z, r_from_f64 bits = Ok z /\ denotes z (f64_value bits) /\ lowest z.
Proof.
  intros H F. rewrite from_f64_eq by (auto; lia). destruct (fields bits H) as (_ & _ & FB).
  pose proof (mant_bound bits) as MB. unfold f64_value. rewrite fvalue_sgv, mant_units by auto.
  rewrite unit64. change (- -1074) with 1074.
  set (s := 1075 - Z.max (f64_field bits) 1). assert (Hs : 0 <= s <= 1074) by (unfold s; lia).
  set (neg := fneg_bit 52 11 bits). set (M := f64_mant bits) in *.
  assert (ES : 2 ^ (Z.max (f64_field bits) 1 - 1) * 2 ^ s = 2 ^ 1074) by (rewrite <- Z.pow_add_r by lia; f_equal; unfold s; lia).
  set (P := 2 ^ (Z.max (f64_field bits) 1 - 1)) in *.
  destruct (Z.eq_dec M 0) as [E0|N0].
  - rewrite E0, loop_zero by lia. rewrite norm_pow2 by lia. rewrite norm_mk by lia. change (0 =? 0) with true.
    eexists. split; [reflexivity|]. change (2 ^ Z.abs 0) with 1. split.
    + split; [apply ok_mk; lia|]. rewrite rvalue_mk by lia. apply q_eq; [lia|apply Z.pow_pos_nonneg; lia|].
      rewrite Z.mul_0_l. destruct neg; reflexivity.
    + apply lowest_mk; try lia. reflexivity.
  - destruct (loop_spec 1100 M s) as (m & t & Q & A & B & C); [lia|lia|]. rewrite Q.
    assert (PS : 0 < 2 ^ s) by (apply Z.pow_pos_nonneg; lia). assert (PT : 0 < 2 ^ t) by (apply Z.pow_pos_nonneg; lia).
    assert (0 < m) by nia. rewrite norm_pow2 by lia. rewrite (Z.abs_eq t) by lia.
    rewrite (proj2 (Z.eqb_neq M 0)) by auto. rewrite andb_true_r.
    assert (E1074 : 0 < 2 ^ 1074) by (apply Z.pow_pos_nonneg; lia).
    destruct (norm_to neg m false (2 ^ t) (sgv neg (M * P) # Z.to_pos (2 ^ 1074))) as (z & Z1 & Z2 & _ & Z4); [lia|lia| |].
    + apply q_eq; auto. rewrite <- ES. assert (m * (P * 2 ^ s) = M * P * 2 ^ t) by nia.
      unfold sgv. destruct neg; [rewrite !Z.mul_opp_l; f_equal|]; auto.
    + exists z. split; [auto|]. split; [auto|]. apply Z4. unfold Qeq. cbn [Qnum Qden]. rewrite Z.mul_0_l, Z.mul_1_r.
      assert (0 < P) by (apply Z.pow_pos_nonneg; lia). unfold sgv. destruct neg; nia.
Qed.

(** Above 2 ^ 53 the shift goes into the denominator instead of the numerator. *)
Lemma from_f64_large bits : 0 <= bits < 2 ^ 64 -> 1075 < f64_field bits < 2047 ->
  exists z, r_from_f64 bits = Ok z /\ denotes z (f64_value bits / inject_Z (4 ^ (f64_field bits - 1075))) /\ lowest z.
Proof.
  intros H F. rewrite from_f64_eq by (auto; lia). destruct (fields bits H) as (_ & _ & FB).
  pose proof (mant_bound bits) as MB. unfold f64_value. rewrite fvalue_sgv, mant_units by auto.
  rewrite unit64. change (- -1074) with 1074. rewrite Z.max_l by lia. set (f := f64_field bits) in *.
  rewrite loop_neg by lia. set (neg := fneg_bit 52 11 bits).
  assert (M0 : 0 < f64_mant bits).
  { unfold f64_mant. fold f. rewrite (proj2 (Z.eqb_neq _ _)) by lia.
    pose proof (Z.mod_pos_bound (fmag 52 11 bits) (2 ^ 52)). lia. }
  set (M := f64_mant bits) in *. rewrite norm_pow2 by lia. rewrite (proj2 (Z.eqb_neq M 0)) by lia. rewrite andb_true_r.
  rewrite Z.abs_neq by lia. replace (- (1075 - f)) with (f - 1075) by lia.
  set (d := f - 1075). replace (f - 1) with (1074 + d) by (unfold d; lia).
  assert (Hd : 0 < d) by (unfold d; lia).
  assert (PD : 0 < 2 ^ d) by (apply Z.pow_pos_nonneg; lia).
  assert (E1074 : 0 < 2 ^ 1074) by (apply Z.pow_pos_nonneg; lia).
  assert (E4 : 4 ^ d = 2 ^ d * 2 ^ d) by (change 4 with (2 * 2); apply Z.pow_mul_l).
  rewrite Z.pow_add_r by lia. rewrite E4. set (D := 2 ^ d) in *. set (Y := 2 ^ 1074) in *.
  destruct (norm_to neg M false D ((sgv neg (M * (Y * D)) # Z.to_pos Y) / inject_Z (D * D))) as (z & Z1 & Z2 & _ & Z4); [lia|lia| |].
  - assert (P : exists p, D = Zpos p) by (destruct D; [lia|eauto|lia]). destruct P as [p P]. rewrite P.
    unfold Qdiv, Qinv, inject_Z. cbn [Qnum Qden Z.mul]. unfold Qeq, Qmult. cbn [Qnum Qden].
    rewrite !Pos2Z.inj_mul, !Z2Pos.id by lia. unfold sgv. destruct neg; ring.
  - exists z. split; [auto|]. split; [auto|]. apply Z4. intros C.
    assert (C' : (sgv neg (M * (Y * D)) # Z.to_pos Y == 0)%Q).
    { apply Qmult_integral in C. destruct C as [C|C]; [auto|]. exfalso.
      assert (P : exists p, D * D = Zpos p) by (assert (0 < D * D) by nia; destruct (D * D); [lia|eauto|lia]).
      destruct P as [p P]. rewrite P in C. discriminate C. }
    unfold Qeq in C'. cbn [Qnum Qden] in C'. rewrite Z.mul_0_l, Z.mul_1_r in C'. unfold sgv in C'.
    assert (0 < M * (Y * D)) by nia. destruct neg; lia.
Qed.
Lemma from_f64_nan bits : 0 <= bits < 2 ^ 64 -> f64_field bits = 2047 -> r_from_f64 bits = Ok r_nan.
Proof. intros H F. destruct (fields bits H) as (F1 & _ & _). unfold r_from_f64. rewrite F1, F. reflexivity. Qed.
Lemma finite_field bits : 0 <= bits < 2 ^ 64 -> (fmag 52 11 bits < finf 52 11 <-> f64_field bits < 2047).
Proof.
  intros H. rewrite finf64. unfold f64_field. pose proof (Z.div_mod (fmag 52 11 bits) (2 ^ 52)).
  pose proof (Z.mod_pos_bound (fmag 52 11 bits) (2 ^ 52)).
  split; intros L; [apply Z.div_lt_upper_bound|]; lia.
Qed.

(** f32 to f64 is exact. *)
Lemma f64_of_f32_value b : f32_finite b ->
  0 <= f64_of_f32 b < 2 ^ 64 /\ (f64_value (f64_of_f32 b) == f32_value b)%Q /\ f64_field (f64_of_f32 b) <= 1179.
Proof.
  intros [Hb Hf]. unfold f64_of_f32, fcast. pose proof finf32 as FI. pose proof finf64 as FI'.
  set (k := fmag 23 8 b) in *. assert (K0 : 0 <= k) by (apply Z.mod_pos_bound; lia).
  assert (f_is_nan 23 8 b = false) as -> by (apply Z.ltb_ge; fold k; lia).
  assert (f_is_inf 23 8 b = false) as -> by (apply Z.eqb_neq; fold k; lia).
  destruct (sig_exp 23 8 h23 k K0) as (E1 & E2 & E3). rewrite unit32 in *.
  assert (S1 : fsig 23 k < 2 ^ 24).
  { unfold fsig. pose proof (Z.mod_pos_bound k (2 ^ 23)). pose proof (Z.div_mod k (2 ^ 23)).
    change (2 ^ 24) with (2 * 2 ^ 23). destruct (Z.eqb_spec (k / 2 ^ 23) 0); lia. }
  assert (S2 : fexp 23 8 k <= 104).
  { unfold fexp. rewrite unit32. assert (k / 2 ^ 23 < 255) by (apply Z.div_lt_upper_bound; lia). lia. }
  set (m := fsig 23 k) in *. set (e := fexp 23 8 k) in *.
  assert (R : exists k', fround 52 11 m e = k' /\ 0 <= k' < 1180 * 2 ^ 52 /\ funits 52 k' = m * 2 ^ (e + 1074)).
  { destruct (Z.eq_dec m 0) as [->|N]; [exists 0; split; [reflexivity|split; [lia|reflexivity]]|].
    destruct (of_uint_pattern m ltac:(lia)) as (d & Hd & R & _).
    exists (m * 2 ^ d + (e - d + 1074) * 2 ^ 52). split; [|split; [lia|]].
    - replace e with (e - d + d) by lia. rewrite <- fround_shift by lia.
      replace (e - d) with (e - d + 1074 + funit 52 11) at 1 by (rewrite unit64; lia).
      rewrite fround_exact; [|lia|lia|split; lia|lia]. replace (e - d + d - d) with (e - d) by lia. apply Z.min_l. lia.
    - rewrite units_pattern by (try split; lia). rewrite <- Z.mul_assoc, <- Z.pow_add_r by lia. do 2 f_equal. lia. }
  destruct R as (k' & -> & KR & KU). set (neg := fneg_bit 23 8 b).
  assert (NB : fneg_bit 52 11 (fsigned 52 11 neg k') = neg).
  { unfold fneg_bit, fsigned. change (2 ^ (52 + 11)) with (2048 * 2 ^ 52).
    destruct neg; [apply Z.leb_le|apply Z.leb_gt]; lia. }
  assert (MG : fmag 52 11 (fsigned 52 11 neg k') = k').
  { unfold fmag, fsigned. change (2 ^ (52 + 11)) with (2048 * 2 ^ 52). destruct neg; [|apply Z.mod_small; lia].
    symmetry. apply (Z.mod_unique_pos _ _ 1); lia. }
  split; [unfold fsigned; change (2 ^ 64) with (4096 * 2 ^ 52); change (2 ^ (52 + 11)) with (2048 * 2 ^ 52); destruct neg; lia|].
  split.
  - unfold f64_value, f32_value. rewrite !fvalue_sgv, NB, MG, KU. fold k neg. rewrite <- E3, unit64, unit32.
    apply q_eq; [reflexivity|reflexivity|]. change (- -1074) with (149 + 925). change (- -149) with 149.
    replace (e + 1074) with (e - -149 + 925) by lia. rewrite !Z.pow_add_r by lia.
    unfold sgv. destruct neg; ring.
  - unfold f64_field. rewrite MG. enough (k' / 2 ^ 52 < 1180) by lia. apply Z.div_lt_upper_bound; lia.
Qed.
