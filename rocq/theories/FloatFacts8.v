(** From machine floats, and [set_mant_exp]. *)
From Coq Require Import ZArith QArith Qabs Qround Qpower Lqa Lia Bool List.
From Verif Require Import Words Spec WordsFacts NatModel NatFacts NatFacts2 NatFacts3 NatFacts4 NatFacts5 NatConvFacts
  VecPrims VecFacts NatConv BigInt SpecInt BigIntFacts Ieee IeeeFacts IeeeFacts2 Rat SpecRat RatFacts3 Float SpecFloat FloatFacts FloatFacts2 FloatFacts3 FloatFacts4 FloatFacts5 FloatFacts6 FloatFacts7.
Import ListNotations.
Open Scope Z_scope.

Lemma set_mant_exp_spec x e : ok_float x -> flform x = Finite ->
  exists z, set_mant_exp x e = Ok z /\ result_for (flmode x) (flprec x) (flvalue x * dy 1 e) z.
Proof.
  intros O F. destruct (ok_finite x O F) as (P & N). unfold set_mant_exp. rewrite F. cbn [is_finite].
  assert (set_exp_and_round x (sat_add (flexp x) e) 0 = set_exp_and_round x (flexp x + e) 0) as ->.
  { unfold set_exp_and_round, sat_add. destruct (Z.lt_ge_cases (flexp x + e) (- 2 ^ 63)) as [A|A]; [|destruct (Z.lt_ge_cases (flexp x + e) (2 ^ 63)) as [B|B]].
    - rewrite (proj2 (Z.ltb_lt _ min_exp)) by (unfold min_exp; lia). rewrite (proj2 (Z.ltb_lt (flexp x + e) min_exp)) by (unfold min_exp; lia). reflexivity.
    - replace (Z.max (- 2 ^ 63) (Z.min (2 ^ 63 - 1) (flexp x + e))) with (flexp x + e) by lia. reflexivity.
    - rewrite (proj2 (Z.ltb_ge _ min_exp)) by (unfold min_exp; lia). rewrite (proj2 (Z.ltb_ge (flexp x + e) min_exp)) by (unfold min_exp; lia).
      rewrite (proj2 (Z.ltb_lt max_exp _)) by (unfold max_exp; lia). rewrite (proj2 (Z.ltb_lt max_exp (flexp x + e))) by (unfold max_exp; lia). reflexivity. }
  destruct (ser_spec x (flexp x + e) P N) as (z & Z1 & Z2). exists z. split; [auto|]. eapply result_wd; [|exact Z2].
  rewrite finite_val by auto. unfold mag. replace (flexp x + e - mbits (flmant x)) with (flexp x - mbits (flmant x) + e) by lia.
  rewrite (sq_wd _ _ _ (Qeq_sym _ _ (dy_mul2 (nval (flmant x)) (flexp x - mbits (flmant x)) e))).
  destruct (flneg x); cbn [sq]; ring.
Qed.

(** * From f64 *)
(** The value of a magnitude pattern as a dyadic number. *)
Lemma fvalue_dy b : 0 <= b < 2 ^ 64 ->
  (f64_value b == sq (fneg_bit 52 11 b) (dy (funits 52 (fmag 52 11 b)) (-1074)))%Q.
Proof.
  intros H. unfold f64_value, fvalue. change (- funit 52 11) with 1074. rewrite <- sg_dy. unfold sg.
  set (n := if fneg_bit 52 11 b then _ else _). unfold dy.
  rewrite (Qmake_Qdiv n). apply Qmult_comp; [reflexivity|]. reflexivity.
Qed.

Lemma split64 b : 0 <= b < 2 ^ 64 -> b = fsigned 52 11 (fneg_bit 52 11 b) (fmag 52 11 b) /\ 0 <= fmag 52 11 b < 2 ^ 63.
Proof.
  intros H. unfold fsigned, fneg_bit, fmag. change (2 ^ (52 + 11)) with (2 ^ 63). split; [|apply Z.mod_pos_bound; lia].
  destruct (Z.leb_spec (2 ^ 63) b).
  - rewrite <- (Z.mod_unique_pos b (2 ^ 63) 1 (b - 2 ^ 63)) by lia. lia.
  - symmetry. apply Z.mod_small. lia.
Qed.
Lemma signed_parts s k : 0 <= k < 2 ^ 63 ->
  fneg_bit 52 11 (fsigned 52 11 s k) = s /\ fmag 52 11 (fsigned 52 11 s k) = k /\
  fsigned 52 11 s k mod T52 = k mod T52 /\ Z.land (fsigned 52 11 s k / T52) 2047 = k / T52.
Proof.
  intros H. unfold fneg_bit, fmag, fsigned. change (2 ^ (52 + 11)) with (2 ^ 63).
  change 2047 with (Z.ones 11). rewrite Z.land_ones by lia. destruct s.
  - split; [apply Z.leb_le; lia|]. split; [symmetry; apply (Z.mod_unique_pos _ _ 1); lia|].
    change (2 ^ 63) with (2048 * T52). rewrite Z.mod_add, Z.div_add by lia. split; [reflexivity|].
    symmetry. apply (Z.mod_unique_pos _ _ 1); [|change (2 ^ 11) with 2048; lia]. split; [apply Z.div_pos; lia|].
    apply Z.div_lt_upper_bound; [lia|]. change (T52 * 2 ^ 11) with (2 ^ 63). lia.
  - split; [apply Z.leb_gt; lia|]. split; [apply Z.mod_small; lia|]. split; [reflexivity|]. apply Z.mod_small.
    split; [apply Z.div_pos; lia|]. apply Z.div_lt_upper_bound; [lia|]. change (T52 * 2 ^ 11) with (2 ^ 63). lia.
Qed.

(** The mantissa that [set_f64] makes of the fraction [frexp] returns. *)
Lemma frac_bits g : 0 <= g -> 
  Z.lor (2 ^ 63) ((Z.lor (Z.ldiff g (2047 * T52)) (1022 * T52) * 2 ^ 11) mod 2 ^ 64) = (g mod T52 + T52) * 2 ^ 11.
Proof.
  intros Hg. set (f := Z.lor (Z.ldiff g (2047 * T52)) (1022 * T52)).
  assert (E : f mod 2 ^ 53 = g mod T52).
  { apply Z.bits_inj'. intros i Hi. destruct (Z.lt_ge_cases i 53) as [L|L].
    - rewrite Z.mod_pow2_bits_low by lia. unfold f. rewrite Z.lor_spec, Z.ldiff_spec.
      destruct (Z.eq_dec i 52) as [->|N].
      + rewrite Z.mod_pow2_bits_high by lia. change (Z.testbit (2047 * T52) 52) with true.
        change (Z.testbit (1022 * T52) 52) with false. rewrite andb_false_r. reflexivity.
      + rewrite Z.mod_pow2_bits_low, !Z.mul_pow2_bits_low by lia. rewrite orb_false_r, andb_true_r. reflexivity.
    - rewrite !Z.mod_pow2_bits_high by lia. reflexivity. }
  assert (E2 : (f * 2 ^ 11) mod 2 ^ 64 = (g mod T52) * 2 ^ 11).
  { change (2 ^ 64) with (2 ^ 53 * 2 ^ 11). rewrite Z.mul_mod_distr_r, E by lia. reflexivity. }
  rewrite E2. pose proof (Z.mod_pos_bound g T52 ltac:(lia)).
  replace (2 ^ 63) with (1 * 2 ^ 63) by lia. rewrite lor_low_add by lia. change (1 * 2 ^ 63) with (T52 * 2 ^ 11). ring.
Qed.

Lemma set_f64_parts b : f64_finite b -> 0 < fmag 52 11 b ->
  exists sig e, (let '(f, e') := frexp b in (Z.lor (2 ^ 63) ((f * 2 ^ 11) mod 2 ^ 64), e')) = (sig * 2 ^ 11, e) /\
    T52 <= sig < 2 * T52 /\ (dy (funits 52 (fmag 52 11 b)) (-1074) == dy sig (e - 53))%Q /\ -1100 <= e <= 1100.
Proof.
  intros (B & FI) NZ. destruct (split64 b B) as (EB & KB). set (s := fneg_bit 52 11 b) in *. set (k := fmag 52 11 b) in *.
  unfold frexp, f_is_zero, f_is_inf, f_is_nan. fold k. rewrite finf64 in FI |- *.
  destruct (Z.eqb_spec k 0); [lia|]. destruct (Z.eqb_spec k (2047 * T52)); [lia|]. destruct (Z.ltb_spec (2047 * T52) k); [lia|].
  cbn [orb]. unfold normalize. fold k. destruct (Z.ltb_spec k T52) as [L|L].
  - (* subnormal *)
    set (l := Z.log2 k). pose proof (Z.log2_spec k NZ) as LS. fold l in LS. pose proof (Z.log2_nonneg k). fold l in H0.
    assert (LU : l < 52) by (apply Z.log2_lt_pow2; lia).
    assert (EM : fmul 52 11 b (f64_pow2 52) = fsigned 52 11 s (k * 2 ^ (52 - l) + l * T52)).
    { unfold fmul. fold s. fold k.
      assert (P : 0 <= f64_pow2 52 <= finf 52 11) by (vm_compute; split; discriminate).
      destruct (pos_pattern 52 11 (f64_pow2 52) h52 h11 P) as (-> & ->).
      destruct (pos_tests 52 11 (f64_pow2 52) h52 h11 P) as (-> & -> & ->).
      unfold f_is_nan, f_is_inf, f_is_zero. fold k. rewrite finf64.
      destruct (Z.eqb_spec k 0); [lia|]. destruct (Z.eqb_spec k (2047 * T52)); [lia|]. destruct (Z.ltb_spec (2047 * T52) k); [lia|].
      change (f64_pow2 52 =? 2047 * T52) with false. cbn [orb andb].
      replace (negb (eqb s false)) with s by (destruct s; reflexivity). f_equal.
      assert (DK : k / T52 = 0) by (apply Z.div_small; lia).
      assert (SK : fsig 52 k = k) by (unfold fsig; rewrite DK; reflexivity).
      assert (XK : fexp 52 11 k = -1074) by (unfold fexp; rewrite DK; reflexivity).
      rewrite SK, XK. change (fsig 52 (f64_pow2 52)) with T52. change (fexp 52 11 (f64_pow2 52)) with 0.
      rewrite (fround_shift 52 11) by lia. unfold fround. destruct (Z.eqb_spec k 0); [lia|]. fold l. rewrite unit64, finf64.
      assert (Z.max (l - 52 + (-1074 + 0 + 52)) (-1074) = l - 1074) as -> by lia. destruct (Z.leb_spec (l - 1074) (-1074 + 0 + 52)); [|lia].
      replace (-1074 + 0 + 52 - (l - 1074)) with (52 - l) by lia. replace (l - 1074 - -1074) with l by lia.
      apply Z.min_l. pose proof (Z.pow_pos_nonneg 2 (52 - l)).
      assert (KQ : k * 2 ^ (52 - l) < 2 ^ Z.succ l * 2 ^ (52 - l)) by nia. rewrite <- Z.pow_add_r in KQ by lia.
      replace (Z.succ l + (52 - l)) with 53 in KQ by lia. lia. }
    rewrite EM. set (q := k * 2 ^ (52 - l)).
    assert (QB : T52 <= q < 2 * T52).
    { pose proof (Z.pow_pos_nonneg 2 (52 - l)). unfold q. split.
      - replace T52 with (2 ^ l * 2 ^ (52 - l)) by (rewrite <- Z.pow_add_r by lia; f_equal; lia). nia.
      - change (2 * T52) with (2 ^ 53). replace (2 ^ 53) with (2 ^ Z.succ l * 2 ^ (52 - l)) by (rewrite <- Z.pow_add_r by lia; f_equal; lia). nia. }
    set (k' := q + l * T52). destruct (signed_parts s k' ltac:(unfold k'; lia)) as (_ & _ & P3 & P4).
    assert (D : k' / T52 = l + 1).
    { unfold k'. rewrite Z.div_add by lia. assert (q / T52 = 1); [|lia]. symmetry. apply (Z.div_unique_pos q T52 1 (q - T52)); lia. }
    assert (M : k' mod T52 = q - T52).
    { unfold k'. rewrite Z.mod_add by lia. symmetry. apply (Z.mod_unique_pos q T52 1); lia. }
    rewrite frac_bits by (unfold fsigned, k'; destruct s; lia). rewrite P3, P4, D, M.
    exists q. eexists. split; [f_equal; lia|]. split; [lia|]. split; [|lia].
    unfold funits. rewrite (Z.div_small k) by lia. rewrite Z.eqb_refl. unfold q.
    rewrite (dy_shift k (-1074) (52 - l)) by lia. replace (-52 + (l + 1 - 1023 + 1) - 53) with (-1074 - (52 - l)) by lia. reflexivity.
  - destruct (signed_parts s k ltac:(lia)) as (_ & _ & P3 & P4). rewrite EB.
    rewrite frac_bits by (unfold fsigned; destruct s; lia). rewrite P3, P4.
    pose proof (Z.mod_pos_bound k T52 ltac:(lia)) as MB. pose proof (Z.div_mod k T52 ltac:(lia)) as DM.
    assert (DB : 1 <= k / T52 < 2047).
    { split; [apply Z.div_le_lower_bound; lia|apply Z.div_lt_upper_bound; lia]. }
    exists (k mod T52 + T52). eexists. split; [f_equal; lia|]. split; [lia|]. split; [|lia].
    unfold funits. destruct (Z.eqb_spec (k / T52) 0); [lia|].
    rewrite (dy_to _ (0 + (k / T52 - 1023 + 1) - 53) (-1074)) by lia. apply dy_wd. f_equal. f_equal. lia.
Qed.

Lemma set_f64_spec z b : f64_finite b -> 0 < fmag 52 11 b -> 0 <= flprec z ->
  let p := if flprec z =? 0 then 53 else flprec z in
  exists r, set_f64 z b = Ok r /\ result_for (flmode z) p (f64_value b) r.
Proof.
  intros FB NZ HP p. destruct (set_f64_parts b FB NZ) as (sig & e & E1 & E2 & E3 & E4). unfold set_f64.
  pose proof FB as (B & FI). pose proof (fvalue_dy b B) as FV. set (ng := fneg_bit 52 11 b) in *.
  unfold f_is_nan, f_is_zero, f_is_inf.
  destruct (Z.ltb_spec (finf 52 11) (fmag 52 11 b)); [lia|]. destruct (Z.eqb_spec (fmag 52 11 b) 0); [lia|].
  destruct (Z.eqb_spec (fmag 52 11 b) (finf 52 11)); [lia|]. fold p.
  destruct (frexp b) as [f e']. apply pair_equal_spec in E1 as (E1 & Ee). subst e'. rewrite E1. clear E1.
  set (t := sig * 2 ^ 11). assert (BT : 2 ^ 63 <= t < 2 ^ 64) by (unfold t; lia).
  destruct (two_words t BT) as (N & V & MB).
  assert (P0 : 0 < p) by (unfold p; destruct (Z.eqb_spec (flprec z) 0); lia).
  assert (EV : (dy t (e - 64) == dy sig (e - 53))%Q).
  { unfold t. rewrite (dy_shift sig (e - 53) 11) by lia. replace (e - 53 - 11) with (e - 64) by lia. reflexivity. }
  assert (FV' : (f64_value b == sq ng (dy sig (e - 53)))%Q) by (rewrite FV; apply sq_wd; auto).
  destruct (Z.ltb_spec p 53) as [L|L].
  - destruct (fl_round_spec (FL (flmode z) Exact Finite ng p e [t mod W; t / W])) as (r & R1 & R2).
    { split; [auto|]. flds. split; [auto|]. split; [auto|]. unfold min_exp, max_exp. lia. }
    exists r. split; [auto|]. flds. eapply result_wd; [|exact R2]. rewrite flvalue_fin by reflexivity. flds.
    rewrite FV'. apply sq_wd. rewrite V, MB. auto.
  - eexists. split; [reflexivity|].
    assert (R : representable p (dy sig (e - 53))).
    { exists sig, (e - 53). split; [|reflexivity]. assert (2 ^ 53 <= 2 ^ p) by (apply Z.pow_le_mono_r; lia). lia. }
    apply (result_fin (flmode z) ng p e [t mod W; t / W] Exact _ (dy sig (e - 53)) (dy sig (e - 53))); auto; try lia.
    + unfold min_exp, max_exp. lia.
    + rewrite V, MB. auto.
    + apply dy_pos. lia.
    + apply exact_rounded, rep_sq. auto.
    + symmetry. apply acc_eq. reflexivity.
Qed.

Lemma from_f64_exact b : f64_finite b -> 0 < fmag 52 11 b ->
  exists z, fl_from_f64 b = Ok z /\ ok_float z /\ flform z = Finite /\ flprec z = 53 /\ (flvalue z == f64_value b)%Q /\ flacc z = Exact.
Proof.
  intros FB NZ. destruct (set_f64_spec fl_default b FB NZ) as (z & Z1 & Z2); [cbn; lia|]. cbn [fl_default flprec Z.eqb flmode] in Z2.
  exists z. split; [auto|]. destruct (set_f64_parts b FB NZ) as (sig & e & _ & E2 & E3 & E4). pose proof FB as (B & _). pose proof (fvalue_dy b B) as FV.
  set (ng := fneg_bit 52 11 b) in *.
  assert (FV' : (f64_value b == sq ng (dy sig (e - 53)))%Q) by (rewrite FV; apply sq_wd; auto).
  assert (AV : (Qabs (f64_value b) == dy sig (e - 53))%Q).
  { rewrite FV', sq_abs. apply Qabs_pos, dy_nonneg. lia. }
  destruct (result_exact _ _ _ _ Z2) as (A1 & A2 & A3).
  - apply (rep_wd 53 (sq ng (dy sig (e - 53)))); [symmetry; exact FV'|]. apply rep_sq. exists sig, (e - 53). split; [lia|reflexivity].
  - rewrite AV, (dy_to sig (e - 53) (min_exp - 1)) by (unfold min_exp; lia). apply dy_le.
    pose proof (pow2_pos (e - 53 - (min_exp - 1)) ltac:(unfold min_exp; lia)). nia.
  - rewrite AV, (dy_to 1 max_exp (e - 53)) by (unfold max_exp; lia). apply dy_lt.
    assert (2 ^ 53 <= 2 ^ (max_exp - (e - 53))) by (apply Z.pow_le_mono_r; unfold max_exp; lia). lia.
  - destruct Z2 as (O & _ & P & _). auto 10.
Qed.

Lemma f64_of_f32_nonzero b : f32_finite b -> 0 < fmag 23 8 b -> f64_finite (f64_of_f32 b) /\ 0 < fmag 52 11 (f64_of_f32 b).
Proof.
  intros H N. destruct (f64_of_f32_value b H) as (A & B & C). unfold f64_field in C.
  destruct (split64 _ A) as (_ & K). set (k := fmag 52 11 (f64_of_f32 b)) in *.
  split; [split; [auto|]; fold k; rewrite finf64; pose proof (Z.div_mod k T52 ltac:(lia)); pose proof (Z.mod_pos_bound k T52 ltac:(lia)); lia|].
  destruct (Z.eq_dec k 0) as [E|]; [exfalso|lia]. rewrite (fvalue_dy _ A) in B. fold k in B. rewrite E in B.
  change (funits 52 0) with 0 in B.
  assert (Z0 : (f32_value b == 0)%Q). { rewrite <- B. destruct (fneg_bit 52 11 (f64_of_f32 b)); reflexivity. }
  unfold f32_value, fvalue, Qeq in Z0. cbn [Qnum Qden] in Z0. rewrite Z.mul_1_r in Z0.
  assert (0 < funits 23 (fmag 23 8 b)).
  { unfold funits. destruct (Z.eqb_spec (fmag 23 8 b / 2 ^ 23) 0); [lia|].
    assert (0 <= fmag 23 8 b / 2 ^ 23) by (apply Z.div_pos; lia). pose proof (Z.pow_pos_nonneg 2 (fmag 23 8 b / 2 ^ 23 - 1)).
    pose proof (Z.mod_pos_bound (fmag 23 8 b) (2 ^ 23)). nia. }
  destruct (fneg_bit 23 8 b); lia.
Qed.
