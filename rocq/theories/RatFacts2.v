(** Lemmas about [Rat]: conversion to machine floats. *)
From Coq Require Import ZArith QArith List Lia Bool.
From Verif Require Import Words Spec WordsFacts NatModel NatFacts NatFacts2 NatFacts3 NatFacts4 NatFacts5
  NatConv NatConvFacts BigInt SpecInt BigIntFacts BigIntFacts3 Ieee Rat SpecRat RatFacts IeeeFacts IeeeFacts2.
Import ListNotations.
Open Scope Z_scope.

(** A number of at most 24 bits is rounded to f32 through f64 without double
    rounding. *)
Lemma units_pow2 j : -1022 <= j <= 1023 -> funits 52 (f64_pow2 j) = 2 ^ (j + 1074).
Proof.
  intros Hj. unfold f64_pow2. replace ((j + 1023) * 2 ^ 52) with (2 ^ 52 + (j + 1022) * 2 ^ 52) by ring.
  rewrite units_pattern by (try split; lia). rewrite <- Z.pow_add_r by lia. f_equal. lia.
Qed.
Lemma f32_through_f64 m e : 0 <= m < 2 ^ 24 -> f32_of_f64 (fround 52 11 m e) = fround 23 8 m e.
Proof.
  intros Hm. destruct (Z.eq_dec m 0) as [->|N]; [reflexivity|].
  pose proof finf64 as F64. pose proof finf32 as F32.
  pose proof (fround_range 52 11 h52 h11 m e ltac:(lia)) as KR.
  assert (CAST : f32_of_f64 (fround 52 11 m e) =
    if fround 52 11 m e =? finf 52 11 then finf 23 8
    else fround 23 8 (fsig 52 (fround 52 11 m e)) (fexp 52 11 (fround 52 11 m e))).
  { unfold f32_of_f64, fcast. destruct (pos_tests 52 11 _ h52 h11 KR) as (-> & -> & _).
    destruct (pos_pattern 52 11 _ h52 h11 KR) as [-> ->]. cbn [fsigned].
    reflexivity. }
  set (k := fround 52 11 m e) in *.
  destruct (Z.lt_ge_cases e (-1000)) as [L|L]; [|destruct (Z.lt_ge_cases 900 e) as [G|G]].
  - (* too small *)
    assert (RZ : fround 23 8 m e = 0).
    { apply (fround_tiny 23 8 h23 h8 m e (- e)); rewrite ?unit32; try lia.
      replace (e - -149 + - e) with 149 by lia. apply Z.le_trans with (2 ^ 200); [|apply Z.pow_le_mono_r; lia].
      change (2 ^ 200) with (2 ^ 51 * 2 ^ 149). assert (0 < 2 ^ 149) by reflexivity. set (Y := 2 ^ 149) in *. clearbody Y. nia. }
    assert (KL : k <= f64_pow2 (-970)).
    { eapply (near_le 52 11 h52 h11 (m * 2 ^ (e - -1074 + - e)) (2 ^ (- e))); [apply Z.pow_pos_nonneg; lia| | |].
      - unfold k. rewrite <- unit64 at 1. apply fround_near; rewrite ?unit64; lia.
      - unfold f64_pow2. lia.
      - rewrite units_pow2 by lia. rewrite <- Z.pow_add_r by lia. replace (e - -1074 + - e) with 1074 by lia.
        apply Z.le_trans with (2 ^ 24 * 2 ^ 1074).
        + apply Z.mul_le_mono_nonneg_r; [apply Z.pow_nonneg|]; lia.
        + rewrite <- Z.pow_add_r by lia. apply Z.pow_le_mono_r; lia. }
    rewrite CAST, RZ. rewrite (proj2 (Z.eqb_neq _ _)) by (unfold f64_pow2 in KL; lia).
    destruct (sig_exp 52 11 h52 k ltac:(lia)) as (E1 & E2 & E3). rewrite unit64 in *.
    apply (fround_tiny 23 8 h23 h8 _ _ 925); rewrite ?unit32; try lia.
    replace (fexp 52 11 k - -149 + 925) with (fexp 52 11 k - -1074) by lia. rewrite E3.
    pose proof (units_le 52 h52 k (f64_pow2 (-970)) ltac:(lia) KL) as UL. rewrite units_pow2 in UL by lia.
    assert (2 * 2 ^ (-970 + 1074) <= 2 ^ 925) by (rewrite <- Z.pow_succ_r by lia; apply Z.pow_le_mono_r; lia).
    set (Y := 2 ^ (-970 + 1074)) in *. set (Z := 2 ^ 925) in *. clearbody Y Z. lia.
  - (* too large *)
    assert (RZ : fround 23 8 m e = finf 23 8).
    { apply (fround_large 23 8 h23 h8 m e 0); rewrite ?unit32; try lia.
      rewrite <- (Z.mul_1_l (2 ^ (e - -149 + 0))). rewrite <- Z.pow_add_r by lia. rewrite Z.mul_1_l.
      assert (2 ^ (23 + (2 ^ 8 - 2)) <= 2 ^ (e - -149 + 0)) by (apply Z.pow_le_mono_r; lia).
      assert (0 < 2 ^ (e - -149 + 0)) by (apply Z.pow_pos_nonneg; lia). change (2 ^ 0) with 1. nia. }
    assert (KL : f64_pow2 900 <= k).
    { eapply (near_ge 52 11 h52 (m * 2 ^ (e - -1074 + 0)) (2 ^ 0)); [reflexivity| | |].
      - unfold k. rewrite <- unit64 at 1. apply fround_near; rewrite ?unit64; lia.
      - unfold f64_pow2. lia.
      - rewrite units_pow2 by lia. change (2 ^ 0) with 1. rewrite Z.mul_1_l.
        assert (2 ^ (900 + 1074) <= 2 ^ (e - -1074 + 0)) by (apply Z.pow_le_mono_r; lia).
        assert (0 < 2 ^ (e - -1074 + 0)) by (apply Z.pow_pos_nonneg; lia). nia. }
    rewrite CAST, RZ. destruct (Z.eqb_spec k (finf 52 11)); [reflexivity|].
    destruct (sig_exp 52 11 h52 k ltac:(lia)) as (E1 & E2 & E3). rewrite unit64 in *.
    apply (fround_large 23 8 h23 h8 _ _ 925); rewrite ?unit32; try lia.
    replace (fexp 52 11 k - -149 + 925) with (fexp 52 11 k - -1074) by lia. rewrite E3.
    pose proof (units_le 52 h52 (f64_pow2 900) k ltac:(unfold f64_pow2; lia) KL) as UL. rewrite units_pow2 in UL by lia.
    eapply Z.le_trans; [|exact UL]. rewrite <- !Z.pow_add_r by lia. apply Z.pow_le_mono_r; lia.
  - (* exact in f64 *)
    destruct (of_uint_pattern m ltac:(lia)) as (d & Hd & R & _).
    assert (EK : k = m * 2 ^ d + (e - d + 1074) * 2 ^ 52).
    { unfold k. replace e with (e - d + d) by lia. rewrite <- fround_shift by lia.
      replace (e - d) with (e - d + 1074 + funit 52 11) at 1 by (rewrite unit64; lia).
      rewrite fround_exact; [|lia|lia|split; lia|lia]. replace (e - d + d - d) with (e - d) by lia. apply Z.min_l. lia. }
    rewrite CAST. rewrite (proj2 (Z.eqb_neq _ _)) by lia.
    set (sig := m * 2 ^ d) in *. set (c := e - d + 1074) in *.
    assert (D : k / 2 ^ 52 = c + 1).
    { rewrite EK. replace (sig + c * 2 ^ 52) with (sig - 2 ^ 52 + (c + 1) * 2 ^ 52) by ring. rewrite Z.div_add, Z.div_small by lia. lia. }
    assert (M : k mod 2 ^ 52 = sig - 2 ^ 52).
    { rewrite EK. replace (sig + c * 2 ^ 52) with (sig - 2 ^ 52 + (c + 1) * 2 ^ 52) by ring. rewrite Z.mod_add, Z.mod_small by lia. lia. }
    unfold fsig, fexp. rewrite D, M, unit64. rewrite (proj2 (Z.eqb_neq _ _)) by lia.
    replace (sig - 2 ^ 52 + 2 ^ 52) with sig by lia. unfold sig. rewrite fround_shift by lia. f_equal. lia.
Qed.

(** The words of the quotient. *)
Lemma mant32_of_Z v : 0 <= v < 2 ^ (23 + 3) -> mant32 (of_Z v) = v.
Proof. intros H. rewrite of_Z_small by lia. reflexivity. Qed.
Lemma mant64_of_Z v : 0 <= v < 2 ^ (52 + 3) -> mant64 (of_Z v) = v.
Proof.
  intros H. destruct (Z.lt_ge_cases v W) as [L|L].
  - rewrite of_Z_small by lia. unfold mant64. cbn [nth]. lia.
  - pose proof (Z.div_mod v W ltac:(lia)) as DM. pose proof (Z.mod_pos_bound v W ltac:(lia)) as MB.
    assert (1 <= v / W) by (apply Z.div_le_lower_bound; lia). assert (v / W < W) by (apply Z.div_lt_upper_bound; lia).
    rewrite <- (of_Z_unique [v mod W; v / W] v).
    + unfold mant64. cbn [nth]. lia.
    + split; [|split]; [repeat constructor; lia|discriminate|right; cbn [last]; lia].
    + cbn [nval]. lia.
Qed.

(** The conversions of the magnitudes. *)
Lemma quo_to_f64_spec A B : 0 <= A -> 0 < B -> exists k ex,
  quo_to_f64 (of_Z A) (of_Z B) = Ok (k, ex) /\ nearest 52 11 A B k /\
  (A = 0 -> k = 0 /\ ex = true) /\ (k = finf 52 11 -> ex = false) /\
  (B <= 2 * (A * 2 ^ 1074) -> k < finf 52 11 -> (ex = true <-> A * 2 ^ 1074 = B * funits 52 k)).
Proof.
  intros HA HB. unfold quo_to_f64. rewrite of_Z_eq_u32 by lia.
  pose proof (finf_pos 52 11 h52 h11) as FP.
  destruct (Z.eqb_spec A 0) as [->|N].
  - exists 0, true. split; [reflexivity|]. split; [|split; [auto|split; [lia|]]].
    + apply nearest_near. apply (near_intro 52 11 h52 _ _ 0 0); try lia; repeat split; lia.
    + rewrite Z.mul_0_l. lia.
  - destruct (quo_spec mant64 52 11 h52 h11 mant64_of_Z A B) as (r & e & ex & Q & Hr & NE & EX); [lia|lia|].
    rewrite Q. cbn [bind]. rewrite ldexp_uint by (change (2 ^ 53) with (2 * 2 ^ 52); lia).
    change (e - 53) with (e - (52 + 1)). set (k := fround 52 11 r (e - (52 + 1))) in *.
    assert (KR : 0 <= k <= finf 52 11) by (apply NE). destruct (pos_tests 52 11 k h52 h11 KR) as (_ & -> & _).
    exists k, (if k =? finf 52 11 then false else ex).
    split; [destruct (k =? finf 52 11); reflexivity|].
    split; [exact NE|]. split; [lia|]. split; [intros ->; rewrite Z.eqb_refl; reflexivity|].
    intros H1 H2. destruct (Z.eqb_spec k (finf 52 11)); [lia|]. apply EX; auto.
Qed.
Lemma quo_to_f32_spec A B : 0 < A -> 0 < B -> exists k ex,
  quo_to_f32 (of_Z A) (of_Z B) = Ok (k, ex) /\ nearest 23 8 A B k /\ (k = finf 23 8 -> ex = false) /\
  (B <= 2 * (A * 2 ^ 149) -> k < finf 23 8 -> (ex = true <-> A * 2 ^ 149 = B * funits 23 k)).
Proof.
  intros HA HB. unfold quo_to_f32.
  destruct (quo_spec mant32 23 8 h23 h8 mant32_of_Z A B) as (r & e & ex & Q & Hr & NE & EX); [lia|lia|].
  rewrite Q. cbn [bind]. rewrite ldexp_uint, f32_through_f64 by lia.
  change (e - 24) with (e - (23 + 1)). set (k := fround 23 8 r (e - (23 + 1))) in *.
  assert (KR : 0 <= k <= finf 23 8) by (apply NE). destruct (pos_tests 23 8 k h23 h8 KR) as (_ & -> & _).
  exists k, (if k =? finf 23 8 then false else ex).
  split; [destruct (k =? finf 23 8); reflexivity|].
  split; [exact NE|]. split; [intros ->; rewrite Z.eqb_refl; reflexivity|].
  intros H1 H2. destruct (Z.eqb_spec k (finf 23 8)); [lia|]. apply EX; auto.
Qed.
Lemma quo_to_f32_zero B : 0 < B -> quo_to_f32 (of_Z 0) (of_Z B) = Panic.
Proof.
  intros HB. unfold quo_to_f32, quo_core. rewrite !bits_len_of_Z_eq by lia. change (0 =? 0) with true.
  rewrite (proj2 (Z.eqb_neq B 0)) by lia. cbv zeta. pose proof (Z.log2_nonneg B) as LB. change (23 + 2) with 25.
  rewrite !(proj2 (Z.ltb_lt _ _)) by lia.
  assert (S : forall s, 0 <= s -> trim (shl_inner (of_Z 0) s) = of_Z 0).
  { intros s Hs. destruct (shl_inner_spec (of_Z 0) s) as [V Wd]; [apply of_Z_canon; lia|auto|]. rewrite of_Z_val in V by lia.
    rewrite Z.mul_0_l in V. apply of_Z_unique; [|rewrite trim_val; auto]. apply trim_canon; [auto|].
    unfold shl_inner. destruct (s mod 32 >? 0); intros C; apply app_eq_nil in C; destruct C as [_ C]; discriminate C. }
  rewrite S by lia. rewrite nat_div_of_Z, nat_rem_of_Z' by lia. rewrite Z.div_0_l, Z.mod_0_l by lia. reflexivity.
Qed.

(** Signs. *)
Lemma fsigned_parts mb eb s k : 1 <= mb -> 2 <= eb -> 0 <= k <= finf mb eb ->
  fneg_bit mb eb (fsigned mb eb s k) = s /\ fmag mb eb (fsigned mb eb s k) = k.
Proof.
  intros Hm He Hk. assert (H : finf mb eb < 2 ^ (mb + eb)).
  { unfold finf. rewrite Z.pow_add_r by lia. pose proof (Z.pow_pos_nonneg 2 mb). nia. }
  unfold fneg_bit, fmag, fsigned. destruct s; split.
  - apply Z.leb_le. lia.
  - symmetry. apply (Z.mod_unique_pos _ _ 1); lia.
  - apply Z.leb_gt. lia.
  - apply Z.mod_small. lia.
Qed.
Lemma fopp_pos mb eb k : 1 <= mb -> 2 <= eb -> 0 <= k <= finf mb eb -> fopp mb eb k = fsigned mb eb true k.
Proof. intros Hm He Hk. unfold fopp. destruct (pos_pattern mb eb k Hm He Hk) as [-> ->]. reflexivity. Qed.
Lemma fvalue_signed mb eb s k m n : 1 <= mb -> 2 <= eb -> 0 <= k <= finf mb eb -> 0 < n ->
  (fvalue mb eb (fsigned mb eb s k) == sgv s m # Z.to_pos n)%Q <-> m * 2 ^ (- funit mb eb) = n * funits mb k.
Proof.
  intros Hm He Hk Hn. unfold fvalue. destruct (fsigned_parts mb eb s k Hm He Hk) as [-> ->].
  assert (0 < 2 ^ (- funit mb eb)) by (apply Z.pow_pos_nonneg; [lia|pose proof (U_neg mb eb Hm He); lia]).
  destruct s; cbn [sgv]; rewrite q_eq by auto; lia.
Qed.

Lemma to_f64_spec x : ok_rat x -> exists f ex, r_to_f64 x = Ok (f, ex) /\
  fneg_bit 52 11 f = bneg (rnum x) /\ nearest 52 11 (Z.abs (Qnum (rvalue x))) (Zpos (Qden (rvalue x))) (fmag 52 11 f) /\
  (not_tiny 52 11 (rvalue x) -> (ex = true <-> fmag 52 11 f < finf 52 11 /\ (f64_value f == rvalue x)%Q)).
Proof.
  intros H. destruct (ok_rat_mk x H) as (s & m & t & n & Hm & Hn & ->). rewrite rvalue_mk by auto.
  cbn [Qnum Qden]. rewrite Z2Pos.id by auto. unfold r_to_f64. rewrite mk_nan by lia. unfold mk. cbn [rnum rden bnat bneg].
  rewrite (of_Z_eq_u32 n) by lia. rewrite (proj2 (Z.eqb_neq n 0)) by lia.
  destruct (quo_to_f64_spec m n Hm Hn) as (k & ex & Q & NE & A0 & IN & EX). rewrite Q. cbn [bind].
  assert (KR : 0 <= k <= finf 52 11) by (apply NE). assert (AB : Z.abs (sgv s m) = m) by (unfold sgv; destruct s; lia).
  exists (fsigned 52 11 s k), ex. split; [destruct s; [rewrite fopp_pos by (auto using h52, h11)|]; reflexivity|].
  destruct (fsigned_parts 52 11 s k h52 h11 KR) as [-> ->]. split; [reflexivity|]. rewrite AB. split; [exact NE|].
  unfold not_tiny, f64_value. cbn [Qnum Qden]. rewrite Z2Pos.id, AB, unit64 by auto. intros NT.
  rewrite (fvalue_signed 52 11 s k m n h52 h11 KR Hn), unit64. change (- -1074) with 1074.
  destruct (Z.eq_dec m 0) as [->|M0].
  - destruct (A0 eq_refl) as [-> ->]. split; [|auto]. intros _. split; [apply (Z.lt_le_trans _ (3 * 2 ^ 52)); [lia|apply finf_pos; lia]|].
    rewrite Z.mul_0_l. cbn. lia.
  - assert (NT' : n <= 2 * (m * 2 ^ 1074)).
    { destruct NT as [C|NT]; [unfold sgv in C; destruct s; lia|]. change (1 - -1074) with (Z.succ 1074) in NT.
      rewrite Z.pow_succ_r in NT by lia. lia. }
    destruct (Z.eq_dec k (finf 52 11)) as [E|E]; [rewrite (IN E); split; [discriminate|lia]|].
    rewrite EX by (auto; lia). split; [intros; split; [lia|auto]|tauto].
Qed.
Lemma to_f32_spec x : ok_rat x -> ~ (rvalue x == 0)%Q -> exists f ex, r_to_f32 x = Ok (f, ex) /\
  fneg_bit 23 8 f = bneg (rnum x) /\ nearest 23 8 (Z.abs (Qnum (rvalue x))) (Zpos (Qden (rvalue x))) (fmag 23 8 f) /\
  (not_tiny 23 8 (rvalue x) -> (ex = true <-> fmag 23 8 f < finf 23 8 /\ (f32_value f == rvalue x)%Q)).
Proof.
  intros H. destruct (ok_rat_mk x H) as (s & m & t & n & Hm & Hn & ->). rewrite rvalue_mk by auto.
  intros NZ. assert (M0 : 0 < m).
  { destruct (Z.eq_dec m 0) as [->|]; [|lia]. exfalso. apply NZ. destruct s; reflexivity. }
  cbn [Qnum Qden]. rewrite Z2Pos.id by auto. unfold r_to_f32. rewrite mk_nan by lia. unfold mk. cbn [rnum rden bnat bneg].
  rewrite (of_Z_eq_u32 n) by lia. rewrite (proj2 (Z.eqb_neq n 0)) by lia.
  destruct (quo_to_f32_spec m n M0 Hn) as (k & ex & Q & NE & IN & EX). rewrite Q. cbn [bind].
  assert (KR : 0 <= k <= finf 23 8) by (apply NE). assert (AB : Z.abs (sgv s m) = m) by (unfold sgv; destruct s; lia).
  exists (fsigned 23 8 s k), ex. split; [destruct s; [rewrite fopp_pos by (auto using h23, h8)|]; reflexivity|].
  destruct (fsigned_parts 23 8 s k h23 h8 KR) as [-> ->]. split; [reflexivity|]. rewrite AB. split; [exact NE|].
  unfold not_tiny, f32_value. cbn [Qnum Qden]. rewrite Z2Pos.id, AB, unit32 by auto. intros NT.
  rewrite (fvalue_signed 23 8 s k m n h23 h8 KR Hn), unit32. change (- -149) with 149.
  assert (NT' : n <= 2 * (m * 2 ^ 149)).
  { destruct NT as [C|NT]; [unfold sgv in C; destruct s; lia|]. change (1 - -149) with (Z.succ 149) in NT.
    rewrite Z.pow_succ_r in NT by lia. lia. }
  destruct (Z.eq_dec k (finf 23 8)) as [E|E]; [rewrite (IN E); split; [discriminate|lia]|].
  rewrite EX by (auto; lia). split; [intros; split; [lia|auto]|tauto].
Qed.
Lemma to_f32_zero x : ok_rat x -> (rvalue x == 0)%Q -> r_to_f32 x = Panic.
Proof.
  intros H. destruct (ok_rat_mk x H) as (s & m & t & n & Hm & Hn & ->). rewrite rvalue_mk by auto. intros E.
  assert (m = 0). { unfold Qeq in E. cbn [Qnum Qden] in E. unfold sgv in E. destruct s; lia. }
  subst m. unfold r_to_f32. rewrite mk_nan by lia. unfold mk. cbn [rnum rden bnat bneg].
  rewrite (of_Z_eq_u32 n) by lia. rewrite (proj2 (Z.eqb_neq n 0)) by lia. rewrite quo_to_f32_zero by auto. reflexivity.
Qed.
