(** The Float made of an integer, word by word, and of a Rat (used by
    Properties_FromRat.v). *)
From Coq Require Import ZArith QArith Qabs Lqa List Lia Bool.
From Verif Require Import Words Spec WordsFacts NatModel NatFacts NatFacts2 NatFacts4 
  BigInt SpecInt BigIntFacts Rat SpecRat RatFacts
  Float SpecFloat FloatFacts FloatFacts2 FloatFacts3 FloatFacts4 FloatFacts5 FloatFacts6 FloatFacts7 DecimalFacts.
Import ListNotations.
Open Scope Z_scope.

(** [k] moved up until its highest bit is the highest of its top word. *)
Definition aligned (k : Z) : Z := k * 2 ^ (31 - Z.log2 k mod 32).
Definition bits_of (k : Z) : Z := if k =? 0 then 1 else Z.log2 k + 1.

Lemma round_same x s : flform x = Finite -> normal_mant (flmant x) -> 0 <= s < 32 -> (2 ^ s | nval (flmant x)) -> flprec x = mbits (flmant x) - s -> 0 < flprec x ->
  fl_round x 0 = Ok (set_acc x Exact).
Proof.
  intros HF HN HS HD HP P0. destruct x as [mo ac fo ng p e m]. cbn [flmode flacc flform flneg flprec flexp flmant] in *. subst fo.
  destruct (normal_pos m HN) as (Hw & Hl & BM). unfold fl_round, set_acc, set_mant. cbn [flmode flacc flform flneg flprec flexp flmant is_finite negb].
  destruct (Z.leb_spec (mbits m) p) as [LE|GT]; [reflexivity|].
  rewrite is_set_bit_spec by (try apply HN; lia). rewrite normal_bits_len by auto. replace (mbits m - p - 1) with (s - 1) by lia.
  destruct (Z.leb_spec (mbits m) (s - 1)); [lia|]. cbn [bind]. destruct HD as (q & Q). assert (S2 : 2 ^ s = 2 * 2 ^ (s - 1)) by (rewrite <- Z.pow_succ_r by lia; f_equal; lia).
  assert (TB : Z.testbit (nval m) (s - 1) = false) by (rewrite Q; apply Z.mul_pow2_bits_low; lia). rewrite TB. cbv iota. rewrite sticky_spec by (auto; lia).
  assert (E0 : nval m mod 2 ^ (s - 1) = 0) by (rewrite Q, S2, Z.mul_assoc; apply Z.mod_mul, Z.pow_nonzero; lia). rewrite E0. cbn [Z.eqb negb andb orb Z.land].
  assert (EN : (p + 31) / 32 = Z.of_nat (length m)) by (unfold mbits in *; symmetry; apply Z.div_unique with (31 - s); lia).
  rewrite EN. destruct (Z.ltb_spec (Z.of_nat (length m)) (Z.of_nat (length m))); [lia|].
  destruct m as [|w m]; [cbn in Hl; lia|]. replace (32 * Z.of_nat (length (w :: m)) - p) with s by (unfold mbits in *; lia). cbn [upd_first bind].
  assert (Ew : w mod 2 ^ s = 0).
  { cbn [nval] in Q. assert (EW : W = 2 ^ (32 - s) * 2 ^ s) by (rewrite <- Z.pow_add_r by lia; replace (32 - s + s) with 32 by lia; reflexivity).
    replace w with ((q - 2 ^ (32 - s) * nval m) * 2 ^ s) by (rewrite EW in Q; lia). apply Z.mod_mul, Z.pow_nonzero; lia. }
  rewrite Ew, Z.sub_0_r. reflexivity.
Qed.
Lemma words_of n : 0 < n -> Z.of_nat (length (of_Z n)) = Z.log2 n / 32 + 1.
Proof.
  intros N. assert (C : canon (of_Z n)) by (apply of_Z_canon; lia). destruct (fnorm_spec (of_Z n) C) as (v & s & _ & _ & _ & _ & S & B); [rewrite of_Z_val by lia; auto|].
  rewrite bits_len_of_Z_eq in B by lia. destruct (Z.eqb_spec n 0); [lia|]. unfold mbits in B.
  assert (Z.of_nat (length (of_Z n)) - 1 = Z.log2 n / 32) by (apply Z.div_unique with (31 - s); lia). lia.
Qed.
(** A positive integer as a Float: all fields. *)
Lemma nat_float n ng : 0 < n ->
  exists v, set_nat fl_default (of_Z n) ng =
    Ok (if Z.log2 n + 1 <=? max_exp then FL ToNearestEven Exact Finite ng (Z.max (Z.log2 n + 1) 64) (Z.log2 n + 1) v
        else FL ToNearestEven (make_accuracy (negb ng)) Inf ng (Z.max (Z.log2 n + 1) 64) 0 v) /\
    normal_mant v /\ nval v = aligned n /\ mbits v = 32 * (Z.log2 n / 32 + 1).
Proof.
  intros N. assert (C : canon (of_Z n)) by (apply of_Z_canon; lia). assert (V : nval (of_Z n) = n) by (apply of_Z_val; lia).
  destruct (fnorm_spec (of_Z n) C ltac:(lia)) as (v & s & F & NM & MB & NV & S & B). pose proof (words_of n N) as WN. pose proof (Z.log2_nonneg n) as L0.
  unfold set_nat. rewrite is_nan_of_Z, of_Z_eq_u32, F, bits_len_of_Z_eq in * by lia. destruct (Z.eqb_spec n 0); [lia|]. cbn [bind].
  assert (ES : s = 31 - Z.log2 n mod 32). { unfold mbits in *. rewrite WN in B. pose proof (Z.div_mod (Z.log2 n) 32 ltac:(lia)). lia. }
  assert (AL : nval v = aligned n) by (rewrite NV, V, ES; reflexivity). assert (MV : mbits v = 32 * (Z.log2 n / 32 + 1)) by (rewrite MB; unfold mbits; rewrite WN; reflexivity).
  exists v. split; [|auto]. cbn [fl_default flprec flmode flform flexp flmant]. change (0 =? 0) with true. cbv iota.
  unfold set_mant, set_exp_and_round, set_form, set_acc, set_exp. cbn [flmode flacc flform flneg flprec flexp flmant].
  destruct (Z.ltb_spec (Z.log2 n + 1) min_exp); [unfold min_exp in *; lia|].
  destruct (Z.leb_spec (Z.log2 n + 1) max_exp) as [LE|GT].
  2:{ destruct (Z.ltb_spec max_exp (Z.log2 n + 1)); [|lia]. reflexivity. }
  destruct (Z.ltb_spec max_exp (Z.log2 n + 1)); [lia|].
  destruct (Z.le_gt_cases (mbits v) (Z.max (Z.log2 n + 1) 64)) as [L|L].
  - unfold fl_round, set_acc. cbn [flmode flacc flform flneg flprec flexp flmant is_finite negb]. destruct (Z.leb_spec (mbits v) (Z.max (Z.log2 n + 1) 64)); [|lia]. reflexivity.
  - assert (G : 64 < Z.log2 n + 1).
    { destruct (Z.le_gt_cases (Z.log2 n + 1) 64) as [G|G]; [|auto]. exfalso. assert (Z.log2 n / 32 <= 63 / 32) by (apply Z.div_le_mono; lia). change (63 / 32) with 1 in *. lia. }
    rewrite (round_same (FL ToNearestEven Exact Finite ng (Z.max (Z.log2 n + 1) 64) (Z.log2 n + 1) v) s); [reflexivity|..]; cbn [flmode flacc flform flneg flprec flexp flmant]; auto; [exists n; rewrite NV, V; reflexivity| |]; lia.
Qed.
