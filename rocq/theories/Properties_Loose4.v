(** Powers of numbers with leading zero words: property C136. *)
From Coq Require Import ZArith List Lia Bool.
From Verif Require Import Words Spec WordsFacts NatModel NatFacts NatFacts2 NatFacts3 NatFacts4 NatFacts5 SpecLoose LooseFacts SpecShift
  NatPow NatConvFacts NatPowFacts BigIntFacts.
Import ListNotations.
Open Scope Z_scope.

(** The bits below [bits_len] are those of the value, which has no others. *)
Definition bits_right (b : list Z) (e : Z) : Prop :=
  (forall i, 0 <= i < bits_len b -> is_set_bit_ b i = Ok (Z.testbit e i)) /\ 0 <= e < 2 ^ bits_len b /\ 1 <= bits_len b.
Lemma stored_bits b k e : stored b k e -> bits_right b e.
Proof.
  intros S. pose proof S as (Hw & L & K & V). pose proof (stored_bound _ _ _ S) as Be. pose proof (bits_len_stored _ _ _ S) as BL.
  assert (C : (e < 2 ^ (32 * (k - 1)) /\ bits_len b = Z.max 1 (32 * (k - 1))) \/ (2 ^ (32 * (k - 1)) <= e /\ canon b)).
  { destruct (Z.ltb_spec e (2 ^ (32 * (k - 1)))); [left; auto|right]. split; [auto|]. apply (stored_canon b k e S). auto. }
  destruct C as [(E & B)|(E & C)].
  - split; [|split].
    + intros i I. rewrite <- V. apply is_set_bit__spec; [auto|]. rewrite L. destruct (Z.eq_dec k 1) as [->|]; [cbn in B; lia|lia].
    + split; [lia|]. rewrite B. eapply Z.lt_le_trans; [exact E|]. apply Z.pow_le_mono_r; lia.
    + lia.
  - split; [|split].
    + intros i I. rewrite <- V. apply bit_of_Z_spec; auto.
    + split; [lia|]. rewrite <- V. destruct (Z.eq_dec (nval b) 0) as [->|]; [apply pow2_pos; pose proof (bits_len_ge1 b C); lia|apply bits_len_pos; auto; lia].
    + apply bits_len_ge1; auto.
Qed.
Lemma pow_loop_bits x b e n : 0 <= x -> bits_right b e -> forall i, 1 <= i -> i + Z.of_nat n = bits_len b ->
  pow_loop n i (of_Z (x ^ (2 ^ (i - 1)))) (of_Z (x ^ (e mod 2 ^ i))) b = Ok (of_Z (x ^ e)).
Proof.
  intros Hx (Hb & He & _). induction n as [|n IH]; intros i Hi Hn; cbn [pow_loop].
  - replace i with (bits_len b) by lia. rewrite (Z.mod_small e) by lia. reflexivity.
  - assert (P : 0 < 2 ^ (i - 1)) by (apply pow2_pos; lia).
    assert (P2 : 0 < 2 ^ i) by (apply pow2_pos; lia).
    assert (M : 0 <= e mod 2 ^ i) by (apply Z.mod_pos_bound; lia).
    rewrite mul_of_Z by (apply Z.pow_nonneg; auto).
    rewrite <- Z.pow_add_r by lia.
    replace (2 ^ (i - 1) + 2 ^ (i - 1)) with (2 ^ i)
      by (replace i with (i - 1 + 1) at 1 by lia; rewrite Z.pow_add_r by lia; lia).
    rewrite Hb by lia. cbn [bind].
    specialize (IH (i + 1) ltac:(lia) ltac:(lia)). replace (i + 1 - 1) with i in IH by lia.
    rewrite <- IH. f_equal. rewrite mod_pow2_succ by lia.
    destruct (Z.testbit e i).
    + rewrite mul_of_Z by (apply Z.pow_nonneg; auto). rewrite <- Z.pow_add_r by lia. do 2 f_equal. lia.
    + reflexivity.
Qed.
Lemma zero_stored b k e : stored b k e -> nat_eq_u32 b 0 = (k =? 1) && (e =? 0).
Proof. intros S. unfold nat_eq_u32, from_u32. apply (eqb_stored b k e [0] 1 0 S). apply single_stored. lia. Qed.
Lemma one_stored b k e : stored b k e -> nat_eq_u32 b 1 = (k =? 1) && (e =? 1).
Proof. intros S. unfold nat_eq_u32, from_u32. apply (eqb_stored b k e [1] 1 1 S). apply single_stored. lia. Qed.
Lemma pow_inner_stored m b k e : 0 <= m -> stored b k e -> m <> 0 \/ e <> 0 \/ k = 1 -> pow_inner (of_Z m) b = Ok (of_Z (m ^ e)).
Proof.
  intros M S NZ. pose proof (stored_bits _ _ _ S) as R. pose proof (stored_bound _ _ _ S) as Be. unfold pow_inner. rewrite of_Z_eq_u32, (zero_stored _ _ _ S) by lia.
  destruct (Z.eqb_spec m 0) as [->|].
  { destruct (Z.eqb_spec e 0) as [->|].
    - destruct NZ as [|[|]]; [congruence..|]. subst k. reflexivity.
    - rewrite andb_false_r, Z.pow_0_l by lia. reflexivity. }
  destruct (Z.eqb_spec k 1), (Z.eqb_spec e 0); cbn [andb]; [subst e; reflexivity|..].
  all: pose proof R as (Hb & _ & B1); rewrite Hb by lia; cbn [bind];
    pose proof (pow_loop_bits m b e (Z.to_nat (bits_len b - 1)) M R 1 ltac:(lia) ltac:(lia)) as E;
    change (2 ^ (1 - 1)) with 1 in E; rewrite Z.pow_1_r in E; rewrite <- E; f_equal; change (2 ^ 1) with 2; rewrite <- Z.bit0_mod;
    destruct (Z.testbit e 0); cbn [Z.b2z]; rewrite ?Z.pow_1_r; reflexivity.
Qed.

(** ** C136
    A power depends on the two numbers only ... *)
Theorem C136_pow_partial : forall a l m b k e, stored a l m -> stored b k e -> m <> 0 \/ e <> 0 \/ k = 1 ->
  exists r, nat_pow a b = Ok r /\ represents r (m ^ e).
Proof.
  intros a l m b k e SA SB NZ. pose proof (stored_bound _ _ _ SA). pose proof (stored_bound _ _ _ SB). unfold nat_pow. rewrite (stored_nan _ _ _ SA), (stored_nan _ _ _ SB). cbn [orb].
  rewrite (trim_stored _ _ _ SA), (pow_inner_stored m b k e) by (auto; lia). eexists. split; [reflexivity|]. apply rep_of_Z. apply Z.pow_nonneg. lia.
Qed.
(** ... except zero to the power of a zero of several words: 0 instead of 1. *)
Theorem C136_pow_zero_refuted : forall a l b k, stored a l 0 -> stored b k 0 -> 1 < k -> nat_pow a b = Ok [0] /\ nat_pow a [0] = Ok [1].
Proof.
  intros a l b k SA SB K. unfold nat_pow. rewrite (stored_nan _ _ _ SA), (stored_nan _ _ _ SB). cbn [orb].
  rewrite (trim_stored _ _ _ SA). split; [|reflexivity]. unfold pow_inner. rewrite (zero_stored _ _ _ SB). destruct (Z.eqb_spec k 1); [lia|]. reflexivity.
Qed.

Lemma half_bits e i : 0 <= e -> e / 2 ^ Z.of_nat i = 2 * (e / 2 ^ Z.of_nat (S i)) + Z.b2z (Z.testbit e (Z.of_nat i)).
Proof.
  intros. rewrite Z.testbit_spec' by lia.
  replace (2 ^ Z.of_nat (S i)) with (2 ^ Z.of_nat i * 2) by (rewrite Nat2Z.inj_succ, Z.pow_succ_r by lia; lia).
  rewrite <- Z.div_div by (try lia; apply Z.pow_nonzero; lia). apply Z.div_mod. lia.
Qed.
(** The loop over a modulus without leading zero words, and over one with more
    words than the power. *)
Lemma loop_modulus x b e n N : 0 <= x -> bits_right b e -> represents n N -> 1 < N ->
  forall i s, Z.of_nat i <= bits_len b -> 0 <= s -> s = x ^ (e / 2 ^ Z.of_nat i) mod N ->
  pow_mod_loop i (of_Z s) (of_Z (x mod N)) b n = Ok (of_Z (x ^ e mod N)).
Proof.
  intros Hx (Hb & He & _) (Hn & NV) H1. assert (NV' : nval n = N) by auto. subst N.
  induction i as [|i IH]; intros s Hi Hs E; cbn [pow_mod_loop].
  - rewrite E. cbn [Z.of_nat]. rewrite Z.pow_0_r, Z.div_1_r. reflexivity.
  - assert (Mx := Z.mod_pos_bound x (nval n) ltac:(lia)).
    rewrite mul_of_Z by lia. assert (S0 : 0 <= s * s) by nia.
    rewrite rem_inner_of_Z by (try apply of_Z_canon; auto; lia). cbn [bind]. rewrite of_Z_val by lia.
    rewrite Hb by lia. cbn [bind]. pose proof (half_bits e i ltac:(lia)) as HB. set (h := e / 2 ^ Z.of_nat i) in *.
    assert (Hq : 0 <= e / 2 ^ Z.of_nat (S i)) by (apply Z.div_pos; [lia|apply pow2_pos; lia]).
    assert (Sq : (s * s) mod nval n = x ^ (2 * (e / 2 ^ Z.of_nat (S i))) mod nval n).
    { rewrite E. rewrite <- Z.mul_mod by lia. rewrite <- Z.pow_add_r by lia. do 2 f_equal. lia. }
    pose proof (Z.mod_pos_bound (s * s) (nval n) ltac:(lia)).
    destruct (Z.testbit e (Z.of_nat i)); cbn [Z.b2z] in HB.
    + rewrite mul_of_Z by lia. rewrite rem_inner_of_Z by (try apply of_Z_canon; auto; nia). cbn [bind].
      rewrite of_Z_val by nia. apply IH; [lia|apply Z.mod_pos_bound; lia|].
      fold h. rewrite Sq, <- Z.mul_mod, HB, Z.pow_add_r, Z.pow_1_r by lia. reflexivity.
    + cbn [bind]. apply IH; [lia|apply Z.mod_pos_bound; lia|].
      fold h. rewrite Sq, HB, Z.add_0_r. reflexivity.
Qed.
Lemma rem_shorter x n k N : 0 <= x < 2 ^ (32 * (k - 1)) -> stored n k N -> 1 < k -> rem_inner (of_Z x) n = Ok (of_Z x).
Proof.
  intros X S K. unfold rem_inner. rewrite (zero_stored _ _ _ S). destruct (Z.eqb_spec k 1); [lia|]. cbn [andb].
  rewrite (cmp_stored _ _ _ _ _ _ (of_Z_stored x ltac:(lia)) S). unfold stored_compare.
  assert (words x <= k - 1).
  { unfold words. assert (Z.log2 x / 32 < k - 1); [|lia]. apply Z.div_lt_upper_bound; [lia|]. destruct (Z.eq_dec x 0) as [->|]; [change (Z.log2 0) with 0; lia|]. apply Z.log2_lt_pow2; lia. }
  destruct (Z.ltb_spec (words x) k); [reflexivity|lia].
Qed.
Lemma loop_shorter x b e n k N : 0 <= x -> bits_right b e -> stored n k N -> 1 < k -> x ^ e < 2 ^ (32 * (k - 1)) ->
  forall i, Z.of_nat i <= bits_len b -> pow_mod_loop i (of_Z (x ^ (e / 2 ^ Z.of_nat i))) (of_Z x) b n = Ok (of_Z (x ^ e)).
Proof.
  intros Hx (Hb & He & _) SN K Small.
  assert (MONO : forall j, 0 <= j <= e -> 0 <= x ^ j < 2 ^ (32 * (k - 1))).
  { intros j J. split; [apply Z.pow_nonneg; lia|]. destruct (Z.eq_dec x 0) as [->|]; [destruct (Z.eq_dec j 0) as [->|]; [rewrite Z.pow_0_r; apply Z.pow_gt_1; lia|rewrite Z.pow_0_l by lia; apply pow2_pos; lia]|].
    eapply Z.le_lt_trans; [|exact Small]. apply Z.pow_le_mono_r; lia. }
  induction i as [|i IH]; intros Hi; cbn [pow_mod_loop].
  - cbn [Z.of_nat]. rewrite Z.pow_0_r, Z.div_1_r. reflexivity.
  - pose proof (half_bits e i ltac:(lia)) as HB.
    assert (Hq : 0 <= e / 2 ^ Z.of_nat (S i)) by (apply Z.div_pos; [lia|apply pow2_pos; lia]).
    assert (HU : e / 2 ^ Z.of_nat i <= e) by (apply Z.div_le_upper_bound; [apply pow2_pos; lia|pose proof (pow2_pos (Z.of_nat i) ltac:(lia)); assert (0 <= (2 ^ Z.of_nat i - 1) * e) by (apply Z.mul_nonneg_nonneg; lia); lia]).
    set (q := e / 2 ^ Z.of_nat (S i)) in *. rewrite mul_of_Z by (apply Z.pow_nonneg; lia). rewrite <- Z.pow_add_r by lia.
    assert (0 <= Z.b2z (Z.testbit e (Z.of_nat i)) <= 1) by (destruct (Z.testbit e (Z.of_nat i)); cbn; lia).
    rewrite (rem_shorter _ n k N) by (auto; apply MONO; lia). cbn [bind]. rewrite Hb by lia. cbn [bind].
    replace (q + q) with (2 * q) by lia. destruct (Z.testbit e (Z.of_nat i)); cbn [Z.b2z] in HB.
    + rewrite mul_of_Z by (try apply Z.pow_nonneg; lia). replace (x ^ (2 * q) * x) with (x ^ (2 * q + 1)) by (rewrite Z.pow_add_r, Z.pow_1_r by lia; reflexivity).
      rewrite (rem_shorter _ n k N) by (auto; apply MONO; lia). cbn [bind]. rewrite <- HB. apply IH. lia.
    + cbn [bind]. rewrite Z.add_0_r in HB. rewrite <- HB. apply IH. lia.
Qed.
(** The remainder of a power by a number without leading zero words. *)
Theorem C136_pow_mod : forall a l m b k e n N, stored a l m -> stored b k e -> represents n N -> 0 < N ->
  exists r, nat_pow_mod a b n = Ok r /\ represents r (m ^ e mod N).
Proof.
  intros a l m b k e n N SA SB RN P. pose proof (stored_bound _ _ _ SA). pose proof (stored_bits _ _ _ SB) as R. pose proof (canon_stored _ _ RN) as SN.
  pose proof (Z.mod_pos_bound (m ^ e) N P). exists (of_Z (m ^ e mod N)). split; [|apply rep_of_Z; lia].
  unfold nat_pow_mod. rewrite (stored_nan _ _ _ SA), (stored_nan _ _ _ SB), (stored_nan _ _ _ SN). cbn [orb]. rewrite (trim_stored _ _ _ SA).
  destruct RN as (CN & NV). unfold pow_mod_inner. rewrite !nat_eq_u32_spec by (auto; lia). rewrite NV. destruct (Z.eqb_spec N 0); [lia|].
  destruct (Z.eqb_spec N 1) as [->|N1]; [rewrite Z.mod_1_r; reflexivity|].
  rewrite rem_inner_of_Z by (try apply of_Z_canon; auto; lia). cbn [bind]. rewrite NV, of_Z_val by lia. change [1] with (of_Z 1).
  apply (loop_modulus m b e n N); [lia|exact R|split; auto|lia|destruct R as (_ & _ & ?); lia|lia|].
  destruct R as (_ & Be & B1). rewrite Z2Nat.id by lia. rewrite Z.div_small by lia. rewrite Z.pow_0_r, Z.mod_small; lia.
Qed.
(** A modulus with more words than the power, as a small modulus with leading
    zero words, leaves the power unreduced. *)
Theorem C136_pow_mod_long : forall a l m b k e n j N, stored a l m -> stored b k e -> stored n j N -> 1 < j ->
  m < 2 ^ (32 * (j - 1)) -> m ^ e < 2 ^ (32 * (j - 1)) -> exists r, nat_pow_mod a b n = Ok r /\ represents r (m ^ e).
Proof.
  intros a l m b k e n j N SA SB SN J M ME. pose proof (stored_bound _ _ _ SA). pose proof (stored_bits _ _ _ SB) as R.
  exists (of_Z (m ^ e)). split; [|apply rep_of_Z; apply Z.pow_nonneg; lia].
  unfold nat_pow_mod. rewrite (stored_nan _ _ _ SA), (stored_nan _ _ _ SB), (stored_nan _ _ _ SN). cbn [orb]. rewrite (trim_stored _ _ _ SA).
  unfold pow_mod_inner. rewrite (zero_stored _ _ _ SN), (one_stored _ _ _ SN). destruct (Z.eqb_spec j 1); [lia|]. cbn [andb].
  rewrite (rem_shorter m n j N) by (auto; lia). cbn [bind].
  pose proof (loop_shorter m b e n j N ltac:(lia) R SN J ME (Z.to_nat (bits_len b))) as E. destruct R as (_ & Be & B1).
  rewrite Z2Nat.id, Z.div_small, Z.pow_0_r in E by lia. change (of_Z 1) with [1] in E. apply E. lia.
Qed.
(** 2^4 modulo 3 * 5u32 is 16. *)
Theorem C136_pow_mod_refuted : exists n, n = nat_mul_u32 [3] 5 /\ nval n = 15 /\ nat_pow_mod [2] [4] n = Ok [16] /\ nat_pow_mod [2] [4] [15] = Ok [1].
Proof. eexists. split; [reflexivity|]. vm_compute. auto. Qed.
Example C136_case : nat_pow [3; 0] [5] = Ok [243] /\ nat_pow [1; 0] [5; 0] = Ok [1] /\ nat_pow (nat_shl [0] 32) (nat_shl [0] 32) = Ok [0] /\ nat_pow_mod [7; 0] [10; 0] [1000] = Ok [249].
Proof. vm_compute. auto. Qed.

Print Assumptions C136_pow_partial.
Print Assumptions C136_pow_zero_refuted.
Print Assumptions C136_pow_mod.
Print Assumptions C136_pow_mod_long.
Print Assumptions C136_pow_mod_refuted.
