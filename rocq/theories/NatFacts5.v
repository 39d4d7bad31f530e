(** Trailing zeros, and the operator-level corollaries. *)
From Coq Require Import ZArith List Lia Bool.
From Verif Require Import Words Spec WordsFacts NatModel NatFacts NatFacts2 NatFacts3 NatFacts4.
Import ListNotations.
Open Scope Z_scope.

Lemma not_canon l : (1 <? length l)%nat = true -> last l 0 = 0 -> ~ canon l.
Proof.
  intros Hl Hz [_ [_ [H|H]]]; [|contradiction]. apply Nat.ltb_lt in Hl. lia.
Qed.

Lemma represents_of_Z l n : 0 <= n -> represents l n <-> l = of_Z n.
Proof.
  intros Hn. split.
  - intros [Hc Hv]. apply of_Z_unique; auto.
  - intros ->. split; [apply of_Z_canon; auto | apply of_Z_val; auto].
Qed.

Lemma rep_of_Z n : 0 <= n -> represents (of_Z n) n.
Proof. intros. apply represents_of_Z; auto. Qed.

Lemma ctz_pos_spec p : exists q, 0 <= ctz_pos p /\ Zpos p = (2 * q + 1) * 2 ^ ctz_pos p /\ 0 <= q.
Proof.
  induction p as [p IH|p IH|]; cbn [ctz_pos].
  - exists (Zpos p). split; [lia|]. rewrite Z.pow_0_r. lia.
  - destruct IH as [q [H0 [H1 H2]]]. exists q. split; [lia|]. split; [|lia].
    rewrite Z.pow_add_r by lia. rewrite Pos2Z.inj_xO, H1. ring.
  - exists 0. split; [lia|]. rewrite Z.pow_0_r. lia.
Qed.

Lemma ctz_spec x : 0 < x -> exists q, 0 <= ctz x /\ x = (2 * q + 1) * 2 ^ ctz x /\ 0 <= q.
Proof. destruct x; try lia. intros _. apply ctz_pos_spec. Qed.

Lemma ctz_lt32 x : 0 < x < W -> ctz x < 32.
Proof.
  intros H. destruct (ctz_spec x) as [q [H0 [H1 H2]]]; [lia|].
  destruct (Z_lt_le_dec (ctz x) 32) as [|Hge]; [auto|exfalso].
  assert (2 ^ 32 <= 2 ^ ctz x) by (apply Z.pow_le_mono_r; lia).
  change (2 ^ 32) with W in *. nia.
Qed.

Lemma trailling_zeros_spec a : words_ok a -> 0 < nval a ->
  exists q, 0 <= trailling_zeros a /\ 0 <= q /\ nval a = (2 * q + 1) * 2 ^ trailling_zeros a.
Proof.
  induction a as [|x a IH]; intros Hw Hp; [cbn [nval] in Hp; lia|].
  apply words_ok_cons in Hw. destruct Hw as [Hx Hw]. rewrite nval_cons in *.
  cbn [trailling_zeros]. destruct (x =? 0) eqn:E.
  - apply Z.eqb_eq in E. subst x. destruct IH as [q [H0 [H1 H2]]]; [auto|lia|].
    exists q. split; [lia|]. split; [lia|]. rewrite Z.pow_add_r by lia. rewrite H2 at 1.
    change (2 ^ 32) with W. ring.
  - apply Z.eqb_neq in E. destruct (ctz_spec x) as [q [H0 [H1 H2]]]; [lia|].
    pose proof (ctz_lt32 x ltac:(lia)) as H32.
    pose proof (nval_nonneg a Hw).
    exists (q + 2 ^ (31 - ctz x) * nval a). split; [lia|]. split.
    + pose proof (pow2_pos (31 - ctz x) ltac:(lia)). nia.
    + rewrite H1 at 1. assert (HW : W = 2 * 2 ^ (31 - ctz x) * 2 ^ ctz x).
      { rewrite <- Z.mul_assoc, <- Z.pow_add_r by lia. replace (31 - ctz x + ctz x) with 31 by lia. reflexivity. }
      rewrite HW at 1. ring.
Qed.

(** The valuation is unique. *)
Lemma valuation_unique q1 q2 t1 t2 : 0 <= t1 -> 0 <= t2 ->
  (2 * q1 + 1) * 2 ^ t1 = (2 * q2 + 1) * 2 ^ t2 -> t1 = t2.
Proof.
  assert (Haux : forall q1 q2 t1 t2, 0 <= t1 -> t1 < t2 ->
    (2 * q1 + 1) * 2 ^ t1 = (2 * q2 + 1) * 2 ^ t2 -> False).
  { intros a b s t Hs Ht H. replace t with ((t - s - 1) + 1 + s) in H by lia.
    rewrite !Z.pow_add_r in H by lia. rewrite Z.pow_1_r in H.
    pose proof (pow2_pos s Hs).
    assert (2 * a + 1 = (2 * b + 1) * (2 ^ (t - s - 1) * 2)) by nia. lia. }
  intros H1 H2 H. destruct (Z.lt_trichotomy t1 t2) as [Hl|[He|Hg]]; auto; exfalso.
  - eapply Haux; [| |exact H]; lia.
  - eapply Haux; [| |symmetry; exact H]; lia.
Qed.

Lemma trailling_zeros_of_Z n q t : 0 <= q -> 0 <= t -> n = (2 * q + 1) * 2 ^ t ->
  trailling_zeros (of_Z n) = t.
Proof.
  intros Hq Ht Hn. pose proof (pow2_pos t Ht). assert (0 < n) by nia.
  destruct (trailling_zeros_spec (of_Z n)) as [q' [K0 [K1 K2]]].
  - apply of_Z_words; lia.
  - rewrite of_Z_val; lia.
  - rewrite of_Z_val in K2 by lia. rewrite Hn in K2 at 1. symmetry.
    eapply valuation_unique; eauto.
Qed.

Lemma op2_canon f a b : canon a -> canon b -> op2 f a b = f a b.
Proof. intros Ha Hb. unfold op2. rewrite !is_nan_canon; auto. Qed.
Lemma op2r_canon f a b : canon a -> canon b -> op2r f a b = f a b.
Proof. intros Ha Hb. unfold op2r. rewrite !is_nan_canon; auto. Qed.
Lemma op1_canon f a w : canon a -> op1 f a w = f a w.
Proof. intros Ha. unfold op1. rewrite !is_nan_canon; auto. Qed.
Lemma op1r_canon f a w : canon a -> op1r f a w = f a w.
Proof. intros Ha. unfold op1r. rewrite !is_nan_canon; auto. Qed.

Ltac crush_op := unfold nat_add, nat_sub, nat_mul, nat_div, nat_rem, nat_bitand, nat_bitor,
   nat_bitxor, nat_shl, nat_shr, nat_add_u32, nat_sub_u32, nat_mul_u32, nat_div_u32, nat_rem_u32;
   rewrite ?op2_canon, ?op2r_canon, ?op1_canon, ?op1r_canon by assumption.

Section Ops.
Variables (a b : list Z).
Hypotheses (Ha : canon a) (Hb : canon b).
Let na := canon_nonneg a Ha.
Let nb := canon_nonneg b Hb.

Lemma nat_add_rep : represents (nat_add a b) (nval a + nval b).
Proof. crush_op. rewrite add_inner_of_Z by auto. apply rep_of_Z; lia. Qed.
Lemma nat_sub_rep : represents (nat_sub a b) (Z.abs (nval a - nval b)).
Proof. crush_op. rewrite sub_inner_of_Z by auto. apply rep_of_Z; lia. Qed.
Lemma sub_with_sign_rep :
  represents (fst (sub_with_sign a b)) (Z.abs (nval a - nval b)) /\
  (snd (sub_with_sign a b) = true <-> nval b <= nval a).
Proof.
  unfold sub_with_sign, sub_assign_with_sign. rewrite trim_canon_id by auto. rewrite !is_nan_canon by auto. cbn [orb].
  rewrite sub_with_sign_of_Z by auto. cbn [fst snd]. split; [apply rep_of_Z; lia|].
  apply Z.leb_le.
Qed.
Lemma nat_mul_rep : represents (nat_mul a b) (nval a * nval b).
Proof. crush_op. rewrite mul_inner_of_Z by auto. apply rep_of_Z; nia. Qed.
Lemma nat_mul_u64_rep : Z.of_nat (Nat.min (length a) (length b)) < W ->
  represents (op2 mul_inner_u64 a b) (nval a * nval b).
Proof. intros Hl. crush_op. rewrite mul_inner_u64_eq by auto. rewrite mul_inner_of_Z by auto. apply rep_of_Z; nia. Qed.
Lemma nat_divrem_rep : 0 < nval b -> exists q r,
  nat_div a b = Ok q /\ nat_rem a b = Ok r /\
  canon q /\ canon r /\ nval a = nval q * nval b + nval r /\ 0 <= nval r < nval b.
Proof.
  intros Hp. exists (of_Z (nval a / nval b)), (of_Z (nval a mod nval b)).
  crush_op. rewrite div_inner_of_Z, rem_inner_of_Z by auto.
  pose proof (Z.mod_pos_bound (nval a) (nval b) Hp).
  pose proof (Z.div_pos (nval a) (nval b) na Hp).
  rewrite !of_Z_val by lia. split; [auto|]. split; [auto|].
  split; [apply of_Z_canon; lia|]. split; [apply of_Z_canon; lia|]. split; [|lia].
  rewrite (Z.mul_comm (nval a / nval b)). apply Z.div_mod; lia.
Qed.
Lemma nat_divrem_zero : nval b = 0 -> nat_div a b = Panic /\ nat_rem a b = Panic.
Proof. intros Hp. crush_op. rewrite div_inner_zero, rem_inner_zero; auto. Qed.
Lemma nat_bit_rep :
  represents (nat_bitand a b) (Z.land (nval a) (nval b)) /\
  represents (nat_bitor a b) (Z.lor (nval a) (nval b)) /\
  represents (nat_bitxor a b) (Z.lxor (nval a) (nval b)) /\
  represents (and_not a b) (Z.ldiff (nval a) (nval b)).
Proof.
  crush_op. rewrite bitand_of_Z, bitor_of_Z, bitxor_of_Z, and_not_of_Z by auto.
  repeat split; try apply of_Z_canon; try apply of_Z_val;
  rewrite ?Z.land_nonneg, ?Z.lor_nonneg, ?Z.lxor_nonneg, ?Z.ldiff_nonneg; lia.
Qed.
End Ops.

Definition bit (a : list Z) (i : Z) : bool := Z.testbit (nval a) i.

Lemma nat_bits_testbit a b i : canon a -> canon b -> 0 <= i ->
  (bit (nat_bitand a b) i = bit a i && bit b i) /\
  (bit (nat_bitor a b) i = bit a i || bit b i) /\
  (bit (nat_bitxor a b) i = xorb (bit a i) (bit b i)) /\
  (bit (and_not a b) i = bit a i && negb (bit b i)).
Proof.
  intros Ha Hb Hi. unfold bit.
  destruct (nat_bit_rep a b Ha Hb) as [[_ ->] [[_ ->] [[_ ->] [_ ->]]]].
  rewrite Z.land_spec, Z.lor_spec, Z.lxor_spec, Z.ldiff_spec. auto.
Qed.

Lemma nat_not_rep a : canon a -> represents (nat_not a) (2 ^ bits_len a - 1 - nval a).
Proof.
  intros Ha. unfold nat_not. rewrite is_nan_canon by auto. rewrite not_of_Z by auto.
  apply rep_of_Z. pose proof (canon_nonneg a Ha).
  destruct (Z.eq_dec (nval a) 0) as [E|E].
  - rewrite E. pose proof (pow2_pos (bits_len a)). pose proof (bits_len_ge1 a Ha). lia.
  - pose proof (bits_len_pos a Ha). lia.
Qed.

Lemma sub_ones_testbit n x i : 0 <= n -> 0 <= x < 2 ^ n -> 0 <= i ->
  Z.testbit (2 ^ n - 1 - x) i = (i <? n) && negb (Z.testbit x i).
Proof.
  intros Hn Hx Hi.
  replace (2 ^ n - 1 - x) with (Z.ldiff (Z.ones n) x).
  - rewrite Z.ldiff_spec. f_equal. rewrite Z.testbit_ones_nonneg by lia. reflexivity.
  - assert (Hs : Z.ldiff x (Z.ones n) = 0).
    { rewrite Z.ldiff_ones_r by lia. rewrite Z.shiftr_div_pow2, Z.div_small by lia. apply Z.shiftl_0_l. }
    rewrite <- Z.sub_nocarry_ldiff by exact Hs. rewrite Z.ones_equiv. lia.
Qed.

Lemma nat_not_bits a i : canon a -> 0 <= i ->
  canon (nat_not a) /\
  bit (nat_not a) i = (i <? bits_len a) && negb (bit a i).
Proof.
  intros Ha Hi. destruct (nat_not_rep a Ha) as [Hc Hv]. split; [auto|].
  unfold bit. rewrite Hv. apply sub_ones_testbit; [pose proof (bits_len_ge1 a Ha); lia| |lia].
  pose proof (canon_nonneg a Ha). destruct (Z.eq_dec (nval a) 0) as [E|E].
  - rewrite E. pose proof (pow2_pos (bits_len a)). pose proof (bits_len_ge1 a Ha). lia.
  - pose proof (bits_len_pos a Ha). lia.
Qed.

Lemma u32_ops_rep a w : canon a -> 0 <= w < W ->
  represents (nat_add_u32 a w) (nval a + w) /\
  has_value (nat_sub_u32 a w) (Z.abs (nval a - w)) /\
  has_value (nat_mul_u32 a w) (nval a * w) /\
  (0 < w -> exists q r, nat_div_u32 a w = Ok q /\ nat_rem_u32 a w = Ok r /\
     represents q (nval a / w) /\ represents r (nval a mod w)) /\
  (w = 0 -> nat_div_u32 a w = Panic /\ nat_rem_u32 a w = Panic).
Proof.
  intros Ha Hw. pose proof (canon_nonneg a Ha). crush_op.
  split. { rewrite add_basic_of_Z by auto. apply rep_of_Z; lia. }
  split. { destruct (sub_basic_spec a w Ha Hw) as [H1 [H2 _]]. split; auto. }
  split. { destruct (mul_basic_spec a w (canon_words a Ha) Hw) as [H1 [H2 _]]. split; auto. }
  split.
  - intros Hp. exists (of_Z (nval a / w)), (of_Z (nval a mod w)).
    rewrite div_basic_of_Z, rem_basic_of_Z by (auto; lia).
    pose proof (Z.mod_pos_bound (nval a) w Hp). pose proof (Z.div_pos (nval a) w).
    split; [auto|]. split; [auto|]. split; apply rep_of_Z; lia.
  - intros ->. split; reflexivity.
Qed.

Lemma nat_shl_rep a k : canon a -> 0 <= k -> has_value (nat_shl a k) (nval a * 2 ^ k).
Proof.
  intros Ha Hk. crush_op. destruct (shl_inner_spec a k (canon_words a Ha) Hk). split; auto.
Qed.
Lemma nat_shl_rep_pos a k : canon a -> 0 < nval a -> 0 <= k -> represents (nat_shl a k) (nval a * 2 ^ k).
Proof.
  intros Ha Hp Hk. crush_op. rewrite shl_inner_of_Z by auto. apply rep_of_Z.
  pose proof (pow2_pos k Hk). nia.
Qed.

Lemma nat_shr_rep a k : canon a -> 0 <= k -> shr_good a k -> represents (nat_shr a k) (nval a / 2 ^ k).
Proof.
  intros Ha Hk Hg. crush_op. rewrite shr_inner_good by auto. apply rep_of_Z.
  apply Z.div_pos; [apply canon_nonneg; auto|apply pow2_pos; auto].
Qed.

Lemma nat_shr_word_multiple a j : canon a -> 0 <= j < Z.of_nat (length a) ->
  nval (nat_shr a (32 * j)) = nval a mod 2 ^ (32 * (Z.of_nat (length a) - j)).
Proof.
  intros Ha Hj. crush_op. rewrite shr_inner_wordmul.
  - replace (32 * j / 32) with j by (rewrite Z.mul_comm, Z.div_mul by lia; reflexivity).
    rewrite Wp_pow2. f_equal. f_equal. lia.
  - apply canon_words; auto.
  - lia.
  - rewrite Z.mul_comm. apply Z.mod_mul. lia.
  - lia.
Qed.

Lemma nat_cmp_rep a b : canon a -> canon b ->
  partial_cmp a b = Some (nval a ?= nval b) /\ (nat_eq a b = true <-> nval a = nval b).
Proof.
  intros Ha Hb. split; [apply partial_cmp_spec; auto|]. rewrite nat_eq_spec by auto. apply Z.eqb_eq.
Qed.

Lemma nat_cmp_nan a : partial_cmp a nan = None /\ partial_cmp nan a = None /\
  nat_eq nan a = false /\ nat_eq a nan = false.
Proof.
  destruct a; cbn; auto.
Qed.

Lemma bits_len_log2 a : canon a -> bits_len a = if nval a =? 0 then 1 else Z.log2 (nval a) + 1.
Proof. apply bits_len_spec. Qed.
