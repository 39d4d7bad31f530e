(** Bytes, powers, roots and greatest common divisors of numbers with leading
    zero words: property C135. *)
From Coq Require Import ZArith List Lia Bool.
From Verif Require Import Words Spec WordsFacts NatModel NatFacts NatFacts2 NatFacts5 SpecLoose LooseFacts
  NatConv SpecText NatConvFacts NatPow NatPowFacts Karatsuba KaraFacts2
  BigInt SpecInt BigIntFacts BigIntFacts3 SpecLooseInt SpecShift.
Import ListNotations.
Open Scope Z_scope.

(** ** C135
    The bytes are those of the number, followed by zero bytes. *)
Theorem C135_bytes : forall a l m, stored a l m ->
  digits_ok 256 (to_le_bytes a) /\ le_value 256 (to_le_bytes a) = m /\ to_be_bytes a = rev (to_le_bytes a) /\
  (1 < l -> m < 2 ^ (32 * (l - 1)) -> Z.of_nat (length (to_le_bytes a)) = 4 * (l - 1) + 1) /\
  represents (from_le_bytes (to_le_bytes a)) m /\ represents (from_be_bytes (to_be_bytes a)) m.
Proof.
  intros a l m S. pose proof (stored_nonnil a l m S) as Hn. pose proof S as (Hw & L & L0 & V).
  assert (A : digits_ok 256 (to_le_bytes a) /\ le_value 256 (to_le_bytes a) = m /\ to_le_bytes a <> [] /\
    (1 < l -> m < 2 ^ (32 * (l - 1)) -> Z.of_nat (length (to_le_bytes a)) = 4 * (l - 1) + 1)).
  { unfold to_le_bytes. destruct a as [|x0 a0]; [contradiction|]. set (a := x0 :: a0) in *.
    rewrite firstn_len1_removelast. pose proof (words_ok_last a Hw) as Hl.
    destruct (flat_u32_le (removelast a)) as [H1 [H2 H3]]; [apply words_ok_removelast; auto|].
    destruct (top_bytes_spec (last a 0) Hl) as [K1 [K2 [K3 K4]]].
    rewrite u32_le_eq, le_bytes_firstn by lia. set (k := top_bytes (last a 0)) in *.
    destruct (le_bytes_spec k (last a 0) K2) as [L1 [L2 L3]].
    split; [apply Forall_app; auto|]. pose proof (nval_last a Hn) as NL. split; [|split].
    - rewrite le_value_app, H2, L2, H3, <- V, NL, removelast_len.
      f_equal. f_equal. change 256 with (2 ^ 8). rewrite <- Z.pow_mul_r by lia. rewrite Wp_pow2. f_equal. lia.
    - intros E. apply app_eq_nil in E. destruct E as [_ E]. rewrite E in L3. cbn in L3. lia.
    - intros G M. rewrite app_length, L3, H3, removelast_len. rewrite K4; [lia|].
      rewrite Wp_pow2 in NL. replace (Z.of_nat (length a - 1)) with (l - 1) in NL by lia.
      pose proof (nval_nonneg _ (words_ok_removelast a Hw)). pose proof (Z.pow_pos_nonneg 2 (32 * (l - 1)) ltac:(lia) ltac:(lia)). nia. }
  destruct A as (A1 & A2 & A3 & A4). split; [auto|]. split; [auto|]. split; [apply to_be_bytes_rev; auto|]. split; [auto|]. split.
  - rewrite <- A2. apply from_le_bytes_rep; auto.
  - rewrite to_be_bytes_rev by auto. rewrite <- A2. replace (le_value 256 (to_le_bytes a)) with (be_value 256 (rev (to_le_bytes a))) by (rewrite be_value_le, rev_involutive; reflexivity).
    apply from_be_bytes_rep; [apply digits_ok_rev; auto|]. intros E. apply A3. rewrite <- (rev_involutive (to_le_bytes a)), E. reflexivity.
Qed.

(** The zero bits at the end: those of the number; for a zero, all bits of its
    words. *)
Theorem C135_trailing_zeros : forall a l m, stored a l m -> trailling_zeros a = if m =? 0 then 32 * l else trailling_zeros (of_Z m).
Proof.
  intros a l m (Hw & L & _ & V). destruct (Z.eqb_spec m 0) as [->|N].
  - clear -Hw L V. subst l. induction a as [|x a IH]; [reflexivity|]. apply words_ok_cons in Hw as [Hx Hw]. rewrite nval_cons in V. pose proof (nval_nonneg a Hw).
    assert (x = 0) by lia. subst x. cbn [trailling_zeros Z.eqb length]. rewrite IH by (auto; lia). lia.
  - pose proof (nval_nonneg a Hw). destruct (trailling_zeros_spec a Hw ltac:(lia)) as (q & T & Q & E). symmetry. apply trailling_zeros_of_Z with q; auto. lia.
Qed.

(** The square is right and has no leading zero words. *)
Theorem C135_square : forall a l m, stored a l m -> exists r, nat_sqr a = Ok r /\ represents r (m * m).
Proof.
  intros a l m S. pose proof (stored_nonnil a l m S) as Hn. destruct S as (Hw & _ & _ & V). unfold nat_sqr.
  destruct (sqr_v_spec (length a) a Hw ltac:(lia)) as (r & R1 & _ & R3 & _ & R5). rewrite R1. cbn [bind]. specialize (R5 Hn).
  exists (trim r). split; [reflexivity|]. rewrite trim_canon_id by auto. split; [auto|]. rewrite R3, V. reflexivity.
Qed.

Lemma div_trim a l m z : stored a l m -> nat_div a z = nat_div (of_Z m) z.
Proof.
  intros S. pose proof (stored_bound a l m S). unfold nat_div, op2r. rewrite (stored_nan a l m S), is_nan_of_Z by lia. cbn [orb].
  destruct (is_nan z); [reflexivity|]. unfold div_inner. rewrite (trim_stored a l m S), (trim_canon_id (of_Z m)) by (apply of_Z_canon; lia). reflexivity.
Qed.
Lemma sqrt_loop_trim a l m : stored a l m -> forall f z, sqrt_loop f a z = sqrt_loop f (of_Z m) z.
Proof.
  intros S. induction f as [|f IH]; intros z; [reflexivity|]. cbn [sqrt_loop]. rewrite (div_trim a l m z S). destruct (nat_div (of_Z m) z); cbn [bind]; auto.
  rewrite IH. reflexivity.
Qed.
Lemma sqrt_round x z : 0 <= x -> 0 < z -> forall f,
  sqrt_loop (S f) (of_Z x) (of_Z z) = if z <=? (x / z + z) / 2 then Ok (of_Z z) else sqrt_loop f (of_Z x) (of_Z ((x / z + z) / 2)).
Proof.
  intros X P f. cbn [sqrt_loop]. rewrite nat_div_of_Z by lia. cbn [bind]. pose proof (Z.div_pos x z X P).
  unfold nat_add, nat_shr. rewrite op2_canon by (apply of_Z_canon; lia). rewrite add_of_Z by lia. rewrite op1_canon by (apply of_Z_canon; lia). rewrite shr1_of_Z by lia. change (2 ^ 1) with 2.
  assert (0 <= (x / z + z) / 2) by (apply Z.div_pos; lia). rewrite nat_ge_spec by (apply of_Z_canon; lia). rewrite !of_Z_val by lia. reflexivity.
Qed.
Lemma sqrt_one : forall f k, 0 <= k -> k < Z.of_nat f -> sqrt_loop f (of_Z 1) (of_Z (2 ^ k)) = Ok (of_Z 1).
Proof.
  induction f as [|f IH]; intros k K F; [lia|]. pose proof (Z.pow_pos_nonneg 2 k ltac:(lia) K). rewrite sqrt_round by lia. destruct (Z.eq_dec k 0) as [->|N]; [reflexivity|].
  assert (E : 2 ^ k = 2 * 2 ^ (k - 1)) by (rewrite <- Z.pow_succ_r by lia; f_equal; lia). pose proof (Z.pow_pos_nonneg 2 (k - 1) ltac:(lia) ltac:(lia)).
  assert (1 / 2 ^ k = 0) as -> by (apply Z.div_small; lia). rewrite Z.add_0_l. assert ((2 ^ k) / 2 = 2 ^ (k - 1)) as -> by (rewrite E, Z.mul_comm, Z.div_mul by lia; reflexivity).
  destruct (Z.leb_spec (2 ^ k) (2 ^ (k - 1))); [lia|]. apply IH; lia.
Qed.
Lemma sqrt_zero : forall f k, 0 <= k -> k + 1 < Z.of_nat f -> sqrt_loop f (of_Z 0) (of_Z (2 ^ k)) = Panic.
Proof.
  induction f as [|f IH]; intros k K F; [lia|]. pose proof (Z.pow_pos_nonneg 2 k ltac:(lia) K). rewrite sqrt_round by lia. rewrite Z.div_0_l, Z.add_0_l by lia. destruct (Z.eq_dec k 0) as [->|N].
  - change (2 ^ 0 / 2) with 0. change (2 ^ 0 <=? 0) with false. cbv iota. destruct f as [|f]; [lia|]. reflexivity.
  - assert (E : 2 ^ k = 2 * 2 ^ (k - 1)) by (rewrite <- Z.pow_succ_r by lia; f_equal; lia). pose proof (Z.pow_pos_nonneg 2 (k - 1) ltac:(lia) ltac:(lia)).
    assert ((2 ^ k) / 2 = 2 ^ (k - 1)) as -> by (rewrite E, Z.mul_comm, Z.div_mul by lia; reflexivity).
    destruct (Z.leb_spec (2 ^ k) (2 ^ (k - 1))); [lia|]. apply IH; lia.
Qed.
Lemma sqrt_start a l m : stored a l m -> 1 < l -> m < 2 ^ (32 * (l - 1)) ->
  nat_sqrt a = sqrt_loop (Z.to_nat (32 * (l - 1) + 3)) (of_Z m) (of_Z (2 ^ (16 * (l - 1)))).
Proof.
  intros S L1 M. unfold nat_sqrt. rewrite (stored_nan a l m S). cbn [orb].
  assert (nat_lt (from_u32 1) a = true) as ->.
  { unfold nat_lt, partial_cmp, from_u32. rewrite (stored_nan a l m S). cbn [orb is_nan]. rewrite (cmp_stored [1] 1 1 a l m (single_stored 1 ltac:(lia)) S). unfold stored_compare. destruct (Z.ltb_spec 1 l); [reflexivity|lia]. }
  cbn [negb]. rewrite (bits_len_stored a l m S). destruct (Z.ltb_spec m (2 ^ (32 * (l - 1)))); [|lia]. rewrite Z.max_r by lia.
  rewrite (sqrt_loop_trim a l m S). f_equal. unfold nat_shl, from_u32. rewrite op1_canon by (apply canon_single; lia). change [1] with (of_Z 1).
  assert ((32 * (l - 1) + 1) / 2 = 16 * (l - 1)) as -> by (symmetry; apply Z.div_unique with 1; lia). rewrite shl_of_Z by lia. rewrite Z.mul_1_l. reflexivity.
Qed.
(** The root of a number that is not zero is right ... *)
Theorem C135_sqrt_partial : forall a l m, stored a l m -> 0 < m \/ l = 1 -> exists r, nat_sqrt a = Ok r /\ represents r (Z.sqrt m).
Proof.
  intros a l m S P. pose proof (stored_bound a l m S) as B. exists (of_Z (Z.sqrt m)). split; [|apply rep_of_Z, Z.sqrt_nonneg].
  destruct (Z_lt_le_dec 1 l) as [L1|L1]; [destruct (Z_lt_le_dec m (2 ^ (32 * (l - 1)))) as [M|M]|].
  - rewrite (sqrt_start a l m S L1 M). destruct (Z.eq_dec m 1) as [->|N]; [apply sqrt_one; lia|].
    replace (Z.to_nat (32 * (l - 1) + 3)) with (Datatypes.S (Z.to_nat (32 * (l - 1) + 2))) by lia.
    assert (Z.sqrt m < 2 ^ (16 * (l - 1))). { apply Z.sqrt_lt_square; [lia|apply Z.pow_nonneg; lia|]. rewrite <- Z.pow_add_r by lia. replace (16 * (l - 1) + 16 * (l - 1)) with (32 * (l - 1)) by lia. exact M. }
    apply sqrt_loop_spec; [lia|lia|]. rewrite Z2Nat.id by lia. pose proof (Z.sqrt_nonneg m). assert (2 ^ (16 * (l - 1)) < 2 ^ (32 * (l - 1) + 2)) by (apply Z.pow_lt_mono_r; lia). lia.
  - assert (C : canon a). { destruct S as (Hw & L & _ & V). apply canon_intro; [auto|intros ->; cbn in L; lia|]. intros _. rewrite Wp_pow2, V. replace (Z.of_nat (length a - 1)) with (l - 1) by lia. auto. }
    rewrite nat_sqrt_of_Z by auto. destruct S as (_ & _ & _ & ->). reflexivity.
  - assert (C : canon a). { destruct S as (Hw & L & L0 & V). apply canon_intro; [auto|intros ->; cbn in L; lia|]. intros G. exfalso. lia. }
    rewrite nat_sqrt_of_Z by auto. destruct S as (_ & _ & _ & ->). reflexivity.
Qed.
(** ... that of a zero with leading zero words panics: the loop divides by 0. *)
Theorem C135_sqrt_zero_refuted : forall a l, stored a l 0 -> 1 < l -> nat_sqrt a = Panic.
Proof.
  intros a l S L1. rewrite (sqrt_start a l 0 S L1) by (apply Z.pow_pos_nonneg; lia). apply sqrt_zero; lia.
Qed.

(** [gcd] works on copies without the leading zero words; only the tests for
    zero at the start see them. *)
Lemma clone_int x l a : stored_int x l a -> b_clone x = zint a.
Proof. intros (A & S). unfold b_clone. rewrite (trim_stored _ _ _ A), S. reflexivity. Qed.
Lemma abs_int x l a : stored_int x l a -> b_abs x = zint (Z.abs a).
Proof. intros (A & S). unfold b_abs. rewrite (trim_stored _ _ _ A). unfold zint. rewrite Z.abs_involutive. destruct (Z.ltb_spec (Z.abs a) 0); [lia|reflexivity]. Qed.
Lemma int_nan x l a : stored_int x l a -> b_is_nan x = false.
Proof. intros (A & _). unfold b_is_nan. apply (stored_nan _ _ _ A). Qed.
Lemma int_neg x l a : stored_int x l a -> b_is_negative x = (a <? 0).
Proof. intros S. unfold b_is_negative. rewrite (int_nan _ _ _ S). destruct S as (_ & ->). reflexivity. Qed.
Lemma int_zero x l a : stored_int x l a -> b_eq_u32 x 0 = (l =? 1) && (a =? 0).
Proof.
  intros (A & S). pose proof (stored_nonnil _ _ _ A). destruct A as (Hw & L & L0 & V). unfold b_eq_u32. rewrite S. unfold nat_eq_u32, nat_eq, from_u32. destruct (bnat x) as [|w [|w2 u]]; [congruence| |]; cbn [is_nan list_eqb length] in *.
  - rewrite nval_cons in V. cbn [nval] in V. rewrite andb_true_r. destruct (Z.eqb_spec l 1); [|lia]. cbn [andb]. destruct (Z.ltb_spec a 0), (Z.eqb_spec w 0), (Z.eqb_spec a 0); try reflexivity; lia.
  - rewrite !andb_false_r. destruct (Z.eqb_spec l 1); [lia|reflexivity].
Qed.
Lemma ext_zero_r f l : gcd_extend (S f) l (zint 0) = Ok (l, zint 1, zint 0). Proof. reflexivity. Qed.
Lemma ext_zero_l f n : 0 < n -> gcd_extend (S (S f)) (zint 0) (zint n) = Ok (zint n, zint 0, zint 1).
Proof.
  intros N. cbn [gcd_extend]. rewrite zint_eq_u32 by lia. destruct (Z.eqb_spec n 0); [lia|]. rewrite zint_rem, zint_div by lia. rewrite Z.rem_0_l, Z.quot_0_l by lia. cbn [bind].
  reflexivity.
Qed.
Theorem C135_gcd : forall x l a y k b, stored_int x l a -> stored_int y k b ->
  (a <> 0 \/ b <> 0 -> b_gcd x y = b_gcd (zint a) (zint b)) /\
  exists u v, b_gcd x y = Ok (zint (Z.gcd a b), zint u, zint v) /\ a * u + b * v = Z.gcd a b.
Proof.
  intros x l a y k b SX SY.
  assert (MAIN : a <> 0 \/ b <> 0 -> b_gcd x y = b_gcd (zint a) (zint b)).
  { intros NZ. unfold b_gcd. rewrite (int_nan _ _ _ SX), (int_nan _ _ _ SY), (int_neg _ _ _ SX), (int_neg _ _ _ SY), (int_zero _ _ _ SX), (int_zero _ _ _ SY), (clone_int _ _ _ SX), (clone_int _ _ _ SY), (abs_int _ _ _ SX), (abs_int _ _ _ SY).
    rewrite !zint_clone, !zint_not_nan, !zint_eq_u32, !zint_is_negative, !zint_abs by lia. cbn [orb].
    rewrite zint_zero, zint_one, zint_mone, !zint_opp.
    destruct (Z.eqb_spec a 0) as [->|Na], (Z.eqb_spec b 0) as [->|Nb]; [lia| | |]; rewrite ?andb_false_r, ?andb_true_r; cbn [andb negb]; [| |reflexivity].
    - destruct (l =? 1); cbn [andb negb]; [reflexivity|]. change (0 <? 0) with false. cbv iota.
      assert (EB : (if b <? 0 then zint (- b) else zint b) = zint (Z.abs b)) by (destruct (Z.ltb_spec b 0); f_equal; lia). rewrite EB.
      unfold gcd_fuel. rewrite zint_nat. pose proof (bits_len_of_Z_ge1 (Z.abs (Z.abs b)) ltac:(lia)).
      destruct (2 * Z.to_nat (bits_len (of_Z (Z.abs (Z.abs b)))))%nat as [|f] eqn:F; [lia|]. rewrite ext_zero_l by lia. cbn [bind]. destruct (b <? 0); reflexivity.
    - destruct (k =? 1); cbn [andb negb]; [reflexivity|]. change (0 <? 0) with false. cbv iota.
      unfold gcd_fuel. rewrite ext_zero_r. cbn [bind]. destruct (Z.ltb_spec a 0); [rewrite Z.abs_neq by lia|rewrite Z.abs_eq by lia]; reflexivity. }
  split; [exact MAIN|]. destruct (Z.eq_dec a 0) as [->|Na]; [destruct (Z.eq_dec b 0) as [->|Nb]|].
  - unfold b_gcd. rewrite (int_nan _ _ _ SX), (int_nan _ _ _ SY), (int_neg _ _ _ SX), (int_neg _ _ _ SY), (int_zero _ _ _ SX), (int_zero _ _ _ SY), (clone_int _ _ _ SX), (clone_int _ _ _ SY), (abs_int _ _ _ SX), (abs_int _ _ _ SY).
    destruct (l =? 1), (k =? 1); cbn [andb negb orb Z.eqb Z.ltb Z.compare].
    + exists 0, 0. split; reflexivity.
    + exists 0, 1. split; reflexivity.
    + exists 1, 0. split; reflexivity.
    + exists 1, 0. unfold gcd_fuel. rewrite ext_zero_r. split; reflexivity.
  - rewrite MAIN by auto. destruct (b_gcd_spec 0 b) as (u & v & E & B & _). eauto.
  - rewrite MAIN by auto. destruct (b_gcd_spec a b) as (u & v & E & B & _). eauto.
Qed.
Theorem C135_mod_inverse : forall x l a y k b, stored_int x l a -> stored_int y k b -> a <> 0 \/ b <> 0 ->
  b_mod_inverse x y = b_mod_inverse (zint a) (zint b).
Proof.
  intros x l a y k b SX SY NB. unfold b_mod_inverse.
  rewrite (int_nan _ _ _ SX), (int_nan _ _ _ SY), (int_neg _ _ _ SX), (int_neg _ _ _ SY), (clone_int _ _ _ SX), (clone_int _ _ _ SY), (abs_int _ _ _ SY).
  rewrite !zint_clone, !zint_not_nan, !zint_is_negative, zint_abs. cbn [orb].
  assert (EN : (if b <? 0 then zint (Z.abs b) else zint b) = zint (Z.abs b)) by (destruct (Z.ltb_spec b 0); f_equal; lia). rewrite EN.
  destruct (a <? 0); [reflexivity|]. cbn [bind].
  destruct (C135_gcd x l a (zint (Z.abs b)) (words (Z.abs b)) (Z.abs b) SX) as (E & _).
  { split; [rewrite zint_nat, Z.abs_involutive; apply of_Z_stored; lia|apply zint_neg]. }
  rewrite E by lia. reflexivity.
Qed.

(** [(Nat::from(0u32) << 32).sqrt()] panics; 35 and 21 kept in two words. *)
Example C135_case : nat_sqrt (nat_shl [0] 32) = Panic /\ nat_sqrt (nat_mul_u32 [7] 7) = Ok [7] /\ to_le_bytes (nat_mul_u32 [3] 5) = [15; 0; 0; 0; 0] /\
  b_gcd (BI (nat_mul_u32 [5] 7) false) (BI (nat_mul_u32 [3] 7) true) = Ok (zint 7, zint (-1), zint (-2)).
Proof. vm_compute. auto. Qed.

Print Assumptions C135_bytes.
Print Assumptions C135_trailing_zeros.
Print Assumptions C135_square.
Print Assumptions C135_sqrt_partial.
Print Assumptions C135_sqrt_zero_refuted.
Print Assumptions C135_gcd.
Print Assumptions C135_mod_inverse.
