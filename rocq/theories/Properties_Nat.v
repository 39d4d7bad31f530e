(** Final statements about the arithmetic core of [Nat]: C01-C11, C27.

    [canon l]: [l] is a canonical non-NaN Nat (Words.v); [nval l]: its value;
    [represents l n]: canonical with value [n]; [has_value l n]: words with
    value [n], canonical or not (Spec.v). *)
From Coq Require Import ZArith List Lia Bool.
From Verif Require Import Words Spec WordsFacts NatModel NatFacts NatFacts2 NatFacts3 NatFacts4 NatFacts5.
Import ListNotations.
Open Scope Z_scope.

(** Concrete canonical Nats used as witnesses below. *)
Definition big1 : list Z := [4294967295; 4294967295; 4294967295].
Definition big2 : list Z := [7; 0; 2147483648; 9].
Example big1_canon : canon big1.
Proof. split; [repeat constructor; lia|]. split; [discriminate|right; cbn; lia]. Qed.
Example big2_canon : canon big2.
Proof. split; [repeat constructor; lia|]. split; [discriminate|right; cbn; lia]. Qed.

(* ------------------------------------------------------------------ *)
(** ** C01 *)
Theorem C01_nat_add_exact : forall a b, canon a -> canon b ->
  represents (nat_add a b) (nval a + nval b).
Proof. exact nat_add_rep. Qed.
Example C01_case : nat_add big1 [1] = [0; 0; 0; 1].
Proof. reflexivity. Qed.
Print Assumptions C01_nat_add_exact.

(* ------------------------------------------------------------------ *)
(** ** C02 *)
Theorem C02_nat_sub_abs_diff : forall a b, canon a -> canon b ->
  represents (nat_sub a b) (Z.abs (nval a - nval b)).
Proof. exact nat_sub_rep. Qed.
Theorem C02_sub_with_sign : forall a b, canon a -> canon b ->
  represents (fst (sub_with_sign a b)) (Z.abs (nval a - nval b)) /\
  (snd (sub_with_sign a b) = true <-> nval b <= nval a).
Proof. exact sub_with_sign_rep. Qed.
Example C02_case : sub_with_sign [5] [0; 0; 1] = ([4294967291; 4294967295], false)
  /\ nat_sub [0; 0; 1] [5] = [4294967291; 4294967295].
Proof. split; reflexivity. Qed.
Print Assumptions C02_nat_sub_abs_diff.
Print Assumptions C02_sub_with_sign.

(* ------------------------------------------------------------------ *)
(** ** C03: the literal u64 machine version, below 2^32 words; and the exact
    version used by the rest of the model, without bound. *)
Theorem C03_nat_mul_exact : forall a b, canon a -> canon b ->
  Z.of_nat (Nat.min (length a) (length b)) < 2 ^ 32 ->
  represents (op2 mul_inner_u64 a b) (nval a * nval b).
Proof. exact nat_mul_u64_rep. Qed.
Theorem C03_nat_mul_exact_shift : forall a b, canon a -> canon b ->
  represents (nat_mul a b) (nval a * nval b).
Proof. exact nat_mul_rep. Qed.
Example C03_case : op2 mul_inner_u64 big1 big1 =
  [1; 0; 0; 4294967294; 4294967295; 4294967295]
  /\ Z.of_nat (Nat.min (length big1) (length big1)) < 2 ^ 32.
Proof. split; reflexivity. Qed.
Print Assumptions C03_nat_mul_exact.
Print Assumptions C03_nat_mul_exact_shift.

(* ------------------------------------------------------------------ *)
(** ** C04 *)
Theorem C04_nat_div_rem : forall a b, canon a -> canon b -> 0 < nval b -> exists q r,
  nat_div a b = Ok q /\ nat_rem a b = Ok r /\
  canon q /\ canon r /\ nval a = nval q * nval b + nval r /\ 0 <= nval r < nval b.
Proof. exact nat_divrem_rep. Qed.
Theorem C04_nat_div_rem_zero : forall a b, canon a -> canon b -> nval b = 0 ->
  nat_div a b = Panic /\ nat_rem a b = Panic.
Proof. exact nat_divrem_zero. Qed.
Example C04_case : nat_div big2 [3; 1] = Ok [2147483733; 2147483619; 9] /\
  nat_rem big2 [3; 1] = Ok [2147483400] /\ nat_div [5] [0] = Panic.
Proof. vm_compute. auto. Qed.
Print Assumptions C04_nat_div_rem.
Print Assumptions C04_nat_div_rem_zero.

(* ------------------------------------------------------------------ *)
(** ** C05 *)
Theorem C05_u32_operand_ops : forall a w, canon a -> 0 <= w < 2 ^ 32 ->
  represents (nat_add_u32 a w) (nval a + w) /\
  has_value (nat_sub_u32 a w) (Z.abs (nval a - w)) /\
  has_value (nat_mul_u32 a w) (nval a * w) /\
  (0 < w -> exists q r, nat_div_u32 a w = Ok q /\ nat_rem_u32 a w = Ok r /\
     represents q (nval a / w) /\ represents r (nval a mod w)) /\
  (w = 0 -> nat_div_u32 a w = Panic /\ nat_rem_u32 a w = Panic).
Proof. exact u32_ops_rep. Qed.
Example C05_case : nat_add_u32 big1 9 = [8; 0; 0; 1] /\ nat_sub_u32 [3] 10 = [7] /\
  nat_mul_u32 big1 2 = [4294967294; 4294967295; 4294967295; 1] /\
  nat_div_u32 big2 10 = Ok [858993459; 858993459; 4080218931] /\ nat_rem_u32 big2 10 = Ok [9].
Proof. vm_compute. auto. Qed.
Print Assumptions C05_u32_operand_ops.

(* ------------------------------------------------------------------ *)
(** ** C06

    Full claim: every operation on canonical inputs gives a canonical result.
    Refuted for three operations; [C06_canonical_partial] is the rest.
    Missing from the partial theorem: exactly those three ([x * u32],
    [x - u32], [0 << k]) and the shift region of C08. *)
Theorem C06_mul_u32_not_canonical_refuted : exists a w, canon a /\ 0 <= w < 2 ^ 32 /\
  ~ canon (nat_mul_u32 a w) /\
  nat_eq (nat_mul_u32 a w) (nat_mul a [w]) = false /\
  nval (nat_mul_u32 a w) = nval (nat_mul a [w]).
Proof.
  exists [3], 2. split; [apply canon_single; lia|]. split; [lia|].
  split; [|split; vm_compute; reflexivity].
  apply not_canon; reflexivity.
Qed.
Theorem C06_sub_u32_not_canonical_refuted : exists a w, canon a /\ 0 <= w < 2 ^ 32 /\
  ~ canon (nat_sub_u32 a w) /\
  nat_eq (nat_sub_u32 a w) (nat_sub a [w]) = false /\
  nval (nat_sub_u32 a w) = nval (nat_sub a [w]).
Proof.
  exists [0; 1], 1. split; [split; [repeat constructor; lia|split; [discriminate|right; cbn; lia]]|].
  split; [lia|]. split; [|split; vm_compute; reflexivity].
  apply not_canon; reflexivity.
Qed.
Theorem C06_shl_zero_not_canonical_refuted : exists a k, canon a /\ 0 <= k /\
  ~ canon (nat_shl a k) /\ nval (nat_shl a k) = 0 /\ nat_eq (nat_shl a k) [0] = false.
Proof.
  exists [0], 32. split; [apply canon_single; lia|]. split; [lia|].
  split; [|split; vm_compute; reflexivity].
  apply not_canon; reflexivity.
Qed.
Theorem C06_canonical_partial : forall a b w k, canon a -> canon b -> 0 < w < 2 ^ 32 -> 0 <= k ->
  canon (nat_add a b) /\ canon (nat_sub a b) /\ canon (nat_mul a b) /\
  (0 < nval b -> exists q r, nat_div a b = Ok q /\ nat_rem a b = Ok r /\ canon q /\ canon r) /\
  canon (nat_bitand a b) /\ canon (nat_bitor a b) /\ canon (nat_bitxor a b) /\
  canon (and_not a b) /\ canon (nat_not a) /\
  canon (nat_add_u32 a w) /\
  (exists q r, nat_div_u32 a w = Ok q /\ nat_rem_u32 a w = Ok r /\ canon q /\ canon r) /\
  (0 < nval a -> canon (nat_shl a k)) /\
  (k < 32 -> canon (nat_shr a k)).
Proof.
  intros a b w k Ha Hb Hw Hk.
  split; [apply nat_add_rep; auto|]. split; [apply nat_sub_rep; auto|].
  split; [apply nat_mul_rep; auto|].
  split. { intros Hp. destruct (nat_divrem_rep a b Ha Hb Hp) as [q [r H]]. exists q, r. tauto. }
  destruct (nat_bit_rep a b Ha Hb) as [H1 [H2 [H3 H4]]].
  split; [apply H1|]. split; [apply H2|]. split; [apply H3|]. split; [apply H4|].
  split; [apply nat_not_rep; auto|].
  destruct (u32_ops_rep a w Ha) as [K1 [_ [_ [K2 _]]]]; [lia|]. split; [apply K1|].
  split. { destruct K2 as [q [r K]]; [lia|]. exists q, r. unfold represents in K. tauto. }
  split. { intros Hp. apply nat_shl_rep_pos; auto. }
  intros Hlt. apply nat_shr_rep; auto. left; auto.
Qed.
Example C06_case : canon big1 /\ canon big2 /\ 0 < nval big2 /\
  nat_bitxor big2 [7; 0; 0; 9] = [0; 0; 2147483648] /\ nat_sub big2 big2 = [0].
Proof. split; [apply big1_canon|]. split; [apply big2_canon|]. vm_compute. auto. Qed.
Print Assumptions C06_mul_u32_not_canonical_refuted.
Print Assumptions C06_sub_u32_not_canonical_refuted.
Print Assumptions C06_shl_zero_not_canonical_refuted.
Print Assumptions C06_canonical_partial.

(* ------------------------------------------------------------------ *)
(** ** C07 *)
Theorem C07_nat_shl : forall a k, canon a -> 0 <= k ->
  has_value (nat_shl a k) (nval a * 2 ^ k).
Proof. exact nat_shl_rep. Qed.
Theorem C07_nat_shl_canonical : forall a k, canon a -> 0 < nval a -> 0 <= k ->
  represents (nat_shl a k) (nval a * 2 ^ k).
Proof. exact nat_shl_rep_pos. Qed.
Example C07_case : nat_shl big2 67 = [0; 0; 56; 0; 0; 76].
Proof. vm_compute. reflexivity. Qed.
Print Assumptions C07_nat_shl.
Print Assumptions C07_nat_shl_canonical.

(* ------------------------------------------------------------------ *)
(** ** C08

    Full claim: [x >> k] is [x / 2^k] for every k.  Refuted in two ways:
    whole-word shifts keep the low words instead of the high ones, and a
    shift whose top word becomes zero keeps a stale word.  Missing from the
    partial theorem: exactly the complement of its hypothesis. *)
Theorem C08_shr_word_multiple_refuted : exists a k, canon a /\ 0 <= k /\
  nval (nat_shr a k) <> nval a / 2 ^ k.
Proof.
  exists [1; 2], 32. split; [split; [repeat constructor; lia|split; [discriminate|right; cbn; lia]]|].
  split; [lia|]. vm_compute. discriminate.
Qed.
Theorem C08_shr_stale_word_refuted : exists a k, canon a /\ 0 <= k /\ k mod 32 <> 0 /\
  nval (nat_shr a k) <> nval a / 2 ^ k.
Proof.
  exists [1; 2; 1], 33. split; [split; [repeat constructor; lia|split; [discriminate|right; cbn; lia]]|].
  split; [lia|]. split; [discriminate|]. vm_compute. discriminate.
Qed.
(** What whole-word shifts compute instead, for every Nat and every word count. *)
Theorem C08_shr_word_multiple_value : forall a j, canon a -> 0 <= j < Z.of_nat (length a) ->
  nval (nat_shr a (32 * j)) = nval a mod 2 ^ (32 * (Z.of_nat (length a) - j)).
Proof. exact nat_shr_word_multiple. Qed.
Theorem C08_nat_shr_partial : forall a k, canon a -> 0 <= k ->
  (k < 32 \/ 32 * Z.of_nat (length a) <= k \/ (k mod 32 <> 0 /\ 2 ^ (k mod 32) <= last a 0)) ->
  represents (nat_shr a k) (nval a / 2 ^ k).
Proof. exact nat_shr_rep. Qed.
Example C08_case : nat_shr [7; 0; 2147483648; 9] 67 = [805306368; 1]  /\ nat_shr big1 1 = [4294967295; 4294967295; 2147483647]
  /\ nat_shr big1 96 = [0] /\ nat_shr [1; 2] 32 = [1].
Proof. vm_compute. auto. Qed.
Print Assumptions C08_shr_word_multiple_refuted.
Print Assumptions C08_shr_stale_word_refuted.
Print Assumptions C08_shr_word_multiple_value.
Print Assumptions C08_nat_shr_partial.

(* ------------------------------------------------------------------ *)
(** ** C09; [bit a i] is [Z.testbit (nval a) i]. *)
Theorem C09_nat_bit_ops : forall a b i, canon a -> canon b -> 0 <= i ->
  (bit (nat_bitand a b) i = bit a i && bit b i) /\
  (bit (nat_bitor a b) i = bit a i || bit b i) /\
  (bit (nat_bitxor a b) i = xorb (bit a i) (bit b i)) /\
  (bit (and_not a b) i = bit a i && negb (bit b i)).
Proof. exact nat_bits_testbit. Qed.
Theorem C09_nat_bit_ops_canonical : forall a b, canon a -> canon b ->
  represents (nat_bitand a b) (Z.land (nval a) (nval b)) /\
  represents (nat_bitor a b) (Z.lor (nval a) (nval b)) /\
  represents (nat_bitxor a b) (Z.lxor (nval a) (nval b)) /\
  represents (and_not a b) (Z.ldiff (nval a) (nval b)).
Proof. exact nat_bit_rep. Qed.
Theorem C09_nat_not : forall a i, canon a -> 0 <= i ->
  canon (nat_not a) /\
  bit (nat_not a) i = (i <? (if nval a =? 0 then 1 else Z.log2 (nval a) + 1)) && negb (bit a i).
Proof.
  intros a i Ha Hi. rewrite <- bits_len_spec by auto. apply nat_not_bits; auto.
Qed.
Example C09_case : nat_bitand big1 big2 = [7; 0; 2147483648] /\
  nat_bitor big1 big2 = [4294967295; 4294967295; 4294967295; 9] /\
  nat_bitxor big1 big2 = [4294967288; 4294967295; 2147483647; 9] /\
  and_not big2 big1 = [0; 0; 0; 9] /\ nat_not big2 = [4294967288; 4294967295; 2147483647; 6].
Proof. vm_compute. auto. Qed.
Print Assumptions C09_nat_bit_ops.
Print Assumptions C09_nat_bit_ops_canonical.
Print Assumptions C09_nat_not.

(* ------------------------------------------------------------------ *)
(** ** C10 *)
Theorem C10_nat_compare : forall a b, canon a -> canon b ->
  partial_cmp a b = Some (nval a ?= nval b) /\ (nat_eq a b = true <-> nval a = nval b).
Proof. exact nat_cmp_rep. Qed.
Theorem C10_nat_compare_nan : forall a,
  partial_cmp a nan = None /\ partial_cmp nan a = None /\
  nat_eq nan a = false /\ nat_eq a nan = false.
Proof. exact nat_cmp_nan. Qed.
Example C10_case : partial_cmp big1 big2 = Some Lt /\ partial_cmp [1; 2] [2; 1] = Some Gt.
Proof. split; reflexivity. Qed.
Print Assumptions C10_nat_compare.
Print Assumptions C10_nat_compare_nan.

(* ------------------------------------------------------------------ *)
(** ** C11 *)
Theorem C11_nan_absorbing : forall a k w,
  (forall op, In op [nat_add; nat_sub; nat_mul; nat_bitand; nat_bitor; nat_bitxor] ->
     op nan a = nan /\ op a nan = nan) /\
  (forall op, In op [nat_div; nat_rem] -> op nan a = Ok nan /\ op a nan = Ok nan) /\
  (forall op, In op [nat_shl; nat_shr; nat_add_u32; nat_sub_u32; nat_mul_u32] ->
     op nan k = nan) /\
  (forall op, In op [nat_div_u32; nat_rem_u32] -> op nan w = Ok nan) /\
  nat_not nan = nan.
Proof.
  intros a k w.
  split. { intros op H. cbn [In] in H. repeat destruct H as [<-|H]; try contradiction; destruct a; split; reflexivity. }
  split. { intros op H. cbn [In] in H. repeat destruct H as [<-|H]; try contradiction; destruct a; split; reflexivity. }
  split. { intros op H. cbn [In] in H. repeat destruct H as [<-|H]; try contradiction; reflexivity. }
  split. { intros op H. cbn [In] in H. repeat destruct H as [<-|H]; try contradiction; reflexivity. }
  reflexivity.
Qed.
(** Division of NaN by zero: the NaN check comes first, no panic. *)
Example C11_case : nat_div nan [0] = Ok nan /\ nat_div_u32 nan 0 = Ok nan /\ nat_div [5] nan = Ok nan.
Proof. auto. Qed.
Print Assumptions C11_nan_absorbing.

(* ------------------------------------------------------------------ *)
(** ** C27 *)
Theorem C27_bits_len : forall a, canon a ->
  bits_len a = if nval a =? 0 then 1 else Z.log2 (nval a) + 1.
Proof. exact bits_len_spec. Qed.
Theorem C27_is_set_bit : forall a i, canon a -> 0 <= i ->
  is_set_bit a i =
  Ok (if (if nval a =? 0 then 1 else Z.log2 (nval a) + 1) <=? i then None
      else Some (Z.testbit (nval a) i)).
Proof. intros a i Ha Hi. rewrite <- bits_len_spec by auto. apply is_set_bit_spec; auto. Qed.
Theorem C27_trailling_zeros : forall a, canon a -> 0 < nval a ->
  exists q, 0 <= trailling_zeros a /\ 0 <= q /\ nval a = (2 * q + 1) * 2 ^ trailling_zeros a.
Proof. intros a Ha. apply trailling_zeros_spec, canon_words, Ha. Qed.
Example C27_case : bits_len big2 = 100 /\ is_set_bit big2 95 = Ok (Some true) /\
  is_set_bit big2 94 = Ok (Some false) /\ is_set_bit big2 100 = Ok None /\
  trailling_zeros [0; 0; 40] = 67.
Proof. vm_compute. auto. Qed.
Print Assumptions C27_bits_len.
Print Assumptions C27_is_set_bit.
Print Assumptions C27_trailling_zeros.
