(** C132: [BigInt] operations on numbers with leading zero words.  [!x] of a
    power of 2^32, [random] and writes through [as_ref().clone()] make such
    numbers. *)
From Coq Require Import String ZArith List Bool Lia.
From Verif Require Import Words WordsFacts Spec SpecInt NatModel NatFacts NatFacts2 NatFacts3 NatFacts4 NatFacts5 NatConv NatConvFacts SpecShift ShiftFacts SpecLoose LooseFacts BigInt BigIntFacts BigIntFacts2 IntLoose SpecLooseInt Properties_Loose.
Import ListNotations.
Open Scope Z_scope.

Lemma stored_words a : words_ok a -> a <> [] -> stored a (Z.of_nat (List.length a)) (nval a).
Proof. intros A B. split; [auto|]. split; [reflexivity|]. split; [|reflexivity]. destruct a; [congruence|cbn [List.length]; lia]. Qed.
Lemma sub1_stored a l m : stored a l m -> 0 < m -> stored (nat_sub_u32 a 1) l (m - 1).
Proof.
  intros A P. pose proof (sub_u32_stored a l m 1 A ltac:(split; [lia|reflexivity])) as S. pose proof (stored_bound _ _ _ A).
  replace (m - 1) with (if l =? 1 then Z.abs (m - 1) else (m - 1) mod 2 ^ (32 * l)); [exact S|]. destruct (l =? 1); [lia|]. apply Z.mod_small. lia.
Qed.
Lemma trim_sub1 a l m : stored a l m -> 0 < m -> exists j, stored (nat_sub_u32 (trim a) 1) j (m - 1).
Proof. intros A P. rewrite (trim_stored _ _ _ A). exists (words m). apply sub1_stored; [apply of_Z_stored|]; lia. Qed.
Lemma value_neg a l m n : stored a l m -> n = - m -> int_value (BI a (negb (is_nan a))) n.
Proof. intros A ->. rewrite (stored_nan _ _ _ A). split; [apply A|]. split; [apply (stored_nonnil _ _ _ A)|]. destruct A as (_ & _ & _ & <-). reflexivity. Qed.
Lemma value_pos a l m : stored a l m -> int_value (BI a false) m.
Proof. intros A. split; [apply A|]. split; [apply (stored_nonnil _ _ _ A)|]. apply A. Qed.
Lemma represents_stored a m : represents a m -> exists l, stored a l m.
Proof. intros R. exists (words m). apply canon_stored. auto. Qed.
Lemma lnot_abs m : m < 0 -> Z.abs m - 1 = Z.lnot m.
Proof. unfold Z.lnot. lia. Qed.

(** Equality and order look at the number of words. *)
Theorem C132_equal : forall x l m y k n, stored_int x l m -> stored_int y k n -> b_eq x y = (l =? k) && (m =? n).
Proof.
  intros x l m y k n (A & SA) (B & SB). unfold b_eq. rewrite SA, SB, (eqb_stored _ _ _ _ _ _ A B).
  destruct (Z.ltb_spec m 0), (Z.ltb_spec n 0), (Z.eqb_spec l k), (Z.eqb_spec (Z.abs m) (Z.abs n)), (Z.eqb_spec m n); cbn [eqb andb]; lia || reflexivity.
Qed.
Theorem C132_order : forall x l m y k n, stored_int x l m -> stored_int y k n -> b_cmp x y = Some (stored_int_compare l m k n).
Proof.
  intros x l m y k n (A & SA) (B & SB). unfold b_cmp, b_is_nan, stored_int_compare. rewrite SA, SB, (stored_nan _ _ _ A), (stored_nan _ _ _ B), (C106_order _ _ _ _ _ _ A B). cbn [orb].
  destruct (Z.ltb_spec m 0), (Z.ltb_spec n 0); cbn [option_map]; rewrite ?(Z.abs_eq m), ?(Z.abs_eq n), ?(Z.abs_neq m), ?(Z.abs_neq n) by lia; reflexivity.
Qed.

(** Sums and differences are right for magnitudes that are added. *)
Lemma sum_signed x l m y k n (s : bool) : stored (bnat x) l (Z.abs m) -> stored (bnat y) k (Z.abs n) -> (s = (m <? 0)) ->
  int_value (b_signed (nat_add (bnat x) (bnat y)) s) (if m <? 0 then - (Z.abs m + Z.abs n) else Z.abs m + Z.abs n).
Proof.
  intros A B ->. destruct (C106_sum _ _ _ _ _ _ A B) as (j & S & _). unfold b_signed, nat_eq_u32. rewrite (stored_nan _ _ _ S). unfold from_u32. rewrite (eqb_stored _ _ _ [0] 1 0 S) by (apply single_stored; split; [lia|reflexivity]).
  cbn [orb]. unfold int_value, bvalue. cbn [bnat bneg]. split; [apply S|]. split; [apply (stored_nonnil _ _ _ S)|].
  replace (nval (nat_add (bnat x) (bnat y))) with (Z.abs m + Z.abs n) by (symmetry; apply S).
  destruct (Z.ltb_spec m 0); [|destruct (_ && _); reflexivity]. destruct (Z.eqb_spec j 1), (Z.eqb_spec (Z.abs m + Z.abs n) 0); cbn [andb]; lia.
Qed.
Lemma lt_stored a l m b k n : stored a l m -> stored b k n -> nat_lt a b = match stored_compare l m k n with Lt => true | _ => false end.
Proof. intros A B. unfold nat_lt. rewrite (C106_order _ _ _ _ _ _ A B). destruct (stored_compare l m k n); reflexivity. Qed.
Lemma diff_signed x l m y k n (s : bool) : stored (bnat x) l (Z.abs m) -> stored (bnat y) k (Z.abs n) -> (s = (m <? 0)) ->
  let d := stored_difference l (Z.abs m) k (Z.abs n) in
  is_int (b_signed (nat_sub (bnat x) (bnat y)) (if nat_lt (bnat x) (bnat y) then negb s else s))
    (match stored_compare l (Z.abs m) k (Z.abs n) with Lt => if m <? 0 then d else - d | _ => if m <? 0 then - d else d end).
Proof.
  intros A B -> d. pose proof (C106_difference _ _ _ _ _ _ A B) as R. fold d in R. assert (D0 : 0 <= d) by (destruct R as (C & <-); apply canon_nonneg; auto).
  rewrite (lt_stored _ _ _ _ _ _ A B). assert (E : nat_sub (bnat x) (bnat y) = of_Z d) by (destruct R; apply of_Z_unique; auto). rewrite E. unfold b_signed. rewrite is_nan_of_Z by auto. rewrite of_Z_eq_u32 by lia. cbn [orb].
  apply is_int_iff. destruct (stored_compare l (Z.abs m) k (Z.abs n)), (Z.ltb_spec m 0), (Z.eqb_spec d 0); cbn [negb]; apply zint_intro; auto; try lia.
Qed.
Theorem C132_sum : forall x l m y k n, stored_int x l m -> stored_int y k n ->
  int_value (b_add x y) (stored_sum false l m k n) /\ int_value (b_sub x y) (stored_sum true l m k n).
Proof.
  intros x l m y k n (A & SA) (B & SB). unfold b_add, b_sub, stored_sum. rewrite SA, SB. replace (xorb false (n <? 0)) with (n <? 0) by (destruct (n <? 0); reflexivity). replace (xorb true (n <? 0)) with (negb (n <? 0)) by (destruct (n <? 0); reflexivity). split.
  - destruct (eqb (m <? 0) (n <? 0)) eqn:E.
    + pose proof (sum_signed x l m y k n _ A B eq_refl) as S. replace (m + n) with (if m <? 0 then - (Z.abs m + Z.abs n) else Z.abs m + Z.abs n); [exact S|]. revert E. destruct (Z.ltb_spec m 0), (Z.ltb_spec n 0); cbn [eqb]; intros; try discriminate; lia.
    + pose proof (diff_signed x l m y k n _ A B eq_refl) as ((C & _) & V). split; [apply canon_words; auto|]. split; [apply canon_nonnil; auto|exact V].
  - assert (X : eqb (m <? 0) (negb (n <? 0)) = negb (eqb (m <? 0) (n <? 0))) by (destruct (m <? 0), (n <? 0); reflexivity). rewrite X.
    destruct (eqb (m <? 0) (n <? 0)) eqn:E; cbn [negb].
    + pose proof (diff_signed x l m y k n _ A B eq_refl) as ((C & _) & V). split; [apply canon_words; auto|]. split; [apply canon_nonnil; auto|exact V].
    + pose proof (sum_signed x l m y k n _ A B eq_refl) as S. replace (m - n) with (if m <? 0 then - (Z.abs m + Z.abs n) else Z.abs m + Z.abs n); [exact S|]. revert E. destruct (Z.ltb_spec m 0), (Z.ltb_spec n 0); cbn [eqb]; intros; try discriminate; lia.
Qed.
(** It is the sum where the numbers have as many words as each other or none
    too many. *)
Theorem C132_sum_right : forall (minus : bool) l m k n, 0 < l -> 0 < k -> Z.abs m < 2 ^ (32 * l) -> Z.abs n < 2 ^ (32 * k) ->
  l = k \/ ((l = 1 \/ 2 ^ (32 * (l - 1)) <= Z.abs m) /\ (k = 1 \/ 2 ^ (32 * (k - 1)) <= Z.abs n)) ->
  stored_sum minus l m k n = if minus then m - n else m + n.
Proof.
  intros minus l m k n L K M N H. unfold stored_sum. destruct (eqb (m <? 0) (xorb minus (n <? 0))) eqn:E; [reflexivity|].
  assert (C : stored_compare l (Z.abs m) k (Z.abs n) = (Z.abs m ?= Z.abs n) /\ (Z.abs m < Z.abs n -> l <= k) /\ (Z.abs n <= Z.abs m -> k <= l)).
  { unfold stored_compare. destruct (Z.ltb_spec l k) as [LK|LK]; [|destruct (Z.ltb_spec k l) as [KL|KL]; [|split; [reflexivity|lia]]].
    - assert (P : 2 ^ (32 * l) <= Z.abs n) by (destruct H as [|(_ & [|H])]; try lia; apply Z.le_trans with (2 ^ (32 * (k - 1))); [apply Z.pow_le_mono_r|]; lia). split; [symmetry; apply Z.compare_lt_iff; lia|lia].
    - assert (P : 2 ^ (32 * k) <= Z.abs m) by (destruct H as [|([|H] & _)]; try lia; apply Z.le_trans with (2 ^ (32 * (l - 1))); [apply Z.pow_le_mono_r|]; lia). split; [symmetry; apply Z.compare_gt_iff; lia|lia]. }
  destruct C as (C & C1 & C2). unfold stored_difference. rewrite C. revert E.
  destruct (Z.compare_spec (Z.abs m) (Z.abs n)) as [E|E|E]; rewrite Z.mod_small by lia; destruct minus, (Z.ltb_spec m 0), (Z.ltb_spec n 0); cbn [eqb xorb]; intros; try discriminate; lia.
Qed.

(** Products, shifts to the left, [!], [&], [^], [|] of equal signs are right;
    [|] of different signs and [and_not] of two negative numbers are wrong the
    way they are for other numbers (C34). *)
Theorem C132_product : forall x l m y k n, stored_int x l m -> stored_int y k n -> int_value (b_mul x y) (m * n).
Proof.
  intros x l m y k n (A & SA) (B & SB). destruct (C106_product _ _ _ _ _ _ A B) as (j & S). unfold b_mul, b_signed, nat_eq_u32. rewrite (stored_nan _ _ _ S). unfold from_u32. rewrite (eqb_stored _ _ _ [0] 1 0 S) by (apply single_stored; split; [lia|reflexivity]).
  cbn [orb]. unfold int_value, bvalue. cbn [bnat bneg]. split; [apply S|]. split; [apply (stored_nonnil _ _ _ S)|].
  replace (nval (nat_mul (bnat x) (bnat y))) with (Z.abs m * Z.abs n) by (symmetry; apply S). rewrite SA, SB.
  destruct (Z.ltb_spec m 0), (Z.ltb_spec n 0), (Z.eqb_spec j 1), (Z.eqb_spec (Z.abs m * Z.abs n) 0); cbn [andb eqb negb]; rewrite ?(Z.abs_eq m), ?(Z.abs_eq n), ?(Z.abs_neq m), ?(Z.abs_neq n) in * by lia; lia.
Qed.
Theorem C132_shl : forall x l m k, stored_int x l m -> 0 <= k -> int_value (b_shl x k) (m * 2 ^ k).
Proof.
  intros x l m k (A & SA) K. destruct (C106_shl _ _ _ k A K) as (j & S & _). unfold b_shl, int_value, bvalue. cbn [bnat bneg]. split; [apply S|]. split; [apply (stored_nonnil _ _ _ S)|].
  replace (nval (nat_shl (bnat x) k)) with (Z.abs m * 2 ^ k) by (symmetry; apply S). rewrite SA. destruct (Z.ltb_spec m 0); lia.
Qed.
Theorem C132_not : forall x l m, stored_int x l m -> int_value (b_not x) (Z.lnot m).
Proof.
  intros x l m (A & SA). unfold b_not, b_is_nan. rewrite (stored_nan _ _ _ A), SA. destruct (Z.ltb_spec m 0).
  - destruct (trim_sub1 _ _ _ A ltac:(lia)) as (j & S). rewrite lnot_abs in S by auto. apply (value_pos _ _ _ S).
  - rewrite (trim_stored _ _ _ A). destruct (C106_sum_word _ _ _ 1 (of_Z_stored (Z.abs m) ltac:(lia)) ltac:(split; [lia|reflexivity])) as (j & S).
    replace true with (negb (is_nan (nat_add_u32 (of_Z (Z.abs m)) 1))) by (rewrite (stored_nan _ _ _ S); reflexivity). apply (value_neg _ _ _ _ S). unfold Z.lnot. lia.
Qed.
Theorem C132_bits : forall x l m y k n, stored_int x l m -> stored_int y k n ->
  int_value (b_and x y) (Z.land m n) /\ int_value (b_xor x y) (Z.lxor m n) /\
  int_value (b_or x y) (if eqb (m <? 0) (n <? 0) then Z.lor m n else Z.lnot (if m <? 0 then Z.ldiff n (Z.lnot m) else Z.ldiff m (Z.lnot n))) /\
  int_value (b_and_not x y) (if (m <? 0) && (n <? 0) then Z.ldiff n m else Z.ldiff m n).
Proof.
  intros x l m y k n (A & SA) (B & SB).
  assert (ONE : 0 <= 1 < 2 ^ 32) by (split; [lia|reflexivity]).
  assert (NEG : forall a j v r, stored a j v -> r = - (v + 1) -> int_value (BI (nat_add_u32 a 1) (negb (is_nan (nat_add_u32 a 1)))) r).
  { intros a j v r S E. destruct (C106_sum_word a j v 1 S ONE) as (j' & S'). apply (value_neg _ _ _ _ S'). auto. }
  assert (POS : forall a v r, represents a v -> r = v -> int_value (BI a false) r) by (intros a v r (C & V) ->; split; [apply canon_words; auto|]; split; [apply canon_nonnil; auto|exact V]).
  unfold b_and, b_xor, b_or, b_and_not. rewrite SA, SB.
  destruct (Z.ltb_spec m 0) as [M|M], (Z.ltb_spec n 0) as [N|N]; cbn [eqb andb].
  - destruct (trim_sub1 _ _ _ B ltac:(lia)) as (j & T). pose proof (sub1_stored _ _ _ A ltac:(lia)) as S. rewrite lnot_abs in S, T by auto.
    destruct (C106_bits _ _ _ _ _ _ S T) as (R1 & R2 & R3 & R4). split; [|split; [|split]].
    + apply (NEG _ _ _ _ R2). rewrite <- Z.lnot_land. unfold Z.lnot. lia.
    + apply (POS _ _ _ R3). symmetry. apply Z.lxor_lnot_lnot.
    + destruct (represents_stored _ _ R1) as (j' & R). apply (NEG _ _ _ _ R). rewrite <- Z.lnot_lor. unfold Z.lnot. lia.
    + apply (POS _ _ _ R4). rewrite !Z.ldiff_land, Z.lnot_involutive. apply Z.land_comm.
  - destruct (trim_sub1 _ _ _ A ltac:(lia)) as (j & T). pose proof (sub1_stored _ _ _ A ltac:(lia)) as S. rewrite lnot_abs in S, T by auto. rewrite (Z.abs_eq n) in B by auto.
    destruct (C106_bits _ _ _ _ _ _ B T) as (R1 & R2 & R3 & R4). destruct (C106_bits _ _ _ _ _ _ S B) as (Q1 & Q2 & Q3 & Q4). split; [|split; [|split]].
    + apply (POS _ _ _ R4). rewrite Z.ldiff_land, Z.lnot_involutive. apply Z.land_comm.
    + destruct (represents_stored _ _ R3) as (j' & R). apply (NEG _ _ _ _ R). rewrite (Z.lxor_comm n), <- Z.lnot_lxor_l. unfold Z.lnot. lia.
    + destruct (represents_stored _ _ R4) as (j' & R). apply (NEG _ _ _ _ R). unfold Z.lnot. lia.
    + apply (NEG _ _ _ _ Q2). rewrite Z.ldiff_land. rewrite <- (Z.lnot_involutive n) at 2. rewrite <- Z.lnot_land. unfold Z.lnot. lia.
  - destruct (trim_sub1 _ _ _ B ltac:(lia)) as (j & T). rewrite lnot_abs in T by auto. rewrite (Z.abs_eq m) in A by auto.
    destruct (C106_bits _ _ _ _ _ _ A T) as (R1 & R2 & R3 & R4). split; [|split; [|split]].
    + apply (POS _ _ _ R4). rewrite Z.ldiff_land, Z.lnot_involutive. reflexivity.
    + destruct (represents_stored _ _ R3) as (j' & R). apply (NEG _ _ _ _ R). rewrite <- Z.lnot_lxor_r. unfold Z.lnot. lia.
    + destruct (represents_stored _ _ R4) as (j' & R). apply (NEG _ _ _ _ R). unfold Z.lnot. lia.
    + apply (POS _ _ _ R1). apply Z.ldiff_land.
  - rewrite (Z.abs_eq m) in A by auto. rewrite (Z.abs_eq n) in B by auto. destruct (C106_bits _ _ _ _ _ _ A B) as (R1 & R2 & R3 & R4). split; [|split; [|split]].
    + apply (POS _ _ _ R1). reflexivity.
    + apply (POS _ _ _ R3). reflexivity.
    + apply (value_pos _ _ _ R2).
    + apply (POS _ _ _ R4). reflexivity.
Qed.

(** The shift to the right depends on the number of words ([shift_result], C08). *)
Theorem C132_shr : forall x l m k, stored_int x l m -> 0 <= k ->
  int_value (b_shr x k) (if m <? 0 then - (shift_result l (- m - 1) k + 1) else shift_result l m k).
Proof.
  intros x l m k (A & SA) K. unfold b_shr. rewrite SA. destruct (Z.ltb_spec m 0).
  - pose proof (sub1_stored _ _ _ A ltac:(lia)) as S. replace (Z.abs m - 1) with (- m - 1) in S by lia. destruct (C106_shr _ _ _ k S K) as ((W1 & V1) & N1). pose proof (stored_words _ W1 N1) as S1. rewrite V1 in S1.
    destruct (C106_sum_word _ _ _ 1 S1 ltac:(split; [lia|reflexivity])) as (j & S2). apply (value_neg _ _ _ _ S2). lia.
  - rewrite (Z.abs_eq m) in A by auto. destruct (C106_shr _ _ _ k A K) as ((W1 & V1) & N1). split; [auto|]. split; [auto|]. exact V1.
Qed.
(** Division by a number without leading zero words. *)
Theorem C132_division : forall x l m y n, stored_int x l m -> is_int y n -> n <> 0 ->
  (exists q, b_div x y = Ok q /\ int_value q (Z.quot m n)) /\
  (exists r, b_rem x y = Ok r /\ int_value r (if m <? 0 then - (dividend l (- m) (Z.abs n) mod Z.abs n) else dividend l m (Z.abs n) mod Z.abs n)).
Proof.
  intros x l m y n (A & SA) Y NZ. apply is_int_iff in Y. subst y. assert (R : represents (bnat (zint n)) (Z.abs n)) by (rewrite zint_nat; apply NatFacts5.rep_of_Z; lia).
  pose proof (nat_eq_zero _ _ R ltac:(lia)) as E0. unfold b_div, b_rem. rewrite E0, SA, zint_neg. split.
  - rewrite (div_stored _ _ _ _ _ A R) by lia. cbn [bind]. eexists. split; [reflexivity|]. assert (Q : 0 <= Z.abs m / Z.abs n) by (apply Z.div_pos; lia). split; [apply of_Z_words; auto|]. split; [apply of_Z_nonnil; auto|].
    unfold bvalue. cbn [bnat bneg]. rewrite of_Z_val by auto. rewrite (C106_order _ _ _ (from_u32 0) 1 0 A) by (apply single_stored; split; [lia|reflexivity]).
    rewrite <- Z.quot_div_nonneg by lia. unfold stored_compare. destruct (Z.ltb_spec m 0), (Z.ltb_spec n 0); cbn [eqb]; rewrite ?(Z.abs_eq m), ?(Z.abs_eq n), ?(Z.abs_neq m), ?(Z.abs_neq n) by lia.
    + rewrite Z.quot_opp_opp by lia. reflexivity.
    + rewrite Z.quot_opp_l by lia. destruct (Z.ltb_spec l 1); [lia|]. destruct (1 <? l); [lia|]. destruct (Z.compare_spec (- m) 0); lia.
    + rewrite Z.quot_opp_r by lia. destruct (Z.ltb_spec l 1); [lia|]. destruct (1 <? l); [lia|]. destruct (Z.compare_spec m 0); try lia. subst m. rewrite Z.quot_0_l by lia. reflexivity.
    + reflexivity.
  - destruct (C106_rem _ _ _ _ _ A R ltac:(lia)) as (r & j & -> & S). cbn [bind]. eexists. split; [reflexivity|]. split; [apply S|]. split; [apply (stored_nonnil _ _ _ S)|]. unfold bvalue. cbn [bnat bneg].
    replace (nval r) with (dividend l (Z.abs m) (Z.abs n) mod Z.abs n) by (symmetry; apply S). destruct (Z.ltb_spec m 0); [rewrite (Z.abs_neq m) by lia|rewrite (Z.abs_eq m) by lia]; reflexivity.
Qed.

(** [x op y] does not see leading zero words of [x]. *)
Theorem C132_by_value : forall (B C : Type) (f : bigint -> B -> C) x l m c y, stored_int x l m -> is_int c m -> b_by_value f x y = f c y.
Proof. intros B C f x l m c y (A & SA) E. apply is_int_iff in E. subst c. unfold b_by_value, b_clone. rewrite (trim_stored _ _ _ A), SA. reflexivity. Qed.
(** The decimal text and the bits are right. *)
Theorem C132_text : forall x l m, stored_int x l m -> exists s, b_fmt_display x = Ok ((if Z.ltb m 0 then [45] else []) ++ s)%list /\ is_numeral lchar 10 s (Z.abs m).
Proof.
  intros x l m (A & SA). destruct (C106_decimal _ _ _ A) as (s & E & N). exists s. split; [|exact N]. unfold b_fmt_display. rewrite E. cbn [bind]. unfold b_sign_text, b_is_negative, b_is_nan. rewrite (stored_nan _ _ _ A), SA. cbn [negb andb]. destruct (m <? 0); reflexivity.
Qed.
Theorem C132_bit : forall x l m i, stored_int x l m -> 0 <= i -> exists o, b_is_set_bit x i = Ok o /\ (forall b, o = Some b -> b = Z.testbit m i) /\
  (o = None <-> (if m <? 0 then Z.max 1 (Z.log2 (- m - 1) + 1) else b_bits_len x) <= i).
Proof.
  intros x l m i (A & SA) I. unfold b_is_set_bit, b_bits_len. rewrite SA. destruct (Z.ltb_spec m 0) as [M|M].
  - rewrite (trim_stored _ _ _ A), (Z.abs_neq m) by lia. pose proof (bits_len_sub1 (- m) ltac:(lia)) as BL.
    destruct (sub1_spec (- m)) as (a & El & Wl & Nl & Vl & Ll); [lia|]. rewrite El in *. rewrite is_set_bit_words, BL by auto. cbn [bind].
    eexists. split; [reflexivity|]. rewrite Vl. replace (- m - 1) with (Z.lnot m) by (unfold Z.lnot; lia). destruct (Z.leb_spec (Z.max 1 (Z.log2 (Z.lnot m) + 1)) i); cbn [option_map].
    + split; [discriminate|]. split; [lia|auto].
    + split; [intros b [= <-]; rewrite Z.lnot_spec, negb_involutive by lia; reflexivity|]. split; [discriminate|lia].
  - pose proof (stored_nonnil _ _ _ A) as NN. assert (WW : words_ok (bnat x)) by apply A. rewrite is_set_bit_words by auto. eexists. split; [reflexivity|]. replace (nval (bnat x)) with m by (symmetry; rewrite <- (Z.abs_eq m) by lia; apply A).
    destruct (Z.leb_spec (bits_len (bnat x)) i). { split; [discriminate|]. split; [auto|auto]. } split; [intros b [= <-]; reflexivity|]. split; [discriminate|lia].
Qed.

(** [!] of a negative power of 2^32 keeps a zero word, so it is not equal to the
    number it is. *)
Theorem C132_complement_refuted : forall k, 0 < k ->
  stored_int (b_not (zint (- 2 ^ (32 * k)))) (k + 1) (2 ^ (32 * k) - 1) /\ b_eq (b_not (zint (- 2 ^ (32 * k)))) (zint (2 ^ (32 * k) - 1)) = false /\
  b_lt (zint (2 ^ (32 * k) - 1)) (b_not (zint (- 2 ^ (32 * k)))) = true.
Proof.
  intros k K. pose proof (pow2_pos (32 * k) ltac:(lia)) as P. assert (P2 : 2 ^ 1 <= 2 ^ (32 * k)) by (apply Z.pow_le_mono_r; lia). change (2 ^ 1) with 2 in P2.
  assert (W1 : words (2 ^ (32 * k)) = k + 1) by (unfold words; rewrite Z.log2_pow2, (Z.mul_comm 32 k), Z.div_mul by lia; reflexivity).
  assert (W2 : words (2 ^ (32 * k) - 1) = k).
  { unfold words. replace (2 ^ (32 * k) - 1) with (Z.pred (2 ^ (32 * k))) by lia. rewrite Z.log2_pred_pow2 by lia. replace (Z.pred (32 * k)) with (31 + (k - 1) * 32) by lia. rewrite Z.div_add by lia. change (31 / 32) with 0. lia. }
  assert (S : stored_int (b_not (zint (- 2 ^ (32 * k)))) (k + 1) (2 ^ (32 * k) - 1)).
  { unfold b_not. rewrite zint_not_nan, zint_nat, zint_neg, trim_abs. replace (- 2 ^ (32 * k) <? 0) with true by (symmetry; apply Z.ltb_lt; lia). split; cbn [bnat bneg]; [|symmetry; apply Z.ltb_ge; lia].
    rewrite Z.abs_opp, Z.abs_eq, (Z.abs_eq (2 ^ (32 * k) - 1)) by lia. rewrite <- W1. apply sub1_stored; [apply of_Z_stored|]; lia. }
  assert (T : stored_int (zint (2 ^ (32 * k) - 1)) k (2 ^ (32 * k) - 1)).
  { split; [|apply zint_neg]. rewrite zint_nat, Z.abs_eq by lia. pose proof (of_Z_stored (2 ^ (32 * k) - 1) ltac:(lia)) as S'. rewrite W2 in S'. exact S'. }
  split; [exact S|]. split.
  - rewrite (C132_equal _ _ _ _ _ _ S T). replace (k + 1 =? k) with false by (symmetry; apply Z.eqb_neq; lia). reflexivity.
  - unfold b_lt. rewrite (C132_order _ _ _ _ _ _ T S). unfold stored_int_compare, stored_compare. replace (2 ^ (32 * k) - 1 <? 0) with false by (symmetry; apply Z.ltb_ge; lia). replace (k <? k + 1) with true by (symmetry; apply Z.ltb_lt; lia). reflexivity.
Qed.
(** [x = !(-2^32); x <<= 32] is 2^64 - 2^32 in three words; 2^64 - 1 minus x is
    -(2^96 - 2^32 + 1), and [x -= 2^64 - 1] leaves 2^96 - 2^32 + 1. *)
Theorem C132_difference_refuted : let x := b_shl (b_not (zint (- 2 ^ 32))) 32 in
  stored_int x 3 (2 ^ 64 - 2 ^ 32) /\ bvalue (b_by_value b_sub (zint (2 ^ 64 - 1)) x) = - (2 ^ 96 - 2 ^ 32 + 1) /\
  bvalue (b_sub x (zint (2 ^ 64 - 1))) = 2 ^ 96 - 2 ^ 32 + 1.
Proof.
  cbv zeta. assert (E : b_shl (b_not (zint (- 2 ^ 32))) 32 = BI [0; 4294967295; 0] false) by (vm_compute; reflexivity). rewrite E. split.
  - split; cbn [bnat bneg]; [|reflexivity]. split; [repeat (constructor; [split; [lia|reflexivity]|]); constructor|]. split; [reflexivity|]. split; [lia|reflexivity].
  - split; vm_compute; reflexivity.
Qed.

Example C132_case : let x := BI [5; 0] true in let y := BI [7] false in
  stored_int x 2 (-5) /\ bvalue (b_add x y) = stored_sum false 2 (-5) 1 7 /\ stored_sum false 2 (-5) 1 7 = - (2 ^ 64 - 2) /\
  bvalue (b_by_value b_add x y) = 2 /\ bvalue (b_and x y) = 3 /\ bvalue (b_mul x y) = -35.
Proof.
  cbv zeta. split; [split; cbn [bnat bneg]; [|reflexivity]; split; [repeat (constructor; [split; [lia|reflexivity]|]); constructor|]; split; [reflexivity|]; split; [lia|reflexivity]|].
  repeat split; vm_compute; reflexivity.
Qed.

Print Assumptions C132_equal.
Print Assumptions C132_order.
Print Assumptions C132_sum.
Print Assumptions C132_sum_right.
Print Assumptions C132_product.
Print Assumptions C132_shl.
Print Assumptions C132_not.
Print Assumptions C132_bits.
Print Assumptions C132_shr.
Print Assumptions C132_division.
Print Assumptions C132_by_value.
Print Assumptions C132_text.
Print Assumptions C132_bit.
Print Assumptions C132_complement_refuted.
Print Assumptions C132_difference_refuted.
