(** C106: numbers stored with leading zero words.  [x * w], [x - w] and
    [0 << 32] return such numbers (C06), so every operation meets them.  The
    binary operations below are the assigning ones ([a *= b] where there is
    room for the product, C131); [a op b] drops the leading zero words of [a]
    first ([by_value]). *)
From Coq Require Import ZArith List Bool Lia String.
From Verif Require Import Words WordsFacts Spec NatModel NatFacts NatFacts2 NatFacts3 NatFacts4 NatConv NatConvFacts SpecShift ShiftFacts SpecLoose LooseFacts.
Import ListNotations.
Open Scope Z_scope.

(** Equality and order look at the number of words first. *)
Theorem C106_equal : forall a l m b k n, stored a l m -> stored b k n -> nat_eq a b = (l =? k) && (m =? n).
Proof. exact eqb_stored. Qed.
Theorem C106_order : forall a l m b k n, stored a l m -> stored b k n -> partial_cmp a b = Some (stored_compare l m k n).
Proof. intros a l m b k n A B. unfold partial_cmp. rewrite (stored_nan _ _ _ A), (stored_nan _ _ _ B), (cmp_stored _ _ _ _ _ _ A B). reflexivity. Qed.

(** These are right for every number of words. *)
Theorem C106_sum : forall a l m b k n, stored a l m -> stored b k n -> exists j, stored (nat_add a b) j (m + n) /\ Z.max l k <= j <= Z.max l k + 1.
Proof.
  intros a l m b k n A B. unfold nat_add, op2. rewrite (stored_nan _ _ _ A), (stored_nan _ _ _ B). cbn [orb]. destruct A as (Wa & La & Pa & Va), B as (Wb & Lb & Pb & Vb).
  pose proof (add_loop_len a 0 b Wa Wb ltac:(lia)) as L. cbv zeta in L. exists (Z.of_nat (List.length (add_inner a b))). split; [|unfold add_inner; destruct L as [L|(L & _)]; rewrite L; lia].
  split; [apply add_inner_words; auto|]. split; [reflexivity|]. split; [unfold add_inner; destruct L as [L|(L & _)]; rewrite L; lia|]. rewrite add_inner_val, Va, Vb by auto. reflexivity.
Qed.
Theorem C106_sum_word : forall a l m w, stored a l m -> 0 <= w < 2 ^ 32 -> exists j, stored (nat_add_u32 a w) j (m + w).
Proof.
  intros a l m w A Hw. destruct (C106_sum a l m [w] 1 w A (single_stored w Hw)) as (j & S & _). exists j. unfold nat_add_u32, op1. rewrite (stored_nan _ _ _ A).
  rewrite add_basic_as_add by (apply (stored_nonnil a l m A)). unfold nat_add, op2 in S. rewrite (stored_nan _ _ _ A) in S. exact S.
Qed.
Theorem C106_product : forall a l m b k n, stored a l m -> stored b k n -> exists j, stored (nat_mul a b) j (m * n).
Proof. exact mul_stored. Qed.
Theorem C106_product_word : forall a l m w, stored a l m -> 0 <= w < 2 ^ 32 -> stored (nat_mul_u32 a w) (l + 1) (m * w).
Proof.
  intros a l m w A Hw. unfold nat_mul_u32, op1. rewrite (stored_nan _ _ _ A). destruct A as (Wa & La & Pa & Va). destruct (mul_basic_spec a w Wa Hw) as (V & Wm & L).
  split; [auto|]. split; [lia|]. split; [lia|]. rewrite V, Va. reflexivity.
Qed.
Theorem C106_word_division : forall a l m w, stored a l m -> 0 < w < 2 ^ 32 ->
  exists q r, nat_div_u32 a w = Ok q /\ represents q (m / w) /\ nat_rem_u32 a w = Ok r /\ represents r (m mod w).
Proof.
  intros a l m w A Hw. pose proof (stored_nonnil _ _ _ A) as N. pose proof (stored_bound _ _ _ A). unfold nat_div_u32, nat_rem_u32, op1r. rewrite (stored_nan _ _ _ A). destruct A as (Wa & La & Pa & Va).
  rewrite div_basic_words, rem_basic_words, Va by auto. do 2 eexists. split; [reflexivity|]. split; [apply NatFacts5.rep_of_Z; apply Z.div_pos; lia|]. split; [reflexivity|]. apply NatFacts5.rep_of_Z. apply Z.mod_pos_bound. lia.
Qed.
Theorem C106_bits : forall a l m b k n, stored a l m -> stored b k n ->
  represents (nat_bitand a b) (Z.land m n) /\ stored (nat_bitor a b) (Z.max l k) (Z.lor m n) /\ represents (nat_bitxor a b) (Z.lxor m n) /\ represents (and_not a b) (Z.ldiff m n).
Proof.
  intros a l m b k n A B. unfold nat_bitand, nat_bitor, nat_bitxor, op2. rewrite (stored_nan _ _ _ A), (stored_nan _ _ _ B). cbn [orb]. pose proof (stored_nonnil _ _ _ A) as N.
  destruct A as (Wa & La & Pa & Va), B as (Wb & Lb & Pb & Vb). rewrite <- Va, <- Vb.
  destruct (zip_land a b Wa Wb) as (A1 & A2). destruct (zip_lor a b Wa Wb) as (B1 & B2 & B3). destruct (zip_lxor a b Wa Wb) as (X1 & X2 & X3). destruct (zip_ldiff a b Wa Wb) as (D1 & D2 & D3).
  assert (NE : forall l : list Z, (0 < List.length l)%nat -> l <> []) by (intros l' H' ->; inversion H').
  split. { split; [apply trim_canon; auto; apply NE; rewrite firstn_length; destruct a; [congruence|]; destruct b; [exfalso; cbn [List.length] in Lb; lia|]; cbn [zip_with List.length]; lia|]. rewrite <- A1. apply trim_val. }
  split. { split; [exact B2|]. split; [unfold bitor_inner; rewrite B3; lia|]. split; [lia|exact B1]. }
  split. { split; [apply trim_canon; auto; apply NE; rewrite X3; lia|]. rewrite <- X1. apply trim_val. }
  split; [apply trim_canon; auto; apply NE; rewrite D3; lia|]. rewrite <- D1. apply trim_val.
Qed.
Theorem C106_shl : forall a l m k, stored a l m -> 0 <= k -> exists j, stored (nat_shl a k) j (m * 2 ^ k) /\ l + k / 32 <= j <= l + k / 32 + 1.
Proof.
  intros a l m k A K. unfold nat_shl, op1. rewrite (stored_nan _ _ _ A). destruct A as (Wa & La & Pa & Va). destruct (shl_inner_spec a k Wa K) as (V & Ws).
  pose proof (Z.div_pos k 32 K ltac:(lia)) as D. pose proof (Z.mod_pos_bound k 32 ltac:(lia)) as M.
  assert (L : Z.of_nat (List.length (shl_inner a k)) = l + k / 32 \/ Z.of_nat (List.length (shl_inner a k)) = l + k / 32 + 1).
  { unfold shl_inner. rewrite app_length, repeat_length. rewrite Z.gtb_ltb. destruct (Z.ltb_spec 0 (k mod 32)); [|lia].
    pose proof (shl_bits_len (k mod 32) a ltac:(lia) 0 Wa) as S. destruct S as [S|(S & _)]; [split; [lia|apply pow2_pos; lia]|rewrite S; lia|rewrite S; lia]. }
  exists (Z.of_nat (List.length (shl_inner a k))). split; [|lia]. split; [auto|]. split; [reflexivity|]. split; [lia|]. rewrite V, Va. reflexivity.
Qed.
Theorem C106_octal : forall a l m alt, stored a l m -> exists s, fmt_octal alt a = ((if alt then str "0o" else []) ++ s)%list /\ is_numeral lchar 8 s m.
Proof. intros a l m alt A. pose proof (stored_nonnil _ _ _ A) as N. destruct A as (Wa & _ & _ & <-). apply fmt_octal_words; auto. Qed.

(** [/=] and the decimal text work on a trimmed copy. *)
Theorem C106_div : forall a l m b n, stored a l m -> represents b n -> 0 < n -> exists q, nat_div a b = Ok q /\ represents q (m / n).
Proof. intros a l m b n A B P. eexists. split; [eapply div_stored; eauto|]. apply NatFacts5.rep_of_Z. pose proof (stored_bound _ _ _ A). apply Z.div_pos; lia. Qed.
Theorem C106_decimal : forall a l m, stored a l m -> exists s, fmt_display a = Ok s /\ is_numeral lchar 10 s m.
Proof. exact display_stored. Qed.

(** [a op b] is the operation on the number of [a], however it is stored. *)
Theorem C106_by_value : forall (B C : Type) (f : list Z -> B -> C) a l m c b, stored a l m -> represents c m -> by_value f a b = f c b.
Proof. intros B C f a l m c b A (Cc & V). unfold by_value. rewrite (trim_stored a l m A). f_equal. symmetry. apply of_Z_unique; auto. Qed.
(** So these are right, if the right operand has no leading zero word. *)
Theorem C106_by_value_right : forall a l m b n, stored a l m -> represents b n ->
  represents (by_value nat_sub a b) (Z.abs (m - n)) /\ represents (fst (sub_with_sign a b)) (Z.abs (m - n)) /\ (snd (sub_with_sign a b) = true <-> n <= m) /\
  (0 < n -> exists q r, by_value nat_div a b = Ok q /\ represents q (m / n) /\ by_value nat_rem a b = Ok r /\ represents r (m mod n)).
Proof.
  intros a l m b n A B. pose proof (stored_bound _ _ _ A) as BM. assert (M0 : 0 <= m) by lia. unfold by_value, sub_with_sign. rewrite (trim_stored a l m A).
  destruct B as (Cb & Vb). pose proof (canon_nonneg b Cb) as N0. rewrite Vb in N0. pose proof (of_Z_unique b n Cb Vb) as ->.
  assert (S : nat_sub (of_Z m) (of_Z n) = of_Z (Z.abs (m - n))) by (unfold nat_sub, op2; rewrite !is_nan_canon by (apply of_Z_canon; auto); cbn [orb]; apply sub_of_Z; auto).
  destruct (NatFacts5.sub_with_sign_rep (of_Z m) (of_Z n) (of_Z_canon m M0) (of_Z_canon n N0)) as (R1 & R2). unfold sub_with_sign in R1, R2.
  rewrite trim_canon_id in R1, R2 by (apply of_Z_canon; auto). rewrite !of_Z_val in R1, R2 by auto.
  split; [rewrite S; apply NatFacts5.rep_of_Z; lia|]. split; [exact R1|]. split; [exact R2|]. intros P.
  do 2 eexists. rewrite BigIntFacts.nat_div_of_Z, BigIntFacts.nat_rem_of_Z' by auto. split; [reflexivity|]. split; [apply NatFacts5.rep_of_Z, Z.div_pos; lia|]. split; [reflexivity|].
  apply NatFacts5.rep_of_Z, Z.mod_pos_bound. auto.
Qed.
(** [&], [^] and [and_not] do not depend on it. *)
Theorem C106_by_value_same : forall a l m b k n, stored a l m -> stored b k n ->
  by_value nat_bitand a b = nat_bitand a b /\ by_value nat_bitxor a b = nat_bitxor a b /\ by_value and_not a b = and_not a b.
Proof.
  intros a l m b k n A B. pose proof (stored_bound _ _ _ A) as BM. unfold by_value. rewrite (trim_stored a l m A).
  destruct (C106_bits _ _ _ _ _ _ A B) as (A1 & _ & A2 & A3).
  assert (A' : stored (of_Z m) (Z.of_nat (List.length (of_Z m))) m).
  { pose proof (of_Z_canon m ltac:(lia)) as C. split; [apply canon_words; auto|]. split; [reflexivity|]. split; [pose proof (canon_len_pos _ C); lia|apply of_Z_val; lia]. }
  destruct (C106_bits _ _ _ _ _ _ A' B) as (B1 & _ & B2 & B3).
  assert (U : forall x y v, represents x v -> represents y v -> x = y) by (intros x y v (X1 & X2) (Y1 & Y2); rewrite (of_Z_unique x v X1 X2); symmetry; apply of_Z_unique; auto).
  split; [exact (U _ _ _ B1 A1)|]. split; [exact (U _ _ _ B2 A2)|exact (U _ _ _ B3 A3)].
Qed.

(** What the others compute. *)
Theorem C106_difference : forall a l m b k n, stored a l m -> stored b k n -> represents (nat_sub a b) (stored_difference l m k n).
Proof.
  intros a l m b k n A B. unfold nat_sub, op2. rewrite (stored_nan _ _ _ A), (stored_nan _ _ _ B). cbn [orb]. rewrite (sub_stored _ _ _ _ _ _ A B). apply NatFacts5.rep_of_Z.
  unfold stored_difference. destruct A as (_ & _ & Pa & _), B as (_ & _ & Pb & _). destruct (stored_compare l m k n); apply Z.mod_pos_bound; apply pow2_pos; lia.
Qed.
Theorem C106_difference_word : forall a l m w, stored a l m -> 0 <= w < 2 ^ 32 ->
  stored (nat_sub_u32 a w) l (if l =? 1 then Z.abs (m - w) else (m - w) mod 2 ^ (32 * l)).
Proof. exact sub_u32_stored. Qed.
Theorem C106_bit_length : forall a l m, stored a l m -> bits_len a = if m <? 2 ^ (32 * (l - 1)) then Z.max 1 (32 * (l - 1)) else Z.log2 m + 1.
Proof. exact bits_len_stored. Qed.
Theorem C106_not : forall a l m, stored a l m -> 1 < l -> m < 2 ^ (32 * (l - 1)) -> represents (nat_not a) (2 ^ (32 * l) - 1 - m).
Proof. intros a l m A L T. rewrite (not_stored a l m A L T). apply NatFacts5.rep_of_Z. pose proof (stored_bound _ _ _ A). lia. Qed.
Theorem C106_shr : forall a l m k, stored a l m -> 0 <= k -> has_value (nat_shr a k) (shift_result l m k) /\ nat_shr a k <> [].
Proof.
  intros a l m k A K. pose proof (stored_nonnil _ _ _ A) as N. unfold nat_shr, op1. rewrite (stored_nan _ _ _ A). destruct A as (Wa & La & Pa & Va).
  destruct (shr_inner_value a k Wa N K) as (V & Ws & Ns). split; [|auto]. split; [auto|]. rewrite V, La, Va. reflexivity.
Qed.
Theorem C106_rem : forall a l m b n, stored a l m -> represents b n -> 0 < n -> exists r k, nat_rem a b = Ok r /\ stored r k (dividend l m n mod n).
Proof. intros a l m b n A B P. destruct (rem_stored a l m b n A B P) as (r & k & E & S & _). eauto. Qed.
Theorem C106_hex_binary : forall a l m (alt : bool), stored a l m -> 1 < l -> m < 2 ^ (32 * (l - 1)) ->
  let digits base width (chr : Z -> Z) (pre text : list Z) := exists ds, text = ((if alt then pre else []) ++ map chr ds)%list /\ digits_ok base ds /\ be_value base ds = m /\ Z.of_nat (List.length ds) = width * (l - 1) in
  digits 16 8 lchar (str "0x") (fmt_lower_hex alt a) /\ digits 16 8 uchar (str "0x") (fmt_upper_hex alt a) /\ digits 2 32 lchar (str "0b") (fmt_binary alt a).
Proof.
  intros a l m alt A L T digits. unfold digits. split; [|split].
  - apply (fmt_stored lchar 16 8 (str "0x") alt a l m); auto; try lia. apply lchar_ok. lia.
  - apply (fmt_stored uchar 16 8 (str "0x") alt a l m); auto; try lia. apply uchar_ok. lia.
  - apply (fmt_stored lchar 2 32 (str "0b") alt a l m); auto; try lia. apply lchar_ok. lia.
Qed.

(** Where the number of words does not matter. *)
Theorem C106_canonical : forall l m n, 0 < n -> 0 <= m -> l = 1 \/ 2 ^ (32 * (l - 1)) <= m -> dividend l m n = m.
Proof. exact dividend_canon. Qed.

(** The text of a product of a number and a word. *)
Theorem C106_product_text : forall a l m w, stored a l m -> 0 <= w < 2 ^ 32 ->
  exists s, fmt_display (nat_mul_u32 a w) = Ok s /\ is_numeral lchar 10 s (m * w).
Proof. intros a l m w A Hw. apply (C106_decimal _ (l + 1)). apply C106_product_word; auto. Qed.

(** 3 * 5 is not equal to 15 and not less than 20, 20 - 3 * 5 is 2^64 - 5, and
    with x = 3 * 5, [x -= 20] leaves 2^64 - 5 and [x %= 10] leaves 1. *)
Theorem C106_small_product_refuted : let x := nat_mul_u32 [3] 5 in
  nval x = 15 /\ nat_eq x [15] = false /\ nat_lt x [20] = false /\ nval (by_value nat_sub [20] x) = 2 ^ 64 - 5 /\ nval (nat_sub x [20]) = 2 ^ 64 - 5 /\
  exists r, nat_rem x [10] = Ok r /\ nval r = 1.
Proof.
  cbv zeta. split; [vm_compute; reflexivity|]. split; [reflexivity|]. split; [reflexivity|]. split; [vm_compute; reflexivity|]. split; [vm_compute; reflexivity|].
  eexists; split; vm_compute; reflexivity.
Qed.
(** Dividing by a zero with two words neither panics nor returns. *)
Theorem C106_zero_divisor_refuted : nat_shl [0] 32 = [0; 0] /\
  (forall fuel q, div_loop fuel q [0; 1] [0; 0] (bits_len [0; 0]) = Fuel) /\ (forall fuel, rem_loop fuel [0; 1] [0; 0] (bits_len [0; 0]) = Fuel) /\
  nat_div [0; 1] [0; 0] = Fuel /\ nat_rem [0; 1] [0; 0] = Fuel.
Proof.
  split; [reflexivity|].
  assert (D : forall fuel q, div_loop fuel q [0; 1] [0; 0] (bits_len [0; 0]) = Fuel).
  { induction fuel as [|f IH]; intros q; [reflexivity|]. cbn [div_loop]. change (cmp_inner [0; 1] [0; 0]) with Gt. change (bits_len [0; 1] - bits_len [0; 0]) with 1. change (1 <? 0) with false. cbv iota.
    change (div_adjust (S (Z.to_nat 1)) (shl_inner [0; 0] 1) [0; 1] 1) with (Ok ([0; 0], 1)). cbn [bind]. change (sub_inner [0; 1] [0; 0]) with [0; 1]. apply IH. }
  assert (R : forall fuel, rem_loop fuel [0; 1] [0; 0] (bits_len [0; 0]) = Fuel).
  { induction fuel as [|f IH]; [reflexivity|]. cbn [rem_loop]. change (cmp_inner [0; 1] [0; 0]) with Gt. change (bits_len [0; 1] - bits_len [0; 0]) with 1. change (1 <? 0) with false. cbv iota zeta.
    change (shl_inner [0; 0] 1) with [0; 0]. change (cmp_inner [0; 1] [0; 0]) with Gt. cbv iota. change (sub_inner [0; 1] [0; 0]) with [0; 1]. apply IH. }
  split; [exact D|]. split; [exact R|]. split.
  - unfold nat_div, op2r. cbn [is_nan orb]. unfold div_inner. change (nat_eq_u32 [0; 0] 0) with false. change (cmp_inner [0; 1] [0; 0]) with Gt. cbv iota zeta. change (bits_len [0; 1] =? bits_len [0; 0]) with false. cbv iota. apply D.
  - unfold nat_rem, op2r. cbn [is_nan orb]. unfold rem_inner. change (nat_eq_u32 [0; 0] 0) with false. change (cmp_inner [0; 1] [0; 0]) with Gt. cbv iota. rewrite R. reflexivity.
Qed.
Example C106_case : stored [15; 0] 2 15 /\ dividend 2 15 10 = 2 ^ 64 + 15 /\ dividend 2 (2 ^ 32 - 1) 10 = 2 ^ 32 - 1 /\ nat_div [15; 0] [10] = Ok [1] /\ by_value nat_rem [15; 0] [10] = Ok [5] /\ fmt_display [15; 0] = Ok (str "15") /\
  nat_rem [15; 0] [10] = Ok [1] /\ fmt_lower_hex true [15; 0] = str "0x0000000f" /\ fmt_octal true [15; 0] = str "0o17" /\ nat_shr [15; 0; 0] 33 = [0; 0].
Proof. split; [split; [repeat constructor; lia|split; [reflexivity|split; [lia|reflexivity]]]|]. repeat split; vm_compute; reflexivity. Qed.
Print Assumptions C106_equal.
Print Assumptions C106_order.
Print Assumptions C106_sum.
Print Assumptions C106_sum_word.
Print Assumptions C106_product.
Print Assumptions C106_product_word.
Print Assumptions C106_word_division.
Print Assumptions C106_bits.
Print Assumptions C106_shl.
Print Assumptions C106_octal.
Print Assumptions C106_difference.
Print Assumptions C106_difference_word.
Print Assumptions C106_bit_length.
Print Assumptions C106_not.
Print Assumptions C106_shr.
Print Assumptions C106_div.
Print Assumptions C106_rem.
Print Assumptions C106_decimal.
Print Assumptions C106_by_value.
Print Assumptions C106_by_value_right.
Print Assumptions C106_by_value_same.
Print Assumptions C106_hex_binary.
Print Assumptions C106_canonical.
Print Assumptions C106_product_text.
Print Assumptions C106_small_product_refuted.
Print Assumptions C106_zero_divisor_refuted.
