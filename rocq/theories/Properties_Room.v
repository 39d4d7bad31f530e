(** C131: multiplying in place a number that has leading zero words. *)
From Coq Require Import ZArith List Lia Bool.
From Verif Require Import Words WordsFacts Spec SpecLoose NatModel NatFacts NatFacts2 NatFacts5 LooseFacts AliasFacts BigIntFacts2 Properties_Loose.
Import ListNotations.
Open Scope Z_scope.

(** The words that the number m needs, and the words that the product of m by
    a number of k words is given room for: those of the shorter factor plus
    those of the longer one rounded up to a multiple of four, less one. *)
Definition words_needed (m : Z) : Z := if m =? 0 then 1 else Z.log2 m / 32 + 1.
Definition product_room (m k : Z) : Z := Z.min (words_needed m) k + (Z.max (words_needed m) k + 3) / 4 * 4 - 1.

Lemma trim_words a l m : stored a l m -> Z.of_nat (length (trim a)) = words_needed m.
Proof.
  intros A. pose proof (stored_bound _ _ _ A) as B. rewrite (trim_stored a l m A). unfold words_needed.
  destruct (Z.eqb_spec m 0) as [->|]; [reflexivity|]. apply len_of_Z. lia.
Qed.
Lemma pad4_len b : Z.of_nat (length (pad4 b)) = (Z.of_nat (length b) + 3) / 4 * 4.
Proof.
  unfold pad4. rewrite app_length, repeat_length. generalize (length b). intros n.
  pose proof (Nat.div_mod n 4 ltac:(discriminate)) as D. pose proof (Nat.mod_upper_bound n 4 ltac:(discriminate)) as U.
  set (q := (n / 4)%nat) in *. set (r := (n mod 4)%nat) in *. destruct (Nat.eq_dec r 0) as [R|R].
  - rewrite R. change ((4 - 0) mod 4)%nat with 0%nat. rewrite <- (Z.div_unique_pos (Z.of_nat n + 3) 4 (Z.of_nat q) 3); lia.
  - rewrite (Nat.mod_small (4 - r) 4) by lia. rewrite <- (Z.div_unique_pos (Z.of_nat n + 3) 4 (Z.of_nat q + 1) (Z.of_nat r - 1)); lia.
Qed.
(** The smaller one of two numbers, as the code orders them, has no more words. *)
Lemma min_max_len a b : a <> [] -> b <> [] ->
  Z.of_nat (length (fst (min_max a b))) = Z.min (Z.of_nat (length a)) (Z.of_nat (length b)) /\
  Z.of_nat (length (snd (min_max a b))) = Z.max (Z.of_nat (length a)) (Z.of_nat (length b)).
Proof.
  intros A B. unfold min_max, nat_lt, partial_cmp. replace (is_nan a || is_nan b) with false by (destruct a, b; [congruence|congruence|congruence|reflexivity]).
  unfold cmp_inner. destruct (Nat.ltb_spec (length a) (length b)); cbn [fst snd]; [lia|].
  destruct (Nat.ltb_spec (length b) (length a)); cbn [fst snd]; [lia|]. destruct (cmp_words (rev a) (rev b)); cbn [fst snd]; lia.
Qed.
Lemma stored_one b k n w : stored b k n -> 0 <= w < 2 ^ 32 -> nat_eq_u32 b w = (k =? 1) && (n =? w).
Proof.
  intros B HW. unfold nat_eq_u32. rewrite (C106_equal b k n (from_u32 w) 1 w B); [reflexivity|].
  unfold stored, from_u32. split; [constructor; [lia|constructor]|]. cbn [length nval]. lia.
Qed.
Lemma room_stored a l m b k n : stored a l m -> stored b k n -> mul_room a b = (l <=? product_room m k).
Proof.
  intros A B. pose proof (trim_words a l m A) as T. destruct A as (Wa & La & Pa & Va). destruct B as (Wb & Lb & Pb & Vb).
  assert (NB : b <> []) by (intros ->; cbn in Lb; lia). assert (NA : a <> []) by (intros ->; cbn in La; lia).
  assert (NT : trim a <> []) by (apply trim_canon; auto).
  destruct (min_max_len (trim a) b NT NB) as (E1 & E2). unfold mul_room. destruct (min_max (trim a) b) as [mn mx]. cbn [fst snd] in E1, E2.
  pose proof (pad4_len mx) as P. rewrite E2 in P. rewrite T, Lb in E1, P. unfold product_room. rewrite <- P.
  assert (1 <= words_needed m). { rewrite <- T. destruct (trim a); [congruence|cbn [length]; lia]. }
  destruct (Z.leb_spec l (Z.min (words_needed m) k + Z.of_nat (length (pad4 mx)) - 1)); [apply Nat.leb_le|apply Nat.leb_gt]; lia.
Qed.
Lemma room_four m k : 0 < k -> 4 <= product_room m k.
Proof.
  intros K. unfold product_room. assert (1 <= words_needed m).
  { unfold words_needed. destruct (m =? 0); [lia|]. pose proof (Z.div_pos (Z.log2 m) 32 (Z.log2_nonneg m)). lia. }
  assert (1 <= (Z.max (words_needed m) k + 3) / 4) by (apply Z.div_le_lower_bound; lia). lia.
Qed.

(** ** C131
    Full claim: [x *= y] leaves the product in [x], for every [x] and [y].  It
    panics exactly when the number of words of [x], leading zero words
    included, exceeds the room for the product, unless [y] is 0 or 1 in one
    word. *)
Theorem C131_assign_partial : forall a l m b k n, stored a l m -> stored b k n ->
  l <= product_room m k \/ (k = 1 /\ n <= 1) -> exists r j, nat_mul_assign a b = Ok r /\ stored r j (m * n).
Proof.
  intros a l m b k n A B R. destruct (C106_product a l m b k n A B) as (j & S). exists (nat_mul a b), j. split; [|exact S].
  assert (NA : is_nan a = false) by (destruct A as (_ & La & Pa & _); destruct a; [cbn in La; lia|reflexivity]).
  assert (NB : is_nan b = false) by (destruct B as (_ & Lb & Pb & _); destruct b; [cbn in Lb; lia|reflexivity]).
  unfold nat_mul_assign, nat_mul, op2r, op2. rewrite NA, NB. cbn [orb]. unfold mul_assign_inner. rewrite (room_stored a l m b k n A B).
  pose proof (stored_bound _ _ _ B) as BN. destruct R as [R|(-> & N)]; [rewrite (proj2 (Z.leb_le _ _) R), orb_true_r; reflexivity|].
  rewrite !(stored_one b 1 n) by (auto; lia). change (1 =? 1) with true. cbn [andb].
  destruct (Z.eqb_spec n 0); [|rewrite (proj2 (Z.eqb_eq n 1)) by lia]; destruct (nat_eq_u32 a 0), (nat_eq_u32 a 1); reflexivity.
Qed.
Theorem C131_assign_refuted : forall a l m b k n, stored a l m -> stored b k n ->
  product_room m k < l -> k <> 1 \/ 1 < n -> nat_mul_assign a b = Panic.
Proof.
  intros a l m b k n A B R N. pose proof (stored_bound _ _ _ B) as BN.
  assert (NA : is_nan a = false) by (destruct A as (_ & La & Pa & _); destruct a; [cbn in La; lia|reflexivity]).
  assert (NB : is_nan b = false) by (destruct B as (_ & Lb & Pb & _); destruct b; [cbn in Lb; lia|reflexivity]).
  pose proof (room_four m k ltac:(destruct B; lia)) as F.
  unfold nat_mul_assign, op2r. rewrite NA, NB. cbn [orb]. unfold mul_assign_inner. rewrite (room_stored a l m b k n A B).
  rewrite !(stored_one a l m), !(stored_one b k n) by (auto; lia).
  rewrite (proj2 (Z.leb_gt _ _) R). rewrite (proj2 (Z.eqb_neq l 1)) by lia. cbn [andb orb].
  destruct N as [N|N]; [rewrite (proj2 (Z.eqb_neq k 1) N); reflexivity|].
  rewrite (proj2 (Z.eqb_neq n 0)), (proj2 (Z.eqb_neq n 1)) by lia. rewrite !andb_false_r. reflexivity.
Qed.
(** Five words of a number below 2^32 are enough to make it panic, and four
    multiplications in place by one word make five words of one. *)
Theorem C131_words_refuted : forall x w1 w2 w3 w4 y, 0 <= x -> 0 <= w1 < 2 ^ 32 -> 0 <= w2 < 2 ^ 32 -> 0 <= w3 < 2 ^ 32 -> 0 <= w4 < 2 ^ 32 ->
  x * w1 * w2 * w3 * w4 < 2 ^ 32 -> x < 2 ^ 32 -> 1 < y < 2 ^ 32 ->
  nat_mul_assign (nat_mul_u32 (nat_mul_u32 (nat_mul_u32 (nat_mul_u32 (from_u32 x) w1) w2) w3) w4) (from_u32 y) = Panic.
Proof.
  intros x w1 w2 w3 w4 y X A1 A2 A3 A4 L LX Y.
  assert (S0 : stored (from_u32 x) 1 x) by (unfold stored, from_u32; split; [constructor; [lia|constructor]|]; cbn [length nval]; lia).
  assert (SY : stored (from_u32 y) 1 y) by (unfold stored, from_u32; split; [constructor; [lia|constructor]|]; cbn [length nval]; lia).
  pose proof (C106_product_word _ _ _ w1 S0 A1) as S1. pose proof (C106_product_word _ _ _ w2 S1 A2) as S2.
  pose proof (C106_product_word _ _ _ w3 S2 A3) as S3. pose proof (C106_product_word _ _ _ w4 S3 A4) as S4.
  apply (C131_assign_refuted _ _ _ _ _ _ S4 SY); [|lia]. pose proof (stored_bound _ _ _ S4) as (P & _).
  assert (words_needed (x * w1 * w2 * w3 * w4) = 1) as E.
  { unfold words_needed. destruct (Z.eqb_spec (x * w1 * w2 * w3 * w4) 0); [reflexivity|].
    assert (Z.log2 (x * w1 * w2 * w3 * w4) < 32) by (apply Z.log2_lt_pow2; lia). pose proof (Z.log2_nonneg (x * w1 * w2 * w3 * w4)).
    rewrite Z.div_small by lia. reflexivity. }
  unfold product_room. rewrite E. change ((Z.max 1 1 + 3) / 4 * 4) with 4. lia.
Qed.
(** Without leading zero words, and for [x * y], nothing is lost. *)
Theorem C131_canonical_partial : forall a m b k n, represents a m -> stored b k n -> exists r j, nat_mul_assign a b = Ok r /\ stored r j (m * n).
Proof.
  intros a m b k n (Ca & Va) B. pose proof (canon_nonneg a Ca) as M0.
  assert (A : stored a (Z.of_nat (length a)) m). { destruct Ca as (Wa & NE & _). split; [exact Wa|]. split; [reflexivity|]. split; [destruct a; [congruence|cbn [length]; lia]|exact Va]. }
  apply (C131_assign_partial a _ m b k n A B). left. pose proof (trim_words _ _ _ A) as T. rewrite (trim_canon_id a Ca) in T. rewrite T.
  unfold product_room. destruct B as (_ & _ & K & _). assert (1 <= words_needed m) by (rewrite <- T; destruct Ca as (_ & NE & _); destruct a; [congruence|cbn [length]; lia]).
  assert (Z.max (words_needed m) k <= (Z.max (words_needed m) k + 3) / 4 * 4); [|lia].
  pose proof (Z.div_mod (Z.max (words_needed m) k + 3) 4 ltac:(lia)). pose proof (Z.mod_pos_bound (Z.max (words_needed m) k + 3) 4 ltac:(lia)). lia.
Qed.
Theorem C131_by_value : forall a l m b k n, stored a l m -> stored b k n -> exists r j, by_value nat_mul_assign a b = Ok r /\ r = by_value nat_mul a b /\ stored r j (m * n).
Proof.
  intros a l m b k n A B. pose proof (stored_bound _ _ _ A) as BM. unfold by_value. rewrite (trim_stored a l m A).
  assert (R : represents (of_Z m) m) by (split; [apply of_Z_canon|apply of_Z_val]; lia).
  destruct (C131_canonical_partial _ _ _ _ _ R B) as (r & j & E & S). exists r, j. split; [exact E|]. split; [|exact S].
  revert E. unfold nat_mul_assign, nat_mul, op2r, op2, mul_assign_inner. destruct (is_nan (of_Z m) || is_nan b); [congruence|].
  destruct (_ || mul_room (of_Z m) b); congruence.
Qed.
Example C131_case :
  let x := nat_mul_u32 (nat_mul_u32 (nat_mul_u32 (nat_mul_u32 [3] 5) 5) 5) 5 in
  x = [1875; 0; 0; 0; 0] /\ nat_mul_assign x [7] = Panic /\ by_value nat_mul_assign x [7] = Ok [13125] /\
  nat_mul_assign [1875; 0; 0; 0] [7] = Ok [13125] /\ nat_mul_assign x [0; 0; 0; 0; 1] = Ok [0; 0; 0; 0; 1875] /\ nat_mul_assign x [1] = Ok x.
Proof. vm_compute. repeat split. Qed.
Print Assumptions C131_assign_partial.
Print Assumptions C131_assign_refuted.
Print Assumptions C131_words_refuted.
Print Assumptions C131_canonical_partial.
Print Assumptions C131_by_value.
