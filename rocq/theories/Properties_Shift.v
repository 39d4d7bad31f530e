(** C08, C35: the right shift for every number and every count. *)
From Coq Require Import ZArith List Lia Bool.
From Verif Require Import Words WordsFacts NatModel NatFacts NatFacts2 Spec SpecInt SpecShift BigInt BigIntFacts BigIntFacts2 ShiftFacts.
Import ListNotations.
Open Scope Z_scope.

(** The value of every right shift, right or wrong. *)
Theorem C08_shr_value : forall a n k, represents a n -> 0 <= k -> has_value (nat_shr a k) (shift_result (words n) n k).
Proof. exact nat_shr_value. Qed.
(** The value is right exactly in these cases. *)
Theorem C08_shr_right : forall a n k, represents a n -> 0 <= k ->
  (nval (nat_shr a k) = n / 2 ^ k <->
   k < 32 \/ words n <= k / 32 \/
   k mod 32 <> 0 /\ (2 ^ (k mod 32) <= word_at n (words n - 1) \/ word_at n (words n - k / 32 - 1) = 0) \/
   k mod 32 = 0 /\ n mod 2 ^ (32 * (words n - k / 32)) = n / 2 ^ k).
Proof.
  intros a n k R K. destruct (nat_shr_value a n k R K) as (_ & ->). destruct R as (C & V). pose proof (canon_words a C) as Wa. pose proof (nval_bound a Wa) as B. pose proof (canon_len_pos a C). rewrite Wp_pow2, len_words, V in B by auto.
  pose proof (len_words a C) as L. rewrite V in L. apply result_right; auto; lia.
Qed.
Theorem C35_shr_value : forall x n k, is_int x n -> 0 <= k ->
  int_value (b_shr x k) (if n <? 0 then - (shift_result (words (- n)) (- n - 1) k + 1) else shift_result (words n) n k).
Proof. exact b_shr_value. Qed.
(** The shift of a negative number is right exactly when that of -n-1, kept in
    the words of -n, is. *)
Theorem C35_shr_right : forall x n k, is_int x n -> 0 <= k ->
  (bvalue (b_shr x k) = n / 2 ^ k <->
   (let l := words (Z.abs n) in let m := if n <? 0 then - n - 1 else n in
    k < 32 \/ l <= k / 32 \/
    k mod 32 <> 0 /\ (2 ^ (k mod 32) <= word_at m (l - 1) \/ word_at m (l - k / 32 - 1) = 0) \/
    k mod 32 = 0 /\ m mod 2 ^ (32 * (l - k / 32)) = m / 2 ^ k)).
Proof.
  intros x n k H K. destruct (b_shr_value x n k H K) as (_ & _ & ->). cbv zeta. pose proof (pow2_pos k K) as P.
  assert (C : canon (of_Z (Z.abs n))) by (apply of_Z_canon; lia). pose proof (nval_bound _ (canon_words _ C)) as B. pose proof (canon_len_pos _ C). pose proof (len_words _ C) as L. rewrite Wp_pow2, of_Z_val in B by lia. rewrite of_Z_val in L by lia. rewrite L in B.
  destruct (Z.ltb_spec n 0) as [N|N].
  - rewrite <- (result_right (words (Z.abs n)) (- n - 1) k) by lia. rewrite Z.abs_neq by lia. assert (E : n / 2 ^ k = - 1 - (- n - 1) / 2 ^ k) by (rewrite <- lnot_div by lia; f_equal; lia). rewrite E. lia.
  - rewrite <- (result_right (words (Z.abs n)) n k) by lia. rewrite Z.abs_eq by lia. reflexivity.
Qed.
(** A stale word, a whole-word shift, one that happens to be right, and a
    negative number. *)
Example C08_value_case : nval (nat_shr [1; 2; 1] 33) = shift_result 3 (2 ^ 64 + 2 * 2 ^ 32 + 1) 33 /\ shift_result 3 (2 ^ 64 + 2 * 2 ^ 32 + 1) 33 = (2 ^ 64 + 2 * 2 ^ 32 + 1) / 2 ^ 33 + 2 ^ 32 * 2 /\
  shift_result 2 (2 * 2 ^ 32 + 1) 32 = 1 /\ shift_result 2 (7 * 2 ^ 32 + 7) 32 = 7 /\ bvalue (b_shr (zint (- 2 ^ 33)) 33) = - 2 ^ 32.
Proof. repeat split; vm_compute; reflexivity. Qed.
Print Assumptions C08_shr_value.
Print Assumptions C08_shr_right.
Print Assumptions C35_shr_value.
Print Assumptions C35_shr_right.
