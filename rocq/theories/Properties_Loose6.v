(** The primality test of numbers with leading zero words: property C138. *)
From Coq Require Import ZArith Znumtheory List Lia Bool.
From Verif Require Import Words WordsFacts NatModel NatFacts NatFacts2 NatFacts5 Spec SpecLoose LooseFacts BigInt BigIntFacts NumTheory NumTheory2 NumTheory3 NumBigFacts
  NatPrime NatPrimeFacts NatPrimeFacts2 NatPrimeFacts3 NatPrimeFacts4 Properties_Prime.
Import ListNotations.
Open Scope Z_scope.

Lemma low_word_odd a l m : stored a l m -> (Z.land (hd 0 a) 1 =? 0) = negb (Z.odd m).
Proof.
  intros (_ & L & L0 & V). destruct a as [|w t]; [cbn in L; lia|]. rewrite nval_cons in V. cbn [hd]. rewrite <- V, Z.odd_add, Z.odd_mul. change (Z.odd W) with false. rewrite andb_false_l, xorb_false_r.
  change 1 with (Z.ones 1). rewrite Z.land_ones by lia. change (2 ^ 1) with 2. rewrite Zmod_odd. destruct (Z.odd w); reflexivity.
Qed.
Lemma few_primes q : prime q -> q <= 53 -> q = 2 \/ In q trial_primes.
Proof.
  intros P Q. pose proof (prime_ge_2 q P).
  pose proof (proj2 (small_prime q ltac:(lia)) P) as M.
  assert (A : forallb (fun x => implb (negb (Z.land (2 ^ x) prime_bit_mask =? 0)) ((x =? 2) || existsb (Z.eqb x) trial_primes)) (map Z.of_nat (seq 0 54)) = true) by (vm_compute; reflexivity).
  rewrite forallb_forall in A. specialize (A q). rewrite M in A. cbn [implb] in A.
  assert (I : In q (map Z.of_nat (seq 0 54))) by (apply in_map_iff; exists (Z.to_nat q); split; [lia|apply in_seq; lia]).
  specialize (A I). apply orb_prop in A. destruct A as [A|A]; [left; apply Z.eqb_eq; auto|right]. apply existsb_exists in A. destruct A as (z & I' & E). apply Z.eqb_eq in E. subst. auto.
Qed.
(** ** C138
    Multiples of a prime up to 53 are never taken for primes ... *)
Theorem C138_divisible : forall checks a l m rounds g q, stored a l m -> 1 < l -> prime q -> q <= 53 -> (q | m) ->
  probably_prime checks a rounds g = Ok (false, g).
Proof.
  intros checks a l m rounds g q S L P Q D. unfold probably_prime. rewrite (stored_nan _ _ _ S), (low_word_odd _ _ _ S). cbn [orb].
  pose proof (stored_nonnil _ _ _ S) as N. pose proof S as (Hw & Len & _ & V).
  assert ((length a =? 1)%nat = false) as -> by (apply Nat.eqb_neq; lia). cbn [andb]. destruct (nat_eq_u32 a 0); [reflexivity|].
  destruct (Z.odd m) eqn:O; [|reflexivity]. cbn [negb].
  rewrite !rem_inner_u32_spec by (auto; reflexivity). rewrite V. fold (trial (m mod primes_a) (m mod primes_b)). rewrite trial_spec.
  destruct (few_primes q P Q) as [->|I].
  { destruct D as (z & ->). rewrite Z.odd_mul, andb_false_r in O. discriminate. }
  assert (existsb (fun q => m mod q =? 0) trial_primes = true) as ->; [|reflexivity].
  apply existsb_exists. exists q. split; [auto|]. apply Z.eqb_eq. apply Z.mod_divide; [pose proof (prime_ge_2 q P); lia|auto].
Qed.
(** ... but those primes themselves are not found to be primes. *)
Theorem C138_prime_refuted : forall checks a l q rounds g b, stored a l q -> 1 < l -> prime q -> q <= 53 -> represents b q ->
  probably_prime checks a rounds g = Ok (false, g) /\ probably_prime checks b rounds g = Ok (true, g).
Proof.
  intros checks a l q rounds g b S L P Q R. split; [apply (C138_divisible checks a l q rounds g q); auto using Z.divide_refl|].
  destruct (C24_small checks b q rounds g R ltac:(lia)) as (t & E & H). rewrite E. do 2 f_equal. apply H. exact P.
Qed.
Theorem C138_even : forall checks a l m rounds g, stored a l m -> 1 < l -> Z.even m = true -> probably_prime checks a rounds g = Ok (false, g).
Proof.
  intros checks a l m rounds g S L E. apply (C138_divisible checks a l m rounds g 2); auto; [exact Znumtheory.prime_2|lia|]. apply Z.even_spec in E. destruct E as (z & ->). exists z. ring.
Qed.
(** 7 as the product of 7 and 1u32. *)
Example C138_case : probably_prime true (nat_mul_u32 [7] 1) 3 [] = Ok (false, []) /\ probably_prime true [7] 3 [] = Ok (true, []) /\ probably_prime true (nat_mul_u32 [51] 3) 3 [] = Ok (false, []).
Proof. vm_compute. auto. Qed.

Print Assumptions C138_divisible.
Print Assumptions C138_prime_refuted.
Print Assumptions C138_even.
