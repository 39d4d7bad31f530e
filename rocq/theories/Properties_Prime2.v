(** A prime that the primality test rejects although no base is zero: C25. *)
From Coq Require Import ZArith Znumtheory Zpow_facts List Lia Bool.
From Verif Require Import Words NatModel NatFacts NatFacts2 Spec SpecInt SpecNum SpecPrime NumTheory NumTheory6 NatPrime.
Import ListNotations.
Open Scope Z_scope.

(** 18451144701496000513, three words, 32 trailing zeros below the one: the
    shift of n - 1 by its trailing zeros is one that shr does wrong (C08). *)
Definition shifted_prime : Z := 2 ^ 32 * 3 ^ 11 * 24251 + 1.
Lemma shifted_prime_prime : prime shifted_prime.
Proof.
  assert (N0 : 0 < shifted_prime) by reflexivity.
  assert (G : forall q r, 0 < q -> Zpow_mod 5 ((shifted_prime - 1) / q) shifted_prime = r -> Z.gcd (r - 1) shifted_prime = 1 ->
    Z.gcd (5 ^ ((shifted_prime - 1) / q) - 1) shifted_prime = 1).
  { intros q r Q <- E. rewrite Zpow_mod_correct in E by lia. set (y := 5 ^ ((shifted_prime - 1) / q)) in *.
    rewrite Z.gcd_comm, <- Z.gcd_mod in E by lia. rewrite Zminus_mod_idemp_l in E. rewrite Z.gcd_mod in E by lia. rewrite Z.gcd_comm. exact E. }
  apply (pocklington2 shifted_prime 5 2 32 3 11 24251); [reflexivity|exact Znumtheory.prime_2|exact prime_3|discriminate|reflexivity|reflexivity|reflexivity|reflexivity| | | |reflexivity].
  - apply eqm_iff; [exact N0|]. rewrite <- Zpow_mod_correct by discriminate. vm_compute. reflexivity.
  - eapply G; [reflexivity|vm_compute; reflexivity|vm_compute; reflexivity].
  - eapply G; [reflexivity|vm_compute; reflexivity|vm_compute; reflexivity].
Qed.

(** Also without bases of zero the test rejects some primes. *)
Theorem C25_shift_refuted : ~ (forall checks x n rounds g vs rest, represents x n -> prime n -> stream_ok g -> draws n g vs rest -> length vs = (rounds + 1)%nat -> ~ In 0 vs ->
  exists rest', probably_prime checks x rounds g = Ok (true, rest')).
Proof.
  intros H. destruct (H true [1; 1024601; 1] shifted_prime 0%nat [Some 2; Some 0; Some 0] [2] []) as (rest' & E).
  - split; [|vm_compute; reflexivity]. split; [repeat constructor; discriminate|]. split; [discriminate|]. right. discriminate.
  - exact shifted_prime_prime.
  - repeat constructor; discriminate.
  - apply draws_cons with []; [|constructor]. apply (draw_hit shifted_prime [Some 2; Some 0; Some 0] [2; 0; 0] []); [exists [Some 2; Some 0], 0; split; reflexivity|vm_compute; reflexivity|vm_compute; reflexivity].
  - reflexivity.
  - intros [E|[]]. discriminate E.
  - vm_compute in E. discriminate E.
Qed.
Print Assumptions C25_shift_refuted.
Example C25_shift_case : probably_prime true [1; 1024601; 1] 0 [Some 2; Some 0; Some 0] = Ok (false, []) /\ probably_prime true [1; 1024601; 1] 3 [Some 7; Some 8; Some 0] = Ok (false, []) /\
  nat_shr (nat_sub_u32 [1; 1024601; 1] 1) 32 <> of_Z ((shifted_prime - 1) / 2 ^ 32).
Proof. split; [vm_compute; reflexivity|]. split; [vm_compute; reflexivity|]. vm_compute. discriminate. Qed.
