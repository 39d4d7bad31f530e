(** What the primality test checks about a number n, whatever n is (C78, C81,
    C101).  The exponent of Miller-Rabin and the index of the Lucas test are
    what the right shift of the code makes of n - 1 and n + 1 ([shift_result],
    SpecShift.v), not always the odd parts.  Nothing here refers to the model. *)
From Coq Require Import ZArith Znumtheory.
From Verif Require Import SpecShift SpecLucas.
Open Scope Z_scope.

(** The base v survives a round of Miller-Rabin. *)
Definition round_passed (n v : Z) : Prop :=
  exists t q, n - 1 = q * 2 ^ t /\ 0 <= t /\ Z.odd q = true /\
    let u := shift_result (words (n - 1)) (n - 1) t in
    (v ^ u mod n = 1 \/ exists i, 0 <= i < t /\ v ^ (u * 2 ^ i) mod n = n - 1).

(** The Lucas test of n with the parameter P.  The value -2 is not recognised
    if n = 2^(32 k) + 1. *)
Definition lucas_passed (n P : Z) : Prop :=
  exists r q, n + 1 = q * 2 ^ r /\ 0 <= r /\ Z.odd q = true /\
    let s := shift_result (words (n + 1)) (n + 1) r in
    (((n | lucas_U P s) /\ ((n | lucas_V P s - 2) \/ ((forall k, 0 <= k -> n <> 2 ^ (32 * k) + 1) /\ (n | lucas_V P s + 2)))) \/
     exists t, 0 <= t < r - 1 /\ (n | lucas_V P (s * 2 ^ t))).

(** The numbers that the Lucas part lets through. *)
Definition lucas_accepts (n : Z) : Prop :=
  (prime n /\ n <= 10002) \/ exists P, first_parameter n P /\ lucas_passed n P.
