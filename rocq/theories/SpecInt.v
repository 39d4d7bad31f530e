(** Specification vocabulary for [BigInt]: the integer a value denotes. *)
From Coq Require Import ZArith List Bool.
From Verif Require Import Words Spec BigInt.
Import ListNotations.
Open Scope Z_scope.

(** The integer denoted by sign and magnitude. *)
Definition bvalue (x : bigint) : Z := if bneg x then - nval (bnat x) else nval (bnat x).

(** Canonical: canonical magnitude, zero not negative. *)
Definition bcanon (x : bigint) : Prop :=
  canon (bnat x) /\ (nval (bnat x) = 0 -> bneg x = false).

(** [x] is the canonical BigInt of the integer [n]. *)
Definition is_int (x : bigint) (n : Z) : Prop := bcanon x /\ bvalue x = n.

(** A BigInt (possibly not canonical) of value [n]. *)
Definition int_value (x : bigint) (n : Z) : Prop := words_ok (bnat x) /\ bnat x <> [] /\ bvalue x = n.

(** The shift amounts for which the word loop of [Nat::shr_inner] is right,
    in terms of the number [n] to be shifted (see C08): less than a word, or
    everything is shifted out by whole words, or the top word stays non-zero
    after the bit part of the shift. *)
Definition shr_exact (n k : Z) : Prop :=
  k < 32 \/ n < 2 ^ (32 * (k / 32)) \/
  (k mod 32 <> 0 /\ 2 ^ (32 * (Z.log2 n / 32) + k mod 32) <= n).

(** The stricter condition for negative numbers: [-n] is shifted as [n - 1]
    stored in as many words as [n] has. *)
Definition shr_exact_neg (n k : Z) : Prop :=
  k < 32 \/ n < 2 ^ (32 * (k / 32)) \/
  (k mod 32 <> 0 /\ 2 ^ (32 * (Z.log2 n / 32) + k mod 32) < n).

(** The product [a * (a+1) * ... ] of [n] consecutive integers. *)
Fixpoint prod_from (a : Z) (n : nat) : Z :=
  match n with O => 1 | S m => a * prod_from (a + 1) m end.
(** [n (n-1) ... (n-k+1)], the numerator of the binomial coefficient. *)
Fixpoint falling (n : Z) (k : nat) : Z :=
  match k with O => 1 | S m => n * falling (n - 1) m end.
Definition fact (k : nat) : Z := prod_from 1 k.
