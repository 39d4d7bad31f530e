(** Specification of the extra strong Lucas test (Q = 1), from the published
    definition (Baillie; Grantham, "Frobenius pseudoprimes", 2000).  Nothing
    here refers to the model. *)
From Coq Require Import ZArith Znumtheory.
From Verif Require Import SpecNum.
Open Scope Z_scope.

(** x, y, P y - x, ...: each term is P times the one before minus the one
    before that. *)
Fixpoint lucas_seq (P x y : Z) (k : nat) : Z :=
  match k with O => x | S k' => lucas_seq P y (P * y - x) k' end.
Definition lucas_U (P k : Z) : Z := lucas_seq P 0 1 (Z.to_nat k).
Definition lucas_V (P k : Z) : Z := lucas_seq P 2 P (Z.to_nat k).

(** n is an extra strong probable prime for P: with n + 1 = s * 2^r, s odd,
    U(s) = 0 and V(s) = 2 or -2, or V(s * 2^t) = 0 for some t < r - 1, modulo n. *)
Definition extra_strong (n P : Z) : Prop :=
  exists s r, n + 1 = s * 2 ^ r /\ 0 <= r /\ Z.odd s = true /\
    (((n | lucas_U P s) /\ ((n | lucas_V P s - 2) \/ (n | lucas_V P s + 2))) \/
     exists t, 0 <= t < r - 1 /\ (n | lucas_V P (s * 2 ^ t))).

(** The parameter: the first P from 3 on for which P^2 - 4 has the Jacobi
    symbol -1; 10001 if there is none up to 10000 and n is not a square. *)
Definition first_parameter (n P : Z) : Prop :=
  3 <= P /\ (forall Q, 3 <= Q < P -> jacobi_symbol (Q * Q - 4) n 1) /\
  ((P <= 10000 /\ jacobi_symbol (P * P - 4) n (-1)) \/ (P = 10001 /\ forall m, n <> m * m)).

(** The numbers that the Lucas part lets through. *)
Definition lucas_probable (n : Z) : Prop :=
  (prime n /\ n <= 10002) \/ exists P, first_parameter n P /\ extra_strong n P.
