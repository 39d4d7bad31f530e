(** Specification vocabulary for the Jacobi symbol and square roots modulo a
    prime. *)
From Coq Require Import ZArith Znumtheory List.
From Verif Require Import SpecInt.
Import ListNotations.
Open Scope Z_scope.

(** [a] is a square modulo [p]. *)
Definition square_mod (p a : Z) : Prop := exists x, (p | x * x - a).

(** [v] is the Legendre symbol (a/p). *)
Definition legendre (a p v : Z) : Prop :=
  (v = 0 /\ (p | a)) \/ (v = 1 /\ ~ (p | a) /\ square_mod p a) \/ (v = -1 /\ ~ square_mod p a).

Definition product (l : list Z) : Z := fold_right Z.mul 1 l.

(** [v] is the Jacobi symbol (a/b): the product of the Legendre symbols over a
    list of primes whose product is [b]. *)
Definition jacobi_symbol (a b v : Z) : Prop :=
  exists ps vs, Forall prime ps /\ product ps = b /\ Forall2 (legendre a) ps vs /\ product vs = v.

(** The remainders the reduction of (a/b) goes through are shifted by their
    number of trailing zeros; [clean a b] says each of those shifts is one that
    [Nat::shr_inner] does right (see C08). *)
Inductive clean : Z -> Z -> Prop :=
| clean_one a : clean a 1
| clean_zero a b : (b | a) -> clean a b
| clean_step a b s q : a mod b = q * 2 ^ s -> 0 <= s -> Z.odd q = true ->
    shr_exact (a mod b) s -> clean b q -> clean a b.
