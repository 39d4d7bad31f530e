(** Specification vocabulary for the Miller-Rabin rounds. *)
From Coq Require Import ZArith List.
Open Scope Z_scope.

(** The textbook condition: with n - 1 = u * 2^t, u odd, the base v satisfies
    v^u = 1 or v^(u * 2^i) = -1 for some i < t, modulo n. *)
Definition strong_base (n v : Z) : Prop := exists t u, n - 1 = u * 2 ^ t /\ 0 <= t /\ Z.odd u = true /\
  (v ^ u mod n = 1 \/ exists i, 0 <= i < t /\ v ^ (u * 2 ^ i) mod n = n - 1).

(** A sequence of bases below n. *)
Definition base_seq (n : Z) (s : nat) (vs : list Z) : Prop := length vs = s /\ Forall (fun v => 0 <= v < n) vs.
