(** Specification of the period of a sequence.  Nothing here refers to the
    model. *)
From Coq Require Import ZArith.
Open Scope Z_scope.

(** From step [s] on the sequence repeats after [p] steps and not earlier, and
    no value comes twice within [p] steps. *)
Definition cycles (s p : Z) (x : nat -> Z) : Prop :=
  forall i j, s <= Z.of_nat i -> s <= Z.of_nat j -> (x i = x j <-> (p | Z.of_nat i - Z.of_nat j)).

(** Every value from [lo] up to, but not including, [hi] comes in every
    stretch of [p] steps after step [s]. *)
Definition reaches_all (s p lo hi : Z) (x : nat -> Z) : Prop :=
  forall v t, lo <= v < hi -> s <= t -> exists i, t <= Z.of_nat i < t + p /\ x i = v.
