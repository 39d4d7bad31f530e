(** Words used to say exactly what the code does where a claim is false
    (C51, C64).  Independent of the model. *)
From Coq Require Import ZArith QArith.
Open Scope Z_scope.

(** Subtract with carry on words of the full width: the borrow is lost when the
    word taken away and the old borrow together are 2^B. *)
Definition wide_recurrence (B : Z) (s r : nat) (x c : nat -> Z) : Prop :=
  forall i, (r <= i)%nat ->
    let d := x (i - s)%nat - x (i - r)%nat - c (i - 1)%nat in
    x i = d mod 2 ^ B /\ c i = (if x (i - r)%nat + c (i - 1)%nat =? 2 ^ B then 0 else if d <? 0 then 1 else 0).

(** The value is a number of [b] bits times a power of two, whatever the power. *)
Definition fits_bits (b : Z) (v : Q) : Prop :=
  exists c j k, 0 <= c < 2 ^ b /\ 0 <= j /\ 0 <= k /\ Z.abs (Qnum v) * 2 ^ j = c * 2 ^ k * Zpos (Qden v).
