(** The operators of [BigInt] on numbers with leading zero words (C132).
    [x op= y] is the function of BigInt.v; [x op y] and [x.and_not(y)] apply it
    to a [deep_clone], which drops the leading zero words of [x] (not of [y]). *)
From Coq Require Import ZArith List Bool.
From Verif Require Import Words NatModel BigInt.
Open Scope Z_scope.

(** bigint_macro.rs:64-68, bigint.rs:529-533. *)
Definition b_by_value {B C : Type} (f : bigint -> B -> C) (x : bigint) (y : B) : C :=
  f (b_clone x) y.
