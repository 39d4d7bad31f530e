(** Model of the [Debug] format of [Nat], [BigInt] and [Rat]. *)
From Coq Require Import ZArith String List Bool.
From Verif Require Import Words NatModel NatConv BigInt Rat.
Import ListNotations.
Open Scope Z_scope.

(** nat.rs:2115 with nat_macro.rs:22-50: the instance
    [(Debug, "{:08x}", "0x")]. *)
Definition n_fmt_debug (alt : bool) (a : list Z) : list Z := nat_fmt lchar 16 8 (str "0x") alt a.
(** bigint.rs:1060 with bigint_macro.rs:86-105: the instance
    [(Debug, "{:#?}", "{:?}")]. *)
Definition b_fmt_debug (alt : bool) (x : bigint) : list Z := b_sign_text x (n_fmt_debug alt (bnat x)).
(** rat.rs:759 with rat.rs:732-756: the instance [(Debug, "{:?}", "{:?}")],
    which drops the flag '#'. *)
Definition r_fmt_debug (alt : bool) (x : rat) : list Z :=
  r_text (if alt then b_fmt_debug false else b_fmt_debug false) x.
