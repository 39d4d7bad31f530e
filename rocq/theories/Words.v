(** Words, word lists and their values.

    A [u32] is a [Z] in [0, 2^32); a [Vec<u32>] (little endian, as in
    /repo/src/bigint/nat.rs:43-51, struct [Nat]) is a [list Z]; a [Nat] is
    such a list, with the empty list as NaN (nat.rs:97-99, [is_nan]). *)
From Coq Require Import ZArith List Lia Bool.
Import ListNotations.
Open Scope Z_scope.

(** The word base 2^32. *)
Notation W := 4294967296 (only parsing).

(** Result of a Rust computation: a value, a panic, or "the model ran out of
    loop fuel".  Theorems state [= Ok v], which excludes the other two. *)
Inductive res (A : Type) : Type :=
| Ok (a : A)
| Panic
| Fuel.
Arguments Ok {A} a.
Arguments Panic {A}.
Arguments Fuel {A}.

Definition bind {A B : Type} (x : res A) (f : A -> res B) : res B :=
  match x with
  | Ok a => f a
  | Panic => Panic
  | Fuel => Fuel
  end.

Notation "'do' x <- a ; b" := (bind a (fun x => b))
  (at level 200, x name, a at level 100, b at level 200, right associativity).
Notation "'do' ' p <- a ; b" := (bind a (fun p => b))
  (at level 200, p strict pattern, a at level 100, b at level 200, right associativity).

(** Value of a little-endian word list. Specification function. *)
Fixpoint nval (l : list Z) : Z :=
  match l with
  | [] => 0
  | x :: l' => x + W * nval l'
  end.

(** Every element is a u32. *)
Definition words_ok (l : list Z) : Prop := Forall (fun w => 0 <= w < W) l.

(** Canonical non-NaN Nat: words, at least one of them, and no superfluous
    high zero word. *)
Definition canon (l : list Z) : Prop :=
  words_ok l /\ l <> [] /\ (length l = 1%nat \/ last l 0 <> 0).

(** The canonical word list of a non-negative integer (specification side). *)
Fixpoint digits (fuel : nat) (n : Z) : list Z :=
  match fuel with
  | O => [n]
  | S f => if n <? W then [n] else (n mod W) :: digits f (n / W)
  end.
Definition of_Z (n : Z) : list Z := digits (Z.to_nat (Z.log2 n)) n.

(** nat.rs:222-236, [trim_head_zero_] / [trim_head_zero]: removes the high
    zero words of everything after the first word (the Rust loop counts the
    trailing zero elements of [v\[1..\]] and truncates). *)
Fixpoint drop_zeros (l : list Z) : list Z :=
  match l with
  | [] => []
  | x :: l' =>
      match drop_zeros l' with
      | [] => if x =? 0 then [] else [x]
      | t => x :: t
      end
  end.
Definition trim (l : list Z) : list Z :=
  match l with
  | [] => []
  | x :: l' => x :: drop_zeros l'
  end.

(** x86 [_addcarryx_u32] (carry, sum word). *)
Definition adc (c a b : Z) : Z * Z := ((a + b + c) / W, (a + b + c) mod W).

(** x86 [_subborrow_u32] (borrow, difference word). *)
Definition sbb (c a b : Z) : Z * Z :=
  (if a - b - c <? 0 then 1 else 0, (a - b - c) mod W).

(** Rust [u32::overflowing_add] / [overflowing_sub] (wrapped word, overflow). *)
Definition ovf_add (a b : Z) : Z * bool := ((a + b) mod W, W <=? a + b).
Definition ovf_sub (a b : Z) : Z * bool := ((a - b) mod W, a <? b).

(** Rust [!x] on u32. *)
Definition wnot (x : Z) : Z := W - 1 - x.

(** Rust [u32::leading_zeros]. *)
Definition leading_zeros (x : Z) : Z := if x =? 0 then 32 else 31 - Z.log2 x.

(** Rust [u32::rotate_right(s)], 0 < s < 32. *)
Definition rotr (x s : Z) : Z := x / 2 ^ s + (x mod 2 ^ s) * 2 ^ (32 - s).
