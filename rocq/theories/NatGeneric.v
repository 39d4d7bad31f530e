(** Model of the portable back end, nat_generic.rs (selected by
    bigint/mod.rs:25 when neither x86 nor AVX2 is available; not part of the
    configuration that compiles, but it is the reference the other back end is
    meant to agree with). *)
From Coq Require Import ZArith List Lia Bool.
From Verif Require Import Words NatModel.
Import ListNotations.
Open Scope Z_scope.

(** nat_generic.rs:41-46, body of the zipped loop: two [overflowing_add]s,
    the carry is 1 when either overflows. *)
Definition gadc (c a b : Z) : Z * Z :=
  let '(x, cx) := ovf_add a b in
  let '(y, cy) := ovf_add x c in
  (if cx || cy then 1 else 0, y).

(** nat_generic.rs:41-46: the zipped part; words written and the carry. *)
Fixpoint gadd_zip (c : Z) (a b : list Z) : list Z * Z :=
  match a, b with
  | x :: a', y :: b' =>
      let '(c', s) := gadc c x y in
      let '(r, c'') := gadd_zip c' a' b' in
      (s :: r, c'')
  | _, _ => ([], c)
  end.

(** nat_generic.rs:47-55: the words above [rhs], then [push(c)]. *)
Fixpoint gadd_tail (c : Z) (a : list Z) : list Z :=
  match a with
  | [] => if c >? 0 then [c] else []
  | x :: a' =>
      let '(s, cx) := ovf_add x c in
      s :: gadd_tail (if cx then 1 else 0) a'
  end.

(** nat_generic.rs:34-56 [add_inner]. *)
Definition gadd_inner (a b : list Z) : list Z :=
  let a1 := if nat_ge a b then a else resize a (length b) 0 in
  let '(lo, c) := gadd_zip 0 a1 b in
  lo ++ gadd_tail c (skipn (length b) a1).

(** nat_generic.rs:65-74, body of the zipped loop of the subtraction. *)
Definition gsbb (c a b : Z) : Z * Z :=
  let '(x, cx) := ovf_sub a b in
  let '(y, cy) := ovf_sub x c in
  (if cy || cx then 1 else 0, y).

Fixpoint gsub_zip (ge : bool) (c : Z) (a b : list Z) : list Z * Z :=
  match a, b with
  | x :: a', y :: b' =>
      let '(c', s) := if ge then gsbb c x y else gsbb c y x in
      let '(r, c'') := gsub_zip ge c' a' b' in
      (s :: r, c'')
  | _, _ => ([], c)
  end.

(** nat_generic.rs:76-82: borrow through the remaining words (no early exit). *)
Fixpoint gsub_tail (c : Z) (a : list Z) : list Z :=
  match a with
  | [] => []
  | x :: a' =>
      let '(s, cx) := ovf_sub x c in
      s :: gsub_tail (if cx then 1 else 0) a'
  end.

(** nat_generic.rs:58-87 [sub_inner_with_sign]. *)
Definition gsub_with_sign (a b : list Z) : list Z * bool :=
  let ge := nat_ge a b in
  let a1 := if ge then a else resize a (length b) 0 in
  let '(lo, c) := gsub_zip ge 0 a1 b in
  let hi := skipn (length b) a1 in
  let hi' := if ge && (c >? 0) then gsub_tail c hi else hi in
  (trim (lo ++ hi'), ge).

(** nat_generic.rs:89-91 [sub_inner]. *)
Definition gsub_inner (a b : list Z) : list Z := fst (gsub_with_sign a b).

(** nat_generic.rs:93-107 [add_inner_basic]. *)
Fixpoint gadd_basic_loop (c : Z) (a : list Z) (w : Z) : list Z :=
  match a with
  | [] => if c >? 0 then [c] else []
  | x :: a' => let '(c', s) := gadc c x w in s :: gadd_basic_loop c' a' 0
  end.
Definition gadd_basic (a : list Z) (w : Z) : list Z := gadd_basic_loop 0 a w.

(** nat_generic.rs:122-136: loop of [sub_inner_basic]. *)
Fixpoint gsub_basic_loop (c : Z) (a : list Z) (w : Z) : list Z :=
  match a with
  | [] => []
  | x :: a' =>
      if w >? 0 then
        let '(c', s) := gsbb c x w in s :: gsub_basic_loop c' a' 0
      else
        let '(s, cx) := ovf_sub x c in s :: gsub_basic_loop (if cx then 1 else 0) a' w
  end.

(** nat_generic.rs:109-139 [sub_inner_basic]; unlike nat_amd64.rs it trims. *)
Definition gsub_basic (a : list Z) (w : Z) : list Z :=
  match a with
  | [] => []
  | [x] => [if x <? w then w - x else x - w]
  | _ => trim (gsub_basic_loop 0 a w)
  end.

(** nat_generic.rs:22-29: one row.  [round] always ends with the pending carry
    word, which is popped, added to the product and replaced; [out] are the
    finished words.  A u64 overflow pushes a further word 1, which would be
    the carry popped next (kept literally although it cannot happen). *)
Fixpoint gmul_row (round : list Z) (a : Z) (mx : list Z) : list Z :=
  match mx with
  | [] => round
  | b :: mx' =>
      let carry := last round 0 in
      let s := a * b + carry in
      let y := s mod 18446744073709551616 in
      let cy := 18446744073709551616 <=? s in
      gmul_row (removelast round ++ [y mod W; y / W] ++ (if cy then [1] else [])) a mx'
  end.

(** nat_generic.rs:18-31: the rows, each added to the accumulator.
    [Nat::from(&\[u32\])] trims (nat.rs:2038-2056). *)
Fixpoint gmul_rows (acc : list Z) (i : nat) (mn mx : list Z) : list Z :=
  match mn with
  | [] => acc
  | a :: mn' =>
      gmul_rows (gadd_inner acc (trim (gmul_row (repeat 0 (i + 1)) a mx))) (S i) mn' mx
  end.

(** nat_generic.rs:4-32 [mul_inner]. *)
Definition gmul_inner (a b : list Z) : list Z :=
  let '(mn, mx) := min_max a b in
  trim (gmul_rows [0] 0 mn mx).
