(** Model of the [Display] of [Decimal] (decimal.rs), which the crate does not
    use itself. *)
From Coq Require Import Ascii String ZArith List Bool.
From Verif Require Import Words NatModel NatConv BigInt Decimal.
Import ListNotations.
Open Scope Z_scope.
Open Scope list_scope.

(** A sum of two usize. *)
Definition usize_add (checks : bool) (a b : Z) : res Z :=
  if 2 ^ 64 <=? a + b then (if checks then Panic else Ok (a + b - 2 ^ 64)) else Ok (a + b).
(** decimal.rs:215, the capacity that is asked for.  [-self.exp] does not
    overflow ([exp] is a number of digits); the cast of a negative number adds
    2 ^ 64; the allocation panics above [isize::MAX]. *)
Definition show_capacity (checks : bool) (d : decimal) : res Z :=
  do c <- usize_add checks 2 ((- dexp d) mod 2 ^ 64);
  do c <- usize_add checks c (Z.of_nat (List.length (dmant d)));
  if 2 ^ 63 <=? c then Panic else Ok c.
(** decimal.rs:213-232.  46 is '.'; the range of line 228 runs from [exp] to the
    number of digits, which is not larger: nothing is pushed. *)
Definition dec_show (checks : bool) (d : decimal) : res (list Z) :=
  do _ <- show_capacity checks d;
  let m := dmant d in
  match m with
  | [] => Ok (str "NaN")
  | _ :: _ =>
      if dexp d <=? 0 then Ok (str "0." ++ repeat 48 (Z.to_nat (- dexp d)) ++ m)
      else if dexp d <? Z.of_nat (List.length m) then
        Ok (firstn (Z.to_nat (dexp d)) m ++ 46 :: skipn (Z.to_nat (dexp d)) m)
      else Ok (m ++ repeat 48 (List.length m - Z.to_nat (dexp d)))
  end.
