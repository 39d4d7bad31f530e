(** What the operations of [BigInt] do with a number stored in more words than
    it needs (C132). *)
From Coq Require Import ZArith List Bool.
From Verif Require Import Words SpecLoose BigInt.
Open Scope Z_scope.

(** [x] keeps the integer [n] in [l] words, leading zero words allowed. *)
Definition stored_int (x : bigint) (l n : Z) : Prop := stored (bnat x) l (Z.abs n) /\ bneg x = (n <? 0).

(** The order: the sign first, then the number of words, then the value. *)
Definition stored_int_compare (l m k n : Z) : comparison :=
  if n <? 0 then (if m <? 0 then CompOpp (stored_compare l (- m) k (- n)) else Gt)
  else if m <? 0 then Lt else stored_compare l m k n.
(** The sum ([minus = false]) and the difference ([minus = true]): where the
    magnitudes are subtracted, the result wraps round at the longer length and
    takes the sign of the number with more words. *)
Definition stored_sum (minus : bool) (l m k n : Z) : Z :=
  if eqb (m <? 0) (xorb minus (n <? 0)) then (if minus then m - n else m + n)
  else
    let d := stored_difference l (Z.abs m) k (Z.abs n) in
    match stored_compare l (Z.abs m) k (Z.abs n) with
    | Lt => if m <? 0 then d else - d
    | _ => if m <? 0 then - d else d
    end.
