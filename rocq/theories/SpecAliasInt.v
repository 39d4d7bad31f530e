(** Specification vocabulary for shared storage of [BigInt]: families of
    clones, read off the program text. *)
From Coq Require Import ZArith List Bool.
From Verif Require Import AliasInt.
Import ListNotations.
Open Scope Z_scope.

Definition bcreates (c : bcmd) : bool := match c with BAssign _ _ _ | BSign _ _ => false | _ => true end.
(** A clone joins the family of its source, every other new variable founds
    one, named by its own number. *)
Definition badd_family (fs : list nat) (c : bcmd) : list nat :=
  match c with
  | BClone x => fs ++ [nth x fs (length fs)]
  | BAssign _ _ _ | BSign _ _ => fs
  | _ => fs ++ [length fs]
  end.
Definition bfamilies (fs : list nat) (cs : list bcmd) : list nat := fold_left badd_family cs fs.
Definition bfamily (cs : list bcmd) (x : nat) : option nat := nth_error (bfamilies [] cs) x.
(** The handle written to. *)
Definition btarget (c : bcmd) : option nat := match c with BAssign _ x _ => Some x | BSign x _ => Some x | _ => None end.

(** The integer operation behind an operator, for the operands on which the
    by-value operator returns that integer in canonical form (C30, C31, C32,
    C34): a quotient or remainder of 0 must not take the sign of an operand,
    [|] needs operands of one sign and [and_not] one that is not negative. *)
Definition ziop (o : bop) (a b : Z) : option Z :=
  match o with
  | IAdd => Some (a + b)
  | ISub => Some (a - b)
  | IMul => Some (a * b)
  | IAnd => Some (Z.land a b)
  | IXor => Some (Z.lxor a b)
  | IDiv =>
      if (b =? 0) || ((a ÷ b =? 0) && negb (a =? 0) && ((a <? 0) || (b <? 0))) then None
      else Some (a ÷ b)
  | IRem =>
      if (b =? 0) || ((Z.rem a b =? 0) && (a <? 0)) then None else Some (Z.rem a b)
  | IOr => if eqb (a <? 0) (b <? 0) then Some (Z.lor a b) else None
  | IAndNot => if (a <? 0) && (b <? 0) then None else Some (Z.ldiff a b)
  end.

(** [x op= x.clone()] is harmless for these operators; for the bit operators
    only when the target is not negative. *)
Definition self_ok (o : bop) (negative : bool) : Prop :=
  match o with
  | IAdd | ISub | IMul | IDiv => True
  | IRem => False
  | IAnd | IOr | IXor | IAndNot => negative = false
  end.
