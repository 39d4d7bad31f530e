(** Specification vocabulary for shared storage of [Float]: families of
    clones, read off the program text. *)
From Coq Require Import ZArith List Bool.
From Verif Require Import Float SpecFloat AliasFloat.
Import ListNotations.
Open Scope Z_scope.

(** A clone joins the family of its source, every other new variable founds
    one, named by its own number. *)
Definition fadd_family (fs : list nat) (c : fcmd) : list nat :=
  match c with
  | FClone x => fs ++ [nth x fs (length fs)]
  | FPrec _ _ | FMode _ _ | FMantExp _ _ _ | FAssign _ _ _ => fs
  | _ => fs ++ [length fs]
  end.
Definition ffamilies (fs : list nat) (cs : list fcmd) : list nat := fold_left fadd_family cs fs.
Definition ffamily (cs : list fcmd) (x : nat) : option nat := nth_error (ffamilies [] cs) x.
(** The handle written to. *)
Definition ftarget (c : fcmd) : option nat :=
  match c with FPrec x _ | FMode x _ | FMantExp x _ _ | FAssign _ x _ => Some x | _ => None end.

(** Everything but the mantissa. *)
Definition fields (x : float) : rmode * accuracy * form * bool * Z * Z := (flmode x, flacc x, flform x, flneg x, flprec x, flexp x).
(** The same number with the same attributes; a NaN has none. *)
Definition same_float (a b : float) : Prop :=
  (flform a = Nan /\ flform b = Nan) \/ (fields a = fields b /\ (flform a = Finite -> flmant a = flmant b)).

(** The mantissa of a finite Float is normalised. *)
Definition sound (x : float) : Prop := flform x = Finite -> normal_mant (flmant x).

(** [x op= y.clone()] is harmless although the mantissas are shared: finite
    operands have the same exponent, and x is not a zero beside a finite y. *)
Definition shared_ok (o : fop) (x y : float) : Prop :=
  match o with
  | FMul | FDiv => True
  | FAdd | FSub => (flform x = Finite -> flform y = Finite -> flexp x <= flexp y) /\ (flform x = Zero -> flform y <> Finite)
  end.
