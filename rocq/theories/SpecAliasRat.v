(** Specification vocabulary for shared storage of [Rat]: families, read off
    the program text. *)
From Coq Require Import ZArith List Bool.
From Verif Require Import BigInt Rat AliasRat.
Import ListNotations.
Open Scope Z_scope.

(** Families of the Rats and of the BigInts taken from them: a clone and a
    numerator or denominator belong to the family of their source, every other
    new Rat founds one. *)
Definition fams : Type := (list nat * list nat)%type.
Definition radd_family (f : fams) (c : rcmd) : fams :=
  let '(rf, jf) := f in
  match c with
  | RClone x => (rf ++ [nth x rf (length rf)], jf)
  | RNew _ | RDeep _ | RBin _ _ _ | RNeg _ => (rf ++ [length rf], jf)
  | RNumer x | RDenom x => (rf, jf ++ [nth x rf (length rf)])
  | RAssign _ _ _ | IAssign _ _ _ | ISign _ _ => f
  end.
Definition rfamilies (f : fams) (cs : list rcmd) : fams := fold_left radd_family cs f.
Definition rat_family (cs : list rcmd) (x : nat) : option nat := nth_error (fst (rfamilies ([], []) cs)) x.
Definition int_family (cs : list rcmd) (n : nat) : option nat := nth_error (snd (rfamilies ([], []) cs)) n.

(** [c] writes to the family [f]. *)
Definition touches (fs : fams) (c : rcmd) (f : option nat) : Prop :=
  match c with
  | RAssign _ x _ => nth_error (fst fs) x = f
  | IAssign _ n _ => nth_error (snd fs) n = f
  | _ => False
  end.
