(** Specification of sharing, without a heap: which variables belong together
    is read off the program text, and every variable carries its own number. *)
From Coq Require Import ZArith List Bool.
From Verif Require Import Words Alias.
Import ListNotations.
Open Scope Z_scope.

(** Does the command create a variable? *)
Definition creates (c : cmd) : bool :=
  match c with CAssign _ _ _ | CAssignW _ _ _ => false | _ => true end.

(** The clone family of every variable, in order of creation: a clone joins
    the family of its source, every other new variable founds one (named by
    its own number). *)
Definition add_family (fs : list nat) (c : cmd) : list nat :=
  match c with
  | CClone x => fs ++ [nth x fs (length fs)]
  | CAssign _ _ _ | CAssignW _ _ _ => fs
  | _ => fs ++ [length fs]
  end.
Definition families (fs : list nat) (cs : list cmd) : list nat := fold_left add_family cs fs.
Definition family (cs : list cmd) (x : nat) : option nat := nth_error (families [] cs) x.

(** The variable an op-assign writes to. *)
Definition target (c : cmd) : option nat :=
  match c with CAssign _ x _ => Some x | CAssignW _ x _ => Some x | _ => None end.

(** Integer meaning of the operators: [None] is NaN, the outer [option] is
    "panics". *)
Definition zop (o : nop) (a b : Z) : option Z :=
  match o with
  | OAdd => Some (a + b)
  | OSub => Some (Z.abs (a - b))
  | OMul => Some (a * b)
  | ODiv => if b =? 0 then None else Some (a / b)
  | ORem => if b =? 0 then None else Some (a mod b)
  | OAnd => Some (Z.land a b)
  | OOr => Some (Z.lor a b)
  | OXor => Some (Z.lxor a b)
  end.
Definition zopw (o : wop) (a w : Z) : option Z :=
  match o with
  | WAdd => Some (a + w)
  | WSub => Some (Z.abs (a - w))
  | WMul => Some (a * w)
  | WDiv => if w =? 0 then None else Some (a / w)
  | WRem => if w =? 0 then None else Some (a mod w)
  | WShl => Some (a * 2 ^ w)
  | WShr => Some (a / 2 ^ w)
  end.
Definition zbits (a : Z) : Z := if a =? 0 then 1 else Z.log2 a + 1.

Definition lift2 (f : Z -> Z -> option Z) (a b : option Z) : option (option Z) :=
  match a, b with
  | Some a, Some b => option_map Some (f a b)
  | _, _ => Some None
  end.
Definition lift1 (f : Z -> option Z) (a : option Z) : option (option Z) :=
  match a with Some a => option_map Some (f a) | None => Some None end.

(** A spec state: one (family, number) pair per variable. *)
Definition sstate := list (nat * option Z).

(** Assigning to a family changes exactly its members. *)
Definition assign (s : sstate) (f : nat) (v : option Z) : sstate :=
  map (fun p => if Nat.eqb (fst p) f then (fst p, v) else p) s.

Definition sstep (s : sstate) (c : cmd) : option sstate :=
  let fresh v := s ++ [(length s, v)] in
  match c with
  | CNew [] => Some (fresh None)
  | CNew l => Some (fresh (Some (nval l)))
  | CClone x => match nth_error s x with Some p => Some (s ++ [p]) | None => None end
  | CDeep x => match nth_error s x with Some p => Some (fresh (snd p)) | None => None end
  | CBin o x y =>
      match nth_error s x, nth_error s y with
      | Some p, Some q => option_map fresh (lift2 (zop o) (snd p) (snd q))
      | _, _ => None
      end
  | CBinW o x w =>
      match nth_error s x with
      | Some p => option_map fresh (lift1 (fun a => zopw o a w) (snd p))
      | None => None
      end
  | CNot x =>
      match nth_error s x with
      | Some p => option_map fresh (lift1 (fun a => Some (2 ^ zbits a - 1 - a)) (snd p))
      | None => None
      end
  | CAssign o x y =>
      match nth_error s x, nth_error s y with
      | Some p, Some q => option_map (assign s (fst p)) (lift2 (zop o) (snd p) (snd q))
      | _, _ => None
      end
  | CAssignW o x w =>
      match nth_error s x with
      | Some p => option_map (assign s (fst p)) (lift1 (fun a => zopw o a w) (snd p))
      | None => None
      end
  end.

Fixpoint srun (s : sstate) (cs : list cmd) : option sstate :=
  match cs with
  | [] => Some s
  | c :: cs' => match sstep s c with Some s' => srun s' cs' | None => None end
  end.

(** The commands whose inner routine keeps word lists canonical (see C06, C08
    for the others). *)
Definition exact_cmd (c : cmd) : Prop :=
  match c with
  | CNew l => words_ok l
  | CBinW o _ w | CAssignW o _ w =>
      match o with WAdd | WDiv | WRem => 0 <= w < 2 ^ 32 | _ => False end
  | _ => True
  end.

(** [x %= y] with [x] and [y] in the same family. *)
Definition self_rem (fs : list nat) (c : cmd) : Prop :=
  match c with
  | CAssign ORem x y => nth_error fs x = nth_error fs y /\ nth_error fs x <> None
  | _ => False
  end.
Fixpoint no_self_rem (fs : list nat) (cs : list cmd) : Prop :=
  match cs with
  | [] => True
  | c :: cs' => ~ self_rem fs c /\ no_self_rem (add_family fs c) cs'
  end.
