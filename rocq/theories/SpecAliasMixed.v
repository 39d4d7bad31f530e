(** Specification vocabulary for storage shared between [Nat] and [BigInt]:
    families are read off the program text. *)
From Coq Require Import ZArith List Bool.
From Verif Require Import Alias SpecAlias AliasInt SpecAliasInt AliasMixed.
Import ListNotations.

(** [x.as_ref().clone()] joins the family of [x]; [BigInt::from] founds one. *)
Definition madd_family (fs : list nat) (c : mcmd) : list nat :=
  match c with
  | MNat c => add_family fs c
  | MInt c => badd_family fs c
  | MAsNat x => fs ++ [nth x fs (length fs)]
  | MOfNat _ => fs ++ [length fs]
  end.
Definition mfamilies (fs : list nat) (cs : list mcmd) : list nat := fold_left madd_family cs fs.
Definition mfamily (cs : list mcmd) (x : nat) : option nat := nth_error (mfamilies [] cs) x.
(** The handle written to. *)
Definition mtarget (c : mcmd) : option nat :=
  match c with MNat c => target c | MInt c => btarget c | _ => None end.
