(** Specification vocabulary for uniform distribution, by counting. *)
From Coq Require Import ZArith List.
From Verif Require Import SpecPrime.
Import ListNotations.
Open Scope Z_scope.

(** Where a stream of outcomes has words and where it has errors. *)
Definition shape (g : list (option Z)) : list bool := map (fun o => match o with Some _ => true | None => false end) g.

(** [l] lists exactly the things with property [P], each once. *)
Definition lists_all {A} (P : A -> Prop) (l : list A) : Prop := NoDup l /\ forall a, In a l <-> P a.
(** Finitely many [P] and as many [Q]; finitely many and at most as many. *)
Definition as_many {A} (P Q : A -> Prop) : Prop := exists l m, lists_all P l /\ lists_all Q m /\ length l = length m.
Definition at_most {A} (P Q : A -> Prop) : Prop := exists l m, lists_all P l /\ lists_all Q m /\ (length l <= length m)%nat.

(** Exchange of two numbers. *)
Definition swap (v w : Z) (m : Z) : Z := if m =? v then w else if m =? w then v else m.
