(** Heap model of a [Nat] that shares the storage of a [BigInt].

    bigint.rs:1064-1068: [AsRef<Nat> for BigInt] lends the magnitude, and
    [Nat: Clone] copies the [Rc] (nat.rs:49-51), so [x.as_ref().clone()] is a
    [Nat] on the vector of [x].  bigint.rs:942-949: [BigInt::from(Nat)] takes a
    deep clone.  The state is that of AliasInt.v; the handle of a [Nat] has the
    sign [false], which no [Nat] command reads.  Only programs that use a
    handle at its own type are programs of Rust; the model does not insist on
    it. *)
From Coq Require Import ZArith List Bool.
From Verif Require Import Words NatModel BigInt Alias AliasInt.
Import ListNotations.
Open Scope Z_scope.

Inductive mcmd :=
| MNat (c : cmd)        (* a command on [Nat] handles *)
| MInt (c : bcmd)       (* a command on [BigInt] handles *)
| MAsNat (x : nat)      (* let n = x.as_ref().clone(); *)
| MOfNat (x : nat).     (* let v = BigInt::from(x.clone()); *)

(** One command. *)
Definition mstep (fuel : nat) (s : bstate) (c : mcmd) : res bstate :=
  match c with
  | MNat c =>
      (* the variables [c] creates are [Nat]s *)
      do m <- step fuel (mem s) c;
      Ok (BSt m (signs s ++ repeat false (length (env m) - length (env (mem s)))))
  | MInt c => bstep fuel s c
  | MAsNat x =>
      do k <- cell_of (mem s) x;
      Ok (BSt (St (env (mem s) ++ [k]) (heap (mem s))) (signs s ++ [false]))
  | MOfNat x =>
      do k <- cell_of (mem s) x; do a <- rd_cell (mem s) k;
      Ok (balloc s (BI (trim a) false))
  end.

Fixpoint mrun (fuel : nat) (s : bstate) (cs : list mcmd) : res bstate :=
  match cs with
  | [] => Ok s
  | c :: cs' => do s' <- mstep fuel s c; mrun fuel s' cs'
  end.

(** What the handle of a [Nat] shows. *)
Definition nlook (s : bstate) (x : nat) : option (list Z) := look (mem s) x.
