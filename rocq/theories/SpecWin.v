(** Specification for the Windows entropy back end: a protocol for handles,
    stated on the list of calls the system sees. *)
From Coq Require Import ZArith List Bool.
From Verif Require Import WinCrypt.
Import ListNotations.
Open Scope Z_scope.

(** How often [h] has been opened and not closed. *)
Definition weight (h : Z) (e : event) : Z :=
  match e with
  | EOpen h' => if h =? h' then 1 else 0
  | EClose h' => if h =? h' then -1 else 0
  | ERandom _ _ => 0
  end.
Definition balance (h : Z) (l : list event) : Z := fold_right (fun e a => weight h e + a) 0 l.

(** The system's side: a new handle is not one that is still open. *)
Definition fresh_handles (l : list event) : Prop :=
  forall l1 h l2, l = l1 ++ EOpen h :: l2 -> balance h l1 = 0.

(** The program's side: only open handles are closed or used. *)
Definition proper_use (l : list event) : Prop :=
  (forall l1 h l2, l = l1 ++ EClose h :: l2 -> balance h l1 = 1) /\
  (forall l1 h n l2, l = l1 ++ ERandom h n :: l2 -> balance h l1 = 1).

(** A variable from which the handle [h] can be reached. *)
Definition reaches (s : wstate) (x : slot) (h : Z) : Prop :=
  match x with
  | SHandle h' => h = h'
  | SCrypt c => exists k, nth_error (wcells s) c = Some k /\ chandle k = h
  | SGone => False
  end.

(** What a reader of a NUL-terminated text at the start of [mem] sees. *)
Fixpoint c_text (mem : list Z) : option (list Z) :=
  match mem with
  | [] => None
  | c :: mem' => if c =? 0 then Some [] else option_map (cons c) (c_text mem')
  end.
(** The buffer denotes [t] whatever lies behind it in memory. *)
Definition denotes_text (buf t : list Z) : Prop := forall rest, c_text (buf ++ rest) = Some t.

(** The system fills exactly the bytes it is asked for. *)
Definition honest_sys (sys : Z -> option (list Z)) : Prop :=
  forall n bs, sys n = Some bs -> Z.of_nat (length bs) = n /\ Forall (fun b => 0 <= b < 256) bs.
