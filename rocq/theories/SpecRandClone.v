(** Specification vocabulary for entropy handles. *)
From Coq Require Import ZArith List.
From Verif Require Import RandClone.
Import ListNotations.
Open Scope Z_scope.

Definition call_bytes (c : ccmd) : list Z := match c with CGen _ (Some bs) _ => bs | _ => [] end.
(** All bytes the system gave, in order.  Nothing is assumed about them, so they
    can serve as names: the n-th byte the system gave. *)
Definition given (cs : list ccmd) : list Z := flat_map call_bytes cs.
(** All bytes handed out by successful requests. *)
Definition handed (os : list (bool * list Z)) : list Z := flat_map (fun o : bool * list Z => if fst o then snd o else []) os.
(** The system call writes at most as much as was asked for. *)
Definition within (c : ccmd) : Prop := match c with CGen _ (Some bs) buf => (length bs <= length buf)%nat | _ => True end.
(** It writes all or nothing (as getrandom does for up to 256 bytes). *)
Definition all_or_nothing (c : ccmd) : Prop := match c with CGen _ (Some bs) buf => length bs = length buf | _ => True end.
(** Bytes that sat in a queue when it was cloned. *)
Fixpoint copied (qs : list (list Z)) (cs : list ccmd) : list Z :=
  match cs with
  | [] => []
  | c :: cs' =>
      match c with CClone h => nth h qs [] | _ => [] end ++
      match cstep qs c with Words.Ok (_, qs1) => copied qs1 cs' | _ => [] end
  end.
