(** The subtract-with-carry engine of the C++ standard ([rand.eng.sub]), as an
    executable specification.  Nothing here refers to the model. *)
From Coq Require Import ZArith List.
Import ListNotations.
Open Scope Z_scope.

(** The seeding generator linear_congruential_engine<..., 40014, 0, 2147483563>. *)
Definition std_seed (value : Z) : Z :=
  let v := (if value =? 0 then 19780503 else value) mod 2147483563 in if v =? 0 then 1 else v.
Fixpoint std_lcg (k : nat) (z : Z) : Z := match k with O => z | S k' => std_lcg k' (40014 * z mod 2147483563) end.

(** X(-r) ... X(-1): each from n = ceil(w / 32) successive values, 2^32 apart. *)
Fixpoint std_word (n : nat) (z : Z) : Z := match n with O => 0 | S n' => let z := 40014 * z mod 2147483563 in z + 2 ^ 32 * std_word n' z end.
Fixpoint std_state (w : Z) (n r : nat) (z : Z) : list Z :=
  match r with O => [] | S r' => std_word n z mod 2 ^ w :: std_state w n r' (std_lcg n z) end.

(** The transition; [hist] holds all values so far, the newest first. *)
Fixpoint std_run (w : Z) (s r : nat) (k : nat) (hist : list Z) (c : Z) : list Z :=
  match k with
  | O => []
  | S k' =>
      let y := nth (s - 1) hist 0 - nth (r - 1) hist 0 - c in
      y mod 2 ^ w :: std_run w s r k' (y mod 2 ^ w :: hist) (if y <? 0 then 1 else 0)
  end.
(** The first k numbers of subtract_with_carry_engine<..., w, s, r>(value). *)
Definition std_swc (w : Z) (s r : nat) (value : Z) (k : nat) : list Z :=
  let h := rev (std_state w (Z.to_nat ((w + 31) / 32)) r (std_seed value)) in
  std_run w s r k h (if hd 0 h =? 0 then 1 else 0).
