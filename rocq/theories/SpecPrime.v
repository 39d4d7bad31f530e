(** Specification vocabulary for random numbers and primality. *)
From Coq Require Import ZArith List.
From Verif Require Import Words SpecInt SpecNum.
Import ListNotations.
Open Scope Z_scope.

(** Generator outcomes: every word is a u32. *)
Definition stream_ok (g : list (option Z)) : Prop := Forall (fun o => match o with Some w => 0 <= w < 2 ^ 32 | None => True end) g.

(** The words among the outcomes, errors left out. *)
Definition somes (g : list (option Z)) : list Z := flat_map (fun o => match o with Some w => [w] | None => [] end) g.

(** [ws] are the first words of [g], and [rest] is what follows the last one. *)
Definition takes (g : list (option Z)) (ws : list Z) (rest : list (option Z)) : Prop :=
  exists pre w, g = pre ++ Some w :: rest /\ ws = somes pre ++ [w].

Definition bit_length (x : Z) : Z := Z.log2 x + 1.
Definition word_length (x : Z) : nat := Z.to_nat ((bit_length x + 31) / 32).

(** Rejection sampling below [x]: groups of as many words as [x] has, cut down
    to the bit length of [x]; the first group below [x] is the draw. *)
Inductive draw (x : Z) : list (option Z) -> Z -> list (option Z) -> Prop :=
| draw_hit g ws rest : takes g ws rest -> length ws = word_length x ->
    nval ws mod 2 ^ bit_length x < x -> draw x g (nval ws mod 2 ^ bit_length x) rest
| draw_miss g ws g' v rest : takes g ws g' -> length ws = word_length x ->
    x <= nval ws mod 2 ^ bit_length x -> draw x g' v rest -> draw x g v rest.

(** Consecutive draws. *)
Inductive draws (x : Z) : list (option Z) -> list Z -> list (option Z) -> Prop :=
| draws_nil g : draws x g [] g
| draws_cons g v g' vs rest : draw x g v g' -> draws x g' vs rest -> draws x g (v :: vs) rest.

(** The shift of [m] by its trailing zeros is one that [Nat::shr_inner] does
    right (see C08). *)
Definition shift_ok (m : Z) : Prop := forall e s, m = s * 2 ^ e -> 0 <= e -> Z.odd s = true -> shr_exact m e.
(** n - 2 is not stored with a leading zero word.  [shift_ok (n - 1)] implies it. *)
Definition no_fermat (n : Z) : Prop := forall k, 0 <= k -> n <> 2 ^ (32 * k) + 1.
(** Some number up to 10002 is not a square modulo n, or n is that small. *)
Definition early_nonsquare (n : Z) : Prop := n <= 10002 \/ exists q, 1 <= q <= 10002 /\ ~ square_mod n q.
