(** Specifications of the random number generators, from their published
    definitions.  Nothing here refers to the model. *)
From Coq Require Import ZArith List Bool.
Import ListNotations.
Open Scope Z_scope.

(** The linear congruential recurrence: [x] is the seed followed by the
    outputs. *)
Definition lcg_recurrence (a c m : Z) (x : nat -> Z) : Prop :=
  forall k, x (S k) = (a * x k + c) mod m.

(** Mersenne twister, initialisation (Matsumoto and Nishimura 2002): the first
    [n] words. *)
Definition mt_seeded (w f seed : Z) (n : nat) (x : nat -> Z) : Prop :=
  x O = seed mod 2 ^ w /\
  forall i, (1 <= i < n)%nat ->
    x i = (f * Z.lxor (x (i - 1)%nat) (x (i - 1)%nat / 2 ^ (w - 2)) + Z.of_nat i) mod 2 ^ w.

(** The twist matrix applied to a word. *)
Definition twist (a y : Z) : Z := Z.lxor (y / 2) (if Z.odd y then a else 0).

(** Mersenne twister, recurrence: high bits of one word, low [r] bits of the
    next one.  For [2 <= n] and [m < n] the two remainders are 1 and [m]. *)
Definition mt_recurrence (r a : Z) (n m : nat) (x : nat -> Z) : Prop :=
  forall k,
    x (k + n)%nat =
    Z.lxor (x (k + m mod n)%nat)
      (twist a (x k / 2 ^ r * 2 ^ r + x (k + 1 mod n)%nat mod 2 ^ r)).

(** Published tempering: the two middle shifts go left. *)
Definition published_temper (u d s b t c l y : Z) : Z :=
  let y1 := Z.lxor y (Z.land (y / 2 ^ u) d) in
  let y2 := Z.lxor y1 (Z.land (y1 * 2 ^ s) b) in
  let y3 := Z.lxor y2 (Z.land (y2 * 2 ^ t) c) in
  Z.lxor y3 (y3 / 2 ^ l).

(** The same with all shifts to the right. *)
Definition right_temper (u d s b t c l y : Z) : Z :=
  let y1 := Z.lxor y (Z.land (y / 2 ^ u) d) in
  let y2 := Z.lxor y1 (Z.land (y1 / 2 ^ s) b) in
  let y3 := Z.lxor y2 (Z.land (y2 / 2 ^ t) c) in
  Z.lxor y3 (y3 / 2 ^ l).

(** Subtract with carry: [x] are the words, [c] the borrows; [c i] is the
    borrow after word [i]. *)
Definition swc_recurrence (w : Z) (s r : nat) (x c : nat -> Z) : Prop :=
  forall i, (r <= i)%nat ->
    let d := x (i - s)%nat - x (i - r)%nat - c (i - 1)%nat in
    x i = d mod 2 ^ w /\ c i = (if d <? 0 then 1 else 0).
