(** Model of the powers and the square root of [Nat] (nat.rs:743-816,
    1157-1178). *)
From Coq Require Import ZArith List Lia Bool.
From Verif Require Import Words NatModel.
Import ListNotations.
Open Scope Z_scope.

(** nat.rs:775-780, loop over the exponent bits [i, i + n). *)
Fixpoint pow_loop (n : nat) (i : Z) (pre self b : list Z) : res (list Z) :=
  match n with
  | O => Ok self
  | S n' =>
      let pre' := mul_inner pre pre in
      do t <- is_set_bit_ b i;
      pow_loop n' (i + 1) pre' (if t then mul_inner self pre' else self) b
  end.

(** nat.rs:753-782 [pow_inner]; the aliasing test only avoids reading a
    modified exponent, which a value model cannot do. *)
Definition pow_inner (self b : list Z) : res (list Z) :=
  if nat_eq_u32 self 0 then
    if nat_eq_u32 b 0 then Ok [1] else Ok [0]
  else if nat_eq_u32 b 0 then Ok [1]
  else
    do t <- is_set_bit_ b 0;
    pow_loop (Z.to_nat (bits_len b - 1)) 1 self (if t then self else [1]) b.

(** nat.rs:744-751 [pow], on a [deep_clone], as [pow_mod] below. *)
Definition nat_pow (a b : list Z) : res (list Z) :=
  if is_nan a || is_nan b then Ok nan else pow_inner (trim a) b.

(** nat.rs:807-814, loop over the exponent bits below [i], from the top. *)
Fixpoint pow_mod_loop (i : nat) (self sm b n : list Z) : res (list Z) :=
  match i with
  | O => Ok self
  | S i' =>
      do s1 <- rem_inner (mul_inner self self) n;
      do t <- is_set_bit_ b (Z.of_nat i');
      do s2 <- (if t then rem_inner (mul_inner s1 sm) n else Ok s1);
      pow_mod_loop i' s2 sm b n
  end.

(** nat.rs:795-816 [pow_mod_inner]; its receiver is a [deep_clone] already. *)
Definition pow_mod_inner (self b n : list Z) : res (list Z) :=
  if nat_eq_u32 n 0 then pow_inner self b
  else if nat_eq_u32 n 1 then Ok [0]
  else
    do sm <- rem_inner self n;
    pow_mod_loop (Z.to_nat (bits_len b)) [1] sm b n.

(** nat.rs:787-793 [pow_mod]. *)
Definition nat_pow_mod (a b n : list Z) : res (list Z) :=
  if is_nan a || is_nan b || is_nan n then Ok nan else pow_mod_inner (trim a) b n.

(** nat.rs:1166-1177, the Newton loop of [sqrt]. *)
Fixpoint sqrt_loop (fuel : nat) (x z1 : list Z) : res (list Z) :=
  match fuel with
  | O => Fuel
  | S f =>
      do q <- nat_div x z1;
      let z2 := nat_shr (nat_add q z1) 1 in
      if nat_ge z2 z1 then Ok z1 else sqrt_loop f x z2
  end.

(** nat.rs:1158-1178 [sqrt]; a number that is at most 1 has one word, so the
    [deep_clone] that is returned is the same. *)
Definition nat_sqrt (x : list Z) : res (list Z) :=
  if is_nan x || negb (nat_lt (from_u32 1) x) then Ok x
  else
    let z1 := nat_shl (from_u32 1) ((bits_len x + 1) / 2) in
    sqrt_loop (Z.to_nat (bits_len x + 3)) x z1.
