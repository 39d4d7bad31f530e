(** Model of the Jacobi symbol and of square roots modulo a prime on [BigInt]
    (bigint.rs:718-923).

    Values, not handles: every function here works on deep clones or on fresh
    results, except [tmp.mul_inner(tmp.clone())] in the Tonelli-Shanks loop,
    which is modelled by [mul_alias] (Alias.v). *)
From Coq Require Import ZArith List Bool.
From Verif Require Import Words NatModel NatConv NatPow VecPrims Karatsuba NatExp BigInt Alias.
Import ListNotations.
Open Scope Z_scope.

(** [as_vec()[0]]; the values indexed here are never NaN. *)
Definition low (x : bigint) : Z := hd 0 (bnat x).

(** bigint.rs:736-768, the loop of [jacobi]; the swap of the two references
    is the swapped arguments. *)
Fixpoint jacobi_loop (fuel : nat) (j : Z) (a b : bigint) : res Z :=
  match fuel with
  | O => Fuel
  | S f =>
      if b_eq_u32 b 1 then Ok j
      else if nat_eq_u32 (bnat a) 0 then Ok 0
      else
        do a1 <- b_rem_euclid a b;
        if nat_eq_u32 (bnat a1) 0 then Ok 0
        else
          let s := trailling_zeros (bnat a1) in
          let bmod8 := Z.land (low b) 7 in
          let j1 := if Z.odd s && ((bmod8 =? 3) || (bmod8 =? 5)) then - j else j in
          let a2 := b_shr a1 s in
          let j2 := if (Z.land (low b) 3 =? 3) && (Z.land (low a2) 3 =? 3) then - j1 else j1 in
          jacobi_loop f j2 b a2
  end.
(** Two rounds at least halve the modulus; the facts show the fuel suffices. *)
Definition jacobi_fuel (b : bigint) : nat := (3 + 2 * Z.to_nat (bits_len (bnat b)))%nat.

(** bigint.rs:718-769 [jacobi]. *)
Definition b_jacobi (a b : bigint) : res (option Z) :=
  if b_is_nan a || b_is_nan b || b_eq_u32 b 0 then Ok None
  else
    let j := if b_is_negative b then (if b_is_negative a then -1 else 1) else 1 in
    let b := if b_is_negative b then BI (trim (bnat b)) false else b_clone b in
    do v <- jacobi_loop (jacobi_fuel b) j (b_clone a) b; Ok (Some v).

(** bigint.rs:784-791 [mod_sqrt_3mod4].  Here and below the operators drop the
    leading zero words of their left operand. *)
Definition mod_sqrt_3mod4 (checks : bool) (x p : bigint) : res bigint :=
  b_exp checks x (BI (shr_inner (nat_add_u32 (trim (bnat p)) 1) 2) false) p.

(** bigint.rs:798-817 [mod_sqrt_5mod8]. *)
Definition mod_sqrt_5mod8 (checks : bool) (x p : bigint) : res bigint :=
  let e := b_shr (b_clone p) 3 in
  let tx := b_shl (b_clone x) 1 in
  do alpha <- b_exp checks tx e p;
  do sq <- sqr_vec (bnat alpha);
  do b1 <- b_rem_euclid (BI sq false) p;
  do b2 <- b_rem_euclid (b_mul b1 tx) p;
  do b3 <- b_rem_euclid (b_mul (b_sub b2 (b_from_u32 1)) x) p;
  b_rem_euclid (b_mul b3 alpha) p.

(** Writing one word of a vector. *)
Fixpoint set_word (l : list Z) (i : nat) (v : Z) : list Z :=
  match l, i with
  | [], _ => []
  | _ :: t, O => v :: t
  | h :: t, S j => h :: set_word t j v
  end.
(** nat.rs:1890-1905 [Nat::set_bits]. *)
Definition nat_set_bits (a : list Z) (i : Z) (is_set : bool) : list Z :=
  let j := Z.to_nat (i / 32) in
  let m := 2 ^ (i mod 32) in
  if is_set then
    let a := if (length a <=? j)%nat then resize a (j + 1) 0 else a in
    set_word a j (Z.lor (nth j a 0) m)
  else if (j <? length a)%nat then set_word a j (Z.land (nth j a 0) (W - 1 - m))
  else a.
(** bigint.rs:819-828 [set_bits]. *)
Definition b_set_bits (x : bigint) (i : Z) (is_set : bool) : bigint :=
  if b_is_negative x then
    let n := nat_add_u32 (nat_set_bits (nat_sub_u32 (bnat x) 1) i (negb is_set)) 1 in
    BI n (match partial_cmp n [0] with Some Gt => true | _ => false end)
  else BI (nat_set_bits (bnat x) i is_set) (bneg x).

(** bigint.rs:841-845, the search for a non-residue. *)
Fixpoint find_nonresidue (fuel : nat) (n p : bigint) : res bigint :=
  match fuel with
  | O => Fuel
  | S f =>
      do j <- b_jacobi n p;
      match j with
      | Some (-1) => Ok n
      | _ => find_nonresidue f (BI (add_inner_basic (bnat n) 1) (bneg n)) p
      end
  end.

(** [tmp.mul_inner(tmp.clone())], bigint.rs:456-463 with both sides one cell. *)
Definition mul_self (x : bigint) : bigint :=
  BI (if is_nan (bnat x) then nan else mul_alias (bnat x)) false.
(** bigint.rs:860-864, counting squarings; the result also carries [tmp]. *)
Fixpoint count_squarings (fuel : nat) (tmp p : bigint) (m : Z) : res Z :=
  match fuel with
  | O => Fuel
  | S f =>
      if b_eq_u32 tmp 1 then Ok m
      else do t <- b_rem_euclid (mul_self tmp) p; count_squarings f t p (m + 1)
  end.

(** bigint.rs:857-881, the main loop.  [r - m - 1] underflows exactly when it
    would be negative; a release build would then ask for a vector of more
    than 2^58 words, which is a failure as well. *)
Fixpoint tonelli_loop (fuel : nat) (checks : bool) (y b g : bigint) (r : Z) (p : bigint) : res bigint :=
  match fuel with
  | O => Fuel
  | S f =>
      do m <- count_squarings fuel b p 0;
      if m =? 0 then Ok y
      else if r - m - 1 <? 0 then Panic
      else
        let tmp := b_set_bits (BI [0] false) (r - m - 1) true in
        do t <- b_exp checks g tmp p;
        do sq <- sqr_vec (bnat t);
        do g <- b_rem_euclid (BI sq false) p;
        do y <- b_rem_euclid (b_mul y t) p;
        do b <- b_rem_euclid (b_mul b g) p;
        tonelli_loop f checks y b g m p
  end.

(** bigint.rs:831-882 [mod_sqrt_tonelli_shanks].  The loops have no bound in
    the code; [fuel] bounds each of them. *)
Definition mod_sqrt_tonelli (fuel : nat) (checks : bool) (x p : bigint) : res bigint :=
  let s0 := nat_sub_u32 (trim (bnat p)) 1 in
  let e := trailling_zeros s0 in
  let s := BI (shr_inner s0 e) false in
  do n <- find_nonresidue fuel (b_from_u32 2) p;
  let tmp := BI (shr_inner (nat_add_u32 (trim (bnat s)) 1) 1) false in
  do y <- b_exp checks x tmp p;
  do b <- b_exp checks x s p;
  do g <- b_exp checks n s p;
  tonelli_loop fuel checks y b g e p.

(** bigint.rs:894-923 [mod_sqrt]. *)
Definition b_mod_sqrt (fuel : nat) (checks : bool) (a p : bigint) : res (option bigint) :=
  do j <- b_jacobi a p;
  match j with
  | Some 0 => Ok (Some (b_from_u32 0))
  | Some 1 =>
      if negb (Z.land (low p) 1 =? 1) then Ok None
      else
        do x <- (if b_is_negative a || b_ge a p then b_rem_euclid (b_clone a) p else Ok a);
        do r <- (if low p mod 4 =? 3 then mod_sqrt_3mod4 checks x p
                 else if low p mod 8 =? 5 then mod_sqrt_5mod8 checks x p
                 else mod_sqrt_tonelli fuel checks x p);
        Ok (Some r)
  | _ => Ok None
  end.
