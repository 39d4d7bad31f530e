(** Model of [BigInt] (bigint.rs): sign and magnitude on top of [Nat].

    Values, not handles: [Rc] sharing is the subject of Alias.v.  The mutating
    [*_inner] functions return the new value.  [a op= b] is the inner function
    and [a op b] is the inner function on [a.deep_clone()], which drops leading
    zero words of [a] (bigint_macro.rs:58-84); so are [-a], [abs] and the
    Euclidean operations.  The models below do not drop them, except where
    stated, and stand for both on numbers without leading zero words;
    AliasInt.v and IntLoose.v have the two apart. *)
From Coq Require Import ZArith String List Bool.
From Verif Require Import Words NatModel NatConv NatPow VecPrims Karatsuba NatExp.
Import ListNotations.
Open Scope Z_scope.

(** bigint.rs:13-16, 73-77; [bneg = true] is [BISign::Negative]. *)
Record bigint : Set := BI { bnat : list Z; bneg : bool }.

(** bigint.rs:233-238 *)
Definition b_nan : bigint := BI nan false.
(** bigint.rs:132-134 *)
Definition b_is_nan (x : bigint) : bool := is_nan (bnat x).
(** bigint.rs:89-99 *)
Definition b_is_negative (x : bigint) : bool := negb (b_is_nan x) && bneg x.
Definition b_is_positive (x : bigint) : bool :=
  negb (b_is_nan x) && negb (bneg x) && negb (nat_eq_u32 (bnat x) 0).
Definition b_is_natural (x : bigint) : bool := negb (b_is_nan x) && negb (bneg x).
(** bigint.rs:101-105, 126-130 [set_natural], [set_negative]. *)
Definition b_set_natural (x : bigint) : bigint :=
  if b_is_nan x then x else BI (bnat x) false.
Definition b_set_negative (x : bigint) : bigint :=
  if negb (b_is_nan x) && negb (nat_eq_u32 (bnat x) 0) then BI (bnat x) true else x.
(** bigint.rs:114-124 *)
Definition b_signnum (x : bigint) : option Z :=
  if b_is_nan x then None
  else if bneg x then Some (-1)
  else if nat_eq_u32 (bnat x) 0 then Some 0 else Some 1.
(** bigint.rs:82-87 [deep_clone]. *)
Definition b_clone (x : bigint) : bigint := BI (trim (bnat x)) (bneg x).
(** bigint.rs:136-148, on a [deep_clone]. *)
Definition b_abs (x : bigint) : bigint := BI (trim (bnat x)) false.

(** bigint.rs:1013-1023 [PartialEq]; [PartialEq<u32>]. *)
Definition b_eq (x y : bigint) : bool := eqb (bneg x) (bneg y) && nat_eq (bnat x) (bnat y).
Definition b_eq_u32 (x : bigint) (w : Z) : bool := negb (bneg x) && nat_eq_u32 (bnat x) w.

(** bigint.rs:1025-1040 [partial_cmp]; the order of the signs is
    bigint.rs:35-43. *)
Definition b_cmp (x y : bigint) : option comparison :=
  if b_is_nan x || b_is_nan y then None
  else match bneg x, bneg y with
       | false, true => Some Gt
       | true, false => Some Lt
       | false, false => partial_cmp (bnat x) (bnat y)
       | true, true => option_map CompOpp (partial_cmp (bnat x) (bnat y))
       end.
Definition b_lt (x y : bigint) : bool :=
  match b_cmp x y with Some Lt => true | _ => false end.
Definition b_gt (x y : bigint) : bool :=
  match b_cmp x y with Some Gt => true | _ => false end.
Definition b_ge (x y : bigint) : bool :=
  match b_cmp x y with Some Gt | Some Eq => true | _ => false end.

(** bigint.rs:391-395, 411-415, 458-462: the sign after an operation whose
    magnitude is [n]. *)
Definition b_signed (n : list Z) (neg : bool) : bigint :=
  BI n (if is_nan n || nat_eq_u32 n 0 then false else neg).

(** bigint.rs:375-396 *)
Definition b_add (x y : bigint) : bigint :=
  if eqb (bneg x) (bneg y) then b_signed (nat_add (bnat x) (bnat y)) (bneg x)
  else b_signed (nat_sub (bnat x) (bnat y))
         (if nat_lt (bnat x) (bnat y) then negb (bneg x) else bneg x).

(** bigint.rs:398-416 *)
Definition b_sub (x y : bigint) : bigint :=
  if negb (eqb (bneg x) (bneg y)) then b_signed (nat_add (bnat x) (bnat y)) (bneg x)
  else b_signed (nat_sub (bnat x) (bnat y))
         (if nat_lt (bnat x) (bnat y) then negb (bneg x) else bneg x).

(** bigint.rs:418-436 *)
Definition b_shr (x : bigint) (k : Z) : bigint :=
  if bneg x then
    let n := nat_add_u32 (nat_shr (nat_sub_u32 (bnat x) 1) k) 1 in
    BI n (negb (is_nan n))
  else BI (nat_shr (bnat x) k) false.

(** bigint.rs:438-440 *)
Definition b_shl (x : bigint) (k : Z) : bigint := BI (nat_shl (bnat x) k) (bneg x).

(** bigint.rs:442-454; [self.nat.partial_cmp(&0u32)] is [None] on NaN. *)
Definition b_div (x y : bigint) : res bigint :=
  if nat_eq_u32 (bnat y) 0 then Panic
  else
    let s := if eqb (bneg x) (bneg y) then false
             else match partial_cmp (bnat x) (from_u32 0) with
                  | None => false | Some Eq => false | _ => true end in
    do q <- nat_div (bnat x) (bnat y); Ok (BI q s).

(** bigint.rs:456-463 *)
Definition b_mul (x y : bigint) : bigint :=
  b_signed (nat_mul (bnat x) (bnat y)) (negb (eqb (bneg x) (bneg y))).

(** bigint.rs:465-468: the sign is left alone. *)
Definition b_rem (x y : bigint) : res bigint :=
  if nat_eq_u32 (bnat y) 0 then Panic
  else do r <- nat_rem (bnat x) (bnat y); Ok (BI r (bneg x)).

(** bigint.rs:563-569 *)
Definition b_neg (x : bigint) : bigint :=
  if b_is_nan x then x else if b_eq_u32 x 0 then x else BI (bnat x) (negb (bneg x)).

(** bigint.rs:470-496.  Here and below [x - 1u32] of a [Nat] drops its leading
    zero words, [x -= 1u32] does not. *)
Definition b_and (x y : bigint) : bigint :=
  if eqb (bneg x) (bneg y) then
    if bneg x then
      let n := nat_add_u32 (nat_bitor (nat_sub_u32 (bnat x) 1) (nat_sub_u32 (trim (bnat y)) 1)) 1 in
      BI n (negb (is_nan n))
    else BI (nat_bitand (bnat x) (bnat y)) false
  else
    let '(s, r) := if bneg x then (bnat y, nat_sub_u32 (trim (bnat x)) 1)
                   else (bnat x, nat_sub_u32 (trim (bnat y)) 1) in
    BI (and_not s r) false.

(** bigint.rs:498-526 *)
Definition b_or (x y : bigint) : bigint :=
  if eqb (bneg x) (bneg y) then
    if bneg x then
      let n := nat_add_u32 (nat_bitand (nat_sub_u32 (bnat x) 1) (nat_sub_u32 (trim (bnat y)) 1)) 1 in
      BI n (negb (is_nan n))
    else BI (nat_bitor (bnat x) (bnat y)) false
  else
    let '(s, r) := if bneg x then (bnat y, nat_sub_u32 (trim (bnat x)) 1)
                   else (bnat x, nat_sub_u32 (trim (bnat y)) 1) in
    let n := nat_add_u32 (and_not s r) 1 in
    BI n (negb (is_nan n)).

(** bigint.rs:529-561 [and_not], [and_not_assign]. *)
Definition b_and_not (x y : bigint) : bigint :=
  if eqb (bneg x) (bneg y) then
    if bneg x then BI (and_not (nat_sub_u32 (bnat x) 1) (nat_sub_u32 (trim (bnat y)) 1)) false
    else BI (and_not (bnat x) (bnat y)) (bneg x)
  else if bneg x then
    let n := nat_add_u32 (nat_bitor (nat_sub_u32 (bnat x) 1) (bnat y)) 1 in
    BI n (negb (is_nan n))
  else BI (nat_bitand (bnat x) (nat_sub_u32 (trim (bnat y)) 1)) (bneg x).

(** bigint.rs:571-602 *)
Definition b_xor (x y : bigint) : bigint :=
  if eqb (bneg x) (bneg y) then
    if bneg x then BI (nat_bitxor (nat_sub_u32 (bnat x) 1) (nat_sub_u32 (trim (bnat y)) 1)) false
    else BI (nat_bitxor (bnat x) (bnat y)) false
  else
    let '(s, r) := if bneg x then (bnat y, nat_sub_u32 (trim (bnat x)) 1)
                   else (bnat x, nat_sub_u32 (trim (bnat y)) 1) in
    let n := nat_add_u32 (nat_bitxor s r) 1 in
    BI n (negb (is_nan n)).

(** bigint.rs:991-1011 [Not]. *)
Definition b_not (x : bigint) : bigint :=
  if b_is_nan x then b_nan
  else if bneg x then BI (nat_sub_u32 (trim (bnat x)) 1) false
  else BI (nat_add_u32 (trim (bnat x)) 1) true.

(** bigint.rs:691-698 [is_set_bit], 701-703 [bits_len]. *)
Definition b_is_set_bit (x : bigint) (i : Z) : res (option bool) :=
  if bneg x then
    do o <- is_set_bit (nat_sub_u32 (trim (bnat x)) 1) i; Ok (option_map negb o)
  else is_set_bit (bnat x) i.
Definition b_bits_len (x : bigint) : Z := bits_len (bnat x).

(* ------------------------------------------------------------------ *)
(** * Conversions *)

(** bigint_macro.rs:20-33: From<u8|u16|u32>, From<u64|usize>, From<u128>. *)
Definition b_from_u32 (w : Z) : bigint := BI (from_u32 w) false.
Definition b_from_u64 (w : Z) : bigint := BI (from_u64 w) false.
Definition b_from_u128 (w : Z) : bigint := BI (from_u128 w) false.

(** bigint_macro.rs:36-55, [from] of a signed type with [bits] bits: [MIN] is
    treated apart because [abs] would overflow. *)
Definition b_from_signed (conv : Z -> list Z) (bits : Z) (x : Z) : bigint :=
  BI (if x =? - 2 ^ (bits - 1) then conv (2 ^ (bits - 1) - 1 + 1) else conv (Z.abs x)) (x <? 0).
Definition b_from_i32 := b_from_signed from_u32 32.
Definition b_from_i64 := b_from_signed from_u64 64.
Definition b_from_i128 := b_from_signed from_u128 128.

(** bigint.rs:942-949 [From<Nat>], of a [deep_clone]; bigint_macro.rs:1-17; bigint.rs:150-182 bytes. *)
Definition b_from_nat (n : list Z) : bigint := BI (trim n) false.
Definition b_from_le_bytes (bs : list Z) : bigint := BI (from_le_bytes bs) false.
Definition b_from_be_bytes (bs : list Z) : bigint := BI (from_be_bytes bs) false.
Definition b_to_le_bytes (x : bigint) : list Z := to_le_bytes (bnat x).
Definition b_to_be_bytes (x : bigint) : list Z := to_be_bytes (bnat x).

(** bigint.rs:951-979 [from_str]; 45 is '-'. *)
Definition b_from_str (s : list Z) : option bigint :=
  match trim_ws s with
  | [] => None
  | c :: s' =>
      let neg := c =? 45 in
      match nat_from_str (if neg then s' else c :: s') with
      | None => None
      | Some n => Some (BI n (if nat_eq_u32 n 0 then false else neg))
      end
  end.

(** bigint_macro.rs:86-105 and bigint.rs:1055-1062: '-' in front of the text
    of the magnitude.  [Debug] is [LowerHex], as for Nat; the last line: [Binary]
    asks for the prefix in both cases. *)
Definition b_sign_text (x : bigint) (t : list Z) : list Z :=
  if b_is_negative x then 45 :: t else t.
Definition b_fmt_display (x : bigint) : res (list Z) :=
  do t <- fmt_display (bnat x); Ok (b_sign_text x t).
Definition b_fmt_lower_hex (alt : bool) (x : bigint) := b_sign_text x (fmt_lower_hex alt (bnat x)).
Definition b_fmt_upper_hex (alt : bool) (x : bigint) := b_sign_text x (fmt_upper_hex alt (bnat x)).
Definition b_fmt_octal (alt : bool) (x : bigint) := b_sign_text x (fmt_octal alt (bnat x)).
Definition b_fmt_binary (alt : bool) (x : bigint) := b_sign_text x (fmt_binary true (bnat x)).

(* ------------------------------------------------------------------ *)
(** * Euclidean division (bigint.rs:184-231)
    [rem_euclid_inner] and [div_euclid_inner]; [rem_euclid] and [div_euclid]
    apply them to a [b_clone]. *)

Definition b_rem_euclid (x n : bigint) : res bigint :=
  do r <- b_rem x n;
  Ok (if b_is_negative r then
        if b_is_negative n then b_sub r n else b_add r n
      else r).

Definition b_div_euclid (x n : bigint) : res bigint :=
  do m <- b_rem x n;
  do q <- b_div x n;
  Ok (if b_is_negative m then
        if b_is_positive n then b_sub q (b_from_i32 1) else b_add q (b_from_i32 1)
      else q).

(* ------------------------------------------------------------------ *)
(** * gcd and linear congruences *)

(** bigint.rs:282-293 [gcd_extend]. *)
Fixpoint gcd_extend (fuel : nat) (l r : bigint) : res (bigint * bigint * bigint) :=
  match fuel with
  | O => Fuel
  | S f =>
      if b_eq_u32 r 0 then Ok (l, b_from_i32 1, b_from_i32 0)
      else
        do m <- b_rem l r;
        do q <- b_div l r;
        do '(d, x, y) <- gcd_extend f r m;
        Ok (d, y, b_sub x (b_mul q y))
  end.

(** Two calls halve the second operand, so twice its bit length is enough. *)
Definition gcd_fuel (r : bigint) : nat := S (2 * Z.to_nat (bits_len (bnat r))).

(** bigint.rs:247-280 [gcd]; [-] works on a [deep_clone]. *)
Definition b_gcd (x y : bigint) : res (bigint * bigint * bigint) :=
  if b_is_nan x || b_is_nan y then Ok (b_nan, b_nan, b_nan)
  else if b_eq_u32 x 0 && b_eq_u32 y 0 then Ok (b_from_i32 0, b_from_i32 0, b_from_i32 0)
  else if b_eq_u32 x 0 && negb (b_eq_u32 y 0) then
    Ok (b_abs y, b_from_i32 0, if b_is_negative y then b_from_i32 (-1) else b_from_i32 1)
  else if negb (b_eq_u32 x 0) && b_eq_u32 y 0 then
    Ok (b_abs x, if b_is_negative x then b_from_i32 (-1) else b_from_i32 1, b_from_i32 0)
  else
    let lneg := b_is_negative x in
    let l := if lneg then b_neg (b_clone x) else b_clone x in
    let rneg := b_is_negative y in
    let r := if rneg then b_neg (b_clone y) else b_clone y in
    do '(d, u, v) <- gcd_extend (gcd_fuel r) l r;
    Ok (d, if lneg then b_neg u else u, if rneg then b_neg v else v).

(** bigint.rs:303-328 [mod_inverse]. *)
Definition b_mod_inverse (a n : bigint) : res bigint :=
  if b_is_nan a || b_is_nan n then Ok b_nan
  else
    let m := if b_is_negative n then b_abs n else b_clone n in
    do g <- (if b_is_negative a then b_rem_euclid (b_clone a) m else Ok a);
    do '(_, x, _) <- b_gcd g m;
    Ok (if b_is_negative x then b_add x m else x).

(** bigint.rs:359-364: one solution per [i < d]. *)
Fixpoint solve_loop (fuel : nat) (i d x0 nd n : bigint) : res (list bigint) :=
  if b_lt i d then
    match fuel with
    | O => Fuel
    | S f =>
        do t <- b_rem_euclid (b_clone (b_add (b_clone x0) (b_mul i nd))) n;
        do rest <- solve_loop f (b_add i (b_from_u32 1)) d x0 nd n;
        Ok (t :: rest)
    end
  else Ok [].

(** bigint.rs:333-373 [solve_mod_linear_equation]; one loop round per solution,
    [d] of them.  [rem_euclid] and the operators by value trim their receiver;
    the counter [i] never has leading zero words. *)
Definition b_solve (a b n : bigint) : res (option (list bigint)) :=
  if b_is_nan a || b_is_nan b || b_is_nan n then Ok None
  else
    let n := if b_is_negative n then b_abs n else n in
    do a <- (if b_is_negative a then b_rem_euclid (b_clone a) n else Ok a);
    do '(d, x, _) <- b_gcd a n;
    let zero := b_from_u32 0 in
    if b_gt d zero then
      do divisible <- (if b_eq b zero then Ok true
                       else do r <- b_rem (b_clone b) d; Ok (b_eq_u32 r 0));
      if divisible : bool then
        do q <- b_div (b_clone b) d;
        do x0 <- b_rem_euclid (b_clone (b_mul x q)) n;
        do nd <- b_div (b_clone n) d;
        do l <- solve_loop (Z.to_nat (nval (bnat d))) zero d x0 nd n;
        Ok (Some l)
      else Ok None
    else Ok None.

(* ------------------------------------------------------------------ *)
(** * Products of ranges (nat.rs:1856-1888, bigint.rs:604-638) *)

(** nat.rs:1871-1884: one factor [e]; [mul_add_ww] gives canonical products,
    [shl_inner] by 32 prepends a word. *)
Definition mul_range_step (r : list Z) (e : Z) : list Z :=
  let hi := shl_inner (mul_add_ww r (e / W) 0) 32 in
  let lo := mul_add_ww r (e mod W) 0 in
  let len := Nat.max (length hi) (length lo) in
  let '(s, c) := add_vv (resize hi len 0) (resize lo len 0) in
  trim (s ++ [c]).

(** The loop [for e in a..b]. *)
Fixpoint mul_range_loop (cnt : nat) (e : Z) (r : list Z) : list Z :=
  match cnt with
  | O => r
  | S n => mul_range_loop n (e + 1) (mul_range_step r e)
  end.
Definition nat_mul_range (a b : Z) : list Z :=
  if a =? 0 then from_u32 0
  else if a >? b then from_u32 1
  else if a =? b then from_u64 a
  else mul_range_loop (Z.to_nat (b - a)) a (from_u64 b).

(** i64 arithmetic: with overflow checks (debug build) an out-of-range result
    panics, without it wraps. *)
Definition wrap_i64 (x : Z) : Z := (x + 2 ^ 63) mod 2 ^ 64 - 2 ^ 63.
Definition i64 (checks : bool) (x : Z) : res Z :=
  if (- 2 ^ 63 <=? x) && (x <? 2 ^ 63) then Ok x
  else if checks then Panic else Ok (wrap_i64 x).
(** [x as u64] of an i64. *)
Definition as_u64 (x : Z) : Z := x mod 2 ^ 64.

(** bigint.rs:607-625 [mul_range]. *)
Definition b_mul_range (checks : bool) (a b : Z) : res bigint :=
  if a >? b then Ok (b_from_u32 1)
  else if (a <=? 0) && (b >=? 0) then Ok (b_from_u32 0)
  else if a <? 0 then
    do d <- i64 checks (b - a);
    do nb <- i64 checks (- b);
    do na <- i64 checks (- a);
    Ok (BI (nat_mul_range (as_u64 nb) (as_u64 na)) (Z.land d 1 =? 0))
  else Ok (BI (nat_mul_range a b) false).

(** bigint.rs:628-638 [binomial]. *)
Definition b_binomial (checks : bool) (n k : Z) : res bigint :=
  do k <- (if (n / 2 <? k) && (k <=? n) then i64 checks (n - k) else Ok k);
  do t <- i64 checks (n - k);
  do lo <- i64 checks (t + 1);
  do a <- b_mul_range checks lo n;
  do b <- b_mul_range checks 1 k;
  b_div a b.

(* ------------------------------------------------------------------ *)
(** * Powers and roots *)

(** The inlined test for the word list of zero, bigint.rs:668-676. *)
Definition is_zero_vec (l : list Z) : bool := (length l =? 1)%nat && (hd 0 l =? 0).

(** bigint.rs:644-687 [exp]; [checks] as in [nat_exp]. *)
Definition b_exp (checks : bool) (x b n : bigint) : res bigint :=
  if b_is_nan x || b_is_nan b || b_is_nan n then Ok b_nan
  else if b_is_negative b && b_eq_u32 n 0 then Ok (b_from_u32 1)
  else
    do inv <- (if b_is_negative b then b_mod_inverse x n else Ok x);
    if b_is_negative b && b_is_nan inv then Ok inv
    else
      do e <- nat_exp checks (bnat inv) (bnat b) (bnat n);
      let neg := negb (is_zero_vec e) && b_is_negative x && negb (is_zero_vec (bnat b))
                 && (Z.land (hd 0 (bnat b)) 1 =? 1) in
      if neg && negb (is_zero_vec (bnat n)) then Ok (BI (nat_sub e (bnat n)) false)
      else Ok (BI e neg).

(** bigint.rs:772-777 [sqr], 926-935 [sqrt]. *)
Definition b_sqr (x : bigint) : res bigint := do s <- nat_sqr (bnat x); Ok (BI s false).
Definition b_sqrt (x : bigint) : res bigint :=
  if b_is_nan x || bneg x then Ok b_nan
  else do s <- nat_sqrt (bnat x); Ok (BI s false).
