(** Model of [Rat] (rat.rs): a numerator and a denominator.

    Values, not handles: all constructors and operators build fresh storage
    ([deep_clone] or a by-value operator); [clear] of a shared numerator
    (rat.rs:409-411 after [+= NaN]) is the subject of AliasRat.v. *)
From Coq Require Import ZArith String List Bool.
From Verif Require Import Words NatModel NatConv NatPow BigInt Ieee.
Import ListNotations.
Open Scope Z_scope.

(** rat.rs:22-30 *)
Record rat : Set := RT { rnum : bigint; rden : bigint }.

(** rat.rs:34-36 *)
Definition r_is_nan (x : rat) : bool := b_is_nan (rnum x) || b_is_nan (rden x).
(** rat.rs:356-361 *)
Definition r_nan : rat := RT b_nan (b_from_u32 1).

(** rat.rs:323-348 [norm]; the order of the two tests does not matter.  The
    sign of [b] is set only in the last branch. *)
Definition r_norm (x : rat) : res rat :=
  let a := rnum x in
  let b := rden x in
  let az := b_is_nan a || nat_eq_u32 (bnat a) 0 in
  let bz := b_is_nan b || nat_eq_u32 (bnat b) 0 in
  let a := if az then BI (bnat a) false else a in
  let b := if bz then BI [1] (bneg b) else b in
  if az || bz then Ok (RT a b)
  else
    do '(d, _, _) <- b_gcd (BI (bnat a) false) (BI (bnat b) false);
    if negb (nat_eq_u32 (bnat d) 1) then
      do na <- div_inner (bnat a) (bnat d);
      do nb <- div_inner (bnat b) (bnat d);
      Ok (RT (BI na (bneg a)) (BI nb false))
    else Ok (RT a (BI (bnat b) false)).

(** rat.rs:45-56 [from_frac]; isize is 64 bits.  [-numerator] and
    [denominator.abs()] overflow for [isize::MIN]. *)
Definition r_from_frac (checks : bool) (n d : Z) : res (option rat) :=
  if d =? 0 then Ok None
  else
    do n' <- (if d <? 0 then i64 checks (- n) else Ok n);
    do d' <- i64 checks (Z.abs d);
    do z <- r_norm (RT (b_from_i64 n') (b_from_i64 d')); Ok (Some z).

(** rat.rs:58-69 [from_frac_bigint]; [-] and [abs] work on a [deep_clone]. *)
Definition r_from_frac_bigint (n d : bigint) : res (option rat) :=
  if nat_eq_u32 (bnat d) 0 then Ok None
  else
    do z <- r_norm (RT (if bneg d then b_neg (b_clone n) else b_clone n) (b_abs d)); Ok (Some z).

(** rat.rs:95-98: the loop that removes factors of two. *)
Fixpoint from_f64_loop (fuel : nat) (mantissa shift : Z) : Z * Z :=
  match fuel with
  | O => (mantissa, shift)
  | S f =>
      if (Z.land mantissa 1 =? 0) && (0 <? shift) then from_f64_loop f (mantissa / 2) (shift - 1)
      else (mantissa, shift)
  end.

(** rat.rs:71-109 [from_f64]; the argument is the bit pattern. [f < 0] is
    false for -0.  The loop runs at most 1074 times (shift is at most
    52 + 1022). *)
Definition r_from_f64 (bits : Z) : res rat :=
  let mantissa := Z.land bits (2 ^ 52 - 1) in
  let exp := Z.land (bits / 2 ^ 52) 2047 in
  if exp =? 2047 then Ok r_nan
  else
    let '(mantissa, exp) :=
      if exp =? 0 then (mantissa, exp - 1022) else (Z.lor mantissa (2 ^ 52), exp - 1023) in
    let '(mantissa, shift) := from_f64_loop 1100 mantissa (52 - exp) in
    let a := BI (from_u64 mantissa) (fneg_bit 52 11 bits && negb (f_is_zero 52 11 bits)) in
    let s := if 0 <? shift then shift else - shift in
    let b := BI (shl_inner (from_u32 1) s) false in
    r_norm (RT a b).

(* ------------------------------------------------------------------ *)
(** * To machine floats *)

(** rat.rs:159-226 and 243-313, the common text of [quo_to_f32] and
    [quo_to_f64] up to the call of [ldexp]: mantissa, exponent, exact.  [mant]
    reads the low words of the quotient (one word or two); [/] and [%] copy
    their receiver with [deep_clone], which trims (nat_macro.rs:97); [msize] is 23 or
    52, [esize] 8 or 11.  [mantissa >> n] is a division, [mantissa & (2^n - 1)]
    a remainder. *)
Definition quo_core (mant : list Z -> Z) (msize esize : Z) (a b : list Z) : res (Z * Z * bool) :=
  let msize1 := msize + 1 in
  let msize2 := msize + 2 in
  let ebias := 2 ^ (esize - 1) - 1 in
  let emin := 1 - ebias in
  let exp := bits_len a - bits_len b in
  let a2 := if exp <? msize2 then shl_inner a (msize2 - exp) else a in
  let b2 := if exp <? msize2 then b else shl_inner b (exp - msize2) in
  do q <- nat_div (trim a2) b2;
  do r <- nat_rem (trim a2) b2;
  let mantissa := mant q in
  let have_rem := match partial_cmp r (from_u32 0) with Some Gt => true | _ => false end in
  let '(mantissa, exp, have_rem) :=
    if mantissa / 2 ^ msize2 =? 1
    then (mantissa / 2, exp + 1, have_rem || (Z.land mantissa 1 =? 1))
    else (mantissa, exp, have_rem) in
  if negb (mantissa / 2 ^ msize1 =? 1) then Panic
  else
    let '(mantissa, exp, have_rem) :=
      if (emin - msize <=? exp) && (exp <=? emin) then
        let shift := emin - (exp - 1) in
        (mantissa / 2 ^ shift, 2 - ebias, have_rem || negb (mantissa mod 2 ^ shift =? 0))
      else (mantissa, exp, have_rem) in
    let '(mantissa, exp, exact) :=
      if negb (Z.land mantissa 1 =? 0) then
        if have_rem || negb (Z.land mantissa 2 =? 0) then
          let mantissa := mantissa + 1 in
          if 2 ^ msize2 <=? mantissa then (mantissa / 2, exp + 1, false) else (mantissa, exp, false)
        else (mantissa, exp, false)
      else (mantissa, exp, negb have_rem) in
    Ok (mantissa / 2, exp, exact).

(** rat.rs:187 and 270-274: the mantissa as u32, u64. *)
Definition mant32 (q : list Z) : Z := nth 0 q 0.
Definition mant64 (q : list Z) : Z := nth 0 q 0 + nth 1 q 0 * W.

(** rat.rs:155-234 [quo_to_f32]: the result of the test [a == 0] is dropped
    (there is no [return]), so zero runs into the panic. *)
Definition quo_to_f32 (a b : list Z) : res (Z * bool) :=
  do '(mantissa, exp, exact) <- quo_core mant32 23 8 a b;
  let f := f32_of_f64 (ldexp (f64_of_uint mantissa) (exp - 24)) in
  Ok (if f_is_inf 23 8 f then (f, false) else (f, exact)).

(** rat.rs:240-321 [quo_to_f64]. *)
Definition quo_to_f64 (a b : list Z) : res (Z * bool) :=
  if nat_eq_u32 a 0 then Ok (0, true)
  else
    do '(mantissa, exp, exact) <- quo_core mant64 52 11 a b;
    let f := ldexp (f64_of_uint mantissa) (exp - 53) in
    Ok (if f_is_inf 52 11 f then (f, false) else (f, exact)).

(** rat.rs:115-129 [to_f32]; rat.rs:135-149 [to_f64]. *)
Definition r_to_f32 (x : rat) : res (Z * bool) :=
  if r_is_nan x then Ok (fnan 23 8, false)
  else
    do '(f, exact) <- quo_to_f32 (bnat (rnum x)) (if nat_eq_u32 (bnat (rden x)) 0 then from_u32 1 else bnat (rden x));
    Ok (if bneg (rnum x) then fopp 23 8 f else f, exact).
Definition r_to_f64 (x : rat) : res (Z * bool) :=
  if r_is_nan x then Ok (fnan 52 11, false)
  else
    do '(f, exact) <- quo_to_f64 (bnat (rnum x)) (if nat_eq_u32 (bnat (rden x)) 0 then from_u32 1 else bnat (rden x));
    Ok (if bneg (rnum x) then fopp 52 11 f else f, exact).

(* ------------------------------------------------------------------ *)
(** * Arithmetic *)

(** rat.rs:350-354 [abs]. *)
Definition r_abs (x : rat) : rat := RT (BI (bnat (rnum x)) false) (rden x).
(** rat.rs:363-379 [inv]; [None] is the error. *)
Definition r_inv (x : rat) : option rat :=
  if r_is_nan x then Some r_nan
  else if nat_eq_u32 (bnat (rnum x)) 0 then None
  else Some (RT (BI (bnat (rden x)) (bneg (rnum x))) (BI (bnat (rnum x)) false)).
(** rat.rs:388-390 [signnum]; 393-399 [is_integer]. *)
Definition r_signnum (x : rat) : option Z := b_signnum (rnum x).
Definition r_is_integer (x : rat) : option bool :=
  if r_is_nan x then None else Some (nat_eq_u32 (bnat (rnum x)) 0 || b_eq_u32 (rden x) 1).

(** rat.rs:413-423 [mul_denom]. *)
Definition mul_denom (x y : list Z) : list Z :=
  if nat_eq_u32 x 0 && nat_eq_u32 y 0 then from_u32 1
  else if nat_eq_u32 x 0 then y
  else if nat_eq_u32 y 0 then x
  else nat_mul x y.
(** rat.rs:425-434 [scale_denom]. *)
Definition scale_denom (x : bigint) (f : list Z) : bigint :=
  if nat_eq_u32 f 0 then x else BI (nat_mul (bnat x) f) (bneg x).

(** rat.rs:436-443 [cmp_inner]; rat.rs:603-620 [eq], [partial_cmp]. *)
Definition r_cmp (x y : rat) : option comparison :=
  if r_is_nan x || r_is_nan y then None
  else
    let a := scale_denom (rnum x) (bnat (rden y)) in
    let b := scale_denom (rnum y) (bnat (rden x)) in
    Some (if b_eq a b then Eq else if b_lt a b then Lt else Gt).
Definition r_eq (x y : rat) : bool := match r_cmp x y with Some Eq => true | _ => false end.

(** rat.rs:446-456, 459-470 [add_inner], [sub_inner]. *)
Definition r_add_inner (x y : rat) : res rat :=
  r_norm (RT (b_add (scale_denom (rnum x) (bnat (rden y))) (scale_denom (rnum y) (bnat (rden x))))
             (BI (mul_denom (bnat (rden x)) (bnat (rden y))) false)).
Definition r_sub_inner (x y : rat) : res rat :=
  r_norm (RT (b_sub (scale_denom (rnum x) (bnat (rden y))) (scale_denom (rnum y) (bnat (rden x))))
             (BI (mul_denom (bnat (rden x)) (bnat (rden y))) false)).
(** rat.rs:472-496 [mul_inner]: a square is computed with [sqr]. *)
Definition r_mul_inner (x y : rat) : res rat :=
  if r_eq x y then
    do a <- b_sqr (rnum x);
    do b <- (if nat_eq_u32 (bnat (rden x)) 0 then Ok (b_from_u32 1) else b_sqr (rden x));
    r_norm (RT a b)
  else
    r_norm (RT (b_mul (rnum x) (rnum y)) (BI (mul_denom (bnat (rden x)) (bnat (rden y))) false)).
(** rat.rs:498-514 [div_inner]. *)
Definition r_div_inner (x y : rat) : res rat :=
  if nat_eq_u32 (bnat (rnum y)) 0 then Panic
  else
    let a := scale_denom (rnum x) (bnat (rden y)) in
    let b := scale_denom (rnum y) (bnat (rden x)) in
    r_norm (RT (BI (bnat a) (negb (eqb (bneg a) (bneg b)))) b).

(** rat.rs:517-601: the operators; the assigning forms clear the numerator
    when an operand is NaN. *)
Definition r_op2 (f : rat -> rat -> res rat) (x y : rat) : res rat :=
  if r_is_nan x || r_is_nan y then Ok r_nan else f x y.
Definition r_add := r_op2 r_add_inner.
Definition r_sub := r_op2 r_sub_inner.
Definition r_mul := r_op2 r_mul_inner.
Definition r_div := r_op2 r_div_inner.
(** rat.rs:409-411 [clear]: the sign stays. *)
Definition r_clear (x : rat) : rat := RT (BI nan (bneg (rnum x))) (rden x).
Definition r_op2_assign (f : rat -> rat -> res rat) (x y : rat) : res rat :=
  if r_is_nan x || r_is_nan y then Ok (r_clear x) else f x y.
(** rat.rs:552-561: [*=] looks at the left operand only. *)
Definition r_mul_assign (x y : rat) : res rat :=
  if r_is_nan x then Ok (r_clear x) else r_mul_inner x y.
(** rat.rs:622-635 [neg]. *)
Definition r_neg (x : rat) : rat := if r_is_nan x then r_nan else RT (b_neg (rnum x)) (rden x).

(* ------------------------------------------------------------------ *)
(** * Conversions and text *)

(** rat.rs:637-675: From<f64>, From<f32>, From<integers>, From<Nat>, From<BigInt>;
    the last two copy with [deep_clone]. *)
Definition r_from_f32 (bits : Z) : res rat := r_from_f64 (f64_of_f32 bits).
Definition r_from_bigint (n : bigint) : rat := RT (b_clone n) (b_from_u32 1).

(** rat.rs:677-730 [from_str].  The standard library's [f64::from_str] is the
    argument [parse_f64] (bit pattern or error); 46 is '.', 47 is '/'. *)
Fixpoint find_char (c : Z) (s : list Z) : option (list Z * list Z) :=
  match s with
  | [] => None
  | d :: s' =>
      if d =? c then Some ([], s')
      else match find_char c s' with None => None | Some (u, v) => Some (d :: u, v) end
  end.
Definition r_from_str (parse_f64 : list Z -> option Z) (s : list Z) : res (option rat) :=
  let s := trim_ws s in
  match s with
  | [] => Ok None
  | _ :: _ =>
      match find_char 46 s with
      | Some _ =>
          match parse_f64 s with
          | None => Ok None
          | Some f => if f_is_nan 52 11 f then Ok None else do z <- r_from_f64 f; Ok (Some z)
          end
      | None =>
          let '(a, b) := match find_char 47 s with
                         | Some (u, v) => (b_from_str u, b_from_str v)
                         | None => (b_from_str s, Some (b_from_u32 1))
                         end in
          match a, b with
          | Some a, Some b =>
              if b_is_nan a || b_is_nan b then Ok None
              else if nat_eq_u32 (bnat b) 0 then Ok None
              else Ok (Some (RT (BI (bnat a) (negb (eqb (bneg a) (bneg b)))) (BI (bnat b) false)))
          | _, _ => Ok None
          end
      end
  end.

(** rat.rs:732-767: the formats; [Display] prints decimals, [Debug] is in
    DebugFmt.v. *)
Definition r_text (f : bigint -> list Z) (x : rat) : list Z :=
  if r_is_nan x then str "NaN" else f (rnum x) ++ 47 :: f (rden x).
Definition r_fmt_display (x : rat) : res (list Z) :=
  if r_is_nan x then Ok (str "NaN")
  else do a <- b_fmt_display (rnum x); do b <- b_fmt_display (rden x); Ok (a ++ 47 :: b).
Definition r_fmt_lower_hex (alt : bool) := r_text (b_fmt_lower_hex alt).
Definition r_fmt_upper_hex (alt : bool) := r_text (b_fmt_upper_hex alt).
Definition r_fmt_octal (alt : bool) := r_text (b_fmt_octal alt).
Definition r_fmt_binary (alt : bool) := r_text (b_fmt_binary alt).
