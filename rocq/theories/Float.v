(** Model of [Float] (float.rs): arbitrary-precision binary floats.

    Values, not handles: the by-value operators work on [deep_clone]s and the
    assigning ones on their own mantissa.  Handles whose mantissas share
    storage (clones) are the subject of AliasFloat.v. *)
From Coq Require Import ZArith List Bool.
From Verif Require Import Words NatModel NatConv NatPow VecPrims BigInt Ieee Rat.
Import ListNotations.
Open Scope Z_scope.

(** float_para.rs:4-27, 46-52 *)
Inductive rmode : Set := ToNearestEven | ToNearestAway | ToZero | AwayFromZero | ToNegativeInf | ToPositiveInf.
Inductive accuracy : Set := Below | Exact | Above.
Inductive form : Set := Zero | Finite | Inf | Nan.
Definition is_finite (f : form) : bool := match f with Finite => true | _ => false end.
Definition is_zero (f : form) : bool := match f with Zero => true | _ => false end.
Definition is_infinite (f : form) : bool := match f with Inf => true | _ => false end.
Definition is_fnan (f : form) : bool := match f with Nan => true | _ => false end.
Definition is_nearest_even (m : rmode) : bool := match m with ToNearestEven => true | _ => false end.
Definition is_to_negative_inf (m : rmode) : bool := match m with ToNegativeInf => true | _ => false end.

(** float.rs:65-74; [flneg] is [neg == Negative]. *)
Record float : Set := FL {
  flmode : rmode; flacc : accuracy; flform : form; flneg : bool; flprec : Z; flexp : Z; flmant : list Z }.
Definition set_acc (x : float) (a : accuracy) := FL (flmode x) a (flform x) (flneg x) (flprec x) (flexp x) (flmant x).
Definition set_form (x : float) (f : form) := FL (flmode x) (flacc x) f (flneg x) (flprec x) (flexp x) (flmant x).
Definition set_neg (x : float) (s : bool) := FL (flmode x) (flacc x) (flform x) s (flprec x) (flexp x) (flmant x).
Definition set_prec (x : float) (p : Z) := FL (flmode x) (flacc x) (flform x) (flneg x) p (flexp x) (flmant x).
Definition set_exp (x : float) (e : Z) := FL (flmode x) (flacc x) (flform x) (flneg x) (flprec x) e (flmant x).
Definition set_mant (x : float) (m : list Z) := FL (flmode x) (flacc x) (flform x) (flneg x) (flprec x) (flexp x) m.

(** float.rs:1253-1266 *)
Definition fl_default : float := FL ToNearestEven Exact Zero false 0 0 nan.
(** float.rs:93-105 *)
Definition max_exp : Z := 2 ^ 31 - 1.
Definition min_exp : Z := - 2 ^ 31.
Definition max_precision : Z := 2 ^ 32 - 1.
(** float.rs:385-391 *)
Definition make_accuracy (above : bool) : accuracy := if above then Above else Below.

(** nat.rs:1906-1930 [sticky]. *)
Definition sticky (a : list Z) (n : Z) : Z :=
  if is_nan a then 0
  else if Z.of_nat (length a) <=? n / 32 then (if nat_eq_u32 a 0 then 0 else 1)
  else if existsb (fun x => negb (x =? 0)) (firstn (Z.to_nat (n / 32)) a) then 1
  else if (0 <? n mod 32) && negb ((nth (Z.to_nat (n / 32)) a 0 * 2 ^ (32 - n mod 32)) mod W =? 0) then 1
  else 0.

(** The number of mantissa bits, [len << 5]. *)
Definition mbits (a : list Z) : Z := 32 * Z.of_nat (length a).

(** float.rs:371-383 [fnorm]: the shifted mantissa and the shift amount; the
    assertion about the carry is kept. *)
Definition fnorm (a : list Z) : res (list Z * Z) :=
  if is_nan a then Ok (a, 0)
  else
    let s := leading_zeros (last a 0) in
    if 0 <? s then
      let '(r, c) := shl_vu_inner a s in
      if c =? 0 then Ok (r, s) else Panic
    else Ok (a, s).

(** [&=], [|=] on one word of a vector. *)
Definition upd_first (f : Z -> Z) (a : list Z) : res (list Z) :=
  match a with [] => Panic | x :: a' => Ok (f x :: a') end.

(** float.rs:457-466: whether the truncated mantissa is incremented. *)
Definition round_inc (m : rmode) (neg : bool) (rbit sbit : bool) (odd : bool) : bool :=
  match m with
  | ToNegativeInf => neg
  | ToZero => false
  | ToNearestEven => rbit && (sbit || odd)
  | ToNearestAway => rbit
  | AwayFromZero => true
  | ToPositiveInf => negb neg
  end.

(** float.rs:401-495 [round]. *)
Definition fl_round (x : float) (sbit : Z) : res float :=
  let x := set_acc x Exact in
  if negb (is_finite (flform x)) then Ok x
  else
    let mant := flmant x in
    let prec := flprec x in
    if mbits mant <=? prec then Ok x
    else
      let r := mbits mant - prec - 1 in
      do b <- is_set_bit mant r;
      let rbit := match b with Some true => true | _ => false end in
      let sbit := if (sbit =? 0) && (negb rbit || is_nearest_even (flmode x)) then sticky mant r else sbit in
      let sbit := negb (Z.land sbit 1 =? 0) in
      let n := (prec + 31) / 32 in
      let m := Z.of_nat (length mant) in
      let mant := if n <? m then skipn (Z.to_nat (m - n)) mant else mant in
      let lsb := 2 ^ (32 * n - prec) in
      let clear x := do v <- upd_first (fun w => w - w mod lsb) (flmant x); Ok (set_mant x v) in
      if rbit || sbit then
        do odd <- (if is_nearest_even (flmode x) && rbit && negb sbit
                   then match mant with [] => Panic | w :: _ => Ok (negb (Z.land w lsb =? 0)) end
                   else Ok false);
        let inc := round_inc (flmode x) (flneg x) rbit sbit odd in
        let x := set_acc x (make_accuracy (negb (eqb inc (flneg x)))) in
        if inc then
          let '(v, c) := add_vw mant lsb in
          if negb (c =? 0) then
            if max_exp <=? flexp x then Ok (set_form (set_mant x v) Inf)
            else
              let v := fst (shr_vu v 1) in
              clear (set_mant (set_exp x (flexp x + 1)) (set_last v (Z.lor (last v 0) (2 ^ 31))))
          else clear (set_mant x v)
        else clear (set_mant x mant)
      else clear (set_mant x mant).

(** float.rs:210-224 [set_exp_and_round]. *)
Definition set_exp_and_round (x : float) (e sbit : Z) : res float :=
  if e <? min_exp then Ok (set_form (set_acc x (make_accuracy (flneg x))) Zero)
  else if max_exp <? e then Ok (set_form (set_acc x (make_accuracy (negb (flneg x)))) Inf)
  else fl_round (set_exp (set_form x Finite) e) sbit.

(** float.rs:108-125 [set_precision], 128-131 [set_mode]. *)
Definition fl_set_precision (x : float) (prec : Z) : res float :=
  let x := set_acc x Exact in
  if prec =? 0 then
    Ok (if is_finite (flform x)
        then set_form (set_acc (set_prec x 0) (make_accuracy (flneg x))) Zero
        else set_prec x 0)
  else
    let prec := Z.min max_precision prec in
    let old := flprec x in
    let x := set_prec x prec in
    if prec <? old then fl_round x 0 else Ok x.
Definition fl_set_mode (x : float) (m : rmode) : float :=
  FL m Exact (flform x) (flneg x) (flprec x) (flexp x) (flmant x).

(** float.rs:138-144 [required_min_precision]. *)
Definition required_min_precision (x : float) : Z :=
  if negb (is_finite (flform x)) then 0 else mbits (flmant x) - trailling_zeros (flmant x).

(** float.rs:157-171 [signnum]; 256-270 [is_negative], [is_infinite]. *)
Definition fl_signnum (x : float) : option Z :=
  if is_fnan (flform x) then None
  else Some (if is_zero (flform x) then 0 else if flneg x then -1 else 1).
Definition fl_is_negative (x : float) : option bool := if is_fnan (flform x) then None else Some (flneg x).
Definition fl_is_infinite (x : float) : option bool := if is_fnan (flform x) then None else Some (is_infinite (flform x)).

(** float.rs:173-178 [get_inf]. *)
Definition fl_get_inf (neg : bool) : float := FL ToNearestEven Exact Inf neg 0 0 nan.

(** float.rs:195-208 [mant_exp]. *)
Definition mant_exp (x : float) : float * Z :=
  if is_finite (flform x) then (set_exp x 0, flexp x) else (x, 0).

(** float.rs:241-254 [set_mant_exp]: the old value of the receiver does not
    matter unless its mantissa is shared with the argument.  isize is 64 bits. *)
Definition sat_add (a b : Z) : Z := Z.max (- 2 ^ 63) (Z.min (2 ^ 63 - 1) (a + b)).
Definition set_mant_exp (mant : float) (e : Z) : res float :=
  if is_finite (flform mant) then set_exp_and_round mant (sat_add (flexp mant) e) 0 else Ok mant.
(** The same when the receiver shares its mantissa with the argument:
    [self.mant.clear()] (line 248) empties both. *)
Definition set_mant_exp_shared (mant : float) (e : Z) : res float := set_mant_exp (set_mant mant []) e.

(** float.rs:277-288 [is_integer]. *)
Definition fl_is_integer (x : float) : option bool :=
  if is_fnan (flform x) then None
  else if negb (is_finite (flform x)) then Some (is_zero (flform x))
  else if flexp x <=? 0 then Some false
  else Some ((flprec x <=? flexp x) || (required_min_precision x <=? flexp x)).

(** float.rs:290-313 [set_bits]: the mantissa is two words, [x << s]. *)
Definition set_bits (z : float) (neg : bool) (x : Z) : res float :=
  let prec := if flprec z =? 0 then 64 else flprec z in
  if x =? 0 then Ok (FL (flmode z) Exact Zero neg prec (flexp z) (flmant z))
  else
    let s := 63 - Z.log2 x in
    let t := x * 2 ^ s in
    let z := FL (flmode z) Exact Finite neg prec (64 - s) [t mod W; t / W] in
    if prec <? 64 then fl_round z 0 else Ok z.
(** float.rs:315-321; [x.abs()] overflows for i64::MIN. *)
Definition set_u64 (z : float) (x : Z) : res float := set_bits z false x.
Definition set_i64 (checks : bool) (z : float) (x : Z) : res float :=
  do a <- i64 checks (Z.abs x); set_bits z (x <? 0) (if a <? 0 then a + 2 ^ 64 else a).

(** float.rs:323-350 [set_f64]; the argument is the bit pattern. *)
Definition set_f64 (z : float) (x : Z) : res float :=
  if f_is_nan 52 11 x then Ok (set_form z Nan)
  else
    let prec := if flprec z =? 0 then 53 else flprec z in
    let neg := fneg_bit 52 11 x in
    if f_is_zero 52 11 x then Ok (FL (flmode z) Exact Zero neg prec (flexp z) (flmant z))
    else if f_is_inf 52 11 x then Ok (FL (flmode z) Exact Inf neg prec (flexp z) (flmant z))
    else
      let '(f, e) := frexp x in
      let t := Z.lor (2 ^ 63) ((f * 2 ^ 11) mod 2 ^ 64) in
      let z := FL (flmode z) Exact Finite neg prec e [t mod W; t / W] in
      if prec <? 53 then fl_round z 0 else Ok z.

(** float.rs:352-366 [set_float]. *)
Definition set_float (z x : float) : res float :=
  let z1 := FL (flmode z) Exact (flform x) (flneg x) (flprec z)
              (if is_finite (flform x) then flexp x else flexp z)
              (if is_finite (flform x) then flmant x else flmant z) in
  if flprec z =? 0 then Ok (set_prec z1 (flprec x))
  else if flprec z <? flprec x then fl_round z1 0
  else Ok z1.

(** float.rs:497-516 [set_nat]; 518-520 [set_bigint]. *)
Definition set_nat (z : float) (x : list Z) (neg : bool) : res float :=
  if is_nan x then Ok (set_form z Nan)
  else
    let bits := bits_len x in
    let prec := if flprec z =? 0 then Z.max bits 64 else flprec z in
    let z := FL (flmode z) Exact (flform z) neg prec (flexp z) (flmant z) in
    if nat_eq_u32 x 0 then Ok (set_form z Zero)
    else
      do '(v, _) <- fnorm x;
      set_exp_and_round (set_mant z v) bits 0.
Definition set_bigint (z : float) (x : bigint) : res float := set_nat z (bnat x) (bneg x).

(* ------------------------------------------------------------------ *)
(** * Comparison *)

(** float.rs:1161-1194 [ucmp]: the words from the top, missing words are 0. *)
Fixpoint ucmp_words (x y : list Z) : Z :=
  match x, y with
  | [], [] => 0
  | a :: x', [] => if a <? 0 then -1 else if 0 <? a then 1 else ucmp_words x' []
  | [], b :: y' => (fix go (y : list Z) : Z :=
                      match y with [] => 0 | b :: y' => if 0 <? b then -1 else if b <? 0 then 1 else go y' end) (b :: y')
  | a :: x', b :: y' => if a <? b then -1 else if b <? a then 1 else ucmp_words x' y'
  end.
Definition ucmp (x y : float) : Z :=
  if flexp x <? flexp y then -1
  else if flexp y <? flexp x then 1
  else ucmp_words (rev (flmant x)) (rev (flmant y)).

(** float.rs:1201-1217 [ord]; 1223-1240 [cmp_inner]; 1393-1414 [eq],
    [partial_cmp]. *)
Definition fl_ord (x : float) : option Z :=
  let s z := if flneg x then - z else z in
  match flform x with Finite => Some (s 1) | Zero => Some (s 0) | Inf => Some (s 2) | Nan => None end.
Definition fl_cmp_inner (x y : float) : option Z :=
  match fl_ord x, fl_ord y with
  | Some a, Some b =>
      Some (if a <? b then -1 else if b <? a then 1
            else if a =? -1 then ucmp y x else if a =? 1 then ucmp x y else 0)
  | _, _ => None
  end.
Definition fl_cmp (x y : float) : option comparison :=
  match fl_cmp_inner x y with
  | None => None
  | Some c => Some (if 0 <? c then Gt else if c <? 0 then Lt else Eq)
  end.
Definition fl_eq (x y : float) : bool := match fl_cmp_inner x y with Some c => c =? 0 | None => false end.

(* ------------------------------------------------------------------ *)
(** * Arithmetic *)

(** float.rs:939-972 [uadd]. *)
Definition uadd (x y : float) : res float :=
  let ex := flexp x - mbits (flmant x) in
  let ey := flexp y - mbits (flmant y) in
  let '(m, e) :=
    if ex <? ey then (nat_add (flmant x) (nat_shl (flmant y) (ey - ex)), ex)
    else if ey <? ex then (nat_add (nat_shl (flmant x) (ex - ey)) (flmant y), ey)
    else (nat_add (flmant x) (flmant y), ex) in
  do '(v, s) <- fnorm m;
  set_exp_and_round (set_mant x v) (e + mbits m - s) 0.

(** float.rs:1027-1061 [usub]. *)
Definition usub (x y : float) : res float :=
  let ex := flexp x - mbits (flmant x) in
  let ey := flexp y - mbits (flmant y) in
  let '(m, e) :=
    if ex <? ey then (nat_sub (flmant x) (nat_shl (flmant y) (ey - ex)), ex)
    else if ey <? ex then (nat_sub (nat_shl (flmant x) (ex - ey)) (flmant y), ey)
    else (nat_sub (flmant x) (flmant y), ex) in
  let x := set_mant x m in
  if nat_eq_u32 m 0 then Ok (set_neg (set_form (set_acc x Exact) Zero) false)
  else
    do '(v, s) <- fnorm m;
    set_exp_and_round (set_mant x v) (e + mbits m - s) 0.

(** The common text of float.rs:979-1007 and 1068-1088: [same] says that the
    operands have the same sign after the operation's own sign is applied. *)
Definition add_finite (same : bool) (x y : float) : res float :=
  do z <- (if same then uadd x y
           else if 0 <? ucmp x y then usub x y
           else usub (set_neg y (negb (flneg x))) x);
  Ok (if is_zero (flform z) && is_to_negative_inf (flmode z) && (match flacc z with Exact => true | _ => false end)
      then set_neg z true else z).
Definition default_prec (x y : float) : float := if flprec x =? 0 then set_prec x (flprec y) else x.

(** float.rs:974-1025 [add_inner]. *)
Definition fl_add_inner (x y : float) : res float :=
  let x := default_prec x y in
  if is_finite (flform x) && is_finite (flform y) then add_finite (eqb (flneg x) (flneg y)) x y
  else if is_infinite (flform x) && is_infinite (flform y) && negb (eqb (flneg x) (flneg y)) then
    Ok (set_neg (set_form (set_acc x Exact) Nan) false)
  else if is_infinite (flform x) || is_zero (flform y) then Ok x
  else set_float x y.

(** float.rs:1063-1112 [sub_inner]. *)
Definition fl_sub_inner (x y : float) : res float :=
  let x := default_prec x y in
  if is_finite (flform x) && is_finite (flform y) then add_finite (negb (eqb (flneg x) (flneg y))) x y
  else if is_infinite (flform x) && is_infinite (flform y) && eqb (flneg x) (flneg y) then
    Ok (set_neg (set_form (set_acc x Exact) Nan) false)
  else if is_zero (flform x) && is_zero (flform y) then
    Ok (set_neg (set_form (set_acc x Exact) Zero) (flneg x && negb (flneg y)))
  else if is_infinite (flform x) || is_zero (flform y) then Ok x
  else set_float x y.

(** float.rs:1114-1126 [umul]; 1128-1157 [mul_inner]. *)
Definition umul (x y : float) : res float :=
  do '(v, s) <- fnorm (nat_mul (flmant x) (flmant y));
  set_exp_and_round (set_mant x v) (flexp x + flexp y - s) 0.
Definition fl_mul_inner (x y : float) : res float :=
  let x := default_prec x y in
  let x := set_neg x (negb (eqb (flneg x) (flneg y))) in
  if is_finite (flform x) && is_finite (flform y) then umul x y
  else
    let x := set_acc x Exact in
    Ok (if (is_zero (flform x) && is_infinite (flform y)) || (is_infinite (flform x) && is_zero (flform y))
        then set_neg (set_form x Nan) false
        else if is_infinite (flform x) || is_infinite (flform y) then set_form x Inf
        else set_form x Zero).

(** float.rs:541-581 [uquo]: [resize] adds the zero words at the top (line
    553), and the operators [/] and [%] trim them away again. *)
Definition uquo (x y : float) : res float :=
  let n := flprec x / 32 + 1 in
  let lx := Z.of_nat (length (flmant x)) in
  let ly := Z.of_nat (length (flmant y)) in
  let d := n - lx + ly in
  let xadj := if 0 <? d then flmant x ++ repeat 0 (Z.to_nat d) else flmant x in
  let d := Z.of_nat (length xadj) - ly in
  do quo <- nat_div (trim xadj) (flmant y);
  do rem <- nat_rem (trim xadj) (flmant y);
  let e := flexp x - flexp y - 32 * (d - Z.of_nat (length quo)) in
  let sbit := match partial_cmp rem (from_u32 0) with Some Gt => 1 | _ => 0 end in
  do '(v, s) <- fnorm quo;
  set_exp_and_round (set_mant x v) (e - s) sbit.
(** float.rs:583-604 [div_inner]: line 594 tests [self] twice. *)
Definition fl_div_inner (x y : float) : res float :=
  let x := default_prec x y in
  let x := set_neg x (negb (eqb (flneg x) (flneg y))) in
  if is_finite (flform x) && is_finite (flform y) then uquo x y
  else
    let x := set_acc x Exact in
    Ok (if (is_zero (flform x) && is_zero (flform y)) || (is_infinite (flform x) && is_infinite (flform x))
        then set_neg (set_form x Nan) false
        else if is_zero (flform x) || is_infinite (flform y) then set_form x Zero
        else set_form x Inf).

(** float.rs:1297-1391: the operators; the assigning forms set the form to NaN
    and keep the rest. *)
Definition fl_nan : float := FL ToNearestEven Exact Nan false 0 0 nan.
Definition fl_op2 (f : float -> float -> res float) (x y : float) : res float :=
  if is_fnan (flform x) || is_fnan (flform y) then Ok fl_nan else f x y.
Definition fl_op2_assign (f : float -> float -> res float) (x y : float) : res float :=
  if is_fnan (flform x) || is_fnan (flform y) then Ok (set_form x Nan) else f x y.
Definition fl_add := fl_op2 fl_add_inner.
Definition fl_sub := fl_op2 fl_sub_inner.
Definition fl_mul := fl_op2 fl_mul_inner.
Definition fl_div := fl_op2 fl_div_inner.
(** float.rs:918-922 [abs]; 1243-1251 [neg]. *)
Definition fl_abs (x : float) : float := set_neg x false.
Definition fl_neg (x : float) : float := set_neg x (negb (flneg x)).

(** float.rs:1268-1295: From for the integers, floats, Nat, BigInt. *)
Definition fl_from_u64 := set_u64 fl_default.
Definition fl_from_i64 (checks : bool) := set_i64 checks fl_default.
Definition fl_from_f64 := set_f64 fl_default.
Definition fl_from_f32 (b : Z) := set_f64 fl_default (f64_of_f32 b).
Definition fl_from_nat (x : list Z) := set_nat fl_default x false.
Definition fl_from_bigint := set_bigint fl_default.
(** float.rs:522-539 [set_rat] for the default receiver, i.e. [From<Rat>]: the
    quotient replaces the receiver. *)
Definition fl_from_rat (x : rat) : res float :=
  match r_is_integer x with
  | Some true => fl_from_bigint (rnum x)
  | Some false =>
      do a <- fl_from_bigint (rnum x);
      do b <- fl_from_bigint (rden x);
      fl_op2_assign fl_div_inner a b
  | None => Ok (set_form fl_default Nan)
  end.

(* ------------------------------------------------------------------ *)
(** * To machine numbers *)

(** float.rs:606-624 [msb32], [msb64]. *)
Definition msb32 (a : list Z) : Z := match rev a with [] => 0 | h :: _ => h end.
Definition msb64 (a : list Z) : Z :=
  match rev a with [] => 0 | [h] => h * W | h :: l :: _ => h * W + l end.

(** float.rs:626-657 [truncate_to_u64]. *)
Definition truncate_to_u64 (x : float) : option (Z * accuracy) :=
  match flform x with
  | Nan => None
  | Finite =>
      Some (if flneg x then (0, Above)
            else if flexp x <=? 0 then (0, Below)
            else if flexp x <=? 64 then
              (msb64 (flmant x) / 2 ^ (64 - flexp x), if required_min_precision x <=? flexp x then Exact else Below)
            else (2 ^ 64 - 1, Below))
  | Zero => Some (0, Exact)
  | Inf => Some (if flneg x then (0, Above) else (2 ^ 64 - 1, Below))
  end.
(** float.rs:659-696 [truncate_to_i64]. *)
Definition truncate_to_i64 (x : float) : option (Z * accuracy) :=
  match flform x with
  | Nan => None
  | Finite =>
      let acc := make_accuracy (flneg x) in
      Some (if flexp x <=? 0 then (0, acc)
            else if flexp x <=? 63 then
              let i := msb64 (flmant x) / 2 ^ (64 - flexp x) in
              (if flneg x then - i else i, if required_min_precision x <=? flexp x then Exact else acc)
            else if flneg x then
              (- 2 ^ 63, if (flexp x =? 64) && (required_min_precision x =? 1) then Exact else acc)
            else (2 ^ 63 - 1, Below))
  | Zero => Some (0, Exact)
  | Inf => Some (if flneg x then (- 2 ^ 63, Above) else (2 ^ 63 - 1, Below))
  end.

(** float.rs:698-808 and 810-916, the common text of [to_f32] and [to_f64]:
    [mb] is mbits, [eb] is ebits, [msb] reads the top fbits bits of a
    mantissa.  The result is a bit pattern.  MIN_POSITIVE is the least normal
    number; [neg_min] is the sign of the value returned for a negative operand
    that rounds up to the least positive float (line 742: negative; line 853:
    positive). *)
Definition to_fx (mb eb : Z) (msb : list Z -> Z) (neg_min : bool) (x : float) : res (Z * accuracy) :=
  let sg := fsigned mb eb in
  match flform x with
  | Nan => Ok (fnan mb eb, Exact)
  | Zero => Ok (sg (flneg x) 0, Exact)
  | Inf => Ok (sg (flneg x) (finf mb eb), Exact)
  | Finite =>
      let fbits := mb + eb + 1 in
      let bias := 2 ^ (eb - 1) - 1 in
      let emin := 1 - bias in
      let emax := bias in
      let e := flexp x - 1 in
      let p := if e <? emin then mb + 1 - emin + e else mb + 1 in
      if (e <? emin) && ((p <? 0) || ((p =? 0) && (sticky (flmant x) (mbits (flmant x) - 1) =? 0))) then
        Ok (sg (flneg x) 0, if flneg x then Above else Below)
      else if (e <? emin) && (p =? 0) then
        Ok (sg (flneg x && neg_min) (2 ^ mb), if flneg x then Below else Above)
      else
        do r <- set_float (set_prec fl_default p) x;
        let e := flexp r - 1 in
        if is_infinite (flform r) || (emax <? e) then
          Ok (sg (flneg x) (finf mb eb), if flneg x then Below else Above)
        else
          let '(bexp, mant) :=
            if e <? emin then (0, msb (flmant r) / 2 ^ (fbits - (mb + 1 - emin + e)))
            else ((e + bias) * 2 ^ mb, (msb (flmant r) / 2 ^ eb) mod 2 ^ mb) in
          Ok (Z.lor (Z.lor (if flneg x then 2 ^ (fbits - 1) else 0) bexp) mant, flacc r)
  end.
Definition fl_to_f32 := to_fx 23 8 msb32 true.
Definition fl_to_f64 := to_fx 52 11 msb64 false.
