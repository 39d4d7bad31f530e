(** The machine floats that rat.rs, float.rs and util.rs use, as bit patterns.

    A float of a format with [mb] mantissa bits and [eb] exponent bits is the
    integer [0 <= b < 2 ^ (mb + eb + 1)] that [to_bits] returns.  This file is
    a model of the processor and of the casts of Rust (IEEE 754, rounding to
    nearest, ties to even), not of the repository; only the last section models
    src/bigint/util.rs.  NaN payloads are not modelled: every NaN result is
    the pattern [fnan]. *)
From Coq Require Import ZArith Bool.
Open Scope Z_scope.

(* ------------------------------------------------------------------ *)
(** * Formats *)
Definition fbias (eb : Z) : Z := 2 ^ (eb - 1) - 1.
(** The exponent of the unit: every finite value is a multiple of 2 ^ funit. *)
Definition funit (mb eb : Z) : Z := 1 - fbias eb - mb.
(** Infinity, and the NaN that [f64::NAN], [f32::NAN] denote. *)
Definition finf (mb eb : Z) : Z := (2 ^ eb - 1) * 2 ^ mb.
Definition fnan (mb eb : Z) : Z := finf mb eb + 2 ^ (mb - 1).
(** Sign bit and magnitude (the pattern without it). *)
Definition fneg_bit (mb eb b : Z) : bool := 2 ^ (mb + eb) <=? b.
Definition fmag (mb eb b : Z) : Z := b mod 2 ^ (mb + eb).
Definition fsigned (mb eb : Z) (s : bool) (k : Z) : Z := if s then k + 2 ^ (mb + eb) else k.
Definition f_is_nan (mb eb b : Z) : bool := finf mb eb <? fmag mb eb b.
Definition f_is_inf (mb eb b : Z) : bool := fmag mb eb b =? finf mb eb.
Definition f_is_zero (mb eb b : Z) : bool := fmag mb eb b =? 0.
(** Negation flips the sign bit. *)
Definition fopp (mb eb b : Z) : Z := fsigned mb eb (negb (fneg_bit mb eb b)) (fmag mb eb b).
(** Significand and exponent of a magnitude: the value is [fsig * 2 ^ fexp]. *)
Definition fsig (mb k : Z) : Z := if k / 2 ^ mb =? 0 then k else k mod 2 ^ mb + 2 ^ mb.
Definition fexp (mb eb k : Z) : Z := Z.max (k / 2 ^ mb) 1 - 1 + funit mb eb.

(** [m / 2 ^ s] to the nearest integer, ties to even. *)
Definition half_even (m s : Z) : Z :=
  let q := m / 2 ^ s in
  let r := m mod 2 ^ s in
  if 2 * r <? 2 ^ s then q
  else if 2 ^ s <? 2 * r then q + 1
  else if Z.even q then q else q + 1.
(** The magnitude nearest to [m * 2 ^ e] (infinity on overflow). *)
Definition fround (mb eb m e : Z) : Z :=
  if m =? 0 then 0
  else
    let s := Z.max (Z.log2 m - mb + e) (funit mb eb) in
    let q := if s <=? e then m * 2 ^ (e - s) else half_even m (s - e) in
    Z.min (q + (s - funit mb eb) * 2 ^ mb) (finf mb eb).

(* ------------------------------------------------------------------ *)
(** * Operations *)
(** Multiplication. *)
Definition fmul (mb eb x y : Z) : Z :=
  let s := negb (eqb (fneg_bit mb eb x) (fneg_bit mb eb y)) in
  let a := fmag mb eb x in
  let b := fmag mb eb y in
  if f_is_nan mb eb x || f_is_nan mb eb y then fnan mb eb
  else if (f_is_inf mb eb x && f_is_zero mb eb y) || (f_is_zero mb eb x && f_is_inf mb eb y) then fnan mb eb
  else if f_is_inf mb eb x || f_is_inf mb eb y then fsigned mb eb s (finf mb eb)
  else fsigned mb eb s (fround mb eb (fsig mb a * fsig mb b) (fexp mb eb a + fexp mb eb b)).
(** [x as f64] for an unsigned integer. *)
Definition f64_of_uint (m : Z) : Z := fround 52 11 m 0.
(** [x as f32] for an f64, [x as f64] for an f32. *)
Definition fcast (mb eb mb' eb' x : Z) : Z :=
  if f_is_nan mb eb x then fnan mb' eb'
  else
    let k := fmag mb eb x in
    fsigned mb' eb' (fneg_bit mb eb x)
      (if f_is_inf mb eb x then finf mb' eb' else fround mb' eb' (fsig mb k) (fexp mb eb k)).
Definition f32_of_f64 := fcast 52 11 23 8.
Definition f64_of_f32 := fcast 23 8 52 11.
(** The f64 [2 ^ k] for a normal exponent. *)
Definition f64_pow2 (k : Z) : Z := (k + 1023) * 2 ^ 52.

(* ------------------------------------------------------------------ *)
(** * src/bigint/util.rs *)

(** util.rs:3-11 [normalize]: the constant is 2 ^ -1022, the factor 2 ^ 52. *)
Definition normalize (x : Z) : Z * Z :=
  if fmag 52 11 x <? 2 ^ 52 then (fmul 52 11 x (f64_pow2 52), -52) else (x, 0).

(** util.rs:46-81 [ldexp]. *)
Definition ldexp (frac e : Z) : Z :=
  if f_is_zero 52 11 frac then frac
  else if f_is_inf 52 11 frac || f_is_nan 52 11 frac then frac
  else
    let '(frac, e0) := normalize frac in
    let exp := e + e0 + (Z.land (frac / 2 ^ 52) 2047 - 1023) in
    if exp <? -1075 then fsigned 52 11 (fneg_bit 52 11 frac) 0
    else if 1023 <? exp then fsigned 52 11 (fneg_bit 52 11 frac) (finf 52 11)
    else
      let '(exp, m) := if exp <? -1022 then (exp + 53, f64_pow2 (-53)) else (exp, f64_pow2 0) in
      let x := Z.ldiff frac (2047 * 2 ^ 52) in
      let x := Z.lor x ((exp + 1023) * 2 ^ 52) in
      fmul 52 11 m x.

(** util.rs:22-37 [frexp]. *)
Definition frexp (f : Z) : Z * Z :=
  if f_is_zero 52 11 f then (f, 0)
  else if f_is_inf 52 11 f || f_is_nan 52 11 f then (f, 0)
  else
    let '(f, e) := normalize f in
    let exp := e + (Z.land (f / 2 ^ 52) 2047 - 1023 + 1) in
    (Z.lor (Z.ldiff f (2047 * 2 ^ 52)) (1022 * 2 ^ 52), exp).
