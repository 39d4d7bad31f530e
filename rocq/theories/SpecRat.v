(** Specification vocabulary for [Rat] and for machine floats.  Rational
    numbers are those of the standard library's QArith. *)
From Coq Require Import ZArith QArith List Bool.
From Verif Require Import Words Spec NatConvFacts BigInt SpecInt Ieee Rat.
Import ListNotations.
Open Scope Z_scope.

(** The rational number that [x] denotes: "a.neg determines the sign of the
    Rat, b.neg is ignored" (rat.rs:27). *)
Definition rvalue (x : rat) : Q := bvalue (rnum x) # Z.to_pos (nval (bnat (rden x))).

(** Every Rat that is not NaN is of this form: canonical magnitudes, positive
    denominator.  The sign flags are free: see C47. *)
Definition ok_rat (x : rat) : Prop :=
  canon (bnat (rnum x)) /\ canon (bnat (rden x)) /\ 0 < nval (bnat (rden x)).

(** [x] is a Rat of value [v]. *)
Definition denotes (x : rat) (v : Q) : Prop := ok_rat x /\ (rvalue x == v)%Q.

(** Lowest terms, denominator positive, zero is 0/1. *)
Definition lowest (x : rat) : Prop :=
  bcanon (rnum x) /\ bcanon (rden x) /\ 0 < bvalue (rden x) /\ Z.gcd (bvalue (rnum x)) (bvalue (rden x)) = 1.

(** No sign on a zero numerator. *)
Definition unsigned_zero (x : rat) : Prop := nval (bnat (rnum x)) = 0 -> bneg (rnum x) = false.

(** [s] is a documented text of the integer [n] (see C45): white space around,
    an optional '-', digits or a prefix and digits. *)
Definition int_text (s : list Z) (n : Z) : Prop :=
  exists t base ds, ds <> [] /\ numeral_text t base ds /\
    ((trimmed s t /\ n = be_value base ds) \/
     exists u, trimmed s (45 :: u) /\ trimmed u t /\ n = - be_value base ds).

(* ------------------------------------------------------------------ *)
(** * Machine floats *)

(** The value of a magnitude [k] (a bit pattern without sign) in units of
    2 ^ funit, the smallest positive value.  The formula gives infinity the
    value of the first number too large for the format, which is where
    rounding to nearest starts to yield infinity. *)
Definition funits (mb k : Z) : Z :=
  if k / 2 ^ mb =? 0 then k else (k mod 2 ^ mb + 2 ^ mb) * 2 ^ (k / 2 ^ mb - 1).

(** [k] is the magnitude nearest to [p / q]; of two equally near ones the even
    pattern. *)
Definition nearest (mb eb p q k : Z) : Prop :=
  let dist j := Z.abs (p * 2 ^ (- funit mb eb) - q * funits mb j) in
  0 <= k <= finf mb eb /\
  forall j, 0 <= j <= finf mb eb -> j <> k -> dist k < dist j \/ (dist k = dist j /\ Z.even k = true).

(** The value of a finite float. *)
Definition fvalue (mb eb b : Z) : Q :=
  (if fneg_bit mb eb b then - funits mb (fmag mb eb b) else funits mb (fmag mb eb b))
  # Z.to_pos (2 ^ (- funit mb eb)).
Definition f64_value := fvalue 52 11.
Definition f32_value := fvalue 23 8.
Definition f64_finite (b : Z) : Prop := 0 <= b < 2 ^ 64 /\ fmag 52 11 b < finf 52 11.
Definition f32_finite (b : Z) : Prop := 0 <= b < 2 ^ 32 /\ fmag 23 8 b < finf 23 8.
(** [v] is zero, or at least half the smallest positive float. *)
Definition not_tiny (mb eb : Z) (v : Q) : Prop :=
  Qnum v = 0 \/ Zpos (Qden v) <= Z.abs (Qnum v) * 2 ^ (1 - funit mb eb).
