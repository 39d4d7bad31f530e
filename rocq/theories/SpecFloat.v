(** Specification vocabulary for [Float]: values are rational numbers, and
    rounding is defined by what the result is among the numbers with a mantissa
    of [p] bits, not by how it is computed. *)
From Coq Require Import ZArith QArith Qabs Qround List Bool.
From Verif Require Import Words Spec Ieee Float.
Import ListNotations.
Open Scope Z_scope.

(** m * 2 ^ e. *)
Definition dy (m e : Z) : Q := (inject_Z m * Qpower 2 e)%Q.

(** The value of a finite Float: 0.mantissa * 2 ^ exponent with sign; zero for a
    zero.  Infinities and NaN have no value. *)
Definition flvalue (x : float) : Q :=
  match flform x with
  | Finite => dy (if flneg x then - nval (flmant x) else nval (flmant x)) (flexp x - mbits (flmant x))
  | _ => 0
  end.

(** The numbers with a mantissa of at most [p] bits. *)
Definition representable (p : Z) (v : Q) : Prop := exists m e, Z.abs m < 2 ^ p /\ (v == dy m e)%Q.

(** The representation of a nonzero finite Float (float_para.rs:29-44): the
    mantissa is normalised and fits in [prec] bits. *)
Definition normal_mant (m : list Z) : Prop := canon m /\ 2 ^ (mbits m - 1) <= nval m.
Definition ok_float (x : float) : Prop :=
  0 <= flprec x /\
  (flform x = Finite ->
     0 < flprec x /\ normal_mant (flmant x) /\ min_exp <= flexp x <= max_exp /\
     representable (flprec x) (flvalue x) /\ mbits (flmant x) < flprec x + 32).

(** The largest representable number not above [v], the smallest not below. *)
Definition is_below (p : Z) (v d : Q) : Prop :=
  representable p d /\ (d <= v)%Q /\ forall s, representable p s -> (s <= v)%Q -> (s <= d)%Q.
Definition is_above (p : Z) (v u : Q) : Prop :=
  representable p u /\ (v <= u)%Q /\ forall s, representable p s -> (v <= s)%Q -> (u <= s)%Q.
(** [r] is an even multiple of the unit in the last of [p] mantissa bits of [v]. *)
Definition even_mant (p : Z) (v r : Q) : Prop :=
  exists m e, (dy (2 ^ (p - 1)) e <= Qabs v < dy (2 ^ p) e)%Q /\ Z.even m = true /\ (r == dy m e)%Q.
Definition is_nearest (p : Z) (v r : Q) : Prop :=
  representable p r /\ forall s, representable p s -> (Qabs (r - v) <= Qabs (s - v))%Q.
Definition is_tie (p : Z) (v r : Q) : Prop :=
  exists s, representable p s /\ ~ (s == r)%Q /\ (Qabs (r - v) == Qabs (s - v))%Q.

(** [r] is [v] rounded to [p] bits. *)
Definition rounded (m : rmode) (p : Z) (v r : Q) : Prop :=
  match m with
  | ToNearestEven => is_nearest p v r /\ (is_tie p v r -> even_mant p v r)
  | ToNearestAway => is_nearest p v r /\ (is_tie p v r -> (Qabs v <= Qabs r)%Q)
  | ToZero => ((0 <= v)%Q -> is_below p v r) /\ ((v <= 0)%Q -> is_above p v r)
  | AwayFromZero => ((0 <= v)%Q -> is_above p v r) /\ ((v <= 0)%Q -> is_below p v r)
  | ToNegativeInf => is_below p v r
  | ToPositiveInf => is_above p v r
  end.

(** The accuracy that belongs to the result [r] for the exact value [v]. *)
Definition acc_of (r v : Q) : accuracy :=
  match (r ?= v)%Q with Lt => Below | Eq => Exact | Gt => Above end.

(** [z] is the Float for the exact value [v], not zero, at precision [p] and
    mode [m]: rounded, or infinite when the rounded value has an exponent above
    the largest, or zero when the exponent of [v] is below the least. *)
Definition result_for (m : rmode) (p : Z) (v : Q) (z : float) : Prop :=
  ok_float z /\ flmode z = m /\ flprec z = p /\ (flneg z = true <-> (v < 0)%Q) /\
  match flform z with
  | Finite => rounded m p v (flvalue z) /\ flacc z = acc_of (flvalue z) v
  | Inf => (exists r, rounded m p v r /\ (dy 1 max_exp <= Qabs r)%Q) /\ flacc z = make_accuracy (negb (flneg z))
  | Zero => (Qabs v < dy 1 (min_exp - 1))%Q /\ flacc z = make_accuracy (flneg z)
  | Nan => False
  end.

(** The extended numbers in which Floats are compared; NaN has none. *)
Inductive ext : Set := MInf | Val (v : Q) | PInf.
Definition flext (x : float) : option ext :=
  match flform x with
  | Nan => None
  | Inf => Some (if flneg x then MInf else PInf)
  | _ => Some (Val (flvalue x))
  end.
Definition ext_compare (a b : ext) : comparison :=
  match a, b with
  | MInf, MInf | PInf, PInf => Eq
  | MInf, _ | _, PInf => Lt
  | _, MInf | PInf, _ => Gt
  | Val v, Val w => (v ?= w)%Q
  end.

(** [t] is [v] without its fraction. *)
Definition is_trunc (v : Q) (t : Z) : Prop := ((0 <= v)%Q -> t = Qfloor v) /\ ((v <= 0)%Q -> t = Qceiling v).
Definition clamp (lo hi n : Z) : Z := Z.max lo (Z.min hi n).

(** The sign of an exact zero sum: minus only when rounding towards minus infinity. *)
Definition toward_minus (m : rmode) : bool := match m with ToNegativeInf => true | _ => false end.
