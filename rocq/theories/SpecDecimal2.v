(** What formatting a [Float] shows, for every finite Float (C122). *)
From Coq Require Import ZArith QArith Qabs List Bool.
From Verif Require Import Words Spec Float SpecFloat SpecDecimal.
Import ListNotations.
Open Scope Z_scope.

(** The whole number whose digits are written, where the mantissa of [l] words
    holds n * 2 ^ t: it is [n], unless [t] is a whole number of words.  Then the
    upper words are dropped in place of the lower ones. *)
Definition written (l n t : Z) : Z :=
  if (32 <=? t) && (t mod 32 =? 0)
  then let k := l - t / 32 in (n * 2 ^ t) mod 2 ^ (32 * k)
  else n.
(** The value shown for [x] is m / 2 ^ s: |x| = n / 2 ^ s in lowest terms, and
    [m] is the number written for [n] with as many of its last digits set to
    zero as there are zeros among all its digits.  [up] tells that nothing is
    divided and the digits that are kept end with a zero. *)
Definition shown (x : float) (m s : Z) (up : bool) : Prop :=
  exists n ds, 0 < n /\ 0 <= s /\ (Qabs (flvalue x) == dy n (- s))%Q /\ (s = 0 \/ Z.odd n = true) /\
    let w := written (Z.of_nat (length (flmant x))) n (mbits (flmant x) - flexp x - s) in
    is_numeral (fun d => d) 10 ds w /\
    let p := 10 ^ Z.of_nat (count_occ Z.eq_dec ds 0) in
    m = w / p * p /\ up = (s =? 0) && (m mod (10 * p) =? 0).

(** [r] is the multiple of 10 ^ k nearest to [v], the larger one in a tie. *)
Definition half_up_at (k : Z) (v r : Q) : Prop :=
  exists D, (r == de D k)%Q /\ (2 * (v - r) < de 1 k)%Q /\ (2 * (r - v) <= de 1 k)%Q.
(** [v > 0] rounded to [n] significant digits: ties up, or to even. *)
Definition sig_rounded_by (up : bool) (n : Z) (v r : Q) : Prop :=
  exists k, (de (10 ^ (n - 1)) k <= v < de (10 ^ n) k)%Q /\ (if up then half_up_at k v r else half_even_at k v r).
(** [o] is what [{}] does when the number to be shown with [p] places behind
    the point is [r]: where overflow is checked a number below 1/10 panics. *)
Definition shown_text (checks : bool) (x : float) (p : Z) (o : res (list Z)) (r : Q) : Prop :=
  (checks = true /\ (0 < r < 1 # 10)%Q /\ o = Panic) \/
  ((checks = false \/ (r == 0)%Q \/ (1 # 10 <= r)%Q) /\ exists t, o = Ok t /\ signed_text x (fun u => fix_text p u r) t).
