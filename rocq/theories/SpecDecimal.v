(** Specification vocabulary for the decimal text of a [Float]. *)
From Coq Require Import ZArith QArith Qabs List Bool.
From Verif Require Import Words Spec Float SpecFloat.
Import ListNotations.
Open Scope Z_scope.

(** m * 10 ^ e. *)
Definition de (m e : Z) : Q := (inject_Z m * Qpower 10 e)%Q.

(** [r] is the multiple of 10 ^ k nearest to [v], the even one in a tie. *)
Definition half_even_at (k : Z) (v r : Q) : Prop :=
  exists D, (r == de D k)%Q /\ (2 * Qabs (r - v) <= de 1 k)%Q /\ ((2 * Qabs (r - v) == de 1 k)%Q -> Z.even D = true).
(** [v > 0] rounded to [n] significant digits; to [n] places after the point. *)
Definition sig_rounded (n : Z) (v r : Q) : Prop :=
  exists k, (de (10 ^ (n - 1)) k <= v < de (10 ^ n) k)%Q /\ half_even_at k v r.
Definition place_rounded (n : Z) (v r : Q) : Prop := half_even_at (- n) v r.

(** [t] is the text d.ddd...e[-]dd with [p] digits after the point, the first
    digit not zero, of the number [r]; [fc] is the letter. *)
Definition sci_text (p fc : Z) (t : list Z) (r : Q) : Prop :=
  exists c cs ds es e (neg : bool),
    t = c :: (if 0 <? p then 46 :: cs else []) ++ fc :: (if neg then [45] else []) ++ es /\
    Z.of_nat (length cs) = p /\ digit_text 10 (c :: cs) ds /\ hd 0 ds <> 0 /\
    digit_text 10 es e /\ (2 <= length es)%nat /\
    (r == de (be_value 10 ds) ((if neg then - be_value 10 e else be_value 10 e) - p))%Q.
(** [t] is the text ddd.ddd with [p] digits after the point and no superfluous
    leading zero, of the number [r]. *)
Definition fix_text (p : Z) (t : list Z) (r : Q) : Prop :=
  exists a b da db,
    t = a ++ (if 0 <? p then 46 :: b else []) /\ Z.of_nat (length b) = p /\
    digit_text 10 a da /\ digit_text 10 b db /\ da <> [] /\ (length da = 1%nat \/ hd 0 da <> 0) /\
    (r == de (be_value 10 (da ++ db)) (- p))%Q.
(** The text with the sign of [x] in front. *)
Definition signed_text (x : float) (P : list Z -> Prop) (t : list Z) : Prop :=
  exists u, t = (if flneg x then [45] else []) ++ u /\ P u.

(** The digits of [n] are not zero except at the end. *)
Definition plain (n : Z) : Prop :=
  exists ds k, digits_ok 10 ds /\ ~ In 0 ds /\ 0 <= k /\ n = be_value 10 ds * 10 ^ k.
(** The value is n / 2 ^ s in lowest terms with [n] plain, and the mantissa in
    memory has not got a whole number of words of superfluous zero bits. *)
Definition printable (x : float) : Prop :=
  exists n s, 0 < n /\ 0 <= s /\ (Qabs (flvalue x) == dy n (- s))%Q /\ (s = 0 \/ Z.odd n = true) /\ plain n /\
    let t := mbits (flmant x) - flexp x - s in t < 32 \/ t mod 32 <> 0.
