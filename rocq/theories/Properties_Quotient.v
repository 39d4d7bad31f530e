(** What Float division returns (C55), given exactly: C55_div_refuted says that
    no finite quotient is right, these theorems say which number comes back. *)
From Coq Require Import ZArith QArith Qabs Lia Bool List.
From Verif Require Import Words Spec WordsFacts NatModel NatConv Ieee Rat Float SpecFloat FloatFacts FloatFacts2 FloatFacts3 FloatFacts4
  FloatFacts11 Properties_Float.
Import ListNotations.
Open Scope Z_scope.

(** With the mantissas taken as integers [m] and [k], [q] their quotient without
    the fraction and [r] the remainder, the result stands for q * 2 ^ E, with [E]
    not depending on the lengths of the mantissas.  It is rounded as the value
    q * 2 ^ E itself, the remainder being forgotten, unless the words of [q] hold
    more bits than the precision; only then the value rounded is a trace above. *)
Theorem C55_returned_value : forall x y, ok_float x -> ok_float y -> flform x = Finite -> flform y = Finite ->
  let m := nval (flmant x) in let k := nval (flmant y) in
  let q := m / k in let r := m mod k in
  let E := flexp x - flexp y - 32 * (flprec x / 32 + 1) in
  let sign v := if xorb (flneg x) (flneg y) then (- v)%Q else v in
  let qbits := 32 * (Z.log2 q / 32 + 1) in
  let t := 63 - Z.log2 q mod 32 in
  0 < q ->
  exists z, fl_div x y = Ok z /\
    (r = 0 \/ qbits <= flprec x -> result_for (flmode x) (flprec x) (sign (dy q E)) z) /\
    (r <> 0 -> flprec x < qbits -> result_for (flmode x) (flprec x) (sign (dy (q * 2 ^ t + 1) (E - t))) z).
Proof.
  intros x y OX OY FX FY m k q r E sign qbits t QP. destruct (div_exact x y OX OY FX FY QP) as (z & Z1 & Z2 & Z3).
  exists z. split; [exact Z1|]. assert (T : 32 + (31 - Z.log2 q mod 32) = t) by (unfold t; lia).
  fold m k in Z3. fold q in Z3. rewrite T in Z3. split; [exact Z2|exact Z3].
Qed.

(** A mantissa below that of the divisor: the result is zero in a Float of the
    form Finite, marked Exact, at every precision of at least 32 bits; below
    that, zero or one unit, by the mode.  Out of the exponent range the result is
    a zero or an infinity. *)
Theorem C55_returned_zero : forall x y, ok_float x -> ok_float y -> flform x = Finite -> flform y = Finite ->
  nval (flmant x) < nval (flmant y) ->
  let E := flexp x - flexp y - 32 * (flprec x / 32 + 1) in
  let ng := xorb (flneg x) (flneg y) in
  exists z, fl_div x y = Ok z /\ flneg z = ng /\
    (E < min_exp -> flform z = Zero /\ flacc z = make_accuracy ng) /\
    (max_exp < E -> flform z = Inf /\ flacc z = make_accuracy (negb ng)) /\
    (min_exp <= E <= max_exp -> flform z = Finite /\
      (32 <= flprec x -> (flvalue z == 0)%Q /\ flacc z = Exact) /\
      (flprec x < 32 ->
         let up := match flmode x with AwayFromZero => true | ToPositiveInf => negb ng | ToNegativeInf => ng | _ => false end in
         (flvalue z == if up then (if ng then - dy 1 (E - flprec x) else dy 1 (E - flprec x)) else 0)%Q /\
         flacc z = make_accuracy (if up then negb ng else ng))).
Proof.
  intros x y OX OY FX FY L E ng.
  assert (QZ : nval (flmant x) / nval (flmant y) = 0).
  { apply Z.div_small. split; [|auto]. apply nval_nonneg, canon_words. destruct (proj2 OX FX) as (_ & N & _). apply N. }
  assert (RG : min_exp <= E <= max_exp \/ ~ min_exp <= E <= max_exp) by lia.
  destruct RG as [RG|RG].
  - destruct (div_small x y OX OY FX FY QZ RG) as (z & A & B & C & D & F & G & H). exists z. split; [auto|]. split; [auto|].
    split; [intros; lia|]. split; [intros; lia|]. intros _. split; [auto|]. split; [auto|]. intros P. destruct (H P) as (H1 & H2).
    split; [exact H1|]. rewrite H2. fold ng. destruct (flmode x), ng; reflexivity.
  - destruct (div_small_range x y OX OY FX FY QZ RG) as (z & A & B & C & D). exists z. split; [auto|]. split; [auto|].
    fold E in B, D. fold ng in D. destruct (Z.ltb_spec E min_exp).
    + split; [intros _; rewrite D; auto|]. split; [intros; unfold min_exp, max_exp in *; lia|]. intros; lia.
    + split; [intros; lia|]. split; [intros _; rewrite D; auto|]. intros; lia.
Qed.

(** 7 / 2 is 2 ^ -95; 1 / 3 is zero; both are marked Exact. *)
Example C55_returned_case :
  (exists z, fl_div (fu 7) (fu 2) = Ok z /\ (flvalue z == dy 1 (-95))%Q /\ flacc z = Exact) /\
  (exists z, fl_div (fu 1) (fu 3) = Ok z /\ (flvalue z == 0)%Q /\ flacc z = Exact /\ flform z = Finite).
Proof. split; (eexists; split; [vm_compute; reflexivity|]); repeat split; vm_compute; reflexivity. Qed.
Print Assumptions C55_returned_value.
Print Assumptions C55_returned_zero.
