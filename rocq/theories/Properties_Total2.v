(** Total descriptions, continued: C114 (products of ranges and binomials),
    C115 (modular powers), C116 (Rats to machine floats), C117 (products and
    quotients of Floats), C118 (Rats from two integers). *)
From Coq Require Import ZArith QArith Qabs Lqa List Lia Bool.
From Verif Require Import Words Spec WordsFacts NatModel NatFacts NatFacts2
  BigInt SpecInt BigIntFacts BigIntFacts3 BigIntFacts4 Properties_BigInt
  Ieee Rat SpecRat SpecExact RatFacts RatFacts2 RatFacts3 Properties_Rat Properties_Exact
  Float SpecFloat FloatFacts FloatFacts3 FloatFacts4 FloatFacts5 FloatFacts6 Properties_Float Properties_FloatOut Properties_Quotient Properties_Total.
Import ListNotations.
Open Scope Z_scope.

(** ** C114
    Without overflow checks [mul_range a b] is the product of all integers from
    [a] to [b] for every pair of machine integers (1 when there is none).  With
    checks it is the same, or a panic, exactly for the ranges that start at the
    least integer and end below zero. *)
Theorem C114_mul_range : forall a b, i64_range a -> i64_range b ->
  exists r, b_mul_range false a b = Ok r /\ is_int r (prod_from a (Z.to_nat (b - a + 1))) /\
    b_mul_range true a b = if (a =? - 2 ^ 63) && (b <? 0) then Panic else Ok r.
Proof.
  intros a b Ha Hb. exists (zint (prod_from a (Z.to_nat (b - a + 1)))).
  split; [apply b_mul_range_spec; auto|]. split; [apply is_int_zint|].
  destruct (Z.eqb_spec a (- 2 ^ 63)) as [E|E], (Z.ltb_spec b 0) as [L|L]; cbn [andb].
  - apply C40_mul_range_panics; auto.
  - apply b_mul_range_spec; auto.
  - apply b_mul_range_spec; unfold i64_range in *; auto; lia.
  - apply b_mul_range_spec; auto.
Qed.
(** [binomial n k] with checks: the same as without, or a panic, exactly when
    [n - k'] or [n - k' + 1] leaves the range, [k'] being the smaller index. *)
Theorem C114_binomial : forall n k, i64_range n -> i64_range k -> n <> -1 \/ k <> - 2 ^ 63 ->
  let d := n - low_index n k in
  exists r, b_binomial false n k = Ok r /\
    (k < 0 -> d < 2 ^ 63 - 1 -> bvalue r = 1) /\
    (0 <= k -> - 2 ^ 63 - 1 <= d < 2 ^ 63 - 1 -> bvalue r * fact (Z.to_nat k) = falling n (Z.to_nat k)) /\
    (d < - 2 ^ 63 - 1 \/ 2 ^ 63 - 1 <= d -> bvalue r = 0) /\
    b_binomial true n k = if (d <? - 2 ^ 63) || (2 ^ 63 - 1 <=? d) then Panic else Ok r.
Proof.
  intros n k Hn Hk NE d. destruct (C40_binomial_values n k Hn Hk NE) as (r & E & A & B & C).
  destruct (C40_binomial_panics n k Hn Hk) as (P & S). fold d in A, B, C, P, S. exists r. split; [exact E|].
  split; [|split; [exact B|split; [exact C|]]].
  - intros K D. apply A; auto. pose proof (low_index_cases n k Hn Hk). unfold d in *. lia.
  - destruct (Z.ltb_spec d (- 2 ^ 63)); [apply P; auto|]. cbn [orb]. destruct (Z.leb_spec (2 ^ 63 - 1) d); [apply P; auto|].
    rewrite S, E by lia. reflexivity.
Qed.
Example C114_case : b_mul_range false (- 2 ^ 63) (- 2 ^ 63) = Ok (zint (- 2 ^ 63)) /\ b_mul_range true (- 2 ^ 63) (- 2 ^ 63) = Panic /\
  b_mul_range true (-4) (-2) = Ok (zint (-24)) /\ b_mul_range true (-4) 9 = Ok (zint 0) /\ b_mul_range true 5 4 = Ok (zint 1) /\
  b_binomial true (-3) 4 = Ok (zint 15) /\ b_binomial true 10 4 = Ok (zint 210) /\ b_binomial true 3 7 = Ok (zint 0).
Proof. vm_compute. repeat split. Qed.
Print Assumptions C114_mul_range.
Print Assumptions C114_binomial.

(** ** C115
    [BigInt::exp] for every base, exponent and modulus in a build without
    overflow checks. *)
Theorem C115_exp : forall x y z a b n, is_int x a -> is_int y b -> is_int z n ->
  exists r v, b_exp false x y z = Ok r /\ is_int r v /\
    (0 <= b -> n = 0 -> v = a ^ b) /\
    (n <> 0 -> 0 <= v < Z.abs n) /\
    (0 <= b -> n <> 0 -> v mod Z.abs n = a ^ b mod Z.abs n) /\
    (b < 0 -> n = 0 -> v = 1) /\
    (b < 0 -> n <> 0 -> (a ^ (- b) * v) mod Z.abs n = ((if (a <? 0) && Z.odd b then -1 else 1) * Z.gcd a n ^ (- b)) mod Z.abs n).
Proof.
  intros x y z a b n Hx Hy Hz. destruct (Z_lt_le_dec b 0) as [B|B].
  - destruct (Z.eq_dec n 0) as [->|N].
    + destruct (C41_exp_zero_modulus_partial false x y z a b Hx Hy Hz B) as (r & E & I). exists r, 1. repeat split; auto; try lia; apply I.
    + destruct (C41_exp_negative x y z a b n Hx Hy Hz B N) as (r & v & E & I & R & C). exists r, v. split; [exact E|]. split; [exact I|].
      split; [lia|]. split; [auto|]. split; [lia|]. split; [lia|]. auto.
  - destruct (C41_exp_partial x y z a b n Hx Hy Hz B) as (r & E & I). exists r, (a ^ b mod Z.abs n). split; [exact E|]. split; [exact I|].
    split; [intros _ ->; apply Zmod_0_r|]. split; [intros; apply Z.mod_pos_bound; lia|]. split; [intros; apply Z.mod_mod; lia|]. split; lia.
Qed.
Example C115_case : b_exp false (zint (-3)) (zint 5) (zint 7) = Ok (zint 2) /\ b_exp false (zint (-2)) (zint (-1)) (zint 5) = Ok (zint 3) /\
  b_exp false (zint 2) (zint (-1)) (zint 4) = Ok (zint 1) /\ b_exp false (zint 7) (zint (-2)) (zint 0) = Ok (zint 1).
Proof. vm_compute. repeat split. Qed.
Print Assumptions C115_exp.

(** ** C116
    [Rat::to_f64] and [to_f32] of every Rat: always the nearest float (so
    [nearest] fixes all bits but the sign, which is that of the numerator).
    The flag says "exact" truthfully except for values that are below half the
    least positive float and not zero, where it says whether the leading bits
    of the quotient were enough. *)
Theorem C116_to_f64 : forall x, ok_rat x -> exists f ex, r_to_f64 x = Ok (f, ex) /\
  fneg_bit 52 11 f = bneg (rnum x) /\
  nearest 52 11 (Z.abs (Qnum (rvalue x))) (Zpos (Qden (rvalue x))) (fmag 52 11 f) /\
  (not_tiny 52 11 (rvalue x) -> (ex = true <-> fmag 52 11 f < finf 52 11 /\ (f64_value f == rvalue x)%Q)) /\
  (~ not_tiny 52 11 (rvalue x) -> fmag 52 11 f = 0 /\ (ex = true <-> fits_bits 53 (rvalue x))).
Proof.
  intros x H. destruct (C51_to_f64_partial x H) as (f & ex & E & S & N & T). destruct (C51_tiny x H) as (Y & _).
  exists f, ex. split; [exact E|]. split; [exact S|]. split; [exact N|]. split; [exact T|].
  intros NT. destruct (Y NT) as (ex' & E' & F'). rewrite E' in E. assert (ex' = ex) as <- by congruence. assert (EF : f = fsigned 52 11 (bneg (rnum x)) 0) by congruence.
  split; [|exact F']. rewrite EF. destruct (bneg (rnum x)); reflexivity.
Qed.
Theorem C116_to_f32 : forall x, ok_rat x ->
  ((rvalue x == 0)%Q -> r_to_f32 x = Panic) /\
  (~ (rvalue x == 0)%Q -> exists f ex, r_to_f32 x = Ok (f, ex) /\
    fneg_bit 23 8 f = bneg (rnum x) /\
    nearest 23 8 (Z.abs (Qnum (rvalue x))) (Zpos (Qden (rvalue x))) (fmag 23 8 f) /\
    (not_tiny 23 8 (rvalue x) -> (ex = true <-> fmag 23 8 f < finf 23 8 /\ (f32_value f == rvalue x)%Q)) /\
    (~ not_tiny 23 8 (rvalue x) -> fmag 23 8 f = 0 /\ (ex = true <-> fits_bits 24 (rvalue x)))).
Proof.
  intros x H. split; [apply C51_to_f32_zero_refuted; auto|]. intros NZ.
  destruct (C51_to_f32_partial x H NZ) as (f & ex & E & S & N & T). destruct (C51_tiny x H) as (_ & Y).
  exists f, ex. split; [exact E|]. split; [exact S|]. split; [exact N|]. split; [exact T|].
  intros NT. destruct (Y NT) as (ex' & E' & F'). rewrite E' in E. assert (ex' = ex) as <- by congruence. assert (EF : f = fsigned 23 8 (bneg (rnum x)) 0) by congruence.
  split; [|exact F']. rewrite EF. destruct (bneg (rnum x)); reflexivity.
Qed.
Example C116_case : r_to_f64 (mk true 1 false 3) = Ok (13823048456275842389, false) /\ r_to_f32 (mk false 5 false 4) = Ok (1067450368, true) /\
  r_to_f32 (mk true 5 false (2 ^ 160)) = Ok (2 ^ 31, true) /\ r_to_f32 (mk false 0 false 1) = Panic.
Proof. vm_compute. repeat split. Qed.
Print Assumptions C116_to_f64.
Print Assumptions C116_to_f32.

(** ** C117
    Products and quotients of any two Floats.  The product is right for every
    pair.  For the quotient of finite operands see C55_returned_value and
    C55_returned_zero, put together here. *)
Definition special (x y : float) (f : form) (z : float) : Prop :=
  flform z = f /\ flacc z = Exact /\ flmode z = flmode x /\ flprec z = left_prec x y /\ (f <> Nan -> flneg z = xorb (flneg x) (flneg y)).
Theorem C117_mul : forall x y, ok_float x -> ok_float y -> exists z, fl_mul x y = Ok z /\
  match flform x, flform y with
  | Nan, _ | _, Nan => z = fl_nan
  | Finite, Finite => result_for (flmode x) (flprec x) (flvalue x * flvalue y) z
  | Zero, Inf | Inf, Zero => special x y Nan z
  | Inf, _ | _, Inf => special x y Inf z
  | Zero, _ | _, Zero => special x y Zero z
  end.
Proof.
  intros x y OX OY. destruct (flform x) eqn:FX, (flform y) eqn:FY;
    try (eexists; split; [unfold fl_mul, fl_op2; rewrite FX, FY; reflexivity|reflexivity]);
    try (apply C54_mul; auto; fail);
    (eexists; split; [unfold fl_mul, fl_op2, fl_mul_inner; rewrite default_keeps; unfold set_neg, set_acc, set_form, set_prec; cbn [flmode flacc flform flneg flprec flexp flmant]; rewrite FX, FY; cbn [is_fnan is_finite is_zero is_infinite andb orb]; reflexivity|]);
    unfold special; cbn [flform flacc flmode flprec flneg]; repeat split; try congruence;
    intros _; destruct (flneg x), (flneg y); reflexivity.
Qed.
Definition finite_quotient (x y : float) (z : float) : Prop :=
  let m := nval (flmant x) in let k := nval (flmant y) in
  let q := m / k in let r := m mod k in
  let E := flexp x - flexp y - 32 * (flprec x / 32 + 1) in
  let ng := xorb (flneg x) (flneg y) in
  let sign v := if ng then (- v)%Q else v in
  let qbits := 32 * (Z.log2 q / 32 + 1) in
  let t := 63 - Z.log2 q mod 32 in
  if 0 <? q then
    result_for (flmode x) (flprec x) (sign (if (r =? 0) || (qbits <=? flprec x) then dy q E else dy (q * 2 ^ t + 1) (E - t))) z
  else
    flneg z = ng /\
    if E <? min_exp then flform z = Zero /\ flacc z = make_accuracy ng
    else if max_exp <? E then flform z = Inf /\ flacc z = make_accuracy (negb ng)
    else flform z = Finite /\
      if 32 <=? flprec x then (flvalue z == 0)%Q /\ flacc z = Exact
      else
        let up := match flmode x with AwayFromZero => true | ToPositiveInf => negb ng | ToNegativeInf => ng | _ => false end in
        (flvalue z == if up then sign (dy 1 (E - flprec x)) else 0)%Q /\ flacc z = make_accuracy (if up then negb ng else ng).
Theorem C117_div : forall x y, ok_float x -> ok_float y -> exists z, fl_div x y = Ok z /\
  match flform x, flform y with
  | Nan, _ | _, Nan => z = fl_nan
  | Finite, Finite => finite_quotient x y z
  | Inf, _ | Zero, Zero => special x y Nan z
  | Zero, _ | _, Inf => special x y Zero z
  | Finite, Zero => special x y Inf z
  end.
Proof.
  intros x y OX OY. destruct (flform x) eqn:FX, (flform y) eqn:FY;
    try (eexists; split; [unfold fl_div, fl_op2; rewrite FX, FY; reflexivity|reflexivity]);
    try ((eexists; split; [unfold fl_div, fl_op2, fl_div_inner; rewrite default_keeps; unfold set_neg, set_acc, set_form, set_prec; cbn [flmode flacc flform flneg flprec flexp flmant]; rewrite FX, FY; cbn [is_fnan is_finite is_zero is_infinite andb orb]; reflexivity|]);
    unfold special; cbn [flform flacc flmode flprec flneg]; repeat split; try congruence;
    intros _; destruct (flneg x), (flneg y); reflexivity).
  assert (M0 : 0 <= nval (flmant x)). { destruct (proj2 OX FX) as (_ & N & _). apply nval_nonneg, canon_words, N. }
  assert (K0 : 0 < nval (flmant y)).
  { destruct (proj2 OY FY) as (_ & N & _). apply normal_nz. exact N. }
  unfold finite_quotient. cbv zeta. destruct (Z.ltb_spec 0 (nval (flmant x) / nval (flmant y))) as [Q|Q].
  - destruct (C55_returned_value x y OX OY FX FY Q) as (z & E & A & B). exists z. split; [exact E|].
    destruct (Z.eqb_spec (nval (flmant x) mod nval (flmant y)) 0) as [R|R]; cbn [orb]; [apply A; auto|].
    destruct (Z.leb_spec (32 * (Z.log2 (nval (flmant x) / nval (flmant y)) / 32 + 1)) (flprec x)); [apply A; auto|apply B; auto].
  - assert (L : nval (flmant x) < nval (flmant y)).
    { destruct (Z_lt_le_dec (nval (flmant x)) (nval (flmant y))) as [L|L]; [exact L|]. exfalso. pose proof (Z.div_le_mono _ _ _ K0 L) as D. rewrite Z.div_same in D by lia. lia. }
    destruct (C55_returned_zero x y OX OY FX FY L) as (z & E & N & A & B & C). exists z. split; [exact E|]. split; [exact N|].
    destruct (Z.ltb_spec (flexp x - flexp y - 32 * (flprec x / 32 + 1)) min_exp) as [L1|L1]; [apply A; exact L1|].
    destruct (Z.ltb_spec max_exp (flexp x - flexp y - 32 * (flprec x / 32 + 1))) as [L2|L2]; [apply B; exact L2|].
    destruct (C ltac:(lia)) as (F & C1 & C2). split; [exact F|].
    destruct (Z.leb_spec 32 (flprec x)); [apply C1; auto|]. apply C2. auto.
Qed.
Example C117_case : (exists z, fl_mul (fp 5 3) (fu 7) = Ok z /\ (flvalue z == 32)%Q /\ flacc z = Below) /\
  (exists z, fl_div (fu 7) (fu 2) = Ok z /\ (flvalue z == dy 1 (-95))%Q /\ flacc z = Exact) /\
  (exists z, fl_div (fu 0) (fl_neg (fu 2)) = Ok z /\ flform z = Zero /\ flneg z = true).
Proof. split; [|split]; (eexists; split; [vm_compute; reflexivity|]); vm_compute; auto. Qed.
Print Assumptions C117_mul.
Print Assumptions C117_div.

(** ** C118
    [Rat::from_frac] of every pair of machine integers in both builds, and of
    every pair of BigInts. *)
Theorem C118_from_frac : forall n d, i64_range n -> i64_range d ->
  (d = 0 -> forall checks, r_from_frac checks n d = Ok None) /\
  (d <> 0 -> exists z, r_from_frac false n d = Ok (Some z) /\
    denotes z (if (n =? - 2 ^ 63) && (d <? 0) then - (inject_Z n / inject_Z d) else inject_Z n / inject_Z d) /\
    r_from_frac true n d = if (d =? - 2 ^ 63) || (n =? - 2 ^ 63) && (d <? 0) then Panic else Ok (Some z)).
Proof.
  intros n d Hn Hd. split; [intros -> c; apply (C72_zero_denominator c n (zint 0) (zint 0)); apply is_int_zint|].
  intros D. destruct (C72_from_frac_exact n d Hn Hd D) as (P & z & E & V). exists z. split; [exact E|]. split; [exact V|].
  destruct ((d =? - 2 ^ 63) || (n =? - 2 ^ 63) && (d <? 0)) eqn:C.
  - apply P. apply orb_true_iff in C. rewrite andb_true_iff, !Z.eqb_eq, Z.ltb_lt in C. exact C.
  - apply orb_false_iff in C. rewrite andb_false_iff, !Z.eqb_neq, Z.ltb_ge in C. destruct C as (C1 & C2).
    rewrite <- E. unfold i64_range in *. unfold r_from_frac.
    destruct (Z.ltb_spec d 0); rewrite !i64_ok by (unfold i64_range; lia); reflexivity.
Qed.
Theorem C118_from_frac_bigint : forall x y a b, is_int x a -> is_int y b ->
  (b = 0 -> r_from_frac_bigint x y = Ok None) /\
  (b <> 0 -> exists z, r_from_frac_bigint x y = Ok (Some z) /\ denotes z (inject_Z a / inject_Z b) /\ (a <> 0 -> lowest z)).
Proof.
  intros x y a b Hx Hy. split; [|apply C72_from_frac_bigint_partial; auto]. intros ->. apply (C72_zero_denominator true 0 x y Hy).
Qed.
Example C118_case : r_from_frac true (-6) (-4) = Ok (Some (mk false 3 false 2)) /\ r_from_frac true 6 (- 2 ^ 63) = Panic /\
  r_from_frac false (- 2 ^ 63) (-1) = Ok (Some (mk true (2 ^ 63) false 1)) /\ r_from_frac false 5 0 = Ok None.
Proof. vm_compute. repeat split. Qed.
Print Assumptions C118_from_frac.
Print Assumptions C118_from_frac_bigint.
