(** What [Float::from] makes of every integer and every Rat: property C124. *)
From Coq Require Import ZArith QArith Qabs Lqa List Lia Bool.
From Verif Require Import Words Spec WordsFacts NatModel NatFacts NatFacts2
  BigInt SpecInt BigIntFacts Rat SpecRat RatFacts
  Float SpecFloat FloatFacts FloatFacts4 FloatFacts6 FloatFacts7 FromRatFacts Properties_Float Properties_Total Properties_Total2.
Import ListNotations.
Open Scope Z_scope.

(** ** C124
    An integer [m] with a sign: exact with max(64, bits) bits of precision, a
    signed zero for 0, infinite from 2 ^ max_exp on. *)
Definition prec_of (m : Z) : Z := Z.max 64 (bits_of m).
Definition integer_as_float (s : bool) (m : Z) (z : float) : Prop :=
  flneg z = s /\ flmode z = ToNearestEven /\ flprec z = prec_of m /\ ok_float z /\
  if m =? 0 then flform z = Zero /\ flacc z = Exact
  else if m <? 2 ^ max_exp then flform z = Finite /\ flacc z = Exact /\ (flvalue z == inject_Z (if s then - m else m))%Q
  else flform z = Inf /\ flacc z = if s then Below else Above.
Lemma log_max m : 0 < m -> (Z.log2 m + 1 <=? max_exp) = (m <? 2 ^ max_exp).
Proof.
  intros M. pose proof (Z.log2_lt_pow2 m max_exp M) as L. generalize dependent (2 ^ max_exp). intros X L. destruct (Z.leb_spec (Z.log2 m + 1) max_exp), (Z.ltb_spec m X); try reflexivity; exfalso; lia.
Qed.
Lemma whole_float s m : 0 <= m -> exists z, fl_from_bigint (BI (of_Z m) s) = Ok z /\ integer_as_float s m z /\
  (0 < m < 2 ^ max_exp -> nval (flmant z) = aligned m /\ flexp z = Z.log2 m + 1).
Proof.
  intros M. unfold fl_from_bigint, set_bigint. cbn [bnat bneg]. destruct (Z.eq_dec m 0) as [->|N].
  - eexists. split; [reflexivity|]. split; [|lia]. unfold integer_as_float, ok_float. cbn [flform flmode flprec flneg flacc]. split; [reflexivity|]. split; [reflexivity|]. split; [reflexivity|]. split; [split; [vm_compute; discriminate|discriminate]|]. split; reflexivity.
  - destruct (nat_float m s ltac:(lia)) as (v & E & NM & NV & MB). rewrite E. eexists. split; [reflexivity|]. rewrite log_max in * by lia.
    unfold integer_as_float, prec_of, bits_of. destruct (Z.eqb_spec m 0); [lia|].
    assert (P : (if m <? 2 ^ max_exp then m < 2 ^ max_exp else 2 ^ max_exp <= m)) by (destruct (Z.ltb_spec m (2 ^ max_exp)); auto).
    destruct (m <? 2 ^ max_exp); cbn [flneg flmode flprec flform flacc flmant flexp].
    + assert (B : bits_len (of_Z m) <= max_exp). { rewrite bits_len_of_Z_eq by lia. destruct (Z.eqb_spec m 0); [lia|]. pose proof (proj1 (Z.log2_lt_pow2 m max_exp ltac:(lia)) P). lia. }
      destruct (from_nat_exact m s M B) as (z & E' & (OK & _ & V & _) & _). assert (z = FL ToNearestEven Exact Finite s (Z.max (Z.log2 m + 1) 64) (Z.log2 m + 1) v) by congruence. subst z.
      split; [|auto]. split; [reflexivity|]. split; [reflexivity|]. split; [apply Z.max_comm|]. split; [exact OK|]. split; [reflexivity|]. split; [reflexivity|]. rewrite V. destruct s; reflexivity.
    + split; [|lia]. split; [reflexivity|]. split; [reflexivity|]. split; [apply Z.max_comm|]. split; [split; [cbn [flprec]; lia|discriminate]|]. split; [reflexivity|]. destruct s; reflexivity.
Qed.
Theorem C124_integer : forall s m, 0 <= m -> exists z, fl_from_bigint (BI (of_Z m) s) = Ok z /\ integer_as_float s m z.
Proof. intros s m M. destruct (whole_float s m M) as (z & E & I & _). eauto. Qed.

(** The quotient of [m] and [n], both positive and below 2 ^ max_exp, as
    [set_rat] computes it: the integer quotient of the aligned operands, put at
    an exponent that is too small. *)
Definition far_quotient (ng : bool) (m n : Z) (z : float) : Prop :=
  let p := prec_of m in
  let q := aligned m / aligned n in
  let E := Z.log2 m - Z.log2 n - 32 * (p / 32 + 1) in
  let t := 63 - Z.log2 q mod 32 in
  if 0 <? q then
    result_for ToNearestEven p ((fun v => if ng then - v else v) (if (aligned m mod aligned n =? 0) || (32 * (Z.log2 q / 32 + 1) <=? p) then dy q E else dy (q * 2 ^ t + 1) (E - t)))%Q z
  else
    flneg z = ng /\
    if E <? min_exp then flform z = Zero /\ flacc z = make_accuracy ng else flform z = Finite /\ (flvalue z == 0)%Q /\ flacc z = Exact.

(** Every Rat that is not NaN; [s] and [t] are the signs of numerator and
    denominator. *)
Theorem C124_rat : forall s m t n, 0 <= m -> 0 <= n -> exists z, fl_from_rat (mk s m t n) = Ok z /\
  if (m =? 0) || (negb t && (n =? 1)) then integer_as_float s m z
  else if 2 ^ max_exp <=? m then flform z = Nan
  else if n =? 0 then flform z = Inf /\ flneg z = xorb s t
  else if 2 ^ max_exp <=? n then flform z = Zero /\ flneg z = xorb s t
  else far_quotient (xorb s t) m n z.
Proof.
  intros s m t n M N. unfold fl_from_rat, r_is_integer, r_is_nan, mk. cbn [rnum rden].
  assert (NN : forall k u, 0 <= k -> b_is_nan (BI (of_Z k) u) = false) by (intros k u K; unfold b_is_nan; apply is_nan_of_Z; auto).
  rewrite !NN by auto. cbn [orb]. unfold b_eq_u32. cbn [bnat bneg]. rewrite !of_Z_eq_u32 by lia.
  destruct (whole_float s m M) as (x & EX & IX & WX). destruct (whole_float t n N) as (y & EY & IY & WY).
  destruct ((m =? 0) || (negb t && (n =? 1))) eqn:D; [eauto|]. apply orb_false_iff in D. destruct D as [D1 D2]. apply Z.eqb_neq in D1.
  rewrite EX, EY. cbn [bind]. destruct IX as (NX & MX & PX & OX & FX). destruct IY as (NY & MY & PY & OY & FY).
  destruct (C117_div x y OX OY) as (z & EZ & SZ).
  assert (NNX : flform x <> Nan) by (destruct (m =? 0); [destruct FX; congruence|]; destruct (m <? 2 ^ max_exp); destruct FX; congruence).
  assert (NNY : flform y <> Nan) by (destruct (n =? 0); [destruct FY; congruence|]; destruct (n <? 2 ^ max_exp); destruct FY; congruence).
  assert (EA : fl_op2_assign fl_div_inner x y = Ok z).
  { unfold fl_div, fl_op2 in EZ. unfold fl_op2_assign. destruct (flform x), (flform y); cbn [is_fnan orb] in *; congruence. }
  exists z. split; [exact EA|]. clear EZ EA. destruct (Z.eqb_spec m 0); [lia|]. rewrite (Z.leb_antisym m), (Z.leb_antisym n).
  destruct (Z.ltb_spec m (2 ^ max_exp)) as [LM|LM]; cbn [negb].
  2:{ destruct FX as [FX _]. rewrite FX in SZ. destruct (flform y); try (exfalso; apply NNY; reflexivity); apply SZ. }
  destruct FX as (FX & _ & _). rewrite FX in SZ. destruct (Z.eqb_spec n 0) as [E0|N0].
  { destruct FY as [FY _]. rewrite FY in SZ. destruct SZ as (S1 & _ & _ & _ & S5). rewrite <- NX, <- NY. split; [exact S1|]. apply S5. discriminate. }
  destruct (Z.ltb_spec n (2 ^ max_exp)) as [LN|LN]; cbn [negb].
  2:{ destruct FY as [FY _]. rewrite FY in SZ. destruct SZ as (S1 & _ & _ & _ & S5). rewrite <- NX, <- NY. split; [exact S1|]. apply S5. discriminate. }
  destruct FY as (FY & _ & _). rewrite FY in SZ. destruct (WX ltac:(lia)) as (WX1 & WX2). destruct (WY ltac:(lia)) as (WY1 & WY2).
  unfold finite_quotient in SZ. unfold far_quotient. rewrite WX1, WX2, WY1, WY2, NX, NY, MX, PX in SZ. cbv zeta in SZ |- *.
  replace (Z.log2 m + 1 - (Z.log2 n + 1)) with (Z.log2 m - Z.log2 n) in SZ by lia.
  destruct (0 <? aligned m / aligned n); [exact SZ|]. destruct SZ as (S1 & S2). split; [exact S1|].
  destruct (Z.ltb_spec (Z.log2 m - Z.log2 n - 32 * (prec_of m / 32 + 1)) min_exp); [exact S2|].
  assert (B : Z.log2 m < max_exp) by (apply (proj1 (Z.log2_lt_pow2 m max_exp ltac:(lia))); exact LM). assert (P64 : 64 <= prec_of m) by (unfold prec_of; lia). assert (0 <= prec_of m / 32) by (apply Z.div_pos; lia). pose proof (Z.log2_nonneg n).
  destruct (Z.ltb_spec max_exp (Z.log2 m - Z.log2 n - 32 * (prec_of m / 32 + 1))); [lia|].
  destruct S2 as (S2 & S3). destruct (Z.leb_spec 32 (prec_of m)); [|lia]. split; [exact S2|exact S3].
Qed.
Theorem C124_nan : forall r, r_is_nan r = true -> exists z, fl_from_rat r = Ok z /\ flform z = Nan.
Proof. intros r H. unfold fl_from_rat, r_is_integer. rewrite H. eexists. split; reflexivity. Qed.
(** The quotient is never the number: [C89_from_rat_refuted].  7/2
    becomes 2 ^ -95. *)
Example C124_case : (exists z, fl_from_rat (mk false 7 false 2) = Ok z /\ (flvalue z == dy 1 (-95))%Q) /\
  (exists z, fl_from_rat (mk true 7 true 1) = Ok z /\ flneg z = false /\ (flvalue z == dy 1 (-94))%Q) /\
  (exists z, fl_from_rat (mk true 0 true 5) = Ok z /\ flform z = Zero /\ flneg z = true).
Proof. split; [|split]; (eexists; split; [vm_compute; reflexivity|]). - vm_compute. reflexivity. - split; vm_compute; reflexivity. - split; reflexivity. Qed.

Print Assumptions C124_integer.
Print Assumptions C124_rat.
Print Assumptions C124_nan.
