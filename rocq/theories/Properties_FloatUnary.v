(** Sign operations of [Float] (C88) and [From<Rat>] (C89).

    [flext] (SpecFloat.v): the extended number a Float denotes, none for NaN. *)
From Coq Require Import ZArith QArith Qabs Lqa List Lia Bool.
From Verif Require Import Words Spec WordsFacts NatModel NatFacts NatFacts5 BigInt SpecInt BigIntFacts Rat SpecRat RatFacts RatFacts2 RatFacts3 RatFacts4
  Float SpecFloat FloatFacts FloatFacts2 FloatFacts3 FloatFacts4 FloatFacts5 FloatFacts6 FloatFacts7 Properties_Rat Properties_Float DecimalFacts4.
Import ListNotations.
Open Scope Z_scope.

(** ** C88 *)
Lemma neg_value x : (flvalue (fl_neg x) == - flvalue x)%Q.
Proof.
  unfold flvalue. cbn [fl_neg set_neg flform flneg flmant flexp]. destruct (flform x); try reflexivity.
  rewrite dy_opp. destruct (flneg x); cbn [negb]; [rewrite Z.opp_involutive|]; reflexivity.
Qed.
Theorem C88_neg : forall x, ok_float x ->
  ok_float (fl_neg x) /\ flform (fl_neg x) = flform x /\ (flvalue (fl_neg x) == - flvalue x)%Q /\ flneg (fl_neg x) = negb (flneg x) /\
  flprec (fl_neg x) = flprec x /\ flmode (fl_neg x) = flmode x /\ flacc (fl_neg x) = flacc x /\ fl_neg (fl_neg x) = x.
Proof.
  intros x O. split; [apply neg_ok; auto|]. split; [reflexivity|]. split; [apply neg_value|]. split; [reflexivity|]. repeat (split; [reflexivity|]).
  destruct x as [m a f n p e v]. unfold fl_neg, set_neg. cbn. rewrite negb_involutive. reflexivity.
Qed.
Theorem C88_abs : forall x, ok_float x ->
  ok_float (fl_abs x) /\ flform (fl_abs x) = flform x /\ (flvalue (fl_abs x) == Qabs (flvalue x))%Q /\ flneg (fl_abs x) = false /\
  flprec (fl_abs x) = flprec x /\ flmode (fl_abs x) = flmode x /\ flacc (fl_abs x) = flacc x.
Proof.
  intros x O. assert (E : fl_abs x = if flneg x then fl_neg x else x).
  { destruct x as [m a f n p e v]. destruct n; reflexivity. }
  assert (V : (flvalue (fl_abs x) == Qabs (flvalue x))%Q).
  { unfold flvalue. cbn [fl_abs set_neg flform flneg flmant flexp]. destruct (flform x) eqn:F; try reflexivity.
    destruct (ok_finite x O F) as (_ & N). pose proof (nval_nonneg _ (proj1 (proj1 N))). destruct (flneg x).
    - rewrite <- dy_opp, Qabs_opp. symmetry. apply Qabs_pos, dy_nonneg. lia.
    - symmetry. apply Qabs_pos, dy_nonneg. lia. }
  split; [rewrite E; destruct (flneg x); [apply neg_ok|]; auto|]. split; [reflexivity|]. split; [exact V|]. repeat (split; [reflexivity|]). reflexivity.
Qed.
Lemma finite_sign x : ok_float x -> flform x = Finite -> Z.sgn (Qnum (flvalue x)) = (if flneg x then -1 else 1) /\ ~ (flvalue x == 0)%Q.
Proof.
  intros O F. destruct (ok_finite x O F) as (_ & N). pose proof (mag_pos x N) as MP. pose proof (finite_val x F) as FV.
  destruct (flneg x); cbn [sq] in FV.
  - assert (L : (flvalue x < 0)%Q) by lra. split; [|lra]. apply Z.sgn_neg_iff. unfold Qlt in L. cbn [Qnum Qden] in L. lia.
  - assert (L : (0 < flvalue x)%Q) by lra. split; [|lra]. apply Z.sgn_pos_iff. unfold Qlt in L. cbn [Qnum Qden] in L. lia.
Qed.
Theorem C88_signnum : forall x, ok_float x ->
  fl_signnum x = match flext x with None => None | Some MInf => Some (-1) | Some PInf => Some 1 | Some (Val v) => Some (Z.sgn (Qnum v)) end.
Proof.
  intros x O. unfold fl_signnum, flext. destruct (flform x) eqn:F; cbn [is_fnan is_zero]; try reflexivity.
  - unfold flvalue. rewrite F. reflexivity.
  - rewrite (proj1 (finite_sign x O F)). reflexivity.
  - destruct (flneg x); reflexivity.
Qed.
Theorem C88_is_negative : forall x, ok_float x ->
  match flext x with
  | None => fl_is_negative x = None
  | Some MInf => fl_is_negative x = Some true
  | Some PInf => fl_is_negative x = Some false
  | Some (Val v) => exists b, fl_is_negative x = Some b /\ (~ (v == 0)%Q -> (b = true <-> (v < 0)%Q))
  end.
Proof.
  intros x O. unfold fl_is_negative, flext. destruct (flform x) eqn:F; cbn [is_fnan]; try reflexivity; try (destruct (flneg x); reflexivity).
  - exists (flneg x). split; [reflexivity|]. unfold flvalue. rewrite F. intros C. exfalso. apply C. reflexivity.
  - exists (flneg x). split; [reflexivity|]. intros _. destruct (finite_sign x O F) as (S & _).
    destruct (flneg x).
    + apply Z.sgn_neg_iff in S. split; [intros _|auto]. unfold Qlt. cbn [Qnum Qden]. lia.
    + apply Z.sgn_pos_iff in S. split; [discriminate|]. unfold Qlt. cbn [Qnum Qden]. lia.
Qed.
Theorem C88_is_infinite : forall x,
  fl_is_infinite x = match flext x with None => None | Some (Val _) => Some false | _ => Some true end.
Proof. intros x. unfold fl_is_infinite, flext. destruct (flform x); try reflexivity. destruct (flneg x); reflexivity. Qed.
Theorem C88_get_inf : forall neg, ok_float (fl_get_inf neg) /\ flext (fl_get_inf neg) = Some (if neg then MInf else PInf).
Proof. intros neg. split; [|reflexivity]. split; [cbn; lia|discriminate]. Qed.
(** Negation reverses the order. *)
Theorem C88_neg_compare : forall x y, ok_float x -> ok_float y -> fl_cmp (fl_neg x) (fl_neg y) = fl_cmp y x.
Proof.
  intros x y OX OY. rewrite !C57_compare by (auto using neg_ok).
  assert (E : forall z, flext (fl_neg z) = match flext z with None => None | Some MInf => Some PInf | Some PInf => Some MInf | Some (Val _) => Some (Val (flvalue (fl_neg z))) end).
  { intros z. unfold flext. cbn [fl_neg set_neg flform flneg]. destruct (flform z); try reflexivity. destruct (flneg z); reflexivity. }
  assert (V : forall z v, flext z = Some (Val v) -> v = flvalue z).
  { intros z v. unfold flext. destruct (flform z); try congruence. destruct (flneg z); congruence. }
  rewrite !E. destruct (flext x) as [[|v|]|] eqn:EX, (flext y) as [[|w|]|] eqn:EY; try reflexivity. cbn [ext_compare]. f_equal.
  rewrite (V _ _ EX), (V _ _ EY). rewrite (Qcompare_comp _ _ (neg_value x) _ _ (neg_value y)).
  unfold Qcompare, Qopp. cbn [Qnum Qden]. rewrite !Z.mul_opp_l. rewrite Z.compare_antisym, Z.compare_opp. rewrite <- Z.compare_antisym. reflexivity.
Qed.
(** [set_mode] changes the mode and marks the value exact; nothing else. *)
Theorem C88_set_mode : forall x m, ok_float x -> let z := fl_set_mode x m in
  ok_float z /\ flext z = flext x /\ flneg z = flneg x /\ flprec z = flprec x /\ flmode z = m /\ flacc z = Exact.
Proof. intros x m O. cbn zeta. split; [exact O|]. repeat (split; [reflexivity|]). reflexivity. Qed.
Example C88_case : fl_signnum (fl_neg (fu 3)) = Some (-1) /\ (flvalue (fl_abs (fl_neg (fu 3))) == 3)%Q /\ fl_signnum (fl_neg (fu 0)) = Some 0 /\
  fl_is_negative (fl_neg (fu 0)) = Some true /\ fl_signnum (fl_get_inf true) = Some (-1) /\ fl_cmp (fl_neg (fu 3)) (fl_neg (fu 5)) = Some Gt.
Proof. vm_compute. repeat split. Qed.
Print Assumptions C88_neg.
Print Assumptions C88_abs.
Print Assumptions C88_signnum.
Print Assumptions C88_is_negative.
Print Assumptions C88_is_infinite.
Print Assumptions C88_get_inf.
Print Assumptions C88_neg_compare.
Print Assumptions C88_set_mode.

(** ** C89
    Full claim: [Float::from(r)] is the value of [r] when that is an integer,
    its rounding otherwise.  Integers in lowest terms: proved.  Every other
    number comes out too small by a factor of more than 2 ^ 29 (the division of
    C55). *)
Theorem C89_from_rat_integer_partial : forall r n, lowest r -> (rvalue r == inject_Z n)%Q -> Z.abs n < 2 ^ max_exp ->
  exists z, fl_from_rat r = Ok z /\ is_integer_float n z.
Proof.
  intros r n LO V B. destruct (C73_is_integer_partial r LO) as (i & EI & II). assert (i = true) as -> by (apply II; exists n; exact V).
  destruct (lowest_inv r LO) as (s & m & d & Hm & Hd & G & Z0 & ->). rewrite rvalue_mk in V by lia.
  unfold Qeq, inject_Z in V. cbn [Qnum Qden] in V. rewrite Z2Pos.id in V by lia.
  assert (AS : Z.abs (sgv s m) = m) by (unfold sgv; destruct s; lia).
  assert (d = 1). { assert (Dq : (d | m)) by (rewrite <- AS; apply Z.divide_abs_r; exists n; lia).
    apply Z.divide_gcd_iff in Dq; [|lia]. rewrite Z.gcd_comm in Dq. lia. }
  subst d. assert (sgv s m = n) by lia. unfold fl_from_rat. rewrite EI.
  assert (R1 : rnum (mk s m false 1) = zint n).
  { unfold mk, zint. cbn [rnum]. rewrite <- AS. replace (sgv s m) with n by lia. f_equal. destruct (Z.eq_dec m 0) as [M|M]; [rewrite (Z0 M)|]; unfold sgv in *; destruct s; symmetry; try (apply Z.ltb_lt; lia); apply Z.ltb_ge; lia. }
  rewrite R1. apply from_zint. exact B.
Qed.
Theorem C89_from_rat_nan : forall r, r_is_nan r = true -> exists z, fl_from_rat r = Ok z /\ flform z = Nan.
Proof. intros r H. unfold fl_from_rat. rewrite (proj2 (proj1 (C73_nan r)) H). eexists. split; reflexivity. Qed.
Theorem C89_from_rat_refuted : forall a b, a <> 0 -> 0 < b -> ~ (b | a) -> Z.abs a < 2 ^ max_exp -> b < 2 ^ max_exp ->
  exists r, r_from_frac_bigint (zint a) (zint b) = Ok (Some r) /\
    forall z, fl_from_rat r = Ok z -> flform z = Finite -> (dy (2 ^ 29) 0 * Qabs (flvalue z) < Qabs (inject_Z a / inject_Z b))%Q.
Proof.
  intros a b A B ND LA LB. destruct (from_frac_float a b A B LA LB) as (r & E & [(q & z & Q & _)|(_ & D)]).
  - exfalso. apply ND. exists q. exact Q.
  - exists r. split; [exact E|exact D].
Qed.
(** 1/3 becomes zero in fact, and an integer that is not in lowest terms is
    divided, too: 4/2. *)
Theorem C89_third_refuted : exists r z, r_from_frac_bigint (zint 1) (zint 3) = Ok (Some r) /\ fl_from_rat r = Ok z /\ flform z = Finite /\ (flvalue z == 0)%Q.
Proof. eexists. eexists. split; [vm_compute; reflexivity|]. split; [vm_compute; reflexivity|]. split; vm_compute; reflexivity. Qed.
Theorem C89_unreduced_refuted : forall pf, exists r z, r_from_str pf [52; 47; 50] = Ok (Some r) /\ (rvalue r == 2)%Q /\ fl_from_rat r = Ok z /\ flform z = Finite /\
  ~ (flvalue z == 2)%Q.
Proof. intros pf. exists (mk false 4 false 2). eexists. split; [reflexivity|]. split; [reflexivity|]. split; [vm_compute; reflexivity|]. split; [reflexivity|]. vm_compute. discriminate. Qed.
Example C89_case : exists r z, r_from_frac_bigint (zint (-6)) (zint 3) = Ok (Some r) /\ fl_from_rat r = Ok z /\ (flvalue z == -2)%Q.
Proof. eexists. eexists. split; [vm_compute; reflexivity|]. split; [vm_compute; reflexivity|]. vm_compute. reflexivity. Qed.
Print Assumptions C89_from_rat_integer_partial.
Print Assumptions C89_from_rat_nan.
Print Assumptions C89_from_rat_refuted.
Print Assumptions C89_third_refuted.
Print Assumptions C89_unreduced_refuted.
