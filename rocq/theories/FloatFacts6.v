(** The operators on valid Floats: addition, subtraction, multiplication,
    comparison; and how far division is from the quotient. *)
From Coq Require Import ZArith QArith Qabs Qpower Lqa Lia Bool List.
From Verif Require Import Words Spec WordsFacts NatModel NatFacts NatFacts2 NatFacts3 NatFacts4 NatFacts5 NatConvFacts
  VecPrims VecFacts NatConv BigInt BigIntFacts Ieee Rat Float SpecFloat FloatFacts FloatFacts2 FloatFacts3 FloatFacts4 FloatFacts5.
Import ListNotations.
Open Scope Z_scope.

Lemma finite_val x : flform x = Finite -> (flvalue x == sq (flneg x) (mag x))%Q.
Proof. apply flvalue_fin. Qed.
Lemma finite_abs x : flform x = Finite -> normal_mant (flmant x) -> (Qabs (flvalue x) == mag x)%Q.
Proof. intros F N. rewrite finite_val by auto. rewrite sq_abs. apply Qabs_pos, Qlt_le_weak, mag_pos. auto. Qed.
Lemma ok_finite x : ok_float x -> flform x = Finite -> 0 < flprec x /\ normal_mant (flmant x).
Proof. intros (_ & O) F. destruct (O F) as (A & B & _). auto. Qed.
Lemma default_prec_ok x y : 0 < flprec x -> default_prec x y = x.
Proof. intros H. unfold default_prec. destruct (Z.eqb_spec (flprec x) 0); [lia|reflexivity]. Qed.

Section OPS.
Variables x y : float.
Hypothesis OX : ok_float x.
Hypothesis OY : ok_float y.
Hypothesis FX : flform x = Finite.
Hypothesis FY : flform y = Finite.
Let PX := proj1 (ok_finite x OX FX).
Let PY := proj1 (ok_finite y OY FY).
Let NX := proj2 (ok_finite x OX FX).
Let NY := proj2 (ok_finite y OY FY).

Lemma add_unf : fl_add x y = add_finite (eqb (flneg x) (flneg y)) x y.
Proof using PX OX FX FY. unfold fl_add, fl_op2, fl_add_inner. rewrite FX, FY. cbn [is_fnan orb]. rewrite default_prec_ok by auto. rewrite FX. reflexivity. Qed.
Lemma sub_unf : fl_sub x y = add_finite (negb (eqb (flneg x) (flneg y))) x y.
Proof using PX OX FX FY. unfold fl_sub, fl_op2, fl_sub_inner. rewrite FX, FY. cbn [is_fnan orb]. rewrite default_prec_ok by auto. rewrite FX. reflexivity. Qed.

(** [add_finite] for the signed values: [s] is the sum or the difference. *)
Lemma add_finite_spec (same : bool) (s : Q) :
  (s == if same then sq (flneg x) (mag x + mag y) else sq (flneg x) (mag x - mag y))%Q ->
  let big := same = true \/ (mag y < mag x)%Q in
  exists z, add_finite same x y = Ok z /\
    (big -> result_for (flmode x) (flprec x) s z) /\
    (~ big -> ~ (s == 0)%Q -> result_for (flmode y) (flprec y) s z) /\
    ((s == 0)%Q -> zero_result (flmode y) (flprec y) (is_to_negative_inf (flmode y)) z).
Proof using PX PY NX NY OX OY FX FY.
  intros ES. cbv zeta. destruct same.
  - destruct (add_finite_same x y PX NX NY) as (z & Z1 & Z2). exists z. split; [auto|]. split; [|split].
    + intros _. eapply result_wd; [symmetry; exact ES|auto].
    + intros B. exfalso. apply B. auto.
    + intros S0. exfalso. rewrite S0 in ES. pose proof (mag_pos x NX). pose proof (mag_pos y NY).
      destruct (flneg x); cbn [sq] in ES; lra.
  - destruct (Qlt_le_dec (mag y) (mag x)) as [L|L].
    + destruct (add_finite_gt x y PX NX NY L) as (z & Z1 & Z2). exists z. split; [auto|]. split; [|split].
      * intros _. eapply result_wd; [symmetry; exact ES|auto].
      * intros B. exfalso. apply B. auto.
      * intros S0. exfalso. rewrite S0 in ES. destruct (flneg x); cbn [sq] in ES; lra.
    + destruct (Qlt_le_dec (mag x) (mag y)) as [G|G].
      * destruct (add_finite_lt x y PY NX NY G) as (z & Z1 & Z2). exists z. split; [auto|]. split; [|split].
        -- intros [B|B]; [discriminate|lra].
        -- intros _ _. eapply result_wd; [symmetry; exact ES|auto].
        -- intros S0. exfalso. rewrite S0 in ES. destruct (flneg x); cbn [sq] in ES; lra.
      * assert (E : (mag x == mag y)%Q) by lra.
        destruct (add_finite_eq x y NX NY E) as (z & Z1 & Z2). exists z. split; [auto|]. split; [|split].
        -- intros [B|B]; [discriminate|lra].
        -- intros _ N. exfalso. apply N. rewrite ES. destruct (flneg x); cbn [sq]; lra.
        -- auto.
Qed.

Lemma add_spec :
  let s := (flvalue x + flvalue y)%Q in
  let big := flneg x = flneg y \/ (Qabs (flvalue y) < Qabs (flvalue x))%Q in
  exists z, fl_add x y = Ok z /\
    (big -> result_for (flmode x) (flprec x) s z) /\
    (~ big -> ~ (s == 0)%Q -> result_for (flmode y) (flprec y) s z) /\
    ((s == 0)%Q -> zero_result (flmode y) (flprec y) (is_to_negative_inf (flmode y)) z).
Proof using PX PY NX NY OX OY FX FY.
  cbv zeta. rewrite add_unf. destruct (add_finite_spec (eqb (flneg x) (flneg y)) (flvalue x + flvalue y)) as (z & A & B & C & D).
  { rewrite !finite_val by auto. destruct (flneg x), (flneg y); cbn [eqb sq]; ring. }
  exists z. split; [auto|]. rewrite eqb_true_iff in *. rewrite !finite_abs by auto. auto.
Qed.
Lemma sub_spec :
  let s := (flvalue x - flvalue y)%Q in
  let big := flneg x <> flneg y \/ (Qabs (flvalue y) < Qabs (flvalue x))%Q in
  exists z, fl_sub x y = Ok z /\
    (big -> result_for (flmode x) (flprec x) s z) /\
    (~ big -> ~ (s == 0)%Q -> result_for (flmode y) (flprec y) s z) /\
    ((s == 0)%Q -> zero_result (flmode y) (flprec y) (is_to_negative_inf (flmode y)) z).
Proof using PX PY NX NY OX OY FX FY.
  cbv zeta. rewrite sub_unf. destruct (add_finite_spec (negb (eqb (flneg x) (flneg y))) (flvalue x - flvalue y)) as (z & A & B & C & D).
  { rewrite !finite_val by auto. destruct (flneg x), (flneg y); cbn [eqb negb sq]; ring. }
  exists z. split; [auto|]. rewrite negb_true_iff, eqb_false_iff in *. rewrite !finite_abs by auto. auto.
Qed.
Lemma mul_spec : exists z, fl_mul x y = Ok z /\ result_for (flmode x) (flprec x) (flvalue x * flvalue y) z.
Proof using PX PY NX NY OX OY FX FY.
  unfold fl_mul, fl_op2, fl_mul_inner. rewrite FX, FY. cbn [is_fnan orb]. rewrite default_prec_ok by auto.
  cbn [set_neg flform]. rewrite FX. cbn [is_finite andb].
  destruct (umul_spec (set_neg x (negb (eqb (flneg x) (flneg y)))) y PX NX NY) as (z & A & B). exists z. split; [auto|].
  eapply result_wd; [|exact B]. rewrite !finite_val by auto.
  change (mag (set_neg x (negb (eqb (flneg x) (flneg y))))) with (mag x).
  change (flneg (set_neg x (negb (eqb (flneg x) (flneg y))))) with (negb (eqb (flneg x) (flneg y))).
  destruct (flneg x), (flneg y); cbn [eqb negb sq]; ring.
Qed.
End OPS.

(** * Comparison *)
Lemma cmpz_opp a b : cmpz (- a ?= - b)%Q = cmpz (b ?= a)%Q.
Proof.
  destruct (Qlt_le_dec b a) as [L|L].
  - rewrite (proj1 (Qlt_alt _ _) L). rewrite (proj1 (Qlt_alt (- a) (- b))) by lra. reflexivity.
  - destruct (Qlt_le_dec a b) as [G|G].
    + rewrite (proj1 (Qgt_alt _ _) G). rewrite (proj1 (Qgt_alt (- a) (- b))) by lra. reflexivity.
    + rewrite (proj1 (Qeq_alt (- a) (- b))), (proj1 (Qeq_alt b a)) by lra. reflexivity.
Qed.
Lemma cmp_of_cmpz c : (if 0 <? cmpz c then Gt else if cmpz c <? 0 then Lt else Eq) = c.
Proof. destruct c; reflexivity. Qed.

Lemma cmp_spec x y : ok_float x -> ok_float y ->
  fl_cmp x y = match flext x, flext y with Some a, Some b => Some (ext_compare a b) | _, _ => None end.
Proof.
  intros OX OY. unfold fl_cmp, fl_cmp_inner, fl_ord, flext.
  assert (NZ : forall z, ok_float z -> flform z = Finite -> (0 < mag z)%Q) by (intros z O F; apply mag_pos, (ok_finite z O F)).
  assert (VZ : forall z, flform z = Zero -> flvalue z = 0%Q) by (intros z F; unfold flvalue; rewrite F; reflexivity).
  destruct (flform x) eqn:FX, (flform y) eqn:FY; try (destruct (flneg x), (flneg y); reflexivity); try (destruct (flneg x); reflexivity).
  - (* 0, 0 *) rewrite (VZ x), (VZ y) by auto. destruct (flneg x), (flneg y); reflexivity.
  - (* 0, finite *) rewrite (VZ x) by auto. specialize (NZ y OY FY).
    cbn [ext_compare]. rewrite (Qcompare_comp 0%Q 0%Q (Qeq_refl 0%Q) _ _ (finite_val y FY)).
    destruct (flneg y); cbn [sq].
    + rewrite (proj1 (Qgt_alt 0%Q (- mag y)%Q)) by lra. destruct (flneg x); reflexivity.
    + rewrite (proj1 (Qlt_alt 0%Q (mag y)%Q)) by lra. destruct (flneg x); reflexivity.
  - rewrite (VZ y) by auto. specialize (NZ x OX FX).
    cbn [ext_compare]. rewrite (Qcompare_comp _ _ (finite_val x FX) 0%Q 0%Q (Qeq_refl 0%Q)).
    destruct (flneg x); cbn [sq].
    + rewrite (proj1 (Qlt_alt (- mag x)%Q 0%Q)) by lra. destruct (flneg y); reflexivity.
    + rewrite (proj1 (Qgt_alt (mag x)%Q 0%Q)) by lra. destruct (flneg y); reflexivity.
  - cbn [ext_compare]. rewrite (Qcompare_comp _ _ (finite_val x FX) _ _ (finite_val y FY)).
    pose proof (NZ x OX FX). pose proof (NZ y OY FY).
    destruct (ok_finite x OX FX) as (_ & NX). destruct (ok_finite y OY FY) as (_ & NY).
    destruct (flneg x), (flneg y); cbn [sq].
    + transitivity (Some (if 0 <? ucmp y x then Gt else if ucmp y x <? 0 then Lt else Eq)); [reflexivity|]. rewrite ucmp_spec by auto. rewrite <- cmpz_opp, cmp_of_cmpz. reflexivity.
    + rewrite (proj1 (Qlt_alt (- mag x)%Q (mag y)%Q)) by lra. reflexivity.
    + rewrite (proj1 (Qgt_alt (mag x)%Q (- mag y)%Q)) by lra. reflexivity.
    + transitivity (Some (if 0 <? ucmp x y then Gt else if ucmp x y <? 0 then Lt else Eq)); [reflexivity|]. rewrite ucmp_spec by auto. rewrite cmp_of_cmpz. reflexivity.
Qed.

(** * Division *)
(** Whatever [fl_round] does, the result is below 2 ^ (exponent + 1). *)
Lemma upd_ok lsb v v' : 0 < lsb -> words_ok v -> upd_first (fun w => w - w mod lsb) v = Ok v' -> words_ok v'.
Proof.
  intros P H E. destruct v as [|w v]; [discriminate|]. injection E as <-. apply words_ok_cons in H as (B & H).
  apply words_ok_cons. split; [|auto]. pose proof (Z.mod_pos_bound w lsb P). pose proof (Z.mod_le w lsb ltac:(lia) P). lia.
Qed.
Lemma set_last_ok v w : words_ok v -> 0 <= w < W -> words_ok (set_last v w).
Proof.
  intros H B. unfold set_last. destruct v as [|a v]; [constructor|].
  apply words_ok_app. split; [apply words_ok_removelast; auto|]. apply words_ok_cons. split; [auto|constructor].
Qed.

Lemma lor_bound a b : 0 <= a < W -> 0 <= b < W -> 0 <= Z.lor a b < W.
Proof.
  intros HA HB. assert (P : 0 <= Z.lor a b) by (apply Z.lor_nonneg; lia). split; [auto|].
  destruct (Z.eq_dec (Z.lor a b) 0) as [->|N]; [lia|]. change W with (2 ^ 32). apply Z.log2_lt_pow2; [lia|].
  rewrite Z.log2_lor by lia. apply Z.max_lub_lt.
  - destruct (Z.eq_dec a 0) as [->|]; [cbn; lia|]. apply Z.log2_lt_pow2; [lia|]. change (2 ^ 32) with W. lia.
  - destruct (Z.eq_dec b 0) as [->|]; [cbn; lia|]. apply Z.log2_lt_pow2; [lia|]. change (2 ^ 32) with W. lia.
Qed.

Lemma fl_round_bound x sb z : words_ok (flmant x) -> 0 < flprec x -> fl_round x sb = Ok z -> 
  words_ok (flmant z) /\ flexp z <= flexp x + 1.
Proof.
  intros Hw HP. destruct x as [mo ac fo ng p e m]. flds.
  unfold fl_round, set_acc, set_mant, set_exp, set_form. flds.
  destruct (negb (is_finite fo)); [intros E; injection E as <-; flds; split; [auto|lia]|].
  destruct (Z.leb_spec (mbits m) p) as [|GT]; [intros E; injection E as <-; flds; split; [auto|lia]|].
  destruct (is_set_bit m (mbits m - p - 1)) as [b| |]; cbn [bind]; [|discriminate|discriminate].
  set (rb := match b with Some true => true | _ => false end).
  set (sb' := negb (Z.land _ 1 =? 0)). clearbody sb'.
  set (n := (p + 31) / 32).
  set (m1 := if n <? Z.of_nat (length m) then skipn _ m else m).
  assert (H1 : words_ok m1) by (unfold m1; destruct (n <? Z.of_nat (length m)); [apply words_ok_skipn|]; auto).
  clearbody m1.
  assert (TB : 0 <= 32 * n - p < 32).
  { unfold n. pose proof (Z.div_mod (p + 31) 32 ltac:(lia)). pose proof (Z.mod_pos_bound (p + 31) 32 ltac:(lia)). lia. }
  set (t := 32 * n - p) in *. pose proof (pow2_pos t ltac:(lia)) as PT.
  assert (TW : 2 ^ t < W) by (change W with (2 ^ 32); apply Z.pow_lt_mono_r; lia).
  assert (FIN : forall ac' fo' e' v, words_ok v -> e' <= e + 1 ->
     (do v' <- upd_first (fun w => w - w mod 2 ^ t) v; Ok (FL mo ac' fo' ng p e' v')) = Ok z -> words_ok (flmant z) /\ flexp z <= e + 1).
  { intros ac' fo' e' v V E'. destruct (upd_first (fun w => w - w mod 2 ^ t) v) as [v'| |] eqn:U; cbn [bind]; [|discriminate|discriminate].
    intros E. injection E as <-. flds. split; [|auto]. eapply upd_ok; [|exact V|exact U]. auto. }
  destruct (rb || sb'); [|apply FIN; [auto|lia]].
  match goal with |- context [if ?c then match m1 with _ => _ end else Ok false] => destruct (if c then match m1 with [] => Panic | w :: _ => Ok (negb (Z.land w (2 ^ t) =? 0)) end else Ok false) as [od| |] end; cbn [bind]; [|discriminate|discriminate].
  destruct (round_inc mo ng rb sb' od); [|apply FIN; [auto|lia]].
  pose proof (add_vw_spec m1 (2 ^ t) H1 ltac:(lia)) as (_ & A2 & _). destruct (add_vw m1 (2 ^ t)) as [v c]. cbn [fst] in A2.
  destruct (negb (c =? 0)); [|apply FIN; [auto|lia]].
  destruct (max_exp <=? e); [intros E; injection E as <-; flds; split; [auto|lia]|].
  apply FIN; [|lia]. pose proof (shr_vu_spec v 1 A2 ltac:(lia)) as (_ & _ & S3 & _). set (u := fst (shr_vu v 1)) in *.
  apply set_last_ok; [auto|]. pose proof (words_ok_last u S3). apply lor_bound; [auto|]. change W with (2 * 2 ^ 31). lia.
Qed.

Lemma mag_bound z : words_ok (flmant z) -> (mag z < dy 1 (flexp z))%Q.
Proof.
  intros H. unfold mag. pose proof (nval_bound _ H) as B. rewrite Wp_pow2 in B. fold (mbits (flmant z)) in B.
  rewrite (dy_shift 1 (flexp z) (mbits (flmant z))) by (unfold mbits; lia). apply dy_lt. lia.
Qed.

Lemma fin_abs z : flform z = Finite -> words_ok (flmant z) -> (Qabs (flvalue z) == mag z)%Q.
Proof. intros F H. rewrite finite_val by auto. rewrite sq_abs. apply Qabs_pos, dy_nonneg, nval_nonneg. auto. Qed.

Lemma ser_bound x e sb z : words_ok (flmant x) -> 0 < flprec x -> set_exp_and_round x e sb = Ok z -> flform z = Finite ->
  (Qabs (flvalue z) < dy 1 (e + 1))%Q.
Proof.
  intros H P. unfold set_exp_and_round. destruct (e <? min_exp); [intros E; injection E as <-; discriminate|].
  destruct (max_exp <? e); [intros E; injection E as <-; discriminate|]. intros E F.
  destruct (fl_round_bound (set_exp (set_form x Finite) e) sb z H P E) as (A & B). cbn [set_exp flexp] in B.
  rewrite fin_abs by auto. apply Qlt_le_trans with (dy 1 (flexp z)); [apply mag_bound; auto|].
  rewrite (dy_to 1 (e + 1) (flexp z)) by auto. apply dy_le. pose proof (pow2_pos (e + 1 - flexp z) ltac:(lia)). lia.
Qed.

Lemma div_far x y z : ok_float x -> ok_float y -> flform x = Finite -> flform y = Finite ->
  fl_div x y = Ok z -> flform z = Finite ->
  (dy (2 ^ 29) 0 * Qabs (flvalue z) < Qabs (flvalue x / flvalue y))%Q.
Proof.
  intros OX OY FX FY E FZ. destruct (ok_finite x OX FX) as (PX & NX). destruct (ok_finite y OY FY) as (PY & NY).
  assert (MBX : mbits (flmant x) < flprec x + 32) by (destruct OX as (_ & O); apply (O FX)).
  revert E. unfold fl_div, fl_op2, fl_div_inner. rewrite FX, FY. cbn [is_fnan orb]. rewrite default_prec_ok by auto.
  cbn [set_neg flform]. rewrite FX. cbn [is_finite andb]. unfold uquo. cbn [set_neg flprec flmant flexp].
  destruct (normal_pos _ NX) as (WX & LX & BX). destruct (normal_pos _ NY) as (WY & LY & BY).
  pose proof (proj1 NX) as CX. pose proof (proj1 NY) as CY. pose proof (normal_nz _ NX) as VX. pose proof (normal_nz _ NY) as VY.
  set (n := flprec x / 32 + 1).
  assert (NB : Z.of_nat (length (flmant x)) <= n).
  { unfold n. unfold mbits in MBX. pose proof (Z.div_mod (flprec x) 32 ltac:(lia)). pose proof (Z.mod_pos_bound (flprec x) 32 ltac:(lia)). lia. }
  set (d := n - Z.of_nat (length (flmant x)) + Z.of_nat (length (flmant y))).
  destruct (Z.ltb_spec 0 d) as [DP|DP]; [|lia].
  assert (EL : Z.of_nat (length (flmant x ++ repeat 0 (Z.to_nat d))) - Z.of_nat (length (flmant y)) = n).
  { rewrite app_length, repeat_length. lia. }
  rewrite EL. clear EL.
  assert (ET : trim (flmant x ++ repeat 0 (Z.to_nat d)) = of_Z (nval (flmant x))).
  { rewrite trim_of_Z.
    - f_equal. rewrite nval_app, nval_repeat0. ring.
    - apply words_ok_app. split; [auto|apply words_ok_repeat0].
    - destruct (flmant x); [cbn in LX; lia|discriminate]. }
  assert (ED : nat_div (of_Z (nval (flmant x))) (flmant y) = Ok (of_Z (nval (flmant x) / nval (flmant y)))).
  { rewrite (canon_self _ CY) at 1. apply nat_div_of_Z; lia. }
  assert (ER : nat_rem (of_Z (nval (flmant x))) (flmant y) = Ok (of_Z (nval (flmant x) mod nval (flmant y)))).
  { rewrite (canon_self _ CY) at 1. apply nat_rem_of_Z'; lia. }
  rewrite ET, ED, ER. cbn [bind].
  set (q := nval (flmant x) / nval (flmant y)).
  assert (Q0 : 0 <= q) by (apply Z.div_pos; lia).
  set (sb := match partial_cmp _ _ with Some Gt => 1 | _ => 0 end). clearbody sb.
  assert (GOAL : forall v e', words_ok v -> e' <= flexp x - flexp y - 31 ->
     set_exp_and_round (set_mant (set_neg x (negb (eqb (flneg x) (flneg y)))) v) e' sb = Ok z ->
     (dy (2 ^ 29) 0 * Qabs (flvalue z) < Qabs (flvalue x / flvalue y))%Q).
  { intros v e' Hv He Hz. apply ser_bound in Hz; auto.
    destruct (mag_binade x NX) as (A & _). destruct (mag_binade y NY) as (_ & B). pose proof (mag_pos y NY) as MY.
    unfold Qdiv. rewrite Qabs_Qmult, Qabs_Qinv, (finite_abs x FX NX), (finite_abs y FY NY). fold (mag x / mag y)%Q.
    apply Qlt_shift_div_l; [auto|].
    assert (H1 : (dy (2 ^ 29) 0 * Qabs (flvalue z) <= dy (2 ^ 29) 0 * dy 1 (e' + 1))%Q).
    { apply Qmult_le_l; [apply dy_pos; reflexivity|]. apply Qlt_le_weak. auto. }
    assert (H2 : (dy (2 ^ 29) 0 * dy 1 (e' + 1) <= dy 1 (flexp x - 1 - flexp y))%Q).
    { rewrite dy_mul. rewrite (dy_to 1 _ (0 + (e' + 1))) by lia. apply dy_le. rewrite Z.mul_1_r, Z.mul_1_l. apply Z.pow_le_mono_r; lia. }
    apply Qle_lt_trans with (dy 1 (flexp x - 1 - flexp y) * mag y)%Q.
    - apply Qmult_le_compat_r; [|apply Qlt_le_weak; auto]. eapply Qle_trans; eauto.
    - apply Qlt_le_trans with (dy 1 (flexp x - 1 - flexp y) * dy 1 (flexp y))%Q.
      + apply Qmult_lt_l; [apply dy_pos; reflexivity|auto].
      + rewrite dy_mul. replace (flexp x - 1 - flexp y + flexp y) with (flexp x - 1) by lia. auto. }
  destruct (Z.eq_dec q 0) as [QZ|QZ].
  - rewrite QZ. change (fnorm (of_Z 0)) with (@Ok (list Z * Z) ([0], 32)). cbn [bind]. change (Z.of_nat (length (of_Z 0))) with 1.
    apply GOAL; [apply words_ok_cons; split; [lia|constructor]|lia].
  - assert (CQ : canon (of_Z q)) by (apply of_Z_canon; lia). assert (VQ : nval (of_Z q) = q) by (apply of_Z_val; lia).
    destruct (fnorm_spec (of_Z q) CQ ltac:(lia)) as (v & s & F1 & F2 & F3 & F4 & F5 & F6). rewrite F1. cbn [bind].
    apply GOAL; [apply (normal_pos v F2)|].
    assert (BQ : bits_len (of_Z q) <= mbits (flmant x) - mbits (flmant y) + 1).
    { pose proof (bits_len_of_Z q ltac:(lia)) as (B1 & _).
      assert (QY : q * nval (flmant y) <= nval (flmant x)).
      { unfold q. rewrite Z.mul_comm. apply Z.mul_div_le. lia. }
      set (b := bits_len (of_Z q)) in *. set (bx := mbits (flmant x)) in *. set (by' := mbits (flmant y)) in *.
      assert (32 <= by') by (unfold by', mbits; lia).
      assert (b - 1 + (by' - 1) < bx); [|lia].
      assert (N : 0 < b).
      { unfold b. rewrite bits_len_spec by auto. pose proof (Z.log2_nonneg (nval (of_Z q))). destruct (nval (of_Z q) =? 0); lia. }
      apply (Z.pow_lt_mono_r_iff 2); [lia|unfold bx, mbits; lia|]. rewrite Z.pow_add_r by lia.
      pose proof (pow2_pos (b - 1) ltac:(lia)). pose proof (pow2_pos (by' - 1) ltac:(lia)). nia. }
    unfold mbits in *. lia.
Qed.
