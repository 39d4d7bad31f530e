(** [fl_round] and [set_exp_and_round] give the correctly rounded value. *)
From Coq Require Import ZArith QArith Qabs Qpower Lqa Lia Bool List.
From Verif Require Import Words Spec WordsFacts NatModel NatFacts NatFacts2 NatFacts4 NatFacts5 NatConvFacts
  VecPrims VecFacts NatConv BigInt Ieee Rat Float SpecFloat FloatFacts FloatFacts2.
Import ListNotations.
Open Scope Z_scope.

Definition sg (neg : bool) (n : Z) : Z := if neg then - n else n.
Definition sq (neg : bool) (v : Q) : Q := if neg then (- v)%Q else v.
Lemma sg_dy neg n e : (dy (sg neg n) e == sq neg (dy n e))%Q.
Proof. destruct neg; cbn [sg sq]; [symmetry; apply dy_opp|reflexivity]. Qed.
Lemma sq_wd neg v w : (v == w)%Q -> (sq neg v == sq neg w)%Q.
Proof. intros E. destruct neg; cbn [sq]; rewrite E; reflexivity. Qed.
Lemma sq_abs neg v : (Qabs (sq neg v) == Qabs v)%Q.
Proof. destruct neg; cbn [sq]; [apply Qabs_opp|reflexivity]. Qed.
Lemma sq_neg neg v : (0 < v)%Q -> neg = true <-> (sq neg v < 0)%Q.
Proof. intros H. destruct neg; cbn [sq]; split; intros K; try reflexivity; try discriminate; lra. Qed.
Lemma rep_sq p neg v : representable p v -> representable p (sq neg v).
Proof. destruct neg; cbn [sq]; [apply rep_opp|auto]. Qed.

Lemma acc_wd r v r' v' : (r == r')%Q -> (v == v')%Q -> acc_of r v = acc_of r' v'.
Proof. intros A B. unfold acc_of. rewrite (Qcompare_comp r r' A v v' B). reflexivity. Qed.
Lemma acc_lt r v : (r < v)%Q -> acc_of r v = Below.
Proof. intros H. unfold acc_of. rewrite (proj1 (Qlt_alt _ _) H). reflexivity. Qed.
Lemma acc_gt r v : (v < r)%Q -> acc_of r v = Above.
Proof. intros H. unfold acc_of. rewrite (proj1 (Qgt_alt _ _) H). reflexivity. Qed.
Lemma acc_eq r v : (r == v)%Q -> acc_of r v = Exact.
Proof. intros H. unfold acc_of. rewrite (proj1 (Qeq_alt _ _) H). reflexivity. Qed.

Lemma round_signed m p q e v neg rb sb odd :
  0 < p -> 2 ^ (p - 1) <= q < 2 ^ p -> (dy q e < v)%Q -> (v < dy (q + 1) e)%Q ->
  (rb = true <-> (dy q e + dy (q + 1) e <= 2 * v)%Q) ->
  (m = ToNearestEven -> rb = true -> (sb = true <-> (dy q e + dy (q + 1) e < 2 * v)%Q)) ->
  (m = ToNearestEven -> rb = true -> sb = false -> odd = Z.odd q) ->
  let inc := round_inc m neg rb sb odd in
  rounded m p (sq neg v) (sq neg (dy (if inc then q + 1 else q) e)) /\
  acc_of (sq neg (dy (if inc then q + 1 else q) e)) (sq neg v) = make_accuracy (negb (eqb inc neg)).
Proof.
  intros P Q L H RB SB OD inc. subst inc. split.
  - destruct neg; cbn [sq].
    + apply rounded_opp. replace (round_inc m true rb sb odd) with (round_inc (mode_opp m) false rb sb odd) by (destruct m; reflexivity).
      apply round_gap; auto; intros E; destruct m; try discriminate; auto.
    + apply round_gap; auto.
  - set (inc := round_inc m neg rb sb odd). destruct neg, inc; cbn [sq eqb negb make_accuracy].
    + apply acc_lt. lra.
    + apply acc_gt. lra.
    + apply acc_gt. lra.
    + apply acc_lt. lra.
Qed.

(** The dropped part of the mantissa. *)
Lemma dropped M k E : 0 < k -> 0 <= M ->
  let q := M / 2 ^ k in
  let rb := Z.testbit M (k - 1) in
  let st := negb (M mod 2 ^ (k - 1) =? 0) in
  let v := dy M (E - k) in
  (rb || st = false -> (v == dy q E)%Q) /\
  (rb || st = true -> (dy q E < v)%Q) /\ (v < dy (q + 1) E)%Q /\
  (rb = true <-> (dy q E + dy (q + 1) E <= 2 * v)%Q) /\
  (rb = true -> (st = true <-> (dy q E + dy (q + 1) E < 2 * v)%Q)).
Proof.
  intros K HM q rb st v. pose proof (pow2_pos (k - 1) ltac:(lia)) as P.
  assert (PK : 2 ^ k = 2 ^ (k - 1) * 2) by (rewrite <- Z.pow_add_r with (c := 1) by lia; f_equal; lia).
  pose proof (Z.div_mod M (2 ^ k) ltac:(lia)) as DM. fold q in DM.
  assert (MB : M mod 2 ^ k = M mod 2 ^ (k - 1) + 2 ^ (k - 1) * (if rb then 1 else 0)).
  { rewrite PK, Z.rem_mul_r by lia. f_equal. f_equal. unfold rb.
    rewrite <- (Z.add_0_l (k - 1)), <- Z.shiftr_spec, Z.bit0_odd, Z.add_0_l, Z.shiftr_div_pow2 by lia. apply Zmod_odd. }
  pose proof (Z.mod_pos_bound M (2 ^ (k - 1)) P) as B.
  set (lo := M mod 2 ^ (k - 1)) in *.
  assert (Q1 : (dy q E == dy (q * 2 ^ k) (E - k))%Q) by (apply dy_shift; lia).
  assert (Q2 : (dy (q + 1) E == dy ((q + 1) * 2 ^ k) (E - k))%Q) by (apply dy_shift; lia).
  assert (Q3 : (dy q E + dy (q + 1) E == dy (q * 2 ^ k + (q + 1) * 2 ^ k) (E - k))%Q) by (rewrite Q1, Q2; apply dy_add).
  assert (Q4 : (2 * v == dy (2 * M) (E - k))%Q).
  { unfold v. setoid_replace (2 * dy M (E - k))%Q with (dy M (E - k) + dy M (E - k))%Q by ring. rewrite dy_add. apply dy_wd. lia. }
  unfold st. rewrite Q1, Q2, dy_add, Q4. subst v. rewrite !dy_lt, dy_le, dy_eq.
  clearbody lo. clear Q1 Q2 Q3 Q4. clear st. clearbody rb.
  destruct rb, (Z.eqb_spec lo 0) as [EL|N]; cbn [orb negb].
  - split; [discriminate|]. split; [intros; lia|]. split; [lia|]. split; [split; [lia|auto]|]. intros _. split; [discriminate|lia].
  - split; [discriminate|]. split; [intros; lia|]. split; [lia|]. split; [split; [lia|auto]|]. intros _. split; [lia|auto].
  - split; [intros; lia|]. split; [discriminate|]. split; [lia|]. split; [split; [discriminate|lia]|]. discriminate.
  - split; [discriminate|]. split; [intros; lia|]. split; [lia|]. split; [split; [discriminate|lia]|]. discriminate.
Qed.

Lemma rep_mant p m e : 0 < p -> 0 <= nval m < 2 ^ p -> representable p (dy (nval m) e).
Proof. intros P H. exists (nval m), e. split; [lia|reflexivity]. Qed.

Lemma flvalue_fin x : flform x = Finite -> (flvalue x == sq (flneg x) (dy (nval (flmant x)) (flexp x - mbits (flmant x))))%Q.
Proof. intros H. unfold flvalue. rewrite H. apply sg_dy. Qed.

(** What [fl_round] needs of a Float. *)
Definition wide_float (x : float) : Prop :=
  flform x = Finite /\ 0 < flprec x /\ normal_mant (flmant x) /\ min_exp <= flexp x <= max_exp.

Lemma result_fin mo ng p e' m' ac V v r :
  0 < p -> normal_mant m' -> min_exp <= e' <= max_exp -> mbits m' < p + 32 ->
  (dy (nval m') (e' - mbits m') == r)%Q -> representable p r -> (V == sq ng v)%Q -> (0 < v)%Q ->
  rounded mo p (sq ng v) (sq ng r) -> ac = acc_of (sq ng r) (sq ng v) ->
  result_for mo p V (FL mo ac Finite ng p e' m').
Proof.
  intros P N R L E RP EV VP RD AC.
  assert (FV : (flvalue (FL mo ac Finite ng p e' m') == sq ng r)%Q).
  { rewrite flvalue_fin by reflexivity. cbn [flneg flmant flexp]. apply sq_wd. auto. }
  unfold result_for. cbn [flmode flacc flform flneg flprec flexp flmant].
  split.
  { split; cbn [flmode flacc flform flneg flprec flexp flmant]; [lia|]. intros _. split; [auto|]. split; [auto|]. split; [auto|]. split; [|auto].
    apply (rep_wd p (sq ng r)); [symmetry; auto|]. apply rep_sq. auto. }
  split; [auto|]. split; [auto|]. split; [rewrite EV; apply sq_neg; auto|].
  split; [apply (rounded_wd mo p (sq ng v) V (sq ng r)); auto; symmetry; auto|].
  rewrite AC. apply acc_wd; symmetry; auto.
Qed.

Lemma fl_round_spec x : wide_float x ->
  exists z, fl_round x 0 = Ok z /\ result_for (flmode x) (flprec x) (flvalue x) z.
Proof.
  intros (HF & HP & HN & HE). pose proof (flvalue_fin x HF) as FV. set (V := flvalue x) in *. clearbody V.
  destruct x as [mo ac fo ng p e m]. cbn [flmode flacc flform flneg flprec flexp flmant] in *. subst fo.
  destruct (normal_pos m HN) as (Hw & Hl & BM).
  assert (MP : 0 < nval m) by (pose proof (pow2_pos (mbits m - 1) ltac:(unfold mbits; lia)); lia).
  set (v := dy (nval m) (e - mbits m)) in *.
  assert (VP : (0 < v)%Q) by (apply dy_pos; auto).
  unfold fl_round, set_acc, set_mant, set_exp, set_form. cbn [flmode flacc flform flneg flprec flexp flmant is_finite negb].
  destruct (Z.leb_spec (mbits m) p) as [LE|GT].
  { eexists. split; [reflexivity|].
    assert (RV : representable p v).
    { apply rep_mant; [auto|]. split; [lia|]. apply Z.lt_le_trans with (2 ^ mbits m); [lia|]. apply Z.pow_le_mono_r; lia. }
    eapply result_fin; eauto; try lia; [reflexivity|apply exact_rounded, rep_sq; auto|]. symmetry. apply acc_eq. reflexivity. }
  set (k := mbits m - p). set (n := (p + 31) / 32).
  set (q := nval m / 2 ^ k).
  assert (HPB : 0 < p < mbits m) by lia.
  destruct (t_bounds m p HPB) as (TB & NB & ET). fold n in TB, NB, ET. set (t := 32 * n - p) in *.
  destruct (q_bounds m p HN HPB) as (Q1 & Q2). fold k q in Q1, Q2.
  rewrite is_set_bit_spec by (try apply HN; lia). rewrite normal_bits_len by auto.
  replace (mbits m - p - 1) with (k - 1) by (unfold k; lia).
  destruct (Z.leb_spec (mbits m) (k - 1)); [unfold k in *; lia|]. cbn [bind].
  rewrite sticky_spec by (auto; unfold k; lia).
  pose proof (dropped (nval m) k (e - p) ltac:(lia) ltac:(lia)) as D. cbv zeta in D. fold q in D.
  replace (e - p - k) with (e - mbits m) in D by (unfold k; lia). fold v in D.
  set (rb := Z.testbit (nval m) (k - 1)) in *. set (st := negb (nval m mod 2 ^ (k - 1) =? 0)) in *.
  destruct D as (D0 & D1 & D2 & D3 & D4).
  assert (ERB : match Some rb with Some true => true | _ => false end = rb) by (destruct rb; reflexivity).
  rewrite ERB. clear ERB. rewrite Z.eqb_refl. cbn [andb].
  set (sb := negb (Z.land (if negb rb || is_nearest_even mo then if nval m mod 2 ^ (k - 1) =? 0 then 0 else 1 else 0) 1 =? 0)).
  assert (ESB : sb = (negb rb || is_nearest_even mo) && st).
  { unfold sb, st. destruct (negb rb || is_nearest_even mo), (nval m mod 2 ^ (k - 1) =? 0); reflexivity. }
  clearbody sb.
  assert (EOR : rb || sb = rb || st) by (rewrite ESB; destruct rb, st, (is_nearest_even mo); reflexivity).
  pose proof (round_keep m p HN HPB) as RK. cbv zeta in RK. fold n t k q in RK.
  pose proof (round_add m p HN HPB) as RA. cbv zeta in RA. fold n t k q in RA.
  pose proof (odd_bit m p HN HPB) as OB. cbv zeta in OB. fold n t k q in OB.
  pose proof (m1_spec m p HN HPB) as (_ & _ & M1N & _). fold n in M1N.
  set (m1 := if n <? Z.of_nat (length m) then skipn (Z.to_nat (Z.of_nat (length m) - n)) m else m) in *.
  assert (VAL : forall c, (dy (2 ^ t * c) (e - 32 * n) == dy c (e - p))%Q).
  { intros c. rewrite (dy_shift c (e - p) t) by lia. replace (e - p - t) with (e - 32 * n) by lia. apply dy_wd. ring. }
  assert (RQ : representable p (dy q (e - p))) by (apply rep_dy; lia).
  assert (RQ1 : representable p (dy (q + 1) (e - p))) by (apply rep_dy; lia).
  destruct (rb || sb) eqn:EB.
  2: { (* nothing is lost *)
    destruct RK as (v' & K1 & K2 & K3 & K4). rewrite K1. cbn [bind]. eexists. split; [reflexivity|].
    specialize (D0 (eq_sym EOR)).
    eapply (result_fin mo ng p e v' Exact V v (dy q (e - p))); auto; try lia.
    - rewrite K3, K4. apply VAL.
    - apply (rounded_wd mo p (sq ng v) (sq ng v) (sq ng v)); [reflexivity|apply sq_wd; auto|].
      apply exact_rounded, rep_sq. apply (rep_wd p (dy q (e - p))); [symmetry; auto|auto].
    - symmetry. apply acc_eq, sq_wd. symmetry. auto. }
  specialize (D1 (eq_sym EOR)).
  set (oddr := if is_nearest_even mo && rb && negb sb then match m1 with [] => Panic | w :: _ => Ok (negb (Z.land w (2 ^ t) =? 0)) end else Ok false).
  assert (OD : exists od, oddr = Ok od /\ (mo = ToNearestEven -> rb = true -> sb = false -> od = Z.odd q)).
  { unfold oddr. destruct (is_nearest_even mo && rb && negb sb) eqn:C.
    - destruct m1 as [|w l] eqn:E1; [congruence|]. eexists. split; [reflexivity|]. intros _ _ _. eapply OB. reflexivity.
    - exists false. split; [reflexivity|]. intros -> -> ->. discriminate. }
  destruct OD as (od & EO & OD). rewrite EO. cbn [bind].
  destruct (round_signed mo p q (e - p) v ng rb sb od) as (RS & AS); auto; [|].
  { intros -> R. rewrite ESB. cbn [is_nearest_even]. rewrite orb_true_r. cbn [andb]. apply D4. auto. }
  set (inc := round_inc mo ng rb sb od) in *.
  destruct inc.
  2: { destruct RK as (v' & K1 & K2 & K3 & K4). cbn [flmant]. rewrite K1. cbn [bind]. eexists. split; [reflexivity|].
    eapply (result_fin mo ng p e v' _ V v (dy q (e - p))); auto; try lia. rewrite K3, K4. apply VAL. }
  destruct (add_vw m1 (2 ^ t)) as [w c] eqn:EA. destruct (RA w c eq_refl) as (C1 & C2 & C3).
  destruct (Z.eqb_spec c 0) as [C0|C0]; cbn [negb].
  { destruct (C2 C0) as (v' & K1 & K2 & K3 & K4). cbn [flmant]. rewrite K1. cbn [bind]. eexists. split; [reflexivity|].
    eapply (result_fin mo ng p e v' _ V v (dy (q + 1) (e - p))); auto; try lia. rewrite K3, K4. apply VAL. }
  assert (QP : q + 1 = 2 ^ p) by (apply C1; auto).
  assert (E2 : (dy (q + 1) (e - p) == dy 1 e)%Q).
  { rewrite QP. rewrite (dy_shift 1 e p) by lia. apply dy_wd. lia. }
  destruct (Z.leb_spec max_exp e) as [LX|LX].
  - eexists. split; [reflexivity|]. unfold result_for. cbn [flmode flacc flform flneg flprec flexp flmant].
    split; [split; cbn [flform flprec]; [lia|discriminate]|]. split; [auto|]. split; [auto|].
    split; [rewrite FV; apply sq_neg; auto|]. split.
    + exists (sq ng (dy (q + 1) (e - p))). split; [apply (rounded_wd mo p (sq ng v) V (sq ng (dy (q + 1) (e - p)))); auto; [symmetry; auto|reflexivity]|].
      rewrite sq_abs, E2, dy_abs. change (Z.abs 1) with 1. assert (e = max_exp) by lia. subst e. apply Qle_refl.
    + destruct ng; reflexivity.
  - destruct (C3 C0) as (v' & K1 & K2 & K3 & K4). cbn [flmant]. rewrite K1. cbn [bind]. eexists. split; [reflexivity|].
    cbn [flmode flacc flform flneg flprec flexp flmant].
    eapply (result_fin mo ng p (e + 1) v' _ V v (dy (q + 1) (e - p))); auto; try lia.
    rewrite K3, K4, E2. rewrite (dy_shift 1 e (32 * n - 1)) by lia. rewrite Z.mul_1_l. replace (e - (32 * n - 1)) with (e + 1 - 32 * n) by lia. reflexivity.
Qed.
