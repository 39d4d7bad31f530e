(** [round] with a sticky bit from the caller (C53): how [uquo] passes on that
    the division left a remainder. *)
From Coq Require Import ZArith QArith Qabs Qpower Lqa Lia Bool List.
From Verif Require Import Words Spec WordsFacts NatModel NatFacts NatFacts2 NatFacts4 NatFacts5 NatConvFacts
  VecPrims VecFacts NatConv BigInt Ieee Rat Float SpecFloat FloatFacts FloatFacts2 FloatFacts3.
Import ListNotations.
Open Scope Z_scope.

Lemma beyond M k E v : 0 < k -> 0 <= M -> (dy M (E - k) < v)%Q -> (v < dy (M + 1) (E - k))%Q ->
  let q := M / 2 ^ k in
  (dy q E < v)%Q /\ (v < dy (q + 1) E)%Q /\
  (Z.testbit M (k - 1) = true <-> (dy q E + dy (q + 1) E <= 2 * v)%Q) /\
  (Z.testbit M (k - 1) = true -> (dy q E + dy (q + 1) E < 2 * v)%Q).
Proof.
  intros K HM L U q. pose proof (pow2_pos (k - 1) ltac:(lia)) as P.
  assert (PK : 2 ^ k = 2 ^ (k - 1) * 2) by (rewrite <- Z.pow_add_r with (c := 1) by lia; f_equal; lia).
  pose proof (Z.div_mod M (2 ^ k) ltac:(lia)) as DM. fold q in DM. pose proof (Z.mod_pos_bound M (2 ^ k) ltac:(lia)) as MB.
  assert (RB : M mod 2 ^ k = M mod 2 ^ (k - 1) + 2 ^ (k - 1) * (if Z.testbit M (k - 1) then 1 else 0)).
  { rewrite PK, Z.rem_mul_r by lia. f_equal. f_equal.
    rewrite <- (Z.add_0_l (k - 1)), <- Z.shiftr_spec, Z.bit0_odd, Z.add_0_l, Z.shiftr_div_pow2 by lia. apply Zmod_odd. }
  pose proof (Z.mod_pos_bound M (2 ^ (k - 1)) P) as B.
  assert (Q1 : (dy q E == dy (q * 2 ^ k) (E - k))%Q) by (apply dy_shift; lia).
  assert (Q2 : (dy (q + 1) E == dy ((q + 1) * 2 ^ k) (E - k))%Q) by (apply dy_shift; lia).
  assert (A : (dy (q * 2 ^ k) (E - k) <= dy M (E - k))%Q) by (apply dy_le; lia).
  assert (C : (dy (M + 1) (E - k) <= dy ((q + 1) * 2 ^ k) (E - k))%Q) by (apply dy_le; lia).
  assert (D : forall z, (2 * dy z (E - k) == dy (2 * z) (E - k))%Q).
  { intros z. setoid_replace (2 * dy z (E - k))%Q with (dy z (E - k) + dy z (E - k))%Q by ring. rewrite dy_add. apply dy_wd. lia. }
  split; [rewrite Q1; lra|]. split; [rewrite Q2; lra|].
  assert (T : Z.testbit M (k - 1) = true -> (dy q E + dy (q + 1) E < 2 * v)%Q).
  { intros R. rewrite R in RB. apply Qle_lt_trans with (2 * dy M (E - k))%Q; [|lra]. rewrite Q1, Q2, dy_add, D. apply dy_le. lia. }
  split; [|exact T]. split; [intros R; specialize (T R); lra|]. intros H.
  destruct (Z.testbit M (k - 1)) eqn:R; [reflexivity|exfalso].
  assert (X : (2 * dy (M + 1) (E - k) <= dy q E + dy (q + 1) E)%Q); [|lra].
  rewrite Q1, Q2, dy_add, D. apply dy_le. lia.
Qed.

Lemma round_sticky x s w : wide_float x -> flprec x < mbits (flmant x) -> Z.odd s = true ->
  (dy (nval (flmant x)) (flexp x - mbits (flmant x)) < w)%Q -> (w < dy (nval (flmant x) + 1) (flexp x - mbits (flmant x)))%Q ->
  exists z, fl_round x s = Ok z /\ result_for (flmode x) (flprec x) (sq (flneg x) w) z.
Proof.
  intros (HF & HP & HN & HE) GT OS L U.
  destruct x as [mo ac fo ng p e m]. cbn [flmode flacc flform flneg flprec flexp flmant] in *. subst fo.
  destruct (normal_pos m HN) as (Hw & Hl & BM).
  assert (MP : 0 < nval m) by (pose proof (pow2_pos (mbits m - 1) ltac:(unfold mbits; lia)); lia).
  assert (VP : (0 < w)%Q) by (pose proof (proj2 (dy_pos (nval m) (e - mbits m)) MP); lra).
  unfold fl_round, set_acc, set_mant, set_exp, set_form. cbn [flmode flacc flform flneg flprec flexp flmant is_finite negb].
  destruct (Z.leb_spec (mbits m) p) as [LE|_]; [lia|].
  set (k := mbits m - p). set (n := (p + 31) / 32).
  set (q := nval m / 2 ^ k).
  assert (HPB : 0 < p < mbits m) by lia.
  destruct (t_bounds m p HPB) as (TB & NB & ET). fold n in TB, NB, ET. set (t := 32 * n - p) in *.
  destruct (q_bounds m p HN HPB) as (Q1 & Q2). fold k q in Q1, Q2.
  rewrite is_set_bit_spec by (try apply HN; lia). rewrite normal_bits_len by auto.
  replace (mbits m - p - 1) with (k - 1) by (unfold k; lia).
  destruct (Z.leb_spec (mbits m) (k - 1)); [unfold k in *; lia|]. cbn [bind].
  pose proof (beyond (nval m) k (e - p) w ltac:(lia) ltac:(lia)) as D. cbv zeta in D. fold q in D.
  replace (e - p - k) with (e - mbits m) in D by (unfold k; lia). specialize (D L U).
  set (rb := Z.testbit (nval m) (k - 1)) in *.
  destruct D as (D1 & D2 & D3 & D4).
  assert (ERB : match Some rb with Some true => true | _ => false end = rb) by (destruct rb; reflexivity).
  rewrite ERB. clear ERB.
  assert (S0 : (s =? 0) = false) by (destruct (Z.eqb_spec s 0); [subst s; discriminate|reflexivity]).
  rewrite S0. cbn [andb].
  assert (SB : negb (Z.land s 1 =? 0) = true).
  { change 1 with (Z.ones 1). rewrite Z.land_ones by lia. change (2 ^ 1) with 2. rewrite Zmod_odd, OS. reflexivity. }
  rewrite SB, orb_true_r. cbn [negb]. rewrite andb_false_r. cbn [bind].
  pose proof (round_keep m p HN HPB) as RK. cbv zeta in RK. fold n t k q in RK.
  pose proof (round_add m p HN HPB) as RA. cbv zeta in RA. fold n t k q in RA.
  set (m1 := if n <? Z.of_nat (length m) then skipn (Z.to_nat (Z.of_nat (length m) - n)) m else m) in *.
  assert (VAL : forall c, (dy (2 ^ t * c) (e - 32 * n) == dy c (e - p))%Q).
  { intros c. rewrite (dy_shift c (e - p) t) by lia. replace (e - p - t) with (e - 32 * n) by lia. apply dy_wd. ring. }
  assert (RQ : representable p (dy q (e - p))) by (apply rep_dy; lia).
  assert (RQ1 : representable p (dy (q + 1) (e - p))) by (apply rep_dy; lia).
  destruct (round_signed mo p q (e - p) w ng rb true false) as (RS & AS); auto.
  { intros _ R. split; auto. }
  { discriminate. }
  set (V := sq ng w). assert (FV : (V == sq ng w)%Q) by reflexivity.
  set (inc := round_inc mo ng rb true false) in *.
  destruct inc.
  2: { destruct RK as (v' & K1 & K2 & K3 & K4). cbn [flmant]. rewrite K1. cbn [bind]. eexists. split; [reflexivity|].
    eapply (result_fin mo ng p e v' _ V w (dy q (e - p))); auto; try lia. rewrite K3, K4. apply VAL. }
  destruct (add_vw m1 (2 ^ t)) as [a c] eqn:EA. destruct (RA a c eq_refl) as (C1 & C2 & C3).
  destruct (Z.eqb_spec c 0) as [C0|C0]; cbn [negb].
  { destruct (C2 C0) as (v' & K1 & K2 & K3 & K4). cbn [flmant]. rewrite K1. cbn [bind]. eexists. split; [reflexivity|].
    eapply (result_fin mo ng p e v' _ V w (dy (q + 1) (e - p))); auto; try lia. rewrite K3, K4. apply VAL. }
  assert (QP : q + 1 = 2 ^ p) by (apply C1; auto).
  assert (E2 : (dy (q + 1) (e - p) == dy 1 e)%Q).
  { rewrite QP. rewrite (dy_shift 1 e p) by lia. apply dy_wd. lia. }
  destruct (Z.leb_spec max_exp e) as [LX|LX].
  - eexists. split; [reflexivity|]. unfold result_for. cbn [flmode flacc flform flneg flprec flexp flmant].
    split; [split; cbn [flform flprec]; [lia|discriminate]|]. split; [auto|]. split; [auto|].
    split; [rewrite FV; apply sq_neg; auto|]. split.
    + exists (sq ng (dy (q + 1) (e - p))). split; [apply (rounded_wd mo p (sq ng w) V (sq ng (dy (q + 1) (e - p)))); auto; reflexivity|].
      rewrite sq_abs, E2, dy_abs. change (Z.abs 1) with 1. assert (e = max_exp) by lia. subst e. apply Qle_refl.
    + destruct ng; reflexivity.
  - destruct (C3 C0) as (v' & K1 & K2 & K3 & K4). cbn [flmant]. rewrite K1. cbn [bind]. eexists. split; [reflexivity|].
    cbn [flmode flacc flform flneg flprec flexp flmant].
    eapply (result_fin mo ng p (e + 1) v' _ V w (dy (q + 1) (e - p))); auto; try lia.
    rewrite K3, K4, E2. rewrite (dy_shift 1 e (32 * n - 1)) by lia. rewrite Z.mul_1_l. replace (e - (32 * n - 1)) with (e + 1 - 32 * n) by lia. reflexivity.
Qed.

(** ** C53
    With the sticky bit set, every number [w] that begins with the bits of the
    mantissa and has more behind them is rounded correctly, in every mode. *)
Theorem C53_round_sticky : forall x w, wide_float x -> flprec x < mbits (flmant x) ->
  (dy (nval (flmant x)) (flexp x - mbits (flmant x)) < w < dy (nval (flmant x) + 1) (flexp x - mbits (flmant x)))%Q ->
  exists z, fl_round x 1 = Ok z /\ result_for (flmode x) (flprec x) (if flneg x then (- w)%Q else w) z.
Proof. intros x w X P [L U]. exact (round_sticky x 1 w X P eq_refl L U). Qed.
(** When the mantissa already fits, the sticky bit is forgotten: the result is
    the mantissa as it is, marked Exact. *)
Theorem C53_round_sticky_fits : forall x s, flform x = Finite -> mbits (flmant x) <= flprec x ->
  fl_round x s = Ok (set_acc x Exact).
Proof.
  intros [mo ac fo ng p e m] s F L. cbn [flform flmant flprec] in *. subst fo. unfold fl_round, set_acc.
  cbn [flmode flacc flform flneg flprec flexp flmant is_finite negb]. destruct (Z.leb_spec (mbits m) p); [reflexivity|lia].
Qed.
(** 5 = 101b lies between 4 and 6 in two bits; with more behind it it is no tie. *)
Example C53_sticky_case :
  let x := FL ToNearestEven Exact Finite false 2 3 [2 ^ 31 + 2 ^ 29] in
  match fl_round x 0, fl_round x 1 with
  | Ok a, Ok b => (flvalue a ?= 4)%Q = Eq /\ flacc a = Below /\ (flvalue b ?= 6)%Q = Eq /\ flacc b = Above
  | _, _ => False
  end.
Proof. vm_compute. repeat split. Qed.
Print Assumptions C53_round_sticky.
Print Assumptions C53_round_sticky_fits.
