(** Conversions between Floats and integers, and the structure queries. *)
From Coq Require Import ZArith QArith Qabs Qround Qpower Lqa Lia Bool List.
From Verif Require Import Words Spec WordsFacts NatModel NatFacts NatFacts2 NatFacts3 NatFacts4 NatFacts5 NatConvFacts
  VecPrims VecFacts NatConv BigInt SpecInt BigIntFacts Ieee Rat Float SpecFloat FloatFacts FloatFacts2 FloatFacts3 FloatFacts4 FloatFacts5 FloatFacts6.
Import ListNotations.
Open Scope Z_scope.

Lemma dy_int n : (dy n 0 == inject_Z n)%Q.
Proof. unfold dy. change (Qpower 2 0) with 1%Q. ring. Qed.

(** * Representable values are not changed by rounding *)
Lemma rounded_exact m p v r : representable p v -> rounded m p v r -> (r == v)%Q.
Proof.
  intros R. assert (N : is_nearest p v r -> (r == v)%Q).
  { intros (_ & H). apply abs_eq0. specialize (H v R). setoid_replace (v - v)%Q with 0%Q in H by ring. exact H. }
  assert (BL : is_below p v r -> (r == v)%Q) by (intros (_ & A & B); apply Qle_antisym; [auto|apply B; [auto|apply Qle_refl]]).
  assert (AB : is_above p v r -> (r == v)%Q) by (intros (_ & A & B); apply Qle_antisym; [apply B; [auto|apply Qle_refl]|auto]).
  destruct m; cbn [rounded]; auto.
  - intros (A & _). auto.
  - intros (A & _). auto.
  - intros (A & B). destruct (Qlt_le_dec v 0); [apply AB, B; lra|apply BL, A; auto].
  - intros (A & B). destruct (Qlt_le_dec v 0); [apply BL, B; lra|apply AB, A; auto].
Qed.
Lemma result_exact m p v z : result_for m p v z -> representable p v ->
  (dy 1 (min_exp - 1) <= Qabs v)%Q -> (Qabs v < dy 1 max_exp)%Q ->
  flform z = Finite /\ (flvalue z == v)%Q /\ flacc z = Exact.
Proof.
  intros (_ & _ & _ & _ & H) R L U. destruct (flform z).
  - destruct H as (H & _). exfalso. apply Qlt_not_le in H. auto.
  - destruct H as (H & A). apply rounded_exact in H; [|auto]. split; [auto|]. split; [auto|]. rewrite A. apply acc_eq. auto.
  - destruct H as ((r & H & A) & _). exfalso. apply rounded_exact in H; [|auto]. rewrite H in A. apply Qlt_not_le in U. auto.
  - contradiction.
Qed.

(** [z] is the Float of the integer [n], exactly. *)
Definition is_integer_float (n : Z) (z : float) : Prop :=
  ok_float z /\ (flform z = if n =? 0 then Zero else Finite) /\ (flvalue z == inject_Z n)%Q /\ flacc z = Exact.

Lemma exact_int m p n z : n <> 0 -> result_for m p (inject_Z n) z -> Z.abs n < 2 ^ p -> 0 < p -> Z.abs n < 2 ^ max_exp ->
  is_integer_float n z.
Proof.
  intros NZ R B P X. assert (E := dy_int n).
  destruct (result_exact m p (inject_Z n) z R) as (F & V & A).
  - exists n, 0. split; [auto|]. symmetry. auto.
  - rewrite <- E, dy_abs. rewrite (dy_to (Z.abs n) 0 (min_exp - 1)) by (unfold min_exp; lia). apply dy_le.
    pose proof (pow2_pos (0 - (min_exp - 1)) ltac:(unfold min_exp; lia)). nia.
  - rewrite <- E, dy_abs. rewrite (dy_to 1 max_exp 0) by (unfold max_exp; lia). apply dy_lt. rewrite Z.sub_0_r, Z.mul_1_l. auto.
  - split; [apply R|]. destruct (Z.eqb_spec n 0); [lia|]. auto.
Qed.

(** * From u64 and i64 *)
Lemma two_words t : 2 ^ 63 <= t < 2 ^ 64 -> normal_mant [t mod W; t / W] /\ nval [t mod W; t / W] = t /\ mbits [t mod W; t / W] = 64.
Proof.
  intros H. assert (V : nval [t mod W; t / W] = t).
  { cbn [nval]. pose proof (Z.div_mod t W ltac:(lia)). lia. }
  split; [|split; [auto|reflexivity]]. apply normal_intro; [|cbn; lia|rewrite V; cbn; lia].
  apply words_ok_cons. split; [apply Z.mod_pos_bound; lia|]. apply words_ok_cons. split; [|constructor].
  split; [apply Z.div_pos; lia|apply Z.div_lt_upper_bound; [lia|]; change (W * W) with (2 ^ 64); lia].
Qed.

Lemma set_bits_spec z neg n : 0 < n < 2 ^ 64 -> 0 <= flprec z ->
  let p := if flprec z =? 0 then 64 else flprec z in
  exists r, set_bits z neg n = Ok r /\ result_for (flmode z) p (sq neg (inject_Z n)) r.
Proof.
  intros Hn HP p. unfold set_bits. destruct (Z.eqb_spec n 0); [lia|]. fold p.
  set (s := 63 - Z.log2 n). pose proof (Z.log2_spec n ltac:(lia)) as LS. pose proof (Z.log2_nonneg n).
  assert (LU : Z.log2 n < 64) by (apply Z.log2_lt_pow2; lia).
  set (t := n * 2 ^ s). pose proof (pow2_pos s ltac:(lia)) as PS.
  assert (BT : 2 ^ 63 <= t < 2 ^ 64).
  { replace (2 ^ 63) with (2 ^ Z.log2 n * 2 ^ s) by (rewrite <- Z.pow_add_r by lia; f_equal; lia).
    replace (2 ^ 64) with (2 ^ Z.succ (Z.log2 n) * 2 ^ s) by (rewrite <- Z.pow_add_r by lia; f_equal; lia). unfold t. nia. }
  destruct (two_words t BT) as (N & V & B).
  assert (P0 : 0 < p) by (unfold p; destruct (Z.eqb_spec (flprec z) 0); lia).
  assert (EV : (dy t (64 - s - 64) == inject_Z n)%Q).
  { rewrite <- dy_int. rewrite (dy_shift n 0 s) by lia. replace (64 - s - 64) with (0 - s) by lia. reflexivity. }
  destruct (Z.ltb_spec p 64) as [L|L].
  - destruct (fl_round_spec (FL (flmode z) Exact Finite neg p (64 - s) [t mod W; t / W])) as (r & R1 & R2).
    { split; [auto|]. flds. split; [auto|]. split; [auto|]. unfold min_exp, max_exp. lia. }
    exists r. split; [auto|]. flds. eapply result_wd; [|exact R2]. rewrite flvalue_fin by reflexivity. flds.
    apply sq_wd. rewrite V, B. auto.
  - eexists. split; [reflexivity|].
    apply (result_fin (flmode z) neg p (64 - s) [t mod W; t / W] Exact _ (inject_Z n) (inject_Z n)); auto; try lia.
    + unfold min_exp, max_exp. lia.
    + rewrite V, B. auto.
    + exists n, 0. split; [|symmetry; apply dy_int]. assert (2 ^ 64 <= 2 ^ p) by (apply Z.pow_le_mono_r; lia). lia.
    + reflexivity.
    + rewrite <- dy_int. apply dy_pos. lia.
    + apply exact_rounded, rep_sq. exists n, 0. split; [|symmetry; apply dy_int]. assert (2 ^ 64 <= 2 ^ p) by (apply Z.pow_le_mono_r; lia). lia.
    + symmetry. apply acc_eq. reflexivity.
Qed.

Lemma inject_sg neg n : (sq neg (inject_Z n) == inject_Z (sg neg n))%Q.
Proof. destruct neg; cbn [sq sg]; [rewrite inject_Z_opp|]; reflexivity. Qed.
Lemma pow_max_exp k : 0 <= k <= 64 -> 2 ^ k < 2 ^ max_exp.
Proof. intros. apply Z.pow_lt_mono_r; unfold max_exp; lia. Qed.

Lemma from_bits_exact neg n : 0 <= n < 2 ^ 64 ->
  exists z, set_bits fl_default neg n = Ok z /\ is_integer_float (sg neg n) z /\ flprec z = 64 /\ flmode z = ToNearestEven.
Proof.
  intros Hn. destruct (Z.eq_dec n 0) as [->|N].
  - eexists. split; [reflexivity|]. split; [|split; reflexivity]. split; [split; [cbn; lia|discriminate]|].
    replace (sg neg 0) with 0 by (destruct neg; reflexivity). split; [reflexivity|]. split; reflexivity.
  - destruct (set_bits_spec fl_default neg n ltac:(lia)) as (z & Z1 & Z2); [cbn; lia|]. exists z. split; [auto|].
    cbn [fl_default flprec flmode] in Z2. change (0 =? 0) with true in Z2. cbv iota in Z2.
    split; [|split; apply Z2]. apply (result_wd _ _ _ _ _ (inject_sg neg n)) in Z2.
    pose proof (pow_max_exp 64 ltac:(lia)).
    eapply exact_int; [|exact Z2| |lia|]; destruct neg; cbn [sg]; lia.
Qed.

(** * From Nat and BigInt *)
Lemma set_nat_spec z n neg : 0 < n -> 0 <= flprec z ->
  let p := if flprec z =? 0 then Z.max (bits_len (of_Z n)) 64 else flprec z in
  exists r, set_nat z (of_Z n) neg = Ok r /\ result_for (flmode z) p (sq neg (inject_Z n)) r.
Proof.
  intros Hn HP p. unfold set_nat. rewrite is_nan_of_Z by lia. fold p. rewrite of_Z_eq_u32 by lia.
  destruct (Z.eqb_spec n 0); [lia|].
  assert (P0 : 0 < p) by (unfold p; destruct (Z.eqb_spec (flprec z) 0); lia).
  assert (C : canon (of_Z n)) by (apply of_Z_canon; lia). assert (V : nval (of_Z n) = n) by (apply of_Z_val; lia).
  destruct (norm_round_spec (FL (flmode z) Exact (flform z) neg p (flexp z) (flmant z)) (of_Z n) 0 P0 C ltac:(lia)) as (r & R1 & R2).
  exists r. split; [|flds; rewrite V in R2; eapply result_wd; [|exact R2]; apply sq_wd, dy_int].
  destruct (fnorm_spec (of_Z n) C ltac:(lia)) as (v & s & F1 & _ & _ & _ & _ & F6). rewrite F1 in *. cbn [bind] in *.
  rewrite F6. replace (0 + mbits (of_Z n) - s) with (mbits (of_Z n) - s) in R1 by lia. exact R1.
Qed.
Lemma from_nat_exact n neg : 0 <= n -> bits_len (of_Z n) <= max_exp ->
  exists z, set_nat fl_default (of_Z n) neg = Ok z /\ is_integer_float (sg neg n) z /\ flprec z = Z.max (bits_len (of_Z n)) 64.
Proof.
  intros Hn HB. destruct (Z.eq_dec n 0) as [->|N].
  - eexists. split; [reflexivity|]. split; [|reflexivity]. split; [split; [cbn; lia|discriminate]|].
    replace (sg neg 0) with 0 by (destruct neg; reflexivity). split; [reflexivity|]. split; reflexivity.
  - destruct (set_nat_spec fl_default n neg ltac:(lia)) as (z & Z1 & Z2); [cbn; lia|]. exists z. split; [auto|].
    cbn [fl_default flprec flmode] in Z2. change (0 =? 0) with true in Z2. cbv iota in Z2.
    split; [|apply Z2]. apply (result_wd _ _ _ _ _ (inject_sg neg n)) in Z2.
    pose proof (bits_len_of_Z n ltac:(lia)) as (B1 & B2).
    assert (K1 : 2 ^ bits_len (of_Z n) <= 2 ^ Z.max (bits_len (of_Z n)) 64) by (apply Z.pow_le_mono_r; lia).
    assert (K2 : 2 ^ bits_len (of_Z n) <= 2 ^ max_exp) by (apply Z.pow_le_mono_r; lia).
    eapply exact_int; [|exact Z2| |lia|]; destruct neg; cbn [sg]; lia.
Qed.

(** * Truncation *)
Lemma floor_unique v t : (inject_Z t <= v)%Q -> (v < inject_Z (t + 1))%Q -> Qfloor v = t.
Proof.
  intros L U. assert (A : t <= Qfloor v) by (rewrite <- (Qfloor_Z t); apply Qfloor_resp_le; auto).
  pose proof (Qfloor_le v) as F. assert (B : (inject_Z (Qfloor v) < inject_Z (t + 1))%Q) by (eapply Qle_lt_trans; eauto).
  rewrite <- Zlt_Qlt in B. lia.
Qed.

Lemma msb64_spec m : normal_mant m -> 
  (dy (msb64 m) (-64) <= dy (nval m) (- mbits m))%Q /\ (dy (nval m) (- mbits m) < dy (msb64 m + 1) (-64))%Q.
Proof.
  intros N. destruct (normal_pos m N) as (Hw & Hl & B).
  destruct (list_eq_dec Z.eq_dec m []) as [->|NE]; [cbn in Hl; lia|].
  destruct (exists_last NE) as (l & h & ->). apply words_ok_app in Hw as (Wl & _).
  destruct (list_eq_dec Z.eq_dec l []) as [->|NL].
  - cbn [app] in *. change (msb64 [h]) with (h * W). change (mbits [h]) with 32. cbn [nval].
    assert (E : (dy (h + W * 0) (-32) == dy (h * W) (-64))%Q).
    { rewrite (dy_shift (h + W * 0) (-32) 32) by lia. apply dy_wd. change (2 ^ 32) with W. ring. }
    change (- (32)) with (-32). rewrite E. split; [apply Qle_refl|apply dy_lt; lia].
  - destruct (exists_last NL) as (k & w & ->).
    assert (EM : msb64 ((k ++ [w]) ++ [h]) = h * W + w) by (unfold msb64; rewrite !rev_app_distr; reflexivity).
    apply words_ok_app in Wl as (Wk & _).
    assert (EV : nval ((k ++ [w]) ++ [h]) = nval k + Wp (length k) * (h * W + w)).
    { rewrite !nval_app, app_length. cbn [nval length]. rewrite Wp_add. change (Wp 1) with W. ring. }
    pose proof (nval_bound k Wk) as BK. rewrite EM.
    assert (ES : forall c, (dy c (-64) == dy (c * Wp (length k)) (- mbits ((k ++ [w]) ++ [h])))%Q).
    { intros c. rewrite (dy_shift c (-64) (32 * Z.of_nat (length k))) by lia. rewrite Wp_pow2.
      replace (- mbits ((k ++ [w]) ++ [h])) with (-64 - 32 * Z.of_nat (length k)); [reflexivity|].
      unfold mbits. rewrite !app_length. cbn [length]. lia. }
    rewrite !ES, EV. rewrite dy_le, dy_lt. nia.
Qed.

Lemma dy_mul2 n e k : (dy n e * dy 1 k == dy n (e + k))%Q.
Proof. rewrite dy_mul. rewrite Z.mul_1_r. reflexivity. Qed.

(** The integer part of a magnitude below 2 ^ 64. *)
Lemma trunc_mag x : normal_mant (flmant x) -> 0 < flexp x <= 64 ->
  Qfloor (mag x) = msb64 (flmant x) / 2 ^ (64 - flexp x).
Proof.
  intros N E. destruct (msb64_spec _ N) as (L & U). set (m := flmant x) in *. set (e := flexp x) in *. set (t := msb64 m) in *.
  assert (L' : (dy t (e - 64) <= mag x)%Q).
  { unfold mag. fold m e. replace (e - 64) with (-64 + e) by lia. replace (e - mbits m) with (- mbits m + e) by lia.
    rewrite <- !dy_mul2. apply Qmult_le_compat_r; [auto|]. apply dy_nonneg. lia. }
  assert (U' : (mag x < dy (t + 1) (e - 64))%Q).
  { unfold mag. fold m e. replace (e - 64) with (-64 + e) by lia. replace (e - mbits m) with (- mbits m + e) by lia.
    rewrite <- !dy_mul2. apply Qmult_lt_r; [|auto]. apply dy_pos. lia. }
  pose proof (pow2_pos (64 - e) ltac:(lia)) as P. set (q := t / 2 ^ (64 - e)).
  pose proof (Z.div_mod t (2 ^ (64 - e)) ltac:(lia)) as DM. pose proof (Z.mod_pos_bound t (2 ^ (64 - e)) P) as MB. fold q in DM.
  assert (ES : forall c, (inject_Z c == dy (c * 2 ^ (64 - e)) (e - 64))%Q).
  { intros c. rewrite <- dy_int, (dy_shift c 0 (64 - e)) by lia. replace (0 - (64 - e)) with (e - 64) by lia. reflexivity. }
  apply floor_unique.
  - eapply Qle_trans; [|exact L']. rewrite ES. apply dy_le. lia.
  - eapply Qlt_le_trans; [exact U'|]. rewrite ES. apply dy_le. nia.
Qed.

(** * The least precision *)
Lemma min_prec_spec x : flform x = Finite -> normal_mant (flmant x) ->
  let r := required_min_precision x in
  1 <= r <= mbits (flmant x) /\
  exists o, 2 ^ (r - 1) <= 2 * o + 1 < 2 ^ r /\ (mag x == dy (2 * o + 1) (flexp x - r))%Q.
Proof.
  intros F N. unfold required_min_precision. rewrite F. cbn [is_finite negb]. destruct (normal_pos _ N) as (Hw & Hl & B).
  set (m := flmant x) in *. pose proof (normal_nz _ N) as NZ.
  destruct (trailling_zeros_spec m Hw NZ) as (o & T0 & O0 & E). set (t := trailling_zeros m) in *.
  pose proof (pow2_pos t T0) as PT.
  assert (TB : t < mbits m).
  { apply (Z.pow_lt_mono_r_iff 2); [lia|unfold mbits; lia|]. nia. }
  cbv zeta. split; [lia|]. exists o.
  assert (E1 : 2 ^ (mbits m - 1) = 2 ^ (mbits m - t - 1) * 2 ^ t) by (rewrite <- Z.pow_add_r by lia; f_equal; lia).
  assert (E2 : 2 ^ mbits m = 2 ^ (mbits m - t) * 2 ^ t) by (rewrite <- Z.pow_add_r by lia; f_equal; lia).
  split; [rewrite E, E1, E2 in B; split; [apply (Z.mul_le_mono_pos_r _ _ (2 ^ t))|apply (Z.mul_lt_mono_pos_r (2 ^ t))]; lia|].
  unfold mag. fold m. rewrite E. rewrite (dy_shift (2 * o + 1) _ t) by lia.
  replace (flexp x - (mbits m - t) - t) with (flexp x - mbits m) by lia. reflexivity.
Qed.

Lemma rep_odd p o e : 0 <= o -> representable p (dy (2 * o + 1) e) <-> 2 * o + 1 < 2 ^ p.
Proof.
  intros O. split.
  - intros (m & f & A & E). destruct (Z.le_gt_cases e f) as [L|L].
    + rewrite (dy_to m f e) in E by auto. rewrite dy_eq in E.
      destruct (Z.eq_dec f e) as [->|NE]; [rewrite Z.sub_diag, Z.mul_1_r in E; lia|].
      exfalso. replace (f - e) with (1 + (f - e - 1)) in E by lia. rewrite Z.pow_add_r in E by lia. lia.
    + rewrite (dy_to (2 * o + 1) e f) in E by lia. rewrite dy_eq in E. pose proof (pow2_pos (e - f) ltac:(lia)). nia.
  - intros H. exists (2 * o + 1), e. split; [lia|reflexivity].
Qed.

Lemma min_prec_least x p : flform x = Finite -> normal_mant (flmant x) -> 0 <= p ->
  representable p (flvalue x) <-> required_min_precision x <= p.
Proof.
  intros F N P. destruct (min_prec_spec x F N) as (R & o & B & E). set (r := required_min_precision x) in *.
  assert (K : representable p (flvalue x) <-> representable p (dy (2 * o + 1) (flexp x - r))).
  { split; intros H.
    - apply (rep_wd p _ _ E). apply (rep_sq p (flneg x)) in H. eapply rep_wd; [|exact H].
      rewrite (sq_wd _ _ _ (finite_val x F)). destruct (flneg x); cbn [sq]; ring.
    - apply (rep_wd p (sq (flneg x) (mag x))); [symmetry; apply finite_val; auto|]. apply rep_sq. eapply rep_wd; [symmetry; exact E|auto]. }
  pose proof (pow2_pos (r - 1) ltac:(lia)).
  rewrite K, rep_odd by lia. split; intros H1.
  - assert (r - 1 < p); [|lia]. apply (Z.pow_lt_mono_r_iff 2); lia.
  - apply Z.lt_le_trans with (2 ^ r); [lia|]. apply Z.pow_le_mono_r; lia.
Qed.

Definition is_intQ (v : Q) : Prop := exists n, (v == inject_Z n)%Q.
Lemma mag_int x : flform x = Finite -> normal_mant (flmant x) -> is_intQ (mag x) <-> required_min_precision x <= flexp x.
Proof.
  intros F N. destruct (min_prec_spec x F N) as (R & o & B & E). set (r := required_min_precision x) in *. split.
  - intros (n & H). rewrite E, <- dy_int in H. destruct (Z.le_gt_cases r (flexp x)) as [|L]; [auto|exfalso].
    rewrite (dy_to n 0 (flexp x - r)) in H by lia. rewrite dy_eq in H.
    replace (0 - (flexp x - r)) with (1 + (r - flexp x - 1)) in H by lia. rewrite Z.pow_add_r in H by lia. lia.
  - intros L. exists ((2 * o + 1) * 2 ^ (flexp x - r)). rewrite E, <- dy_int. rewrite (dy_to _ (flexp x - r) 0) by lia.
    rewrite Z.sub_0_r. reflexivity.
Qed.
Lemma value_int x : flform x = Finite -> is_intQ (flvalue x) <-> is_intQ (mag x).
Proof.
  intros F. pose proof (finite_val x F) as E. split; intros (n & H).
  - exists (sg (flneg x) n). rewrite H in E. destruct (flneg x); cbn [sq sg] in *; [|symmetry; auto].
    rewrite inject_Z_opp, E. ring.
  - exists (sg (flneg x) n). rewrite E. destruct (flneg x); cbn [sq sg] in *; rewrite ?inject_Z_opp, H; reflexivity.
Qed.

Lemma is_integer_spec x : ok_float x -> flform x = Finite ->
  exists b, fl_is_integer x = Some b /\ (b = true <-> is_intQ (flvalue x)).
Proof.
  intros O F. destruct (ok_finite x O F) as (P & N). unfold fl_is_integer. rewrite F. cbn [is_fnan is_finite negb].
  assert (K : is_intQ (flvalue x) <-> required_min_precision x <= flexp x) by (rewrite value_int by auto; apply mag_int; auto).
  destruct (min_prec_spec x F N) as (R & _).
  destruct (Z.leb_spec (flexp x) 0) as [L|L]; [exists false; split; [reflexivity|split; [discriminate|intros H; apply K in H; lia]]|].
  eexists. split; [reflexivity|]. rewrite K, orb_true_iff, !Z.leb_le. split; [|auto].
  intros [H|H]; [|auto]. assert (required_min_precision x <= flprec x); [|lia].
  apply min_prec_least; auto; [lia|]. destruct O as (_ & O). apply (O F).
Qed.

Lemma flt_mag_lt1 x : normal_mant (flmant x) -> flexp x <= 0 -> (mag x < 1)%Q.
Proof.
  intros N E. destruct (mag_binade x N) as (_ & U). eapply Qlt_le_trans; [exact U|].
  rewrite <- (dy_int 1). rewrite (dy_to 1 0 (flexp x)) by lia. apply dy_le. pose proof (pow2_pos (0 - flexp x) ltac:(lia)). lia.
Qed.
Lemma big_mag x k : normal_mant (flmant x) -> 0 <= k < flexp x -> (inject_Z (2 ^ k) <= mag x)%Q.
Proof.
  intros N E. destruct (mag_binade x N) as (L & _). eapply Qle_trans; [|exact L].
  rewrite <- dy_int, (dy_to 1 (flexp x - 1) 0) by lia. apply dy_le. rewrite Z.mul_1_l. apply Z.pow_le_mono_r; lia.
Qed.
Lemma acc_int x t : flform x = Finite -> normal_mant (flmant x) -> flneg x = false -> t = Qfloor (mag x) ->
  (if required_min_precision x <=? flexp x then Exact else Below) = acc_of (inject_Z t) (mag x).
Proof.
  intros F N NG ->. pose proof (Qfloor_le (mag x)) as L.
  destruct (Z.leb_spec (required_min_precision x) (flexp x)) as [H|H].
  - apply (mag_int x F N) in H. destruct H as (n & H). symmetry. apply acc_eq. rewrite H at 1. rewrite Qfloor_Z. symmetry. auto.
  - symmetry. apply acc_lt. apply Qle_lteq in L. destruct L as [L|L]; [auto|exfalso].
    assert (is_intQ (mag x)) as K by (exists (Qfloor (mag x)); symmetry; auto). apply mag_int in K; auto. lia.
Qed.

Lemma pos_trunc v t : (0 < v)%Q -> Qfloor v = t -> is_trunc v t.
Proof. intros P E. split; intros H; [auto|lra]. Qed.
Lemma neg_trunc v t : (0 < v)%Q -> Qfloor v = t -> is_trunc (- v) (- t).
Proof.
  intros P E. split; intros H; [lra|]. unfold Qceiling. rewrite (Qfloor_comp (- - v) v) by ring. rewrite E. reflexivity.
Qed.
Lemma trunc_wd v w t : (v == w)%Q -> is_trunc v t -> is_trunc w t.
Proof. intros E (A & B). split; intros H; rewrite <- E in H; [rewrite <- (Qfloor_comp _ _ E)|rewrite <- (Qceiling_comp _ _ E)]; auto. Qed.
Lemma acc_neg r v : acc_of (- r) (- v) = match acc_of r v with Below => Above | Exact => Exact | Above => Below end.
Proof.
  unfold acc_of. destruct (Qlt_le_dec r v) as [L|L].
  - rewrite (proj1 (Qlt_alt r v) L), (proj1 (Qgt_alt (- r) (- v))) by lra. reflexivity.
  - destruct (Qlt_le_dec v r) as [G|G].
    + rewrite (proj1 (Qgt_alt r v) G), (proj1 (Qlt_alt (- r) (- v))) by lra. reflexivity.
    + rewrite (proj1 (Qeq_alt r v)), (proj1 (Qeq_alt (- r) (- v))) by lra. reflexivity.
Qed.

Lemma truncate_u64_spec x : ok_float x -> flform x = Finite ->
  exists t, is_trunc (flvalue x) t /\
    let r := clamp 0 (2 ^ 64 - 1) t in
    truncate_to_u64 x = Some (r, acc_of (inject_Z r) (flvalue x)).
Proof.
  intros O F. destruct (ok_finite x O F) as (P & N). pose proof (finite_val x F) as FV. pose proof (mag_pos x N) as MP.
  unfold truncate_to_u64. rewrite F. destruct (flneg x) eqn:NG; cbn [sq] in FV.
  - exists (- Qfloor (mag x)). split; [eapply trunc_wd; [symmetry; exact FV|apply neg_trunc; auto]|].
    assert (0 <= Qfloor (mag x)) by (change 0 with (Qfloor 0); apply Qfloor_resp_le; lra).
    assert (clamp 0 (2 ^ 64 - 1) (- Qfloor (mag x)) = 0) as -> by (unfold clamp; lia). cbv zeta. f_equal. f_equal.
    symmetry. apply acc_gt. rewrite FV. change (inject_Z 0) with 0%Q. lra.
  - exists (Qfloor (mag x)). split; [eapply trunc_wd; [symmetry; exact FV|apply pos_trunc; auto]|].
    rewrite (acc_wd _ _ _ _ (Qeq_refl _) FV). cbv zeta.
    destruct (Z.leb_spec (flexp x) 0) as [L|L]; [|destruct (Z.leb_spec (flexp x) 64) as [L2|L2]].
    + pose proof (flt_mag_lt1 x N L). rewrite (floor_unique (mag x) 0) by (change (inject_Z 0) with 0%Q; change (inject_Z (0 + 1)) with 1%Q; lra).
      change (clamp 0 (2 ^ 64 - 1) 0) with 0. rewrite acc_lt by (change (inject_Z 0) with 0%Q; lra). reflexivity.
    + rewrite <- trunc_mag by (auto; lia). set (t := Qfloor (mag x)).
      assert (T : 0 <= t < 2 ^ 64).
      { destruct (mag_binade x N) as (_ & U). split; [change 0 with (Qfloor 0); apply Qfloor_resp_le; lra|].
        rewrite Zlt_Qlt. apply Qle_lt_trans with (mag x); [apply Qfloor_le|]. eapply Qlt_le_trans; [exact U|].
        rewrite <- dy_int, (dy_to 1 (flexp x) 0) by lia. apply dy_le. rewrite Z.mul_1_l. apply Z.pow_le_mono_r; lia. }
      assert (clamp 0 (2 ^ 64 - 1) t = t) as -> by (unfold clamp; lia). rewrite (acc_int x t) by auto. reflexivity.
    + pose proof (big_mag x 64 N ltac:(lia)) as BG.
      assert (T : 2 ^ 64 <= Qfloor (mag x)) by (rewrite <- (Qfloor_Z (2 ^ 64)); apply Qfloor_resp_le; auto).
      assert (clamp 0 (2 ^ 64 - 1) (Qfloor (mag x)) = 2 ^ 64 - 1) as -> by (unfold clamp; lia).
      rewrite acc_lt; [reflexivity|]. eapply Qlt_le_trans; [|exact BG]. rewrite <- Zlt_Qlt. lia.
Qed.

Lemma truncate_i64_spec x : ok_float x -> flform x = Finite ->
  exists t, is_trunc (flvalue x) t /\
    let r := clamp (- 2 ^ 63) (2 ^ 63 - 1) t in
    truncate_to_i64 x = Some (r, acc_of (inject_Z r) (flvalue x)).
Proof.
  intros O F. destruct (ok_finite x O F) as (P & N). pose proof (finite_val x F) as FV. pose proof (mag_pos x N) as MP.
  exists (sg (flneg x) (Qfloor (mag x))). split.
  { eapply trunc_wd; [symmetry; exact FV|]. destruct (flneg x); cbn [sq sg]; [apply neg_trunc|apply pos_trunc]; auto. }
  cbv zeta. rewrite (acc_wd _ _ _ _ (Qeq_refl _) FV). unfold truncate_to_i64. rewrite F.
  destruct (Z.leb_spec (flexp x) 0) as [L|L]; [|destruct (Z.leb_spec (flexp x) 63) as [L2|L2]].
  - pose proof (flt_mag_lt1 x N L). rewrite (floor_unique (mag x) 0) by (change (inject_Z 0) with 0%Q; change (inject_Z (0 + 1)) with 1%Q; lra).
    destruct (flneg x); cbn [sg sq make_accuracy].
    + change (clamp (- 2 ^ 63) (2 ^ 63 - 1) (- (0))) with 0. rewrite acc_gt by (change (inject_Z 0) with 0%Q; lra). reflexivity.
    + change (clamp (- 2 ^ 63) (2 ^ 63 - 1) 0) with 0. rewrite acc_lt by (change (inject_Z 0) with 0%Q; lra). reflexivity.
  - rewrite <- trunc_mag by (auto; lia). set (t := Qfloor (mag x)).
    assert (T : 0 <= t < 2 ^ 63).
    { destruct (mag_binade x N) as (_ & U). split; [change 0 with (Qfloor 0); apply Qfloor_resp_le; lra|].
      rewrite Zlt_Qlt. apply Qle_lt_trans with (mag x); [apply Qfloor_le|]. eapply Qlt_le_trans; [exact U|].
      rewrite <- dy_int, (dy_to 1 (flexp x) 0) by lia. apply dy_le. rewrite Z.mul_1_l. apply Z.pow_le_mono_r; lia. }
    assert (AP : (if required_min_precision x <=? flexp x then Exact else Below) = acc_of (inject_Z t) (mag x)).
    { unfold t. pose proof (acc_int (set_neg x false) t F N eq_refl eq_refl) as K.
      change (required_min_precision (set_neg x false)) with (required_min_precision x) in K. exact K. }
    destruct (flneg x); cbn [sg sq make_accuracy].
    + assert (clamp (- 2 ^ 63) (2 ^ 63 - 1) (- t) = - t) as -> by (unfold clamp; lia).
      rewrite (acc_wd (inject_Z (- t)) (- mag x) (- inject_Z t) (- mag x)) by (rewrite ?inject_Z_opp; reflexivity).
      rewrite acc_neg, <- AP. destruct (required_min_precision x <=? flexp x); reflexivity.
    + assert (clamp (- 2 ^ 63) (2 ^ 63 - 1) t = t) as -> by (unfold clamp; lia). rewrite AP. reflexivity.
  - pose proof (big_mag x 63 N ltac:(lia)) as BG.
    assert (T : 2 ^ 63 <= Qfloor (mag x)) by (rewrite <- (Qfloor_Z (2 ^ 63)); apply Qfloor_resp_le; auto).
    destruct (flneg x); cbn [sg sq make_accuracy].
    + assert (clamp (- 2 ^ 63) (2 ^ 63 - 1) (- Qfloor (mag x)) = - 2 ^ 63) as -> by (unfold clamp; lia).
      rewrite (acc_wd (inject_Z (- 2 ^ 63)) (- mag x) (- inject_Z (2 ^ 63)) (- mag x)) by (rewrite ?inject_Z_opp; reflexivity).
      rewrite acc_neg. f_equal. f_equal.
      destruct (min_prec_spec x F N) as (R & o & B & E). set (r := required_min_precision x) in *.
      assert (K : (mag x == inject_Z (2 ^ 63))%Q <-> flexp x = 64 /\ r = 1).
      { rewrite <- dy_int. split.
        - intros H. assert (R1 : r = 1).
          { assert (r <= 1); [|lia]. apply min_prec_least; auto; [lia|]. exists (sg (flneg x) 1), 63.
            split; [destruct (flneg x); cbn; lia|]. rewrite sg_dy, finite_val by auto. apply sq_wd. rewrite H.
            rewrite (dy_to 1 63 0) by lia. apply dy_wd. reflexivity. }
          split; [|auto]. rewrite R1 in *. change (2 ^ (1 - 1)) with 1 in B. assert (o = 0) by lia. subst o.
          rewrite E in H. change (2 * 0 + 1) with 1 in H. rewrite (dy_to 1 (flexp x - 1) 0), dy_eq, Z.mul_1_l, Z.sub_0_r in H by lia.
          apply Z.pow_inj_r in H; lia.
        - intros (E1 & R1). rewrite R1 in *. change (2 ^ (1 - 1)) with 1 in B. assert (o = 0) by lia. subst o.
          rewrite E, E1. rewrite (dy_to _ (64 - 1) 0) by lia. apply dy_wd. reflexivity. }
      destruct ((flexp x =? 64) && (r =? 1)) eqn:C.
      * apply andb_prop in C as (C1 & C2). apply Z.eqb_eq in C1, C2. rewrite acc_eq; [reflexivity|]. symmetry. apply K. auto.
      * rewrite acc_lt; [reflexivity|]. apply Qle_lteq in BG. destruct BG as [BG|BG]; [auto|exfalso].
        symmetry in BG. apply K in BG as (C1 & C2). rewrite C1, C2 in C. discriminate.
    + assert (clamp (- 2 ^ 63) (2 ^ 63 - 1) (Qfloor (mag x)) = 2 ^ 63 - 1) as -> by (unfold clamp; lia).
      rewrite acc_lt; [reflexivity|]. eapply Qlt_le_trans; [|exact BG]. rewrite <- Zlt_Qlt. lia.
Qed.
