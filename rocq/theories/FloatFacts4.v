(** Exponent range, normalisation, comparison of magnitudes, and the
    arithmetic of finite Floats. *)
From Coq Require Import ZArith QArith Qabs Qpower Lqa Lia Bool List.
From Verif Require Import Words Spec WordsFacts NatModel NatFacts NatFacts2 NatFacts3 NatFacts4 NatFacts5 NatConvFacts
  VecPrims VecFacts NatConv BigInt BigIntFacts Ieee Rat Float SpecFloat FloatFacts FloatFacts2 FloatFacts3.
Import ListNotations.
Open Scope Z_scope.

Ltac flds := cbn [flmode flacc flform flneg flprec flexp flmant] in *.

(** Every number of the form M * 2 ^ E has a rounded value, of at least the
    same binade. *)
Lemma round_exists mo p ng M B e : 0 < p -> 0 < B -> 2 ^ (B - 1) <= M < 2 ^ B ->
  exists r, rounded mo p (sq ng (dy M (e - B))) r /\ (dy 1 (e - 1) <= Qabs r)%Q.
Proof.
  intros P HB BM. destruct (Z.le_gt_cases B p) as [L|L].
  - exists (sq ng (dy M (e - B))). split.
    + apply exact_rounded, rep_sq. exists M, (e - B). split; [|reflexivity].
      pose proof (pow2_pos (B - 1) ltac:(lia)). apply Z.lt_le_trans with (2 ^ B); [lia|]. apply Z.pow_le_mono_r; lia.
    + rewrite sq_abs, dy_abs. rewrite (dy_shift 1 (e - 1) (B - 1)) by lia.
      replace (e - 1 - (B - 1)) with (e - B) by lia. apply dy_le. lia.
  - set (k := B - p). pose proof (pow2_pos (B - 1) ltac:(lia)) as PB. pose proof (pow2_pos k ltac:(lia)) as PK.
    pose proof (dropped M k (e - p) ltac:(lia) ltac:(lia)) as D. cbv zeta in D.
    replace (e - p - k) with (e - B) in D by (unfold k; lia).
    set (q := M / 2 ^ k) in *. set (v := dy M (e - B)) in *.
    destruct D as (D0 & D1 & D2 & D3 & D4).
    assert (QB : 2 ^ (p - 1) <= q < 2 ^ p).
    { unfold q. split.
      - apply Z.div_le_lower_bound; [lia|]. rewrite <- Z.pow_add_r by lia. unfold k. replace (B - p + (p - 1)) with (B - 1) by lia. lia.
      - apply Z.div_lt_upper_bound; [lia|]. rewrite <- Z.pow_add_r by lia. unfold k. replace (B - p + p) with B by lia. lia. }
    assert (LB : forall c, q <= c -> (dy 1 (e - 1) <= Qabs (sq ng (dy c (e - p))))%Q).
    { intros c Hc. rewrite sq_abs, dy_abs. rewrite (dy_shift 1 (e - 1) (p - 1)) by lia.
      replace (e - 1 - (p - 1)) with (e - p) by lia. apply dy_le. lia. }
    set (rb := Z.testbit M (k - 1)) in *. set (st := negb (M mod 2 ^ (k - 1) =? 0)) in *.
    destruct (rb || st) eqn:ER.
    + destruct (round_signed mo p q (e - p) v ng rb st (Z.odd q)) as (RS & _); auto.
      exists (sq ng (dy (if round_inc mo ng rb st (Z.odd q) then q + 1 else q) (e - p))). split; [auto|].
      apply LB. destruct (round_inc mo ng rb st (Z.odd q)); lia.
    + exists (sq ng (dy q (e - p))). split; [|apply LB; lia]. specialize (D0 eq_refl).
      apply (rounded_wd mo p (sq ng v) (sq ng v) (sq ng v)); [reflexivity|apply sq_wd; auto|].
      apply exact_rounded, rep_sq. apply (rep_wd p (dy q (e - p))); [symmetry; auto|]. apply rep_dy; lia.
Qed.

Lemma result_wd m p v w z : (v == w)%Q -> result_for m p v z -> result_for m p w z.
Proof.
  intros E (A & B & C & D & F). split; [auto|]. split; [auto|]. split; [auto|]. split; [rewrite <- E; auto|].
  destruct (flform z); auto.
  - rewrite <- E. auto.
  - destruct F as (F & G). split; [apply (rounded_wd m p v w (flvalue z)); auto; reflexivity|].
    rewrite G. apply acc_wd; [reflexivity|auto].
  - destruct F as ((r & F & G) & H). split; [|auto]. exists r. split; [|auto]. apply (rounded_wd m p v w r); auto. reflexivity.
Qed.

Lemma ser_spec x e : 0 < flprec x -> normal_mant (flmant x) ->
  exists z, set_exp_and_round x e 0 = Ok z /\
    result_for (flmode x) (flprec x) (sq (flneg x) (dy (nval (flmant x)) (e - mbits (flmant x)))) z.
Proof.
  intros HP HN. destruct x as [mo ac fo ng p e0 m]. flds. destruct (normal_pos m HN) as (Hw & Hl & BM).
  assert (MP : 0 < nval m) by (pose proof (pow2_pos (mbits m - 1) ltac:(unfold mbits; lia)); lia).
  assert (VP : (0 < dy (nval m) (e - mbits m))%Q) by (apply dy_pos; auto).
  unfold set_exp_and_round, set_acc, set_form, set_exp. flds.
  destruct (Z.ltb_spec e min_exp) as [L|L]; [|destruct (Z.ltb_spec max_exp e) as [G|G]].
  - eexists. split; [reflexivity|]. unfold result_for. flds.
    split; [split; flds; [lia|discriminate]|]. split; [auto|]. split; [auto|]. split; [apply sq_neg; auto|]. split; [|auto].
    rewrite sq_abs, dy_abs. apply Qlt_le_trans with (dy 1 e).
    + rewrite (dy_shift 1 e (mbits m)) by (unfold mbits; lia). apply dy_lt. lia.
    + rewrite (dy_to 1 (min_exp - 1) e) by lia. apply dy_le. pose proof (pow2_pos (min_exp - 1 - e) ltac:(lia)). lia.
  - eexists. split; [reflexivity|]. unfold result_for. flds.
    split; [split; flds; [lia|discriminate]|]. split; [auto|]. split; [auto|]. split; [apply sq_neg; auto|]. split; [|auto].
    destruct (round_exists mo p ng (nval m) (mbits m) e HP ltac:(unfold mbits; lia) BM) as (r & R1 & R2).
    exists r. split; [auto|]. apply Qle_trans with (dy 1 (e - 1)); [|auto].
    rewrite (dy_to 1 (e - 1) max_exp) by lia. apply dy_le. pose proof (pow2_pos (e - 1 - max_exp) ltac:(lia)). lia.
  - destruct (fl_round_spec (FL mo ac Finite ng p e m)) as (z & Z1 & Z2).
    { split; [reflexivity|]. flds. split; [auto|]. split; [auto|lia]. }
    exists z. split; [auto|]. flds. eapply result_wd; [|exact Z2]. apply flvalue_fin. reflexivity.
Qed.

Lemma fnorm_spec a : canon a -> 0 < nval a ->
  exists v s, fnorm a = Ok (v, s) /\ normal_mant v /\ mbits v = mbits a /\ nval v = nval a * 2 ^ s /\ 0 <= s < 32 /\
    bits_len a = mbits a - s.
Proof.
  intros C NZ. pose proof (canon_words a C) as Hw. pose proof (canon_len_pos a C) as Hl.
  pose proof (canon_nonnil a C) as Hn.
  unfold fnorm. rewrite is_nan_canon by auto.
  assert (LP : 0 < last a 0).
  { pose proof (words_ok_last a Hw). destruct C as (_ & _ & [C|C]); [|lia].
    destruct a as [|x [|y a]]; cbn in C; try lia. cbn [last nval] in *. lia. }
  pose proof (words_ok_last a Hw) as BL.
  set (s := leading_zeros (last a 0)).
  assert (ES : s = 31 - Z.log2 (last a 0)) by (unfold s, leading_zeros; destruct (Z.eqb_spec (last a 0) 0); [lia|reflexivity]).
  pose proof (Z.log2_spec (last a 0) LP) as LS. pose proof (Z.log2_nonneg (last a 0)).
  assert (LU : Z.log2 (last a 0) < 32) by (apply Z.log2_lt_pow2; [lia|]; change (2 ^ 32) with W; lia).
  pose proof (nval_last a Hn) as EV.
  pose proof (nval_bound _ (words_ok_removelast a Hw)) as BR. rewrite removelast_len in BR.
  pose proof (pow2_pos s ltac:(lia)) as PS.
  assert (EP : 2 ^ (mbits a - 1) = Wp (length a - 1) * 2 ^ (Z.log2 (last a 0)) * 2 ^ s).
  { rewrite Wp_pow2, <- !Z.pow_add_r by lia. f_equal. unfold mbits. lia. }
  assert (EP2 : 2 ^ mbits a = Wp (length a - 1) * 2 ^ (Z.succ (Z.log2 (last a 0))) * 2 ^ s).
  { rewrite Wp_pow2, <- !Z.pow_add_r by lia. f_equal. unfold mbits. lia. }
  pose proof (Wp_pos (length a - 1)) as PW.
  assert (NB : 2 ^ (mbits a - 1) <= nval a * 2 ^ s < 2 ^ mbits a).
  { rewrite EP, EP2. split.
    - apply Z.mul_le_mono_nonneg_r; [lia|]. nia.
    - apply Z.mul_lt_mono_pos_r; [lia|]. nia. }
  assert (BLN : bits_len a = mbits a - s).
  { rewrite bits_len_spec by auto. destruct (Z.eqb_spec (nval a) 0); [lia|].
    rewrite (Z.log2_unique (nval a) (mbits a - s - 1)); [lia|unfold mbits; lia|].
    replace (mbits a - 1) with (mbits a - s - 1 + s) in NB by lia.
    replace (mbits a) with (Z.succ (mbits a - s - 1) + s) in NB at 2 by lia.
    rewrite !Z.pow_add_r in NB by (unfold mbits; lia).
    destruct NB as (NB1 & NB2). apply Z.mul_le_mono_pos_r in NB1; [|auto]. apply Z.mul_lt_mono_pos_r in NB2; auto. }
  destruct (Z.ltb_spec 0 s) as [L|L].
  - pose proof (shl_vu_inner_spec a s Hw ltac:(lia)) as (S1 & S2 & S3 & S4).
    destruct (shl_vu_inner a s) as [r c]. cbn [fst snd] in *. rewrite Wp_pow2 in S1. fold (mbits a) in S1.
    pose proof (nval_nonneg r S2).
    assert (c = 0).
    { assert (2 ^ mbits a * c < 2 ^ mbits a * 1) as K by lia. apply Z.mul_lt_mono_pos_l in K; [lia|]. apply pow2_pos. unfold mbits. lia. }
    subst c. rewrite Z.eqb_refl.
    exists r, s. assert (EB : mbits r = mbits a) by (unfold mbits; lia).
    split; [reflexivity|]. split; [apply normal_intro; [auto|lia|rewrite EB; lia]|]. split; [auto|]. split; [lia|]. split; [lia|auto].
  - exists a, s. assert (S0 : s = 0) by lia. rewrite S0 in *. rewrite Z.mul_1_r in *. split; [reflexivity|].
    split; [apply normal_intro; auto; lia|]. split; [auto|]. split; [auto|]. split; [lia|auto].
Qed.

(** An exact value given as a Nat and an exponent, put into [x] and rounded. *)
Lemma norm_round_spec x m E : 0 < flprec x -> canon m -> 0 < nval m ->
  exists z, (do '(v, s) <- fnorm m; set_exp_and_round (set_mant x v) (E + mbits m - s) 0) = Ok z /\
    result_for (flmode x) (flprec x) (sq (flneg x) (dy (nval m) E)) z.
Proof.
  intros HP C NZ. destruct (fnorm_spec m C NZ) as (v & s & F1 & F2 & F3 & F4 & F5 & _). rewrite F1. cbn [bind].
  destruct (ser_spec (set_mant x v) (E + mbits m - s) HP F2) as (z & Z1 & Z2). exists z. split; [auto|].
  eapply result_wd; [|exact Z2]. cbn [flneg flmant set_mant]. apply sq_wd. rewrite F3, F4.
  rewrite (dy_shift (nval m) E s) by lia. replace (E + mbits m - s - mbits m) with (E - s) by lia. reflexivity.
Qed.

(** * Comparing magnitudes *)
Definition cmpz (c : comparison) : Z := match c with Lt => -1 | Eq => 0 | Gt => 1 end.
Lemma words_ok_rev' l : words_ok (rev l) <-> words_ok l.
Proof. split; intros H; [rewrite <- (rev_involutive l)|]; apply words_ok_rev; auto. Qed.
Lemma nval_rev_cons x l : nval (rev (x :: l)) = nval (rev l) + Wp (length l) * x.
Proof. cbn [rev]. rewrite nval_app, rev_length. cbn [nval]. ring. Qed.

Lemma ucmp_words_spec a : forall b, words_ok a -> words_ok b ->
  ucmp_words a b = cmpz (nval (rev a) * Wp (length b) ?= nval (rev b) * Wp (length a)).
Proof.
  assert (POS : forall l, words_ok l -> 0 <= nval (rev l) < Wp (length l)).
  { intros l H. pose proof (nval_bound (rev l) (proj2 (words_ok_rev' l) H)) as K. rewrite rev_length in K. auto. }
  induction a as [|x a IH]; intros b Ha Hb.
  - cbn [rev nval length]. change (Wp 0) with 1. rewrite Z.mul_1_r, Z.mul_0_l.
    induction b as [|y l IHl]; [reflexivity|].
    assert (ucmp_words [] (y :: l) = if 0 <? y then -1 else if y <? 0 then 1 else ucmp_words [] l) as -> by (destruct l; reflexivity).
    apply words_ok_cons in Hb as [By Hb]. rewrite nval_rev_cons.
    pose proof (Wp_pos (length l)). pose proof (POS l Hb).
    destruct (Z.ltb_spec 0 y) as [L|L].
    + assert (0 < nval (rev l) + Wp (length l) * y) by nia. rewrite (proj2 (Z.compare_lt_iff _ _)) by auto. reflexivity.
    + destruct (Z.ltb_spec y 0); [lia|]. assert (y = 0) by lia. subst y. rewrite Z.mul_0_r, Z.add_0_r. apply IHl. auto.
  - apply words_ok_cons in Ha as [Bx Ha]. rewrite nval_rev_cons. pose proof (POS a Ha) as PA. pose proof (Wp_pos (length a)) as WA.
    destruct b as [|y b]; cbn [ucmp_words].
    + cbn [rev nval length]. change (Wp 0) with 1. rewrite Z.mul_1_r, Z.mul_0_l.
      destruct (Z.ltb_spec x 0); [lia|]. destruct (Z.ltb_spec 0 x) as [L|L].
      * assert (0 < nval (rev a) + Wp (length a) * x) by nia. rewrite (proj2 (Z.compare_gt_iff _ _)) by lia. reflexivity.
      * assert (x = 0) by lia. subst x. rewrite Z.mul_0_r, Z.add_0_r. rewrite IH by (auto; constructor).
        cbn [rev nval length]. change (Wp 0) with 1. rewrite Z.mul_1_r, Z.mul_0_l. reflexivity.
    + apply words_ok_cons in Hb as [By Hb]. rewrite nval_rev_cons. pose proof (POS b Hb) as PB. pose proof (Wp_pos (length b)) as WB.
      cbn [length]. rewrite !Wp_S.
      set (A := nval (rev a)) in *. set (C := nval (rev b)) in *. set (U := Wp (length a)) in *. set (V := Wp (length b)) in *.
      destruct (Z.ltb_spec x y) as [L|L]; [|destruct (Z.ltb_spec y x) as [G|G]].
      * assert ((A + U * x) * V < (C + V * y) * U).
        { assert ((A + U * x) * V < U * (x + 1) * V) by nia. assert (U * (x + 1) * V <= U * y * V) by nia. nia. }
        rewrite (proj2 (Z.compare_lt_iff _ _)) by nia. reflexivity.
      * assert ((C + V * y) * U < (A + U * x) * V).
        { assert ((C + V * y) * U < V * (y + 1) * U) by nia. assert (V * (y + 1) * U <= V * x * U) by nia. nia. }
        rewrite (proj2 (Z.compare_gt_iff _ _)) by nia. reflexivity.
      * assert (x = y) by lia. subst y. rewrite IH by auto. fold A C U V. f_equal.
        destruct (Z.compare_spec (A * V) (C * U)); symmetry; [apply Z.compare_eq_iff|apply Z.compare_lt_iff|apply Z.compare_gt_iff]; nia.
Qed.

(** The magnitude of a finite Float. *)
Definition mag (x : float) : Q := dy (nval (flmant x)) (flexp x - mbits (flmant x)).
Lemma mag_binade x : normal_mant (flmant x) -> (dy 1 (flexp x - 1) <= mag x)%Q /\ (mag x < dy 1 (flexp x))%Q.
Proof.
  intros HN. destruct (normal_pos _ HN) as (Hw & Hl & B). unfold mag. set (e := flexp x). set (m := flmant x) in *.
  assert (0 < mbits m) by (unfold mbits; lia). split.
  - rewrite (dy_shift 1 (e - 1) (mbits m - 1)) by lia. replace (e - 1 - (mbits m - 1)) with (e - mbits m) by lia. apply dy_le. lia.
  - rewrite (dy_shift 1 e (mbits m)) by lia. apply dy_lt. lia.
Qed.
Lemma binade_lt x y : normal_mant (flmant x) -> normal_mant (flmant y) -> flexp x < flexp y -> (mag x < mag y)%Q.
Proof.
  intros HX HY L. destruct (mag_binade x HX) as (_ & A). destruct (mag_binade y HY) as (B & _).
  apply Qlt_le_trans with (dy 1 (flexp x)); [auto|]. apply Qle_trans with (dy 1 (flexp y - 1)); [|auto].
  rewrite (dy_to 1 (flexp y - 1) (flexp x)) by lia. apply dy_le. pose proof (pow2_pos (flexp y - 1 - flexp x) ltac:(lia)). lia.
Qed.

Lemma ucmp_spec x y : normal_mant (flmant x) -> normal_mant (flmant y) -> ucmp x y = cmpz (mag x ?= mag y)%Q.
Proof.
  intros HX HY. unfold ucmp. destruct (Z.ltb_spec (flexp x) (flexp y)) as [L|L]; [|destruct (Z.ltb_spec (flexp y) (flexp x)) as [G|G]].
  - rewrite (proj1 (Qlt_alt _ _) (binade_lt x y HX HY L)). reflexivity.
  - rewrite (proj1 (Qgt_alt _ _) (binade_lt y x HY HX G)). reflexivity.
  - assert (E : flexp x = flexp y) by lia. destruct (normal_pos _ HX) as (WX & _). destruct (normal_pos _ HY) as (WY & _).
    rewrite ucmp_words_spec by (apply words_ok_rev; auto). rewrite !rev_involutive, !rev_length.
    unfold mag. rewrite E. set (a := flmant x) in *. set (b := flmant y) in *.
    assert (EX : (dy (nval a) (flexp y - mbits a) == dy (nval a * Wp (length b)) (flexp y - mbits a - mbits b))%Q).
    { rewrite Wp_pow2. fold (mbits b). apply dy_shift. unfold mbits. lia. }
    assert (EY : (dy (nval b) (flexp y - mbits b) == dy (nval b * Wp (length a)) (flexp y - mbits a - mbits b))%Q).
    { rewrite Wp_pow2. fold (mbits a). rewrite (dy_shift (nval b) _ (mbits a)) by (unfold mbits; lia).
      replace (flexp y - mbits b - mbits a) with (flexp y - mbits a - mbits b) by lia. reflexivity. }
    rewrite (Qcompare_comp _ _ EX _ _ EY).
    destruct (Z.compare_spec (nval a * Wp (length b)) (nval b * Wp (length a))) as [H|H|H].
    + rewrite H. rewrite (proj1 (Qeq_alt _ _) (Qeq_refl _)). reflexivity.
    + apply (dy_lt _ _ (flexp y - mbits a - mbits b)) in H. rewrite (proj1 (Qlt_alt _ _) H). reflexivity.
    + apply (dy_lt _ _ (flexp y - mbits a - mbits b)) in H. rewrite (proj1 (Qgt_alt _ _) H). reflexivity.
Qed.
