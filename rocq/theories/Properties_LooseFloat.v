(** What [Float::from] makes of an integer that is kept with leading zero words:
    property C133. *)
From Coq Require Import ZArith Znumtheory QArith List Lia Bool.
From Verif Require Import Words WordsFacts VecPrims VecFacts NatModel NatFacts NatFacts4 SpecLoose
  BigInt Float SpecFloat FloatFacts2 FloatFacts3.
Import ListNotations.
Open Scope Z_scope.

(** ** C133
    [fnorm] shifts by 32 bits, which the shift of words takes for 0 in both
    directions: every word is or-ed with the one below it. *)
Definition smeared (m : Z) : Z := Z.lor m (m * 2 ^ 32).
(** The quotient by 2^32 to the nearest integer, ties to even. *)
Definition nearest_even (n : Z) : Z :=
  let q := n / 2 ^ 32 in
  let r := n mod 2 ^ 32 in
  if (2 ^ 31 <? r) || ((r =? 2 ^ 31) && Z.odd q) then q + 1 else q.

(** The value of the Float made of [m] kept in [l] words, the top one zero. *)
Definition smeared_value (l m : Z) : Q := if l =? 2 then dy (smeared m) (-32) else inject_Z (nearest_even (smeared m)).

Lemma shl_words_0 : forall x prev, words_ok x -> 0 <= prev < W ->
  words_ok (shl_words 0 0 prev x) /\ length (shl_words 0 0 prev x) = length x /\
  nval (shl_words 0 0 prev x) = Z.lor (nval x) ((prev + W * nval x) mod Wp (length x)).
Proof.
  induction x as [|a x IH]; intros prev Hx Hp; cbn [shl_words].
  - split; [constructor|]. split; [reflexivity|]. cbn [nval length]. rewrite Z.lor_0_l. change (Wp 0) with 1. rewrite Z.mod_1_r. reflexivity.
  - apply words_ok_cons in Hx as [Ha Hx]. destruct (IH a Hx Ha) as (I1 & I2 & I3).
    rewrite Z.pow_0_r, Z.mul_1_r, Z.div_1_r, Z.mod_small by lia. split; [|split].
    + apply words_ok_cons. split; [apply lor_word; auto|auto].
    + cbn [length]. rewrite I2. reflexivity.
    + rewrite !nval_cons, I3. cbn [length]. rewrite Wp_S. pose proof (Wp_pos (length x)).
      set (T := a + W * nval x). assert (E : (prev + W * T) mod (W * Wp (length x)) = prev + W * (T mod Wp (length x))).
      { rewrite Z.rem_mul_r by lia. rewrite (Z.mul_comm W T), Z.mod_add, Z.div_add, Z.mod_small, (Z.div_small prev) by lia. reflexivity. }
      rewrite E. unfold T at 1. symmetry. apply lor_cons; auto.
Qed.

(** A number with a zero top word. *)
Lemma top_zero x l m : stored x l m -> 1 < l -> m < 2 ^ (32 * (l - 1)) -> last x 0 = 0.
Proof.
  intros (H & L & _ & V) L1 M. assert (N : x <> []) by (intros ->; cbn in L; lia). pose proof (nval_last x N) as E.
  pose proof (words_ok_last x H) as B. rewrite Wp_pow2 in E. replace (Z.of_nat (length x - 1)) with (l - 1) in E by lia.
  assert (R : words_ok (removelast x)) by (rewrite (last_split x N) in H; apply words_ok_app in H; tauto).
  pose proof (nval_nonneg _ R). pose proof (Z.pow_pos_nonneg 2 (32 * (l - 1)) ltac:(lia) ltac:(lia)). nia.
Qed.

Lemma fnorm_loose x l m : stored x l m -> 1 < l -> m < 2 ^ (32 * (l - 1)) ->
  exists v, fnorm x = Ok (v, 32) /\ stored v l (smeared m).
Proof.
  intros S L1 M. pose proof (top_zero x l m S L1 M) as T. destruct S as (H & L & _ & V).
  destruct x as [|a x]; [cbn in L; lia|]. apply words_ok_cons in H as [Ha Hx].
  unfold fnorm. cbn [is_nan]. rewrite T. change (leading_zeros 0) with 32. cbn [Z.ltb Z.compare]. unfold shl_vu_inner. cbn [is_nan Z.eqb orb].
  change (32 mod 32) with 0. change ((32 - 0) mod 32) with 0. rewrite T. rewrite Z.pow_0_r, Z.div_1_r. cbn [Z.eqb].
  eexists. split; [reflexivity|]. cbn [shl_body]. rewrite Z.pow_0_r, Z.mul_1_r, Z.mod_small by auto.
  destruct (shl_words_0 x a Hx Ha) as (I1 & I2 & I3). split; [apply words_ok_cons; auto|]. split; [cbn [length] in *; lia|]. split; [lia|].
  rewrite nval_cons, I3. rewrite nval_cons in V. rewrite V. unfold smeared.
  assert (E : m mod Wp (length x) = m). { apply Z.mod_small. rewrite Wp_pow2. cbn [length] in L. replace (Z.of_nat (length x)) with (l - 1) by lia. pose proof (nval_nonneg x Hx). lia. }
  rewrite E. transitivity (Z.lor (a + W * nval x) (0 + W * m)); [|f_equal; [auto|change W with (2 ^ 32); ring]].
  rewrite lor_cons by lia. rewrite Z.lor_0_r. reflexivity.
Qed.

Lemma bits_loose x l m : stored x l m -> 1 < l -> m < 2 ^ (32 * (l - 1)) -> bits_len x = 32 * (l - 1).
Proof.
  intros S L1 M. pose proof (top_zero x l m S L1 M) as T. destruct S as (H & L & _ & V). unfold bits_len. destruct x; [cbn in L; lia|]. rewrite T. cbn [Z.eqb].
  destruct (Nat.eqb_spec (length (z :: x)) 1); lia.
Qed.

Lemma neq_u32_loose x l m : stored x l m -> 1 < l -> nat_eq_u32 x 0 = false.
Proof.
  intros (H & L & _ & V) L1. destruct x as [|a [|b x]]; try (cbn in L; lia). unfold nat_eq_u32, nat_eq, from_u32. cbn [is_nan list_eqb]. apply andb_false_r.
Qed.

(** A mantissa of [l] words rounded to [l - 1] words, normalised or not. *)
Lemma round_word v l n s : stored v l n -> 3 <= l -> 32 * (l - 1) < max_exp ->
  let p := 32 * (l - 1) in
  exists z, fl_round (FL ToNearestEven Exact Finite s p p v) 0 = Ok z /\
    flform z = Finite /\ flneg z = s /\ flprec z = p /\ flmode z = ToNearestEven /\
    (flvalue z == inject_Z (if s then - nearest_even n else nearest_even n))%Q /\
    (flacc z = Exact <-> n mod 2 ^ 32 = 0).
Proof.
  intros (H & L & _ & V) L3 ME p. assert (NN : 0 <= n) by (rewrite <- V; apply nval_nonneg; auto).
  assert (FV : forall a e m, mbits m = p -> (p <= e) -> forall r, nval m * 2 ^ (e - p) = r ->
    (flvalue (FL ToNearestEven a Finite s p e m) == inject_Z (if s then - r else r))%Q).
  { intros a e m MB EP r R. unfold flvalue. cbn [flform flneg flmant flexp]. rewrite MB. unfold dy. rewrite <- R.
    assert (X : (2 ^ (e - p) == inject_Z (2 ^ (e - p)))%Q) by (symmetry; apply (Qpower.Zpower_Qpower 2 (e - p)); lia).
    rewrite X. rewrite <- inject_Z_mult. destruct s; [rewrite <- Z.mul_opp_l|]; reflexivity. }
  unfold fl_round, set_acc, set_mant, set_exp, set_form. cbn [flmode flacc flform flneg flprec flexp flmant is_finite negb].
  assert (MB : mbits v = p + 32) by (unfold mbits; lia). rewrite MB. destruct (Z.leb_spec (p + 32) p); [lia|].
  replace (p + 32 - p - 1) with 31 by lia.
  assert (EB : is_set_bit v 31 = Ok (Some (Z.testbit n 31))).
  { unfold is_set_bit. assert (31 < bits_len v). { unfold bits_len. destruct v as [|w v]; [cbn in L; lia|]. assert (0 <= last (w :: v) 0 < W) by (apply words_ok_last; auto). set (t := last (w :: v) 0) in *.
      destruct (Z.eqb_spec t 0); [destruct (Nat.eqb_spec (length (w :: v)) 1); lia|]. unfold leading_zeros. destruct (Z.eqb_spec t 0); [lia|]. pose proof (Z.log2_nonneg t). lia. }
    destruct (Z.leb_spec (bits_len v) 31); [lia|]. rewrite is_set_bit__spec by (auto; lia). rewrite V. reflexivity. }
  rewrite EB. cbn [bind is_nearest_even]. rewrite Z.eqb_refl. cbn [andb]. rewrite orb_true_r.
  rewrite sticky_spec by (auto; unfold mbits; lia). rewrite V.
  set (r := n mod 2 ^ 32). set (q := n / 2 ^ 32).
  assert (RB : 0 <= r < 2 ^ 32) by (apply Z.mod_pos_bound; lia).
  assert (T31 : Z.testbit n 31 = (2 ^ 31 <=? r)).
  { rewrite <- (Z.mod_pow2_bits_low n 32 31) by lia. fold r. destruct (Z.leb_spec (2 ^ 31) r) as [G|G].
    - apply Z.testbit_true; [lia|]. assert (r / 2 ^ 31 = 1) as -> by (symmetry; apply Z.div_unique with (r - 2 ^ 31); lia). reflexivity.
    - apply Z.testbit_false; [lia|]. rewrite Z.div_small by lia. reflexivity. }
  assert (S31 : n mod 2 ^ 31 = if 2 ^ 31 <=? r then r - 2 ^ 31 else r).
  { assert (n mod 2 ^ 31 = r mod 2 ^ 31) as ->. { unfold r. apply Zmod_div_mod; [lia|lia|]. exists 2. reflexivity. }
    destruct (Z.leb_spec (2 ^ 31) r); [|apply Z.mod_small; lia]. symmetry. apply Z.mod_unique with 1; lia. }
  rewrite T31, S31. replace ((p + 31) / 32) with (l - 1) by (unfold p; apply Z.div_unique with 31; lia).
  rewrite L. destruct (Z.ltb_spec (l - 1) l); [|lia]. replace (Z.to_nat (l - (l - 1))) with 1%nat by lia.
  replace (32 * (l - 1) - p) with 0 by (unfold p; lia). rewrite Z.pow_0_r.
  set (m1 := skipn 1 v). assert (WM1 : words_ok m1) by (apply words_ok_skipn; auto).
  assert (V1 : nval m1 = q). { unfold m1. rewrite nval_skipn by auto. rewrite V. reflexivity. }
  assert (L1 : Z.of_nat (length m1) = l - 1) by (unfold m1; rewrite skipn_length; lia).
  assert (N1 : m1 <> []) by (intros Z0; rewrite Z0 in L1; cbn in L1; lia).
  assert (UP : forall u, u <> [] -> words_ok u -> upd_first (fun w => w - w mod 1) u = Ok u).
  { intros u U _. destruct u; [congruence|]. cbn [upd_first]. rewrite Z.mod_1_r, Z.sub_0_r. reflexivity. }
  assert (M1 : mbits m1 = p) by (unfold mbits; lia).
  assert (KEEP : forall a, (flvalue (FL ToNearestEven a Finite s p p m1) == inject_Z (if s then - q else q))%Q).
  { intros a. apply FV; [auto|lia|]. rewrite Z.sub_diag, V1. apply Z.mul_1_r. }
  assert (INC : forall a, exists z, (let '(v0, c) := add_vw m1 1 in
      if negb (c =? 0) then if max_exp <=? p then Ok (FL ToNearestEven a Inf s p p v0)
        else do v1 <- upd_first (fun w => w - w mod 1) (set_last (fst (shr_vu v0 1)) (Z.lor (last (fst (shr_vu v0 1)) 0) (2 ^ 31))); Ok (FL ToNearestEven a Finite s p (p + 1) v1)
      else do v1 <- upd_first (fun w => w - w mod 1) v0; Ok (FL ToNearestEven a Finite s p p v1)) = Ok z /\
      flform z = Finite /\ flneg z = s /\ flprec z = p /\ flmode z = ToNearestEven /\ flacc z = a /\ (flvalue z == inject_Z (if s then - (q + 1) else q + 1))%Q).
  { intros a. pose proof (add_vw_spec m1 1 WM1 ltac:(lia)) as (E1 & Hv & Lv & Bc & Bc1). specialize (Bc1 N1). destruct (add_vw m1 1) as [u c]. cbn [fst snd] in *.
    rewrite Wp_pow2, L1, V1 in E1. fold p in E1. assert (NU : u <> []) by (intros Z0; rewrite Z0 in Lv; change (length (@nil Z)) with 0%nat in Lv; lia).
    pose proof (nval_bound u Hv) as BU. rewrite Wp_pow2, Lv, L1 in BU. fold p in BU.
    pose proof (nval_bound m1 WM1) as BM. rewrite Wp_pow2, L1, V1 in BM. fold p in BM.
    destruct (Z.eqb_spec c 0) as [->|C]; cbn [negb].
    - rewrite UP by auto. cbn [bind]. eexists. split; [reflexivity|]. cbn [flform flneg flprec flmode flacc]. do 5 (split; [reflexivity|]).
      apply FV; [unfold mbits in *; lia|lia|]. rewrite Z.sub_diag. lia.
    - destruct (Z.leb_spec max_exp p); [unfold p in *; lia|].
      assert (c = 1) by lia. subst c. assert (U0 : nval u = 0) by lia.
      pose proof (shr_vu_spec u 1 Hv ltac:(lia)) as (S1 & _ & S3 & S4). set (w := fst (shr_vu u 1)) in *.
      rewrite U0 in S1. change (0 / 2 ^ 1) with 0 in S1.
      assert (EW : mbits w = p) by (unfold mbits in *; lia).
      pose proof (Z.pow_pos_nonneg 2 (p - 1) ltac:(lia) ltac:(lia)) as PP.
      destruct (set_top w S3 ltac:(lia)) as (U1 & U2 & U3); [rewrite EW; lia|].
      rewrite UP; [|intros Z0; rewrite Z0 in U2; change (length (@nil Z)) with 0%nat in U2; lia|auto]. cbn [bind]. eexists. split; [reflexivity|].
      cbn [flform flneg flprec flmode flacc]. do 5 (split; [reflexivity|]). apply FV; [unfold mbits in *; lia|lia|].
      rewrite U3, S1, EW. replace (p + 1 - p) with 1 by lia. assert (2 ^ p = 2 * 2 ^ (p - 1)) by (rewrite <- Z.pow_succ_r by lia; f_equal; lia). lia. }
  assert (AC : forall b, (make_accuracy b = Exact <-> r = 0) <-> r <> 0) by (intros []; split; [intros (_ & X) Y; discriminate (X Y)|intros; split; [discriminate|lia]|intros (_ & X) Y; discriminate (X Y)|intros; split; [discriminate|lia]]).
  assert (NE : nearest_even n = if (2 ^ 31 <? r) || ((r =? 2 ^ 31) && Z.odd q) then q + 1 else q) by reflexivity. rewrite NE. clear NE.
  destruct (Z.leb_spec (2 ^ 31) r) as [G|G].
  - cbn [orb]. destruct (Z.eqb_spec (r - 2 ^ 31) 0) as [R|R].
    + cbn [Z.land Z.eqb negb andb]. destruct (Z.ltb_spec (2 ^ 31) r); [lia|]. destruct (Z.eqb_spec r (2 ^ 31)); [|lia]. cbn [orb andb].
      destruct m1 as [|w u] eqn:EM; [congruence|]. cbn [bind round_inc]. rewrite <- EM in *.
      assert (ODD : negb (Z.land w 1 =? 0) = Z.odd q).
      { change 1 with (2 ^ 0). rewrite land_pow2_testbit by lia. rewrite <- V1, EM, nval_cons, Z.bit0_odd. change W with (2 * 2 ^ 31). rewrite <- Z.mul_assoc, Z.odd_add_mul_2. reflexivity. }
      rewrite ODD. destruct (Z.odd q); cbn [andb orb].
      * destruct (INC (make_accuracy (negb (eqb true s)))) as (z & Z1 & Z2 & Z3 & Z4 & Z5 & Z6 & Z7). exists z. split; [exact Z1|]. do 5 (split; [auto|]). rewrite Z6. apply AC. lia.
      * rewrite UP by auto. cbn [bind]. eexists. split; [reflexivity|]. cbn [flform flneg flprec flmode flacc]. do 4 (split; [reflexivity|]). split; [apply KEEP|]. apply AC. lia.
    + cbn [Z.land Z.eqb negb andb bind round_inc orb]. destruct (Z.ltb_spec (2 ^ 31) r); [|lia]. cbn [orb].
      destruct (INC (make_accuracy (negb (eqb true s)))) as (z & Z1 & Z2 & Z3 & Z4 & Z5 & Z6 & Z7). exists z. split; [exact Z1|]. do 5 (split; [auto|]). rewrite Z6. apply AC. lia.
  - destruct (Z.ltb_spec (2 ^ 31) r); [lia|]. destruct (Z.eqb_spec r (2 ^ 31)); [lia|]. cbn [orb andb].
    destruct (Z.eqb_spec r 0) as [R|R]; cbn [Z.land Z.eqb negb andb bind round_inc orb]; rewrite UP by auto; cbn [bind]; eexists; (split; [reflexivity|]); cbn [flform flneg flprec flmode flacc]; do 4 (split; [reflexivity|]); (split; [apply KEEP|]).
    + tauto.
    + apply AC. auto.
Qed.

(** The Float made of an integer with a zero top word.  Its exponent is that of
    a top word without leading zeros. *)
Theorem C133_value : forall x l m s, stored x l m -> 1 < l -> m < 2 ^ (32 * (l - 1)) -> 32 * (l - 1) < max_exp ->
  exists z, fl_from_bigint (BI x s) = Ok z /\ flform z = Finite /\ flneg z = s /\ flprec z = Z.max (32 * (l - 1)) 64 /\ flmode z = ToNearestEven /\
    (flvalue z == (if s then - smeared_value l m else smeared_value l m))%Q /\
    (flacc z = Exact <-> l = 2 \/ m mod 2 ^ 32 = 0).
Proof.
  intros x l m s S L1 M ME. destruct (fnorm_loose x l m S L1 M) as (v & F & SV).
  unfold fl_from_bigint, set_bigint, set_nat. cbn [bnat bneg]. rewrite (neq_u32_loose x l m), (bits_loose x l m), F by auto. cbn [bind].
  assert (NX : is_nan x = false) by (destruct S as (_ & L & _); destruct x; [cbn in L; lia|reflexivity]). rewrite NX.
  unfold fl_default. cbn [flmode flacc flform flneg flprec flexp flmant Z.eqb]. unfold set_exp_and_round, set_acc, set_mant, set_exp, set_form. cbn [flmode flacc flform flneg flprec flexp flmant].
  destruct (Z.ltb_spec (32 * (l - 1)) min_exp); [unfold min_exp in *; lia|]. destruct (Z.ltb_spec max_exp (32 * (l - 1))); [lia|].
  unfold smeared_value. destruct (Z.eqb_spec l 2) as [->|L2].
  - change (Z.max (32 * (2 - 1)) 64) with 64. change (32 * (2 - 1)) with 32.
    unfold fl_round, set_acc. cbn [flmode flacc flform flneg flprec flexp flmant is_finite negb].
    destruct SV as (HV & LV & _ & VV). destruct (Z.leb_spec (mbits v) 64); [|unfold mbits in *; lia]. eexists. split; [reflexivity|].
    cbn [flmode flacc flform flneg flprec]. do 4 (split; [reflexivity|]). split; [|split; auto].
    unfold flvalue. cbn [flform flneg flmant flexp]. rewrite VV. unfold mbits. rewrite LV. change (32 - 32 * 2) with (-32). unfold dy. destruct s; [|reflexivity].
    rewrite inject_Z_opp. ring.
  - rewrite Z.max_l by lia. destruct (round_word v l (smeared m) s SV ltac:(lia) ME) as (z & Z1 & Z2 & Z3 & Z4 & Z5 & Z6 & Z7).
    exists z. do 5 (split; [auto|]). split; [rewrite Z6; destruct s; [rewrite inject_Z_opp|]; reflexivity|].
    rewrite Z7. assert (smeared m mod 2 ^ 32 = m mod 2 ^ 32) as ->.
    { unfold smeared. rewrite <- !Z.land_ones by lia. rewrite Z.land_lor_distr_l. rewrite !Z.land_ones by lia. rewrite Z.mod_mul by lia. apply Z.lor_0_r. }
    tauto.
Qed.

(** From 2^26 + 1 words on the result is infinite, also for a small number. *)
Theorem C133_many_words : forall x l m s, stored x l m -> m < 2 ^ (32 * (l - 1)) -> max_exp < 32 * (l - 1) ->
  exists z, fl_from_bigint (BI x s) = Ok z /\ flform z = Inf /\ flneg z = s.
Proof.
  intros x l m s S M ME. assert (L1 : 1 < l) by (unfold max_exp in *; lia). destruct (fnorm_loose x l m S L1 M) as (v & F & SV).
  unfold fl_from_bigint, set_bigint, set_nat. cbn [bnat bneg]. rewrite (neq_u32_loose x l m), (bits_loose x l m), F by auto. cbn [bind].
  assert (NX : is_nan x = false) by (destruct S as (_ & L & _); destruct x; [cbn in L; lia|reflexivity]). rewrite NX.
  unfold set_exp_and_round. destruct (Z.ltb_spec (32 * (l - 1)) min_exp); [unfold min_exp, max_exp in *; lia|]. destruct (Z.ltb_spec max_exp (32 * (l - 1))); [|lia].
  eexists. split; [reflexivity|]. split; reflexivity.
Qed.

(** In two words the value is never the number, unless it is zero; and zero
    becomes a finite number with mantissa 0, not [Zero]. *)
Theorem C133_two_words : forall x m s, stored x 2 m -> m < 2 ^ 32 ->
  exists z, fl_from_bigint (BI x s) = Ok z /\ flform z = Finite /\ (flvalue z == (if s then - 1 else 1) * dy (m * (2 ^ 32 + 1)) (-32))%Q /\
    ((flvalue z == inject_Z (if s then - m else m))%Q <-> m = 0).
Proof.
  intros x m s S M. destruct (C133_value x 2 m s S ltac:(lia) M ltac:(reflexivity)) as (z & Z1 & Z2 & _ & _ & _ & Z3 & _). exists z. split; [auto|]. split; [auto|].
  unfold smeared_value in Z3. rewrite Z.eqb_refl in Z3.
  assert (NN : 0 <= m) by (destruct S as (H & _ & _ & <-); apply nval_nonneg; auto).
  assert (E : smeared m = m * (2 ^ 32 + 1)). { unfold smeared. rewrite Z.lor_comm, NatFacts2.lor_shift_add by lia. ring. }
  rewrite E in Z3. assert (Z4 : (flvalue z == (if s then - 1 else 1) * dy (m * (2 ^ 32 + 1)) (-32))%Q) by (rewrite Z3; destruct s; ring). split; [auto|].
  rewrite Z4. assert (D : forall n, (dy n (-32) == n # 4294967296)%Q).
  { intros n. unfold dy. assert ((2 ^ (-32) == 1 # 4294967296)%Q) as -> by (vm_compute; reflexivity). unfold Qeq. cbn [Qmult Qnum Qden inject_Z]. lia. }
  rewrite D. destruct s; unfold Qeq; cbn [Qmult Qopp Qnum Qden inject_Z]; change (2 ^ 32) with 4294967296; lia.
Qed.

(** Intended: [Float::from] of an integer has its value.  Fails:
    [Float::from(Nat::from(3u32) * 5u32)] is 15 + 15/2^32, calls itself exact
    and counts as greater than [Float::from(2^31 - 1)], because the mantissa is not
    normalised.  [f64::from(Float::from(Nat::from(0u32) << 32))] is 2^31. *)
Theorem C133_refuted :
  (exists x w z y, nval (nat_mul_u32 x w) = 15 /\ fl_from_nat (nat_mul_u32 x w) = Ok z /\ flacc z = Exact /\
    (flvalue z == (15 # 1) + (15 # 4294967296))%Q /\ fl_from_nat [2 ^ 31 - 1] = Ok y /\ (flvalue y == 2147483647)%Q /\ fl_cmp z y = Some Gt) /\
  (exists z, nval (nat_shl [0] 32) = 0 /\ fl_from_nat (nat_shl [0] 32) = Ok z /\ (flvalue z == 0)%Q /\ is_zero (flform z) = false /\
    fl_to_f64 z = Ok ((1023 + 31) * 2 ^ 52, Exact)).
Proof.
  split.
  - exists [3], 5. do 2 eexists. split; [reflexivity|]. split; [vm_compute; reflexivity|]. repeat split; vm_compute; reflexivity.
  - eexists. split; [reflexivity|]. split; [vm_compute; reflexivity|]. repeat split; vm_compute; reflexivity.
Qed.

Example C133_case : exists z, fl_from_bigint (BI [5; 3221225472; 9; 0] true) = Ok z /\ flmant z = [3221225477; 3221225481; 9] /\ flexp z = 96 /\ flacc z = Above.
Proof. eexists. split; [vm_compute; reflexivity|]. repeat split. Qed.

Print Assumptions C133_value.
Print Assumptions C133_many_words.
Print Assumptions C133_two_words.
Print Assumptions C133_refuted.
