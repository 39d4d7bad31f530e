(** What Float division returns, exactly: the sticky bit, and the integer
    quotient of the mantissas. *)
From Coq Require Import ZArith QArith Qabs Qpower Lqa Lia Bool List.
From Verif Require Import Words Spec WordsFacts NatModel NatFacts NatFacts2 NatFacts3 NatFacts4 NatFacts5 NatConvFacts
  VecPrims VecFacts NatConv BigInt BigIntFacts Ieee Rat Float SpecFloat FloatFacts FloatFacts2 FloatFacts3 FloatFacts4 FloatFacts5 FloatFacts6.
Import ListNotations.
Open Scope Z_scope.

(** A set sticky bit acts like one more word with value 1 below the mantissa. *)
Lemma normal_cons m : normal_mant m -> normal_mant (1 :: m) /\ mbits (1 :: m) = mbits m + 32 /\ nval (1 :: m) = 1 + W * nval m.
Proof.
  intros H. destruct (normal_pos m H) as (Hw & Hl & B).
  assert (E : mbits (1 :: m) = mbits m + 32) by (unfold mbits; cbn [length]; lia).
  split; [|split; [auto|reflexivity]]. apply normal_intro.
  - apply words_ok_cons. split; [lia|auto].
  - cbn [length]. lia.
  - rewrite E. replace (mbits m + 32 - 1) with (32 + (mbits m - 1)) by lia. rewrite Z.pow_add_r by (unfold mbits; lia).
    cbn [nval]. change (2 ^ 32) with W. nia.
Qed.

Lemma fl_round_one x : flform x = Finite -> normal_mant (flmant x) -> 0 < flprec x < mbits (flmant x) ->
  fl_round x 1 = fl_round (set_mant x (1 :: flmant x)) 0.
Proof.
  intros HF HN HP. destruct x as [mo ac fo ng p e m]. flds. subst fo.
  destruct (normal_pos m HN) as (Hw & Hl & BM). destruct (normal_cons m HN) as (HN1 & EB & EV).
  unfold fl_round, set_acc, set_mant, set_exp, set_form. flds.
  cbn [is_finite negb]. rewrite EB.
  destruct (Z.leb_spec (mbits m) p); [lia|]. destruct (Z.leb_spec (mbits m + 32) p); [lia|].
  set (k := mbits m - p - 1). replace (mbits m + 32 - p - 1) with (k + 32) by (unfold k; lia).
  assert (ET : Z.testbit (nval (1 :: m)) (k + 32) = Z.testbit (nval m) k).
  { rewrite EV. replace (1 + W * nval m) with (nval m * 2 ^ 32 + 1) by (change (2 ^ 32) with W; ring).
    rewrite !Z.testbit_odd. rewrite !Z.shiftr_div_pow2 by lia. f_equal.
    replace (k + 32) with (32 + k) by lia. rewrite Z.pow_add_r by lia. rewrite <- Z.div_div by (try apply pow2_pos; lia).
    f_equal. rewrite Z.div_add_l by lia. change (1 / 2 ^ 32) with 0. lia. }
  assert (B0 : is_set_bit m k = Ok (Some (Z.testbit (nval m) k))).
  { rewrite is_set_bit_spec by (try apply HN; unfold k; lia). rewrite normal_bits_len by auto. destruct (Z.leb_spec (mbits m) k); [unfold k in *; lia|reflexivity]. }
  assert (B1 : is_set_bit (1 :: m) (k + 32) = Ok (Some (Z.testbit (nval m) k))).
  { rewrite is_set_bit_spec by (try apply HN1; unfold k; lia). rewrite normal_bits_len, EB by auto. rewrite ET.
    destruct (Z.leb_spec (mbits m + 32) (k + 32)); [unfold k in *; lia|reflexivity]. }
  rewrite B0, B1. cbn [bind]. clear B0 B1 ET. set (rb := match Some (Z.testbit (nval m) k) with Some true => true | _ => false end). clearbody rb.
  assert (NZ : (nval (1 :: m) mod 2 ^ (k + 32) =? 0) = false).
  { apply Z.eqb_neq. intros Z0. apply Z.mod_divide in Z0; [|apply Z.pow_nonzero; lia].
    destruct Z0 as (c & Z0). replace (k + 32) with (32 + k) in Z0 by lia. rewrite Z.pow_add_r in Z0 by lia. change (2 ^ 32) with W in Z0.
    rewrite EV in Z0. assert (1 = W * (c * 2 ^ k - nval m)) by lia. nia. }
  assert (S1 : sticky (1 :: m) (k + 32) = 1).
  { rewrite sticky_spec by (try (apply words_ok_cons; split; [lia|auto]); rewrite EB; unfold k; lia). rewrite NZ. reflexivity. }
  rewrite S1. change (0 =? 0) with true. change (1 =? 0) with false. cbn [andb].
  set (n := (p + 31) / 32).
  assert (NL : 0 < n /\ n <= Z.of_nat (length m)).
  { unfold n, mbits in *. split; [apply Z.div_str_pos; lia|]. apply Z.lt_succ_r. apply Z.div_lt_upper_bound; lia. }
  assert (KEEP : (if n <? Z.of_nat (length m) then skipn (Z.to_nat (Z.of_nat (length m) - n)) m else m) =
                 (if n <? Z.of_nat (length (1 :: m)) then skipn (Z.to_nat (Z.of_nat (length (1 :: m)) - n)) (1 :: m) else 1 :: m)).
  { cbn [length]. destruct (Z.ltb_spec n (Z.of_nat (S (length m)))); [|lia].
    replace (Z.to_nat (Z.of_nat (S (length m)) - n)) with (S (Z.to_nat (Z.of_nat (length m) - n))) by lia. cbn [skipn].
    destruct (Z.ltb_spec n (Z.of_nat (length m))); [reflexivity|]. replace (Z.to_nat (Z.of_nat (length m) - n)) with 0%nat by lia. reflexivity. }
  rewrite <- KEEP. set (m1 := if n <? Z.of_nat (length m) then _ else m). clearbody m1.
  destruct rb eqn:ER; cbn [negb orb].
  - destruct mo; try reflexivity.
  - reflexivity.
Qed.

Lemma result_unset m p v z l : flform z <> Finite -> result_for m p v (set_mant z l) -> result_for m p v z.
Proof.
  intros NF (A & B & C & D & F). destruct z as [mo ac fo ng p' e m']. unfold result_for, set_mant in *. flds.
  split; [split; flds; [apply A|congruence]|]. split; [auto|]. split; [auto|]. split; [auto|].
  destruct fo; try congruence; auto.
Qed.
Lemma ser_one x e : 0 < flprec x < mbits (flmant x) -> normal_mant (flmant x) ->
  exists z, set_exp_and_round x e 1 = Ok z /\
    result_for (flmode x) (flprec x) (sq (flneg x) (dy (W * nval (flmant x) + 1) (e - mbits (flmant x) - 32))) z.
Proof.
  intros HP HN. destruct (normal_cons _ HN) as (HN1 & EB & EV).
  destruct (ser_spec (set_mant x (1 :: flmant x)) e) as (z & Z1 & Z2); [cbn [set_mant flprec]; lia|auto|].
  assert (Z3 : result_for (flmode x) (flprec x) (sq (flneg x) (dy (W * nval (flmant x) + 1) (e - mbits (flmant x) - 32))) z).
  { eapply result_wd; [|exact Z2]. cbn [flneg flmant set_mant]. apply sq_wd. rewrite EB, EV.
    replace (e - mbits (flmant x) - 32) with (e - (mbits (flmant x) + 32)) by lia. apply dy_wd. ring. }
  clear Z2. revert Z1. unfold set_exp_and_round. change (flneg (set_mant x (1 :: flmant x))) with (flneg x).
  destruct (e <? min_exp); [|destruct (max_exp <? e)].
  - intros [= <-]. eexists. split; [reflexivity|]. eapply result_unset; [|exact Z3]. discriminate.
  - intros [= <-]. eexists. split; [reflexivity|]. eapply result_unset; [|exact Z3]. discriminate.
  - intros Z1. exists z. split; [|auto]. rewrite fl_round_one by auto. exact Z1.
Qed.

(** Division unfolded: the integer quotient of the mantissas. *)
Section DIV.
Variables x y : float.
Hypothesis OX : ok_float x.
Hypothesis OY : ok_float y.
Hypothesis FX : flform x = Finite.
Hypothesis FY : flform y = Finite.
Let PX := proj1 (ok_finite x OX FX).
Let NX := proj2 (ok_finite x OX FX).
Let NY := proj2 (ok_finite y OY FY).
Let q := nval (flmant x) / nval (flmant y).
Let r := nval (flmant x) mod nval (flmant y).
Let E := flexp x - flexp y - 32 * (flprec x / 32 + 1).
Let ng := xorb (flneg x) (flneg y).

Lemma div_unf : fl_div x y =
  do '(v, s) <- fnorm (of_Z q);
  set_exp_and_round (set_mant (set_neg x ng) v) (E + mbits (of_Z q) - s) (if r =? 0 then 0 else 1).
Proof using OX OY FX FY PX NX NY.
  assert (MBX : mbits (flmant x) < flprec x + 32) by (apply (proj2 OX FX)).
  unfold fl_div, fl_op2, fl_div_inner. rewrite FX, FY. cbn [is_fnan orb]. rewrite default_prec_ok by auto.
  cbn [set_neg flform]. rewrite FX. cbn [is_finite andb]. unfold uquo. cbn [set_neg flprec flmant flexp].
  destruct (normal_pos _ NX) as (WX & LX & BX). destruct (normal_pos _ NY) as (WY & LY & BY).
  pose proof (proj1 NX) as CX. pose proof (proj1 NY) as CY. pose proof (normal_nz _ NX) as VX. pose proof (normal_nz _ NY) as VY.
  set (n := flprec x / 32 + 1).
  assert (NB : Z.of_nat (length (flmant x)) <= n).
  { unfold n. unfold mbits in MBX. pose proof (Z.div_mod (flprec x) 32 ltac:(lia)). pose proof (Z.mod_pos_bound (flprec x) 32 ltac:(lia)). lia. }
  set (d := n - Z.of_nat (length (flmant x)) + Z.of_nat (length (flmant y))).
  destruct (Z.ltb_spec 0 d) as [DP|DP]; [|lia].
  assert (EL : Z.of_nat (length (flmant x ++ repeat 0 (Z.to_nat d))) - Z.of_nat (length (flmant y)) = n).
  { rewrite app_length, repeat_length. lia. }
  rewrite EL. clear EL.
  assert (ET : trim (flmant x ++ repeat 0 (Z.to_nat d)) = of_Z (nval (flmant x))).
  { rewrite trim_of_Z.
    - f_equal. rewrite nval_app, nval_repeat0. ring.
    - apply words_ok_app. split; [auto|apply words_ok_repeat0].
    - intros N. apply (f_equal (@length Z)) in N. rewrite app_length in N. cbn [length] in N. lia. }
  assert (ED : nat_div (of_Z (nval (flmant x))) (flmant y) = Ok (of_Z q)).
  { rewrite (canon_self _ CY) at 1. apply nat_div_of_Z; lia. }
  assert (ER : nat_rem (of_Z (nval (flmant x))) (flmant y) = Ok (of_Z r)).
  { rewrite (canon_self _ CY) at 1. apply nat_rem_of_Z'; lia. }
  rewrite ET, ED, ER. cbn [bind].
  assert (R0 : 0 <= r) by (apply Z.mod_pos_bound; lia).
  assert (SB : match partial_cmp (of_Z r) (from_u32 0) with Some Gt => 1 | _ => 0 end = if r =? 0 then 0 else 1).
  { change (from_u32 0) with (of_Z 0). rewrite partial_cmp_spec by (apply of_Z_canon; lia). rewrite !of_Z_val by lia. destruct (Z.eqb_spec r 0) as [->|N]; [reflexivity|].
    rewrite (proj2 (Z.compare_gt_iff r 0)) by lia. reflexivity. }
  rewrite SB. assert (NG : negb (eqb (flneg x) (flneg y)) = ng) by (unfold ng; destruct (flneg x), (flneg y); reflexivity).
  rewrite NG. destruct (fnorm (of_Z q)) as [[v s]| |]; [|reflexivity|reflexivity]. cbn [bind]. f_equal. unfold E, mbits. fold n. lia.
Qed.

Lemma div_exact : 0 < q ->
  let t := 31 - Z.log2 q mod 32 in
  exists z, fl_div x y = Ok z /\
    (r = 0 \/ 32 * (Z.log2 q / 32 + 1) <= flprec x -> result_for (flmode x) (flprec x) (sq ng (dy q E)) z) /\
    (r <> 0 -> flprec x < 32 * (Z.log2 q / 32 + 1) -> result_for (flmode x) (flprec x) (sq ng (dy (q * 2 ^ (32 + t) + 1) (E - (32 + t)))) z).
Proof using OX OY FX FY PX NX NY.
  intros QP t. rewrite div_unf.
  assert (CQ : canon (of_Z q)) by (apply of_Z_canon; lia). assert (VQ : nval (of_Z q) = q) by (apply of_Z_val; lia).
  destruct (fnorm_spec (of_Z q) CQ ltac:(lia)) as (v & s & F1 & F2 & F3 & F4 & F5 & F6). rewrite F1. cbn [bind].
  rewrite VQ in F4. rewrite bits_len_spec in F6 by auto. rewrite VQ in F6. destruct (Z.eqb_spec q 0); [lia|].
  pose proof (Z.log2_nonneg q) as LQ.
  assert (MQ : mbits (of_Z q) = 32 * (Z.log2 q / 32 + 1) /\ s = t).
  { unfold t. pose proof (Z.div_mod (Z.log2 q) 32 ltac:(lia)). pose proof (Z.mod_pos_bound (Z.log2 q) 32 ltac:(lia)).
    unfold mbits in *. lia. }
  destruct MQ as (MQ & ->). rewrite <- MQ.
  assert (T0 : 0 <= t) by lia.
  assert (VAL : (dy (nval v) (E + mbits (of_Z q) - t - mbits v) == dy q E)%Q).
  { rewrite F3, F4, (dy_shift q E t) by lia. replace (E + mbits (of_Z q) - t - mbits (of_Z q)) with (E - t) by lia. reflexivity. }
  destruct (Z.eqb_spec r 0) as [R0|R0].
  - destruct (ser_spec (set_mant (set_neg x ng) v) (E + mbits (of_Z q) - t) PX F2) as (z & Z1 & Z2).
    exists z. split; [auto|]. split; [|intros; lia]. intros _. eapply result_wd; [|exact Z2]. cbn [flneg flmant set_mant set_neg]. apply sq_wd. auto.
  - destruct (Z.le_gt_cases (mbits (of_Z q)) (flprec x)) as [L|L].
    + destruct (ser_spec (set_mant (set_neg x ng) v) (E + mbits (of_Z q) - t) PX F2) as (z & Z1 & Z2).
      exists z. split.
      * rewrite <- Z1. unfold set_exp_and_round. destruct (_ <? min_exp); [reflexivity|]. destruct (max_exp <? _); [reflexivity|].
        unfold fl_round. cbn [set_acc set_exp set_form set_mant set_neg flmode flacc flform flneg flprec flexp flmant is_finite negb].
        rewrite F3. destruct (Z.leb_spec (mbits (of_Z q)) (flprec x)); [reflexivity|lia].
      * split; [|intros; lia]. intros _. eapply result_wd; [|exact Z2]. cbn [flneg flmant set_mant set_neg]. apply sq_wd. auto.
    + destruct (ser_one (set_mant (set_neg x ng) v) (E + mbits (of_Z q) - t)) as (z & Z1 & Z2); [cbn [set_mant set_neg flprec flmant]; rewrite F3; lia|auto|].
      exists z. split; [auto|]. split; [intros [?|?]; lia|]. intros _ _. eapply result_wd; [|exact Z2].
      cbn [flneg flmant set_mant set_neg]. apply sq_wd. rewrite F3, F4.
      replace (E + mbits (of_Z q) - t - mbits (of_Z q) - 32) with (E - (32 + t)) by lia. apply dy_wd.
      rewrite Z.pow_add_r by lia. change (2 ^ 32) with W. ring.
Qed.

(** A quotient below one: the mantissa is the word 0. *)
Lemma div_small : q = 0 -> min_exp <= E <= max_exp ->
  exists z, fl_div x y = Ok z /\ flform z = Finite /\ flmode z = flmode x /\ flprec z = flprec x /\ flneg z = ng /\
    (32 <= flprec x -> (flvalue z == 0)%Q /\ flacc z = Exact) /\
    (flprec x < 32 ->
       let up := match flmode x with AwayFromZero => true | ToPositiveInf => negb ng | ToNegativeInf => ng | _ => false end in
       (flvalue z == if up then sq ng (dy 1 (E - flprec x)) else 0)%Q /\ flacc z = if up then make_accuracy (negb ng) else make_accuracy ng).
Proof using OX OY FX FY PX NX NY.
  intros QZ EE. rewrite div_unf. rewrite QZ. change (fnorm (of_Z 0)) with (@Ok (list Z * Z) ([0], 32)). cbn [bind].
  change (mbits (of_Z 0)) with 32. replace (E + 32 - 32) with E by lia.
  assert (RP : r <> 0).
  { unfold r. pose proof (normal_nz _ NX). pose proof (normal_nz _ NY). pose proof (Z.div_mod (nval (flmant x)) (nval (flmant y)) ltac:(lia)) as D.
    fold q in D. rewrite QZ in D. lia. }
  destruct (Z.eqb_spec r 0); [lia|]. unfold set_exp_and_round.
  destruct (Z.ltb_spec E min_exp); [lia|]. destruct (Z.ltb_spec max_exp E); [lia|].
  unfold fl_round. cbn [set_acc set_exp set_form set_mant set_neg flmode flacc flform flneg flprec flexp flmant is_finite negb].
  change (mbits [0]) with 32. set (p := flprec x) in *. clearbody E.
  destruct (Z.leb_spec 32 p) as [L|L].
  - eexists. split; [reflexivity|]. cbn [flmode flacc flform flneg flprec flexp flmant]. repeat (split; [reflexivity|]).
    split; [|intros; lia]. intros _. split; [|reflexivity]. unfold flvalue. cbn [set_acc set_exp set_form set_mant set_neg flmode flacc flform flneg flprec flexp flmant nval].
    destruct ng; unfold dy; cbn; ring.
  - assert (B0 : exists b, is_set_bit [0] (32 - p - 1) = Ok b /\ match b with Some true => true | _ => false end = false).
    { rewrite is_set_bit_spec by (try (apply canon_single; lia); lia). eexists. split; [reflexivity|].
      change (nval [0]) with 0. rewrite Z.testbit_0_l. destruct (_ <=? _); reflexivity. }
    destruct B0 as (b & B0 & B1). rewrite B0. cbn [bind]. rewrite B1. change (1 =? 0) with false. cbn [andb].
    change (negb (Z.land 1 1 =? 0)) with true. cbn [orb]. cbn [negb andb]. rewrite !andb_false_r. cbn [bind].
    assert (EN : (p + 31) / 32 = 1) by (symmetry; apply (Z.div_unique (p + 31) 32 1 (p - 1)); lia).
    rewrite EN. change (Z.of_nat (length [0])) with 1. rewrite Z.ltb_irrefl.
    assert (LSB : 0 < 2 ^ (32 * 1 - p) < W).
    { split; [apply pow2_pos; lia|]. change W with (2 ^ 32). apply Z.pow_lt_mono_r; lia. }
    assert (EX : 32 * 1 - p = 32 - p) by lia. rewrite EX in *. set (l := 2 ^ (32 - p)) in *.
    assert (ADD : add_vw [0] l = ([l], 0)).
    { cbn [add_vw]. unfold ovf_add. rewrite Z.add_0_l. destruct (Z.leb_spec W l); [lia|]. rewrite Z.mod_small by lia. reflexivity. }
    assert (RI : round_inc (flmode x) ng false true false = match flmode x with AwayFromZero => true | ToPositiveInf => negb ng | ToNegativeInf => ng | _ => false end).
    { destruct (flmode x); reflexivity. }
    rewrite RI. set (up := match flmode x with AwayFromZero => true | ToPositiveInf => negb ng | ToNegativeInf => ng | _ => false end). clearbody up. clear RI.
    rewrite ADD. change (0 =? 0) with true. cbn [negb]. cbn [upd_first].
    destruct up.
    + cbn [bind]. eexists. split; [reflexivity|]. cbn [flmode flacc flform flneg flprec flexp flmant]. repeat (split; [reflexivity|]).
      split; [intros; lia|]. intros _. cbv zeta. split; [|destruct ng; reflexivity].
      unfold flvalue. cbn [set_acc set_exp set_form set_mant set_neg flmode flacc flform flneg flprec flexp flmant nval]. rewrite Z.mod_same by lia. change (mbits [_]) with 32.
      assert (EV : (dy l (E - 32) == dy 1 (E - p))%Q).
      { rewrite (dy_shift 1 (E - p) (32 - p)) by lia. fold l. replace (E - p - (32 - p)) with (E - 32) by lia. rewrite Z.mul_1_l. reflexivity. }
      match goal with |- context [if ng then - ?a else _] => replace a with l by lia end. apply Qeq_trans with (sq ng (dy l (E - 32))); [|apply sq_wd; auto]. destruct ng; cbn [sq]; [unfold dy; rewrite inject_Z_opp; ring|reflexivity].
    + cbn [bind]. eexists. split; [reflexivity|]. cbn [flmode flacc flform flneg flprec flexp flmant]. repeat (split; [reflexivity|]).
      split; [intros; lia|]. intros _. cbv zeta. split; [|destruct ng; reflexivity].
      unfold flvalue. cbn [set_acc set_exp set_form set_mant set_neg flmode flacc flform flneg flprec flexp flmant nval]. rewrite Z.mod_0_l by lia.
      destruct ng; unfold dy; cbn; ring.
Qed.
Lemma div_small_range : q = 0 -> ~ min_exp <= E <= max_exp ->
  exists z, fl_div x y = Ok z /\ flform z = (if E <? min_exp then Zero else Inf) /\ flneg z = ng /\
    flacc z = make_accuracy (if E <? min_exp then ng else negb ng).
Proof using OX OY FX FY PX NX NY.
  intros QZ EE. rewrite div_unf. rewrite QZ. change (fnorm (of_Z 0)) with (@Ok (list Z * Z) ([0], 32)). cbn [bind].
  change (mbits (of_Z 0)) with 32. replace (E + 32 - 32) with E by lia. unfold set_exp_and_round.
  destruct (Z.ltb_spec E min_exp).
  - eexists. split; [reflexivity|]. split; [reflexivity|]. split; reflexivity.
  - destruct (Z.ltb_spec max_exp E); [|lia]. eexists. split; [reflexivity|]. split; [reflexivity|]. split; reflexivity.
Qed.
End DIV.
