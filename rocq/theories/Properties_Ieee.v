(** [Float] with the precision of a machine format computes what the machine
    computes (C96): the claim of the documentation, float.rs:48-53.

    [machine_result]: the pattern [b] is the IEEE 754 result (to nearest, ties
    to even) for the exact value [v], and [v] is in the range of the normal
    numbers. *)
From Coq Require Import ZArith QArith Qabs Lqa List Lia Bool.
From Verif Require Import Words Spec WordsFacts NatModel NatFacts NatFacts2 NatFacts5 Ieee SpecRat IeeeFacts IeeeFacts2 Float SpecFloat
  FloatFacts FloatFacts2 FloatFacts3 FloatFacts4 FloatFacts5 FloatFacts6 FloatFacts7 FloatFacts8 FloatFacts9 FloatFacts10 Properties_Float Properties_RoundTrip.
Import ListNotations.
Open Scope Z_scope.

Definition machine_format (mb eb : Z) : Prop := (mb = 52 /\ eb = 11) \/ (mb = 23 /\ eb = 8).
Definition machine_result (mb eb : Z) (v : Q) (b : Z) : Prop :=
  0 <= b < 2 ^ (mb + eb + 1) /\ fmag mb eb b < finf mb eb /\
  (fneg_bit mb eb b = true <-> (v < 0)%Q) /\
  nearest mb eb (Z.abs (Qnum v)) (Zpos (Qden v)) (fmag mb eb b) /\
  (dy 1 (1 - fbias eb) <= Qabs v)%Q.

Lemma format_facts mb eb : machine_format mb eb -> 1 <= mb /\ 2 <= eb /\ funit mb eb <= 0 /\ -2000 <= funit mb eb /\ 2 ^ eb <= 2048 /\ mb <= 52.
Proof. intros [[-> ->]|[-> ->]]; repeat split; discriminate. Qed.
Lemma fvalue_sq mb eb b : funit mb eb <= 0 -> (fvalue mb eb b == sq (fneg_bit mb eb b) (dy (funits mb (fmag mb eb b)) (funit mb eb)))%Q.
Proof.
  intros U. rewrite <- sg_dy. unfold fvalue, sg. set (n := if fneg_bit mb eb b then _ else _). unfold dy. rewrite (Qmake_Qdiv n).
  rewrite Z2Pos.id by (apply Z.pow_pos_nonneg; lia).
  assert (PM : (Qpower 2 (funit mb eb) * inject_Z (2 ^ (- funit mb eb)) == 1)%Q).
  { rewrite <- two_pow by lia. rewrite <- Qpower.Qpower_plus by apply two_nz. replace (funit mb eb + - funit mb eb) with 0 by lia. reflexivity. }
  unfold Qdiv. apply Qmult_comp; [reflexivity|]. rewrite <- (Qmult_1_l (/ _)), <- PM. field.
  change 0%Q with (inject_Z 0). rewrite inject_Z_injective. apply Z.pow_nonzero; lia.
Qed.
(** The machine result is the exact value rounded to the bits of the format. *)
Lemma machine_rounded mb eb v b : machine_format mb eb -> machine_result mb eb v b ->
  rounded ToNearestEven (mb + 1) v (fvalue mb eb b) /\ (dy 1 (1 - fbias eb) <= Qabs (fvalue mb eb b) < dy 1 2100)%Q.
Proof.
  intros FM (B & FI & SG & N & V). destruct (format_facts mb eb FM) as (Hm & He & Hu & Hl & HE & HM).
  assert (VN : ~ (v == 0)%Q).
  { intros E. rewrite E in V. change (Qabs 0) with 0%Q in V. assert (0 < dy 1 (1 - fbias eb))%Q by (apply dy_pos; lia). lra. }
  assert (AV : (Qabs v == inject_Z (Z.abs (Qnum v)) / inject_Z (Zpos (Qden v)))%Q).
  { unfold Qabs. destruct v as [n d]. cbn [Qnum Qden]. apply Qmake_Qdiv. }
  assert (P : 0 < Z.abs (Qnum v)).
  { destruct (Z.eq_dec (Qnum v) 0) as [E|]; [exfalso|lia]. apply VN. unfold Qeq. cbn [Qnum Qden]. lia. }
  assert (MN : (dy (2 ^ mb) (funit mb eb) == dy 1 (1 - fbias eb))%Q).
  { rewrite (dy_to 1 (1 - fbias eb) (funit mb eb)) by (unfold funit; lia). apply dy_wd. unfold funit. rewrite Z.mul_1_l. f_equal. lia. }
  pose proof (nearest_normal mb eb Hm He Hu _ (Zpos (Qden v)) ltac:(reflexivity) _ N) as R.
  assert (V1 : (dy (2 ^ mb) (funit mb eb) <= inject_Z (Z.abs (Qnum v)) / inject_Z (Zpos (Qden v)))%Q) by (rewrite MN, <- AV; exact V).
  specialize (R V1 FI).
  assert (RA : rounded ToNearestEven (mb + 1) (Qabs v) (dy (funits mb (fmag mb eb b)) (funit mb eb))).
  { eapply rounded_wd; [symmetry; exact AV|reflexivity|exact R]. }
  pose proof (T_pos mb Hm) as TP.
  assert (KT : 2 ^ mb <= fmag mb eb b).
  { apply (near_ge mb eb Hm _ (Zpos (Qden v)) _ _ ltac:(reflexivity) N).
    - split; [lia|]. unfold finf. assert (2 ^ 2 <= 2 ^ eb) by (apply Z.pow_le_mono_r; lia). change (2 ^ 2) with 4 in *. nia.
    - assert (UT : funits mb (2 ^ mb) = 2 ^ mb).
      { pose proof (units_pattern mb Hm (2 ^ mb) 0 ltac:(repeat split; lia) ltac:(lia)) as E. rewrite Z.mul_0_l, Z.add_0_r, Z.pow_0_r in E. lia. }
      rewrite UT. apply (le_val mb eb He Hu (Z.abs (Qnum v)) (Zpos (Qden v)) ltac:(reflexivity)). exact V1. }
  assert (LB : (dy 1 (1 - fbias eb) <= dy (funits mb (fmag mb eb b)) (funit mb eb))%Q).
  { rewrite <- MN. apply dy_le. 
    assert (UT : funits mb (2 ^ mb) = 2 ^ mb).
    { pose proof (units_pattern mb Hm (2 ^ mb) 0 ltac:(repeat split; lia) ltac:(lia)) as E. rewrite Z.mul_0_l, Z.add_0_r, Z.pow_0_r in E. lia. }
    rewrite <- UT at 1. apply (units_le mb Hm); lia. }
  assert (UB : (dy (funits mb (fmag mb eb b)) (funit mb eb) < dy 1 2100)%Q).
  { pose proof (units_mono mb Hm (fmag mb eb b) (finf mb eb) ltac:(lia) FI) as L. rewrite (units_finf mb eb Hm He) in L.
    rewrite (dy_to 1 2100 (funit mb eb)) by lia. apply dy_lt. rewrite <- Z.pow_add_r in L by (try lia; pose proof (Z.pow_le_mono_r 2 2 eb); lia).
    rewrite Z.mul_1_l. eapply Z.lt_le_trans; [exact L|]. apply Z.pow_le_mono_r; lia. }
  assert (AB : (Qabs (fvalue mb eb b) == dy (funits mb (fmag mb eb b)) (funit mb eb))%Q).
  { rewrite fvalue_sq by auto. rewrite sq_abs. apply Qabs_pos, dy_nonneg. pose proof (units_nonneg mb eb Hm He (fmag mb eb b)). lia. }
  split; [|rewrite AB; split; auto].
  pose proof (fvalue_sq mb eb b Hu) as FV. destruct (fneg_bit mb eb b); cbn [sq] in FV.
  - assert (VL : (v < 0)%Q) by (apply SG; reflexivity). eapply (rounded_wd _ _ (- Qabs v) v); [|symmetry; exact FV|apply (rounded_opp ToNearestEven); exact RA].
    rewrite Qabs_neg by lra. ring.
  - assert (VL : (0 <= v)%Q).
    { destruct (Qlt_le_dec v 0) as [L|]; [exfalso|auto]. apply SG in L. discriminate. }
    eapply (rounded_wd _ _ (Qabs v) v); [|symmetry; exact FV|exact RA]. apply Qabs_pos. exact VL.
Qed.
Lemma even_unique p v r s : 0 < p -> ~ (v == 0)%Q -> rounded ToNearestEven p v r -> rounded ToNearestEven p v s -> (r == s)%Q.
Proof.
  intros P N R S. destruct (Qlt_le_dec 0 v) as [L|L]; [apply (nearest_even_unique p v); auto|].
  assert (L' : (0 < - v)%Q) by (assert (v < 0)%Q by (destruct (Qlt_le_dec v 0); [auto|exfalso; apply N; lra]); lra).
  apply (rounded_opp ToNearestEven) in R, S. pose proof (nearest_even_unique p (- v) _ _ P L' R S). lra.
Qed.
Lemma result_machine mb eb v b z : machine_format mb eb -> machine_result mb eb v b -> result_for ToNearestEven (mb + 1) v z ->
  flform z = Finite /\ (flvalue z == fvalue mb eb b)%Q.
Proof.
  intros FM MR (O & _ & _ & _ & R). destruct (machine_rounded mb eb v b FM MR) as (RB & LB & UB).
  destruct (format_facts mb eb FM) as (Hm & He & Hu & Hl & HE & HM). destruct MR as (_ & _ & _ & _ & V).
  assert (VN : ~ (v == 0)%Q).
  { intros E. rewrite E in V. change (Qabs 0) with 0%Q in V. assert (0 < dy 1 (1 - fbias eb))%Q by (apply dy_pos; lia). lra. }
  destruct (flform z) eqn:F.
  - exfalso. destruct R as (R & _). assert (dy 1 (min_exp - 1) <= dy 1 (1 - fbias eb))%Q; [|lra].
    assert (BI : fbias eb <= 1023) by (destruct FM as [[-> ->]|[-> ->]]; discriminate).
    rewrite (dy_to 1 (1 - fbias eb) (min_exp - 1)) by (unfold min_exp; lia). apply dy_le.
    pose proof (Z.pow_pos_nonneg 2 (1 - fbias eb - (min_exp - 1))). unfold min_exp in *. lia.
  - split; [auto|]. destruct R as (R & _). apply (even_unique (mb + 1) v); auto; lia.
  - exfalso. destruct R as ((r & R & M) & _). pose proof (even_unique (mb + 1) v _ _ ltac:(lia) VN R RB) as E. rewrite E in M.
    assert (dy 1 2100 <= dy 1 max_exp)%Q; [|lra]. rewrite (dy_to 1 max_exp 2100) by (unfold max_exp; lia). apply dy_le.
    assert (PP : 0 < 2 ^ (max_exp - 2100)) by (apply Z.pow_pos_nonneg; [lia|unfold max_exp; lia]).
    revert PP. generalize (2 ^ (max_exp - 2100)). intros n PP. lia.
  - contradiction.
Qed.

(* ------------------------------------------------------------------ *)
(** ** C96 *)
(** Sum, difference and product at the precision of the format. *)
Theorem C96_machine_partial : forall mb eb x y b, machine_format mb eb ->
  ok_float x -> ok_float y -> flform x = Finite -> flform y = Finite ->
  flprec x = mb + 1 -> flprec y = mb + 1 -> flmode x = ToNearestEven -> flmode y = ToNearestEven ->
  forall op v, In (op, v) [(fl_add, flvalue x + flvalue y); (fl_sub, flvalue x - flvalue y); (fl_mul, flvalue x * flvalue y)]%Q ->
  machine_result mb eb v b ->
  exists z, op x y = Ok z /\ ok_float z /\ flform z = Finite /\ (flvalue z == fvalue mb eb b)%Q.
Proof.
  intros mb eb x y b FM OX OY FX FY PX PY MX MY op v I MR.
  assert (VN : ~ (v == 0)%Q).
  { destruct MR as (_ & _ & _ & _ & V). intros E. rewrite E in V. change (Qabs 0) with 0%Q in V. assert (0 < dy 1 (1 - fbias eb))%Q by (apply dy_pos; lia). lra. }
  assert (K : exists z, op x y = Ok z /\ result_for ToNearestEven (mb + 1) v z).
  { cbn [In] in I. destruct I as [I|[I|[I|[]]]]; injection I as <- <-.
    - destruct (C54_add_partial x y OX OY FX FY) as (z & E & R & _); [left; split; congruence|]. exists z. split; [auto|]. rewrite <- MX, <- PX. auto.
    - destruct (C54_sub_partial x y OX OY FX FY) as (z & E & R & _); [left; split; congruence|]. exists z. split; [auto|]. rewrite <- MX, <- PX. auto.
    - destruct (C54_mul x y OX OY FX FY) as (z & E & R). exists z. split; [auto|]. rewrite <- MX, <- PX. auto. }
  destruct K as (z & E & R). exists z. split; [auto|]. split; [apply R|]. apply (result_machine mb eb v b z FM MR R).
Qed.
(** The quotient never: the documentation's claim is false of [/]. *)
Theorem C96_div_refuted : forall mb eb x y z b, machine_format mb eb ->
  ok_float x -> ok_float y -> flform x = Finite -> flform y = Finite ->
  flprec x = mb + 1 -> flmode x = ToNearestEven -> fl_div x y = Ok z -> flform z = Finite ->
  machine_result mb eb (flvalue x / flvalue y) b -> ~ (flvalue z == fvalue mb eb b)%Q.
Proof.
  intros mb eb x y z b FM OX OY FX FY PX MX E FZ MR EQ. destruct (C55_div_refuted x y z OX OY FX FY E FZ) as (_ & N). apply N.
  rewrite MX, PX. destruct (machine_rounded mb eb _ b FM MR) as (R & _). eapply rounded_wd; [reflexivity|symmetry; exact EQ|exact R].
Qed.
(** End to end: two doubles become Floats, the result goes back to a double,
    and it is the double the machine would have computed, reported as exact. *)
Lemma to_f64_value z r : ok_float z -> flform z = Finite -> f64_finite r -> 0 < fmag 52 11 r -> (flvalue z == f64_value r)%Q ->
  fl_to_f64 z = Ok (r, Exact).
Proof.
  intros O FI (B & FF) NZ V. destruct (split64 r B) as (EB & K). pose proof (units_pos 52 _ h52 NZ) as U1.
  assert (AV : (Qabs (flvalue z) == dy (funits 52 (fmag 52 11 r)) (-1074))%Q).
  { rewrite V, fvalue_dy by auto. rewrite sq_abs. apply Qabs_pos, dy_nonneg. lia. }
  destruct (FloatFacts9.to_f64_spec z O FI) as (k & a & E & N & A & _).
  { intros (_ & W). rewrite AV in W. apply dy_lt in W. lia. }
  rewrite E. apply (nearest_self 52 11 r) in N; [|lia|lia|discriminate|lia|exact V]. subst k.
  assert (SG : flneg z = fneg_bit 52 11 r).
  { destruct (ok_finite z O FI) as (_ & NM). pose proof (FloatFacts5.mag_pos z NM) as MP. pose proof (finite_val z FI) as FV. rewrite V, fvalue_dy in FV by auto.
    assert (0 < dy (funits 52 (fmag 52 11 r)) (-1074))%Q by (apply dy_pos; lia).
    destruct (flneg z), (fneg_bit 52 11 r); cbn [sq] in FV; try reflexivity; lra. }
  rewrite SG in *. rewrite <- EB in *. rewrite (A FF). do 2 f_equal. apply acc_eq. symmetry. exact V.
Qed.
Lemma to_f32_value z r : ok_float z -> flform z = Finite -> f32_finite r -> 0 < fmag 23 8 r -> (flvalue z == f32_value r)%Q ->
  fl_to_f32 z = Ok (r, Exact).
Proof.
  intros O FI (B & FF) NZ V. destruct (split32 r B) as (EB & K). pose proof (units_pos 23 _ h23 NZ) as U1.
  assert (AV : (Qabs (flvalue z) == dy (funits 23 (fmag 23 8 r)) (-149))%Q).
  { rewrite V, fvalue_dy32 by auto. rewrite sq_abs. apply Qabs_pos, dy_nonneg. lia. }
  destruct (FloatFacts9.to_f32_spec z O FI) as (k & a & E & N & A & _).
  { intros (_ & W). rewrite AV in W. apply dy_lt in W. lia. }
  rewrite E. apply (nearest_self 23 8 r) in N; [|lia|lia|discriminate|lia|exact V]. subst k.
  assert (SG : flneg z = fneg_bit 23 8 r).
  { destruct (ok_finite z O FI) as (_ & NM). pose proof (FloatFacts5.mag_pos z NM) as MP. pose proof (finite_val z FI) as FV. rewrite V, fvalue_dy32 in FV by auto.
    assert (0 < dy (funits 23 (fmag 23 8 r)) (-149))%Q by (apply dy_pos; lia).
    destruct (flneg z), (fneg_bit 23 8 r); cbn [sq] in FV; try reflexivity; lra. }
  rewrite SG in *. rewrite <- EB in *. rewrite (A FF). do 2 f_equal. apply acc_eq. symmetry. exact V.
Qed.
Lemma result_mag mb eb v r : machine_format mb eb -> machine_result mb eb v r -> 0 < fmag mb eb r.
Proof.
  intros FM MR. destruct (machine_rounded mb eb v r FM MR) as (_ & L & _). destruct (format_facts mb eb FM) as (Hm & He & Hu & _).
  destruct MR as (B & _). assert (0 <= fmag mb eb r) by (apply Z.mod_pos_bound, Z.pow_pos_nonneg; lia).
  destruct (Z.eq_dec (fmag mb eb r) 0) as [E|]; [exfalso|lia].
  rewrite fvalue_sq, E, sq_abs in L by auto. 
  assert (U0 : funits mb 0 = 0) by (unfold funits; rewrite Z.div_0_l by (apply Z.pow_nonzero; lia); reflexivity).
  rewrite U0, dy_0 in L. change (Qabs 0) with 0%Q in L. assert (0 < dy 1 (1 - fbias eb))%Q by (apply dy_pos; lia). lra.
Qed.
Theorem C96_f64_partial : forall a b r, f64_finite a -> f64_finite b -> 0 < fmag 52 11 a -> 0 < fmag 52 11 b ->
  forall op v, In (op, v) [(fl_add, f64_value a + f64_value b); (fl_sub, f64_value a - f64_value b); (fl_mul, f64_value a * f64_value b)]%Q ->
  machine_result 52 11 v r ->
  exists x y z, fl_from_f64 a = Ok x /\ fl_from_f64 b = Ok y /\ op x y = Ok z /\ fl_to_f64 z = Ok (r, Exact).
Proof.
  intros a b r FA FB NA NB op v I MR.
  destruct (from_f64_exact a FA NA) as (x & X1 & X2 & X3 & X4 & X5 & _). destruct (from_f64_exact b FB NB) as (y & Y1 & Y2 & Y3 & Y4 & Y5 & _).
  assert (MX : flmode x = ToNearestEven).
  { destruct (set_f64_spec fl_default a FA NA) as (w & W1 & W2); [cbn; lia|]. unfold fl_from_f64 in X1. assert (w = x) as -> by congruence. apply W2. }
  assert (MY : flmode y = ToNearestEven).
  { destruct (set_f64_spec fl_default b FB NB) as (w & W1 & W2); [cbn; lia|]. unfold fl_from_f64 in Y1. assert (w = y) as -> by congruence. apply W2. }
  assert (FM : machine_format 52 11) by (left; auto).
  assert (K : exists z, op x y = Ok z /\ result_for ToNearestEven 53 v z).
  { assert (VN : ~ (v == 0)%Q).
    { destruct MR as (_ & _ & _ & _ & V). intros E. rewrite E in V. change (Qabs 0) with 0%Q in V. assert (0 < dy 1 (1 - fbias 11))%Q by (apply dy_pos; lia). lra. }
    cbn [In] in I. destruct I as [I|[I|[I|[]]]]; injection I as <- <-.
    - destruct (C54_add_partial x y X2 Y2 X3 Y3) as (z & E & R & _); [left; split; congruence|]. exists z. split; [auto|]. rewrite <- MX, <- X4.
      assert (EV : (flvalue x + flvalue y == f64_value a + f64_value b)%Q) by (rewrite X5, Y5; reflexivity).
      apply (result_wd _ _ (flvalue x + flvalue y)); [exact EV|]. apply R. rewrite EV. exact VN.
    - destruct (C54_sub_partial x y X2 Y2 X3 Y3) as (z & E & R & _); [left; split; congruence|]. exists z. split; [auto|]. rewrite <- MX, <- X4.
      assert (EV : (flvalue x - flvalue y == f64_value a - f64_value b)%Q) by (rewrite X5, Y5; reflexivity).
      apply (result_wd _ _ (flvalue x - flvalue y)); [exact EV|]. apply R. rewrite EV. exact VN.
    - destruct (C54_mul x y X2 Y2 X3 Y3) as (z & E & R). exists z. split; [auto|]. rewrite <- MX, <- X4.
      apply (result_wd _ _ (flvalue x * flvalue y)); [rewrite X5, Y5; reflexivity|exact R]. }
  destruct K as (z & E & R). destruct (result_machine 52 11 v r z FM MR R) as (FZ & VZ).
  exists x, y, z. split; [auto|]. split; [auto|]. split; [auto|]. apply to_f64_value; [apply R|auto| |apply (result_mag 52 11 v r FM MR)|exact VZ].
  destruct MR as (B & FI & _). split; auto.
Qed.
(** The same for singles, with the precision set to 24 bits. *)
Definition at_24 (b : Z) : res float := do x <- fl_from_f32 b; fl_set_precision x 24.
Lemma at_24_spec b : f32_finite b -> 0 < fmag 23 8 b ->
  exists x, at_24 b = Ok x /\ ok_float x /\ flform x = Finite /\ flprec x = 24 /\ flmode x = ToNearestEven /\ (flvalue x == f32_value b)%Q.
Proof.
  intros F NZ. destruct (C76_from_f32 b F NZ) as (x & X1 & X2 & X3 & X4 & X5 & _). unfold at_24. rewrite X1. cbn [bind].
  assert (MX : flmode x = ToNearestEven).
  { destruct (f64_of_f32_nonzero b F NZ) as (D & E). destruct (set_f64_spec fl_default _ D E) as (w & W1 & W2); [cbn; lia|].
    unfold fl_from_f32 in X1. assert (w = x) as -> by congruence. apply W2. }
  destruct (set_precision_spec x 24 X2 X3 ltac:(lia)) as (z & Z1 & Z2). change (Z.min max_precision 24) with 24 in Z2. rewrite MX in Z2.
  exists z. split; [auto|]. pose proof (units_pos 23 _ h23 NZ) as U1. destruct F as (B & FF).
  assert (AV : (Qabs (flvalue x) == dy (funits 23 (fmag 23 8 b)) (-149))%Q).
  { rewrite X5, fvalue_dy32. rewrite sq_abs. apply Qabs_pos, dy_nonneg. lia. }
  pose proof (units_mono 23 h23 (fmag 23 8 b) _ (Z.lt_le_incl _ _ NZ) FF) as UB. rewrite (units_finf 23 8 h23 h8) in UB. change (2 ^ 23 * 2 ^ (2 ^ 8 - 2)) with (2 ^ 277) in UB.
  destruct (result_exact _ _ _ _ Z2) as (A1 & A2 & A3).
  - apply (rep_wd 24 (f32_value b)); [symmetry; exact X5|]. apply (rep_wd 24 (sq (fneg_bit 23 8 b) (dy (funits 23 (fmag 23 8 b)) (-149)))); [symmetry; apply fvalue_dy32|].
    apply rep_sq. destruct (pattern_split 23 h23 (fmag 23 8 b) ltac:(lia)) as (sg & c & O & L & E). rewrite E, (units_pattern 23 h23) by (auto; lia).
    destruct O as (C & S & _). apply (rep_wd 24 (dy sg (-149 + c))).
    + rewrite (dy_shift sg (-149 + c) c) by auto. replace (-149 + c - c) with (-149) by lia. reflexivity.
    + apply rep_dy; [|lia]. change (2 ^ 24) with (2 * 2 ^ 23). lia.
  - rewrite AV, (dy_to _ (-149) (min_exp - 1)) by (unfold min_exp; lia). apply dy_le.
    pose proof (pow2_pos (-149 - (min_exp - 1)) ltac:(unfold min_exp; lia)). nia.
  - rewrite AV, (dy_to 1 max_exp (-149)) by (unfold max_exp; lia). apply dy_lt. rewrite Z.mul_1_l. eapply Z.lt_le_trans; [exact UB|].
    apply Z.pow_le_mono_r; [lia|unfold max_exp; lia].
  - destruct Z2 as (O & M & P & _). split; [auto|]. split; [auto|]. split; [auto|]. split; [auto|]. rewrite A2. exact X5.
Qed.
Theorem C96_f32_partial : forall a b r, f32_finite a -> f32_finite b -> 0 < fmag 23 8 a -> 0 < fmag 23 8 b ->
  forall op v, In (op, v) [(fl_add, f32_value a + f32_value b); (fl_sub, f32_value a - f32_value b); (fl_mul, f32_value a * f32_value b)]%Q ->
  machine_result 23 8 v r ->
  exists x y z, at_24 a = Ok x /\ at_24 b = Ok y /\ op x y = Ok z /\ fl_to_f32 z = Ok (r, Exact).
Proof.
  intros a b r FA FB NA NB op v I MR.
  destruct (at_24_spec a FA NA) as (x & X1 & X2 & X3 & X4 & MX & X5). destruct (at_24_spec b FB NB) as (y & Y1 & Y2 & Y3 & Y4 & MY & Y5).
  assert (FM : machine_format 23 8) by (right; auto).
  assert (K : exists z, op x y = Ok z /\ result_for ToNearestEven 24 v z).
  { assert (VN : ~ (v == 0)%Q).
    { destruct MR as (_ & _ & _ & _ & V). intros E. rewrite E in V. change (Qabs 0) with 0%Q in V. assert (0 < dy 1 (1 - fbias 8))%Q by (apply dy_pos; lia). lra. }
    cbn [In] in I. destruct I as [I|[I|[I|[]]]]; injection I as <- <-.
    - destruct (C54_add_partial x y X2 Y2 X3 Y3) as (z & E & R & _); [left; split; congruence|]. exists z. split; [auto|]. rewrite <- MX, <- X4.
      assert (EV : (flvalue x + flvalue y == f32_value a + f32_value b)%Q) by (rewrite X5, Y5; reflexivity).
      apply (result_wd _ _ (flvalue x + flvalue y)); [exact EV|]. apply R. rewrite EV. exact VN.
    - destruct (C54_sub_partial x y X2 Y2 X3 Y3) as (z & E & R & _); [left; split; congruence|]. exists z. split; [auto|]. rewrite <- MX, <- X4.
      assert (EV : (flvalue x - flvalue y == f32_value a - f32_value b)%Q) by (rewrite X5, Y5; reflexivity).
      apply (result_wd _ _ (flvalue x - flvalue y)); [exact EV|]. apply R. rewrite EV. exact VN.
    - destruct (C54_mul x y X2 Y2 X3 Y3) as (z & E & R). exists z. split; [auto|]. rewrite <- MX, <- X4.
      apply (result_wd _ _ (flvalue x * flvalue y)); [rewrite X5, Y5; reflexivity|exact R]. }
  destruct K as (z & E & R). destruct (result_machine 23 8 v r z FM MR R) as (FZ & VZ).
  exists x, y, z. split; [auto|]. split; [auto|]. split; [auto|]. apply to_f32_value; [apply R|auto| |apply (result_mag 23 8 v r FM MR)|exact VZ].
  destruct MR as (B & FI & _). split; auto.
Qed.
(** 0.1 + 0.2 in doubles, and 1/3-like singles multiplied. *)
Example C96_case :
  (do x <- fl_from_f64 4591870180066957722; do y <- fl_from_f64 4596373779694328218; do z <- fl_add x y; fl_to_f64 z) = Ok (4599075939470750516, Exact) /\
  (do x <- at_24 1051372203; do y <- at_24 1036831949; do z <- fl_mul x y; fl_to_f32 z) = Ok (1023969417, Exact).
Proof. split; vm_compute; reflexivity. Qed.
Print Assumptions C96_machine_partial.
Print Assumptions C96_div_refuted.
Print Assumptions C96_f64_partial.
Print Assumptions C96_f32_partial.

(** ** The multiplication of the processor
    [fmul] (Ieee.v), which stands for the machine's [*], is the one of IEEE 754
    for every two patterns: NaN for a NaN and for infinity times zero, infinity
    for infinity times anything else, and otherwise the pattern nearest to the
    product of the values, ties to even. *)
Lemma product_near mb eb a b : machine_format mb eb -> 0 <= a -> 0 <= b ->
  nearest mb eb (funits mb a * funits mb b) (2 ^ (- 2 * funit mb eb)) (fround mb eb (fsig mb a * fsig mb b) (fexp mb eb a + fexp mb eb b)).
Proof.
  intros FM A0 B0. destruct (format_facts mb eb FM) as (Hm & He & Hu & _).
  assert (U : forall k, 0 <= k -> funits mb k = fsig mb k * 2 ^ (fexp mb eb k - funit mb eb) /\ funit mb eb <= fexp mb eb k /\ 0 <= fsig mb k).
  { intros k K; unfold funits, fsig, fexp; assert (0 < 2 ^ mb) by (apply Z.pow_pos_nonneg; lia); assert (0 <= k / 2 ^ mb) by (apply Z.div_pos; lia); pose proof (Z.mod_pos_bound k (2 ^ mb));
    replace (Z.max (k / 2 ^ mb) 1 - 1 + funit mb eb - funit mb eb) with (Z.max (k / 2 ^ mb) 1 - 1) by lia; destruct (Z.eqb_spec (k / 2 ^ mb) 0) as [E|E];
    [rewrite E; change (Z.max 0 1 - 1) with 0; rewrite Z.pow_0_r; lia|rewrite Z.max_l by lia; split; [reflexivity|lia]]. }
  destruct (U a A0) as (Ea & La & Sa); destruct (U b B0) as (Eb & Lb & Sb). apply nearest_near.
  replace (funits mb a * funits mb b * 2 ^ (- funit mb eb)) with (fsig mb a * fsig mb b * 2 ^ (fexp mb eb a + fexp mb eb b - funit mb eb + - 2 * funit mb eb)).
  - apply (fround_near mb eb Hm He); nia.
  - rewrite Ea, Eb. replace (fexp mb eb a + fexp mb eb b - funit mb eb + - 2 * funit mb eb) with ((fexp mb eb a - funit mb eb) + (fexp mb eb b - funit mb eb) + - funit mb eb) by lia. rewrite !Z.pow_add_r by lia. ring.
Qed.
Theorem C96_machine_mul : forall mb eb x y, machine_format mb eb ->
  let s := xorb (fneg_bit mb eb x) (fneg_bit mb eb y) in
  let a := fmag mb eb x in let b := fmag mb eb y in
  (finf mb eb < a \/ finf mb eb < b -> fmul mb eb x y = fnan mb eb) /\
  (a = finf mb eb /\ b = 0 \/ a = 0 /\ b = finf mb eb -> fmul mb eb x y = fnan mb eb) /\
  (a = finf mb eb /\ 0 < b <= finf mb eb \/ 0 < a <= finf mb eb /\ b = finf mb eb -> fmul mb eb x y = fsigned mb eb s (finf mb eb)) /\
  (a < finf mb eb -> b < finf mb eb -> exists k, fmul mb eb x y = fsigned mb eb s k /\
     nearest mb eb (funits mb a * funits mb b) (2 ^ (- 2 * funit mb eb)) k).
Proof.
  intros mb eb x y FM s a b. destruct (format_facts mb eb FM) as (Hm & He & Hu & _). 
  assert (FP : 0 < finf mb eb) by (destruct FM as [[-> ->]|[-> ->]]; reflexivity).
  assert (A0 : 0 <= a) by (apply Z.mod_pos_bound, Z.pow_pos_nonneg; lia). assert (B0 : 0 <= b) by (apply Z.mod_pos_bound, Z.pow_pos_nonneg; lia).
  assert (ES : negb (eqb (fneg_bit mb eb x) (fneg_bit mb eb y)) = s) by (unfold s; destruct (fneg_bit mb eb x), (fneg_bit mb eb y); reflexivity).
  unfold fmul, f_is_nan, f_is_inf, f_is_zero. fold a b. rewrite ES. clearbody s a b.
  destruct (Z.ltb_spec (finf mb eb) a), (Z.ltb_spec (finf mb eb) b), (Z.eqb_spec a (finf mb eb)), (Z.eqb_spec b (finf mb eb)), (Z.eqb_spec a 0), (Z.eqb_spec b 0);
    cbn [orb andb]; (split; [intros; first [reflexivity|exfalso; lia]|]; split; [intros; first [reflexivity|exfalso; lia]|]; split; [intros; first [reflexivity|exfalso; lia]|]; intros LA LB; try (exfalso; lia));
    (eexists; split; [reflexivity|]).
  all: apply product_near; auto.
Qed.
Example C96_machine_mul_case : fmul 52 11 (finf 52 11) (f64_pow2 (-2)) = finf 52 11 /\ fmul 52 11 (f64_pow2 3) (fsigned 52 11 true (f64_pow2 4)) = fsigned 52 11 true (f64_pow2 7) /\
  fmul 52 11 (finf 52 11) 0 = fnan 52 11.
Proof. vm_compute. auto. Qed.
Print Assumptions C96_machine_mul.
