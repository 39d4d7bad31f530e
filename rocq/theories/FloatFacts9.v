(** [to_f32] and [to_f64]. *)
From Coq Require Import ZArith QArith Qabs Qround Qpower Lqa Lia Bool List.
From Verif Require Import Words Spec WordsFacts NatModel NatFacts NatFacts2 NatFacts3 NatFacts4 NatFacts5 NatConvFacts
  VecPrims VecFacts NatConv BigInt SpecInt BigIntFacts Ieee IeeeFacts IeeeFacts2 Rat SpecRat RatFacts3 Float SpecFloat
  FloatFacts FloatFacts2 FloatFacts3 FloatFacts4 FloatFacts5 FloatFacts6 FloatFacts7 FloatFacts8.
Import ListNotations.
Open Scope Z_scope.

(** Rounding to nearest even has one result. *)
Lemma even_same p v e f : 0 < p -> (dy (2 ^ (p - 1)) e <= v < dy (2 ^ p) e)%Q -> (dy (2 ^ (p - 1)) f <= v < dy (2 ^ p) f)%Q -> e = f.
Proof.
  intros P. assert (K : forall e f, (dy (2 ^ (p - 1)) e <= v)%Q -> (v < dy (2 ^ p) f)%Q -> e <= f).
  { clear e f. intros e f A B. assert (C : (dy (2 ^ (p - 1)) e < dy (2 ^ p) f)%Q) by lra.
    destruct (Z.le_gt_cases e f) as [|L]; [auto|exfalso]. rewrite (dy_to _ e f) in C by lia. apply dy_lt in C.
    rewrite <- Z.pow_add_r in C by lia. apply Z.pow_lt_mono_r_iff in C; lia. }
  intros (A & B) (C & D). pose proof (K e f A D). pose proof (K f e C B). lia.
Qed.
Lemma nearest_even_unique p v r s : 0 < p -> (0 < v)%Q -> rounded ToNearestEven p v r -> rounded ToNearestEven p v s -> (r == s)%Q.
Proof.
  intros P V. assert (K : forall r s, rounded ToNearestEven p v r -> rounded ToNearestEven p v s -> ~ (r < s)%Q).
  { clear r s. intros r s ((R1 & R2) & R3) ((S1 & S2) & S3) L.
    assert (EQ : (Qabs (r - v) == Qabs (s - v))%Q) by (apply Qle_antisym; auto).
    assert (T1 : is_tie p v r) by (exists s; split; [auto|]; split; [lra|auto]).
    assert (T2 : is_tie p v s) by (exists r; split; [auto|]; split; [lra|symmetry; auto]).
    destruct (R3 T1) as (m & e & A & B & C). destruct (S3 T2) as (n & f & A' & B' & C').
    assert (f = e) by (apply (even_same p (Qabs v) f e P A' A)). subst f. clear A' R3 S3 T1 T2.
    rewrite (Qabs_pos v) in A by lra. rewrite C, C' in L. rewrite C, C' in EQ. apply (proj1 (dy_lt _ _ _)) in L.
    assert (M : (dy m e < v)%Q).
    { destruct (Qlt_le_dec (dy m e) v) as [|G]; [auto|]. rewrite (Qabs_pos (dy m e - v)) in EQ by lra.
      assert (dy m e < dy n e)%Q by (apply dy_lt; auto). rewrite Qabs_pos in EQ by lra. lra. }
    assert (N : (v < dy n e)%Q).
    { destruct (Qlt_le_dec v (dy n e)) as [|G]; [auto|]. rewrite (Qabs_neg (dy m e - v)) in EQ by lra.
      assert (dy m e < dy n e)%Q by (apply dy_lt; auto). rewrite Qabs_neg in EQ by lra. lra. }
    rewrite Qabs_neg in EQ by lra. rewrite Qabs_pos in EQ by lra.
    (* the odd multiple in between is nearer *)
    assert (m + 2 <= n).
    { apply Zeven_bool_iff, Zeven_ex_iff in B. apply Zeven_bool_iff, Zeven_ex_iff in B'. destruct B, B'. lia. }
    assert (I1 : (dy m e < dy (m + 1) e)%Q) by (apply dy_lt; lia). assert (I2 : (dy (m + 1) e < dy n e)%Q) by (apply dy_lt; lia).
    assert (RP : forall t, representable p t -> (dy m e < t)%Q -> ~ (t < dy n e)%Q).
    { intros t RT T1 T2. specialize (R2 t RT). rewrite C in R2. rewrite (Qabs_neg (dy m e - v)) in R2 by lra.
      destruct (Qlt_le_dec t v); [rewrite Qabs_neg in R2 by lra; lra|rewrite Qabs_pos in R2 by lra; lra]. }
    destruct (Z.lt_ge_cases m 0) as [NG|PO].
    - apply (RP 0%Q); [exists 0, 0; split; [pose proof (Z.pow_pos_nonneg 2 p); lia|reflexivity]| |lra].
      apply dy_neg. auto.
    - apply (RP (dy (m + 1) e)); auto. assert (X : (dy m e < dy (2 ^ p) e)%Q) by lra. apply (proj1 (dy_lt _ _ _)) in X. apply rep_dy; lia. }
  intros A B. destruct (Q_dec r s) as [[C|C]|C]; [exfalso; apply (K r s); auto|exfalso; apply (K s r); auto|auto].
Qed.

(** The rounded significand. *)
Lemma half_even_rounded M k p e : 0 < p -> 0 < k -> 2 ^ (p + k - 1) <= M < 2 ^ (p + k) ->
  rounded ToNearestEven p (dy M e) (dy (half_even M k) (e + k)) /\ 2 ^ (p - 1) <= half_even M k <= 2 ^ p.
Proof.
  intros P K B. pose proof (pow2_pos k ltac:(lia)) as PK. pose proof (Z.div_mod M (2 ^ k) ltac:(lia)) as DM. pose proof (Z.mod_pos_bound M (2 ^ k) PK) as MB.
  set (q := M / 2 ^ k) in *. set (r := M mod 2 ^ k) in *.
  assert (QB : 2 ^ (p - 1) <= q < 2 ^ p).
  { split; [apply Z.div_le_lower_bound; [lia|]|apply Z.div_lt_upper_bound; [lia|]]; rewrite <- Z.pow_add_r by lia.
    - replace (k + (p - 1)) with (p + k - 1) by lia. lia.
    - replace (k + p) with (p + k) by lia. lia. }
  assert (ES : forall c, (dy c (e + k) == dy (c * 2 ^ k) e)%Q).
  { intros c. rewrite (dy_shift c (e + k) k) by lia. replace (e + k - k) with e by lia. reflexivity. }
  assert (HB : q <= half_even M k <= q + 1).
  { unfold half_even. fold q r. destruct (2 * r <? 2 ^ k), (2 ^ k <? 2 * r), (Z.even q); lia. }
  split; [|lia]. destruct (Z.eq_dec r 0) as [R0|R0].
  - assert (half_even M k = q) as -> by (unfold half_even; fold q r; rewrite R0; destruct (Z.ltb_spec (2 * 0) (2 ^ k)); lia).
    apply (rounded_wd _ p (dy M e) (dy M e) (dy M e)); [reflexivity| |].
    + rewrite ES. apply dy_wd. lia.
    + apply exact_rounded. exists q, (e + k). split; [lia|]. rewrite ES. apply dy_wd. lia.
  - pose proof (round_gap ToNearestEven p q (e + k) (dy M e) (2 ^ k <=? 2 * r) (2 ^ k <? 2 * r) (Z.odd q) P QB) as G.
    cbn [round_inc] in G.
    assert (half_even M k = if (2 ^ k <=? 2 * r) && ((2 ^ k <? 2 * r) || Z.odd q) then q + 1 else q) as ->.
    { unfold half_even. fold q r. rewrite <- Z.negb_odd. destruct (Z.ltb_spec (2 * r) (2 ^ k)), (Z.leb_spec (2 ^ k) (2 * r)), (Z.ltb_spec (2 ^ k) (2 * r)), (Z.odd q); cbn; try reflexivity; lia. }
    assert (SUM : forall X, (dy q (e + k) + dy (q + 1) (e + k) == dy X e)%Q <-> X = 2 * M - 2 * r + 2 ^ k).
    { intros X. rewrite dy_add, ES, dy_eq. split; intros; lia. }
    assert (S0 := proj2 (SUM _) eq_refl). assert (D2 : (2 * dy M e == dy (2 * M) e)%Q).
    { transitivity (dy M e + dy M e)%Q; [ring|]. rewrite dy_add. apply dy_wd. lia. }
    apply G.
    + rewrite ES. apply dy_lt. lia.
    + rewrite ES. apply dy_lt. lia.
    + rewrite S0, D2, dy_le, Z.leb_le. lia.
    + intros _ _. rewrite S0, D2, dy_lt, Z.ltb_lt. lia.
    + auto.
Qed.

Lemma msb32_spec m : normal_mant m ->
  (dy (msb32 m) (-32) <= dy (nval m) (- mbits m))%Q /\ (dy (nval m) (- mbits m) < dy (msb32 m + 1) (-32))%Q.
Proof.
  intros N. destruct (normal_pos m N) as (Hw & Hl & B).
  destruct (list_eq_dec Z.eq_dec m []) as [->|NE]; [cbn in Hl; lia|].
  destruct (exists_last NE) as (l & h & ->). apply words_ok_app in Hw as (Wl & _).
  assert (EM : msb32 (l ++ [h]) = h) by (unfold msb32; rewrite rev_app_distr; reflexivity).
  assert (EV : nval (l ++ [h]) = nval l + Wp (length l) * h) by (rewrite nval_app; cbn [nval]; ring).
  pose proof (nval_bound l Wl) as BK. rewrite EM.
  assert (ES : forall c, (dy c (-32) == dy (c * Wp (length l)) (- mbits (l ++ [h])))%Q).
  { intros c. rewrite (dy_shift c (-32) (32 * Z.of_nat (length l))) by lia. rewrite Wp_pow2.
    replace (- mbits (l ++ [h])) with (-32 - 32 * Z.of_nat (length l)); [reflexivity|].
    unfold mbits. rewrite !app_length. cbn [length]. lia. }
  rewrite !ES, EV. rewrite dy_le, dy_lt. nia.
Qed.
(** Reading [n] leading bits that hold the whole value. *)
Lemma msb_top F msb x t n : 0 <= n <= F ->
  (dy (msb (flmant x)) (- F) <= dy (nval (flmant x)) (- mbits (flmant x)))%Q ->
  (dy (nval (flmant x)) (- mbits (flmant x)) < dy (msb (flmant x) + 1) (- F))%Q ->
  (mag x == dy t (flexp x - n))%Q -> msb (flmant x) / 2 ^ (F - n) = t.
Proof.
  intros Hn A B E. assert (E' : (dy (nval (flmant x)) (- mbits (flmant x)) == dy (t * 2 ^ (F - n)) (- F))%Q).
  { assert (X : forall c k, (dy c k == dy c (flexp x + k) * dy 1 (- flexp x))%Q).
    { intros c k. rewrite dy_mul, Z.mul_1_r. replace (flexp x + k + - flexp x) with k by lia. reflexivity. }
    transitivity (dy t (- n)); [|rewrite (dy_shift t (- n) (F - n)) by lia; replace (- n - (F - n)) with (- F) by lia; reflexivity].
    rewrite X, (X t). apply Qmult_comp; [|reflexivity]. exact E. }
  rewrite E' in A, B. apply (proj1 (dy_le _ _ _)) in A. apply (proj1 (dy_lt _ _ _)) in B.
  replace (msb (flmant x)) with (t * 2 ^ (F - n)) by lia. apply Z.div_mul. pose proof (pow2_pos (F - n)). lia.
Qed.

(** [nearest] depends on the value of the fraction. *)
Lemma nearest_frac mb eb p q p' q' k : 0 < q -> 0 < q' -> p * q' = p' * q -> nearest mb eb p q k -> nearest mb eb p' q' k.
Proof.
  rewrite !nearest_near. intros Q Q' E H. apply (near_scale mb eb _ q' k q Q).
  set (u := 2 ^ - funit mb eb) in *. replace (p' * u * q) with (p * u * q') by (transitivity (p * q' * u); [ring|rewrite E; ring]).
  rewrite (Z.mul_comm q' q). apply near_scale; auto.
Qed.
Lemma nearest_dy mb eb v M e k : 1 <= mb -> 2 <= eb -> 0 <= M -> (Qabs v == dy M e)%Q -> k = fround mb eb M e ->
  nearest mb eb (Z.abs (Qnum v)) (Zpos (Qden v)) k.
Proof.
  intros Hmb Heb HM E ->. set (N := Z.max 0 (- e)). set (U := funit mb eb).
  assert (HU : U <= 0) by (unfold U, funit, fbias; pose proof (Z.pow_pos_nonneg 2 (eb - 1)); lia).
  apply (nearest_frac mb eb (M * 2 ^ (e + N)) (2 ^ N)); [apply Z.pow_pos_nonneg; unfold N; lia|lia| |].
  - unfold dy in E. destruct v as [a b]. unfold Qabs in E. cbn [Qnum Qden].
    assert (X : (Qpower 2 e * inject_Z (2 ^ N) == inject_Z (2 ^ (e + N)))%Q).
    { rewrite !Zpower_Qpower by (unfold N; lia). rewrite <- Qpower_plus by lra. reflexivity. }
    assert (Y : ((Z.abs a # b) * inject_Z (2 ^ N) == inject_Z (M * 2 ^ (e + N)))%Q).
    { rewrite E, <- Qmult_assoc, X, inject_Z_mult. reflexivity. }
    unfold Qeq in Y. cbn [Qnum Qden Qmult inject_Z] in Y. rewrite Pos.mul_1_r in Y. lia.
  - rewrite nearest_near. pose proof (fround_near mb eb Hmb Heb M e N HM ltac:(lia)) as H. fold U in H |- *.
    replace (M * 2 ^ (e + N) * 2 ^ - U) with (M * 2 ^ (e - U + N)); [apply H; lia|].
    rewrite <- Z.mul_assoc, <- Z.pow_add_r by lia. do 2 f_equal. lia.
Qed.

Section TO.
Variables mb eb : Z.
Variable msb : list Z -> Z.
Variable nm : bool.
Hypothesis Hmb : 1 <= mb.
Hypothesis Heb : 2 <= eb.
Hypothesis Hlow : 2 ^ eb <= 2 ^ 30.
Hypothesis MSB : forall m, normal_mant m ->
  (dy (msb m) (- (mb + eb + 1)) <= dy (nval m) (- mbits m))%Q /\ (dy (nval m) (- mbits m) < dy (msb m + 1) (- (mb + eb + 1)))%Q.
Notation U := (funit mb eb).
Notation bias := (fbias eb).
Notation T := (2 ^ mb).

Variable x : float.
Hypothesis OX : ok_float x.
Hypothesis FX : flform x = Finite.
Let P0 := proj1 (ok_finite x OX FX).
Let N0 := proj2 (ok_finite x OX FX).
Notation M := (nval (flmant x)).
Notation B := (mbits (flmant x)).
Notation E := (flexp x).

Lemma bias_pos : 1 <= bias /\ 2 ^ eb = 2 * bias + 2 /\ mb + U = 1 - bias.
Proof using Hmb Heb.
  unfold funit, fbias. assert (2 ^ eb = 2 * 2 ^ (eb - 1)) by (rewrite <- Z.pow_succ_r by lia; f_equal; lia).
  assert (2 ^ 1 <= 2 ^ (eb - 1)) by (apply Z.pow_le_mono_r; lia). change (2 ^ 1) with 2 in *. lia.
Qed.

(** The pattern is [k]; its accuracy is [a]. *)
Definition machine_result (k : Z) (a : accuracy) : Prop :=
  nearest mb eb (Z.abs (Qnum (flvalue x))) (Zpos (Qden (flvalue x))) k /\
  (k < finf mb eb -> a = acc_of (fvalue mb eb (fsigned mb eb (flneg x) k)) (flvalue x)) /\
  (k = finf mb eb -> a = make_accuracy (negb (flneg x))).

Lemma signed_value ng k : 0 <= k <= finf mb eb -> (fvalue mb eb (fsigned mb eb ng k) == sq ng (dy (funits mb k) U))%Q.
Proof using Hmb Heb N0 OX FX.
  intros H. destruct bias_pos as (B1 & B2 & B3).
  assert (FI : finf mb eb < 2 ^ (mb + eb)). { unfold finf. rewrite Z.pow_add_r by lia. pose proof (pow2_pos mb). lia. }
  pose proof (pow2_pos (mb + eb) ltac:(lia)) as PP.
  assert (SB : fneg_bit mb eb (fsigned mb eb ng k) = ng) by (unfold fneg_bit, fsigned; destruct ng; [apply Z.leb_le|apply Z.leb_gt]; lia).
  assert (MG : fmag mb eb (fsigned mb eb ng k) = k).
  { unfold fmag, fsigned. destruct ng; [|apply Z.mod_small; lia]. symmetry. apply (Z.mod_unique_pos _ _ 1); lia. }
  unfold fvalue. rewrite SB, MG. rewrite <- sg_dy. unfold sg. set (n := if ng then _ else _). unfold dy.
  rewrite (Qmake_Qdiv n). apply Qmult_comp; [reflexivity|]. assert (PU : 0 < 2 ^ - U) by (apply pow2_pos; lia).
  replace (Zpos (Z.to_pos (2 ^ - U))) with (2 ^ - U) by (rewrite Z2Pos.id; auto).
  rewrite Zpower_Qpower by lia. rewrite Qpower_opp, Qinv_involutive. reflexivity.
Qed.

Lemma log2_mant : Z.log2 M = B - 1.
Proof using Hmb Heb N0 OX FX. destruct (normal_pos _ N0) as (_ & L & BB). assert (32 <= B) by (unfold mbits; lia). apply Z.log2_unique; [lia|]. replace (Z.succ (B - 1)) with B by lia. lia. Qed.

Lemma abs_value : (Qabs (flvalue x) == dy M (E - B))%Q.
Proof using Hmb Heb N0 OX FX. apply finite_abs; auto. Qed.

Lemma zero_case : (Qabs (flvalue x) <= dy 1 (U - 1))%Q -> machine_result 0 (make_accuracy (flneg x)).
Proof using Hmb Heb N0 OX FX.
  intros L. destruct (normal_pos _ N0) as (_ & Hl & BB). assert (32 <= B) by (unfold mbits; lia). pose proof (pow2_pos (B - 1) ltac:(lia)) as PB.
  pose proof (finf_pos mb eb Hmb Heb) as FP. pose proof (T_pos mb Hmb) as TP. split; [|split].
  - apply (nearest_dy mb eb _ M (E - B)); auto; [lia|apply abs_value|]. symmetry.
    set (N := Z.max 1 (U - E + B)). apply (fround_tiny mb eb Hmb Heb M (E - B) N); [lia|lia|lia|].
    rewrite abs_value in L. rewrite (dy_to M (E - B) (U - N)), (dy_to 1 (U - 1) (U - N)) in L by lia. apply (proj1 (dy_le _ _ _)) in L.
    replace (E - B - (U - N)) with (E - B - U + N) in L by lia. replace (U - 1 - (U - N)) with (N - 1) in L by lia.
    replace (2 ^ N) with (2 * 2 ^ (N - 1)) by (rewrite <- Z.pow_succ_r by lia; f_equal; lia). lia.
  - intros _. pose proof (signed_value (flneg x) 0 ltac:(lia)) as V. change (funits mb 0) with 0 in V.
    pose proof (finite_val x FX) as FV. pose proof (mag_pos x N0) as MP.
    assert (V0 : (fvalue mb eb (fsigned mb eb (flneg x) 0) == 0)%Q).
    { rewrite V. destruct (flneg x); cbn [sq]; rewrite dy_0; reflexivity. }
    symmetry. destruct (flneg x) eqn:NG; cbn [make_accuracy sq] in *; [apply acc_gt|apply acc_lt]; rewrite V0; lra.
  - intros HH. lia.
Qed.

Lemma rounded_sq p ng v w : rounded ToNearestEven p (sq ng v) w -> rounded ToNearestEven p v (sq ng w).
Proof using.
  destruct ng; cbn [sq]; [|auto]. intros H. apply (rounded_wd _ p (- - v) v (- w) (- w)); [apply Qopp_involutive|reflexivity|].
  apply (rounded_opp ToNearestEven). exact H.
Qed.

Lemma round_case p : 1 <= p ->
  (E - 1 < 1 - bias /\ p = E - U /\ p <= mb) \/ (1 - bias <= E - 1 /\ p = mb + 1) ->
  exists k a,
    (do r <- set_float (set_prec fl_default p) x;
     let e := flexp r - 1 in
     if is_infinite (flform r) || (bias <? e) then
       Ok (fsigned mb eb (flneg x) (finf mb eb), if flneg x then Below else Above)
     else
       let '(bexp, mant) :=
         if e <? 1 - bias then (0, msb (flmant r) / 2 ^ (mb + eb + 1 - (mb + 1 - (1 - bias) + e)))
         else ((e + bias) * 2 ^ mb, (msb (flmant r) / 2 ^ eb) mod 2 ^ mb) in
       Ok (Z.lor (Z.lor (if flneg x then 2 ^ (mb + eb + 1 - 1) else 0) bexp) mant, flacc r))
    = Ok (fsigned mb eb (flneg x) k, a) /\ machine_result k a.
Proof using Hmb Heb N0 OX FX MSB Hlow.
  intros HP HC. destruct bias_pos as (B1 & B2 & B3). destruct (normal_pos _ N0) as (_ & Hl & BB).
  assert (B32 : 32 <= B) by (unfold mbits; lia). pose proof (pow2_pos (B - 1) ltac:(lia)) as PB.
  pose proof (finf_pos mb eb Hmb Heb) as FP. pose proof (T_pos mb Hmb) as TP.
  set (s := E - p). set (q := if s <=? E - B then M * 2 ^ (E - B - s) else half_even M (s - (E - B))).
  assert (FR : fround mb eb M (E - B) = Z.min (q + (s - U) * T) (finf mb eb)).
  { unfold fround. destruct (Z.eqb_spec M 0); [lia|]. cbv zeta. rewrite log2_mant.
    assert (Z.max (B - 1 - mb + (E - B)) U = s) as -> by (unfold s; lia). reflexivity. }
  assert (QR : rounded ToNearestEven p (dy M (E - B)) (dy q s) /\ 2 ^ (p - 1) <= q <= 2 ^ p).
  { unfold q. destruct (Z.leb_spec s (E - B)) as [L|L].
    - assert (ED : (dy M (E - B) == dy (M * 2 ^ (E - B - s)) s)%Q) by (apply dy_to; auto).
      assert (QB : 2 ^ (p - 1) <= M * 2 ^ (E - B - s) < 2 ^ p).
      { replace (E - B - s) with (p - B) by (unfold s; lia). assert (B <= p) by (unfold s in L; lia).
        replace (2 ^ (p - 1)) with (2 ^ (B - 1) * 2 ^ (p - B)) by (rewrite <- Z.pow_add_r by lia; f_equal; lia).
        replace (2 ^ p) with (2 ^ B * 2 ^ (p - B)) by (rewrite <- Z.pow_add_r by lia; f_equal; lia).
        pose proof (pow2_pos (p - B) ltac:(lia)). nia. }
      split; [|lia]. eapply rounded_wd; [reflexivity|exact ED|]. apply exact_rounded. eapply rep_wd; [symmetry; exact ED|].
      apply rep_dy; lia.
    - replace (s - (E - B)) with (B - p) by (unfold s; lia).
      assert (PB' : p < B) by (unfold s in L; lia).
      destruct (half_even_rounded M (B - p) p (E - B) ltac:(lia) ltac:(lia)) as (R1 & R2).
      { replace (p + (B - p)) with B by lia. lia. }
      replace (E - B + (B - p)) with s in R1 by (unfold s; lia). auto. }
  destruct QR as (QR & QB). clearbody q.
  destruct (set_float_spec (set_prec fl_default p) x OX FX) as (r & Er & RF); [cbn; lia|].
  change (flprec (set_prec fl_default p)) with p in RF. change (flmode (set_prec fl_default p)) with ToNearestEven in RF.
  destruct (Z.eqb_spec p 0) as [|_]; [lia|]. rewrite Er. cbn [bind].
  pose proof (finite_val x FX) as FV. pose proof (mag_pos x N0) as MP.
  destruct RF as (OR & _ & _ & NR & RF).
  assert (NGE : flneg r = flneg x).
  { destruct (flneg x) eqn:NG; cbn [sq] in FV.
    - apply NR. lra.
    - destruct (flneg r); [|reflexivity]. assert (flvalue x < 0)%Q by (apply NR; reflexivity). lra. }
  assert (UNI : forall w, rounded ToNearestEven p (flvalue x) w -> (sq (flneg x) w == dy q s)%Q).
  { intros w R. apply (nearest_even_unique p (mag x)); [lia|auto| |].
    - apply rounded_sq. eapply rounded_wd; [exact FV|reflexivity|exact R].
    - exact QR. }
  assert (NEAR : nearest mb eb (Z.abs (Qnum (flvalue x))) (Zpos (Qden (flvalue x))) (Z.min (q + (s - U) * T) (finf mb eb))).
  { rewrite <- FR. apply (nearest_dy mb eb _ M (E - B)); auto; [lia|apply abs_value]. }
  assert (INF : finf mb eb = (2 * bias + 1) * T) by (unfold finf; rewrite B2; ring).
  assert (OVER : bias + 2 <= E -> finf mb eb <= q + (s - U) * T).
  { intros H. destruct HC as [HC|(_ & HC)]; [lia|]. rewrite INF. subst p. replace (mb + 1 - 1) with mb in QB by lia.
    assert (2 * bias <= s - U) by (unfold s; lia). nia. }
  destruct (flform r) eqn:FR'.
  - (* zero *) exfalso. destruct RF as (RF & _). pose proof OX as (_ & O2). destruct (O2 FX) as (_ & _ & EB & _).
    destruct (mag_binade x N0) as (MB1 & _). rewrite (finite_abs x FX N0) in RF.
    assert (X : (dy 1 (E - 1) < dy 1 (min_exp - 1))%Q) by lra. rewrite (dy_to 1 (E - 1) (min_exp - 1)) in X by lia.
    apply (proj1 (dy_lt _ _ _)) in X. pose proof (pow2_pos (E - 1 - (min_exp - 1)) ltac:(lia)). lia.
  - (* finite *) destruct RF as (RR & RA). specialize (UNI _ RR). destruct (ok_finite r OR FR') as (PR & NNR).
    pose proof (finite_val r FR') as RV. rewrite NGE in RV.
    assert (MR : (mag r == dy q s)%Q).
    { rewrite <- UNI. rewrite (sq_wd _ _ _ RV). destruct (flneg x); cbn [sq]; [symmetry; apply Qopp_involutive|reflexivity]. }
    destruct (mag_binade r NNR) as (MB1 & MB2). rewrite MR in MB1, MB2.
    pose proof (pow2_pos (p - 1) ltac:(lia)) as PP1.
    assert (P2 : 2 ^ p = 2 * 2 ^ (p - 1)) by (rewrite <- Z.pow_succ_r by lia; f_equal; lia).
    assert (EXP : flexp r = if q =? 2 ^ p then E + 1 else E).
    { assert (LOW : forall a b c, (dy a b < dy 1 c)%Q -> 2 ^ (p - 1) <= a -> p - 1 + b < c).
      { intros a b c H1 H2. destruct (Z.lt_ge_cases (p - 1 + b) c) as [|G]; [auto|exfalso].
        apply Qlt_not_le in H1. apply H1. apply (Qle_trans _ (dy (2 ^ (p - 1)) b)); [|apply dy_le; auto].
        replace (2 ^ (p - 1)) with (1 * 2 ^ (p - 1)) by lia. replace b with (p - 1 + b - (p - 1)) by lia.
        rewrite <- dy_shift by lia. rewrite (dy_to 1 (p - 1 + b) c) by lia. apply dy_le. pose proof (pow2_pos (p - 1 + b - c)). lia. }
      assert (UPP : forall a b c, (dy 1 c <= dy a b)%Q -> a < 2 ^ p -> c < p + b).
      { intros a b c H1 H2. destruct (Z.lt_ge_cases c (p + b)) as [|G]; [auto|exfalso].
        apply Qle_not_lt in H1. apply H1. apply (Qlt_le_trans _ (dy (2 ^ p) b)); [apply dy_lt; auto|].
        replace (2 ^ p) with (1 * 2 ^ p) by lia. replace b with (p + b - p) by lia.
        rewrite <- dy_shift by lia. rewrite (dy_to 1 c (p + b)) by lia. apply dy_le. pose proof (pow2_pos (c - (p + b))). lia. }
      destruct (Z.eqb_spec q (2 ^ p)) as [EQ|NQ].
      - assert (DQ : (dy q s == dy (2 ^ (p - 1)) (s + 1))%Q).
        { rewrite (dy_shift (2 ^ (p - 1)) (s + 1) 1) by lia. replace (s + 1 - 1) with s by lia. apply dy_wd. lia. }
        rewrite DQ in MB1, MB2. apply LOW in MB2; [|lia]. apply UPP in MB1; [|lia]. unfold s in *. lia.
      - apply LOW in MB2; [|lia]. apply UPP in MB1; [|lia]. unfold s in *. lia. }
    cbn [is_infinite orb]. destruct (Z.ltb_spec bias (flexp r - 1)) as [OV|OV].
    + (* overflow *)
      exists (finf mb eb), (make_accuracy (negb (flneg x))). split; [destruct (flneg x); reflexivity|].
      assert (KK : Z.min (q + (s - U) * T) (finf mb eb) = finf mb eb).
      { apply Z.min_r. destruct (Z.eqb_spec q (2 ^ p)) as [EQ|NQ]; [|apply OVER; lia].
        destruct HC as [HC|(_ & HC)]; [lia|]. rewrite INF, EQ, HC. rewrite Z.pow_add_r by lia. change (2 ^ 1) with 2.
        assert (2 * bias - 1 <= s - U) by (unfold s; lia). nia. }
      rewrite KK in NEAR. split; [auto|]. split; [lia|auto].
    + set (k := q + (s - U) * T) in *.
      (* the significand and binade of the result *)
      assert (SOK : sig_ok mb q (s - U) /\ q <= 2 * T).
      { destruct HC as [(HC1 & HC2 & HC3)|(HC1 & HC2)].
        - split; [split; [unfold s; lia|split; [lia|left; unfold s; lia]]|].
          assert (2 ^ p <= T) by (apply Z.pow_le_mono_r; lia). lia.
        - subst p. replace (mb + 1 - 1) with mb in * by lia. split; [split; [unfold s; lia|split; [lia|right; lia]]|].
          rewrite Z.pow_add_r in QB by lia. change (2 ^ 1) with 2 in QB. lia. }
      destruct SOK as (SOK & QT).
      assert (KF : k < finf mb eb).
      { rewrite INF. unfold k. destruct HC as [(HC1 & HC2 & HC3)|(HC1 & HC2)].
        - assert (s - U = 0) as -> by (unfold s; lia). assert (2 ^ p <= T) by (apply Z.pow_le_mono_r; lia). nia.
        - subst p. rewrite Z.pow_add_r in * by lia. change (2 ^ 1) with 2 in *. destruct (Z.eqb_spec q (T * 2)) as [EQ|NQ].
          + assert (s - U <= 2 * bias - 2) by (unfold s; lia). nia.
          + assert (s - U <= 2 * bias - 1) by (unfold s; lia). nia. }
      assert (K0 : 0 <= k). { unfold k. destruct SOK as (S1 & S2 & _). nia. }
      rewrite Z.min_l in NEAR by lia.
      exists k, (flacc r). split.
      * assert (BITS : (if flexp r - 1 <? 1 - bias
                        then 0 + msb (flmant r) / 2 ^ (mb + eb + 1 - (mb + 1 - (1 - bias) + (flexp r - 1)))
                        else (flexp r - 1 + bias) * T + (msb (flmant r) / 2 ^ eb) mod T) = k /\
                       (flexp r - 1 < 1 - bias -> k < T)).
        { destruct (MSB _ NNR) as (MS1 & MS2).
          destruct (Z.ltb_spec (flexp r - 1) (1 - bias)) as [SUB|NOR].
          - assert (HC' : E - 1 < 1 - bias /\ p = E - U /\ p <= mb) by (destruct HC as [|HC]; [auto|destruct (q =? 2 ^ p); lia]).
            destruct HC' as (HC1 & HC2 & HC3). assert (SU : s = U) by (unfold s; lia).
            assert (KQ : k = q) by (unfold k; rewrite SU; lia). split.
            + rewrite (msb_top (mb + eb + 1) msb r q); [lia|destruct (q =? 2 ^ p); lia|auto|auto|].
              rewrite MR. replace (flexp r - (mb + 1 - (1 - bias) + (flexp r - 1))) with s by lia. reflexivity.
            + intros _. rewrite KQ. destruct (Z.eqb_spec q (2 ^ p)) as [EQ|NQ].
              * rewrite EQ. apply Z.pow_lt_mono_r; lia.
              * assert (2 ^ p <= T) by (apply Z.pow_le_mono_r; lia). lia.
          - split; [|lia].
            assert (NN : exists t, (mag r == dy t (flexp r - (mb + 1)))%Q /\ T <= t < 2 * T /\ k = (flexp r - 1 + bias) * T + (t - T)).
            { destruct HC as [(HC1 & HC2 & HC3)|(HC1 & HC2)].
              - destruct (Z.eqb_spec q (2 ^ p)) as [EQ|NQ]; [|lia]. assert (PM : p = mb) by lia. exists q. split; [|split].
                + rewrite MR. replace (flexp r - (mb + 1)) with s by (unfold s; lia). reflexivity.
                + rewrite EQ, PM. lia.
                + unfold k. assert (s - U = 0) as -> by (unfold s; lia). assert (flexp r - 1 + bias = 1) as -> by lia. lia.
              - destruct (Z.eqb_spec q (2 ^ p)) as [EQ|NQ].
                + exists T. split; [|split; [lia|]].
                  * rewrite MR. rewrite (dy_shift T (flexp r - (mb + 1)) 1) by lia.
                    replace (flexp r - (mb + 1) - 1) with s by (unfold s; lia). apply dy_wd. rewrite EQ, HC2, Z.pow_add_r by lia. reflexivity.
                  * unfold k. rewrite EQ, HC2, Z.pow_add_r by lia. change (2 ^ 1) with 2. replace (s - U) with (flexp r - 3 + bias) by (unfold s; lia). ring.
                + exists q. split; [|split].
                  * rewrite MR. replace (flexp r - (mb + 1)) with s by (unfold s; lia). reflexivity.
                  * subst p. replace (mb + 1 - 1) with mb in * by lia. rewrite Z.pow_add_r in * by lia. change (2 ^ 1) with 2 in *. lia.
                  * unfold k. replace (s - U) with (flexp r - 2 + bias) by (unfold s; lia). ring. }
            destruct NN as (t & T1 & T2 & T3).
            pose proof (msb_top (mb + eb + 1) msb r t (mb + 1) ltac:(lia) MS1 MS2 T1) as MT.
            replace (mb + eb + 1 - (mb + 1)) with eb in MT by lia. rewrite MT.
            replace (t mod T) with (t - T) by (apply (Z.mod_unique_pos t T 1); lia). lia. }
        destruct BITS as (BITS & KT).
        assert (PE : finf mb eb < 2 ^ (mb + eb)) by (unfold finf; rewrite Z.pow_add_r by lia; lia).
        assert (SG : forall k', 0 <= k' < 2 ^ (mb + eb) -> Z.lor (if flneg x then 2 ^ (mb + eb + 1 - 1) else 0) k' = fsigned mb eb (flneg x) k').
        { intros k' H. unfold fsigned. replace (mb + eb + 1 - 1) with (mb + eb) by lia. destruct (flneg x); [|reflexivity].
          replace (2 ^ (mb + eb)) with (1 * 2 ^ (mb + eb)) at 1 by lia. rewrite lor_low_add by lia. lia. }
        destruct (flexp r - 1 <? 1 - bias); f_equal; f_equal; rewrite <- Z.lor_assoc.
        -- rewrite Z.lor_0_l, <- (Z.add_0_l (msb _ / _)), BITS. apply SG. lia.
        -- rewrite lor_low_add by (pose proof (Z.mod_pos_bound (msb (flmant r) / 2 ^ eb) T); lia). rewrite BITS. apply SG. lia.
      * split; [auto|]. split; [|lia]. intros _. rewrite RA. unfold acc_of.
        assert (VV : (fvalue mb eb (fsigned mb eb (flneg x) k) == flvalue r)%Q).
        { rewrite signed_value by lia. rewrite RV. apply sq_wd. rewrite MR. unfold k. rewrite units_pattern by auto.
          rewrite (dy_to q s U) by (destruct SOK; lia). reflexivity. }
        rewrite VV. reflexivity.
  - (* infinite *) destruct RF as ((w & RR & RB) & RA). specialize (UNI _ RR). cbn [is_infinite orb].
    exists (finf mb eb), (make_accuracy (negb (flneg x))). split; [destruct (flneg x); reflexivity|].
    assert (WA : (Qabs w == dy q s)%Q).
    { rewrite <- (sq_abs (flneg x) w), UNI. apply Qabs_pos, dy_nonneg. pose proof (pow2_pos (p - 1)). lia. }
    rewrite WA in RB. assert (EM : max_exp <= E).
    { destruct (Z.le_gt_cases max_exp E) as [|G]; [auto|exfalso]. apply Qle_not_lt in RB. apply RB.
      apply (Qle_lt_trans _ (dy (2 ^ p) s)); [apply dy_le; lia|]. replace (2 ^ p) with (1 * 2 ^ p) by lia. unfold s. rewrite <- dy_shift by lia.
      rewrite (dy_to 1 max_exp E) by lia. apply dy_lt. rewrite Z.mul_1_l. apply Z.pow_gt_1; lia. }
    assert (KK : Z.min (q + (s - U) * T) (finf mb eb) = finf mb eb) by (apply Z.min_r, OVER; unfold max_exp in EM; lia).
    rewrite KK in NEAR. split; [auto|]. split; [lia|auto].
  - contradiction.
Qed.

Lemma to_fx_spec : ~ (dy 1 (U - 1) < Qabs (flvalue x) /\ Qabs (flvalue x) < dy 1 U)%Q ->
  exists k a, to_fx mb eb msb nm x = Ok (fsigned mb eb (flneg x) k, a) /\ machine_result k a.
Proof using Hmb Heb N0 OX FX MSB Hlow.
  intros NW. destruct bias_pos as (B1 & B2 & B3). destruct (mag_binade x N0) as (MB1 & MB2). destruct (normal_pos _ N0) as (Hw & Hl & BB).
  assert (B32 : 32 <= B) by (unfold mbits; lia).
  unfold to_fx. rewrite FX. change (2 ^ (eb - 1) - 1) with bias. cbv zeta.
  assert (UP : forall e f, e <= f -> (dy 1 e <= dy 1 f)%Q).
  { intros e f L. rewrite (dy_to 1 f e) by auto. apply dy_le. pose proof (pow2_pos (f - e)). lia. }
  destruct (Z.ltb_spec (E - 1) (1 - bias)) as [L|L]; cbn [andb].
  - destruct (Z.ltb_spec (mb + 1 - (1 - bias) + (E - 1)) 0) as [L1|L1]; cbn [orb].
    + eexists. eexists. split; [reflexivity|]. apply zero_case. rewrite (finite_abs x FX N0).
      pose proof (UP E (U - 1) ltac:(lia)). lra.
    + destruct (Z.eqb_spec (mb + 1 - (1 - bias) + (E - 1)) 0) as [L2|L2]; cbn [andb].
      * rewrite sticky_spec by (auto; lia). destruct (Z.eqb_spec (M mod 2 ^ (B - 1)) 0) as [S0|S0].
        -- eexists. eexists. split; [reflexivity|]. apply zero_case. rewrite (finite_abs x FX N0). unfold mag.
           assert (M = 2 ^ (B - 1)) as ->.
           { pose proof (Z.div_mod M (2 ^ (B - 1)) ltac:(pose proof (pow2_pos (B - 1)); lia)) as DM. rewrite S0 in DM.
             assert (2 ^ B = 2 * 2 ^ (B - 1)) by (rewrite <- Z.pow_succ_r by lia; f_equal; lia). pose proof (pow2_pos (B - 1) ltac:(lia)).
             assert (M / 2 ^ (B - 1) = 1) by nia. nia. }
           rewrite (dy_shift 1 (U - 1) (B - 1)) by lia. rewrite Z.mul_1_l. replace (U - 1 - (B - 1)) with (E - B) by lia. apply Qle_refl.
        -- exfalso. apply NW. rewrite (finite_abs x FX N0). replace U with E by lia. split; [|exact MB2].
           apply Qle_lteq in MB1 as [|MB1]; [auto|exfalso]. apply S0. unfold mag in MB1. rewrite (dy_shift 1 (E - 1) (B - 1)) in MB1 by lia.
           replace (E - 1 - (B - 1)) with (E - B) in MB1 by lia. apply (proj1 (dy_eq _ _ _)) in MB1. rewrite <- MB1, Z.mul_1_l.
           apply Z.mod_same. pose proof (pow2_pos (B - 1)). lia.
      * replace (mb + 1 - (1 - bias) + (E - 1)) with (E - U) in * by lia. apply round_case; [lia|left; lia].
  - apply round_case; [lia|right; lia].
Qed.
End TO.

Lemma to_f64_spec x : ok_float x -> flform x = Finite -> ~ (dy 1 (-1075) < Qabs (flvalue x) /\ Qabs (flvalue x) < dy 1 (-1074))%Q ->
  exists k a, fl_to_f64 x = Ok (fsigned 52 11 (flneg x) k, a) /\ machine_result 52 11 x k a.
Proof.
  intros O F N. apply (to_fx_spec 52 11 msb64 false); auto; try lia. intros m NM. apply msb64_spec. auto.
Qed.
Lemma to_f32_spec x : ok_float x -> flform x = Finite -> ~ (dy 1 (-150) < Qabs (flvalue x) /\ Qabs (flvalue x) < dy 1 (-149))%Q ->
  exists k a, fl_to_f32 x = Ok (fsigned 23 8 (flneg x) k, a) /\ machine_result 23 8 x k a.
Proof.
  intros O F N. apply (to_fx_spec 23 8 msb32 true); auto; try lia. intros m NM. apply msb32_spec. auto.
Qed.

(** Between half the least positive number and that number. *)
Lemma to_fx_window mb eb msb nm x : 1 <= mb -> 2 <= eb -> ok_float x -> flform x = Finite ->
  (dy 1 (funit mb eb - 1) < Qabs (flvalue x))%Q -> (Qabs (flvalue x) < dy 1 (funit mb eb))%Q ->
  to_fx mb eb msb nm x = Ok (fsigned mb eb (flneg x && nm) (2 ^ mb), if flneg x then Below else Above).
Proof.
  intros Hmb Heb O F L U. destruct (ok_finite x O F) as (P & N). destruct (bias_pos mb eb Hmb Heb) as (B1 & B2 & B3).
  destruct (mag_binade x N) as (MB1 & MB2). destruct (normal_pos _ N) as (Hw & Hl & BB). rewrite (finite_abs x F N) in L, U.
  assert (B32 : 32 <= mbits (flmant x)) by (unfold mbits; lia). set (B := mbits (flmant x)) in *.
  assert (K : forall e f, (dy 1 e < dy 1 f)%Q -> e < f).
  { intros e f H. destruct (Z.lt_ge_cases e f) as [|G]; [auto|exfalso]. rewrite (dy_to 1 e f) in H by lia. apply (proj1 (dy_lt _ _ _)) in H.
    pose proof (pow2_pos (e - f)). lia. }
  assert (E : flexp x = funit mb eb).
  { assert (dy 1 (flexp x - 1) < dy 1 (funit mb eb))%Q by lra. assert (dy 1 (funit mb eb - 1) < dy 1 (flexp x))%Q by lra.
    apply K in H. apply K in H0. lia. }
  unfold to_fx. rewrite F. change (2 ^ (eb - 1) - 1) with (fbias eb). cbv zeta.
  destruct (Z.ltb_spec (flexp x - 1) (1 - fbias eb)); [|lia]. cbn [andb].
  replace (mb + 1 - (1 - fbias eb) + (flexp x - 1)) with 0 by lia. change (0 <? 0) with false. change (0 =? 0) with true. cbn [andb orb].
  fold B. rewrite sticky_spec by (auto; unfold mbits in *; lia). destruct (Z.eqb_spec (nval (flmant x) mod 2 ^ (B - 1)) 0) as [S0|S0]; [exfalso|reflexivity].
  assert (M : nval (flmant x) = 2 ^ (B - 1)).
  { pose proof (Z.div_mod (nval (flmant x)) (2 ^ (B - 1)) ltac:(pose proof (pow2_pos (B - 1)); lia)) as DM. rewrite S0 in DM.
    assert (2 ^ B = 2 * 2 ^ (B - 1)) by (rewrite <- Z.pow_succ_r by lia; f_equal; lia). pose proof (pow2_pos (B - 1) ltac:(lia)).
    assert (nval (flmant x) / 2 ^ (B - 1) = 1) by nia. nia. }
  unfold mag in L. fold B in L. rewrite M, (dy_shift 1 (funit mb eb - 1) (B - 1)) in L by lia.
  replace (funit mb eb - 1 - (B - 1)) with (flexp x - B) in L by lia. apply (proj1 (dy_lt _ _ _)) in L. lia.
Qed.
Lemma small_nearest mb eb v k : 1 <= mb -> 2 <= eb -> (Qabs v < dy 1 (funit mb eb))%Q ->
  nearest mb eb (Z.abs (Qnum v)) (Zpos (Qden v)) k -> k <= 1.
Proof.
  intros Hmb Heb L H. eapply (near_le mb eb ltac:(lia) Heb _ (Zpos (Qden v)) k 1); [lia|exact H|pose proof (finf_pos mb eb Hmb Heb); pose proof (T_pos mb Hmb); lia|].
  destruct (bias_pos mb eb Hmb Heb) as (B1 & B2 & B3). set (U := funit mb eb) in *.
  assert (funits mb 1 = 1) as ->.
  { unfold funits. rewrite Z.div_small; [reflexivity|]. pose proof (T_pos mb Hmb). lia. }
  destruct v as [a b]. unfold Qabs in L. cbn [Qnum Qden].
  assert (PU : (0 < inject_Z (2 ^ - U))%Q) by (change 0%Q with (inject_Z 0); rewrite <- Zlt_Qlt; apply pow2_pos; lia).
  assert (Y : ((Z.abs a # b) * inject_Z (2 ^ - U) < 1)%Q).
  { apply (Qlt_le_trans _ (dy 1 U * inject_Z (2 ^ - U))); [apply Qmult_lt_r; auto|]. unfold dy. rewrite Zpower_Qpower by lia.
    rewrite Qmult_1_l, <- Qpower_plus by (intros C; discriminate). replace (U + - U) with 0 by lia. apply Qle_refl. }
  unfold Qlt in Y. cbn [Qnum Qden Qmult inject_Z] in Y. rewrite Pos.mul_1_r in Y. lia.
Qed.

(** A double comes back. *)
Lemma f64_nearest_self b v : f64_finite b -> (v == f64_value b)%Q -> forall k,
  nearest 52 11 (Z.abs (Qnum v)) (Zpos (Qden v)) k -> k = fmag 52 11 b.
Proof.
  intros (B & FI) E k H. destruct (split64 b B) as (_ & K). eapply (near_exact 52 11 h52 h11 _ (Zpos (Qden v)) k); [lia|exact H|lia|].
  assert (AV : (Qabs v == dy (funits 52 (fmag 52 11 b)) (-1074))%Q).
  { rewrite E, fvalue_dy by auto. rewrite sq_abs. apply Qabs_pos, dy_nonneg. apply (units_nonneg 52 11 h52 h11); lia. }
  unfold dy in AV. destruct v as [a c]. unfold Qabs in AV. cbn [Qnum Qden]. change (- funit 52 11) with 1074.
  assert (Y : ((Z.abs a # c) * inject_Z (2 ^ 1074) == inject_Z (funits 52 (fmag 52 11 b)))%Q).
  { rewrite AV, <- Qmult_assoc. rewrite (Zpower_Qpower 2 1074) by lia. rewrite <- Qpower_plus by (intros C; discriminate). 
    change (-1074 + 1074) with 0. apply Qmult_1_r. }
  unfold Qeq in Y. cbn [Qnum Qden Qmult inject_Z] in Y. rewrite Pos.mul_1_r in Y. lia.
Qed.
