(** The text of every finite Float. *)
From Coq Require Import Ascii String ZArith QArith Qabs Qpower Lqa List Lia Bool.
From Verif Require Import Words Spec WordsFacts NatModel NatFacts NatFacts2 NatFacts5 NatConv NatConvFacts BigInt BigIntFacts Rat Float SpecFloat
  FloatFacts FloatFacts2 FloatFacts4 FloatFacts6 SpecDecimal Decimal DecimalFacts DecimalFacts2 DecimalFacts3 DecimalFacts4 SpecLoose LooseFacts SpecDecimal2.
Import ListNotations.
Open Scope Z_scope.
Open Scope list_scope.

Lemma shr_stored m j : canon m -> 0 <= j < Z.of_nat (length m) ->
  stored (nat_shr m (32 * j)) (Z.of_nat (length m) - j) (nval m mod 2 ^ (32 * (Z.of_nat (length m) - j))).
Proof.
  intros Cm J. assert (E : nat_shr m (32 * j) = firstn (length m - Z.to_nat j) m).
  { crush_op. unfold shr_inner. replace (32 * j / 32) with j by (rewrite Z.mul_comm, Z.div_mul by lia; auto).
    replace (32 * j mod 32) with 0 by (rewrite Z.mul_comm, Z.mod_mul by lia; auto). cbn [Z.gtb Z.compare andb].
    assert ((length m <=? Z.to_nat j)%nat = false) as -> by (apply Nat.leb_gt; lia). reflexivity. }
  pose proof (nat_shr_word_multiple m j Cm J) as V. split; [|split; [|split; [lia|exact V]]]; rewrite E.
  - apply words_ok_firstn, canon_words; auto.
  - rewrite firstn_length_le by lia. lia.
Qed.

(** [Decimal::new] without the condition on the digits and on the shift. *)
Lemma dec_new_any m shift n s : canon m -> 0 < nval m -> 2 ^ 31 <= last m 0 -> 0 < n -> 0 <= s -> s = 0 \/ Z.odd n = true ->
  (dy (nval m) shift == dy n (- s))%Q ->
  exists t, is_numeral lchar 10 t (written (Z.of_nat (length m)) n (- shift - s)) /\
    dec_new m shift = (let z := DC (firstn (length t - zeros_in t) t) (Z.of_nat (length t)) in
      if - s <? 0 then dec_shr_loop (Z.to_nat (- (- s) / 28)) z (- s) else Ok z).
Proof.
  intros Cm Pm TOP Pn Hs SO EQ. set (t := - shift - s) in *. unfold dec_new.
  rewrite (is_nan_canon m) by auto. cbn [orb].
  assert (NE : nat_eq_u32 m 0 = false). { rewrite <- (of_Z_nval m Cm), of_Z_eq_u32 by lia. apply Z.eqb_neq. lia. }
  rewrite NE, trim_canon_id by auto.
  assert (TAIL : forall m', (exists t', fmt_display m' = Ok t' /\ is_numeral lchar 10 t' (written (Z.of_nat (length m)) n t)) ->
    exists t0, is_numeral lchar 10 t0 (written (Z.of_nat (length m)) n t) /\ (do t <- fmt_display m';
      let z := DC (firstn (length t - zeros_in t) t) (Z.of_nat (length t)) in
      if - s <? 0 then dec_shr_loop (Z.to_nat (- (- s) / 28)) z (- s) else Ok z) =
      (let z := DC (firstn (length t0 - zeros_in t0) t0) (Z.of_nat (length t0)) in
      if - s <? 0 then dec_shr_loop (Z.to_nat (- (- s) / 28)) z (- s) else Ok z)).
  { intros m' (t' & E & N). exists t'. split; [auto|]. rewrite E. reflexivity. }
  assert (PLAIN : forall m', represents m' n -> t < 32 \/ t mod 32 <> 0 ->
    exists t', fmt_display m' = Ok t' /\ is_numeral lchar 10 t' (written (Z.of_nat (length m)) n t)).
  { intros m' (C' & V') T. destruct (fmt_display_spec m' C') as (tx & E & NT). exists tx. split; [auto|]. rewrite V' in NT. unfold written.
    destruct (Z.leb_spec 32 t), (Z.eqb_spec (t mod 32) 0); cbn [andb]; try lia; auto. }
  destruct (Z.ltb_spec shift 0) as [L|L].
  - assert (T0 : 0 <= t).
    { destruct (Z.le_gt_cases 0 t) as [|G]; [auto|exfalso]. destruct SO as [->|O]; [lia|].
      apply (odd_pow n (- t) O ltac:(lia) (nval m)). symmetry. apply (dy_eq _ _ (- s)). rewrite <- EQ.
      rewrite (dy_to (nval m) shift (- s)) by lia. replace (shift - - s) with (- t) by (unfold t; lia). reflexivity. }
    assert (EM : nval m = n * 2 ^ t).
    { apply (dy_eq _ _ shift). rewrite EQ, (dy_to n (- s) shift) by lia. replace (- s - shift) with t by (unfold t; lia). reflexivity. }
    destruct (trailling_zeros_spec m (canon_words m Cm) Pm) as (q & Z0 & Q0 & EZ). set (tz := trailling_zeros m) in *.
    assert (MIN : Z.min (- shift) tz = t).
    { destruct (Z.lt_trichotomy tz t) as [X|[X|X]].
      - exfalso. apply (odd_pow (2 * q + 1) (t - tz) ltac:(rewrite Z.odd_add, Z.odd_mul; reflexivity) ltac:(lia) n).
        apply (Z.mul_reg_r _ _ (2 ^ tz)); [apply Z.pow_nonzero; lia|]. rewrite <- EZ, EM, <- Z.mul_assoc, <- Z.pow_add_r by lia. do 2 f_equal. lia.
      - lia.
      - destruct SO as [->|O]; [lia|]. exfalso. apply (odd_pow n (tz - t) O ltac:(lia) (2 * q + 1)).
        apply (Z.mul_reg_r _ _ (2 ^ t)); [apply Z.pow_nonzero; lia|]. rewrite <- EM, EZ, <- Z.mul_assoc, <- Z.pow_add_r by lia. do 2 f_equal. lia. }
    rewrite MIN. replace (shift + t) with (- s) by (unfold t; lia). destruct (Z.ltb_spec 0 (- s)); [lia|].
    apply TAIL. destruct (Z.lt_ge_cases t 32) as [T|T]; [|destruct (Z.eq_dec (t mod 32) 0) as [T2|T2]].
    + apply PLAIN; [|auto]. replace n with (nval m / 2 ^ t) by (rewrite EM; apply Z.div_mul, Z.pow_nonzero; lia). apply nat_shr_rep; auto. left; lia.
    + pose proof (Z.div_mod t 32 ltac:(lia)) as DM. rewrite T2, Z.add_0_r in DM. set (j := t / 32) in *.
      assert (J : 0 <= j < Z.of_nat (length m)).
      { split; [lia|]. pose proof (nval_bound m (canon_words m Cm)) as B. rewrite Wp_pow2, EM in B.
        destruct (Z.lt_ge_cases j (Z.of_nat (length m))) as [|G]; [auto|exfalso]. pose proof (Z.pow_le_mono_r 2 (32 * Z.of_nat (length m)) t ltac:(lia) ltac:(lia)).
        pose proof (pow2_pos t T0). nia. }
      pose proof (shr_stored m j Cm J) as ST. rewrite <- DM, EM in ST. destruct (display_stored _ _ _ ST) as (tx & E & NT). exists tx. split; [auto|].
      unfold written. destruct (Z.leb_spec 32 t); [|lia]. destruct (Z.eqb_spec (t mod 32) 0); [|lia]. cbn [andb]. fold j. exact NT.
    + apply PLAIN; [|auto]. replace n with (nval m / 2 ^ t) by (rewrite EM; apply Z.div_mul, Z.pow_nonzero; lia). apply nat_shr_rep; auto. right; right. split; [auto|].
      pose proof (Z.mod_pos_bound t 32 ltac:(lia)). pose proof (Z.pow_le_mono_r 2 (t mod 32) 31 ltac:(lia) ltac:(lia)). lia.
  - assert (s = 0) as ->.
    { destruct SO as [->|O]; [auto|]. destruct (Z.eq_dec s 0); [auto|exfalso]. apply (odd_pow n (shift + s) O ltac:(lia) (nval m)).
      symmetry. apply (dy_eq _ _ (- s)). rewrite <- EQ, (dy_to (nval m) shift (- s)) by lia. replace (shift - - s) with (shift + s) by lia. reflexivity. }
    assert (EM : n = nval m * 2 ^ shift).
    { symmetry. apply (dy_eq _ _ 0). change (- 0) with 0 in EQ. rewrite <- EQ, (dy_to (nval m) shift 0) by lia. rewrite Z.sub_0_r. reflexivity. }
    change (- 0) with 0 in *. destruct (Z.ltb_spec 0 shift) as [P|P].
    + apply TAIL, PLAIN; [|unfold t; lia]. rewrite EM. apply nat_shl_rep_pos; auto.
    + assert (shift = 0) by lia. subst shift. apply TAIL, PLAIN; [|unfold t; lia]. split; [auto|]. rewrite EM. change (2 ^ 0) with 1. lia.
Qed.

(** * The digits that are kept *)
Lemma zeros_in_count ds : Forall (fun d => 0 <= d < 10) ds -> zeros_in (map lchar ds) = count_occ Z.eq_dec ds 0.
Proof.
  induction 1 as [|d ds D _ IH]; [reflexivity|]. unfold zeros_in in *. cbn [map filter count_occ]. unfold lchar at 1. destruct (Z.ltb_spec d 10); [|lia].
  destruct (Z.eq_dec d 0) as [->|N]; [change (48 =? 48 + 0) with true; cbn [length]; auto|]. destruct (Z.eqb_spec 48 (48 + d)); [lia|auto].
Qed.
Lemma numeral_same t ds n : is_numeral lchar 10 t n -> is_numeral (fun d => d) 10 ds n -> t = map lchar ds /\ digits_ok 10 ds.
Proof.
  intros A (ds' & E & D & V & N & H). rewrite map_id in E. subst ds'.
  assert (B : is_numeral lchar 10 (map lchar ds) n) by (exists ds; auto).
  split; [|auto]. destruct (numeral_digs t n A) as (A1 & A2 & A3 & A4). destruct (numeral_digs _ n B) as (B1 & B2 & B3 & B4).
  assert (P : forall u, digs u -> u <> [] -> length u = 1%nat \/ hd 0 u <> 48 -> dval u = n -> u = [48] /\ n = 0 \/ hd 0 u <> 48 /\ 0 < n).
  { intros u U1 U2 U3 U4. destruct (Z.eq_dec (hd 0 u) 48) as [X|X].
    - left. destruct U3 as [U3|U3]; [|congruence]. destruct u as [|c [|? ?]]; try discriminate. cbn [hd] in X. subst c. split; [auto|]. rewrite <- U4. reflexivity.
    - right. split; [auto|]. pose proof (dval_pos u U1 U2 X) as Y. rewrite U4 in Y. pose proof (p10 (Z.of_nat (length u) - 1)). destruct u; [congruence|]. cbn [length] in *. lia. }
  destruct (P t A1 A3 A4 A2) as [(-> & Z1)|(X & X0)], (P _ B1 B3 B4 B2) as [(E2 & Z2)|(Y & Y0)]; try lia; [auto|].
  apply dval_inj; auto; [|congruence]. apply dval_len; auto. congruence.
Qed.
Lemma zeros_in_le t : (zeros_in t <= length t)%nat.
Proof. unfold zeros_in. induction t as [|c t IH]; [auto|]. cbn [filter]. destruct (48 =? c); cbn [length]; lia. Qed.
Lemma zeros_in_lt t : t <> [] -> hd 0 t <> 48 -> (zeros_in t < length t)%nat.
Proof.
  destruct t as [|c t]; [congruence|]. intros _ H. cbn [hd] in H. unfold zeros_in. cbn [filter]. destruct (Z.eqb_spec 48 c); [congruence|].
  pose proof (zeros_in_le t). unfold zeros_in in *. cbn [length]. lia.
Qed.
Lemma kept_spec t w : is_numeral lchar 10 t w -> 0 < w ->
  let d := DC (firstn (length t - zeros_in t) t) (Z.of_nat (length t)) in let p := 10 ^ Z.of_nat (zeros_in t) in
  dnum d /\ (dvalue d == dy (w / p * p) 0)%Q /\ (length (dmant d) <= length t)%nat /\ 0 < w / p * p <= w /\ (last (dmant d) 0 = 48 <-> (w / p * p) mod (10 * p) = 0).
Proof.
  intros NT W. cbv zeta. destruct (numeral_digs t w NT) as (D & V & N & H).
  assert (Hd : hd 0 t <> 48).
  { destruct H as [L|H]; [|auto]. destruct t as [|c [|? ?]]; try discriminate. cbn [hd]. intros ->. change (dval [48]) with 0 in V. lia. }
  pose proof (zeros_in_lt t N Hd) as ZL. set (z := zeros_in t) in *. set (u := firstn (length t - z) t). cbn [dmant].
  assert (Lu : length u = (length t - z)%nat) by (apply firstn_length_le; lia).
  assert (Du : digs u) by (apply digs_firstn; auto).
  assert (Nu : u <> []) by (intros X; rewrite X in Lu; cbn [length] in Lu; lia).
  assert (Hu : hd 0 u <> 48).
  { assert (hd 0 u = hd 0 t); [|congruence]. unfold u. destruct t; [congruence|]. destruct (length (z0 :: t) - z)%nat eqn:X; [lia|reflexivity]. }
  set (p := 10 ^ Z.of_nat z). assert (P : 0 < p) by (apply p10; lia).
  assert (VU : w / p = dval u).
  { rewrite <- V, <- (firstn_skipn (length t - z) t). fold u. rewrite dval_app. assert (LS : length (skipn (length t - z) t) = z) by (rewrite skipn_length; lia). rewrite LS. fold p.
    pose proof (dval_bound _ (digs_skipn (length t - z) t D)) as B. rewrite LS in B. fold p in B. rewrite Z.add_comm, Z.div_add, Z.div_small by lia. lia. }
  pose proof (dval_pos u Du Nu Hu) as PU. assert (1 <= 10 ^ (Z.of_nat (length u) - 1)) by (pose proof (p10 (Z.of_nat (length u) - 1)); destruct u; [congruence|]; cbn [length] in *; lia).
  split; [split; auto|]. split; [|split; [lia|split]].
  - unfold dvalue. cbn [dmant dexp]. rewrite VU. rewrite (de_to _ _ 0) by lia. unfold de, dy. unfold p.
    replace (Z.of_nat (length t) - Z.of_nat (length u) - 0) with (Z.of_nat z) by lia. reflexivity.
  - rewrite VU. split; [nia|]. rewrite <- VU. pose proof (Z.mul_div_le w p P). lia.
  - rewrite VU. rewrite (Z.mul_comm 10 p), (Z.mul_comm (dval u) p), Z.mul_mod_distr_l by lia.
    destruct (exists_last Nu) as (u0 & c & EU). rewrite EU, last_last, dval_snoc. rewrite EU in Du. apply digs_app in Du as [_ Dc]. apply digs_cons in Dc as [Dc _]. unfold dig in Dc.
    replace (dval u0 * 10 + (c - 48)) with (c - 48 + dval u0 * 10) by ring. rewrite Z.mod_add, Z.mod_small by lia. split; nia.
Qed.

(** * Rounding a decimal that ends with a zero *)
Lemma half_up_wd k v w r s : (v == w)%Q -> (r == s)%Q -> half_up_at k v r -> half_up_at k w s.
Proof. intros E F (D & A & B & C). exists D. rewrite <- E, <- F. auto. Qed.
Lemma half_up_core U R L k b : 0 <= L -> 0 <= R <= 10 ^ L -> (b = 0 /\ 2 * R < 10 ^ L \/ b = 1 /\ 10 ^ L <= 2 * R) ->
  half_up_at k (de (U * 10 ^ L + R) (k - L)) (de (U + b) k).
Proof.
  intros HL HR HB. exists (U + b). split; [reflexivity|]. rewrite (de_shift (U + b) k L), (de_shift 1 k L) by auto. rewrite !de_sub. change 2%Q with (inject_Z 2). rewrite !de_scale.
  pose proof (p10 L HL). split; [apply de_lt|apply de_le]; destruct HB as [(-> & B)|(-> & B)]; nia.
Qed.
Lemma round_zero d n : dnum d -> last (dmant d) 0 = 48 -> 0 < n -> let d' := dec_round d n in
  half_up_at (dexp d - n) (dvalue d) (dvalue d') /\ dnum d' /\ Z.of_nat (length (dmant d')) <= n.
Proof.
  intros W W4 N. cbv zeta. unfold dec_round. destruct (Z.ltb_spec n (Z.of_nat (length (dmant d)))) as [L|L].
  - set (k := Z.to_nat n). assert (K : Z.of_nat k = n) by (unfold k; lia). assert (KL : (k < length (dmant d))%nat) by lia.
    pose proof W as W'. destruct W' as (W1 & W2 & W3).
    set (u := firstn k (dmant d)). assert (Du : digs u) by (apply digs_firstn; auto). assert (Lu : length u = k) by (apply firstn_length_le; lia).
    destruct (skipn k (dmant d)) as [|c w] eqn:ES.
    { exfalso. assert (length (skipn k (dmant d)) = O) by (rewrite ES; auto). rewrite skipn_length in H. lia. }
    assert (EM : dmant d = u ++ c :: w) by (rewrite <- ES; symmetry; apply firstn_skipn).
    assert (NTH : nth k (dmant d) 0 = c) by (rewrite EM, app_nth2, Lu, Nat.sub_diag by lia; reflexivity).
    assert (LEN : length (dmant d) = (k + 1 + length w)%nat) by (rewrite EM, app_length, Lu; cbn [length]; lia).
    assert (DW : digs (c :: w)) by (rewrite EM in W1; apply digs_app in W1; tauto). assert (DW' := DW). apply digs_cons in DW' as [Dc Dw].
    unfold dig in Dc. set (lw := Z.of_nat (length w)). set (R := dval (c :: w)).
    assert (ER : R = (c - 48) * 10 ^ lw + dval w) by (unfold R, lw; apply dval_cons).
    pose proof (dval_bound w Dw) as BW. fold lw in BW. pose proof (p10 lw ltac:(unfold lw; lia)) as P.
    assert (P1 : 10 ^ (lw + 1) = 10 * 10 ^ lw) by (rewrite Z.pow_add_r by (unfold lw; lia); change (10 ^ 1) with 10; ring).
    assert (V : (dvalue d == de (dval u * 10 ^ (lw + 1) + R) (dexp d - n - (lw + 1)))%Q).
    { unfold dvalue. rewrite EM, dval_app, app_length, Lu. cbn [length]. fold R. rewrite !Nat2Z.inj_add, Nat2Z.inj_succ. fold lw.
      replace (dexp d - (Z.of_nat k + Z.succ lw)) with (dexp d - n - (lw + 1)) by lia. unfold Z.succ. reflexivity. }
    assert (RB : 0 <= R <= 10 ^ (lw + 1)) by nia.
    assert (UP : should_round_up (dmant d) k = (53 <=? c)).
    { unfold should_round_up. rewrite NTH, LEN. destruct (Z.eqb_spec c 53) as [C|C]; [|reflexivity].
      destruct (Z.eqb_spec (Z.of_nat k + 1) (Z.of_nat (k + 1 + length w))) as [X|X]; [|reflexivity]. exfalso.
      assert (w = []) as -> by (destruct w; [auto|cbn [length] in X; lia]). rewrite EM, last_last in W4. lia. }
    rewrite UP. destruct (Z.leb_spec 53 c) as [C|C].
    + destruct (round_up_spec d k W ltac:(lia)) as (A & B & _ & D). cbv zeta in *. fold u in B. rewrite K in *. split; [|split; [apply dwf_dnum; auto|specialize (D ltac:(lia)); lia]].
      apply (half_up_wd _ _ _ _ _ (Qeq_sym _ _ V) (Qeq_sym _ _ B)). apply half_up_core; [unfold lw; lia|lia|right; split; [auto|nia]].
    + assert (NU : u <> []) by (intros X; rewrite X in Lu; cbn [length] in Lu; lia).
      assert (HU : hd 0 u <> 48). { rewrite EM, hd_app in W3 by auto. auto. }
      destruct (trim_wf u (dexp d) Du NU HU) as (T1 & T2 & _ & T4). split; [|split; [apply dwf_dnum; auto|lia]].
      apply (half_up_wd _ _ _ (de (dval u + 0) (dexp d - n)) _ (Qeq_sym _ _ V)).
      * rewrite T2, Z.add_0_r. unfold dvalue. cbn [dmant dexp]. rewrite Lu, K. reflexivity.
      * apply half_up_core; [unfold lw; lia|lia|left; split; [auto|nia]].
  - split; [|split; [auto|lia]]. exists (dval (dmant d) * 10 ^ (n - Z.of_nat (length (dmant d)))).
    assert (V : (dvalue d == de (dval (dmant d) * 10 ^ (n - Z.of_nat (length (dmant d)))) (dexp d - n))%Q).
    { unfold dvalue. rewrite (de_to (dval (dmant d)) _ (dexp d - n)) by lia. apply de_eq. do 2 f_equal. lia. }
    split; [auto|]. assert (0 < de 1 (dexp d - n))%Q by (apply de_pos; lia). split; lra.
Qed.

(** * Exponents *)
Lemma exp_range d A B : dnum d -> 0 <= A -> 0 <= B -> (dy 1 (- A) <= dvalue d)%Q -> (dvalue d <= dy 1 B)%Q -> - A <= dexp d <= B + 1.
Proof.
  intros W HA HB LA LB. destruct (dnum_bounds d W) as (B1 & B2). set (e := dexp d) in *. split.
  - destruct (Z.le_gt_cases (- A) e) as [|G]; [auto|exfalso]. assert (X : (de 1 e <= dy 1 (- A))%Q); [|lra].
    apply Qle_trans with (dy 1 e).
    + assert (T : forall k, 0 <= k -> (de 1 (- k) <= dy 1 (- k))%Q).
      { intros k K. unfold de, dy. change (inject_Z 1) with 1%Q. rewrite !Qmult_1_l. rewrite !Qpower_opp. apply Qle_shift_inv_l; [apply Qpower_0_lt; reflexivity|].
        assert (Qpower 2 k <= Qpower 10 k)%Q. { rewrite two_pow, ten_pow, <- Zle_Qle by auto. apply ten_two_le. auto. }
        pose proof (ten_pos k). pose proof (two_pos k). rewrite Qmult_comm. apply Qle_shift_div_r; [auto|]. lra. }
      replace e with (- - e) by lia. apply T. lia.
    + rewrite (dy_to 1 (- A) e) by lia. apply dy_le. pose proof (pow2_pos (- A - e)). lia.
  - destruct (Z.le_gt_cases e (B + 1)) as [|G]; [auto|exfalso]. assert (X : (dy 1 B < de 1 (e - 1))%Q); [|lra].
    apply Qlt_le_trans with (dy 1 (e - 1)).
    + rewrite (dy_to 1 (e - 1) B) by lia. apply dy_lt. pose proof (Z.pow_gt_1 2 (e - 1 - B) ltac:(lia)). lia.
    + rewrite (dy_to 1 (e - 1) 0), (de_to 1 (e - 1) 0) by lia. unfold dy, de. change (Qpower 2 0) with 1%Q. change (Qpower 10 0) with 1%Q. rewrite !Qmult_1_r, <- Zle_Qle.
      pose proof (ten_two_le (e - 1 - 0)). lia.
Qed.
Lemma shr_empty e : forall fuel shift, shift <= 0 -> - shift <= 28 * (Z.of_nat fuel + 1) -> dec_shr_loop fuel (DC [] e) shift = Ok (DC [] e).
Proof.
  induction fuel as [|f IH]; intros shift S F; cbn [dec_shr_loop]; destruct (Z.ltb_spec shift (-28)); try lia; try reflexivity.
  unfold dec_shr at 1. cbn [dmant pick]. change (0 =? 0) with true. cbv iota. cbn [bind dexp]. apply IH; lia.
Qed.

(** The decimal of any finite Float. *)
Lemma decimal_any x m s up : ok_float x -> flform x = Finite -> flprec x < 2 ^ 60 -> shown x m s up ->
  nat_eq_u32 (flmant x) 0 = false /\ exists d, dec_new (flmant x) (flexp x - bits_len (flmant x)) = Ok d /\
    ((m = 0 /\ d = DC [] 1) \/
     (0 < m /\ dnum d /\ (dvalue d == dy m (- s))%Q /\ Z.abs (dexp d) < 2 ^ 60 + 2 ^ 33 /\
      if up then last (dmant d) 0 = 48 /\ Z.of_nat (length (dmant d)) <= dexp d else dwf d)).
Proof.
  intros OX F PB (n & ds & Pn & Hs & EV & SO & ND & EM & EU). destruct (ok_finite x OX F) as (_ & NM). destruct (normal_pos _ NM) as (Hw & Hl & B).
  assert (CM : canon (flmant x)) by apply NM. rewrite normal_bits_len by auto.
  assert (PM : 0 < nval (flmant x)). { pose proof (pow2_pos (mbits (flmant x) - 1) ltac:(unfold mbits; lia)). lia. }
  assert (TOP : 2 ^ 31 <= last (flmant x) 0).
  { destruct (Z.le_gt_cases (2 ^ 31) (last (flmant x) 0)) as [|G]; [auto|exfalso]. pose proof (nval_last (flmant x)) as NL.
    assert (NN : flmant x <> []) by apply canon_nonnil, CM. specialize (NL NN).
    pose proof (nval_bound _ (words_ok_removelast _ Hw)) as NB. rewrite removelast_len in NB.
    assert (WP : 2 ^ (mbits (flmant x) - 1) = 2 ^ 31 * Wp (length (flmant x) - 1)).
    { rewrite Wp_pow2, <- Z.pow_add_r by lia. f_equal. unfold mbits. lia. }
    rewrite WP in B. nia. }
  assert (EQ : (dy (nval (flmant x)) (flexp x - mbits (flmant x)) == dy n (- s))%Q).
  { rewrite <- EV, (finite_abs x F NM). reflexivity. }
  split. { rewrite <- (of_Z_nval _ CM), of_Z_eq_u32 by lia. apply Z.eqb_neq. lia. }
  destruct (dec_new_any (flmant x) (flexp x - mbits (flmant x)) n s CM PM TOP Pn Hs SO EQ) as (t & NT & ED). rewrite ED. clear ED.
  replace (- (flexp x - mbits (flmant x)) - s) with (mbits (flmant x) - flexp x - s) in NT by lia.
  set (tt := mbits (flmant x) - flexp x - s) in *. set (w := written (Z.of_nat (length (flmant x))) n tt) in *.
  destruct (numeral_same t ds w NT ND) as (ET & DD).
  assert (ZC : zeros_in t = count_occ Z.eq_dec ds 0) by (rewrite ET; apply zeros_in_count; exact DD). rewrite <- ZC in EM, EU.
  assert (FU : - - s <= 28 * (Z.of_nat (Z.to_nat (- - s / 28)) + 1)).
  { rewrite Z2Nat.id by (apply Z.div_pos; lia). pose proof (Z.div_mod (- - s) 28 ltac:(lia)). pose proof (Z.mod_pos_bound (- - s) 28 ltac:(lia)). lia. }
  destruct OX as (_ & OX). destruct (OX F) as (_ & _ & R & _ & MB). unfold min_exp, max_exp in R.
  destruct (Z.lt_ge_cases 0 w) as [PW|PW].
  - destruct (kept_spec t w NT PW) as (K1 & K2 & K3 & K4 & K5). cbv zeta in *. set (d0 := DC (firstn (length t - zeros_in t) t) (Z.of_nat (length t))) in *.
    set (p := 10 ^ Z.of_nat (zeros_in t)) in *. rewrite <- EM in K2, K4, K5.
    assert (RANGE : forall d, dnum d -> (dvalue d == dy m (- s))%Q -> Z.abs (dexp d) < 2 ^ 60 + 2 ^ 33).
    { intros d W V. assert (NB : n < 2 ^ (mbits (flmant x) + 2 ^ 32) /\ s <= mbits (flmant x) + 2 ^ 32).
      { pose proof (nval_bound _ Hw) as VB. rewrite Wp_pow2 in VB. fold (mbits (flmant x)) in VB. destruct (Z.le_gt_cases 0 tt) as [T|T].
        - assert (E2 : nval (flmant x) = n * 2 ^ tt).
          { apply (dy_eq _ _ (flexp x - mbits (flmant x))). rewrite EQ, (dy_to n (- s) (flexp x - mbits (flmant x))) by lia. replace (- s - (flexp x - mbits (flmant x))) with tt by (unfold tt; lia). reflexivity. }
          split; [|lia]. pose proof (pow2_pos tt T). pose proof (Z.pow_le_mono_r 2 (mbits (flmant x)) (mbits (flmant x) + 2 ^ 32) ltac:(lia) ltac:(lia)).
          assert (n * 1 <= n * 2 ^ tt) by (apply Z.mul_le_mono_nonneg_l; lia). lia.
        - assert (E2 : nval (flmant x) * 2 ^ (- tt) = n).
          { apply (dy_eq _ _ (- s)). rewrite <- EQ, (dy_to (nval (flmant x)) (flexp x - mbits (flmant x)) (- s)) by lia. replace (flexp x - mbits (flmant x) - - s) with (- tt) by (unfold tt; lia). reflexivity. }
          assert (s = 0) by (destruct SO as [|O]; [auto|exfalso; apply (odd_pow n (- tt) O ltac:(lia) (nval (flmant x))); lia]). split; [|unfold mbits; lia].
          rewrite <- E2. apply Z.lt_le_trans with (2 ^ mbits (flmant x) * 2 ^ (- tt)); [apply Z.mul_lt_mono_pos_r; [apply pow2_pos; lia|lia]|].
          rewrite <- Z.pow_add_r by (unfold mbits; lia). apply Z.pow_le_mono_r; [lia|unfold tt, mbits; lia]. }
      assert (WB : w <= 2 ^ (mbits (flmant x) + 2 ^ 32)).
      { unfold w, written. destruct (Z.leb_spec 32 tt) as [T|T]; [|cbn [andb]; lia]. destruct (Z.eqb_spec (tt mod 32) 0); [|cbn [andb]; lia]. cbn [andb].
        set (k := Z.of_nat (length (flmant x)) - tt / 32). assert (TD : 0 <= tt / 32) by (apply Z.div_pos; lia).
        assert (PK : 2 ^ (32 * k) <= 2 ^ mbits (flmant x)).
        { destruct (Z.le_gt_cases 0 k); [apply Z.pow_le_mono_r; unfold mbits; lia|]. rewrite Z.pow_neg_r by lia. apply Z.pow_nonneg. lia. }
        assert (MB2 : (n * 2 ^ tt) mod 2 ^ (32 * k) <= 2 ^ (32 * k) \/ (n * 2 ^ tt) mod 2 ^ (32 * k) = n * 2 ^ tt).
        { destruct (Z.le_gt_cases 0 k).
          - pose proof (Z.mod_pos_bound (n * 2 ^ tt) (2 ^ (32 * k)) (pow2_pos (32 * k) ltac:(lia))). lia.
          - right. rewrite (Z.pow_neg_r 2 (32 * k)) by lia. apply Zmod_0_r. }
        assert (P32 : 2 ^ mbits (flmant x) * 2 ^ 2 <= 2 ^ (mbits (flmant x) + 2 ^ 32)).
        { rewrite <- Z.pow_add_r by (unfold mbits; lia). apply Z.pow_le_mono_r; lia. }
        assert (N2 : n * 2 ^ tt <= 2 ^ mbits (flmant x)).
        { assert (E2 : nval (flmant x) = n * 2 ^ tt).
          { apply (dy_eq _ _ (flexp x - mbits (flmant x))). rewrite EQ, (dy_to n (- s) (flexp x - mbits (flmant x))) by lia. replace (- s - (flexp x - mbits (flmant x))) with tt by (unfold tt; lia). reflexivity. }
          pose proof (nval_bound _ Hw) as VB. rewrite Wp_pow2 in VB. fold (mbits (flmant x)) in VB. lia. }
        pose proof (pow2_pos (mbits (flmant x)) ltac:(unfold mbits; lia)). change (2 ^ 2) with 4 in P32.
        cbv zeta. fold k. lia. }
      pose proof (exp_range d (mbits (flmant x) + 2 ^ 32) (mbits (flmant x) + 2 ^ 32) W ltac:(unfold mbits; lia) ltac:(unfold mbits; lia)) as X. destruct X.
      + rewrite V. rewrite (dy_to m (- s) (- (mbits (flmant x) + 2 ^ 32))) by lia. apply dy_le. pose proof (pow2_pos (- s - - (mbits (flmant x) + 2 ^ 32)) ltac:(lia)).
        apply Z.lt_pred_le, Z.mul_pos_pos; lia.
      + rewrite V. apply Qle_trans with (dy m 0).
        * rewrite (dy_to m 0 (- s)) by lia. apply dy_le. pose proof (pow2_pos (0 - - s) ltac:(lia)). assert (m * 1 <= m * 2 ^ (0 - - s)) by (apply Z.mul_le_mono_nonneg_l; lia). lia.
        * rewrite (dy_to 1 (mbits (flmant x) + 2 ^ 32) 0) by (unfold mbits; lia). apply dy_le. rewrite Z.sub_0_r. lia.
      + lia. }
    destruct (Z.ltb_spec (- s) 0) as [L|L].
    + destruct (dec_shr_loop_spec (Z.to_nat (- - s / 28)) d0 (- s) ltac:(lia) FU K1) as (d & E2 & W2 & V2). exists d. split; [auto|]. right.
      assert (V : (dvalue d == dy m (- s))%Q). { rewrite V2, K2. unfold dy. change (Qpower 2 0) with 1%Q. ring. }
      split; [lia|]. split; [apply dwf_dnum; auto|]. split; [auto|]. split; [apply RANGE; [apply dwf_dnum; auto|auto]|].
      destruct (Z.eqb_spec s 0); [lia|]. cbn [andb] in EU. rewrite EU. auto.
    + assert (s = 0) by lia. subst s. change (- 0) with 0 in *. exists d0. split; [auto|]. right. split; [lia|]. split; [auto|]. split; [auto|]. split; [apply RANGE; auto|].
      change (0 =? 0) with true in EU. cbn [andb] in EU. destruct (Z.eqb_spec (m mod (10 * p)) 0) as [M|M]; rewrite EU.
      * split; [apply K5; auto|]. unfold d0 in *. cbn [dexp]. lia.
      * destruct K1 as (A1 & A2 & A3). split; [auto|]. split; [auto|]. split; [auto|]. intros X. apply M, K5, X.
  - assert (W0 : w = 0). { destruct ND as (ds' & _ & D' & V' & _). rewrite <- V' in PW |- *. pose proof (be_value_bound 10 ds' ltac:(lia) D'). lia. }
    assert (T48 : t = [48]).
    { assert (Z0 : is_numeral (fun d => d) 10 [0] w) by (exists [0]; rewrite W0; repeat split; auto; [repeat constructor; lia|discriminate]).
      destruct (numeral_same t [0] w NT Z0) as (-> & _). reflexivity. }
    rewrite T48. change (length [48%Z] - zeros_in [48%Z])%nat with O. cbn [firstn length]. exists (DC [] 1). split.
    + destruct (- s <? 0) eqn:E; [|reflexivity]. apply shr_empty; [lia|exact FU].
    + left. split; [|auto]. rewrite EM, W0, Z.div_0_l; [lia|]. pose proof (p10 (Z.of_nat (zeros_in t))). lia.
Qed.

(** * The texts *)
Lemma up_of_round d n : dnum d -> last (dmant d) 0 = 48 -> 0 < n -> sig_rounded_by true n (dvalue d) (dvalue (dec_round d n)).
Proof.
  intros W L N. destruct (round_zero d n W L N) as (H & _). exists (dexp d - n). split; [|auto]. destruct (dnum_bounds d W) as (A & B). split.
  - rewrite (de_to 1 (dexp d - 1) (dexp d - n)) in A by lia. replace (dexp d - 1 - (dexp d - n)) with (n - 1) in A by lia. rewrite Z.mul_1_l in A. exact A.
  - rewrite (de_to 1 (dexp d) (dexp d - n)) in B by lia. replace (dexp d - (dexp d - n)) with n in B by lia. rewrite Z.mul_1_l in B. exact B.
Qed.
Lemma by_wd up n v w r s : (v == w)%Q -> (r == s)%Q -> sig_rounded_by up n v r -> sig_rounded_by up n w s.
Proof.
  intros E F (k & A & B). exists k. rewrite <- E at 1 2. split; [auto|]. destruct up; [eapply half_up_wd|eapply half_even_wd]; eauto.
Qed.
Lemma round_short d n : Z.of_nat (length (dmant d)) <= n -> dec_round d n = d.
Proof. intros H. unfold dec_round. destruct (Z.ltb_spec n (Z.of_nat (length (dmant d)))); [lia|auto]. Qed.

Lemma exp_any e p x m s up : ok_float x -> flform x = Finite -> flprec x < 2 ^ 60 -> (match p with Some p => 0 <= p | None => True end) -> shown x m s up ->
  if m =? 0 then fl_fmt_exp e p x = Panic
  else exists t, fl_fmt_exp e p x = Ok t /\ exists r, sig_rounded_by up (1 + match p with Some p => p | None => 7 end) (dy m (- s)) r /\
    signed_text x (fun u => sci_text (match p with Some p => p | None => 7 end) (if e then 69 else 101) u r) t.
Proof.
  intros OX F PB HP SH. unfold fl_fmt_exp. set (q := match p with Some p => p | None => 7 end). assert (Q : 0 <= q) by (unfold q; destruct p; lia).
  destruct (decimal_any x m s up OX F PB SH) as (NZ & d & E & [(-> & ->)|(PM & W & V & RG & UP)]); unfold fmt_inner; rewrite F; cbn [is_fnan is_zero is_infinite]; rewrite NZ, E; cbn [bind].
  - change (0 =? 0) with true. cbv iota. rewrite !(round_short (DC [] 1)) by (cbn [dmant length]; lia). reflexivity.
  - destruct (Z.eqb_spec m 0); [lia|]. set (d1 := dec_round d (1 + q)).
    assert (H : dnum d1 /\ Z.of_nat (length (dmant d1)) <= 1 + q /\ sig_rounded_by up (1 + q) (dvalue d) (dvalue d1)).
    { destruct up.
      - destruct UP as (L & _). destruct (round_zero d (1 + q) W L ltac:(lia)) as (_ & A & B). split; [auto|]. split; [auto|]. apply up_of_round; auto. lia.
      - destruct (dec_round_spec d (1 + q) UP ltac:(lia)) as (H1 & H2 & H3 & H4 & _). fold d1 in H2, H4. split; [|split; [apply H4; lia|]].
        + destruct H2 as [(_ & _ & X)|X]; [lia|apply dwf_dnum; auto].
        + apply sig_of_round; [auto|lia]. }
    destruct H as (W1 & L1 & S1). rewrite (round_short d1) by auto.
    pose proof (round_exp d (1 + q) W ltac:(lia)) as RE. fold d1 in RE.
    destruct (fmt_for_exp_spec d1 q (if e then 69 else 101) W1 Q L1) as (t & ET & ST); [lia|]. rewrite ET. cbn [bind].
    eexists. split; [reflexivity|]. exists (dvalue d1). split; [|exists t; auto]. apply (by_wd up (1 + q) (dvalue d) (dy m (- s)) (dvalue d1) (dvalue d1)); [auto|reflexivity|auto].
Qed.

(** With overflow checks the index of a digit behind the point overflows. *)
Lemma display_frac_panic d : Z.abs (dexp d) < 2 ^ 61 -> dexp d < 0 -> forall n i, 0 <= i -> i <= - dexp d -> - dexp d < i + Z.of_nat n -> i + Z.of_nat n <= 2 ^ 62 ->
  display_frac true d i n = Panic.
Proof.
  intros E N. induction n as [|n IH]; intros i I1 I2 I3 I4; [lia|]. cbn [display_frac]. unfold display_index.
  assert (dexp d mod 2 ^ 64 = dexp d + 2 ^ 64) as -> by (symmetry; apply (Z.mod_unique_pos _ _ (-1)); lia).
  destruct (Z.ltb_spec (dexp d + 2 ^ 64 + i) (2 ^ 64)) as [L|L]; [|reflexivity]. cbn [bind]. rewrite IH by lia. reflexivity.
Qed.
Lemma tenth : (de 1 (-1) == 1 # 10)%Q.
Proof. reflexivity. Qed.
Lemma exp_tenth d : dnum d -> (dexp d < 0 <-> (dvalue d < 1 # 10)%Q).
Proof.
  intros W. destruct (dnum_bounds d W) as (A & B). rewrite <- tenth. split; intros H.
  - eapply Qlt_le_trans; [exact B|]. rewrite (de_to 1 (-1) (dexp d)) by lia. apply de_le. pose proof (p10 (-1 - dexp d)). lia.
  - destruct (Z.lt_ge_cases (dexp d) 0) as [|G]; [auto|exfalso]. assert (X : (de 1 (-1) <= de 1 (dexp d - 1))%Q); [|lra].
    rewrite (de_to 1 (dexp d - 1) (-1)) by lia. apply de_le. pose proof (p10 (dexp d - 1 - -1)). lia.
Qed.
Lemma dnum_pos d : dnum d -> (0 < dvalue d)%Q.
Proof. intros W. destruct (dnum_bounds d W) as (A & _). assert (0 < de 1 (dexp d - 1))%Q by (apply de_pos; lia). lra. Qed.

(** What [{}] makes of the rounded decimal. *)
Definition body_text (checks : bool) (p : Z) (b : res (list Z)) (r : Q) : Prop :=
  (checks = true /\ (0 < r < 1 # 10)%Q /\ b = Panic) \/
  ((checks = false \/ (r == 0)%Q \/ (1 # 10 <= r)%Q) /\ exists t, b = Ok t /\ fix_text p t r).
Lemma display_num checks d p : dnum d -> 0 < p < 2 ^ 61 -> Z.abs (dexp d) < 2 ^ 61 -> Z.of_nat (length (dmant d)) < 2 ^ 63 -> Z.of_nat (length (dmant d)) - dexp d <= p ->
  body_text checks p (fmt_for_display checks d p) (dvalue d).
Proof.
  intros W P E L F. pose proof (dnum_pos d W) as PV. pose proof (exp_tenth d W) as XT. destruct (Z.lt_ge_cases (dexp d) 0) as [N|N].
  - destruct checks.
    + left. split; [auto|]. split; [split; [auto|apply XT; auto]|]. unfold fmt_for_display. destruct (Z.ltb_spec 0 p); [|lia].
      assert (0 < Z.of_nat (length (dmant d))) by (destruct W as (_ & W & _); destruct (dmant d); [congruence|cbn [length]; lia]).
      rewrite display_frac_panic by lia. reflexivity.
    + right. split; [auto|]. apply fmt_for_display_spec; auto; lia.
  - right. split; [right; right; apply Qnot_lt_le; intros X; apply XT in X; lia|]. apply fmt_for_display_spec; auto; lia.
Qed.
Lemma display_empty checks e p : e = 0 \/ e = 1 -> 0 < p < 2 ^ 61 -> exists t, fmt_for_display checks (DC [] e) p = Ok t /\ fix_text p t 0.
Proof.
  intros E P. assert (Y : fmt_for_display checks (DC [] e) p = Ok (48 :: 46 :: repeat 48 (Z.to_nat p))).
  { unfold fmt_for_display. destruct (Z.ltb_spec 0 p); [|lia]. rewrite display_frac_spec by (cbn [dmant dexp length]; lia). cbn [bind dmant dexp].
    assert (X : forall n, map (fun k => at_ [] (e + 0 + Z.of_nat k)) (seq 0 n) = repeat 48 n).
    { induction n as [|n IH]; [reflexivity|]. rewrite seq_S, map_app, IH. cbn [map]. change (repeat 48 (S n)) with (48 :: repeat 48 n). rewrite repeat_cons. unfold at_.
      destruct (_ <? 0); [reflexivity|]. rewrite nth_overflow by (cbn [length]; lia). reflexivity. }
    rewrite X. destruct E as [-> | ->]; reflexivity. }
  eexists. split; [exact Y|]. exists [48], (repeat 48 (Z.to_nat p)), [0], (dvs (repeat 48 (Z.to_nat p))). destruct (Z.ltb_spec 0 p); [|lia]. split; [reflexivity|].
  split; [rewrite repeat_length; lia|]. split; [repeat constructor|]. split; [apply digs_text, digs_zeros|]. split; [discriminate|]. split; [auto|].
  change (be_value 10 ([0] ++ dvs (repeat 48 (Z.to_nat p)))) with (dval (repeat 48 (Z.to_nat p))). rewrite dval_zeros, de_0. reflexivity.
Qed.
Lemma place_exact d p : 0 <= p -> Z.of_nat (length (dmant d)) <= dexp d + p -> place_rounded p (dvalue d) (dvalue d).
Proof.
  intros P L. exists (dval (dmant d) * 10 ^ (dexp d - Z.of_nat (length (dmant d)) + p)).
  assert (X : (Qabs (dvalue d - dvalue d) == 0)%Q) by (setoid_replace (dvalue d - dvalue d)%Q with 0%Q by ring; reflexivity).
  assert (0 < de 1 (- p))%Q by (apply de_pos; lia). split; [|rewrite X; split; [lra|intros; lra]].
  unfold dvalue. rewrite (de_to (dval (dmant d)) _ (- p)) by lia. apply de_eq. do 2 f_equal. lia.
Qed.

Lemma display_any checks x m s up : ok_float x -> flform x = Finite -> flprec x < 2 ^ 60 -> shown x m s up ->
  exists r1 r b, (if m =? 0 then (r1 == 0)%Q else sig_rounded_by up (1 + flprec x) (dy m (- s)) r1) /\ place_rounded (flprec x) r1 r /\ body_text checks (flprec x) b r /\
    fl_fmt_display checks x = (do t <- b; Ok ((if flneg x then [45] else []) ++ t)).
Proof.
  intros OX F PB SH. destruct (ok_finite x OX F) as (P & _). set (p := flprec x) in *.
  destruct (decimal_any x m s up OX F PB SH) as (NZ & d & E & [(-> & ->)|(PM & W & V & RG & UP)]); unfold fl_fmt_display, fmt_inner; fold p; rewrite F; cbn [is_fnan is_zero is_infinite]; rewrite NZ, E; cbn [bind].
  - change (0 =? 0) with true. cbv iota. rewrite (round_short (DC [] 1)) by (cbn [dmant length]; lia). cbn [dexp]. destruct (Z.leb_spec 0 (1 + p)); [|lia].
    rewrite (round_short (DC [] 1)) by (cbn [dmant length]; lia). exists 0%Q, 0%Q. eexists. split; [reflexivity|]. split; [|split; [|reflexivity]].
    + pose proof (place_exact (DC [] 0) p ltac:(lia)) as X. cbn [dmant dexp length] in X. specialize (X ltac:(lia)). eapply half_even_wd; [| |exact X]; reflexivity.
    + right. split; [right; left; reflexivity|]. apply display_empty; auto; lia.
  - destruct (Z.eqb_spec m 0); [lia|]. pose proof (round_exp d (1 + p) W ltac:(lia)) as RE. set (d1 := dec_round d (1 + p)) in *. exists (dvalue d1).
    destruct up.
    + destruct UP as (L & LE). destruct (round_zero d (1 + p) W L ltac:(lia)) as (A & B & C). fold d1 in A, B, C.
      assert (L1 : Z.of_nat (length (dmant d1)) <= dexp d1 + p).
      { destruct (Z.le_gt_cases (Z.of_nat (length (dmant d))) (1 + p)) as [G|G]; [unfold d1 in *; rewrite round_short in * by auto; lia|lia]. }
      destruct (Z.leb_spec 0 (dexp d1 + p)); [|lia]. rewrite (round_short d1) by auto. exists (dvalue d1). eexists. split; [|split; [|split; [|reflexivity]]].
      * apply (by_wd true (1 + p) (dvalue d) (dy m (- s)) (dvalue d1) (dvalue d1)); [auto|reflexivity|]. apply up_of_round; auto. lia.
      * apply place_exact; lia.
      * apply display_num; auto; lia.
    + destruct (dec_round_spec d (1 + p) UP ltac:(lia)) as (H1 & H2 & H3 & H4 & _). fold d1 in H1, H2, H3, H4. specialize (H4 ltac:(lia)).
      assert (W1 : dwf d1) by (destruct H2 as [(_ & _ & X)|X]; [lia|auto]).
      assert (SIG : sig_rounded_by false (1 + p) (dy m (- s)) (dvalue d1)).
      { apply (by_wd false (1 + p) (dvalue d) (dy m (- s)) (dvalue d1) (dvalue d1)); [auto|reflexivity|]. apply sig_of_round; auto. lia. }
      destruct (Z.leb_spec 0 (dexp d1 + p)) as [N|N].
      * destruct (dec_round_spec d1 (dexp d1 + p) W1 N) as (A1 & A2 & A3 & A4 & A5). set (d2 := dec_round d1 (dexp d1 + p)) in *. exists (dvalue d2). eexists.
        split; [auto|]. split; [unfold place_rounded; replace (- p) with (dexp d1 - (dexp d1 + p)) by lia; exact A1|]. split; [|reflexivity].
        destruct A2 as [(M & X & Y)|A2].
        -- destruct d2 as [dm2 de2]. cbn [dmant dexp] in M, X. subst dm2 de2. assert (Z0 : (dvalue (DC [] 0) == 0)%Q) by reflexivity.
           right. split; [right; left; exact Z0|]. destruct (display_empty checks 0 p (or_introl eq_refl) ltac:(lia)) as (t & T1 & T2). exists t. split; auto.
        -- assert (NM : dmant d2 <> []) by apply A2. specialize (A3 NM).
           assert (X : dexp d1 <= dexp d2 <= dexp d1 + 1).
           { destruct (Z.eq_dec (dexp d1 + p) 0) as [Z0|Z0]; [|apply round_exp; [apply dwf_dnum; auto|lia]]. unfold d2. rewrite Z0. unfold dec_round.
             destruct (0 <? Z.of_nat (length (dmant d1))); [|lia]. destruct (should_round_up (dmant d1) (Z.to_nat 0)) eqn:RU; [cbn; lia|].
             exfalso. apply NM. unfold d2. rewrite Z0. unfold dec_round. rewrite RU. destruct W1 as (_ & W1 & _). destruct (dmant d1); [congruence|reflexivity]. }
           apply display_num; [apply dwf_dnum; auto|lia|lia| |lia].
           destruct (Z.eq_dec (dexp d1 + p) 0) as [Z0|Z0]; [lia|]. specialize (A4 ltac:(lia)). lia.
      * destruct (fmt_display_tiny checks d1 p W1 ltac:(lia) ltac:(lia) ltac:(lia) ltac:(lia)) as (t & ET & FT & PRd).
        exists 0%Q. eexists. split; [auto|]. split; [auto|]. split; [|reflexivity]. right. split; [right; left; reflexivity|]. exists t. auto.
Qed.

Lemma display_shown checks x m s up : ok_float x -> flform x = Finite -> flprec x < 2 ^ 60 -> shown x m s up ->
  exists r1 r, (if m =? 0 then (r1 == 0)%Q else sig_rounded_by up (1 + flprec x) (dy m (- s)) r1) /\ place_rounded (flprec x) r1 r /\
    shown_text checks x (flprec x) (fl_fmt_display checks x) r.
Proof.
  intros OX F PB SH. destruct (display_any checks x m s up OX F PB SH) as (r1 & r & b & A & B & C & D). exists r1, r. split; [auto|]. split; [auto|]. rewrite D.
  destruct C as [(C1 & C2 & ->)|(C1 & t & -> & C2)]; [left; auto|]. right. split; [auto|]. eexists. split; [reflexivity|]. exists t. auto.
Qed.

(** Every finite Float has exactly such a number. *)
Lemma shown_exists x : ok_float x -> flform x = Finite -> exists m s up, shown x m s up.
Proof.
  intros OX F. destruct (ok_finite x OX F) as (_ & NM). destruct (normal_pos _ NM) as (Hw & Hl & B).
  assert (PM : 0 < nval (flmant x)). { pose proof (pow2_pos (mbits (flmant x) - 1) ltac:(unfold mbits; lia)). lia. }
  destruct (trailling_zeros_spec (flmant x) Hw PM) as (q & Z0 & Q0 & EZ). set (tz := trailling_zeros (flmant x)) in *.
  assert (NS : exists n s, 0 < n /\ 0 <= s /\ (Qabs (flvalue x) == dy n (- s))%Q /\ (s = 0 \/ Z.odd n = true)).
  { set (e := flexp x - mbits (flmant x) + tz). assert (V : (Qabs (flvalue x) == dy (2 * q + 1) e)%Q).
    { rewrite (finite_abs x F NM). rewrite (dy_to (2 * q + 1) e (flexp x - mbits (flmant x))) by (unfold e; lia).
      replace (e - (flexp x - mbits (flmant x))) with tz by (unfold e; lia). rewrite <- EZ. reflexivity. }
    destruct (Z.le_gt_cases 0 e).
    - exists ((2 * q + 1) * 2 ^ e), 0. split; [pose proof (pow2_pos e); nia|]. split; [lia|]. split; [|auto]. rewrite V, (dy_to (2 * q + 1) e (- 0)) by lia.
      replace (e - - 0) with e by lia. reflexivity.
    - exists (2 * q + 1), (- e). split; [lia|]. split; [lia|]. rewrite Z.opp_involutive. split; [auto|]. right. rewrite Z.odd_add, Z.odd_mul. reflexivity. }
  destruct NS as (n & s & Pn & Hs & V & SO). set (w := written (Z.of_nat (length (flmant x))) n (mbits (flmant x) - flexp x - s)).
  assert (W : 0 <= w).
  { unfold w, written. destruct (_ && _); [|lia]. cbv zeta. set (t := mbits (flmant x) - flexp x - s). set (k := 2 ^ (32 * (Z.of_nat (length (flmant x)) - t / 32))).
    assert (K : 0 <= k) by (apply Z.pow_nonneg; lia). assert (0 <= n * 2 ^ t) by (apply Z.mul_nonneg_nonneg; [lia|apply Z.pow_nonneg; lia]).
    assert (0 <= (n * 2 ^ t) mod k).
    { destruct (Z.eq_dec k 0) as [->|]; [rewrite Zmod_0_r; auto|]. apply Z.mod_pos_bound. lia. }
    auto. }
  destruct (fmt_display_spec (of_Z w) (of_Z_canon w W)) as (t & _ & (ds & _ & D)). rewrite of_Z_val in D by auto.
  eexists _, s, _. exists n, ds. split; [auto|]. split; [auto|]. split; [auto|]. split; [auto|]. cbv zeta. fold w. split; [|split; reflexivity].
  exists ds. rewrite map_id. split; [reflexivity|]. exact D.
Qed.
(** Outside the word-multiple case nothing is added and the first digit is kept. *)
Lemma shown_below x m s up : shown x m s up -> (let t := mbits (flmant x) - flexp x - s in t < 32 \/ t mod 32 <> 0) ->
  0 < m /\ (dy m (- s) <= Qabs (flvalue x))%Q /\ (Qabs (flvalue x) < 10 * dy m (- s))%Q.
Proof.
  intros (n & ds & Pn & Hs & EV & SO & ND & EM & EU) T. cbv zeta in *. set (t := mbits (flmant x) - flexp x - s) in *.
  assert (W : written (Z.of_nat (length (flmant x))) n t = n).
  { unfold written. destruct (Z.leb_spec 32 t), (Z.eqb_spec (t mod 32) 0); cbn [andb]; auto; lia. }
  rewrite W in *. assert (NT : is_numeral lchar 10 (map lchar ds) n).
  { destruct ND as (ds' & E & D). rewrite map_id in E. subst ds'. exists ds. split; [reflexivity|exact D]. }
  destruct (numeral_same _ ds n NT ND) as (_ & DD). pose proof (kept_spec _ n NT Pn) as K. cbv zeta in K. rewrite (zeros_in_count ds DD) in K. rewrite <- EM in K.
  destruct K as (K1 & K2 & K3 & K4 & _). destruct (dnum_bounds _ K1) as (A & B). rewrite K2 in A, B. cbn [dexp] in A, B.
  split; [lia|]. rewrite EV. split; [apply dy_le; lia|].
  destruct (numeral_digs _ n NT) as (D1 & D2 & _). pose proof (dval_bound _ D1) as DB. rewrite D2 in DB.
  assert (LP : 0 < Z.of_nat (length (map lchar ds))). { destruct ND as (ds' & E & _ & _ & N & _). rewrite map_id in E. subst ds'. rewrite map_length. destruct ds; [congruence|cbn [length]; lia]. }
  rewrite (de_to 1 _ 0) in A by lia. unfold de, dy in A. change (Qpower 10 0) with 1%Q in A. change (Qpower 2 0) with 1%Q in A. rewrite !Qmult_1_r, <- Zle_Qle in A.
  set (L := Z.of_nat (length (map lchar ds))) in *. assert (P : 10 ^ L = 10 * 10 ^ (L - 1 - 0)) by (rewrite <- Z.pow_succ_r by lia; f_equal; lia).
  assert (X : (10 * dy m (- s) == dy (10 * m) (- s))%Q) by (unfold dy; rewrite inject_Z_mult; ring). rewrite X. apply dy_lt. lia.
Qed.
