(** Proofs about shifts, bit length, division and word-operand operators. *)
From Coq Require Import ZArith List Lia Bool.
From Verif Require Import Words WordsFacts NatModel NatFacts.
Import ListNotations.
Open Scope Z_scope.

(* ------------------------------------------------------------------ *)
(** * Bit-level helpers *)

Lemma pow2_pos n : 0 <= n -> 0 < 2 ^ n.
Proof. intros. apply Z.pow_pos_nonneg; lia. Qed.

Lemma testbit_small p n i : 0 <= p < 2 ^ n -> n <= i -> Z.testbit p i = false.
Proof.
  intros [H0 H1] Hi. destruct (Z.eq_dec p 0) as [->|Hp]; [apply Z.bits_0|].
  apply Z.bits_above_log2; [lia|]. apply Z.log2_lt_pow2 in H1; lia.
Qed.

Lemma land_shift_disjoint y n p : 0 <= n -> 0 <= p < 2 ^ n -> Z.land (y * 2 ^ n) p = 0.
Proof.
  intros Hn Hp. apply Z.bits_inj'. intros i Hi. rewrite Z.land_spec, Z.bits_0.
  destruct (Z.lt_ge_cases i n).
  - rewrite Z.mul_pow2_bits_low by lia. reflexivity.
  - rewrite (testbit_small p n i) by lia. apply andb_false_r.
Qed.

Lemma lor_shift_add y n p : 0 <= n -> 0 <= p < 2 ^ n -> Z.lor (y * 2 ^ n) p = y * 2 ^ n + p.
Proof.
  intros Hn Hp. pose proof (land_shift_disjoint y n p Hn Hp) as E.
  rewrite <- Z.lxor_lor by exact E. symmetry. apply Z.add_nocarry_lxor. exact E.
Qed.

Lemma pow2_split n : 0 <= n <= 32 -> W = 2 ^ (32 - n) * 2 ^ n.
Proof. intros. rewrite <- Z.pow_add_r by lia. replace (32 - n + n) with 32 by lia. reflexivity. Qed.

Lemma shl_word_mod x n : 0 <= n <= 32 -> (x * 2 ^ n) mod W = (x mod 2 ^ (32 - n)) * 2 ^ n.
Proof.
  intros Hn. rewrite (pow2_split n) by lia.
  rewrite Zmult_mod_distr_r. reflexivity.
Qed.

(* ------------------------------------------------------------------ *)
(** * Left shift *)

Lemma shl_bits_spec nom a : 0 < nom < 32 -> forall pre, words_ok a -> 0 <= pre < 2 ^ nom ->
  nval (shl_bits nom pre a) = nval a * 2 ^ nom + pre /\ words_ok (shl_bits nom pre a).
Proof.
  intros Hn. pose proof (pow2_split nom ltac:(lia)) as PS.
  pose proof (pow2_pos nom ltac:(lia)) as P1. pose proof (pow2_pos (32 - nom) ltac:(lia)) as P2.
  assert (P3 : 2 <= 2 ^ (32 - nom)).
  { change 2 with (2 ^ 1) at 1. apply Z.pow_le_mono_r; lia. }
  assert (P4 : 2 ^ nom < W) by nia.
  induction a as [|x a IH]; intros pre Ha Hp; cbn [shl_bits].
  - rewrite Z.gtb_ltb. destruct (Z.ltb_spec 0 pre); cbn [nval];
    (split; [lia|]); repeat constructor; lia.
  - apply words_ok_cons in Ha as [Hx Ha].
    rewrite shl_word_mod, lor_shift_add by lia.
    pose proof (Z.div_mod x (2 ^ (32 - nom)) ltac:(lia)) as DM.
    pose proof (Z.mod_pos_bound x (2 ^ (32 - nom)) ltac:(lia)) as MB.
    destruct (IH (x / 2 ^ (32 - nom))) as [E1 E2]; [auto| |].
    { split; [apply Z.div_pos; lia|]. apply Z.div_lt_upper_bound; lia. }
    split.
    + rewrite !nval_cons, E1. rewrite DM at 3. rewrite PS. ring.
    + apply words_ok_cons. split; auto. nia.
Qed.

Lemma shl_bits_len nom a : 0 < nom < 32 -> forall pre, words_ok a -> 0 <= pre < 2 ^ nom ->
  length (shl_bits nom pre a) = length a \/
  (length (shl_bits nom pre a) = S (length a) /\ Wp (length a) <= nval a * 2 ^ nom + pre).
Proof.
  intros Hn. pose proof (pow2_split nom ltac:(lia)) as PS.
  pose proof (pow2_pos nom ltac:(lia)) as P1. pose proof (pow2_pos (32 - nom) ltac:(lia)) as P2.
  induction a as [|x a IH]; intros pre Ha Hp; cbn [shl_bits].
  - rewrite Z.gtb_ltb. destruct (Z.ltb_spec 0 pre); cbn [length nval]; [right|left; auto].
    split; auto. change (Wp 0) with 1. lia.
  - apply words_ok_cons in Ha as [Hx Ha].
    pose proof (Z.div_mod x (2 ^ (32 - nom)) ltac:(lia)) as DM.
    pose proof (Z.mod_pos_bound x (2 ^ (32 - nom)) ltac:(lia)) as MB.
    destruct (IH (x / 2 ^ (32 - nom))) as [E|[E1 E2]]; [auto| | |].
    { split; [apply Z.div_pos; lia|]. apply Z.div_lt_upper_bound; lia. }
    + left. cbn [length]. lia.
    + right. cbn [length]. split; [lia|]. rewrite Wp_S, nval_cons.
      set (q := x / 2 ^ (32 - nom)) in *.
      assert (W * q <= x * 2 ^ nom) by (rewrite PS; nia).
      nia.
Qed.

Lemma shift_split k : 0 <= k -> 2 ^ k = Wp (Z.to_nat (k / 32)) * 2 ^ (k mod 32).
Proof.
  intros Hk. pose proof (Z.div_mod k 32 ltac:(lia)). pose proof (Z.mod_pos_bound k 32 ltac:(lia)).
  assert (0 <= k / 32) by (apply Z.div_pos; lia).
  rewrite Wp_pow2, Z2Nat.id, <- Z.pow_add_r by lia. f_equal. lia.
Qed.

Lemma shl_inner_spec a k : words_ok a -> 0 <= k ->
  nval (shl_inner a k) = nval a * 2 ^ k /\ words_ok (shl_inner a k).
Proof.
  intros Ha Hk. unfold shl_inner.
  pose proof (Z.mod_pos_bound k 32 ltac:(lia)).
  rewrite (shift_split k Hk). set (num := Z.to_nat (k / 32)).
  rewrite Z.gtb_ltb. destruct (Z.ltb_spec 0 (k mod 32)).
  - destruct (shl_bits_spec (k mod 32) a ltac:(lia) 0 Ha) as [E1 E2].
    { pose proof (pow2_pos (k mod 32)). lia. }
    rewrite nval_app, nval_repeat0, repeat_length, E1. split; [ring|].
    apply words_ok_app; auto using words_ok_repeat0.
  - assert (k mod 32 = 0) as -> by lia. rewrite nval_app, nval_repeat0, repeat_length.
    split; [rewrite Z.pow_0_r; ring|]. apply words_ok_app; auto using words_ok_repeat0.
Qed.

Lemma canon_pos_last l : canon l -> 0 < nval l -> last l 0 <> 0.
Proof.
  intros (Hw & Hn & [H|H]) Hp; auto.
  destruct l as [|x [|y l]]; try discriminate. cbn in *. lia.
Qed.

Lemma canon_shift_words num l : canon l -> 0 < nval l -> canon (repeat 0 num ++ l).
Proof.
  intros Hc Hp. pose proof (canon_pos_last l Hc Hp) as HL.
  destruct Hc as (Hw & Hn & _). split; [|split].
  - apply words_ok_app; auto using words_ok_repeat0.
  - intros E. apply app_eq_nil in E. tauto.
  - right. clear -HL Hn. induction num as [|n IH]; [exact HL|].
    cbn [repeat app]. destruct (repeat 0 n ++ l) eqn:E.
    + apply app_eq_nil in E. tauto.
    + exact IH.
Qed.

Lemma shl_inner_of_Z a k : canon a -> 0 < nval a -> 0 <= k ->
  shl_inner a k = of_Z (nval a * 2 ^ k).
Proof.
  intros Ha Hp Hk. destruct (shl_inner_spec a k (canon_words a Ha) Hk) as [V Wd].
  apply of_Z_unique; auto.
  unfold shl_inner in *. set (num := Z.to_nat (k / 32)) in *.
  pose proof (Z.mod_pos_bound k 32 ltac:(lia)).
  apply canon_shift_words.
  - rewrite Z.gtb_ltb. destruct (Z.ltb_spec 0 (k mod 32)); auto.
    assert (PZ : 0 <= 0 < 2 ^ (k mod 32)) by (pose proof (pow2_pos (k mod 32)); lia).
    pose proof (canon_len_pos a Ha).
    destruct (shl_bits_spec (k mod 32) a ltac:(lia) 0 (canon_words a Ha) PZ) as [V1 W1].
    destruct (shl_bits_len (k mod 32) a ltac:(lia) 0 (canon_words a Ha) PZ) as [L|[L1 L2]].
    + apply canon_intro; auto.
      * intros E. rewrite E in L. cbn in L. lia.
      * rewrite L, V1. intros HL. pose proof (canon_lower a Ha HL).
        pose proof (pow2_pos (k mod 32)). nia.
    + apply canon_intro; auto.
      * intros E. rewrite E in L1. cbn in L1. lia.
      * rewrite L1, V1. replace (S (length a) - 1)%nat with (length a) by lia. lia.
  - rewrite Z.gtb_ltb. destruct (Z.ltb_spec 0 (k mod 32)); auto.
    assert (PZ : 0 <= 0 < 2 ^ (k mod 32)) by (pose proof (pow2_pos (k mod 32)); lia).
    destruct (shl_bits_spec (k mod 32) a ltac:(lia) 0 (canon_words a Ha) PZ) as [V1 W1].
    rewrite V1. pose proof (pow2_pos (k mod 32)). nia.
Qed.

(* ------------------------------------------------------------------ *)
(** * Right shift *)

Lemma rotr_high b nom : 0 < nom < 32 -> 0 <= b < W ->
  Z.land (rotr b nom) ((2 ^ nom - 1) * 2 ^ (32 - nom)) = (b mod 2 ^ nom) * 2 ^ (32 - nom).
Proof.
  intros Hn Hb.
  pose proof (pow2_pos nom ltac:(lia)) as P1. pose proof (pow2_pos (32 - nom) ltac:(lia)) as P2.
  pose proof (pow2_split nom ltac:(lia)) as PS.
  pose proof (Z.mod_pos_bound b (2 ^ nom) ltac:(lia)) as MB.
  assert (DB : 0 <= b / 2 ^ nom < 2 ^ (32 - nom)).
  { split; [apply Z.div_pos; lia|]. apply Z.div_lt_upper_bound; lia. }
  unfold rotr. rewrite Z.add_comm, <- lor_shift_add by lia.
  apply Z.bits_inj'. intros i Hi. rewrite Z.land_spec, Z.lor_spec.
  destruct (Z.lt_ge_cases i (32 - nom)).
  - rewrite !Z.mul_pow2_bits_low by lia. apply andb_false_r.
  - rewrite !Z.mul_pow2_bits by lia. rewrite (testbit_small (b / 2 ^ nom) (32 - nom)) by lia.
    rewrite orb_false_r.
    replace (2 ^ nom - 1) with (Z.ones nom) by (rewrite Z.ones_equiv; lia).
    destruct (Z.lt_ge_cases (i - (32 - nom)) nom).
    + rewrite Z.ones_spec_low by lia. apply andb_true_r.
    + rewrite Z.ones_spec_high, andb_false_r by lia. symmetry.
      apply (testbit_small _ nom); lia.
Qed.

Lemma rotr_low b nom : 0 < nom < 32 -> 0 <= b < W ->
  Z.land (rotr b nom) (2 ^ (32 - nom) - 1) = b / 2 ^ nom.
Proof.
  intros Hn Hb.
  pose proof (pow2_pos nom ltac:(lia)) as P1. pose proof (pow2_pos (32 - nom) ltac:(lia)) as P2.
  pose proof (pow2_split nom ltac:(lia)) as PS.
  assert (DB : 0 <= b / 2 ^ nom < 2 ^ (32 - nom)).
  { split; [apply Z.div_pos; lia|]. apply Z.div_lt_upper_bound; lia. }
  replace (2 ^ (32 - nom) - 1) with (Z.ones (32 - nom)) by (rewrite Z.ones_equiv; lia).
  rewrite Z.land_ones by lia. unfold rotr. rewrite Z.mod_add by lia.
  apply Z.mod_small. lia.
Qed.

(** The loop of the right shift writes the shifted words and leaves the rest. *)
Lemma shr_loop_spec nom bs : 0 < nom < 32 -> forall pre v,
  words_ok bs -> 0 <= pre < 2 ^ (32 - nom) -> (length bs <= length v)%nat ->
  exists ws p, shr_loop nom pre v bs = (ws ++ skipn (length bs) v, p) /\
    words_ok ws /\ length ws = length bs /\ 0 <= p < 2 ^ (32 - nom) /\
    nval ws + Wp (length bs) * p = pre + 2 ^ (32 - nom) * nval bs /\
    p = (match bs with [] => pre | _ => last bs 0 / 2 ^ nom end).
Proof.
  intros Hn. pose proof (pow2_pos nom ltac:(lia)) as P1. pose proof (pow2_pos (32 - nom) ltac:(lia)) as P2.
  pose proof (pow2_split nom ltac:(lia)) as PS.
  assert (P3 : 2 ^ (32 - nom) < W).
  { change W with (2 ^ 32). apply Z.pow_lt_mono_r; lia. }
  induction bs as [|b bs IH]; intros pre v Hb Hp Hl.
  - exists [], pre. split; [destruct v; reflexivity|]. split; [constructor|].
    split; [reflexivity|]. split; [lia|]. split; [|reflexivity].
    cbn [nval length]. change (Wp 0) with 1. lia.
  - apply words_ok_cons in Hb as [Hb0 Hb]. destruct v as [|a v]; [cbn in Hl; lia|].
    cbn [shr_loop]. rewrite rotr_high, rotr_low by lia.
    assert (DB : 0 <= b / 2 ^ nom < 2 ^ (32 - nom)).
    { split; [apply Z.div_pos; lia|]. apply Z.div_lt_upper_bound; lia. }
    destruct (IH (b / 2 ^ nom) v) as (ws & p & E & I1 & I2 & I3 & I4 & I5);
      [auto|auto|cbn in Hl; lia|].
    rewrite E. rewrite lor_shift_add by lia.
    pose proof (Z.mod_pos_bound b (2 ^ nom) ltac:(lia)) as MB.
    exists ((b mod 2 ^ nom * 2 ^ (32 - nom) + pre) :: ws), p.
    split; [reflexivity|]. split; [apply words_ok_cons; split; auto; nia|].
    split; [cbn [length]; lia|]. split; [auto|]. split.
    + cbn [length]. rewrite !nval_cons, Wp_S.
      pose proof (Z.div_mod b (2 ^ nom) ltac:(lia)) as DM.
      replace (b mod 2 ^ nom * 2 ^ (32 - nom) + pre + W * nval ws + W * Wp (length bs) * p)
        with (b mod 2 ^ nom * 2 ^ (32 - nom) + pre + W * (nval ws + Wp (length bs) * p)) by ring.
      rewrite I4. rewrite DM at 3. rewrite PS. ring.
    + rewrite I5. destruct bs; reflexivity.
Qed.

Lemma set_last_snoc l x y : set_last (l ++ [x]) y = l ++ [y].
Proof.
  unfold set_last. destruct (l ++ [x]) eqn:E; [destruct l; discriminate|].
  rewrite <- E, removelast_last. reflexivity.
Qed.

(** Full description of [shr_inner] for a shift that leaves some words. *)
Definition shr_good (v : list Z) (k : Z) : Prop :=
  k < 32 \/ 32 * Z.of_nat (length v) <= k \/
  (k mod 32 <> 0 /\ 2 ^ (k mod 32) <= last v 0).

Lemma skipn_cons_nth n (v : list Z) : (n < length v)%nat ->
  skipn n v = nth n v 0 :: skipn (S n) v.
Proof.
  revert v. induction n as [|n IH]; intros [|x v] H; cbn in *; try lia; auto.
  apply IH. lia.
Qed.

Lemma last_skipn n (v : list Z) : (n < length v)%nat -> last (skipn n v) 0 = last v 0.
Proof.
  revert v. induction n as [|n IH]; intros v H; [reflexivity|].
  destruct v as [|x v]; [cbn in H; lia|]. cbn [skipn length] in *.
  rewrite IH by lia. destruct v; [cbn in H; lia|]. reflexivity.
Qed.

Lemma shr_inner_shape v k : words_ok v -> 0 <= k -> let num := Z.to_nat (k / 32) in
  (num < length v)%nat -> k mod 32 <> 0 ->
  exists ws p, words_ok ws /\ length ws = (length v - num - 1)%nat /\
    p = last v 0 / 2 ^ (k mod 32) /\ 0 <= p < W /\
    nval (ws ++ [p]) = nval v / 2 ^ k /\
    shr_inner v k =
      if p >? 0 then ws ++ [p]
      else if (num =? 0)%nat then (match ws with [] => [0] | _ => ws end)
      else ws ++ [nth (length v - num - 1) v 0].
Proof.
  intros Hv Hk num Hlt Hn0. unfold shr_inner. fold num. set (nom := k mod 32) in *.
  pose proof (Z.mod_pos_bound k 32 ltac:(lia)) as MB. fold nom in MB.
  assert (Hn : 0 < nom < 32) by lia.
  pose proof (pow2_pos nom ltac:(lia)) as P1. pose proof (pow2_pos (32 - nom) ltac:(lia)) as P2.
  pose proof (pow2_split nom ltac:(lia)) as PS.
  assert (P3 : 2 ^ (32 - nom) < W).
  { change W with (2 ^ 32). apply Z.pow_lt_mono_r; lia. }
  apply Nat.leb_gt in Hlt as E0. rewrite E0.
  rewrite Z.gtb_ltb.
  assert ((0 <? nom) = true) as -> by (apply Z.ltb_lt; lia).
  rewrite (skipn_cons_nth num v Hlt).
  set (x := nth num v 0). set (bs := skipn (S num) v).
  assert (Hx : 0 <= x < W) by (apply words_ok_nth; auto).
  assert (Hb : words_ok bs) by (apply words_ok_skipn; auto).
  assert (Lb : length bs = (length v - num - 1)%nat).
  { unfold bs. rewrite skipn_length. lia. }
  assert (DX : 0 <= x / 2 ^ nom < 2 ^ (32 - nom)).
  { split; [apply Z.div_pos; lia|]. apply Z.div_lt_upper_bound; lia. }
  destruct (shr_loop_spec nom bs Hn (x / 2 ^ nom) v Hb DX ltac:(lia))
    as (ws & p & E & I1 & I2 & I3 & I4 & I5).
  rewrite E. exists ws, p.
  assert (EP : p = last v 0 / 2 ^ nom).
  { rewrite I5. destruct bs as [|b bs'] eqn:EB.
    - assert (num = (length v - 1)%nat) as En by (cbn in Lb; lia).
      unfold x. f_equal. rewrite En. clear -Hlt. destruct v as [|z v] using rev_ind; [cbn in Hlt; lia|].
      rewrite last_last, app_length. cbn [length]. rewrite app_nth2 by lia.
      replace (length v + 1 - 1 - length v)%nat with 0%nat by lia. reflexivity.
    - rewrite <- EB. unfold bs. rewrite last_skipn; auto.
      assert (length bs > 0)%nat by (rewrite EB; cbn; lia). unfold bs in *. rewrite EB in *. cbn in Lb. lia. }
  split; [auto|]. split; [lia|]. split; [auto|]. split; [lia|]. split.
  - rewrite nval_app. cbn [nval]. rewrite I2, Z.mul_0_r, Z.add_0_r, I4.
    pose proof (nval_skipn num v Hv) as SV. rewrite (skipn_cons_nth num v Hlt) in SV.
    fold x bs in SV. rewrite nval_cons in SV.
    rewrite (shift_split k Hk). fold num nom. pose proof (Wp_pos num).
    rewrite <- Z.div_div by lia. rewrite <- SV. rewrite PS.
    replace (x + 2 ^ (32 - nom) * 2 ^ nom * nval bs) with (x + (2 ^ (32 - nom) * nval bs) * 2 ^ nom) by ring.
    rewrite Z.div_add by lia. ring.
  - assert (F : firstn (length v - num) (ws ++ skipn (length bs) v)
                = ws ++ [nth (length v - num - 1) v 0]).
    { rewrite Lb, (skipn_cons_nth (length v - num - 1) v) by lia.
      rewrite firstn_app, I2, Lb.
      replace (length v - num - (length v - num - 1))%nat with 1%nat by lia.
      rewrite firstn_all2 by lia. reflexivity. }
    rewrite F. rewrite !Z.gtb_ltb. destruct (Z.ltb_spec 0 p).
    + apply set_last_snoc.
    + cbn [andb]. destruct (num =? 0)%nat; auto.
      rewrite removelast_last. destruct ws; reflexivity.
Qed.

Lemma shr_inner_lt32 v k : canon v -> 0 <= k < 32 -> shr_inner v k = of_Z (nval v / 2 ^ k).
Proof.
  intros Hc Hk. pose proof (canon_words v Hc) as Hv. pose proof (canon_len_pos v Hc) as HL.
  assert (Z.to_nat (k / 32) = 0%nat) as N0 by (rewrite Z.div_small by lia; reflexivity).
  destruct (Z.eq_dec k 0) as [->|Hk0].
  - unfold shr_inner. cbn [Z.div]. change (Z.to_nat (0 / 32)) with 0%nat. change (0 mod 32) with 0.
    assert ((length v <=? 0)%nat = false) as -> by (apply Nat.leb_gt; lia).
    cbn [Z.gtb Z.compare]. rewrite Nat.sub_0_r, firstn_all. cbn [andb].
    rewrite Z.pow_0_r, Z.div_1_r, of_Z_nval; auto.
  - assert (k mod 32 = k) as KM by (apply Z.mod_small; lia).
    destruct (shr_inner_shape v k Hv ltac:(lia)) as (ws & p & I1 & I2 & I3 & I4 & I5 & I6);
      [lia|lia|].
    rewrite N0 in *. rewrite KM in *. rewrite I6, <- I5. clear I6.
    assert (Wl : words_ok (ws ++ [p])).
    { apply words_ok_app; split; auto. repeat constructor; lia. }
    rewrite Z.gtb_ltb. destruct (Z.ltb_spec 0 p).
    + apply of_Z_unique; auto. split; [auto|split].
      * destruct ws; discriminate.
      * right. rewrite last_last. lia.
    + assert (p = 0) by lia. subst p. cbn [Nat.eqb].
      rewrite nval_app. rewrite H0. cbn [nval]. rewrite Z.mul_0_r, Z.add_0_r.
      destruct ws as [|w ws'] eqn:EW; [reflexivity|]. rewrite <- EW in *.
      apply of_Z_unique; [|rewrite nval_app in I5; cbn [nval] in I5; lia].
      apply canon_intro; auto; [congruence|]. rewrite I2. intros L1.
      assert (LV : (1 < length v)%nat) by lia.
      pose proof (canon_lower v Hc LV) as CL.
      assert (nval ws = nval v / 2 ^ k) as E.
      { rewrite <- I5, nval_app, H0. cbn [nval]. lia. }
      rewrite E. apply Z.div_le_lower_bound; [apply pow2_pos; lia|].
      replace (length v - 0 - 1 - 1)%nat with (length v - 2)%nat by lia.
      replace (length v - 1)%nat with (S (length v - 2)) in CL by lia.
      rewrite Wp_S in CL. pose proof (pow2_split k ltac:(lia)).
      assert (2 ^ k < W) by (change W with (2 ^ 32); apply Z.pow_lt_mono_r; lia).
      pose proof (Wp_pos (length v - 2)). nia.
Qed.

Lemma shr_inner_all v k : words_ok v -> 32 * Z.of_nat (length v) <= k ->
  shr_inner v k = of_Z (nval v / 2 ^ k).
Proof.
  intros Hv Hk. unfold shr_inner.
  assert ((length v <=? Z.to_nat (k / 32))%nat = true) as ->.
  { apply Nat.leb_le. assert (Z.of_nat (length v) <= k / 32) by (apply Z.div_le_lower_bound; lia). lia. }
  pose proof (nval_bound v Hv) as B. rewrite Wp_pow2 in B.
  rewrite Z.div_small; [reflexivity|].
  assert (2 ^ (32 * Z.of_nat (length v)) <= 2 ^ k) by (apply Z.pow_le_mono_r; lia). lia.
Qed.

Lemma shr_inner_high v k : words_ok v -> 0 <= k -> k < 32 * Z.of_nat (length v) ->
  k mod 32 <> 0 -> 2 ^ (k mod 32) <= last v 0 ->
  shr_inner v k = of_Z (nval v / 2 ^ k).
Proof.
  intros Hv Hk Hlt Hm Hlast.
  assert (0 <= k / 32) by (apply Z.div_pos; lia).
  assert (k / 32 < Z.of_nat (length v)) by (apply Z.div_lt_upper_bound; lia).
  destruct (shr_inner_shape v k Hv Hk) as (ws & p & I1 & I2 & I3 & I4 & I5 & I6); [lia|auto|].
  pose proof (Z.mod_pos_bound k 32 ltac:(lia)).
  assert (0 < p).
  { rewrite I3. pose proof (pow2_pos (k mod 32) ltac:(lia)).
    apply Z.lt_le_trans with 1; [lia|]. apply Z.div_le_lower_bound; lia. }
  rewrite I6, <- I5. rewrite Z.gtb_ltb. assert ((0 <? p) = true) as -> by (apply Z.ltb_lt; lia).
  apply of_Z_unique; auto. split; [|split].
  - apply words_ok_app; split; auto. repeat constructor; lia.
  - destruct ws; discriminate.
  - right. rewrite last_last. lia.
Qed.

Lemma shr_inner_good v k : canon v -> 0 <= k -> shr_good v k -> shr_inner v k = of_Z (nval v / 2 ^ k).
Proof.
  intros Hc Hk [H|[H|[H1 H2]]].
  - apply shr_inner_lt32; auto.
  - apply shr_inner_all; auto using canon_words.
  - destruct (Z.lt_ge_cases k (32 * Z.of_nat (length v))).
    + apply shr_inner_high; auto using canon_words.
    + apply shr_inner_all; auto using canon_words.
Qed.

(** word-multiple shifts keep the low words: what the code really computes *)
Lemma shr_inner_wordmul v k : words_ok v -> 0 <= k -> k mod 32 = 0 -> k < 32 * Z.of_nat (length v) ->
  nval (shr_inner v k) = nval v mod Wp (length v - Z.to_nat (k / 32)).
Proof.
  intros Hv Hk Hm Hlt. unfold shr_inner. rewrite Hm. cbn [Z.gtb Z.compare andb].
  assert (0 <= k / 32) by (apply Z.div_pos; lia).
  assert (k / 32 < Z.of_nat (length v)) by (apply Z.div_lt_upper_bound; lia).
  assert ((length v <=? Z.to_nat (k / 32))%nat = false) as -> by (apply Nat.leb_gt; lia).
  apply nval_firstn. auto.
Qed.

(* ------------------------------------------------------------------ *)
(** * Bit length *)

Lemma bits_len_spec a : canon a -> bits_len a = if nval a =? 0 then 1 else Z.log2 (nval a) + 1.
Proof.
  intros Ha. pose proof (canon_words a Ha) as Wa. pose proof (canon_len_pos a Ha) as L.
  unfold bits_len. destruct a as [|x a'] eqn:EA; [cbn in L; lia|]. rewrite <- EA in *.
  pose proof (words_ok_last a Wa) as BL.
  destruct (Z.eqb_spec (last a 0) 0) as [E|E].
  - destruct Ha as (_ & _ & [H|H]); [|congruence]. rewrite H. cbn [Nat.eqb].
    destruct a as [|y [|z l]]; try discriminate. cbn in E. subst y. reflexivity.
  - rewrite (nval_last a) by (rewrite EA; discriminate).
    pose proof (nval_bound _ (words_ok_removelast a Wa)) as B. rewrite removelast_len in B.
    pose proof (Wp_pos (length a - 1)).
    assert (P : 0 < nval (removelast a) + Wp (length a - 1) * last a 0) by nia.
    assert ((nval (removelast a) + Wp (length a - 1) * last a 0 =? 0) = false) as -> by (apply Z.eqb_neq; lia).
    unfold leading_zeros. assert ((last a 0 =? 0) = false) as -> by (apply Z.eqb_neq; auto).
    set (t := last a 0) in *. set (r := nval (removelast a)) in *.
    rewrite Wp_pow2 in *. set (m := 32 * Z.of_nat (length a - 1)) in *.
    assert (Z.log2 (r + 2 ^ m * t) = Z.log2 t + m).
    { apply Z.log2_unique; [pose proof (Z.log2_nonneg t); lia|].
      pose proof (Z.log2_spec t ltac:(lia)) as LS. pose proof (Z.log2_nonneg t).
      rewrite Z.add_succ_l || idtac.
      replace (Z.succ (Z.log2 t + m)) with (Z.succ (Z.log2 t) + m) by lia.
      rewrite !Z.pow_add_r by lia. nia. }
    rewrite H0. lia.
Qed.

Lemma bits_len_pos a : canon a -> 0 < nval a -> 2 ^ (bits_len a - 1) <= nval a < 2 ^ bits_len a.
Proof.
  intros Ha Hp. rewrite bits_len_spec by auto.
  assert ((nval a =? 0) = false) as -> by (apply Z.eqb_neq; lia).
  pose proof (Z.log2_spec (nval a) Hp). replace (Z.log2 (nval a) + 1 - 1) with (Z.log2 (nval a)) by lia.
  replace (Z.log2 (nval a) + 1) with (Z.succ (Z.log2 (nval a))) by lia. auto.
Qed.

Lemma bits_len_ge1 a : canon a -> 1 <= bits_len a.
Proof.
  intros. rewrite bits_len_spec by auto. pose proof (Z.log2_nonneg (nval a)).
  destruct (nval a =? 0); lia.
Qed.

Lemma bits_len_le a b : canon a -> canon b -> nval a <= nval b -> bits_len a <= bits_len b.
Proof.
  intros Ha Hb H. pose proof (canon_nonneg a Ha). rewrite !bits_len_spec by auto.
  pose proof (Z.log2_nonneg (nval b)). pose proof (Z.log2_le_mono _ _ H).
  destruct (Z.eqb_spec (nval a) 0), (Z.eqb_spec (nval b) 0); lia.
Qed.

(* ------------------------------------------------------------------ *)
(** * Division *)

Lemma u32_shl_of_Z sh : 0 <= sh -> u32_shl 1 sh = of_Z (2 ^ sh).
Proof.
  intros H. unfold u32_shl. pose proof (Z.mod_pos_bound sh 32 ltac:(lia)).
  rewrite Z.mul_1_l. assert (B : 0 < 2 ^ (sh mod 32) < W).
  { split; [apply pow2_pos; lia|]. change W with (2 ^ 32). apply Z.pow_lt_mono_r; lia. }
  rewrite (Z.mod_small (2 ^ (sh mod 32))) by lia.
  apply of_Z_unique.
  - apply canon_shift_words; [apply canon_single; lia|cbn [nval]; lia].
  - rewrite nval_app, nval_repeat0, repeat_length. cbn [nval].
    rewrite (shift_split sh H). ring.
Qed.

Lemma shl_of_Z n k : 0 < n -> 0 <= k -> shl_inner (of_Z n) k = of_Z (n * 2 ^ k).
Proof.
  intros. rewrite shl_inner_of_Z; rewrite ?of_Z_val; auto using of_Z_canon with zarith.
Qed.
Lemma shr1_of_Z n k : 0 <= n -> 0 <= k < 32 -> shr_inner (of_Z n) k = of_Z (n / 2 ^ k).
Proof.
  intros. rewrite shr_inner_lt32; rewrite ?of_Z_val; auto using of_Z_canon with zarith.
Qed.
Lemma cmp_of_Z m n : 0 <= m -> 0 <= n -> cmp_inner (of_Z m) (of_Z n) = (m ?= n).
Proof. intros. rewrite cmp_inner_spec, !of_Z_val; auto using of_Z_canon. Qed.
Lemma add_of_Z m n : 0 <= m -> 0 <= n -> add_inner (of_Z m) (of_Z n) = of_Z (m + n).
Proof. intros. rewrite add_inner_of_Z, !of_Z_val; auto using of_Z_canon. Qed.
Lemma sub_of_Z m n : 0 <= m -> 0 <= n -> sub_inner (of_Z m) (of_Z n) = of_Z (Z.abs (m - n)).
Proof. intros. rewrite sub_inner_of_Z, !of_Z_val; auto using of_Z_canon. Qed.
Lemma bits_len_of_Z n : 0 < n -> 2 ^ (bits_len (of_Z n) - 1) <= n < 2 ^ bits_len (of_Z n).
Proof.
  intros. pose proof (bits_len_pos (of_Z n)) as B. rewrite of_Z_val in B by lia.
  apply B; auto. apply of_Z_canon. lia.
Qed.
Lemma bits_len_of_Z_ge1 n : 0 <= n -> 1 <= bits_len (of_Z n).
Proof. intros. apply bits_len_ge1, of_Z_canon. auto. Qed.

Lemma bits_len_of_Z_eq n : 0 <= n -> bits_len (of_Z n) = if n =? 0 then 1 else Z.log2 n + 1.
Proof. intros. rewrite bits_len_spec, of_Z_val; auto using of_Z_canon. Qed.

(** The aligned divisor: d * 2^sh <= s < d * 2^(sh+1). *)
Lemma align_facts s d : 0 < d <= s ->
  let shift := bits_len (of_Z s) - bits_len (of_Z d) in
  0 <= shift /\ s < d * 2 ^ (shift + 1) /\
  (s < d * 2 ^ shift -> 0 < shift /\ d * 2 ^ (shift - 1) <= s).
Proof.
  intros H shift.
  assert (0 <= shift).
  { unfold shift. pose proof (bits_len_le (of_Z d) (of_Z s)) as L.
    rewrite !of_Z_val in L by lia. specialize (L (of_Z_canon d ltac:(lia)) (of_Z_canon s ltac:(lia))). lia. }
  pose proof (bits_len_of_Z s ltac:(lia)) as Bs. pose proof (bits_len_of_Z d ltac:(lia)) as Bd.
  pose proof (bits_len_of_Z_ge1 d ltac:(lia)) as B1.
  set (bd := bits_len (of_Z d)) in *. set (bs := bits_len (of_Z s)) in *.
  assert (E : 2 ^ bs = 2 ^ (bd - 1) * 2 ^ (shift + 1)).
  { rewrite <- Z.pow_add_r by lia. f_equal. unfold shift. lia. }
  split; [auto|]. split.
  - pose proof (pow2_pos (shift + 1) ltac:(lia)). nia.
  - intros Hlt. assert (0 < shift).
    { destruct (Z.eq_dec shift 0) as [E0|E0]; [|lia]. rewrite E0, Z.pow_0_r in Hlt. lia. }
    split; auto.
    assert (E2 : 2 ^ (bs - 1) = 2 ^ bd * 2 ^ (shift - 1)).
    { rewrite <- Z.pow_add_r by lia. f_equal. unfold shift. lia. }
    pose proof (pow2_pos (shift - 1) ltac:(lia)). nia.
Qed.

Lemma pow2_half d sh : 0 < sh -> d * 2 ^ sh / 2 ^ 1 = d * 2 ^ (sh - 1).
Proof.
  intros H. replace sh with (sh - 1 + 1) at 1 by lia. rewrite Z.pow_add_r by lia.
  rewrite Z.mul_assoc, Z.div_mul; auto. lia.
Qed.

Lemma div_adjust_spec s d : 0 < d <= s ->
  let shift := bits_len (of_Z s) - bits_len (of_Z d) in
  exists sh, 0 <= sh /\ d * 2 ^ sh <= s < d * 2 ^ (sh + 1) /\
    div_adjust (S (Z.to_nat shift)) (shl_inner (of_Z d) shift) (of_Z s) shift
      = Ok (of_Z (d * 2 ^ sh), sh).
Proof.
  intros H shift. destruct (align_facts s d H) as (A1 & A2 & A3). fold shift in A1, A2, A3.
  rewrite shl_of_Z by lia.
  pose proof (pow2_pos shift A1).
  destruct (Z.lt_ge_cases s (d * 2 ^ shift)) as [Hlt|Hge].
  - destruct (A3 Hlt) as [A4 A5]. exists (shift - 1).
    pose proof (pow2_pos (shift - 1) ltac:(lia)).
    split; [lia|]. split; [replace (shift - 1 + 1) with shift by lia; lia|].
    cbn [div_adjust]. rewrite cmp_of_Z by nia.
    assert ((d * 2 ^ shift ?= s) = Gt) as -> by (apply Z.compare_gt_iff; lia).
    assert ((shift <=? 0) = false) as -> by (apply Z.leb_gt; lia).
    rewrite shr1_of_Z by nia. rewrite pow2_half by lia.
    destruct (Z.to_nat shift) eqn:ES; [lia|]. cbn [div_adjust].
    rewrite cmp_of_Z by nia.
    destruct (Z.compare_spec (d * 2 ^ (shift - 1)) s); auto. lia.
  - exists shift. split; [lia|]. split; [lia|]. cbn [div_adjust].
    rewrite cmp_of_Z by nia.
    destruct (Z.compare_spec (d * 2 ^ shift) s); auto. lia.
Qed.

Lemma div_loop_spec d : 0 < d -> forall fuel s q, 0 <= s -> 0 <= q -> s < d * 2 ^ Z.of_nat fuel ->
  div_loop fuel (of_Z q) (of_Z s) (of_Z d) (bits_len (of_Z d)) = Ok (of_Z (q + s / d)).
Proof.
  intros Hd. induction fuel as [|f IH]; intros s q Hs Hq Hf; cbn [div_loop];
  rewrite cmp_of_Z by lia.
  - rewrite Z.pow_0_r in Hf. assert ((s ?= d) = Lt) as -> by (apply Z.compare_lt_iff; lia).
    rewrite Z.div_small, Z.add_0_r by lia. reflexivity.
  - assert (HC : s < d \/ d <= s) by lia. destruct HC as [HC|HC].
    + assert ((s ?= d) = Lt) as -> by (apply Z.compare_lt_iff; lia).
      rewrite Z.div_small, Z.add_0_r by lia. reflexivity.
    + assert (NL : forall A (x y : A), match s ?= d with Lt => x | _ => y end = y).
      { intros. destruct (Z.compare_spec s d); auto. lia. }
      rewrite NL. clear NL.
      destruct (align_facts s d ltac:(lia)) as (A1 & _ & _).
      assert ((bits_len (of_Z s) - bits_len (of_Z d) <? 0) = false) as -> by (apply Z.ltb_ge; lia).
      destruct (div_adjust_spec s d ltac:(lia)) as (sh & S1 & S2 & S3).
      rewrite S3. cbn [bind].
      pose proof (pow2_pos sh S1).
      rewrite u32_shl_of_Z, add_of_Z, sub_of_Z by nia.
      rewrite Z.abs_eq by lia.
      replace (2 ^ (sh + 1)) with (2 * 2 ^ sh) in S2 by (rewrite Z.pow_add_r by lia; lia).
      rewrite IH.
      * f_equal. f_equal. replace (s - d * 2 ^ sh) with (s + (- 2 ^ sh) * d) by ring.
        rewrite Z.div_add by lia. lia.
      * lia.
      * nia.
      * rewrite Nat2Z.inj_succ, Z.pow_succ_r in Hf by lia.
        (* sh <= f because d*2^sh <= s < d*2^(f+1) *)
        assert (2 ^ sh < 2 ^ (Z.of_nat f + 1)).
        { rewrite Z.pow_add_r by lia. change (2 ^ 1) with 2. nia. }
        assert (sh < Z.of_nat f + 1) by (apply (Z.pow_lt_mono_r_iff 2); lia).
        assert (2 ^ sh <= 2 ^ Z.of_nat f) by (apply Z.pow_le_mono_r; lia). nia.
Qed.

Lemma fuel_words a d : words_ok a -> 0 < d -> nval a < d * 2 ^ Z.of_nat (S (32 * length a)).
Proof.
  intros Wa Hd. pose proof (nval_bound a Wa) as B. rewrite Wp_pow2 in B. rewrite Nat2Z.inj_succ, Nat2Z.inj_mul, Z.pow_succ_r by lia. change (Z.of_nat 32) with 32.
  pose proof (pow2_pos (32 * Z.of_nat (length a)) ltac:(lia)). nia.
Qed.
Lemma div_inner_of_Z a b : canon a -> canon b -> 0 < nval b ->
  div_inner a b = Ok (of_Z (nval a / nval b)).
Proof.
  intros Ha Hb Hp. pose proof (canon_nonneg a Ha) as Na. unfold div_inner. rewrite trim_canon_id by auto. cbv zeta.
  rewrite nat_eq_u32_spec by (auto; lia).
  assert ((nval b =? 0) = false) as -> by (apply Z.eqb_neq; lia).
  rewrite cmp_inner_spec by auto.
  destruct (Z.compare_spec (nval a) (nval b)) as [E|E|E].
  - rewrite E. rewrite Z.div_same by lia.
    assert (a = b) as -> by (apply canon_inj; auto).
    rewrite Z.eqb_refl. reflexivity.
  - rewrite Z.div_small by lia. reflexivity.
  - destruct (Z.eqb_spec (bits_len a) (bits_len b)) as [EB|EB].
    + f_equal. assert (nval a / nval b = 1) as ->; [|reflexivity].
      symmetry. apply Z.div_unique with (nval a - nval b); [|lia]. left. pose proof (bits_len_pos a Ha ltac:(lia)) as B1. pose proof (bits_len_pos b Hb ltac:(lia)) as B2.
      rewrite EB in B1. pose proof (bits_len_ge1 b Hb).
      assert (2 ^ bits_len b = 2 * 2 ^ (bits_len b - 1)).
      { rewrite <- Z.pow_succ_r by lia. f_equal. lia. }
      lia.
    + pose proof (bits_len_ge1 a Ha).
      pose proof (div_loop_spec (nval b) Hp (S (32 * length a)) (nval a) 0 Na ltac:(lia)) as D.
      rewrite (of_Z_nval a Ha), (of_Z_nval b Hb) in D. change (of_Z 0) with [0] in D.
      rewrite D; [f_equal; f_equal; lia|]. apply fuel_words; auto using canon_words.
Qed.

Lemma rem_loop_spec d : 0 < d -> forall fuel s, 0 <= s -> s < d * 2 ^ Z.of_nat fuel ->
  rem_loop fuel (of_Z s) (of_Z d) (bits_len (of_Z d)) = Ok (of_Z (s mod d)).
Proof.
  intros Hd. induction fuel as [|f IH]; intros s Hs Hf; cbn [rem_loop]; rewrite cmp_of_Z by lia.
  - rewrite Z.pow_0_r in Hf. assert ((s ?= d) = Lt) as -> by (apply Z.compare_lt_iff; lia).
    rewrite Z.mod_small by lia. reflexivity.
  - assert (HC : s < d \/ d <= s) by lia. destruct HC as [HC|HC].
    + assert ((s ?= d) = Lt) as -> by (apply Z.compare_lt_iff; lia).
      rewrite Z.mod_small by lia. reflexivity.
    + assert (NL : forall A (x y : A), match s ?= d with Lt => x | _ => y end = y).
      { intros. destruct (Z.compare_spec s d); auto. lia. }
      rewrite NL. clear NL.
      destruct (align_facts s d ltac:(lia)) as (A1 & A2 & A3).
      set (shift := bits_len (of_Z s) - bits_len (of_Z d)) in *.
      assert ((shift <? 0) = false) as -> by (apply Z.ltb_ge; lia).
      rewrite shl_of_Z by lia. pose proof (pow2_pos shift A1).
      rewrite cmp_of_Z by nia.
      assert (HS : exists sh, 0 <= sh /\ d * 2 ^ sh <= s < d * 2 ^ (sh + 1) /\
        (match s ?= d * 2 ^ shift with
         | Lt => shr_inner (of_Z (d * 2 ^ shift)) 1 | _ => of_Z (d * 2 ^ shift) end) = of_Z (d * 2 ^ sh)).
      { destruct (Z.compare_spec s (d * 2 ^ shift)) as [E|E|E].
        - exists shift. split; [lia|]. split; [lia|]. reflexivity.
        - destruct (A3 E) as [A4 A5]. exists (shift - 1). split; [lia|]. split.
          + replace (shift - 1 + 1) with shift by lia. lia.
          + rewrite shr1_of_Z by nia. rewrite pow2_half by lia. reflexivity.
        - exists shift. split; [lia|]. split; [lia|]. reflexivity. }
      destruct HS as (sh & S1 & S2 & S3). rewrite S3.
      pose proof (pow2_pos sh S1).
      rewrite sub_of_Z by nia. rewrite Z.abs_eq by lia.
      replace (2 ^ (sh + 1)) with (2 * 2 ^ sh) in S2 by (rewrite Z.pow_add_r by lia; lia).
      rewrite IH.
      * f_equal. f_equal. replace (s - d * 2 ^ sh) with (s + (- 2 ^ sh) * d) by ring.
        apply Z.mod_add. lia.
      * lia.
      * rewrite Nat2Z.inj_succ, Z.pow_succ_r in Hf by lia.
        assert (2 ^ sh < 2 ^ (Z.of_nat f + 1)).
        { rewrite Z.pow_add_r by lia. change (2 ^ 1) with 2. nia. }
        assert (sh < Z.of_nat f + 1) by (apply (Z.pow_lt_mono_r_iff 2); lia).
        assert (2 ^ sh <= 2 ^ Z.of_nat f) by (apply Z.pow_le_mono_r; lia). nia.
Qed.

Lemma rem_inner_of_Z a b : canon a -> canon b -> 0 < nval b ->
  rem_inner a b = Ok (of_Z (nval a mod nval b)).
Proof.
  intros Ha Hb Hp. pose proof (canon_nonneg a Ha) as Na. unfold rem_inner.
  rewrite nat_eq_u32_spec by (auto; lia).
  assert ((nval b =? 0) = false) as -> by (apply Z.eqb_neq; lia).
  rewrite cmp_inner_spec by auto.
  assert (HC : nval a < nval b \/ nval b <= nval a) by lia. destruct HC as [HC|HC].
  - assert ((nval a ?= nval b) = Lt) as -> by (apply Z.compare_lt_iff; lia).
    rewrite Z.mod_small, of_Z_nval by auto. reflexivity.
  - assert (NL : forall A (x y : A), match nval a ?= nval b with Lt => x | _ => y end = y).
    { intros. destruct (Z.compare_spec (nval a) (nval b)); auto. lia. }
    rewrite NL. clear NL.
    pose proof (bits_len_ge1 a Ha).
    pose proof (rem_loop_spec (nval b) Hp (S (32 * length a)) (nval a) Na) as D.
    rewrite (of_Z_nval a Ha), (of_Z_nval b Hb) in D.
    rewrite D.
    + cbn [bind]. rewrite trim_canon_id; auto. apply of_Z_canon. apply Z.mod_pos_bound. lia.
    + apply fuel_words; auto using canon_words.
Qed.

(** Division by zero panics. *)
Lemma div_inner_zero a b : canon b -> nval b = 0 -> div_inner a b = Panic.
Proof.
  intros Hb E. unfold div_inner. cbv zeta. rewrite nat_eq_u32_spec by (auto; lia). rewrite E. reflexivity.
Qed.
Lemma rem_inner_zero a b : canon b -> nval b = 0 -> rem_inner a b = Panic.
Proof.
  intros Hb E. unfold rem_inner. rewrite nat_eq_u32_spec by (auto; lia). rewrite E. reflexivity.
Qed.

(* ------------------------------------------------------------------ *)
(** * Word operands *)

Lemma mul_basic_loop_spec w : 0 <= w < W -> forall a pre, words_ok a -> 0 <= pre < W ->
  nval (mul_basic_loop pre a w) = nval a * w + pre /\ words_ok (mul_basic_loop pre a w) /\
  length (mul_basic_loop pre a w) = S (length a).
Proof.
  intros Hw. induction a as [|x a IH]; intros pre Ha Hp; cbn [mul_basic_loop].
  - rewrite Z.gtb_ltb. assert ((W - 1 <? pre) = false) as -> by (apply Z.ltb_ge; lia).
    cbn [nval length]. split; [lia|]. split; [repeat constructor; lia|auto].
  - apply words_ok_cons in Ha as [Hx Ha].
    set (p := x * w). set (v := p mod W + pre).
    pose proof (Z.div_mod p W ltac:(lia)). pose proof (Z.mod_pos_bound p W ltac:(lia)).
    pose proof (Z.div_mod v W ltac:(lia)). pose proof (Z.mod_pos_bound v W ltac:(lia)).
    assert (0 <= p <= (W - 1) * (W - 1)) by (unfold p; nia).
    assert (0 <= p / W <= W - 2) by lia.
    assert (0 <= v / W <= 1) by lia.
    destruct (IH (v / W + p / W)) as (I1 & I2 & I3); [auto|lia|].
    rewrite !nval_cons, I1. split; [|split].
    + replace ((x + W * nval a) * w + pre) with (p + W * (nval a * w) + pre) by (unfold p; ring). lia.
    + apply words_ok_cons. split; auto; lia.
    + cbn [length]. lia.
Qed.

Lemma mul_basic_spec a w : words_ok a -> 0 <= w < W ->
  nval (mul_inner_basic a w) = nval a * w /\ words_ok (mul_inner_basic a w) /\
  length (mul_inner_basic a w) = S (length a).
Proof.
  intros Ha Hw. unfold mul_inner_basic. destruct (mul_basic_loop_spec w Hw a 0 Ha) as (E1 & E2 & E3); [lia|].
  split; [lia|]. auto.
Qed.

Lemma divw_loop_spec w : 0 < w < W -> forall a pre, words_ok a -> 0 <= pre < w ->
  let q := fst (divw_loop pre a w) in let r := snd (divw_loop pre a w) in
  bval q * w + r = pre * Wp (length a) + bval a /\ words_ok q /\ length q = length a /\ 0 <= r < w.
Proof.
  intros Hw. induction a as [|x a IH]; intros pre Ha Hp q r; subst q r; cbn [divw_loop].
  - cbn [fst snd bval length]. change (Wp 0) with 1. split; [lia|]. split; [constructor|]. split; [auto|lia].
  - apply words_ok_cons in Ha as [Hx Ha].
    set (v := pre * W + x).
    pose proof (Z.div_mod v w ltac:(lia)) as DM. pose proof (Z.mod_pos_bound v w ltac:(lia)) as MB.
    specialize (IH (v mod w) Ha MB). cbv zeta in IH.
    destruct (divw_loop (v mod w) a w) as [q r]. cbn [fst snd] in *.
    destruct IH as (I1 & I2 & I3 & I4).
    assert (B : 0 <= v / w < W).
    { split; [apply Z.div_pos; lia|]. apply Z.div_lt_upper_bound; [lia|]. unfold v. nia. }
    rewrite (Z.mod_small (v / w)) by lia.
    cbn [bval length]. rewrite I3. split; [|split; [apply words_ok_cons; auto|split; [lia|auto]]].
    rewrite Wp_S. unfold v in *. nia.
Qed.

Lemma div_basic_words a w : words_ok a -> a <> [] -> 0 < w < W -> div_inner_basic a w = Ok (of_Z (nval a / w)).
Proof.
  intros Wa Ha Hw. pose proof (nval_nonneg a Wa) as Na.
  unfold div_inner_basic. assert ((w =? 0) = false) as -> by (apply Z.eqb_neq; lia).
  destruct a as [|x [|y l]].
  - congruence.
  - apply words_ok_cons in Wa as [Hx _]. cbn [nval]. rewrite Z.mul_0_r, Z.add_0_r. f_equal.
    symmetry. apply of_Z_small. split; [apply Z.div_pos; lia|]. apply Z.div_lt_upper_bound; nia.
  - set (a := x :: y :: l) in *. f_equal.
    pose proof (divw_loop_spec w Hw (rev a) 0 (words_ok_rev a Wa) ltac:(lia)) as S. cbv zeta in S.
    destruct (divw_loop 0 (rev a) w) as [q r]. cbn [fst snd] in *. destruct S as (S1 & S2 & S3 & S4).
    assert (Hq : rev q <> []).
    { intros E. apply (f_equal (@length Z)) in E. rewrite rev_length, S3, rev_length in E. cbn in E. lia. }
    rewrite trim_of_Z by (auto using words_ok_rev).
    rewrite nval_rev_bval. rewrite <- (nval_rev_bval (rev a)), rev_involutive in S1.
    f_equal. apply Z.div_unique with r; [lia|lia].
Qed.

Lemma div_basic_of_Z a w : canon a -> 0 < w < W -> div_inner_basic a w = Ok (of_Z (nval a / w)).
Proof. intros Ha. apply div_basic_words; auto using canon_words, canon_nonnil. Qed.

Lemma rem_basic_words a w : words_ok a -> a <> [] -> 0 < w < W -> rem_inner_basic a w = Ok (of_Z (nval a mod w)).
Proof.
  intros Wa Ha Hw. pose proof (nval_nonneg a Wa) as Na.
  pose proof (Z.mod_pos_bound (nval a) w ltac:(lia)) as MB.
  unfold rem_inner_basic. assert ((w =? 0) = false) as -> by (apply Z.eqb_neq; lia).
  rewrite of_Z_small by lia.
  destruct a as [|x [|y l]].
  - congruence.
  - cbn [nval]. rewrite Z.mul_0_r, Z.add_0_r. reflexivity.
  - set (a := x :: y :: l) in *. f_equal. f_equal.
    pose proof (divw_loop_spec w Hw (rev a) 0 (words_ok_rev a Wa) ltac:(lia)) as S. cbv zeta in S.
    destruct (divw_loop 0 (rev a) w) as [q r]. cbn [fst snd] in *. destruct S as (S1 & S2 & S3 & S4).
    rewrite <- (nval_rev_bval (rev a)), rev_involutive in S1.
    rewrite Z.mod_small by lia. apply Z.mod_unique with (bval q); lia.
Qed.
Lemma rem_basic_of_Z a w : canon a -> 0 < w < W -> rem_inner_basic a w = Ok (of_Z (nval a mod w)).
Proof. intros Ha. apply rem_basic_words; auto using canon_words, canon_nonnil. Qed.
