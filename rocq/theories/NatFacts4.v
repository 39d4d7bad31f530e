(** Proofs about the bit operators. *)
From Coq Require Import ZArith List Lia Bool.
From Verif Require Import Words WordsFacts NatModel NatFacts NatFacts2 NatFacts3.
Import ListNotations.
Open Scope Z_scope.

Lemma testbit_cons x n i : 0 <= x < W -> 0 <= i ->
  Z.testbit (x + W * n) i = if i <? 32 then Z.testbit x i else Z.testbit n (i - 32).
Proof.
  intros Hx Hi. rewrite Z.add_comm, Z.mul_comm. change W with (2 ^ 32).
  rewrite <- lor_shift_add by (change (2 ^ 32) with W; lia).
  rewrite Z.lor_spec. destruct (Z.ltb_spec i 32).
  - rewrite Z.mul_pow2_bits_low by lia. reflexivity.
  - rewrite Z.mul_pow2_bits by lia.
    rewrite (testbit_small x 32) by (change (2 ^ 32) with W; lia). apply orb_false_r.
Qed.

Lemma testbit_nval l : words_ok l -> forall i, 0 <= i ->
  Z.testbit (nval l) i = Z.testbit (nth (Z.to_nat (i / 32)) l 0) (i mod 32).
Proof.
  induction l as [|x l IH]; intros H i Hi.
  - cbn [nval]. rewrite Z.bits_0. destruct (Z.to_nat (i / 32)); cbn; rewrite Z.bits_0; auto.
  - apply words_ok_cons in H as [Hx Hl]. rewrite nval_cons, testbit_cons by auto.
    destruct (Z.ltb_spec i 32).
    + rewrite Z.div_small, Z.mod_small by lia. reflexivity.
    + rewrite IH by (auto; lia).
      assert (E : i = (i - 32) + 1 * 32) by lia.
      rewrite E at 3 4. rewrite Z.div_add, Z.mod_add by lia.
      assert (0 <= (i - 32) / 32) by (apply Z.div_pos; lia).
      rewrite Z2Nat.inj_add by lia. change (Z.to_nat 1) with 1%nat. rewrite Nat.add_1_r. reflexivity.
Qed.

Lemma word_op_bound op x y :
  (forall a b i, Z.testbit (op a b) i = Z.testbit (op a b) i) ->
  0 <= x < W -> 0 <= y < W -> 0 <= op x y ->
  (forall i, 32 <= i -> Z.testbit (op x y) i = false) -> 0 <= op x y < W.
Proof.
  intros _ Hx Hy Hn Hb. split; auto. destruct (Z.eq_dec (op x y) 0) as [->|E]; [lia|].
  change W with (2 ^ 32). apply Z.log2_lt_pow2; [lia|].
  destruct (Z.lt_ge_cases (Z.log2 (op x y)) 32); auto.
  pose proof (Z.bit_log2 (op x y) ltac:(lia)) as B. rewrite Hb in B by auto. discriminate.
Qed.

Lemma word_high x i : 0 <= x < W -> 32 <= i -> Z.testbit x i = false.
Proof. intros. apply (testbit_small x 32); auto. Qed.

Lemma land_word x y : 0 <= x < W -> 0 <= y < W -> 0 <= Z.land x y < W.
Proof.
  intros Hx Hy. apply word_op_bound; auto.
  - apply Z.land_nonneg. lia.
  - intros. rewrite Z.land_spec, (word_high x) by auto. reflexivity.
Qed.
Lemma lor_word x y : 0 <= x < W -> 0 <= y < W -> 0 <= Z.lor x y < W.
Proof.
  intros Hx Hy. apply word_op_bound; auto.
  - apply Z.lor_nonneg. lia.
  - intros. rewrite Z.lor_spec, (word_high x), (word_high y) by auto. reflexivity.
Qed.
Lemma lxor_word x y : 0 <= x < W -> 0 <= y < W -> 0 <= Z.lxor x y < W.
Proof.
  intros Hx Hy. apply word_op_bound; auto.
  - apply Z.lxor_nonneg. lia.
  - intros. rewrite Z.lxor_spec, (word_high x), (word_high y) by auto. reflexivity.
Qed.

Lemma wnot_ldiff y : 0 <= y < W -> wnot y = Z.ldiff (Z.ones 32) y.
Proof.
  intros Hy. unfold wnot. change (W - 1) with (Z.ones 32). apply Z.sub_nocarry_ldiff.
  apply Z.bits_inj'. intros i Hi. rewrite Z.ldiff_spec, Z.bits_0.
  destruct (Z.lt_ge_cases i 32).
  - rewrite Z.ones_spec_low by lia. apply andb_false_r.
  - rewrite (word_high y) by auto. reflexivity.
Qed.

Lemma wnot_word y : 0 <= y < W -> 0 <= wnot y < W.
Proof. unfold wnot. lia. Qed.

Lemma land_wnot x y : 0 <= x < W -> 0 <= y < W -> Z.land x (wnot y) = Z.ldiff x y.
Proof.
  intros Hx Hy. rewrite wnot_ldiff by auto. apply Z.bits_inj'. intros i Hi.
  rewrite Z.land_spec, !Z.ldiff_spec. destruct (Z.lt_ge_cases i 32).
  - rewrite Z.ones_spec_low by lia. reflexivity.
  - rewrite (word_high x) by auto. reflexivity.
Qed.

Lemma ldiff_word x y : 0 <= x < W -> 0 <= y < W -> 0 <= Z.ldiff x y < W.
Proof. intros. rewrite <- land_wnot by auto. apply land_word; auto using wnot_word. Qed.

(** word-by-word operators extend to values *)
Lemma op_cons (op : Z -> Z -> Z) (bop : bool -> bool -> bool) x a y b :
  (forall m n i, Z.testbit (op m n) i = bop (Z.testbit m i) (Z.testbit n i)) ->
  0 <= x < W -> 0 <= y < W -> 0 <= op x y < W ->
  op (x + W * a) (y + W * b) = op x y + W * op a b.
Proof.
  intros H Hx Hy Ho. apply Z.bits_inj'. intros i Hi.
  rewrite H, !testbit_cons by auto. destruct (i <? 32); rewrite H; reflexivity.
Qed.

Lemma land_cons x a y b : 0 <= x < W -> 0 <= y < W ->
  Z.land (x + W * a) (y + W * b) = Z.land x y + W * Z.land a b.
Proof. intros. apply (op_cons Z.land andb); auto using Z.land_spec, land_word. Qed.
Lemma lor_cons x a y b : 0 <= x < W -> 0 <= y < W ->
  Z.lor (x + W * a) (y + W * b) = Z.lor x y + W * Z.lor a b.
Proof. intros. apply (op_cons Z.lor orb); auto using Z.lor_spec, lor_word. Qed.
Lemma lxor_cons x a y b : 0 <= x < W -> 0 <= y < W ->
  Z.lxor (x + W * a) (y + W * b) = Z.lxor x y + W * Z.lxor a b.
Proof. intros. apply (op_cons Z.lxor xorb); auto using Z.lxor_spec, lxor_word. Qed.
Lemma ldiff_cons x a y b : 0 <= x < W -> 0 <= y < W ->
  Z.ldiff (x + W * a) (y + W * b) = Z.ldiff x y + W * Z.ldiff a b.
Proof.
  intros. apply (op_cons Z.ldiff (fun p q => p && negb q)); auto using ldiff_word.
  intros. apply Z.ldiff_spec.
Qed.

Lemma zip_land a : forall b, words_ok a -> words_ok b ->
  let r := firstn (Nat.min (length (zip_with Z.land a b)) (length b)) (zip_with Z.land a b) in
  nval r = Z.land (nval a) (nval b) /\ words_ok r.
Proof.
  induction a as [|x a IH]; intros [|y b] Ha Hb r; subst r; cbn [zip_with].
  - split; [reflexivity|constructor].
  - cbn. split; [reflexivity|constructor].
  - cbn [length]. rewrite Nat.min_0_r. cbn [firstn nval]. rewrite Z.land_0_r. split; [auto|constructor].
  - apply words_ok_cons in Ha as [Hx Ha]. apply words_ok_cons in Hb as [Hy Hb].
    cbn [length Nat.min firstn]. destruct (IH b Ha Hb) as [E1 E2].
    rewrite !nval_cons, E1, land_cons by auto. split; auto.
    apply words_ok_cons. split; auto using land_word.
Qed.

Lemma zip_lor a : forall b, words_ok a -> words_ok b ->
  let r := zip_with Z.lor a b ++ skipn (length a) b in
  nval r = Z.lor (nval a) (nval b) /\ words_ok r /\ length r = Nat.max (length a) (length b).
Proof.
  induction a as [|x a IH]; intros [|y b] Ha Hb r; subst r; cbn [zip_with app length skipn].
  - split; [reflexivity|]. split; [constructor|auto].
  - cbn [nval]. rewrite Z.lor_0_l. auto.
  - rewrite app_nil_r. change (nval []) with 0. rewrite Z.lor_0_r. auto.
  - apply words_ok_cons in Ha as [Hx Ha]. apply words_ok_cons in Hb as [Hy Hb].
    destruct (IH b Ha Hb) as (E1 & E2 & E3).
    rewrite !nval_cons, E1, lor_cons by auto. split; auto.
    split; [apply words_ok_cons; split; auto using lor_word|]. cbn [length Nat.max] in *. lia.
Qed.

Lemma zip_lxor a : forall b, words_ok a -> words_ok b ->
  let r := zip_with Z.lxor a b ++ skipn (length a) b in
  nval r = Z.lxor (nval a) (nval b) /\ words_ok r /\ length r = Nat.max (length a) (length b).
Proof.
  induction a as [|x a IH]; intros [|y b] Ha Hb r; subst r; cbn [zip_with app length skipn].
  - split; [reflexivity|]. split; [constructor|auto].
  - cbn [nval]. rewrite Z.lxor_0_l. auto.
  - rewrite app_nil_r. change (nval []) with 0. rewrite Z.lxor_0_r. auto.
  - apply words_ok_cons in Ha as [Hx Ha]. apply words_ok_cons in Hb as [Hy Hb].
    destruct (IH b Ha Hb) as (E1 & E2 & E3).
    rewrite !nval_cons, E1, lxor_cons by auto. split; auto.
    split; [apply words_ok_cons; split; auto using lxor_word|]. cbn [length Nat.max] in *. lia.
Qed.

Lemma zip_ldiff a : forall b, words_ok a -> words_ok b ->
  let r := zip_with (fun x y => Z.land x (wnot y)) a b in
  nval r = Z.ldiff (nval a) (nval b) /\ words_ok r /\ length r = length a.
Proof.
  induction a as [|x a IH]; intros [|y b] Ha Hb r; subst r; cbn [zip_with].
  - split; [reflexivity|]. split; [constructor|auto].
  - cbn [nval]. rewrite Z.ldiff_0_l. auto.
  - change (nval []) with 0. rewrite Z.ldiff_0_r. auto.
  - apply words_ok_cons in Ha as [Hx Ha]. apply words_ok_cons in Hb as [Hy Hb].
    destruct (IH b Ha Hb) as (E1 & E2 & E3).
    rewrite !nval_cons, E1, ldiff_cons, land_wnot by auto. split; auto.
    split; [apply words_ok_cons; split; auto using ldiff_word|]. cbn [length]. lia.
Qed.

Lemma lor_ge_l a b : 0 <= a -> 0 <= b -> a <= Z.lor a b.
Proof.
  intros Ha Hb. assert (E : Z.lor a b = a + Z.ldiff b a).
  { assert (L : Z.land a (Z.ldiff b a) = 0).
    { apply Z.bits_inj'. intros i _. rewrite Z.land_spec, Z.ldiff_spec, Z.bits_0.
      destruct (Z.testbit a i), (Z.testbit b i); reflexivity. }
    rewrite Z.add_nocarry_lxor by exact L. rewrite Z.lxor_lor by exact L.
    apply Z.bits_inj'. intros i _. rewrite !Z.lor_spec, Z.ldiff_spec.
    destruct (Z.testbit a i), (Z.testbit b i); reflexivity. }
  rewrite E. assert (0 <= Z.ldiff b a) by (apply Z.ldiff_nonneg; lia). lia.
Qed.

Lemma bitand_of_Z a b : canon a -> canon b -> bitand_inner a b = of_Z (Z.land (nval a) (nval b)).
Proof.
  intros Ha Hb. unfold bitand_inner.
  destruct (zip_land a b (canon_words a Ha) (canon_words b Hb)) as [E1 E2].
  rewrite trim_of_Z, E1; auto.
  pose proof (canon_nonnil a Ha). pose proof (canon_nonnil b Hb).
  destruct a, b; try congruence. discriminate.
Qed.

Lemma bitor_of_Z a b : canon a -> canon b -> bitor_inner a b = of_Z (Z.lor (nval a) (nval b)).
Proof.
  intros Ha Hb. unfold bitor_inner.
  destruct (zip_lor a b (canon_words a Ha) (canon_words b Hb)) as (E1 & E2 & E3).
  pose proof (canon_len_pos a Ha). pose proof (canon_len_pos b Hb).
  pose proof (canon_nonneg a Ha). pose proof (canon_nonneg b Hb).
  apply of_Z_unique; auto. apply canon_intro; auto.
  - intros E. rewrite E in E3. cbn in E3. lia.
  - rewrite E3, E1. intros L.
    pose proof (lor_ge_l (nval a) (nval b)). pose proof (lor_ge_l (nval b) (nval a)) as L2.
    rewrite (Z.lor_comm (nval b)) in L2.
    destruct (Nat.max_spec (length a) (length b)) as [[M1 M2]|[M1 M2]]; rewrite M2 in *.
    + pose proof (canon_lower b Hb). lia.
    + pose proof (canon_lower a Ha). lia.
Qed.

Lemma bitxor_of_Z a b : canon a -> canon b -> bitxor_inner a b = of_Z (Z.lxor (nval a) (nval b)).
Proof.
  intros Ha Hb. unfold bitxor_inner.
  destruct (zip_lxor a b (canon_words a Ha) (canon_words b Hb)) as (E1 & E2 & E3).
  rewrite trim_of_Z, E1; auto.
  intros E. rewrite E in E3. cbn in E3. pose proof (canon_len_pos a Ha). lia.
Qed.

Lemma and_not_of_Z a b : canon a -> canon b -> and_not a b = of_Z (Z.ldiff (nval a) (nval b)).
Proof.
  intros Ha Hb. unfold and_not.
  destruct (zip_ldiff a b (canon_words a Ha) (canon_words b Hb)) as (E1 & E2 & E3).
  rewrite trim_of_Z, E1; auto.
  intros E. rewrite E in E3. cbn in E3. pose proof (canon_len_pos a Ha). lia.
Qed.

(** complement *)
Lemma nval_map_wnot l : nval (map wnot l) = Wp (length l) - 1 - nval l.
Proof.
  induction l as [|x l IH]; [reflexivity|].
  cbn [map length]. rewrite !nval_cons, IH, Wp_S. unfold wnot. ring.
Qed.
Lemma words_map_wnot l : words_ok l -> words_ok (map wnot l).
Proof.
  unfold words_ok. rewrite Forall_map. apply Forall_impl. intros. apply wnot_word. auto.
Qed.

Lemma map_removelast (f : Z -> Z) l : map f (removelast l) = removelast (map f l).
Proof.
  induction l as [|x [|y l] IH]; [reflexivity..|].
  change (removelast (x :: y :: l)) with (x :: removelast (y :: l)).
  cbn [map] in *. rewrite IH. reflexivity.
Qed.

Lemma last_map (f : Z -> Z) l d : l <> [] -> last (map f l) d = f (last l d).
Proof.
  induction l as [|x [|y l] IH]; intros H; [congruence|reflexivity|].
  change (last (map f (x :: y :: l)) d) with (last (map f (y :: l)) d).
  change (last (x :: y :: l) d) with (last (y :: l) d). apply IH. discriminate.
Qed.

Lemma bits_len_nonnil a : a <> [] -> bits_len a =
  (if last a 0 =? 0 then if (length a =? 1)%nat then 1 else (Z.of_nat (length a) - 1) * 32
   else (32 - leading_zeros (last a 0)) + (Z.of_nat (length a) - 1) * 32).
Proof. destruct a; [congruence|reflexivity]. Qed.

Lemma not_of_Z a : canon a -> not_inner a = of_Z (2 ^ bits_len a - 1 - nval a).
Proof.
  intros Ha. unfold not_inner. pose proof (canon_words a Ha) as Wa.
  pose proof (canon_nonnil a Ha) as Hn. pose proof (canon_len_pos a Ha) as HL.
  assert (NN : map wnot a <> []) by (destruct a; [congruence|discriminate]).
  assert (HS : set_last (map wnot a) (Z.land (last (map wnot a) 0) (2 ^ (bits_len a mod 32) - 1))
     = map wnot (removelast a) ++ [Z.land (wnot (last a 0)) (2 ^ (bits_len a mod 32) - 1)]).
  { unfold set_last. destruct (map wnot a) eqn:E; [congruence|]. rewrite <- E.
    rewrite map_removelast, last_map by auto. reflexivity. }
  rewrite HS. set (t := last a 0) in *.
  pose proof (words_ok_last a Wa) as Ht. fold t in Ht.
  pose proof (nval_last a Hn) as VL. fold t in VL.
  (* bit length in terms of the top word *)
  assert (BL : exists m, 1 <= m <= 32 /\ t < 2 ^ m /\ bits_len a = m + 32 * (Z.of_nat (length a) - 1)).
  { rewrite bits_len_nonnil by auto. fold t.
    destruct (Z.eqb_spec t 0) as [E|E].
    - destruct Ha as (_ & _ & [H|H]); [|exfalso; apply H; exact E]. rewrite H. cbn [Nat.eqb].
      exists 1. rewrite E. cbn. lia.
    - exists (Z.log2 t + 1). pose proof (Z.log2_spec t ltac:(lia)). pose proof (Z.log2_nonneg t).
      assert (Z.log2 t < 32) by (apply Z.log2_lt_pow2; [lia|change (2 ^ 32) with W; lia]).
      unfold leading_zeros. assert ((t =? 0) = false) as -> by (apply Z.eqb_neq; auto).
      replace (Z.log2 t + 1) with (Z.succ (Z.log2 t)) by lia. split; [lia|]. split; [lia|lia]. }
  destruct BL as (m & Hm & Htm & BL).
  assert (P2 : 2 ^ bits_len a = Wp (length a - 1) * 2 ^ m).
  { rewrite BL, Z.pow_add_r by lia. rewrite Wp_pow2. rewrite Z.mul_comm. f_equal. f_equal. lia. }
  assert (MM : bits_len a mod 32 = m mod 32).
  { rewrite BL, (Z.mul_comm 32), Z.mod_add by lia. reflexivity. }
  rewrite MM. rewrite Z.gtb_ltb.
  pose proof (Wp_pos (length a - 1)).
  destruct (Z.eq_dec m 32) as [->|Hm32].
  - change (32 mod 32) with 0. cbn [Z.ltb Z.compare].
    rewrite trim_of_Z by auto using words_map_wnot. f_equal.
    rewrite nval_map_wnot, P2. change (2 ^ 32) with W.
    replace (length a) with (S (length a - 1)) at 1 by lia. rewrite Wp_S. lia.
  - rewrite (Z.mod_small m) by lia. assert ((0 <? m) = true) as -> by (apply Z.ltb_lt; lia).
    replace (2 ^ m - 1) with (Z.ones m) by (rewrite Z.ones_equiv; lia).
    rewrite Z.land_ones by lia.
    assert (EW : wnot t mod 2 ^ m = 2 ^ m - 1 - t).
    { unfold wnot. rewrite (pow2_split m) by lia.
      replace (2 ^ (32 - m) * 2 ^ m - 1 - t) with ((2 ^ m - 1 - t) + (2 ^ (32 - m) - 1) * 2 ^ m) by ring.
      pose proof (pow2_pos m ltac:(lia)). rewrite Z.mod_add by lia. apply Z.mod_small. lia. }
    rewrite EW. pose proof (pow2_pos m ltac:(lia)).
    assert (2 ^ m < W) by (change W with (2 ^ 32); apply Z.pow_lt_mono_r; lia).
    rewrite trim_of_Z.
    + f_equal. rewrite nval_app, nval_map_wnot, map_length, removelast_len, P2, VL. cbn [nval]. ring.
    + apply words_ok_app. split; [apply words_map_wnot, words_ok_removelast; auto|].
      repeat constructor; lia.
    + destruct (map wnot (removelast a)); discriminate.
Qed.

(** single bits *)
Lemma land_pow2_testbit x i : 0 <= i -> negb (Z.land x (2 ^ i) =? 0) = Z.testbit x i.
Proof.
  intros Hi. destruct (Z.testbit x i) eqn:E.
  - apply negb_true_iff, Z.eqb_neq. intros H. assert (T : Z.testbit (Z.land x (2 ^ i)) i = false) by (rewrite H; apply Z.bits_0).
    rewrite Z.land_spec, E, Z.pow2_bits_true in T by auto. discriminate.
  - apply negb_false_iff, Z.eqb_eq. apply Z.bits_inj'. intros j Hj. rewrite Z.land_spec, Z.bits_0.
    destruct (Z.eq_dec i j) as [->|N]; [rewrite E; reflexivity|].
    rewrite (Z.pow2_bits_false i j) by auto. apply andb_false_r.
Qed.

Lemma is_set_bit__spec a i : words_ok a -> 0 <= i < 32 * Z.of_nat (length a) ->
  is_set_bit_ a i = Ok (Z.testbit (nval a) i).
Proof.
  intros Ha Hi. unfold is_set_bit_.
  assert (0 <= i / 32 < Z.of_nat (length a)).
  { split; [apply Z.div_pos; lia|]. apply Z.div_lt_upper_bound; lia. }
  destruct (nth_error a (Z.to_nat (i / 32))) as [x|] eqn:E.
  - rewrite testbit_nval by (auto; lia). apply nth_error_nth with (d := 0) in E. rewrite E.
    pose proof (Z.mod_pos_bound i 32 ltac:(lia)). rewrite land_pow2_testbit by lia. reflexivity.
  - apply nth_error_None in E. lia.
Qed.

Lemma bits_len_le_words a : canon a -> bits_len a <= 32 * Z.of_nat (length a).
Proof.
  intros Ha. rewrite bits_len_spec by auto. pose proof (canon_len_pos a Ha).
  destruct (Z.eqb_spec (nval a) 0); [lia|].
  pose proof (nval_bound a (canon_words a Ha)) as B. rewrite Wp_pow2 in B.
  assert (Z.log2 (nval a) < 32 * Z.of_nat (length a)); [|lia].
  apply Z.log2_lt_pow2; lia.
Qed.

Lemma is_set_bit_spec a i : canon a -> 0 <= i ->
  is_set_bit a i = Ok (if bits_len a <=? i then None else Some (Z.testbit (nval a) i)).
Proof.
  intros Ha Hi. unfold is_set_bit. destruct (Z.leb_spec (bits_len a) i); [reflexivity|].
  pose proof (bits_len_le_words a Ha).
  rewrite is_set_bit__spec by (auto using canon_words; lia). reflexivity.
Qed.
