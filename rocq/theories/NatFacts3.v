(** Proofs about multiplication (AVX2 column sums). *)
From Coq Require Import ZArith List Lia Bool.
From Verif Require Import Words WordsFacts NatModel NatFacts NatFacts2.
Import ListNotations.
Open Scope Z_scope.

Notation W2 := 18446744073709551616 (only parsing).

(** sum of column [i] and the weighted sum of the columns from [i] on *)
Fixpoint colsum (i : nat) (rows : list (list Z)) : Z :=
  match rows with
  | [] => 0
  | y :: rows' => nth i y 0 + colsum i rows'
  end.
Fixpoint tailsum (i : nat) (rows : list (list Z)) : Z :=
  match rows with
  | [] => 0
  | y :: rows' => nval (skipn i y) + tailsum i rows'
  end.

Lemma tailsum_step i n rows : (i < n)%nat -> Forall (fun y => length y = n) rows ->
  tailsum i rows = colsum i rows + W * tailsum (S i) rows.
Proof.
  intros Hi. induction 1 as [|y rows Hy H IH]; [reflexivity|].
  cbn [tailsum colsum]. rewrite IH, (skipn_cons_nth i y) by lia. rewrite nval_cons. ring.
Qed.

Lemma tailsum_end n rows : Forall (fun y => length y = n) rows -> tailsum n rows = 0.
Proof.
  induction 1 as [|y rows Hy H IH]; [reflexivity|].
  cbn [tailsum]. rewrite IH, skipn_all2 by lia. reflexivity.
Qed.

Lemma colsum_map i rows : colsum i rows = fold_right Z.add 0 (map (fun y => nth i y 0) rows).
Proof. induction rows; cbn; auto. rewrite IHrows. auto. Qed.

Lemma col_sum_spec ys : forall c out, Forall (fun y => 0 <= y) ys -> 0 <= out -> 0 <= c ->
  let r := col_sum c out ys in
  0 <= snd r /\ (out < W2 \/ ys <> [] -> snd r < W2) /\ c <= fst r /\
  fst r * W2 + snd r = c * W2 + out + fold_right Z.add 0 ys.
Proof.
  induction ys as [|y ys IH]; intros c out Hy Ho Hc r; subst r; cbn [col_sum].
  - cbn [fst snd fold_right]. split; [lia|]. split; [intros [H|H]; [auto|congruence]|]. lia.
  - inversion Hy as [|? ? Hy0 Hys]; subst.
    pose proof (Z.div_mod (out + y) W2 ltac:(lia)). pose proof (Z.mod_pos_bound (out + y) W2 ltac:(lia)).
    assert (0 <= (out + y) / W2) by lia.
    specialize (IH (c + (out + y) / W2) ((out + y) mod W2) Hys ltac:(lia) ltac:(lia)). cbv zeta in IH.
    cbn [fold_right]. split; [lia|]. split; [intros; apply IH; lia|]. lia.
Qed.

(** bound on the carry count when every addend is a u64 *)
Lemma col_sum_carry ys : forall c out, Forall (fun y => 0 <= y < W2) ys -> 0 <= out < W2 -> 0 <= c ->
  0 <= snd (col_sum c out ys) < W2 /\ c <= fst (col_sum c out ys) <= c + Z.of_nat (length ys).
Proof.
  induction ys as [|y ys IH]; intros c out Hy Ho Hc; cbn [col_sum].
  - cbn [fst snd length]. lia.
  - inversion Hy as [|? ? Hy0 Hys]; subst.
    pose proof (Z.div_mod (out + y) W2 ltac:(lia)). pose proof (Z.mod_pos_bound (out + y) W2 ltac:(lia)).
    assert (0 <= (out + y) / W2 <= 1) by lia.
    specialize (IH (c + (out + y) / W2) ((out + y) mod W2) Hys ltac:(lia) ltac:(lia)).
    cbn [length]. lia.
Qed.

Lemma lor_W_add c o : 0 <= o < W -> Z.lor o (c * W) = c * W + o.
Proof.
  intros H. rewrite Z.lor_comm. change (c * W) with (c * 2 ^ 32). apply lor_shift_add; [lia|].
  change (2 ^ 32) with W. exact H.
Qed.

Lemma mul_cols_spec n : forall i pre rows, rows <> [] ->
  Forall (fun y => length y = (i + n)%nat) rows ->
  Forall (fun y => Forall (fun z => 0 <= z < W2) y) rows ->
  0 <= pre ->
  pre + tailsum i rows < Wp (S n) ->
  nval (mul_cols shl_exact n i pre rows) = pre + tailsum i rows /\
  words_ok (mul_cols shl_exact n i pre rows) /\
  (n <= length (mul_cols shl_exact n i pre rows))%nat.
Proof.
  induction n as [|n IH]; intros i pre rows HN HL HB HP HT; cbn [mul_cols].
  - rewrite Nat.add_0_r in HL. rewrite tailsum_end in * by auto.
    change (Wp 1) with W in HT. rewrite Z.add_0_r in *. rewrite Z.gtb_ltb.
    destruct (Z.ltb_spec 0 pre); cbn [nval].
    + rewrite Z.mod_small by lia. split; [lia|]. split; [repeat constructor; lia|lia].
    + split; [lia|]. split; [constructor|lia].
  - assert (HL' : Forall (fun y => length y = (S i + n)%nat) rows).
    { revert HL. apply Forall_impl. intros. lia. }
    rewrite (tailsum_step i (i + S n)) in * by (auto; lia).
    assert (HC : Forall (fun y => 0 <= y) (map (fun y => nth i y 0) rows)).
    { apply Forall_map. rewrite Forall_forall in *. intros y Hy. specialize (HB y Hy).
      rewrite Forall_forall in HB. apply HB. apply nth_In. rewrite (HL y Hy). lia. }
    pose proof (col_sum_spec _ 0 pre HC HP ltac:(lia)) as S. cbv zeta in S.
    rewrite <- colsum_map in S.
    destruct (col_sum 0 pre (map (fun y => nth i y 0) rows)) as [c out]. cbn [fst snd] in S.
    destruct S as (S0 & S1 & S2 & S3).
    assert (Ho' : out < W2). { apply S1. right. destruct rows; [congruence|discriminate]. }
    assert (Ho : 0 <= out / W < W) by (split; [apply Z.div_pos; lia|apply Z.div_lt_upper_bound; lia]).
    assert (EL : Z.lor (out / W) (shl_exact c) = c * W + out / W) by (unfold shl_exact; apply lor_W_add; lia).
    rewrite EL. clear EL.
    pose proof (Z.div_mod out W ltac:(lia)). pose proof (Z.mod_pos_bound out W ltac:(lia)).
    destruct (IH (S i) (c * W + out / W) rows) as (I1 & I2 & I3); [auto|auto|auto|lia| |].
    { rewrite (Wp_S (S n)) in HT. nia. }
    rewrite nval_cons, I1. split; [lia|]. split; [apply words_ok_cons; split; auto; lia|].
    cbn [length]. lia.
Qed.

(** No bit is lost by the u64 shift when there are fewer than 2^32 rows. *)
Lemma mul_cols_u64 n : forall i pre rows,
  Forall (fun y => Forall (fun z => 0 <= z < W2) y) rows ->
  Z.of_nat (length rows) < W -> 0 <= pre < W2 ->
  mul_cols shl_u64 n i pre rows = mul_cols shl_exact n i pre rows.
Proof.
  induction n as [|n IH]; intros i pre rows HB HR HP; cbn [mul_cols]; [reflexivity|].
  assert (HC : Forall (fun y => 0 <= y < W2) (map (fun y => nth i y 0) rows)).
  { apply Forall_map. rewrite Forall_forall in *. intros y Hy. specialize (HB y Hy).
    rewrite Forall_forall in HB. destruct (Nat.lt_ge_cases i (length y)).
    - apply HB. apply nth_In. auto.
    - rewrite nth_overflow by lia. lia. }
  pose proof (col_sum_carry _ 0 pre HC HP ltac:(lia)) as S. rewrite map_length in S.
  destruct (col_sum 0 pre (map (fun y => nth i y 0) rows)) as [c out]. cbn [fst snd] in S.
  assert (ES : shl_u64 c = shl_exact c) by (unfold shl_u64, shl_exact; apply Z.mod_small; lia).
  rewrite ES. f_equal. apply IH; auto.
  assert (0 <= out / W < W) by (split; [apply Z.div_pos; lia|apply Z.div_lt_upper_bound; lia]).
  unfold shl_exact. rewrite lor_W_add by lia. lia.
Qed.

Lemma nval_map_mul l mx : nval (map (fun m => l * m) mx) = l * nval mx.
Proof. induction mx as [|x mx IH]; cbn [map nval]; [lia|]. rewrite IH. ring. Qed.

Lemma mul_row_spec vlen i l mx : 0 <= l < W -> words_ok mx -> (i + length mx <= vlen)%nat ->
  length (mul_row vlen i l mx) = vlen /\ Forall (fun z => 0 <= z < W2) (mul_row vlen i l mx) /\
  nval (mul_row vlen i l mx) = Wp i * (l * nval mx).
Proof.
  intros Hl Hm HL. unfold mul_row. split; [|split].
  - rewrite !app_length, !repeat_length, map_length. lia.
  - apply Forall_app. split; [apply Forall_app; split|].
    + apply Forall_forall. intros x Hx. apply repeat_spec in Hx. lia.
    + apply Forall_map. unfold words_ok in Hm. revert Hm. apply Forall_impl. intros x Hx. nia.
    + apply Forall_forall. intros x Hx. apply repeat_spec in Hx. lia.
  - rewrite !nval_app, !nval_repeat0, repeat_length, nval_map_mul. ring.
Qed.

Lemma mul_rows_spec vlen mx : words_ok mx -> forall mn i, words_ok mn ->
  (i + length mn + length mx <= S vlen)%nat ->
  Forall (fun y => length y = vlen) (mul_rows vlen i mn mx) /\
  Forall (fun y => Forall (fun z => 0 <= z < W2) y) (mul_rows vlen i mn mx) /\
  length (mul_rows vlen i mn mx) = length mn /\
  tailsum 0 (mul_rows vlen i mn mx) = Wp i * (nval mn * nval mx).
Proof.
  intros Hm. induction mn as [|l mn IH]; intros i Hn HL; cbn [mul_rows].
  - cbn. repeat split; try constructor. lia.
  - apply words_ok_cons in Hn as [Hl Hn]. cbn [length] in HL.
    destruct (mul_row_spec vlen i l mx) as (R1 & R2 & R3); [auto|auto|lia|].
    destruct (IH (S i)) as (I1 & I2 & I3 & I4); [auto|lia|].
    split; [constructor; auto|]. split; [constructor; auto|]. split; [cbn [length]; lia|].
    cbn [tailsum skipn]. rewrite R3, I4, Wp_S, nval_cons. ring.
Qed.

Lemma pad4_spec l : words_ok l -> words_ok (pad4 l) /\ nval (pad4 l) = nval l /\
  (length l <= length (pad4 l))%nat.
Proof.
  intros H. unfold pad4. split; [apply words_ok_app; auto using words_ok_repeat0|].
  split; [rewrite nval_app, nval_repeat0; lia|]. rewrite app_length. lia.
Qed.

Lemma min_max_cases a b : canon a -> canon b -> exists mn mx, min_max a b = (mn, mx) /\
  canon mn /\ canon mx /\ nval mn * nval mx = nval a * nval b /\
  Z.of_nat (length mn) <= Z.of_nat (Nat.min (length a) (length b)).
Proof.
  intros Ha Hb. unfold min_max. rewrite nat_lt_spec by auto.
  destruct (Z.ltb_spec (nval a) (nval b)); [exists a, b|exists b, a].
  - assert (length a <= length b)%nat.
    { destruct (Nat.le_gt_cases (length a) (length b)); auto.
      pose proof (canon_len_lt b a Hb Ha). lia. }
    split; [auto|]. split; [auto|]. split; [auto|]. split; [lia|lia].
  - assert (length b <= length a)%nat.
    { destruct (Nat.le_gt_cases (length b) (length a)); auto.
      pose proof (canon_len_lt a b Ha Hb). lia. }
    split; [auto|]. split; [auto|]. split; [auto|]. split; [lia|lia].
Qed.

Lemma mul_avx2_spec a b : canon a -> canon b ->
  mul_avx2 shl_exact a b = of_Z (nval a * nval b).
Proof.
  intros Ha Hb. unfold mul_avx2. rewrite trim_canon_id by auto.
  destruct (min_max_cases a b Ha Hb) as (mn & mx & E & Cn & Cx & V & _). rewrite E, <- V.
  pose proof (canon_words mn Cn) as Wn. pose proof (canon_words mx Cx) as Wx.
  destruct (pad4_spec mx Wx) as (P1 & P2 & P3).
  pose proof (canon_len_pos mn Cn). pose proof (canon_len_pos mx Cx).
  set (m4 := pad4 mx) in *. set (vlen := (length mn + length m4 - 1)%nat).
  destruct (mul_rows_spec vlen m4 P1 mn 0 Wn ltac:(lia)) as (R1 & R2 & R3 & R4).
  change (Wp 0) with 1 in R4. rewrite Z.mul_1_l in R4.
  destruct (mul_cols_spec vlen 0 0 (mul_rows vlen 0 mn m4)) as (M1 & M2 & M3);
    [|exact R1|exact R2|lia| |].
  { intros N. rewrite N in R3. cbn in R3. lia. }
  { rewrite R4. replace (S vlen) with (length mn + length m4)%nat by lia. rewrite Wp_add.
    pose proof (nval_bound mn Wn). pose proof (nval_bound m4 P1). nia. }
  rewrite trim_of_Z; auto.
  - rewrite M1, R4, P2. f_equal.
  - intros N. rewrite N in M3. cbn in M3. lia.
Qed.

Lemma mul_inner_of_Z a b : canon a -> canon b -> mul_inner a b = of_Z (nval a * nval b).
Proof.
  intros Ha Hb. unfold mul_inner, mul_with.
  rewrite !nat_eq_u32_spec by (auto; lia).
  destruct (Z.eqb_spec (nval a) 0) as [E|_]; [rewrite E; reflexivity|].
  destruct (Z.eqb_spec (nval b) 0) as [E|_]; [rewrite E, Z.mul_0_r; reflexivity|].
  cbn [orb].
  destruct (Z.eqb_spec (nval a) 1) as [E|_]; [rewrite E, Z.mul_1_l, of_Z_nval; auto|].
  destruct (Z.eqb_spec (nval b) 1) as [E|_]; [rewrite E, Z.mul_1_r, of_Z_nval; auto|].
  apply mul_avx2_spec; auto.
Qed.

Lemma mul_inner_u64_eq a b : canon a -> canon b ->
  Z.of_nat (Nat.min (length a) (length b)) < W -> mul_inner_u64 a b = mul_inner a b.
Proof.
  intros Ha Hb HL. unfold mul_inner_u64, mul_inner, mul_with.
  destruct (nat_eq_u32 a 0 || nat_eq_u32 b 0); auto.
  destruct (nat_eq_u32 a 1); auto. destruct (nat_eq_u32 b 1); auto.
  unfold mul_avx2. rewrite trim_canon_id by auto. destruct (min_max_cases a b Ha Hb) as (mn & mx & E & Cn & Cx & V & L). rewrite E.
  destruct (pad4_spec mx (canon_words mx Cx)) as (P1 & P2 & P3).
  pose proof (canon_len_pos mn Cn). pose proof (canon_len_pos mx Cx).
  set (m4 := pad4 mx) in *. set (vlen := (length mn + length m4 - 1)%nat).
  destruct (mul_rows_spec vlen m4 P1 mn 0 (canon_words mn Cn) ltac:(lia)) as (R1 & R2 & R3 & R4).
  f_equal. apply mul_cols_u64; auto; lia.
Qed.

Lemma mul_of_Z m n : 0 <= m -> 0 <= n -> mul_inner (of_Z m) (of_Z n) = of_Z (m * n).
Proof. intros. rewrite mul_inner_of_Z, !of_Z_val; auto using of_Z_canon. Qed.
Lemma div_of_Z m n : 0 <= m -> 0 < n -> div_inner (of_Z m) (of_Z n) = Ok (of_Z (m / n)).
Proof. intros. rewrite div_inner_of_Z; rewrite ?of_Z_val; auto using of_Z_canon with zarith. Qed.
Lemma rem_of_Z m n : 0 <= m -> 0 < n -> rem_inner (of_Z m) (of_Z n) = Ok (of_Z (m mod n)).
Proof. intros. rewrite rem_inner_of_Z; rewrite ?of_Z_val; auto using of_Z_canon with zarith. Qed.
