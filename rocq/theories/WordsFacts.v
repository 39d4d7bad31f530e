(** Facts about word lists. *)
From Coq Require Import ZArith List Lia Bool.
From Verif Require Import Words.
Import ListNotations.
Open Scope Z_scope.

Notation Wp n := (W ^ Z.of_nat n).

Lemma W_2_32 : W = 2 ^ 32. Proof. reflexivity. Qed.

Lemma Wp_S n : Wp (S n) = W * Wp n.
Proof. rewrite Nat2Z.inj_succ, Z.pow_succ_r; lia. Qed.

Lemma Wp_pos n : 0 < Wp n.
Proof. apply Z.pow_pos_nonneg; lia. Qed.

Lemma Wp_add a b : Wp (a + b) = Wp a * Wp b.
Proof. rewrite Nat2Z.inj_add, Z.pow_add_r; lia. Qed.

Lemma Wp_pow2 n : Wp n = 2 ^ (32 * Z.of_nat n).
Proof. rewrite Z.pow_mul_r by lia. reflexivity. Qed.

Lemma words_ok_nil : words_ok []. Proof. constructor. Qed.
Lemma words_ok_cons x l : words_ok (x :: l) <-> 0 <= x < W /\ words_ok l.
Proof. split; intros H; [inversion H; auto | constructor; tauto]. Qed.
Lemma words_ok_app a b : words_ok (a ++ b) <-> words_ok a /\ words_ok b.
Proof. apply Forall_app. Qed.
Lemma words_ok_firstn n l : words_ok l -> words_ok (firstn n l).
Proof. intros H. rewrite <- (firstn_skipn n l) in H. apply words_ok_app in H. tauto. Qed.
Lemma words_ok_skipn n l : words_ok l -> words_ok (skipn n l).
Proof. intros H. rewrite <- (firstn_skipn n l) in H. apply words_ok_app in H. tauto. Qed.
Lemma words_ok_repeat0 n : words_ok (repeat 0 n).
Proof. induction n; simpl; constructor; auto; lia. Qed.
Lemma words_ok_rev l : words_ok l -> words_ok (rev l).
Proof. apply Forall_rev. Qed.
Lemma words_ok_nth l i : words_ok l -> 0 <= nth i l 0 < W.
Proof.
  intros H. destruct (Nat.lt_ge_cases i (length l)).
  - exact (proj1 (Forall_nth _ l) H i 0 H0).
  - rewrite nth_overflow by lia. lia.
Qed.
Lemma words_ok_last l : words_ok l -> 0 <= last l 0 < W.
Proof.
  induction l as [|x l IH]; intros H; [simpl; lia|].
  apply words_ok_cons in H as [Hx Hl]. destruct l; [exact Hx|]. apply IH, Hl.
Qed.

Lemma nval_cons x l : nval (x :: l) = x + W * nval l.
Proof. reflexivity. Qed.

Lemma nval_app a b : nval (a ++ b) = nval a + Wp (length a) * nval b.
Proof.
  induction a as [|x a IH]; simpl app.
  - simpl length. cbn [nval]. rewrite Z.pow_0_r. lia.
  - simpl length. rewrite !nval_cons, IH, Wp_S. ring.
Qed.

Lemma nval_repeat0 n : nval (repeat 0 n) = 0.
Proof. induction n; cbn [repeat nval]; lia. Qed.

Lemma nval_bound l : words_ok l -> 0 <= nval l < Wp (length l).
Proof.
  induction l as [|x l IH]; intros H.
  - cbn. lia.
  - apply words_ok_cons in H as [Hx Hl]. specialize (IH Hl).
    simpl length. rewrite nval_cons, Wp_S. nia.
Qed.

Lemma nval_nonneg l : words_ok l -> 0 <= nval l.
Proof. intros H. apply nval_bound in H. lia. Qed.

Lemma nval_skipn n l : words_ok l -> nval (skipn n l) = nval l / Wp n.
Proof.
  intros H.
  destruct (Nat.le_gt_cases (length l) n).
  - rewrite skipn_all2 by lia. cbn [nval].
    symmetry. apply Z.div_small. pose proof (nval_bound l H).
    assert (Wp (length l) <= Wp n) by (apply Z.pow_le_mono_r; lia). lia.
  - pose proof (firstn_skipn n l) as E.
    rewrite <- E at 2. rewrite nval_app.
    rewrite firstn_length_le by lia.
    pose proof (nval_bound _ (words_ok_firstn n l H)) as B.
    rewrite firstn_length_le in B by lia.
    rewrite (Z.mul_comm (Wp n)), Z.div_add by lia.
    rewrite Z.div_small by lia. lia.
Qed.

Lemma nval_firstn n l : words_ok l -> nval (firstn n l) = nval l mod Wp n.
Proof.
  intros H.
  pose proof (nval_skipn n l H) as E1.
  destruct (Nat.le_gt_cases (length l) n).
  - rewrite firstn_all2 by lia. symmetry. apply Z.mod_small.
    pose proof (nval_bound l H).
    assert (Wp (length l) <= Wp n) by (apply Z.pow_le_mono_r; lia). lia.
  - pose proof (firstn_skipn n l) as E.
    assert (nval l = nval (firstn n l) + Wp n * nval (skipn n l)) as E2.
    { rewrite <- E at 1. rewrite nval_app, firstn_length_le by lia. reflexivity. }
    pose proof (Z.div_mod (nval l) (Wp n)). pose proof (Wp_pos n).
    rewrite <- E1 in *. lia.
Qed.

Lemma nval_split n l : words_ok l -> nval l = nval (firstn n l) + Wp n * nval (skipn n l).
Proof.
  intros H. rewrite nval_firstn, nval_skipn by auto.
  pose proof (Wp_pos n). pose proof (Z.div_mod (nval l) (Wp n)). lia.
Qed.

(** trim *)
Lemma drop_zeros_val l : nval (drop_zeros l) = nval l.
Proof.
  induction l as [|x l IH]; [reflexivity|].
  cbn [drop_zeros]. destruct (drop_zeros l) eqn:E.
  - rewrite nval_cons, <- IH. cbn [nval].
    destruct (Z.eqb_spec x 0); cbn [nval]; lia.
  - rewrite (nval_cons x l), <- IH. reflexivity.
Qed.

Lemma trim_val l : nval (trim l) = nval l.
Proof. destruct l; [reflexivity|]. cbn [trim]. rewrite !nval_cons, drop_zeros_val. reflexivity. Qed.

Lemma drop_zeros_words l : words_ok l -> words_ok (drop_zeros l).
Proof.
  induction l as [|x l IH]; intros H; [constructor|].
  apply words_ok_cons in H as [Hx Hl]. specialize (IH Hl).
  cbn [drop_zeros]. destruct (drop_zeros l).
  - destruct (x =? 0); constructor; auto.
  - apply words_ok_cons; auto.
Qed.

Lemma trim_words l : words_ok l -> words_ok (trim l).
Proof.
  destruct l; intros H; [constructor|]. apply words_ok_cons in H as [Hx Hl].
  apply words_ok_cons. split; auto using drop_zeros_words.
Qed.

Lemma drop_zeros_last l : drop_zeros l <> [] -> last (drop_zeros l) 0 <> 0.
Proof.
  induction l as [|x l IH]; intros H; [cbn in H; congruence|].
  cbn [drop_zeros] in *. destruct (drop_zeros l) eqn:E.
  - destruct (Z.eqb_spec x 0); [congruence|]. cbn. auto.
  - change (last (z :: l0) 0 <> 0). apply IH. congruence.
Qed.

Lemma trim_nil l : trim l = [] -> l = [].
Proof. destruct l; auto. discriminate. Qed.

Lemma trim_canon l : words_ok l -> l <> [] -> canon (trim l).
Proof.
  intros H Hn. split; [apply trim_words; auto|]. split.
  - intros E. apply trim_nil in E. auto.
  - destruct l as [|x l]; [congruence|]. cbn [trim].
    destruct (drop_zeros l) eqn:E; [left; reflexivity|].
    right. change (last (z :: l0) 0 <> 0). rewrite <- E.
    apply drop_zeros_last. congruence.
Qed.

Lemma canon_words l : canon l -> words_ok l. Proof. intros H. apply H. Qed.
Lemma canon_nonnil l : canon l -> l <> []. Proof. intros H. apply H. Qed.
Lemma canon_nonneg l : canon l -> 0 <= nval l.
Proof. intros H. apply nval_nonneg, H. Qed.

Lemma last_split (l : list Z) : l <> [] -> l = removelast l ++ [last l 0].
Proof. intros H. apply app_removelast_last. auto. Qed.

Lemma removelast_len (l : list Z) : length (removelast l) = (length l - 1)%nat.
Proof.
  induction l as [|x l IH]; [reflexivity|]. destruct l; [reflexivity|].
  cbn [removelast length] in *. rewrite IH. lia.
Qed.

Lemma words_ok_removelast l : words_ok l -> words_ok (removelast l).
Proof.
  intros H. destruct l as [|x l]; [constructor|].
  rewrite (last_split (x :: l)) in H by discriminate.
  apply words_ok_app in H. tauto.
Qed.

Lemma nval_last l : l <> [] -> nval l = nval (removelast l) + Wp (length l - 1) * last l 0.
Proof.
  intros H. rewrite (last_split l H) at 1. rewrite nval_app, removelast_len.
  cbn [nval]. ring.
Qed.

(** a canonical list with at least two words has a large value *)
Lemma canon_lower l : canon l -> (1 < length l)%nat -> Wp (length l - 1) <= nval l.
Proof.
  intros (Hw & Hn & Hc) Hl. destruct Hc as [Hc|Hc]; [lia|].
  rewrite nval_last by auto.
  pose proof (words_ok_last l Hw). pose proof (nval_nonneg _ (words_ok_removelast l Hw)).
  pose proof (Wp_pos (length l - 1)). nia.
Qed.

Lemma nval_inj a b : words_ok a -> words_ok b -> length a = length b -> nval a = nval b -> a = b.
Proof.
  revert b. induction a as [|x a IH]; intros [|y b] Ha Hb Hl Hv; try discriminate; auto.
  apply words_ok_cons in Ha as [Hx Ha]. apply words_ok_cons in Hb as [Hy Hb].
  rewrite !nval_cons in Hv.
  assert (x = y).
  { assert ((x + W * nval a) mod W = (y + W * nval b) mod W) as E by congruence.
    rewrite !(Z.mul_comm W), !Z.mod_add, !Z.mod_small in E by lia. exact E. }
  f_equal; auto. apply IH; auto; lia.
Qed.

Lemma canon_len_lt a b : canon a -> canon b -> (length a < length b)%nat -> nval a < nval b.
Proof.
  intros Ha Hb Hl.
  assert (1 < length b)%nat.
  { destruct a; [destruct Ha as (_ & Hn & _); congruence|]. simpl in Hl. lia. }
  pose proof (canon_lower b Hb H). pose proof (nval_bound a (canon_words a Ha)).
  assert (Wp (length a) <= Wp (length b - 1)) by (apply Z.pow_le_mono_r; lia). lia.
Qed.

Lemma canon_inj a b : canon a -> canon b -> nval a = nval b -> a = b.
Proof.
  intros Ha Hb Hv. destruct (Nat.lt_trichotomy (length a) (length b)) as [H|[H|H]].
  - pose proof (canon_len_lt a b Ha Hb H). lia.
  - apply nval_inj; auto using canon_words.
  - pose proof (canon_len_lt b a Hb Ha H). lia.
Qed.

(** of_Z *)
Lemma log2_div_W n : W <= n -> Z.log2 (n / W) = Z.log2 n - 32.
Proof.
  intros H. change W with (2 ^ 32). rewrite <- Z.shiftr_div_pow2 by lia.
  rewrite Z.log2_shiftr by lia.
  assert (32 <= Z.log2 n). { change 32 with (Z.log2 W). apply Z.log2_le_mono. lia. }
  lia.
Qed.

Lemma digits_spec f n : 0 <= n -> Z.log2 n <= Z.of_nat f ->
  canon (digits f n) /\ nval (digits f n) = n.
Proof.
  revert n. induction f as [|f IH]; intros n Hn Hf.
  - assert (n < W).
    { destruct (Z.eq_dec n 0); [lia|]. pose proof (Z.log2_spec n).
      assert (Z.log2 n = 0) as E by (pose proof (Z.log2_nonneg n); lia).
      rewrite E in *. change (2 ^ Z.succ 0) with 2 in *. lia. }
    cbn [digits]. split; [|cbn [nval]; lia].
    split; [|split]; [repeat constructor; lia| discriminate | left; reflexivity].
  - cbn [digits]. destruct (Z.ltb_spec n W).
    + split; [|cbn [nval]; lia].
      split; [|split]; [repeat constructor; lia| discriminate | left; reflexivity].
    + pose proof (log2_div_W n H) as L.
      destruct (IH (n / W)) as [Hc Hv].
      { apply Z.div_pos; lia. } { lia. }
      split.
      * destruct Hc as (Hw & Hnn & Hl). split; [|split].
        -- apply words_ok_cons. split; auto. apply Z.mod_pos_bound. lia.
        -- discriminate.
        -- right. destruct (digits f (n / W)) as [|y l] eqn:E; [congruence|].
           change (last (y :: l) 0 <> 0).
           destruct Hl as [Hl|Hl]; [|exact Hl].
           destruct l; [|discriminate]. cbn [last].
           cbn [nval] in Hv. assert (1 <= n / W) by (apply Z.div_le_lower_bound; lia). lia.
      * rewrite nval_cons, Hv. pose proof (Z.div_mod n W). lia.
Qed.

Lemma of_Z_canon n : 0 <= n -> canon (of_Z n).
Proof.
  intros H. apply digits_spec; auto. rewrite Z2Nat.id; [lia|apply Z.log2_nonneg].
Qed.
Lemma of_Z_val n : 0 <= n -> nval (of_Z n) = n.
Proof.
  intros H. apply digits_spec; auto. rewrite Z2Nat.id; [lia|apply Z.log2_nonneg].
Qed.
Lemma of_Z_nval l : canon l -> of_Z (nval l) = l.
Proof.
  intros H. apply canon_inj; auto using of_Z_canon, canon_nonneg, of_Z_val.
Qed.
Lemma of_Z_unique l n : canon l -> nval l = n -> l = of_Z n.
Proof. intros H <-. symmetry. apply of_Z_nval. auto. Qed.
Lemma of_Z_inj m n : 0 <= m -> 0 <= n -> of_Z m = of_Z n -> m = n.
Proof. intros Hm Hn E. rewrite <- (of_Z_val m), <- (of_Z_val n) by auto. congruence. Qed.
Lemma of_Z_words n : 0 <= n -> words_ok (of_Z n).
Proof. intros. apply canon_words, of_Z_canon. auto. Qed.
Lemma of_Z_nonnil n : 0 <= n -> of_Z n <> [].
Proof. intros. apply canon_nonnil, of_Z_canon. auto. Qed.
Lemma of_Z_small n : 0 <= n < W -> of_Z n = [n].
Proof.
  intros H. symmetry. apply of_Z_unique; [|cbn; lia].
  split; [|split]; [repeat constructor; lia| discriminate | left; reflexivity].
Qed.
Lemma canon_single w : 0 <= w < W -> canon [w].
Proof. intros H. split; [|split]; [repeat constructor; lia| discriminate | left; reflexivity]. Qed.
Lemma trim_of_Z l : words_ok l -> l <> [] -> trim l = of_Z (nval l).
Proof. intros. apply of_Z_unique; auto using trim_canon, trim_val. Qed.
Lemma trim_canon_id l : canon l -> trim l = l.
Proof. intros H. rewrite trim_of_Z, of_Z_nval; auto using canon_words, canon_nonnil. Qed.
