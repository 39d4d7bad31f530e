(** [set_bits] of [Nat] and [BigInt] (C46): the step of Tonelli and Shanks uses
    it on zero only, the code is written for every number. *)
From Coq Require Import ZArith List Lia Bool.
From Verif Require Import Words Spec WordsFacts NatModel NatFacts NatFacts2 NatFacts4 NatFacts5 NatConv BigInt SpecInt BigIntFacts NumBig SpecLoose LooseFacts Properties_Loose.
Import ListNotations.
Open Scope Z_scope.

Lemma set_word_length l : forall j v, length (set_word l j v) = length l.
Proof. induction l as [|x l IH]; intros [|j] v; cbn [set_word length]; auto. Qed.
Lemma set_word_nth l : forall j v i, (j < length l)%nat -> nth i (set_word l j v) 0 = if (i =? j)%nat then v else nth i l 0.
Proof.
  induction l as [|x l IH]; intros [|j] v [|i] L; cbn [length] in L; try lia; try reflexivity.
  cbn [set_word nth]. rewrite IH by lia. reflexivity.
Qed.
Lemma set_word_ok l : forall j v, words_ok l -> 0 <= v < W -> words_ok (set_word l j v).
Proof.
  induction l as [|x l IH]; intros [|j] v H V; cbn [set_word]; auto; apply words_ok_cons in H as [Hx Hl]; apply words_ok_cons; auto.
Qed.
Lemma nth_word l i : words_ok l -> 0 <= nth i l 0 < W.
Proof.
  intros H. destruct (Nat.lt_ge_cases i (length l)) as [L|L]; [|rewrite nth_overflow by auto; lia].
  exact (proj1 (Forall_forall _ _) H _ (nth_In l 0 L)).
Qed.
Lemma pow_word i : 0 <= 2 ^ (i mod 32) < W.
Proof.
  pose proof (Z.mod_pos_bound i 32 ltac:(lia)). split; [apply Z.pow_nonneg; lia|]. change W with (2 ^ 32). apply Z.pow_lt_mono_r; lia.
Qed.
Lemma same_word i k : 0 <= i -> 0 <= k -> (Z.to_nat (i / 32) =? Z.to_nat (k / 32))%nat = (i / 32 =? k / 32).
Proof.
  intros I K. assert (0 <= i / 32) by (apply Z.div_pos; lia). assert (0 <= k / 32) by (apply Z.div_pos; lia).
  destruct (Nat.eqb_spec (Z.to_nat (i / 32)) (Z.to_nat (k / 32))), (Z.eqb_spec (i / 32) (k / 32)); lia.
Qed.
Lemma same_bit i k : 0 <= i -> 0 <= k -> ((i / 32 =? k / 32) && (i mod 32 =? k mod 32)) = (k =? i).
Proof.
  intros I K. pose proof (Z.div_mod i 32 ltac:(lia)). pose proof (Z.div_mod k 32 ltac:(lia)).
  destruct (Z.eqb_spec (i / 32) (k / 32)), (Z.eqb_spec (i mod 32) (k mod 32)), (Z.eqb_spec k i); cbn [andb]; try reflexivity; try lia; subst; congruence.
Qed.
Lemma resize_up a n : (length a <= n)%nat -> words_ok a -> words_ok (resize a n 0) /\ length (resize a n 0) = n /\ nval (resize a n 0) = nval a.
Proof.
  intros L H. unfold resize. rewrite firstn_all2 by auto. split; [apply words_ok_app; split; [auto|apply words_ok_repeat0]|].
  split; [rewrite app_length, repeat_length; lia|]. rewrite nval_app. rewrite nval_repeat0. lia.
Qed.
Lemma inv_mask_bit i k : 0 <= i -> 0 <= k < 32 -> Z.testbit (W - 1 - 2 ^ (i mod 32)) k = negb (i mod 32 =? k).
Proof.
  intros I K. pose proof (Z.mod_pos_bound i 32 ltac:(lia)) as B. pose proof (pow_word i) as PW.
  change (W - 1 - 2 ^ (i mod 32)) with (2 ^ 32 - 1 - 2 ^ (i mod 32)). rewrite sub_ones_testbit by (try lia; exact PW).
  rewrite Z.pow2_bits_eqb by lia. destruct (Z.ltb_spec k 32); [|lia]. destruct (Z.eqb_spec (i mod 32) k); reflexivity.
Qed.

Lemma nat_set_bits_spec a l m i s : stored a l m -> 0 <= i ->
  exists j, stored (nat_set_bits a i s) j (if s : bool then Z.setbit m i else Z.clearbit m i) /\ l <= j.
Proof.
  intros (Wa & La & Pa & <-) I. pose proof (Z.mod_pos_bound i 32 ltac:(lia)) as MB. pose proof (pow_word i) as PW.
  assert (DB : 0 <= i / 32) by (apply Z.div_pos; lia). unfold nat_set_bits. set (j := Z.to_nat (i / 32)).
  destruct s.
  - set (a' := if (length a <=? j)%nat then resize a (j + 1) 0 else a).
    assert (A : words_ok a' /\ (j < length a')%nat /\ nval a' = nval a /\ l <= Z.of_nat (length a')).
    { unfold a'. destruct (Nat.leb_spec (length a) j) as [L|L].
      - destruct (resize_up a (j + 1) ltac:(lia) Wa) as (R1 & R2 & R3). rewrite R2. split; [auto|]. split; [lia|]. split; [auto|lia].
      - split; [auto|]. split; [auto|]. split; [auto|lia]. }
    destruct A as (A1 & A2 & A3 & A4). exists (Z.of_nat (length a')). split; [|auto].
    pose proof (nth_word a' j A1) as NW. pose proof (lor_word _ _ NW PW) as LW.
    split; [apply set_word_ok; auto|]. rewrite set_word_length. split; [auto|]. split; [lia|].
    apply Z.bits_inj'. intros k K. rewrite testbit_nval by (auto using set_word_ok). rewrite set_word_nth by auto.
    rewrite Z.setbit_eqb by lia. rewrite <- A3, (testbit_nval a' A1 k K). unfold j. rewrite Nat.eqb_sym, same_word by auto.
    destruct (Z.eqb_spec (i / 32) (k / 32)) as [E|E].
    + rewrite Z.lor_spec, Z.pow2_bits_eqb by lia. rewrite E. rewrite <- (same_bit k i K I). rewrite E, Z.eqb_refl. cbn [andb].
      rewrite (Z.eqb_sym (k mod 32)). apply orb_comm.
    + destruct (Z.eqb_spec i k); [subst; congruence|]. reflexivity.
  - destruct (Nat.ltb_spec j (length a)) as [L|L].
    + exists l. split; [|lia]. pose proof (nth_word a j Wa) as NW.
      assert (MW : 0 <= W - 1 - 2 ^ (i mod 32) < W) by lia. pose proof (land_word _ _ NW MW) as LW.
      split; [apply set_word_ok; auto|]. rewrite set_word_length. split; [auto|]. split; [auto|].
      apply Z.bits_inj'. intros k K. rewrite testbit_nval by (auto using set_word_ok). rewrite set_word_nth by auto.
      rewrite Z.clearbit_eqb by lia. rewrite (testbit_nval a Wa k K). unfold j. rewrite Nat.eqb_sym, same_word by auto.
      pose proof (Z.mod_pos_bound k 32 ltac:(lia)) as KB.
      destruct (Z.eqb_spec (i / 32) (k / 32)) as [E|E].
      * rewrite Z.land_spec, inv_mask_bit by lia. rewrite E. rewrite <- (same_bit k i K I). rewrite E, Z.eqb_refl. cbn [andb].
        rewrite (Z.eqb_sym (k mod 32)). reflexivity.
      * destruct (Z.eqb_spec i k); [subst; congruence|]. cbn [negb]. rewrite andb_true_r. reflexivity.
    + exists l. split; [|lia]. split; [auto|]. split; [auto|]. split; [auto|].
      apply Z.bits_inj'. intros k K. rewrite Z.clearbit_eqb by lia. destruct (Z.eqb_spec i k) as [->|]; [|cbn [negb]; rewrite andb_true_r; reflexivity].
      cbn [negb]. rewrite andb_false_r. rewrite testbit_nval by auto. rewrite nth_overflow by (unfold j in L; exact L). apply Z.bits_0.
Qed.

(** ** C46
    The bit is set or cleared in the two's complement of the number; the
    magnitude may keep leading zero words. *)
Theorem C46_nat_set_bits : forall a i s, canon a -> 0 <= i ->
  words_ok (nat_set_bits a i s) /\ nval (nat_set_bits a i s) = if s : bool then Z.setbit (nval a) i else Z.clearbit (nval a) i.
Proof.
  intros a i s C I. assert (A : stored a (Z.of_nat (length a)) (nval a)).
  { pose proof (canon_len_pos a C). split; [apply C|]. split; [auto|]. split; [lia|auto]. }
  destruct (nat_set_bits_spec a _ _ i s A I) as (j & (W1 & _ & _ & V) & _). auto.
Qed.
Theorem C46_set_bits : forall x n i s, is_int x n -> 0 <= i ->
  int_value (b_set_bits x i s) (if s : bool then Z.setbit n i else Z.clearbit n i) /\ bneg (b_set_bits x i s) = (n <? 0).
Proof.
  intros x n i s X I. apply is_int_iff in X. subst x. unfold b_set_bits. rewrite zint_is_negative, zint_nat.
  destruct (Z.ltb_spec n 0) as [N|N].
  - rewrite (Z.abs_neq n) by lia. destruct (sub1_spec (- n) ltac:(lia)) as (l & -> & Wl & Nl & Vl & Ll).
    assert (A : stored l (Z.of_nat (length l)) (- n - 1)).
    { split; [auto|]. split; [auto|]. split; [|auto]. destruct l; [congruence|cbn [length]; lia]. }
    destruct (nat_set_bits_spec l _ _ i (negb s) A I) as (j & S1 & LJ).
    set (b := nat_set_bits l i (negb s)) in *. set (m := if negb s then Z.setbit (- n - 1) i else Z.clearbit (- n - 1) i) in *.
    assert (M0 : 0 <= m) by (destruct S1 as (W1 & _ & _ & <-); apply nval_nonneg; auto).
    destruct (C106_sum_word b j m 1 S1 ltac:(lia)) as (k & S2).
    assert (G : partial_cmp (nat_add_u32 b 1) [0] = Some Gt).
    { unfold partial_cmp. rewrite (stored_nan _ _ _ S2). cbn [is_nan orb]. f_equal.
      rewrite (cmp_stored _ _ _ _ _ _ S2 (single_stored 0 ltac:(lia))). unfold stored_compare. destruct S2 as (_ & _ & PK & _).
      destruct (Z.ltb_spec k 1); [lia|]. destruct (Z.ltb_spec 1 k); [reflexivity|]. apply Z.compare_gt_iff. lia. }
    rewrite G. split; [|reflexivity]. pose proof (stored_nonnil _ _ _ S2) as NN. destruct S2 as (W2 & _ & _ & V2).
    split; [auto|]. split; [auto|]. unfold bvalue. cbn [bneg bnat]. rewrite V2.
    assert (EQ : m = - (if s then Z.setbit n i else Z.clearbit n i) - 1).
    { unfold m. replace (- n - 1) with (Z.lnot n) by (unfold Z.lnot; lia).
      replace (- (if s then Z.setbit n i else Z.clearbit n i) - 1) with (Z.lnot (if s then Z.setbit n i else Z.clearbit n i)) by (unfold Z.lnot; lia).
      apply Z.bits_inj'. intros k0 K. rewrite Z.lnot_spec by auto.
      destruct s; cbn [negb]; rewrite ?Z.setbit_eqb, ?Z.clearbit_eqb, ?Z.lnot_spec by auto; destruct (i =? k0), (Z.testbit n k0); reflexivity. }
    lia.
  - rewrite (Z.abs_eq n) by lia. assert (C : canon (of_Z n)) by (apply of_Z_canon; auto).
    assert (A : stored (of_Z n) (Z.of_nat (length (of_Z n))) n).
    { pose proof (canon_len_pos _ C). split; [apply C|]. split; [auto|]. split; [lia|apply of_Z_val; auto]. }
    destruct (nat_set_bits_spec _ _ _ i s A I) as (j & S1 & _). pose proof (stored_nonnil _ _ _ S1) as NN. destruct S1 as (W1 & _ & _ & V).
    assert (B : bneg (zint n) = false) by (unfold zint; cbn [bneg]; destruct (Z.ltb_spec n 0); [lia|reflexivity]).
    rewrite B. split; [|reflexivity]. split; [auto|]. split; [auto|]. unfold bvalue. cbn [bneg bnat]. exact V.
Qed.
Example C46_set_bits_case : b_set_bits (zint (- 2 ^ 40)) 40 false = zint (- 2 ^ 41) /\ b_set_bits (zint 5) 70 true = zint (2 ^ 70 + 5) /\
  b_set_bits (zint (-1)) 3 false = zint (-9) /\ b_set_bits (zint (2 ^ 32)) 32 false = BI [0; 0] false.
Proof. vm_compute. auto. Qed.
Print Assumptions C46_nat_set_bits.
Print Assumptions C46_set_bits.
