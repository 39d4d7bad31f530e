(** Facts about the random number generators. *)
From Coq Require Import ZArith List Lia Bool Arith Wf_nat.
From Verif Require Import Words NatModel WordsFacts NatFacts NatFacts2 Rand SpecRand.
Import ListNotations.
Open Scope Z_scope.

(* ------------------------------------------------------------------ *)
(** * Sequences from a window recurrence *)

Section Window.
  Context {A : Type} (d : A) (init : list A) (T : list A -> A).
  Let n := length init.

  Fixpoint hist (k : nat) : list A :=
    match k with
    | O => init
    | S k' => let h := hist k' in h ++ [T (skipn k' h)]
    end.

  Lemma hist_len : forall k, length (hist k) = (n + k)%nat.
  Proof.
    induction k as [|k IH]; cbn [hist]; cbv zeta; [unfold n; lia|]. rewrite app_length, IH. cbn [length]. lia.
  Qed.

  Lemma hist_prefix : forall j k i, (k <= j)%nat -> (i < n + k)%nat -> nth i (hist j) d = nth i (hist k) d.
  Proof.
    induction j as [|j IH]; intros k i L H.
    - replace k with O by lia. reflexivity.
    - destruct (Nat.eq_dec k (S j)) as [->|E]; [reflexivity|].
      cbn [hist]. cbv zeta. rewrite app_nth1 by (rewrite hist_len; lia). apply IH; lia.
  Qed.

  Definition wseq (i : nat) : A := nth i (hist (S i)) d.

  Lemma wseq_hist : forall i k, (i < n + k)%nat -> wseq i = nth i (hist k) d.
  Proof.
    intros i k H. unfold wseq.
    destruct (Nat.le_gt_cases k (S i)) as [L|L].
    - apply hist_prefix; lia.
    - symmetry. apply hist_prefix; lia.
  Qed.

  Lemma wseq_init : forall i, (i < n)%nat -> wseq i = nth i init d.
  Proof. intros i H. rewrite (wseq_hist i O) by lia. reflexivity. Qed.

  Lemma list_eq_nth : forall (l l' : list A), length l = length l' ->
    (forall i, (i < length l)%nat -> nth i l d = nth i l' d) -> l = l'.
  Proof. intros l l' H1 H2. apply (nth_ext _ _ d d); assumption. Qed.

  Lemma wseq_step : forall k, wseq (k + n) = T (map wseq (seq k n)).
  Proof.
    intros k. rewrite (wseq_hist (k + n) (S k)) by lia. cbn [hist]. cbv zeta.
    rewrite app_nth2 by (rewrite hist_len; lia).
    rewrite hist_len. replace (k + n - (n + k))%nat with O by lia. cbn [nth].
    f_equal. apply list_eq_nth.
    - rewrite skipn_length, hist_len, map_length, seq_length. lia.
    - intros i Hi. rewrite skipn_length, hist_len in Hi.
      rewrite (nth_indep (map wseq (seq k n)) d (wseq 0)) by (rewrite map_length, seq_length; lia).
      rewrite map_nth, seq_nth by lia.
      rewrite (wseq_hist (k + i) k) by lia.
      rewrite <- (firstn_skipn k (hist k)) at 2.
      assert (LF : length (firstn k (hist k)) = k) by (rewrite firstn_length, hist_len; lia).
      rewrite app_nth2; rewrite LF; [|lia].
      f_equal. lia.
  Qed.
End Window.

(* ------------------------------------------------------------------ *)
(** * Lists *)

Lemma upd_len : forall l i v, length (upd l i v) = length l.
Proof.
  induction l as [|x l IH]; intros [|i] v; cbn [upd length]; try reflexivity. rewrite IH. reflexivity.
Qed.

Lemma upd_nth : forall l i v p, (i < length l)%nat ->
  nth p (upd l i v) 0 = if (p =? i)%nat then v else nth p l 0.
Proof.
  induction l as [|x l IH]; intros [|i] v [|p] H; cbn [upd length] in *; try lia; try reflexivity.
  cbn [nth]. change (S p =? S i)%nat with (p =? i)%nat. rewrite <- IH by lia. reflexivity.
Qed.

Lemma get_ok : forall l i, (i < length l)%nat -> get l i = Ok (nth i l 0).
Proof.
  intros l i H. unfold get. rewrite (nth_error_nth' l 0 H). reflexivity.
Qed.

(* ------------------------------------------------------------------ *)
(** * Bits *)

Lemma lxor_range : forall w a b, 0 <= a < 2 ^ w -> 0 <= b < 2 ^ w -> 0 <= Z.lxor a b < 2 ^ w.
Proof.
  intros w a b Ha Hb.
  assert (0 <= w) by (destruct (Z.lt_ge_cases w 0); [rewrite Z.pow_neg_r in Ha by lia; lia | lia]).
  assert (N : 0 <= Z.lxor a b) by (apply Z.lxor_nonneg; lia).
  split; [exact N|].
  rewrite <- (Z.mod_small a (2 ^ w)), <- (Z.mod_small b (2 ^ w)) by assumption.
  rewrite <- !Z.land_ones by lia.
  assert (E : Z.lxor (Z.land a (Z.ones w)) (Z.land b (Z.ones w)) = Z.land (Z.lxor a b) (Z.ones w)).
  { apply Z.bits_inj'. intros i Hi. rewrite ?Z.lxor_spec, ?Z.land_spec, ?Z.lxor_spec.
    destruct (Z.testbit a i), (Z.testbit b i), (Z.testbit (Z.ones w) i); reflexivity. }
  rewrite E, Z.land_ones by lia. apply Z.mod_pos_bound. apply Z.pow_pos_nonneg; lia.
Qed.

Lemma land_range : forall w a b, 0 <= a < 2 ^ w -> 0 <= b -> 0 <= Z.land a b < 2 ^ w.
Proof.
  intros w a b Ha Hb. split; [apply Z.land_nonneg; lia|].
  assert (0 <= w) by (destruct (Z.lt_ge_cases w 0); [rewrite Z.pow_neg_r in Ha by lia; lia | lia]).
  rewrite <- (Z.mod_small a (2 ^ w)) by assumption.
  rewrite <- Z.land_ones by lia.
  rewrite <- Z.land_assoc, (Z.land_comm (Z.ones w) b), Z.land_assoc, Z.land_ones by lia.
  apply Z.mod_pos_bound. apply Z.pow_pos_nonneg; lia.
Qed.

Lemma div_range : forall w a k, 0 <= a < 2 ^ w -> 0 <= k -> 0 <= a / 2 ^ k < 2 ^ w.
Proof.
  intros w a k Ha Hk.
  assert (0 < 2 ^ k) by (apply Z.pow_pos_nonneg; lia).
  split; [apply Z.div_pos; lia|].
  apply Z.div_lt_upper_bound; [lia|]. nia.
Qed.

Lemma pmask_val : forall B w, 0 < w <= B -> pmask B w = 2 ^ w - 1.
Proof.
  intros B w H. unfold pmask. destruct (Z.eqb_spec w B) as [->|E]; [reflexivity|].
  rewrite Z.mod_small by lia. reflexivity.
Qed.

Lemma land_pmask : forall B w x, 0 < w <= B -> Z.land x (pmask B w) = x mod 2 ^ w.
Proof.
  intros B w x H. rewrite pmask_val by lia.
  rewrite <- Z.land_ones by lia. rewrite Z.ones_equiv. f_equal. 
Qed.

Lemma upper_mask_val : forall B r, 0 <= r <= B -> upper_mask B r = 2 ^ B - 2 ^ r.
Proof.
  intros B r H. unfold upper_mask.
  assert (E : 2 ^ B = 2 ^ r * 2 ^ (B - r)) by (rewrite <- Z.pow_add_r by lia; f_equal; lia).
  assert (0 < 2 ^ r) by (apply Z.pow_pos_nonneg; lia).
  assert (0 < 2 ^ (B - r)) by (apply Z.pow_pos_nonneg; lia).
  replace ((2 ^ B - 1) * 2 ^ r) with ((2 ^ B - 2 ^ r) + (2 ^ r - 1) * 2 ^ B) by ring.
  rewrite Z_mod_plus_full. apply Z.mod_small. nia.
Qed.

Lemma lower_mask_val : forall B r, 0 <= r <= B -> lower_mask B r = Z.ones r.
Proof.
  intros B r H. unfold lower_mask. rewrite upper_mask_val by lia. rewrite Z.ones_equiv. lia.
Qed.

Lemma upper_mask_bits : forall B r i, 0 <= r <= B -> 0 <= i ->
  Z.testbit (upper_mask B r) i = (r <=? i) && (i <? B).
Proof.
  intros B r i H Hi. rewrite upper_mask_val by lia.
  replace (2 ^ B - 2 ^ r) with (Z.ones (B - r) * 2 ^ r).
  2:{ rewrite Z.ones_equiv. unfold Z.pred.
      rewrite Z.mul_add_distr_r, <- Z.pow_add_r by lia. replace (B - r + r) with B by lia. lia. }
  rewrite Z.mul_pow2_bits by lia.
  destruct (Z.leb_spec r i).
  - cbn [andb]. destruct (Z.ltb_spec i B).
    + apply Z.ones_spec_low. lia.
    + apply Z.ones_spec_high. lia.
  - apply Z.testbit_neg_r. lia.
Qed.

Lemma join_bits : forall B r a b, 0 <= r < B -> 0 <= a < 2 ^ B ->
  Z.lor (Z.land a (upper_mask B r)) (Z.land b (lower_mask B r)) = a / 2 ^ r * 2 ^ r + b mod 2 ^ r.
Proof.
  intros B r a b H Ha.
  rewrite lower_mask_val by lia. rewrite (Z.land_ones b) by lia.
  assert (E : Z.land a (upper_mask B r) = a / 2 ^ r * 2 ^ r).
  { apply Z.bits_inj'. intros i Hi. rewrite Z.land_spec, upper_mask_bits by lia.
    rewrite Z.mul_pow2_bits by lia.
    destruct (Z.leb_spec r i).
    - cbn [andb]. rewrite Z.div_pow2_bits by lia. replace (i - r + r) with i by lia.
      destruct (Z.ltb_spec i B); [apply andb_true_r|].
      rewrite andb_false_r. symmetry.
      destruct (Z.eq_dec a 0) as [->|]; [apply Z.bits_0|].
      apply Z.bits_above_log2; [lia|]. 
      assert (Z.log2 a < B) by (apply Z.log2_lt_pow2; lia). lia.
    - cbn [andb]. rewrite andb_false_r. symmetry. apply Z.testbit_neg_r. lia. }
  rewrite E. apply lor_shift_add; [lia|]. apply Z.mod_pos_bound. apply Z.pow_pos_nonneg; lia.
Qed.

Lemma land1_odd : forall y, (Z.land y 1 >? 0) = Z.odd y.
Proof.
  intros y. change 1 with (Z.ones 1). rewrite Z.land_ones by lia. change (2 ^ 1) with 2. rewrite Zmod_odd. destruct (Z.odd y); reflexivity.
Qed.

(* ------------------------------------------------------------------ *)
(** * Mersenne twister *)

(** The fields are values of the element type. *)
Definition par_ok (B : Z) (p : mt_par) : Prop :=
  Forall (fun v => 0 <= v < 2 ^ B)
    [mt_w p; mt_n p; mt_m p; mt_r p; mt_a p; mt_u p; mt_d p; mt_s p; mt_b p; mt_t p; mt_c p; mt_l p; mt_f p].

(** What the tests of the constructor give. *)
Definition par_good (B : Z) (p : mt_par) : Prop :=
  2 <= mt_w p <= B /\ 1 <= mt_m p <= mt_n p /\ 0 < mt_r p < mt_w p /\ 0 < mt_a p < 2 ^ mt_w p /\
  (0 <= mt_u p < mt_w p /\ 0 <= mt_d p < 2 ^ mt_w p) /\
  (0 <= mt_s p < mt_w p /\ 0 <= mt_b p < 2 ^ mt_w p) /\
  (0 <= mt_t p < mt_w p /\ 0 <= mt_c p < 2 ^ mt_w p) /\
  0 < mt_l p < mt_w p /\ 0 < mt_f p < 2 ^ mt_w p.

Lemma mt_check_good : forall B p, par_ok B p -> mt_check B p = true -> par_good B p.
Proof.
  intros B p HP HC. unfold par_ok in HP. rewrite !Forall_cons_iff in HP.
  destruct HP as (H1 & H2 & H3 & H4 & H5 & H6 & H7 & H8 & H9 & H10 & H11 & H12 & H13 & _).
  unfold mt_check in HC. rewrite !andb_true_iff, !negb_true_iff, !orb_false_iff in HC.
  decompose [and] HC; clear HC.
  repeat match goal with
  | H : (_ =? _) = false |- _ => apply Z.eqb_neq in H
  | H : (_ <? _) = false |- _ => apply Z.ltb_ge in H
  | H : (_ <=? _) = false |- _ => apply Z.leb_gt in H
  end.
  rewrite (pmask_val B (mt_w p)) in * by lia.
  unfold par_good. lia.
Qed.

Section MT.
  Variables (B : Z) (p : mt_par).
  Hypothesis HG : par_good B p.
  Let n := Z.to_nat (mt_n p).
  Let m := Z.to_nat (mt_m p).

  Lemma n_pos : (1 <= m <= n)%nat.
  Proof. unfold n, m. red in HG. lia. Qed.

  Lemma fill_len : forall cnt i last, length (mt_fill B p cnt i last) = cnt.
  Proof. induction cnt; intros; cbn [mt_fill length]; [reflexivity | rewrite IHcnt; reflexivity]. Qed.

  Lemma fill_one : forall last i,
    Z.land ((((Z.lxor last (last / 2 ^ (mt_w p - 2))) * mt_f p) mod 2 ^ B + i) mod 2 ^ B) (pmask B (mt_w p))
    = (mt_f p * Z.lxor last (last / 2 ^ (mt_w p - 2)) + i) mod 2 ^ mt_w p.
  Proof.
    intros last i. red in HG. rewrite land_pmask by lia.
    assert (E : 2 ^ B = 2 ^ mt_w p * 2 ^ (B - mt_w p)) by (rewrite <- Z.pow_add_r by lia; f_equal; lia).
    assert (0 < 2 ^ mt_w p) by (apply Z.pow_pos_nonneg; lia).
    assert (0 < 2 ^ (B - mt_w p)) by (apply Z.pow_pos_nonneg; lia).
    rewrite Z.add_mod_idemp_l by lia.
    rewrite E. rewrite (Z.mul_comm (mt_f p)).
    rewrite Z.rem_mul_r by lia.
    rewrite Z.mul_comm with (n := 2 ^ mt_w p) (m := (_ / _) mod _).
    rewrite Z_mod_plus_full. apply Z.mod_mod. lia.
  Qed.

  (** The initial state follows the published seeding. *)
  Lemma fill_spec : forall cnt i last k, (k < cnt)%nat ->
    nth k (mt_fill B p cnt i last) 0 =
    (let prev := nth k (last :: mt_fill B p cnt i last) 0 in
     mt_f p * Z.lxor prev (prev / 2 ^ (mt_w p - 2)) + (i + Z.of_nat k)) mod 2 ^ mt_w p.
  Proof.
    induction cnt as [|cnt IH]; intros i last k H; [lia|].
    cbn [mt_fill]. rewrite fill_one. destruct k as [|k].
    - cbn [nth]. cbv zeta. rewrite Z.add_0_r. reflexivity.
    - cbn [nth]. rewrite IH by lia. cbn [nth]. cbv zeta.
      replace (i + 1 + Z.of_nat k) with (i + Z.of_nat (S k)) by lia. reflexivity.
  Qed.

  Definition init_state (seed : Z) : list Z :=
    let first := Z.land seed (pmask B (mt_w p)) in
    first :: mt_fill B p (Z.to_nat (mt_n p - 1)) 1 first.

  Lemma init_len : forall seed, length (init_state seed) = n.
  Proof.
    intros seed. unfold init_state. cbn [length]. rewrite fill_len. unfold n. red in HG. lia.
  Qed.

  Lemma init_seeded : forall seed x, (forall i, (i < n)%nat -> x i = nth i (init_state seed) 0) ->
    mt_seeded (mt_w p) (mt_f p) seed n x.
  Proof.
    intros seed x Hx. pose proof n_pos as NP. red. split.
    - rewrite Hx by lia. unfold init_state. cbn [nth]. apply land_pmask. red in HG. lia.
    - intros i Hi. destruct i as [|i]; [lia|].
      rewrite !Hx by lia. replace (S i - 1)%nat with i by lia.
      unfold init_state at 1. cbn [nth].
      rewrite fill_spec by (unfold n in Hi; red in HG; lia). cbv zeta.
      replace (1 + Z.of_nat i) with (Z.of_nat (S i)) by lia.
      reflexivity.
  Qed.

  (** The sequence of words. *)
  Definition next_word (win : list Z) : Z :=
    Z.lxor (nth (m mod n) win 0)
      (twist (mt_a p) (nth 0 win 0 / 2 ^ mt_r p * 2 ^ mt_r p + nth (1 mod n) win 0 mod 2 ^ mt_r p)).

  Definition mt_words (seed : Z) : nat -> Z := wseq 0 (init_state seed) next_word.

  Lemma map_nth_seq : forall (x : nat -> Z) k j c, (j < c)%nat -> nth j (map x (seq k c)) 0 = x (k + j)%nat.
  Proof.
    intros x k j c H.
    rewrite (nth_indep _ 0 (x 0%nat)) by (rewrite map_length, seq_length; lia).
    rewrite map_nth, seq_nth by lia. reflexivity.
  Qed.

  Lemma words_recur : forall seed, mt_recurrence (mt_r p) (mt_a p) n m (mt_words seed).
  Proof.
    intros seed k. pose proof n_pos as NP.
    pose proof (wseq_step 0 (init_state seed) next_word k) as E.
    rewrite init_len in E. unfold mt_words. rewrite E. unfold next_word.
    assert (m mod n < n)%nat by (apply Nat.mod_upper_bound; lia).
    assert (1 mod n < n)%nat by (apply Nat.mod_upper_bound; lia).
    rewrite !map_nth_seq by lia. rewrite Nat.add_0_r. reflexivity.
  Qed.

  Lemma words_seeded : forall seed, mt_seeded (mt_w p) (mt_f p) seed n (mt_words seed).
  Proof.
    intros seed. apply init_seeded. intros i Hi. apply wseq_init. rewrite init_len. exact Hi.
  Qed.

  (** Seeding and recurrence determine the sequence, and keep it in range. *)
  Lemma seq_unique : forall seed x y,
    mt_seeded (mt_w p) (mt_f p) seed n x -> mt_recurrence (mt_r p) (mt_a p) n m x ->
    mt_seeded (mt_w p) (mt_f p) seed n y -> mt_recurrence (mt_r p) (mt_a p) n m y ->
    forall i, x i = y i.
  Proof.
    intros seed x y [X0 X1] X2 [Y0 Y1] Y2 i. pose proof n_pos as NP.
    induction i as [i IH] using lt_wf_ind.
    destruct (Nat.lt_ge_cases i n) as [L|L].
    - destruct i as [|i]; [rewrite X0, Y0; reflexivity|].
      rewrite X1, Y1 by lia. rewrite (IH (S i - 1)%nat) by lia. reflexivity.
    - replace i with ((i - n) + n)%nat by lia. rewrite X2, Y2.
      assert (m mod n < n)%nat by (apply Nat.mod_upper_bound; lia).
      assert (1 mod n < n)%nat by (apply Nat.mod_upper_bound; lia).
      rewrite (IH (i - n)%nat), (IH (i - n + m mod n)%nat), (IH (i - n + 1 mod n)%nat) by lia. reflexivity.
  Qed.

  Lemma join_range : forall a b, 0 <= a < 2 ^ mt_w p ->
    0 <= a / 2 ^ mt_r p * 2 ^ mt_r p + b mod 2 ^ mt_r p < 2 ^ mt_w p.
  Proof.
    intros a b Ha. red in HG.
    assert (P : 0 < 2 ^ mt_r p) by (apply Z.pow_pos_nonneg; lia).
    pose proof (Z.mod_pos_bound b _ P).
    assert (0 <= a / 2 ^ mt_r p) by (apply Z.div_pos; lia).
    assert (a / 2 ^ mt_r p < 2 ^ (mt_w p - mt_r p)).
    { apply Z.div_lt_upper_bound; [lia|]. rewrite <- Z.pow_add_r by lia.
      replace (mt_r p + (mt_w p - mt_r p)) with (mt_w p) by lia. lia. }
    assert (2 ^ mt_w p = 2 ^ (mt_w p - mt_r p) * 2 ^ mt_r p)
      by (rewrite <- Z.pow_add_r by lia; f_equal; lia).
    nia.
  Qed.

  Lemma twist_range : forall y, 0 <= y < 2 ^ mt_w p -> 0 <= twist (mt_a p) y < 2 ^ mt_w p.
  Proof.
    intros y Hy. unfold twist. red in HG. apply lxor_range.
    - change 2 with (2 ^ 1) at 1 3. apply div_range; lia.
    - destruct (Z.odd y); lia.
  Qed.

  Lemma seq_range : forall seed x,
    mt_seeded (mt_w p) (mt_f p) seed n x -> mt_recurrence (mt_r p) (mt_a p) n m x ->
    forall i, 0 <= x i < 2 ^ mt_w p.
  Proof.
    intros seed x [X0 X1] X2 i. pose proof n_pos as NP.
    assert (P : 0 < 2 ^ mt_w p) by (apply Z.pow_pos_nonneg; red in HG; lia).
    induction i as [i IH] using lt_wf_ind.
    destruct (Nat.lt_ge_cases i n) as [L|L].
    - destruct i as [|i]; [rewrite X0|rewrite X1 by lia]; apply Z.mod_pos_bound; exact P.
    - replace i with ((i - n) + n)%nat by lia. rewrite X2.
      assert (m mod n < n)%nat by (apply Nat.mod_upper_bound; lia).
      apply lxor_range; [apply IH; lia|].
      apply twist_range, join_range, IH. lia.
  Qed.

  (** One word of the twisting loops. *)
  Definition block (x : nat -> Z) (base i : nat) (st : list Z) : Prop :=
    length st = n /\
    forall q, (q < n)%nat -> nth q st 0 = x (base + q + (if (q <? i)%nat then n else 0))%nat.

  Lemma twist_step : forall x base i i1 j st,
    (forall k, 0 <= x k < 2 ^ mt_w p) -> mt_recurrence (mt_r p) (mt_a p) n m x ->
    block x base i st -> (i < n)%nat -> (i1 < n)%nat -> (j < n)%nat ->
    (base + i1 + (if (i1 <? i)%nat then n else 0) = base + i + 1 mod n)%nat ->
    (base + j + (if (j <? i)%nat then n else 0) = base + i + m mod n)%nat ->
    exists st', mt_twist B p st i i1 j = Ok st' /\ block x base (S i) st'.
  Proof.
    intros x base i i1 j st HR HX [HL HB] Hi Hi1 Hj E1 Ej.
    unfold mt_twist. rewrite !get_ok by lia. cbn [bind].
    eexists. split; [reflexivity|]. split; [rewrite upd_len; exact HL|].
    intros q Hq. rewrite upd_nth by lia.
    rewrite !HB by lia. rewrite E1, Ej.
    rewrite Nat.ltb_irrefl. rewrite Nat.add_0_r.
    destruct (Nat.eqb_spec q i) as [->|NE].
    - replace (i <? S i)%nat with true by (symmetry; apply Nat.ltb_lt; lia).
      rewrite (HX (base + i)%nat). unfold twist. rewrite Z.lxor_assoc.
      rewrite join_bits.
      2:{ red in HG; lia. }
      2:{ specialize (HR (base + i)%nat). red in HG.
          assert (2 ^ mt_w p <= 2 ^ B) by (apply Z.pow_le_mono_r; lia). lia. }
      rewrite land1_odd. reflexivity.
    - replace (q <? S i)%nat with (q <? i)%nat; [reflexivity|].
      destruct (Nat.ltb_spec q i), (Nat.ltb_spec q (S i)); lia || reflexivity.
  Qed.

  Lemma twists_spec : forall x base, (forall k, 0 <= x k < 2 ^ mt_w p) ->
    mt_recurrence (mt_r p) (mt_a p) n m x ->
    forall cnt i j st, block x base i st -> (i + cnt <= n - 1)%nat -> (j + cnt <= n)%nat ->
    (j = i + m \/ j + n = i + m)%nat ->
    exists st', mt_twists B p cnt i j st = Ok st' /\ block x base (i + cnt) st'.
  Proof.
    intros x base HR HX. pose proof n_pos as NP.
    induction cnt as [|cnt IH]; intros i j st HB Hi Hj Ej.
    - exists st. rewrite Nat.add_0_r. split; [reflexivity | exact HB].
    - cbn [mt_twists].
      destruct (twist_step x base i (i + 1) j st HR HX HB) as (st' & E & HB'); try lia.
      + replace (i + 1 <? i)%nat with false by (symmetry; apply Nat.ltb_ge; lia).
        rewrite Nat.mod_small by lia. lia.
      + destruct Ej as [Ej|Ej].
        * replace (j <? i)%nat with false by (symmetry; apply Nat.ltb_ge; lia).
          rewrite Nat.mod_small by lia. lia.
        * destruct (Nat.eq_dec m n) as [Em|Em].
          -- rewrite Em, Nat.mod_same by lia.
             replace (j <? i)%nat with false by (symmetry; apply Nat.ltb_ge; lia). lia.
          -- rewrite Nat.mod_small by lia.
             replace (j <? i)%nat with true by (symmetry; apply Nat.ltb_lt; lia). lia.
      + rewrite E. cbn [bind].
        destruct (IH (i + 1)%nat (j + 1)%nat st') as (st2 & E2 & HB2); try lia.
        { replace (i + 1)%nat with (S i) by lia. exact HB'. }
        exists st2. split; [exact E2|]. replace (i + S cnt)%nat with (i + 1 + cnt)%nat by lia. exact HB2.
  Qed.

  Lemma gen_rand_spec : forall x base g, (forall k, 0 <= x k < 2 ^ mt_w p) ->
    mt_recurrence (mt_r p) (mt_a p) n m x -> mt_p g = p ->
    block x base 0 (mt_state g) ->
    exists st', mt_gen_rand B g = Ok (Mt p 0 (mt_fresh g) (mt_seed g) st') /\ block x (base + n) 0 st'.
  Proof.
    intros x base g HR HX HP HB. pose proof n_pos as NP.
    unfold mt_gen_rand. cbv zeta. rewrite HP. fold m.
    replace (Z.to_nat (mt_n p - 1)) with (n - 1)%nat by (unfold n; red in HG; lia).
    replace (Z.to_nat (mt_n p - mt_m p)) with (n - m)%nat by (unfold n, m; red in HG; lia).
    destruct (twists_spec x base HR HX (n - m) 0 m _ HB) as (s1 & E1 & B1); try lia.
    rewrite E1. cbn [bind].
    destruct (twists_spec x base HR HX (n - 1 - (n - m)) (n - m) 0 s1) as (s2 & E2 & B2); try lia.
    { exact B1. }
    rewrite E2. cbn [bind].
    replace (n - m + (n - 1 - (n - m)))%nat with (n - 1)%nat in B2 by lia.
    destruct (twist_step x base (n - 1) 0 (m - 1) s2 HR HX B2) as (s3 & E3 & B3); try lia.
    - destruct (Nat.eq_dec n 1) as [->|N1]; [reflexivity|].
      replace (0 <? n - 1)%nat with true by (symmetry; apply Nat.ltb_lt; lia).
      rewrite Nat.mod_small by lia. lia.
    - destruct (Nat.eq_dec m n) as [Em|Em].
      + rewrite Em, Nat.mod_same by lia. rewrite Nat.ltb_irrefl. lia.
      + rewrite Nat.mod_small by lia.
        replace (m - 1 <? n - 1)%nat with true by (symmetry; apply Nat.ltb_lt; lia). lia.
    - rewrite E3. cbn [bind]. exists s3. split; [reflexivity|].
      destruct B3 as [L3 B3]. split; [exact L3|]. intros q Hq. rewrite B3 by exact Hq.
      replace (q <? S (n - 1))%nat with true by (symmetry; apply Nat.ltb_lt; lia).
      change (q <? 0)%nat with false. cbv iota. f_equal. lia.
  Qed.

  (** The state after [k] draws. *)
  Definition mt_inv (x : nat -> Z) (k : nat) (seed : Z) (g : mt) : Prop :=
    mt_p g = p /\ mt_fresh g = false /\ mt_seed g = seed /\
    exists base i, (i <= n)%nat /\ mt_idx g = Z.of_nat i /\ (base + i = n + k)%nat /\
      block x base 0 (mt_state g).

  Definition temper (z : Z) : Z :=
    right_temper (mt_u p) (mt_d p) (mt_s p) (mt_b p) (mt_t p) (mt_c p) (mt_l p) z.

  Lemma gen_inv : forall x k seed g, (forall i, 0 <= x i < 2 ^ mt_w p) ->
    mt_recurrence (mt_r p) (mt_a p) n m x -> mt_inv x k seed g ->
    exists g', mt_gen B g = Ok (temper (x (n + k)%nat), g') /\ mt_inv x (S k) seed g'.
  Proof.
    intros x k seed g HR HX (HP & HF & HS & base & i & Hi & HI & HK & HB). pose proof n_pos as NP.
    unfold mt_gen, mt_check_init. rewrite HF. cbn [bind]. rewrite HP, HI.
    assert (Nn : mt_n p = Z.of_nat n) by (unfold n; red in HG; lia).
    destruct (Z.leb_spec (mt_n p) (Z.of_nat i)) as [L|L].
    - assert (i = n) by lia. subst i.
      destruct (gen_rand_spec x base g HR HX HP HB) as (st' & E & HB').
      rewrite E. cbn [bind mt_state mt_idx mt_p mt_fresh mt_seed].
      change (Z.to_nat 0) with O. destruct HB' as [HL' HB'].
      rewrite get_ok by lia. cbn [bind].
      rewrite HB' by lia. change (0 <? 0)%nat with false. cbv iota. rewrite !Nat.add_0_r.
      replace (base + n)%nat with (n + k)%nat by lia.
      eexists. split; [reflexivity|].
      repeat split; [exact HF | exact HS |].
      cbn [mt_idx mt_state]. exists (n + k)%nat, 1%nat.
      repeat split; try lia. replace (n + k)%nat with (base + n)%nat by lia. exact HB'.
    - cbn [bind]. destruct HB as [HL HB]. rewrite Nat2Z.id || idtac.
      rewrite HI, Nat2Z.id, get_ok by lia. cbn [bind]. rewrite HP.
      rewrite HB by lia. change (i <? 0)%nat with false. cbv iota. rewrite Nat.add_0_r.
      replace (base + i)%nat with (n + k)%nat by lia.
      eexists. split; [reflexivity|].
      repeat split; [exact HF | exact HS |].
      cbn [mt_idx mt_state]. exists base, (S i). repeat split; try lia; assumption.
  Qed.
End MT.
