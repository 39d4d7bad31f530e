(** More facts about the random number generators. *)
From Coq Require Import ZArith List Lia Bool Arith Wf_nat.
From Verif Require Import Words Spec Rand SpecRand RandFacts.
Import ListNotations.
Open Scope Z_scope.

(* ------------------------------------------------------------------ *)
(** * Mersenne twister, any number of draws *)

Fixpoint mt_draws (B : Z) (k : nat) (g : mt) : res (list Z * mt) :=
  match k with
  | O => Ok ([], g)
  | S k' => do '(z, g') <- mt_gen B g; do '(l, g2) <- mt_draws B k' g'; Ok (z :: l, g2)
  end.

Lemma check_init_inv B p (HG : par_good B p) idx seed st :
  exists g, mt_check_init B (Mt p idx true seed st) = Ok g /\ mt_inv p (mt_words B p seed) O seed g.
Proof.
  unfold mt_check_init. cbn [mt_p mt_fresh mt_seed].
  replace (mt_w p <? 2) with false by (symmetry; apply Z.ltb_ge; red in HG; lia).
  cbn [andb]. eexists. split; [reflexivity|].
  repeat split. cbn [mt_idx mt_state].
  exists O, (Z.to_nat (mt_n p)). split; [lia|]. split; [red in HG; lia|]. split; [lia|].
  split; [apply (init_len B p HG seed)|].
  intros q Hq. change (q <? 0)%nat with false. cbv iota. rewrite Nat.add_0_r. cbn [Nat.add].
  pose proof (wseq_init 0 (init_state B p seed) (next_word p) q) as E.
  rewrite (init_len B p HG) in E. exact (eq_sym (E Hq)).
Qed.

Lemma draws_inv B p (HG : par_good B p) seed k : forall j g,
  mt_inv p (mt_words B p seed) j seed g ->
  exists g', mt_draws B k g =
    Ok (map (fun i => temper p (mt_words B p seed (Z.to_nat (mt_n p) + i)%nat)) (seq j k), g') /\
    mt_inv p (mt_words B p seed) (j + k) seed g'.
Proof.
  pose proof (words_recur B p HG seed) as HX.
  pose proof (seq_range B p HG seed _ (words_seeded B p HG seed) HX) as HR.
  induction k as [|k IH]; intros j g HI.
  - exists g. rewrite Nat.add_0_r. split; [reflexivity | exact HI].
  - cbn [mt_draws].
    destruct (gen_inv B p HG _ j seed g HR HX HI) as (g1 & E1 & I1). rewrite E1. cbn [bind].
    destruct (IH (S j) g1 I1) as (g2 & E2 & I2). rewrite E2. cbn [bind].
    exists g2. split; [reflexivity|]. replace (j + S k)%nat with (S j + k)%nat by lia. exact I2.
Qed.

Lemma gen_of_init B g g1 : mt_check_init B g = Ok g1 -> mt_gen B g = mt_gen B g1.
Proof.
  intros E. unfold mt_gen at 1. rewrite E. cbn [bind].
  unfold mt_check_init in E. destruct (mt_fresh g) eqn:F.
  - destruct ((mt_w (mt_p g) <? 2) && (1 <? mt_n (mt_p g))); [discriminate|]. injection E as <-.
    unfold mt_gen, mt_check_init. cbn [mt_fresh bind]. reflexivity.
  - injection E as <-. unfold mt_gen, mt_check_init. rewrite F. reflexivity.
Qed.

Lemma draws_of_init B g g1 k : mt_check_init B g = Ok g1 -> (0 < k)%nat -> mt_draws B k g = mt_draws B k g1.
Proof.
  intros E H. destruct k; [lia|]. cbn [mt_draws]. rewrite (gen_of_init B g g1 E). reflexivity.
Qed.

(** A generator that has a pending seed behaves as given by the sequence. *)
Lemma draws_fresh B p (HG : par_good B p) idx seed st k :
  exists g', mt_draws B k (Mt p idx true seed st) =
    Ok (map (fun i => temper p (mt_words B p seed (Z.to_nat (mt_n p) + i)%nat)) (seq 0 k), g').
Proof.
  destruct k as [|k]; [eexists; reflexivity|].
  destruct (check_init_inv B p HG idx seed st) as (g & E & HI).
  rewrite (draws_of_init B _ g (S k) E) by lia.
  destruct (draws_inv B p HG seed (S k) O g HI) as (g' & E' & _).
  exists g'. exact E'.
Qed.

Lemma gen_fresh B p (HG : par_good B p) idx seed st :
  exists g', mt_gen B (Mt p idx true seed st) = Ok (temper p (mt_words B p seed (Z.to_nat (mt_n p))), g').
Proof.
  destruct (check_init_inv B p HG idx seed st) as (g & E & HI).
  rewrite (gen_of_init B _ g E).
  pose proof (words_recur B p HG seed) as HX.
  pose proof (seq_range B p HG seed _ (words_seeded B p HG seed) HX) as HR.
  destruct (gen_inv B p HG _ O seed g HR HX HI) as (g' & E' & _).
  rewrite Nat.add_0_r in E'. exists g'. exact E'.
Qed.

Lemma temper_range B p (HG : par_good B p) z : 0 <= z < 2 ^ mt_w p -> 0 <= temper p z < 2 ^ mt_w p.
Proof.
  intros H. unfold temper, right_temper. cbv zeta. red in HG.
  assert (S : forall y k d, 0 <= y < 2 ^ mt_w p -> 0 <= k -> 0 <= d ->
     0 <= Z.lxor y (Z.land (y / 2 ^ k) d) < 2 ^ mt_w p).
  { intros y k d Hy Hk Hd. apply lxor_range; [exact Hy|]. apply land_range; [apply div_range; assumption | exact Hd]. }
  apply lxor_range.
  - apply S; [|lia|lia]. apply S; [|lia|lia]. apply S; [|lia|lia]. exact H.
  - apply div_range; [|lia]. apply S; [|lia|lia]. apply S; [|lia|lia]. apply S; [|lia|lia]. exact H.
Qed.

(* ------------------------------------------------------------------ *)
(** * Linear congruential generator *)

Fixpoint lcg_draws (B : Z) (k : nat) (g : lcg) : list Z * lcg :=
  match k with
  | O => ([], g)
  | S k' => let '(x, g') := lcg_gen B g in let '(l, g2) := lcg_draws B k' g' in (x :: l, g2)
  end.

(** The sequence of the wrapping recurrence. *)
Fixpoint lcg_seq (B a c m x0 : Z) (k : nat) : Z :=
  match k with
  | O => x0
  | S k' => ((a * lcg_seq B a c m x0 k' + c) mod 2 ^ B) mod m
  end.

Lemma lcg_gen_eq B g : 0 <= B -> lcg_gen B g =
  let v := ((lcg_a g * lcg_x g + lcg_c g) mod 2 ^ B) mod lcg_m g in
  (v, Lcg (lcg_a g) (lcg_c g) (lcg_m g) v).
Proof.
  intros HB. unfold lcg_gen. cbv zeta. rewrite Z.add_mod_idemp_l by (apply Z.pow_nonzero; lia). reflexivity.
Qed.

Lemma lcg_draws_spec B a c m x0 : 0 <= B -> forall k j,
  lcg_draws B k (Lcg a c m (lcg_seq B a c m x0 j)) =
  (map (lcg_seq B a c m x0) (seq (S j) k), Lcg a c m (lcg_seq B a c m x0 (j + k))).
Proof.
  intros HB. induction k as [|k IH]; intros j.
  - cbn [lcg_draws seq map]. rewrite Nat.add_0_r. reflexivity.
  - cbn [lcg_draws seq map]. rewrite lcg_gen_eq by exact HB. cbn [lcg_a lcg_c lcg_m lcg_x]. cbv zeta.
    change (((a * lcg_seq B a c m x0 j + c) mod 2 ^ B) mod m) with (lcg_seq B a c m x0 (S j)).
    rewrite (IH (S j)). rewrite <- Nat.add_succ_comm. reflexivity.
Qed.

Lemma lcg_seq_range B a c m x0 k : 0 < m -> 0 <= lcg_seq B a c m x0 (S k) < m.
Proof. intros H. cbn [lcg_seq]. apply Z.mod_pos_bound. exact H. Qed.

(** No wrap-around: the seed and every later state stay small enough. *)
Lemma lcg_seq_exact B a c m x0 : 0 <= B -> 0 <= a -> 0 <= c -> 0 < m -> 0 <= x0 ->
  a * x0 + c < 2 ^ B -> a * (m - 1) + c < 2 ^ B ->
  lcg_recurrence a c m (lcg_seq B a c m x0).
Proof.
  intros HB Ha Hc Hm Hx H0 H1 k. cbn [lcg_seq]. f_equal. apply Z.mod_small.
  destruct k as [|k].
  - cbn [lcg_seq]. nia.
  - pose proof (lcg_seq_range B a c m x0 k Hm).
    assert (a * lcg_seq B a c m x0 (S k) <= a * (m - 1)) by (apply Z.mul_le_mono_nonneg_l; lia).
    assert (0 <= a * lcg_seq B a c m x0 (S k)) by (apply Z.mul_nonneg_nonneg; lia).
    lia.
Qed.

(* ------------------------------------------------------------------ *)
(** * Lagged Fibonacci *)

Fixpoint lf_draws (checks : bool) (B : Z) (k : nat) (g : lfg) : res (list Z * lfg) :=
  match k with
  | O => Ok ([], g)
  | S k' => do '(z, g') <- lf_gen checks B g; do '(l, g2) <- lf_draws checks B k' g'; Ok (z :: l, g2)
  end.

Lemma lf_fill_len B w cnt : forall g, length (lf_fill B w cnt g) = cnt.
Proof.
  induction cnt as [|cnt IH]; intros g; cbn [lf_fill]; [reflexivity|].
  destruct (lf_word B (Z.to_nat ((w + 31) / 32)) 0 1 g) as [x g']. cbn [length]. rewrite IH. reflexivity.
Qed.

Lemma lf_fill_range B w cnt : 0 < w <= B -> forall g i, (i < cnt)%nat ->
  0 <= nth i (lf_fill B w cnt g) 0 < 2 ^ w.
Proof.
  intros Hw. induction cnt as [|cnt IH]; intros g i Hi; [lia|]. cbn [lf_fill].
  destruct (lf_word B (Z.to_nat ((w + 31) / 32)) 0 1 g) as [x g'].
  destruct i as [|i]; cbn [nth].
  - rewrite Z.land_comm, land_pmask by lia. apply Z.mod_pos_bound. apply Z.pow_pos_nonneg; lia.
  - apply IH. lia.
Qed.

Section LF.
  Variables (checks : bool) (B w : Z) (s r : nat).
  Hypotheses (HS : (1 <= s < r)%nat) (HW : 0 < w < B) (HRB : Z.of_nat r < 2 ^ B)
    (HC : checks = false \/ 2 * Z.of_nat r <= 2 ^ B).

  Definition lf_init (seed : Z) : list Z := lf_fill B w r (Lcg 40014 0 2147483563 seed).
  Definition lf_carry0 (seed : Z) : Z := if last (lf_init seed) 0 =? 0 then 1 else 0.

  Definition lf_next (win : list (Z * Z)) : Z * Z :=
    let d := fst (nth (r - s) win (0, 0)) - fst (nth 0 win (0, 0)) - snd (nth (r - 1) win (0, 0)) in
    (d mod 2 ^ w, if d <? 0 then 1 else 0).

  Definition lf_pairs (seed : Z) : nat -> Z * Z :=
    wseq (0, 0) (map (fun x => (x, lf_carry0 seed)) (lf_init seed)) lf_next.
  Definition lf_words (seed : Z) (i : nat) : Z := fst (lf_pairs seed i).
  Definition lf_borrows (seed : Z) (i : nat) : Z := snd (lf_pairs seed i).

  Lemma lf_pairs_init seed i : (i < r)%nat -> lf_pairs seed i = (nth i (lf_init seed) 0, lf_carry0 seed).
  Proof.
    intros H. unfold lf_pairs. rewrite wseq_init by (rewrite map_length; unfold lf_init; rewrite lf_fill_len; lia).
    rewrite (nth_indep _ (0, 0) (0, lf_carry0 seed)) by (rewrite map_length; unfold lf_init; rewrite lf_fill_len; lia).
    exact (map_nth (fun x => (x, lf_carry0 seed)) (lf_init seed) 0 i).
  Qed.

  Lemma lf_recur seed : swc_recurrence w s r (lf_words seed) (lf_borrows seed).
  Proof.
    intros i Hi. cbv zeta. unfold lf_words, lf_borrows.
    assert (HLn : length (map (fun x => (x, lf_carry0 seed)) (lf_init seed)) = r)
      by (rewrite map_length; unfold lf_init; apply lf_fill_len).
    assert (E : lf_pairs seed (i - r + r) = lf_next (map (lf_pairs seed) (seq (i - r) r))).
    { unfold lf_pairs. generalize (i - r)%nat. intros k0. rewrite <- HLn. apply wseq_step. }
    replace (i - r + r)%nat with i in E by lia.
    assert (N : forall j, (j < r)%nat -> nth j (map (lf_pairs seed) (seq (i - r) r)) (0, 0) = lf_pairs seed (i - r + j)%nat).
    { intros j Hj. rewrite (nth_indep _ (0, 0) (lf_pairs seed 0%nat)) by (rewrite map_length, seq_length; lia).
      rewrite map_nth, seq_nth by lia. reflexivity. }
    rewrite E. unfold lf_next. rewrite !N by lia. cbn [fst snd].
    replace (i - r + (r - s))%nat with (i - s)%nat by lia.
    replace (i - r + 0)%nat with (i - r)%nat by lia.
    replace (i - r + (r - 1))%nat with (i - 1)%nat by lia.
    split; reflexivity.
  Qed.

  Definition swc_range (x c : nat -> Z) : Prop := forall i, 0 <= x i < 2 ^ w /\ 0 <= c i <= 1.

  Lemma lf_range seed : swc_range (lf_words seed) (lf_borrows seed).
  Proof.
    assert (P : 0 < 2 ^ w) by (apply Z.pow_pos_nonneg; lia).
    intros i. destruct (Nat.lt_ge_cases i r) as [L|L].
    - unfold lf_words, lf_borrows. rewrite lf_pairs_init by exact L. cbn [fst snd].
      split; [apply lf_fill_range; lia|]. unfold lf_carry0. destruct (_ =? _); lia.
    - destruct (lf_recur seed i L) as [E1 E2]. rewrite E1, E2.
      split; [apply Z.mod_pos_bound; exact P|]. destruct (_ <? _); lia.
  Qed.

  Definition lf_inv (x c : nat -> Z) (k : nat) (g : lfg) : Prop :=
    lf_w g = w /\ lf_s g = Z.of_nat s /\ lf_r g = Z.of_nat r /\ lf_fresh g = false /\
    exists base i, (i < r)%nat /\ lf_idx g = Z.of_nat i /\ (base + i = k)%nat /\
      lf_carry g = c (r + k - 1)%nat /\ length (lf_state g) = r /\
      forall q, (q < r)%nat -> nth q (lf_state g) 0 = x (base + q + (if (q <? i)%nat then r else 0))%nat.

  Lemma lf_gen_inv x c k g : swc_recurrence w s r x c -> swc_range x c -> lf_inv x c k g ->
    exists g', lf_gen checks B g = Ok (x (r + k)%nat, g') /\ lf_inv x c (S k) g'.
  Proof.
    intros HX HRg (Ew & Es & Er & Ef & base & i & Hi & Ei & Hk & Ec & HL & HSt).
    assert (PW : 0 < 2 ^ w) by (apply Z.pow_pos_nonneg; lia).
    assert (PB : 2 * 2 ^ w <= 2 ^ B).
    { change 2 with (2 ^ 1) at 1. rewrite <- Z.pow_add_r by lia. apply Z.pow_le_mono_r; lia. }
    unfold lf_gen, lf_check_init. rewrite Ef. cbv zeta. rewrite Ei, Es, Er, Ew.
    set (psn := if (i <? s)%nat then (r + i - s)%nat else (i - s)%nat).
    assert (EP : (if Z.of_nat i <? Z.of_nat s
              then do t <- padd checks B (Z.of_nat r) (Z.of_nat i); Ok ((t - Z.of_nat s) mod 2 ^ B)
              else Ok (Z.of_nat i - Z.of_nat s)) = Ok (Z.of_nat psn)).
    { unfold psn. destruct (Nat.ltb_spec i s) as [L|L].
      - replace (Z.of_nat i <? Z.of_nat s) with true by (symmetry; apply Z.ltb_lt; lia).
        unfold padd. destruct (Z.ltb_spec (Z.of_nat r + Z.of_nat i) (2 ^ B)) as [L2|L2].
        + cbn [bind]. f_equal. rewrite Z.mod_small; lia.
        + destruct HC as [-> | HC2]; [|lia]. cbn [bind]. f_equal.
          rewrite Zminus_mod_idemp_l. rewrite Z.mod_small; lia.
      - replace (Z.of_nat i <? Z.of_nat s) with false by (symmetry; apply Z.ltb_ge; lia).
        f_equal. lia. }
    rewrite EP. cbn [bind]. rewrite !Nat2Z.id.
    assert (HP : (psn < r)%nat) by (unfold psn; destruct (i <? s)%nat eqn:Q; [apply Nat.ltb_lt in Q | apply Nat.ltb_ge in Q]; lia).
    rewrite !get_ok by lia. cbn [bind].
    rewrite (HSt psn HP), (HSt i Hi). rewrite Nat.ltb_irrefl, Nat.add_0_r.
    replace (base + psn + (if (psn <? i)%nat then r else 0))%nat with (r + k - s)%nat.
    2:{ unfold psn. destruct (Nat.ltb_spec i s).
        - replace (r + i - s <? i)%nat with false by (symmetry; apply Nat.ltb_ge; lia). lia.
        - replace (i - s <? i)%nat with true by (symmetry; apply Nat.ltb_lt; lia). lia. }
    rewrite Hk, Ec.
    destruct (HX (r + k)%nat ltac:(lia)) as [E1 E2]. cbv zeta in E1, E2.
    replace (r + k - r)%nat with k in E1, E2 by lia.
    destruct (HRg (r + k - s)%nat) as [R1 _]. destruct (HRg k) as [R2 _]. destruct (HRg (r + k - 1)%nat) as [_ R3].
    set (xp := x (r + k - s)%nat) in *. set (xk := x k) in *. set (ck := c (r + k - 1)%nat) in *.
    unfold padd. replace (xk + ck <? 2 ^ B) with true by (symmetry; apply Z.ltb_lt; lia).
    cbn [bind].
    replace (w =? B) with false by (symmetry; apply Z.eqb_neq; lia).
    assert (EX : (if xk + ck <=? xp
       then (((xp - xk) mod 2 ^ B - ck) mod 2 ^ B, 0)
       else ((((2 ^ w - xk) mod 2 ^ B - ck) mod 2 ^ B + xp) mod 2 ^ B, 1)) = (x (r + k)%nat, c (r + k)%nat)).
    { destruct (Z.leb_spec (xk + ck) xp) as [L|L].
      - replace (xp - xk - ck <? 0) with false in E2 by (symmetry; apply Z.ltb_ge; lia).
        rewrite E1, E2. f_equal.
        rewrite (Z.mod_small (xp - xk)) by lia. rewrite !Z.mod_small; lia.
      - replace (xp - xk - ck <? 0) with true in E2 by (symmetry; apply Z.ltb_lt; lia).
        rewrite E1, E2. f_equal.
        rewrite (Z.mod_small (2 ^ w - xk)) by lia. rewrite (Z.mod_small (2 ^ w - xk - ck)) by lia.
        rewrite Z.mod_small by lia.
        replace (xp - xk - ck) with (2 ^ w - xk - ck + xp + (-1) * 2 ^ w) by ring.
        rewrite Z_mod_plus_full, Z.mod_small; lia. }
    rewrite EX. eexists. split; [reflexivity|].
    split; [reflexivity|]. split; [reflexivity|]. split; [reflexivity|]. split; [exact Ef|].
    cbn [lf_idx lf_carry lf_state].
    replace (r + S k - 1)%nat with (r + k)%nat by lia.
    destruct (Z.leb_spec (Z.of_nat r) (Z.of_nat i + 1)) as [L|L].
    - exists (S k), O. split; [lia|]. split; [reflexivity|]. split; [lia|]. split; [reflexivity|].
      split; [rewrite upd_len; exact HL|]. intros q Hq. rewrite upd_nth by lia.
      change (q <? 0)%nat with false. cbv iota.
      destruct (Nat.eqb_spec q i) as [->|NE].
      + f_equal. lia.
      + rewrite HSt by exact Hq. replace (q <? i)%nat with true by (symmetry; apply Nat.ltb_lt; lia).
        f_equal. lia.
    - exists base, (S i). split; [lia|]. split; [lia|]. split; [lia|]. split; [reflexivity|].
      split; [rewrite upd_len; exact HL|]. intros q Hq. rewrite upd_nth by lia.
      destruct (Nat.eqb_spec q i) as [->|NE].
      + replace (i <? S i)%nat with true by (symmetry; apply Nat.ltb_lt; lia). f_equal. lia.
      + rewrite HSt by exact Hq. do 2 f_equal.
        destruct (Nat.ltb_spec q i), (Nat.ltb_spec q (S i)); lia || reflexivity.
  Qed.

  Lemma lf_fresh_inv seed carry idx st :
    lf_inv (lf_words seed) (lf_borrows seed) 0
      (lf_check_init B (Lfg w (Z.of_nat s) (Z.of_nat r) true seed carry idx st)).
  Proof.
    unfold lf_check_init. cbn [lf_fresh lf_w lf_s lf_r lf_seed]. cbv zeta. rewrite Nat2Z.id.
    fold (lf_init seed). fold (lf_carry0 seed).
    split; [reflexivity|]. split; [reflexivity|]. split; [reflexivity|]. split; [reflexivity|].
    cbn [lf_idx lf_carry lf_state].
    exists O, O. split; [lia|]. split; [reflexivity|]. split; [lia|].
    split; [unfold lf_borrows; rewrite lf_pairs_init by lia; reflexivity|].
    split; [apply lf_fill_len|].
    intros q Hq. change (q <? 0)%nat with false. cbv iota. rewrite Nat.add_0_r. cbn [Nat.add].
    unfold lf_words. rewrite lf_pairs_init by exact Hq. reflexivity.
  Qed.

  Lemma lf_gen_init g : lf_gen checks B (lf_check_init B g) = lf_gen checks B g.
  Proof.
    assert (I : forall h, lf_fresh h = false -> lf_check_init B h = h)
      by (intros h Hh; unfold lf_check_init; rewrite Hh; reflexivity).
    unfold lf_gen. rewrite (I (lf_check_init B g)); [reflexivity|].
    unfold lf_check_init. destruct (lf_fresh g) eqn:F; [reflexivity | exact F].
  Qed.

  Lemma lf_draws_inv x c : swc_recurrence w s r x c -> swc_range x c -> forall k j g, lf_inv x c j g ->
    exists g', lf_draws checks B k g = Ok (map (fun i => x (r + i)%nat) (seq j k), g').
  Proof.
    intros HX HRg. induction k as [|k IH]; intros j g HI; [eexists; reflexivity|].
    cbn [lf_draws]. destruct (lf_gen_inv x c j g HX HRg HI) as (g1 & E1 & I1). rewrite E1. cbn [bind].
    destruct (IH (S j) g1 I1) as (g2 & E2). rewrite E2. cbn [bind]. exists g2. reflexivity.
  Qed.

  Lemma lf_draws_init k g : (0 < k)%nat -> lf_draws checks B k g = lf_draws checks B k (lf_check_init B g).
  Proof. intros H. destruct k; [lia|]. cbn [lf_draws]. rewrite lf_gen_init. reflexivity. Qed.

  Lemma lf_draws_fresh seed carry idx st k :
    exists g', lf_draws checks B k (Lfg w (Z.of_nat s) (Z.of_nat r) true seed carry idx st) =
      Ok (map (fun i => lf_words seed (r + i)%nat) (seq 0 k), g').
  Proof.
    destruct k as [|k]; [eexists; reflexivity|].
    rewrite lf_draws_init by lia.
    exact (lf_draws_inv _ _ (lf_recur seed) (lf_range seed) (S k) O _ (lf_fresh_inv seed carry idx st)).
  Qed.
End LF.

(* ------------------------------------------------------------------ *)
(** * Bytes from the system *)

Lemma push_front_rev : forall bs q, fold_left (fun q x => x :: q) bs q = rev bs ++ q :> list Z.
Proof.
  induction bs as [|b bs IH]; intros q; cbn [fold_left rev app]; [reflexivity|].
  rewrite IH. rewrite <- app_assoc. reflexivity.
Qed.

Definition sys_bytes (sys : option (list Z)) : list Z := match sys with Some bs => bs | None => [] end.

Lemma gen_random_none q buf : gen_random q None buf = gen_random q (Some []) buf.
Proof. reflexivity. Qed.

Lemma gen_random_some q bs buf : (length bs <= length buf)%nat ->
  let '(ok, out, q') := gen_random q (Some bs) buf in
  if ok then length out = length buf /\ rev q ++ bs = out ++ rev q'
  else rev q' = rev q ++ bs /\ (length (rev q ++ bs) < length buf)%nat.
Proof.
  intros H. unfold gen_random. cbv zeta.
  replace (firstn (length bs) (bs ++ skipn (length bs) buf)) with bs
    by (rewrite firstn_app, firstn_all, Nat.sub_diag; cbn [firstn]; rewrite app_nil_r; reflexivity).
  rewrite push_front_rev.
  destruct (Nat.ltb_spec (length (rev bs ++ q)) (length buf)) as [L|L].
  - rewrite app_length, rev_length in L. rewrite rev_app_distr, rev_involutive, app_length, rev_length.
    split; [reflexivity|lia].
  - rewrite firstn_length, rev_length. split; [lia|].
    rewrite <- (rev_involutive bs) at 1. rewrite <- rev_app_distr.
    rewrite <- (firstn_skipn (length buf) (rev (rev bs ++ q))) at 1. f_equal.
    rewrite skipn_rev. reflexivity.
Qed.

Lemma gen_random_spec q sys buf : (length (sys_bytes sys) <= length buf)%nat ->
  let '(ok, out, q') := gen_random q sys buf in
  if ok then length out = length buf /\ rev q ++ sys_bytes sys = out ++ rev q'
  else rev q' = rev q ++ sys_bytes sys /\ (length (rev q ++ sys_bytes sys) < length buf)%nat.
Proof.
  destruct sys as [bs|]; [exact (gen_random_some q bs buf)|].
  rewrite gen_random_none. exact (gen_random_some q [] buf).
Qed.

(* ------------------------------------------------------------------ *)
(** * The initial words of the lagged Fibonacci generator *)

Lemma lf_factor B : 32 <= B -> forall f,
  ((f mod 2 ^ B) * (if B <=? 32 then 0 else pmask B 32 + 1)) mod 2 ^ B = (f * 2 ^ 32) mod 2 ^ B.
Proof.
  intros HB f. assert (P : 0 < 2 ^ B) by (apply Z.pow_pos_nonneg; lia).
  destruct (Z.leb_spec B 32).
  - replace B with 32 in * by lia. rewrite Z.mul_0_r, Z.mod_mul by lia. apply Z.mod_0_l. lia.
  - rewrite pmask_val by lia. rewrite Z.sub_add. rewrite Z.mul_mod_idemp_l by lia. reflexivity.
Qed.

Lemma lf_word_spec B seed : 32 <= B -> let z := lcg_seq B 40014 0 2147483563 seed in
  forall n sum f j, 0 <= sum < 2 ^ B ->
  lf_word B n sum (f mod 2 ^ B) (Lcg 40014 0 2147483563 (z j)) =
  ((sum + f * le_value (2 ^ 32) (map z (seq (S j) n))) mod 2 ^ B, Lcg 40014 0 2147483563 (z (j + n)%nat)).
Proof.
  intros HB z. assert (P : 0 < 2 ^ B) by (apply Z.pow_pos_nonneg; lia).
  induction n as [|n IH]; intros sum f j HS.
  - cbn [lf_word seq map]. unfold le_value. cbn [fold_right]. rewrite Z.mul_0_r, Z.add_0_r, Nat.add_0_r.
    rewrite Z.mod_small by exact HS. reflexivity.
  - cbn [lf_word]. rewrite lcg_gen_eq by lia. cbn [lcg_a lcg_c lcg_m lcg_x]. cbv zeta.
    change (((40014 * z j + 0) mod 2 ^ B) mod 2147483563) with (z (S j)).
    rewrite lf_factor by exact HB.
    rewrite Z.mul_mod_idemp_r, Z.add_mod_idemp_r by lia.
    rewrite IH by (apply Z.mod_pos_bound; exact P).
    cbn [seq map]. unfold le_value. cbn [fold_right]. fold (le_value (2 ^ 32) (map z (seq (S (S j)) n))).
    rewrite Z.add_mod_idemp_l by lia.
    rewrite <- Nat.add_succ_comm. f_equal. f_equal. ring.
Qed.

Lemma lf_fill_spec B w seed : 32 <= B -> 0 < w <= B ->
  let z := lcg_seq B 40014 0 2147483563 seed in
  let n := Z.to_nat ((w + 31) / 32) in
  forall cnt j i, (i < cnt)%nat ->
  nth i (lf_fill B w cnt (Lcg 40014 0 2147483563 (z j))) 0 =
  le_value (2 ^ 32) (map z (seq (j + n * i + 1) n)) mod 2 ^ w.
Proof.
  intros HB HW z n. assert (P : 0 < 2 ^ B) by (apply Z.pow_pos_nonneg; lia).
  assert (Pw : 0 < 2 ^ w) by (apply Z.pow_pos_nonneg; lia).
  assert (E : 2 ^ B = 2 ^ w * 2 ^ (B - w)) by (rewrite <- Z.pow_add_r by lia; f_equal; lia).
  assert (P2 : 0 < 2 ^ (B - w)) by (apply Z.pow_pos_nonneg; lia).
  induction cnt as [|cnt IH]; intros j i Hi; [lia|].
  cbn [lf_fill]. fold n.
  assert (P1 : 1 < 2 ^ B) by (apply Z.pow_gt_1; lia).
  replace (lf_word B n 0 1 (Lcg 40014 0 2147483563 (z j)))
    with (lf_word B n 0 (1 mod 2 ^ B) (Lcg 40014 0 2147483563 (z j))) by (rewrite (Z.mod_small 1) by lia; reflexivity).
  unfold z. rewrite lf_word_spec by lia. fold z.
  destruct i as [|i]; cbn [nth].
  - rewrite Z.land_comm, land_pmask by lia. rewrite Z.add_0_l, Z.mul_1_l, Nat.mul_0_r, Nat.add_0_r.
    rewrite Nat.add_1_r. rewrite E. rewrite Z.rem_mul_r by lia.
    rewrite (Z.mul_comm (2 ^ w) ((_ / _) mod _)), Z_mod_plus_full. apply Z.mod_mod. lia.
  - unfold z. rewrite IH by lia. fold z.
    replace (j + n + n * i + 1)%nat with (j + n * S i + 1)%nat by lia. reflexivity.
Qed.

(* ------------------------------------------------------------------ *)
(** * Iterators *)

Inductive iter_op := INext | IClear.

Section IterFacts.
  Context {S : Type} (gen : S -> rres Z * S).

  (** The first [k] results of the source and its state after them. *)
  Fixpoint pulls (k : nat) (s : S) : list (rres Z) * S :=
    match k with
    | O => ([], s)
    | Datatypes.S k' => let '(l, s') := pulls k' s in let '(x, s2) := gen s' in (l ++ [x], s2)
    end.

  Fixpoint iter_run (ops : list iter_op) (it : iter S) : list (option Z) * iter S :=
    match ops with
    | [] => ([], it)
    | INext :: ops' =>
        let '(o, it') := iter_next gen it in
        let '(l, it2) := iter_run ops' it' in (o :: l, it2)
    | IClear :: ops' => iter_run ops' (iter_clear_error it)
    end.

  Definition values (l : list (rres Z)) : list Z :=
    flat_map (fun r => match r with ROk x => [x] | RErr _ => [] end) l.
  Definition somes (l : list (option Z)) : list Z :=
    flat_map (fun r => match r with Some x => [x] | None => [] end) l.

  Definition pending (l : list (rres Z)) (e : option rand_err) : Prop :=
    forall e', e = Some e' -> exists l', l = l' ++ [RErr e'].

  Lemma iter_run_spec s : forall ops it k,
    it_inner it = snd (pulls k s) -> pending (fst (pulls k s)) (it_err it) ->
    exists k', let '(out, it') := iter_run ops it in
      (k <= k')%nat /\ it_inner it' = snd (pulls k' s) /\
      pending (fst (pulls k' s)) (it_err it') /\
      values (fst (pulls k' s)) = values (fst (pulls k s)) ++ somes out.
  Proof.
    induction ops as [|o ops IH]; intros it k HI HE.
    - exists k. cbn [iter_run]. split; [lia|]. split; [exact HI|]. split; [exact HE|].
      cbn. rewrite app_nil_r. reflexivity.
    - destruct o; cbn [iter_run].
      + unfold iter_next. destruct (it_err it) as [e|] eqn:Ee.
        * destruct (IH it k HI) as (k' & H); [rewrite Ee; exact HE|].
          exists k'. destruct (iter_run ops it) as [l it2]. exact H.
        * rewrite HI.
          destruct (gen (snd (pulls k s))) as [[x|e] s'] eqn:G.
          -- assert (EP : pulls (Datatypes.S k) s = (fst (pulls k s) ++ [ROk x], s')).
             { cbn [pulls]. destruct (pulls k s) as [l0 s0]. cbn [snd] in G. rewrite G. reflexivity. }
             destruct (IH (Iter s' None) (Datatypes.S k)) as (k' & H).
             { rewrite EP. reflexivity. }
             { intros e' E'. discriminate. }
             exists k'. destruct (iter_run ops (Iter s' None)) as [l it2].
             destruct H as (H1 & H2 & H3 & H4). split; [lia|]. split; [exact H2|]. split; [exact H3|].
             rewrite H4, EP. cbn [fst]. unfold values. rewrite flat_map_app. cbn.
             rewrite <- app_assoc. reflexivity.
          -- assert (EP : pulls (Datatypes.S k) s = (fst (pulls k s) ++ [RErr e], s')).
             { cbn [pulls]. destruct (pulls k s) as [l0 s0]. cbn [snd] in G. rewrite G. reflexivity. }
             destruct (IH (Iter s' (Some e)) (Datatypes.S k)) as (k' & H).
             { rewrite EP. reflexivity. }
             { intros e' E'. injection E' as <-. rewrite EP. eexists. reflexivity. }
             exists k'. destruct (iter_run ops (Iter s' (Some e))) as [l it2].
             destruct H as (H1 & H2 & H3 & H4). split; [lia|]. split; [exact H2|]. split; [exact H3|].
             rewrite H4, EP. cbn [fst]. unfold values. rewrite flat_map_app. cbn.
             rewrite app_nil_r. reflexivity.
      + destruct (IH (iter_clear_error it) k HI) as (k' & H).
        { intros e' E'. discriminate. }
        exists k'. exact H.
  Qed.
End IterFacts.

(** A history of requests: what the system gave, and the caller's buffer. *)
Fixpoint random_run (reqs : list (option (list Z) * list Z)) (q : list Z) : list (bool * list Z) * list Z :=
  match reqs with
  | [] => ([], q)
  | (sys, buf) :: reqs' =>
      let '(ok, out, q1) := gen_random q sys buf in
      let '(l, q2) := random_run reqs' q1 in ((ok, out) :: l, q2)
  end.

Definition delivered (l : list (bool * list Z)) : list Z :=
  flat_map (fun r : bool * list Z => if fst r then snd r else []) l.

Lemma random_run_spec : forall reqs q,
  Forall (fun r : option (list Z) * list Z => (length (sys_bytes (fst r)) <= length (snd r))%nat) reqs ->
  let '(l, q') := random_run reqs q in
  rev q ++ flat_map (fun r : option (list Z) * list Z => sys_bytes (fst r)) reqs = delivered l ++ rev q' /\
  Forall2 (fun (r : option (list Z) * list Z) (o : bool * list Z) => fst o = true -> length (snd o) = length (snd r)) reqs l.
Proof.
  induction reqs as [|[sys buf] reqs IH]; intros q H.
  - cbn. rewrite app_nil_r. split; [reflexivity | constructor].
  - apply Forall_cons_iff in H. destruct H as [H1 H2]. cbn [fst snd] in H1.
    cbn [random_run].
    pose proof (gen_random_spec q sys buf H1) as G.
    destruct (gen_random q sys buf) as [[ok out] q1].
    specialize (IH q1 H2). destruct (random_run reqs q1) as [l q2].
    destruct IH as [IH1 IH2]. cbn [flat_map fst]. unfold delivered. cbn [flat_map fst snd].
    fold (delivered l). destruct ok.
    + destruct G as [G1 G2]. split.
      * rewrite app_assoc, G2, <- app_assoc, IH1, app_assoc. reflexivity.
      * constructor; [intros _; exact G1 | exact IH2].
    + destruct G as [G1 G2]. split.
      * rewrite app_assoc, <- G1, IH1. reflexivity.
      * constructor; [cbn [fst]; discriminate | exact IH2].
Qed.
