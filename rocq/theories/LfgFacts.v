(** The lagged Fibonacci generator with words as wide as the type (C64). *)
From Coq Require Import ZArith List Lia Bool Arith.
From Verif Require Import Words Spec Rand SpecRand SpecExact RandFacts RandFacts2.
Import ListNotations.
Open Scope Z_scope.

Section WIDE.
  Variables (B : Z) (s r : nat).
  Hypotheses (HS : (1 <= s < r)%nat) (HB : 0 < B) (HRB : Z.of_nat r < 2 ^ B).

  Definition wide_next (win : list (Z * Z)) : Z * Z :=
    let y := fst (nth 0 win (0, 0)) in
    let b := snd (nth (r - 1) win (0, 0)) in
    let d := fst (nth (r - s) win (0, 0)) - y - b in
    (d mod 2 ^ B, if y + b =? 2 ^ B then 0 else if d <? 0 then 1 else 0).
  Definition wide_pairs (seed : Z) : nat -> Z * Z :=
    wseq (0, 0) (map (fun x => (x, lf_carry0 B B r seed)) (lf_init B B r seed)) wide_next.
  Definition wide_words (seed : Z) (i : nat) : Z := fst (wide_pairs seed i).
  Definition wide_borrows (seed : Z) (i : nat) : Z := snd (wide_pairs seed i).

  Lemma wide_pairs_init seed i : (i < r)%nat -> wide_pairs seed i = (nth i (lf_init B B r seed) 0, lf_carry0 B B r seed).
  Proof.
    intros H. unfold wide_pairs. rewrite wseq_init by (rewrite map_length; unfold lf_init; rewrite lf_fill_len; lia).
    rewrite (nth_indep _ (0, 0) (0, lf_carry0 B B r seed)) by (rewrite map_length; unfold lf_init; rewrite lf_fill_len; lia).
    exact (map_nth (fun x => (x, lf_carry0 B B r seed)) (lf_init B B r seed) 0 i).
  Qed.
  Lemma wide_recur seed : wide_recurrence B s r (wide_words seed) (wide_borrows seed).
  Proof.
    intros i Hi. cbv zeta. unfold wide_words, wide_borrows.
    assert (HLn : length (map (fun x => (x, lf_carry0 B B r seed)) (lf_init B B r seed)) = r)
      by (rewrite map_length; unfold lf_init; apply lf_fill_len).
    assert (E : wide_pairs seed (i - r + r) = wide_next (map (wide_pairs seed) (seq (i - r) r))).
    { unfold wide_pairs. generalize (i - r)%nat. intros k0. pose proof (wseq_step (0, 0) (map (fun x => (x, lf_carry0 B B r seed)) (lf_init B B r seed)) wide_next k0) as X. rewrite HLn in X. exact X. }
    replace (i - r + r)%nat with i in E by lia.
    assert (N : forall j, (j < r)%nat -> nth j (map (wide_pairs seed) (seq (i - r) r)) (0, 0) = wide_pairs seed (i - r + j)%nat).
    { intros j Hj. rewrite (nth_indep _ (0, 0) (wide_pairs seed 0%nat)) by (rewrite map_length, seq_length; lia).
      rewrite map_nth, seq_nth by lia. reflexivity. }
    rewrite E. unfold wide_next. rewrite !N by lia. cbn [fst snd].
    replace (i - r + (r - s))%nat with (i - s)%nat by lia.
    replace (i - r + 0)%nat with (i - r)%nat by lia.
    replace (i - r + (r - 1))%nat with (i - 1)%nat by lia.
    split; reflexivity.
  Qed.
  Lemma wide_range seed : swc_range B (wide_words seed) (wide_borrows seed).
  Proof.
    assert (P : 0 < 2 ^ B) by (apply Z.pow_pos_nonneg; lia).
    intros i. destruct (Nat.lt_ge_cases i r) as [L|L].
    - unfold wide_words, wide_borrows. rewrite wide_pairs_init by exact L. cbn [fst snd].
      split; [apply lf_fill_range; lia|]. unfold lf_carry0. destruct (_ =? _); lia.
    - destruct (wide_recur seed i L) as [E1 E2]. rewrite E1, E2.
      split; [apply Z.mod_pos_bound; exact P|]. destruct (_ =? _); [lia|]. destruct (_ <? _); lia.
  Qed.

  Lemma wide_gen_inv x c k g : wide_recurrence B s r x c -> swc_range B x c -> lf_inv B s r x c k g ->
    exists g', lf_gen false B g = Ok (x (r + k)%nat, g') /\ lf_inv B s r x c (S k) g'.
  Proof.
    intros HX HRg (Ew & Es & Er & Ef & base & i & Hi & Ei & Hk & Ec & HL & HSt).
    assert (PW : 0 < 2 ^ B) by (apply Z.pow_pos_nonneg; lia).
    unfold lf_gen, lf_check_init. rewrite Ef. cbv zeta. rewrite Ei, Es, Er, Ew.
    set (psn := if (i <? s)%nat then (r + i - s)%nat else (i - s)%nat).
    assert (EP : (if Z.of_nat i <? Z.of_nat s
              then do t <- padd false B (Z.of_nat r) (Z.of_nat i); Ok ((t - Z.of_nat s) mod 2 ^ B)
              else Ok (Z.of_nat i - Z.of_nat s)) = Ok (Z.of_nat psn)).
    { unfold psn. destruct (Nat.ltb_spec i s) as [L|L].
      - replace (Z.of_nat i <? Z.of_nat s) with true by (symmetry; apply Z.ltb_lt; lia).
        unfold padd. destruct (Z.ltb_spec (Z.of_nat r + Z.of_nat i) (2 ^ B)) as [L2|L2].
        + cbn [bind]. f_equal. rewrite Z.mod_small; lia.
        + cbn [bind]. f_equal.
          rewrite Zminus_mod_idemp_l. rewrite Z.mod_small; lia.
      - replace (Z.of_nat i <? Z.of_nat s) with false by (symmetry; apply Z.ltb_ge; lia).
        f_equal. lia. }
    rewrite EP. cbn [bind]. rewrite !Nat2Z.id.
    assert (HP : (psn < r)%nat) by (unfold psn; destruct (i <? s)%nat eqn:Q; [apply Nat.ltb_lt in Q | apply Nat.ltb_ge in Q]; lia).
    rewrite !get_ok by lia. cbn [bind].
    rewrite (HSt psn HP), (HSt i Hi). rewrite Nat.ltb_irrefl, Nat.add_0_r.
    replace (base + psn + (if (psn <? i)%nat then r else 0))%nat with (r + k - s)%nat.
    2:{ unfold psn. destruct (Nat.ltb_spec i s).
        - replace (r + i - s <? i)%nat with false by (symmetry; apply Nat.ltb_ge; lia). lia.
        - replace (i - s <? i)%nat with true by (symmetry; apply Nat.ltb_lt; lia). lia. }
    rewrite Hk, Ec.
    destruct (HX (r + k)%nat ltac:(lia)) as [E1 E2]. cbv zeta in E1, E2.
    replace (r + k - r)%nat with k in E1, E2 by lia.
    destruct (HRg (r + k - s)%nat) as [R1 _]. destruct (HRg k) as [R2 _]. destruct (HRg (r + k - 1)%nat) as [_ R3].
    set (xp := x (r + k - s)%nat) in *. set (xk := x k) in *. set (ck := c (r + k - 1)%nat) in *.
    assert (EX : (do sum <- padd false B xk ck;
        let '(xi, carry) := if sum <=? xp then (((xp - xk) mod 2 ^ B - ck) mod 2 ^ B, 0)
          else (((((if B =? B then 0 else 2 ^ B) - xk) mod 2 ^ B - ck) mod 2 ^ B + xp) mod 2 ^ B, 1) in
        Ok (xi, carry)) = Ok (x (r + k)%nat, c (r + k)%nat)).
    { rewrite Z.eqb_refl. unfold padd. destruct (Z.ltb_spec (xk + ck) (2 ^ B)) as [LB|LB]; cbn [bind].
      - destruct (Z.eqb_spec (xk + ck) (2 ^ B)) as [|_]; [lia|]. destruct (Z.leb_spec (xk + ck) xp) as [L|L].
        + replace (xp - xk - ck <? 0) with false in E2 by (symmetry; apply Z.ltb_ge; lia).
          rewrite E1, E2. do 2 f_equal. rewrite Zminus_mod_idemp_l. reflexivity.
        + replace (xp - xk - ck <? 0) with true in E2 by (symmetry; apply Z.ltb_lt; lia).
          rewrite E1, E2. do 2 f_equal. rewrite Zminus_mod_idemp_l, Zplus_mod_idemp_l. f_equal. ring.
      - assert (EQ : xk + ck = 2 ^ B) by lia. rewrite EQ, Z.eqb_refl in E2. rewrite EQ, Z.mod_same by lia.
        destruct (Z.leb_spec 0 xp); [|lia]. rewrite E1, E2. do 2 f_equal. rewrite Zminus_mod_idemp_l. reflexivity. }
    destruct (padd false B xk ck) as [sum| |]; cbn [bind] in *; [|discriminate|discriminate].
    destruct (if sum <=? xp then _ else _) as [xi carry]. injection EX as -> ->. eexists. split; [reflexivity|].
    split; [reflexivity|]. split; [reflexivity|]. split; [reflexivity|]. split; [exact Ef|].
    cbn [lf_idx lf_carry lf_state].
    replace (r + S k - 1)%nat with (r + k)%nat by lia.
    destruct (Z.leb_spec (Z.of_nat r) (Z.of_nat i + 1)) as [L|L].
    - exists (S k), O. split; [lia|]. split; [reflexivity|]. split; [lia|]. split; [reflexivity|].
      split; [rewrite upd_len; exact HL|]. intros q Hq. rewrite upd_nth by lia.
      change (q <? 0)%nat with false. cbv iota.
      destruct (Nat.eqb_spec q i) as [->|NE].
      + f_equal. lia.
      + rewrite HSt by exact Hq. replace (q <? i)%nat with true by (symmetry; apply Nat.ltb_lt; lia).
        f_equal. lia.
    - exists base, (S i). split; [lia|]. split; [lia|]. split; [lia|]. split; [reflexivity|].
      split; [rewrite upd_len; exact HL|]. intros q Hq. rewrite upd_nth by lia.
      destruct (Nat.eqb_spec q i) as [->|NE].
      + replace (i <? S i)%nat with true by (symmetry; apply Nat.ltb_lt; lia). f_equal. lia.
      + rewrite HSt by exact Hq. do 2 f_equal.
        destruct (Nat.ltb_spec q i), (Nat.ltb_spec q (S i)); lia || reflexivity.
  Qed.

  Lemma wide_fresh_inv seed carry idx st :
    lf_inv B s r (wide_words seed) (wide_borrows seed) 0
      (lf_check_init B (Lfg B (Z.of_nat s) (Z.of_nat r) true seed carry idx st)).
  Proof.
    unfold lf_check_init. cbn [lf_fresh lf_w lf_s lf_r lf_seed]. cbv zeta. rewrite Nat2Z.id.
    fold (lf_init B B r seed). fold (lf_carry0 B B r seed).
    split; [reflexivity|]. split; [reflexivity|]. split; [reflexivity|]. split; [reflexivity|].
    cbn [lf_idx lf_carry lf_state].
    exists O, O. split; [lia|]. split; [reflexivity|]. split; [lia|].
    split; [unfold wide_borrows; rewrite wide_pairs_init by lia; reflexivity|].
    split; [apply lf_fill_len|].
    intros q Hq. change (q <? 0)%nat with false. cbv iota. rewrite Nat.add_0_r. cbn [Nat.add].
    unfold wide_words. rewrite wide_pairs_init by exact Hq. reflexivity.
  Qed.
  Lemma wide_draws_inv x c : wide_recurrence B s r x c -> swc_range B x c -> forall k j g, lf_inv B s r x c j g ->
    exists g', lf_draws false B k g = Ok (map (fun i => x (r + i)%nat) (seq j k), g').
  Proof.
    intros HX HRg. induction k as [|k IH]; intros j g HI; [eexists; reflexivity|].
    cbn [lf_draws]. destruct (wide_gen_inv x c j g HX HRg HI) as (g1 & E1 & I1). rewrite E1. cbn [bind].
    destruct (IH (S j) g1 I1) as (g2 & E2). rewrite E2. cbn [bind]. exists g2. reflexivity.
  Qed.

  (** With overflow checks the sum of the word and the borrow is the only
      overflow, if twice the long lag fits. *)
  Lemma wide_checked x c k g : 2 * Z.of_nat r <= 2 ^ B -> swc_range B x c -> lf_inv B s r x c k g ->
    lf_gen true B g = if x k + c (r + k - 1)%nat =? 2 ^ B then Panic else lf_gen false B g.
  Proof.
    intros H2 HRg (Ew & Es & Er & Ef & base & i & Hi & Ei & Hk & Ec & HL & HSt).
    unfold lf_gen, lf_check_init. rewrite Ef. cbv zeta. rewrite Ei, Es, Er, Ew.
    assert (PA : forall ch, padd ch B (Z.of_nat r) (Z.of_nat i) = Ok (Z.of_nat r + Z.of_nat i)).
    { intros ch. unfold padd. destruct (Z.ltb_spec (Z.of_nat r + Z.of_nat i) (2 ^ B)); [reflexivity|lia]. }
    rewrite !PA. cbn [bind]. set (ps := if Z.of_nat i <? Z.of_nat s then _ else _).
    assert (EP : exists p, ps = Ok p /\ (Z.to_nat p < r)%nat).
    { unfold ps. destruct (Z.ltb_spec (Z.of_nat i) (Z.of_nat s)); eexists; (split; [reflexivity|]); [rewrite Z.mod_small by lia; lia|lia]. }
    destruct EP as (p & -> & PL). cbn [bind]. rewrite !get_ok by (rewrite ?HL, ?Nat2Z.id; lia). cbn [bind]. rewrite Nat2Z.id.
    rewrite (HSt i Hi), Nat.ltb_irrefl, Nat.add_0_r, Hk, Ec.
    destruct (HRg k) as [R2 _]. destruct (HRg (r + k - 1)%nat) as [_ R3].
    unfold padd. destruct (Z.ltb_spec (x k + c (r + k - 1)%nat) (2 ^ B)) as [L|L]; destruct (Z.eqb_spec (x k + c (r + k - 1)%nat) (2 ^ B)); try lia; reflexivity.
  Qed.
  Lemma wide_draws_checked x c : 2 * Z.of_nat r <= 2 ^ B -> wide_recurrence B s r x c -> swc_range B x c -> forall k j g, lf_inv B s r x c j g ->
    ((forall i, (j <= i < j + k)%nat -> x i + c (r + i - 1)%nat <> 2 ^ B) -> lf_draws true B k g = lf_draws false B k g) /\
    ((exists i, (j <= i < j + k)%nat /\ x i + c (r + i - 1)%nat = 2 ^ B) -> lf_draws true B k g = Panic).
  Proof.
    intros H2 HX HRg. induction k as [|k IH]; intros j g HI.
    - split; [reflexivity|]. intros (i & L & _). lia.
    - cbn [lf_draws]. rewrite (wide_checked x c j g H2 HRg HI). destruct (wide_gen_inv x c j g HX HRg HI) as (g1 & E1 & I1). destruct (IH (S j) g1 I1) as (A & P).
      destruct (Z.eqb_spec (x j + c (r + j - 1)%nat) (2 ^ B)) as [E|E].
      + split; [intros H; exfalso; apply (H j); [lia|exact E]|reflexivity].
      + rewrite E1. cbn [bind]. split.
        * intros H. rewrite A; [reflexivity|]. intros i Hi. apply H. lia.
        * intros (i & Hi & O). rewrite P; [reflexivity|]. exists i. split; [|exact O]. destruct (Nat.eq_dec i j) as [-> |]; [congruence|lia].
  Qed.
End WIDE.
