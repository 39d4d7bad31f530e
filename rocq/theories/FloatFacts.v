(** Dyadic numbers and rounding to [p] bits. *)
From Coq Require Import ZArith QArith Qabs Qpower Lqa Lia Bool.
From Verif Require Import Float SpecFloat.
Open Scope Z_scope.

Lemma two_pos e : (0 < Qpower 2 e)%Q.
Proof. apply Qpower_0_lt. reflexivity. Qed.
Lemma two_nz : ~ (2 == 0)%Q. Proof. discriminate. Qed.
Lemma two_pow k : 0 <= k -> (Qpower 2 k == inject_Z (2 ^ k))%Q.
Proof. intros H. rewrite Zpower_Qpower by auto. reflexivity. Qed.

Lemma dy_wd a b e : a = b -> (dy a e == dy b e)%Q.
Proof. intros ->. reflexivity. Qed.
Lemma dy_shift m e k : 0 <= k -> (dy m e == dy (m * 2 ^ k) (e - k))%Q.
Proof.
  intros H. unfold dy. rewrite inject_Z_mult, <- two_pow, <- Qmult_assoc, <- Qpower_plus by (auto; apply two_nz).
  replace (k + (e - k)) with e by lia. reflexivity.
Qed.
Lemma dy_to m e f : f <= e -> (dy m e == dy (m * 2 ^ (e - f)) f)%Q.
Proof. intros H. rewrite (dy_shift m e (e - f)) by lia. replace (e - (e - f)) with f by lia. reflexivity. Qed.
Lemma dy_div m e k : 0 <= k -> (2 ^ k | m) -> (dy m e == dy (m / 2 ^ k) (e + k))%Q.
Proof.
  intros H [c ->]. rewrite Z.div_mul by (apply Z.pow_nonzero; lia). rewrite (dy_shift c (e + k) k) by auto.
  replace (e + k - k) with e by lia. reflexivity.
Qed.
Lemma dy_le a b e : (dy a e <= dy b e)%Q <-> a <= b.
Proof. unfold dy. rewrite Qmult_le_r by apply two_pos. rewrite <- Zle_Qle. reflexivity. Qed.
Lemma dy_lt a b e : (dy a e < dy b e)%Q <-> a < b.
Proof. unfold dy. rewrite Qmult_lt_r by apply two_pos. rewrite <- Zlt_Qlt. reflexivity. Qed.
Lemma dy_eq a b e : (dy a e == dy b e)%Q <-> a = b.
Proof.
  split; [|apply dy_wd]. intros H. apply Z.le_antisymm; apply (dy_le _ _ e); rewrite H; apply Qle_refl.
Qed.
Lemma dy_add a b e : (dy a e + dy b e == dy (a + b) e)%Q.
Proof. unfold dy. rewrite inject_Z_plus. ring. Qed.
Lemma dy_opp a e : (- dy a e == dy (- a) e)%Q.
Proof. unfold dy. rewrite inject_Z_opp. ring. Qed.
Lemma dy_sub a b e : (dy a e - dy b e == dy (a - b) e)%Q.
Proof. unfold Qminus. rewrite dy_opp, dy_add. reflexivity. Qed.
Lemma dy_mul a b e f : (dy a e * dy b f == dy (a * b) (e + f))%Q.
Proof. unfold dy. rewrite inject_Z_mult, Qpower_plus by apply two_nz. ring. Qed.
Lemma dy_abs a e : (Qabs (dy a e) == dy (Z.abs a) e)%Q.
Proof.
  unfold dy. rewrite Qabs_Qmult. rewrite (Qabs_pos (Qpower 2 e)) by (apply Qlt_le_weak, two_pos).
  unfold Qabs, inject_Z. reflexivity.
Qed.
Lemma dy_0 e : (dy 0 e == 0)%Q.
Proof. unfold dy. ring. Qed.
Lemma dy_pos a e : (0 < dy a e)%Q <-> 0 < a.
Proof. rewrite <- (dy_0 e). apply dy_lt. Qed.
Lemma dy_neg a e : (dy a e < 0)%Q <-> a < 0.
Proof. rewrite <- (dy_0 e). apply dy_lt. Qed.
Lemma dy_nonneg a e : (0 <= dy a e)%Q <-> 0 <= a.
Proof. rewrite <- (dy_0 e). apply dy_le. Qed.
Lemma dy_zero a e : (dy a e == 0)%Q <-> a = 0.
Proof. rewrite <- (dy_0 e). apply dy_eq. Qed.

(* ------------------------------------------------------------------ *)
(** * Representable numbers *)
Lemma rep_wd p v w : (v == w)%Q -> representable p v -> representable p w.
Proof. intros E (m & e & A & B). exists m, e. split; [auto|]. rewrite <- E. auto. Qed.
Lemma rep_opp p v : representable p v <-> representable p (- v).
Proof.
  assert (K : forall v, representable p v -> representable p (- v)).
  { intros w (m & e & A & B). exists (- m), e. split; [lia|]. rewrite B. apply dy_opp. }
  split; [apply K|]. intros H. apply K in H. apply (rep_wd p (- - v)); [ring|auto].
Qed.
Lemma rep_dy p m e : Z.abs m <= 2 ^ p -> 0 < p -> representable p (dy m e).
Proof.
  intros H P. destruct (Z.eq_dec (Z.abs m) (2 ^ p)) as [E|N].
  - exists (Z.sgn m), (e + p). split.
    + pose proof (Z.pow_gt_1 2 p). destruct m; cbn; lia.
    + rewrite (dy_shift (Z.sgn m) (e + p) p) by lia. replace (e + p - p) with e by lia. apply dy_wd.
      rewrite <- E. destruct m; cbn; lia.
  - exists m, e. split; [lia|reflexivity].
Qed.
(** No representable number lies strictly between two neighbours. *)
Lemma rep_gap p q e s : 0 < p -> 2 ^ (p - 1) <= q -> representable p s -> (s <= dy q e)%Q \/ (dy (q + 1) e <= s)%Q.
Proof.
  intros P Q (m & f & A & E).
  assert (PP : 2 ^ p = 2 * 2 ^ (p - 1)) by (rewrite <- Z.pow_succ_r by lia; f_equal; lia).
  destruct (Z.le_gt_cases e f) as [L|L].
  - rewrite E, (dy_to m f e) by auto. rewrite !dy_le. lia.
  - left. rewrite E, (dy_to q e f) by lia. rewrite dy_le.
    assert (2 ^ 1 <= 2 ^ (e - f)) by (apply Z.pow_le_mono_r; lia). nia.
Qed.

Lemma below_wd p v w d c : (v == w)%Q -> (d == c)%Q -> is_below p v d -> is_below p w c.
Proof.
  intros E F (A & B & C). split; [apply (rep_wd p d); auto|]. split; [rewrite <- E, <- F; auto|].
  intros s R L. rewrite <- F. apply C; [auto|]. rewrite E. auto.
Qed.
Lemma above_wd p v w d c : (v == w)%Q -> (d == c)%Q -> is_above p v d -> is_above p w c.
Proof.
  intros E F (A & B & C). split; [apply (rep_wd p d); auto|]. split; [rewrite <- E, <- F; auto|].
  intros s R L. rewrite <- F. apply C; [auto|]. rewrite E. auto.
Qed.
Lemma opp_le a b : (a <= b)%Q <-> (- b <= - a)%Q.
Proof. split; intros H; [apply Qopp_le_compat; auto|]. rewrite <- (Qopp_involutive a), <- (Qopp_involutive b). apply Qopp_le_compat. auto. Qed.
Lemma opp_le' a b : (- a <= b)%Q <-> (- b <= a)%Q.
Proof. rewrite (opp_le (- a) b), Qopp_involutive. reflexivity. Qed.
Lemma below_opp p v d : is_below p v d -> is_above p (- v) (- d).
Proof.
  intros (A & B & C). split; [apply rep_opp in A; auto|]. split; [apply opp_le in B; auto|].
  intros s R L. apply opp_le'. apply C; [apply rep_opp in R; auto|]. apply opp_le'. auto.
Qed.
Lemma above_opp p v d : is_above p v d -> is_below p (- v) (- d).
Proof.
  intros (A & B & C). split; [apply rep_opp in A; auto|]. split; [apply opp_le in B; auto|].
  intros s R L. rewrite (opp_le s (- d)), Qopp_involutive. apply C; [apply rep_opp in R; auto|].
  rewrite (opp_le v (- s)), Qopp_involutive. auto.
Qed.
Lemma exact_below p v : representable p v -> is_below p v v.
Proof. intros R. split; [auto|]. split; [apply Qle_refl|]. auto. Qed.
Lemma exact_above p v : representable p v -> is_above p v v.
Proof. intros R. split; [auto|]. split; [apply Qle_refl|]. auto. Qed.
Lemma abs_eq0 a b : (Qabs (a - b) <= 0)%Q -> (a == b)%Q.
Proof. intros H. apply Qabs_Qle_condition in H. destruct H as [H1 H2]. lra. Qed.
Lemma exact_rounded m p v : representable p v -> rounded m p v v.
Proof.
  intros R. pose proof (exact_below p v R). pose proof (exact_above p v R).
  assert (N : is_nearest p v v).
  { split; [auto|]. intros s _. setoid_replace (v - v)%Q with 0%Q by ring. apply Qabs_nonneg. }
  assert (T : ~ is_tie p v v).
  { intros (s & _ & NE & E). apply NE. apply abs_eq0. rewrite <- E. setoid_replace (v - v)%Q with 0%Q by ring. apply Qle_refl. }
  destruct m; cbn [rounded]; tauto.
Qed.
Lemma nearest_opp p v r : is_nearest p v r -> is_nearest p (- v) (- r).
Proof.
  intros (A & B). split; [apply rep_opp in A; auto|]. intros s R. apply rep_opp in R. specialize (B _ R).
  setoid_replace (- r - - v)%Q with (- (r - v))%Q by ring. setoid_replace (s - - v)%Q with (- (- s - v))%Q by ring.
  rewrite !Qabs_opp. auto.
Qed.
Lemma tie_opp p v r : is_tie p (- v) (- r) -> is_tie p v r.
Proof.
  intros (s & A & B & C). exists (- s)%Q. split; [apply rep_opp in A; auto|].
  split; [intros E; apply B; rewrite <- E; ring|].
  setoid_replace (- s - v)%Q with (- (s - - v))%Q by ring. setoid_replace (r - v)%Q with (- (- r - - v))%Q by ring.
  rewrite !Qabs_opp. auto.
Qed.
Lemma even_opp p v r : even_mant p (- v) (- r) -> even_mant p v r.
Proof.
  intros (m & e & A & B & C). rewrite Qabs_opp in A. exists (- m), e. split; [exact A|]. split; [rewrite Z.even_opp; auto|].
  rewrite <- dy_opp, <- C. lra.
Qed.
Lemma even_opp' p v r : even_mant p v r -> even_mant p (- v) (- r).
Proof.
  intros (m & e & A & B & C). exists (- m), e. rewrite Qabs_opp. split; [exact A|]. split; [rewrite Z.even_opp; auto|]. rewrite C. apply dy_opp.
Qed.
(** The mode for the magnitude. *)
Definition mode_opp (m : rmode) : rmode :=
  match m with ToNegativeInf => ToPositiveInf | ToPositiveInf => ToNegativeInf | _ => m end.
Lemma rounded_opp m p v r : rounded (mode_opp m) p v r -> rounded m p (- v) (- r).
Proof.
  assert (Z1 : forall w, (0 <= - w)%Q -> (w <= 0)%Q) by (intros w H; apply opp_le; exact H).
  assert (Z2 : forall w, (- w <= 0)%Q -> (0 <= w)%Q) by (intros w H; apply opp_le; exact H).
  destruct m; cbn [mode_opp rounded].
  - intros (A & B). split; [apply nearest_opp; auto|]. intros T. apply even_opp', B, tie_opp. auto.
  - intros (A & B). split; [apply nearest_opp; auto|]. intros T. rewrite !Qabs_opp. apply B, tie_opp. auto.
  - intros (A & B). split; intros C; [apply above_opp; auto|apply below_opp; auto].
  - intros (A & B). split; intros C; [apply below_opp; auto|apply above_opp; auto].
  - apply above_opp.
  - apply below_opp.
Qed.
Lemma nearest_wd p v w r s : (v == w)%Q -> (r == s)%Q -> is_nearest p v r -> is_nearest p w s.
Proof. intros E F (A & B). split; [apply (rep_wd p r); auto|]. intros t R. rewrite <- E, <- F. auto. Qed.
Lemma tie_wd p v w r s : (v == w)%Q -> (r == s)%Q -> is_tie p v r -> is_tie p w s.
Proof. intros E F (t & A & B & C). exists t. split; [auto|]. split; [rewrite <- F; auto|]. rewrite <- E, <- F. auto. Qed.
Lemma even_wd p v w r s : (v == w)%Q -> (r == s)%Q -> even_mant p v r -> even_mant p w s.
Proof. intros E F (a & e & A & B & C). exists a, e. rewrite <- E, <- F. auto. Qed.
Lemma rounded_wd m p v w r s : (v == w)%Q -> (r == s)%Q -> rounded m p v r -> rounded m p w s.
Proof.
  intros E F. assert (E' := Qeq_sym _ _ E). assert (F' := Qeq_sym _ _ F).
  destruct m; cbn [rounded].
  - intros (A & B). split; [apply (nearest_wd p v w r s); auto|]. intros T. apply (even_wd p v w r s); [auto|auto|]. apply B, (tie_wd p w v s r); auto.
  - intros (A & B). split; [apply (nearest_wd p v w r s); auto|]. intros T. rewrite <- E, <- F. apply B, (tie_wd p w v s r); auto.
  - intros (A & B). split; intros C; rewrite <- E in C; [apply (below_wd p v w r s); auto|apply (above_wd p v w r s); auto].
  - intros (A & B). split; intros C; rewrite <- E in C; [apply (above_wd p v w r s); auto|apply (below_wd p v w r s); auto].
  - apply below_wd; auto.
  - apply above_wd; auto.
Qed.

Lemma round_gap m p q e v rb sb odd :
  0 < p -> 2 ^ (p - 1) <= q < 2 ^ p -> (dy q e < v)%Q -> (v < dy (q + 1) e)%Q ->
  (rb = true <-> (dy q e + dy (q + 1) e <= 2 * v)%Q) ->
  (m = ToNearestEven -> rb = true -> (sb = true <-> (dy q e + dy (q + 1) e < 2 * v)%Q)) ->
  (m = ToNearestEven -> rb = true -> sb = false -> odd = Z.odd q) ->
  rounded m p v (dy (if round_inc m false rb sb odd then q + 1 else q) e).
Proof.
  intros P Q L H RB SB OD. set (lo := dy q e) in *. set (hi := dy (q + 1) e) in *.
  assert (V0 : (0 < v)%Q). { apply (Qle_lt_trans _ lo); [|auto]. apply dy_nonneg. pose proof (Z.pow_nonneg 2 (p - 1)). lia. }
  assert (RL : representable p lo) by (apply rep_dy; lia).
  assert (RH : representable p hi) by (apply rep_dy; lia).
  assert (G : forall s, representable p s -> (s <= lo)%Q \/ (hi <= s)%Q) by (intros s R; apply (rep_gap p q e s); auto; lia).
  assert (BL : is_below p v lo).
  { split; [auto|]. split; [lra|]. intros s R S. destruct (G s R); lra. }
  assert (AB : is_above p v hi).
  { split; [auto|]. split; [lra|]. intros s R S. destruct (G s R); lra. }
  assert (DL : (Qabs (lo - v) == v - lo)%Q) by (rewrite Qabs_neg; lra).
  assert (DH : (Qabs (hi - v) == hi - v)%Q) by (rewrite Qabs_pos; lra).
  assert (DS : forall s, representable p s -> (v - lo <= Qabs (s - v))%Q \/ (hi - v <= Qabs (s - v))%Q).
  { intros s R. destruct (G s R) as [S|S]; [left|right].
    - rewrite Qabs_neg by lra. lra.
    - rewrite Qabs_pos by lra. lra. }
  assert (NL : (2 * v <= lo + hi)%Q -> is_nearest p v lo).
  { intros D. split; [auto|]. intros s R. rewrite DL. destruct (DS s R); lra. }
  assert (NH : (lo + hi <= 2 * v)%Q -> is_nearest p v hi).
  { intros D. split; [auto|]. intros s R. rewrite DH. destruct (DS s R); lra. }
  assert (TL : is_tie p v lo -> (2 * v == lo + hi)%Q \/ (lo + hi < 2 * v)%Q).
  { intros (s & R & NE & E). rewrite DL in E. destruct (G s R) as [S|S].
    - exfalso. rewrite Qabs_neg in E by lra. apply NE. lra.
    - rewrite Qabs_pos in E by lra. lra. }
  assert (TH : is_tie p v hi -> (2 * v == lo + hi)%Q \/ (2 * v < lo + hi)%Q).
  { intros (s & R & NE & E). rewrite DH in E. destruct (G s R) as [S|S].
    - rewrite Qabs_neg in E by lra. lra.
    - exfalso. rewrite Qabs_pos in E by lra. apply NE. lra. }
  assert (RG : (dy (2 ^ (p - 1)) e <= Qabs v < dy (2 ^ p) e)%Q).
  { rewrite Qabs_pos by lra. split; [apply (Qle_trans _ lo); [apply dy_le; lia|lra]|].
    apply (Qlt_le_trans _ hi); [auto|]. apply dy_le. lia. }
  assert (EL : Z.odd q = false -> even_mant p v lo).
  { intros O. exists q, e. split; [exact RG|]. split; [|reflexivity]. rewrite <- Z.negb_odd, O. reflexivity. }
  assert (EH : Z.odd q = true -> even_mant p v hi).
  { intros O. exists (q + 1), e. split; [exact RG|]. split; [|reflexivity]. rewrite Z.even_add, <- Z.negb_odd, O. reflexivity. }
  assert (RF : rb = false -> (2 * v < lo + hi)%Q).
  { intros F. apply Qnot_le_lt. intros C. apply RB in C. congruence. }
  destruct m; cbn [rounded round_inc].
  - specialize (SB eq_refl). specialize (OD eq_refl). destruct rb; cbn [andb].
    + specialize (SB eq_refl). specialize (OD eq_refl). assert (R1 := proj1 RB eq_refl). destruct sb; cbn [orb].
      * split; [apply NH; auto|]. intros T. apply TH in T. assert (S1 := proj1 SB eq_refl). exfalso. destruct T; lra.
      * specialize (OD eq_refl). subst odd. assert (S0 : (2 * v == lo + hi)%Q).
        { apply Qle_antisym; [|auto]. apply Qnot_lt_le. intros C. apply SB in C. discriminate. }
        destruct (Z.odd q) eqn:O; (split; [first [apply NH | apply NL]; lra|]); intros _; [apply EH | apply EL]; auto.
    + specialize (RF eq_refl). split; [apply NL; lra|]. intros T. apply TL in T. exfalso. destruct T; lra.
  - destruct rb.
    + assert (R1 := proj1 RB eq_refl). split; [apply NH; auto|]. intros _. change (Qabs v <= Qabs hi)%Q. rewrite !Qabs_pos by lra. lra.
    + specialize (RF eq_refl). split; [apply NL; lra|]. intros T. apply TL in T. exfalso. destruct T; lra.
  - split; [auto|]. intros C. lra.
  - split; [auto|]. intros C. lra.
  - auto.
  - auto.
Qed.
