(** Number theory for the Lucas primality test: the binomial theorem and the
    Frobenius map in Z[sqrt D], and the Lucas sequence V modulo a prime. *)
From Coq Require Import ZArith Znumtheory List Lia Bool Setoid Ring.
From Verif Require Import NumTheory NumTheory2 NumTheory3.
Import ListNotations.
Open Scope Z_scope.

(* ------------------------------------------------------------------ *)
(** * Binomial coefficients *)
Fixpoint bin (n k : nat) : Z :=
  match n, k with
  | _, O => 1
  | O, S _ => 0
  | S n', S k' => bin n' k' + bin n' (S k')
  end.
Lemma bin_0 n : bin n 0 = 1. Proof. destruct n; reflexivity. Qed.
Lemma bin_SS n k : bin (S n) (S k) = bin n k + bin n (S k). Proof. reflexivity. Qed.
Lemma bin_gt n : forall k, (n < k)%nat -> bin n k = 0.
Proof.
  induction n as [|n IH]; intros [|k] H; [lia|reflexivity|lia|]. rewrite bin_SS, !IH by lia. reflexivity.
Qed.
Lemma bin_nn n : bin n n = 1.
Proof. induction n as [|n IH]; [reflexivity|]. rewrite bin_SS, IH, bin_gt by lia. reflexivity. Qed.
Lemma bin_absorb n : forall k, (Z.of_nat (S k)) * bin (S n) (S k) = Z.of_nat (S n) * bin n k.
Proof.
  induction n as [|n IH]; intros k.
  - destruct k as [|k]; [reflexivity|]. rewrite bin_SS. cbn [bin]. lia.
  - rewrite bin_SS. destruct k as [|k].
    + rewrite !bin_0. pose proof (IH O) as H. rewrite bin_0 in H. rewrite bin_SS in H |- *. rewrite bin_0 in *. lia.
    + pose proof (IH k) as H1. pose proof (IH (S k)) as H2. pose proof (bin_SS n k) as H3.
      remember (bin (S n) (S k)) as B1. remember (bin (S n) (S (S k))) as B2. rewrite !Nat2Z.inj_succ in *. nia.
Qed.
Lemma bin_prime p k : prime (Z.of_nat p) -> (0 < k < p)%nat -> (Z.of_nat p | bin p k).
Proof.
  intros P K. destruct p as [|p]; [lia|]. destruct k as [|k]; [lia|].
  pose proof (bin_absorb p k) as E. destruct (prime_mult _ P (Z.of_nat (S k)) (bin (S p) (S k))) as [H|H]; [exists (bin p k); lia| |exact H].
  apply Z.divide_pos_le in H; lia.
Qed.

(* ------------------------------------------------------------------ *)
(** * The ring Z[sqrt D] *)
Section Quad.
Variable D : Z.
Definition quad : Type := (Z * Z)%type.
Definition qadd (x y : quad) : quad := (fst x + fst y, snd x + snd y).
Definition qmul (x y : quad) : quad := (fst x * fst y + D * (snd x * snd y), fst x * snd y + snd x * fst y).
Definition qopp (x : quad) : quad := (- fst x, - snd x).
Definition qsub (x y : quad) : quad := qadd x (qopp y).
Definition qz (c : Z) : quad := (c, 0).
Lemma quad_eq (x y : quad) : fst x = fst y -> snd x = snd y -> x = y.
Proof. destruct x, y. cbn. intros -> ->. reflexivity. Qed.
Lemma quad_ring : ring_theory (qz 0) (qz 1) qadd qmul qsub qopp (@eq quad).
Proof. split; intros; apply quad_eq; cbn [fst snd qadd qmul qopp qsub qz]; ring. Qed.
Add Ring quad_ring_inst : quad_ring.

Fixpoint qpow (x : quad) (n : nat) : quad := match n with O => qz 1 | S m => qmul x (qpow x m) end.
Fixpoint qsum (f : nat -> quad) (n : nat) : quad := match n with O => f O | S m => qadd (qsum f m) (f (S m)) end.

Lemma qsum_ext f g n : (forall k, (k <= n)%nat -> f k = g k) -> qsum f n = qsum g n.
Proof. induction n as [|n IH]; intros H; cbn [qsum]; [apply H; lia|]. rewrite IH, H by (intros; try apply H; lia). reflexivity. Qed.
Lemma qsum_shift f n : qsum f (S n) = qadd (f O) (qsum (fun k => f (S k)) n).
Proof. induction n as [|n IH]; [reflexivity|]. cbn [qsum] in *. rewrite IH. ring. Qed.
Lemma qsum_mul c f n : qmul c (qsum f n) = qsum (fun k => qmul c (f k)) n.
Proof. induction n as [|n IH]; cbn [qsum]; [reflexivity|]. rewrite <- IH. ring. Qed.
Lemma qsum_add f g n : qsum (fun k => qadd (f k) (g k)) n = qadd (qsum f n) (qsum g n).
Proof. induction n as [|n IH]; cbn [qsum]; [reflexivity|]. rewrite IH. ring. Qed.
Lemma qz_add a b : qz (a + b) = qadd (qz a) (qz b). Proof. reflexivity. Qed.

Definition bterm (x y : quad) (n k : nat) : quad := qmul (qz (bin n k)) (qmul (qpow x k) (qpow y (n - k))).
Lemma binomial x y n : qpow (qadd x y) n = qsum (bterm x y n) n.
Proof.
  induction n as [|n IH].
  - cbn [qsum qpow]. unfold bterm. cbn [qpow Nat.sub bin]. ring.
  - change (qpow (qadd x y) (S n)) with (qmul (qadd x y) (qpow (qadd x y) n)). rewrite IH.
    assert (E1 : qsum (bterm x y (S n)) (S n) = qadd (qpow y (S n)) (qsum (fun k => qadd (qmul (qz (bin n k)) (qmul (qpow x (S k)) (qpow y (n - k)))) (qmul (qz (bin n (S k))) (qmul (qpow x (S k)) (qpow y (n - k))))) n)).
    { rewrite qsum_shift. f_equal.
      - unfold bterm. rewrite bin_0, Nat.sub_0_r. change (qpow x 0) with (qz 1). ring.
      - apply qsum_ext. intros k _. unfold bterm. rewrite bin_SS, qz_add. change (S n - S k)%nat with (n - k)%nat. ring. }
    rewrite E1, qsum_add.
    assert (E2 : qmul x (qsum (bterm x y n) n) = qsum (fun k => qmul (qz (bin n k)) (qmul (qpow x (S k)) (qpow y (n - k)))) n).
    { rewrite qsum_mul. apply qsum_ext. intros k _. unfold bterm. change (qpow x (S k)) with (qmul x (qpow x k)). ring. }
    assert (E3 : qmul y (qsum (bterm x y n) n) = qadd (qpow y (S n)) (qsum (fun k => qmul (qz (bin n (S k))) (qmul (qpow x (S k)) (qpow y (n - k)))) n)).
    { set (g := fun k => qmul (qz (bin n k)) (qmul (qpow x k) (qpow y (S n - k)))).
      transitivity (qsum g n).
      { rewrite qsum_mul. apply qsum_ext. intros k Hk. unfold bterm, g. replace (S n - k)%nat with (S (n - k)) by lia.
        change (qpow y (S (n - k))) with (qmul y (qpow y (n - k))). ring. }
      transitivity (qsum g (S n)).
      { cbn [qsum]. unfold g at 3. rewrite bin_gt by lia. ring. }
      rewrite qsum_shift. unfold g at 1. rewrite bin_0. change (qpow x 0) with (qz 1). rewrite Nat.sub_0_r. f_equal. ring. }
    rewrite <- E2. transitivity (qadd (qmul x (qsum (bterm x y n) n)) (qmul y (qsum (bterm x y n) n))); [ring|]. rewrite E3. ring.
Qed.

Definition qeqm (p : Z) (x y : quad) : Prop := eqm p (fst x) (fst y) /\ eqm p (snd x) (snd y).
Lemma qeqm_refl p x : qeqm p x x. Proof. split; apply eqm_refl. Qed.
Lemma qeqm_trans p x y z : qeqm p x y -> qeqm p y z -> qeqm p x z.
Proof. intros [A B] [C E]. split; eapply eqm_trans; eauto. Qed.
Lemma qeqm_add p x x' y y' : qeqm p x x' -> qeqm p y y' -> qeqm p (qadd x y) (qadd x' y').
Proof. intros [A B] [C E]. split; cbn [fst snd qadd]; [rewrite A, C|rewrite B, E]; apply eqm_refl. Qed.
Lemma qeqm_mul p x x' y y' : qeqm p x x' -> qeqm p y y' -> qeqm p (qmul x y) (qmul x' y').
Proof. intros [A B] [C E]. split; cbn [fst snd qmul]; rewrite A, B, C, E; apply eqm_refl. Qed.
Lemma qsum_zero p f n : (forall k, (k <= n)%nat -> qeqm p (f k) (qz 0)) -> qeqm p (qsum f n) (qz 0).
Proof.
  induction n as [|n IH]; intros H; cbn [qsum]; [apply H; lia|].
  apply (qeqm_add p _ (qz 0) _ (qz 0)); [apply IH; intros; apply H; lia|apply H; lia].
Qed.

Lemma frobenius x y p : prime (Z.of_nat p) -> qeqm (Z.of_nat p) (qpow (qadd x y) p) (qadd (qpow x p) (qpow y p)).
Proof.
  intros P. rewrite binomial. pose proof (prime_2 _ P). destruct p as [|[|p]]; [lia|lia|].
  set (q := S (S p)) in *. change (qsum (bterm x y q) q) with (qadd (qsum (bterm x y q) (S p)) (bterm x y q (S (S p)))). rewrite qsum_shift.
  assert (A : bterm x y q 0 = qpow y q) by (unfold bterm; rewrite bin_0, Nat.sub_0_r; change (qpow x 0) with (qz 1); ring).
  assert (B : bterm x y q (S (S p)) = qpow x q) by (unfold bterm, q; rewrite bin_nn, Nat.sub_diag; change (qpow y 0) with (qz 1); ring).
  rewrite A, B. replace (qadd (qpow x q) (qpow y q)) with (qadd (qadd (qpow y q) (qz 0)) (qpow x q)) by ring.
  apply qeqm_add; [|apply qeqm_refl]. apply qeqm_add; [apply qeqm_refl|]. apply qsum_zero. intros k Hk. unfold bterm.
  replace (qz 0) with (qmul (qz 0) (qmul (qpow x (S k)) (qpow y (q - S k)))) by ring. apply qeqm_mul; [|apply qeqm_refl].
  split; cbn [fst snd qz]; [|apply eqm_refl]. apply div_eqm, bin_prime; [auto|unfold q; lia].
Qed.

Lemma qpow_z c n : qpow (qz c) n = qz (c ^ Z.of_nat n).
Proof.
  induction n as [|n IH]; [reflexivity|]. cbn [qpow]. rewrite IH, Nat2Z.inj_succ, Z.pow_succ_r by lia. apply quad_eq; cbn [fst snd qmul qz]; ring.
Qed.
Lemma qpow_root n : qpow (0, 1) (2 * n + 1) = (0, D ^ Z.of_nat n).
Proof.
  induction n as [|n IH]; [apply quad_eq; cbn; ring|]. replace (2 * S n + 1)%nat with (S (S (2 * n + 1))) by lia. cbn [qpow]. rewrite IH.
  rewrite Nat2Z.inj_succ, Z.pow_succ_r by lia. apply quad_eq; cbn [fst snd qmul]; ring.
Qed.
End Quad.

(* ------------------------------------------------------------------ *)
(** * The Lucas sequence V(P, 1) *)
Fixpoint vpair (P : Z) (k : nat) : Z * Z :=
  match k with O => (2, P) | S k' => let '(a, b) := vpair P k' in (b, P * b - a) end.
Definition V (P k : Z) : Z := fst (vpair P (Z.to_nat k)).

Lemma vpair_snd P k : snd (vpair P k) = fst (vpair P (S k)).
Proof. cbn [vpair]. destruct (vpair P k). reflexivity. Qed.
Lemma V_0 P : V P 0 = 2. Proof. reflexivity. Qed.
Lemma V_1 P : V P 1 = P. Proof. reflexivity. Qed.
Lemma V_rec P k : 0 <= k -> V P (k + 2) = P * V P (k + 1) - V P k.
Proof.
  intros K. unfold V. replace (Z.to_nat (k + 2)) with (S (S (Z.to_nat k))) by lia. replace (Z.to_nat (k + 1)) with (S (Z.to_nat k)) by lia.
  cbn [vpair]. destruct (vpair P (Z.to_nat k)). reflexivity.
Qed.
Lemma V_inv P k : 0 <= k -> V P k * V P k - P * V P k * V P (k + 1) + V P (k + 1) * V P (k + 1) = 4 - P * P.
Proof.
  intros K. pattern k. apply natlike_ind; [|intros n N IH|exact K].
  - change (0 + 1) with 1. rewrite V_0, V_1. ring.
  - replace (Z.succ n + 1) with (n + 2) by lia. rewrite V_rec by auto. rewrite <- IH. replace (Z.succ n) with (n + 1) by lia. ring.
Qed.
Lemma V_double P k : 0 <= k -> V P (2 * k) = V P k * V P k - 2 /\ V P (2 * k + 1) = V P k * V P (k + 1) - P.
Proof.
  intros K. pattern k. apply natlike_ind; [|intros n N IH|exact K].
  - change (2 * 0 + 1) with 1. change (2 * 0) with 0. change (0 + 1) with 1. rewrite V_0, V_1. lia.
  - destruct IH as [I1 I2]. pose proof (V_inv P n N) as I3.
    assert (E1 : V P (2 * Z.succ n) = V P (n + 1) * V P (n + 1) - 2).
    { replace (2 * Z.succ n) with (2 * n + 2) by lia. rewrite V_rec by lia. rewrite I1, I2. lia. }
    replace (Z.succ n) with (n + 1) in * by lia. split; [exact E1|].
    replace (2 * (n + 1) + 1) with (2 * n + 1 + 2) by lia. rewrite V_rec by lia. replace (2 * n + 1 + 1) with (2 * (n + 1)) by lia.
    rewrite E1, I2. replace (n + 1 + 1) with (n + 2) by lia. rewrite V_rec by lia. ring.
Qed.
Lemma V_square P k : 0 <= k -> (P * V P k - 2 * V P (k + 1)) * (P * V P k - 2 * V P (k + 1)) = (P * P - 4) * (V P k * V P k - 4).
Proof. intros K. pose proof (V_inv P k K). nia. Qed.

Lemma qpow_V P k : 2 * fst (qpow (P * P - 4) (P, 1) k) = 2 ^ Z.of_nat k * V P (Z.of_nat k) /\
  2 * fst (qpow (P * P - 4) (P, 1) (S k)) = 2 ^ Z.of_nat (S k) * V P (Z.of_nat (S k)).
Proof.
  induction k as [|k [IH1 IH2]].
  - cbn [qpow]. change (V P (Z.of_nat 0)) with 2. change (V P (Z.of_nat 1)) with P. cbn [fst snd qmul qz]. change (2 ^ Z.of_nat 0) with 1. change (2 ^ Z.of_nat 1) with 2. lia.
  - split; [exact IH2|]. replace (V P (Z.of_nat (S (S k)))) with (P * V P (Z.of_nat (S k)) - V P (Z.of_nat k)).
    2:{ replace (Z.of_nat (S (S k))) with (Z.of_nat k + 2) by lia. rewrite V_rec by lia. replace (Z.of_nat k + 1) with (Z.of_nat (S k)) by lia. reflexivity. }
    set (w := qpow (P * P - 4) (P, 1) k) in *. set (v0 := V P (Z.of_nat k)) in *. set (v1 := V P (Z.of_nat (S k))) in *.
    change (qpow (P * P - 4) (P, 1) (S (S k))) with (qmul (P * P - 4) (P, 1) (qmul (P * P - 4) (P, 1) w)).
    change (qpow (P * P - 4) (P, 1) (S k)) with (qmul (P * P - 4) (P, 1) w) in IH2. clearbody v0 v1 w.
    rewrite Nat2Z.inj_succ, Z.pow_succ_r in IH2 by lia. rewrite !Nat2Z.inj_succ, !Z.pow_succ_r by lia.
    set (e := 2 ^ Z.of_nat k) in *. clearbody e. destruct w as [a b]. unfold qmul in *. cbn [fst snd] in *.
    replace (2 * (2 * e) * (P * v1 - v0)) with (2 * P * (2 * e * v1) - 4 * (e * v0)) by ring. rewrite <- IH1, <- IH2. ring.
Qed.

Section VPrime.
Variables p P : Z.
Hypothesis Pp : prime p.
Hypothesis P2 : p <> 2.
Hypothesis Dn : ls (P * P - 4) p = -1.

Lemma fermat_all a : eqm p (a ^ p) a.
Proof.
  pose proof (prime_2 p Pp). destruct (Zdivide_dec p a) as [H1|H1].
  - apply div_eqm in H1. rewrite (eqm_pow p a 0 p) by (auto; lia). rewrite Z.pow_0_l by lia. symmetry. exact H1.
  - replace (a ^ p) with (a * a ^ (p - 1)) by (rewrite <- Z.pow_succ_r by lia; f_equal; lia). rewrite (fermat p a Pp H1), Z.mul_1_r. apply eqm_refl.
Qed.

Lemma V_frob : eqm p (V P (p + 1)) 2.
Proof.
  pose proof (prime_2 p Pp). set (D := P * P - 4) in *. set (n := Z.to_nat p).
  assert (En : Z.of_nat n = p) by (unfold n; lia). destruct (odd_prime_half p Pp P2) as [H1 H2].
  pose proof (frobenius D (qz P) (0, 1) n ltac:(rewrite En; auto)) as F. rewrite En, qpow_z, En in F.
  replace n with (2 * Z.to_nat ((p - 1) / 2) + 1)%nat in F at 2 by (unfold n; lia). rewrite qpow_root in F. rewrite Z2Nat.id in F by lia.
  assert (W : qeqm p (qpow D (P, 1) n) (P, -1)).
  { replace (P, 1) with (qadd (qz P) (0, 1)) by (unfold qadd, qz; cbn [fst snd]; f_equal; lia). eapply qeqm_trans; [exact F|]. destruct (ls_spec D p Pp P2) as (_ & E). rewrite Dn in E.
    split; cbn [fst snd qadd qz].
    - rewrite fermat_all, Z.add_0_r. apply eqm_refl.
    - rewrite <- E. apply eqm_refl. }
  assert (W1 : qeqm p (qpow D (P, 1) (S n)) (4, 0)).
  { cbn [qpow]. eapply qeqm_trans; [apply qeqm_mul; [apply qeqm_refl|exact W]|]. unfold D. split; cbn [fst snd qmul]; match goal with |- eqm _ ?a ?b => replace a with b by ring end; apply eqm_refl. }
  destruct W1 as [W1 _]. cbn [fst] in W1. destruct (qpow_V P (S n)) as [E _]. fold D in E. replace (Z.of_nat (S n)) with (p + 1) in E by lia.
  assert (N2 : ~ (p | 2)). { intros X. apply Z.divide_pos_le in X; lia. }
  apply (eqm_cancel p _ _ 2 Pp N2). apply (eqm_cancel p _ _ 2 Pp N2).
  assert (E2 : eqm p (2 ^ (p + 1)) 4). { rewrite Z.pow_add_r by lia. rewrite fermat_all. apply eqm_refl. }
  replace (2 * (2 * V P (p + 1))) with (4 * V P (p + 1)) by ring. rewrite <- E2 at 1. rewrite <- E, W1. apply eqm_refl.
Qed.

(** V of (p+1)/2 is 2 or -2; going down by halving, either V of the odd part
    is 2 or -2, or some V on the way is 0. *)
Lemma V_half : forall k s, p + 1 = s * 2 ^ Z.of_nat (S k) -> 0 <= s ->
  forall j, (j <= k)%nat -> (eqm p (V P (s * 2 ^ Z.of_nat j)) 2 \/ eqm p (V P (s * 2 ^ Z.of_nat j)) (-2)) \/
    exists i, (j <= i < k)%nat /\ eqm p (V P (s * 2 ^ Z.of_nat i)) 0.
Proof.
  intros k s E S0 j Hj. assert (N : forall d, j = (k - d)%nat -> (d <= k)%nat -> (eqm p (V P (s * 2 ^ Z.of_nat j)) 2 \/ eqm p (V P (s * 2 ^ Z.of_nat j)) (-2)) \/
    exists i, (j <= i < k)%nat /\ eqm p (V P (s * 2 ^ Z.of_nat i)) 0).
  2:{ apply (N (k - j)%nat); lia. }
  intros d. revert j Hj. induction d as [|d IH]; intros j Hj Ed Hd.
  - left. replace j with k by lia. pose proof V_frob as F. rewrite E, Nat2Z.inj_succ, Z.pow_succ_r in F by lia.
    assert (0 <= s * 2 ^ Z.of_nat k) by (apply Z.mul_nonneg_nonneg; [auto|apply Z.pow_nonneg; lia]).
    replace (s * (2 * 2 ^ Z.of_nat k)) with (2 * (s * 2 ^ Z.of_nat k)) in F by ring. destruct (V_double P _ H) as [V2 _]. rewrite V2 in F.
    set (v := V P (s * 2 ^ Z.of_nat k)) in *. apply (eqm_sqr p v 2 Pp). replace (v * v) with (v * v - 2 + 2) by ring. rewrite F. apply eqm_refl.
  - destruct (IH (S j)) as [H|(i & Hi & H)]; [lia|lia|lia| |right; exists i; split; [lia|auto]].
    assert (H0 : 0 <= s * 2 ^ Z.of_nat j) by (apply Z.mul_nonneg_nonneg; [auto|apply Z.pow_nonneg; lia]).
    destruct (V_double P _ H0) as [V2 _]. replace (2 * (s * 2 ^ Z.of_nat j)) with (s * 2 ^ Z.of_nat (S j)) in V2 by (rewrite Nat2Z.inj_succ, Z.pow_succ_r by lia; ring).
    rewrite V2 in H. set (v := V P (s * 2 ^ Z.of_nat j)) in *. destruct H as [H|H].
    + left. apply (eqm_sqr p v 2 Pp). replace (v * v) with (v * v - 2 + 2) by ring. rewrite H. apply eqm_refl.
    + right. exists j. split; [lia|]. fold v. assert (Z0 : eqm p (v * v) 0). { replace (v * v) with (v * v - 2 + 2) by ring. rewrite H. apply eqm_refl. }
      destruct (eqm_integral p v v Pp Z0); auto.
Qed.
End VPrime.

(** If every P^2 - 4 met up to the bound is a residue, so is every number up
    to the bound plus 2. *)
Lemma residues_all p B : prime p -> p <> 2 -> 6 <= B -> B + 2 < p -> (forall P, 3 <= P <= B -> ls (P * P - 4) p = 1) ->
  forall m, 1 <= m <= B + 2 -> ls m p = 1.
Proof.
  intros Pp P2 HB Bp H. assert (NZ : forall m, 1 <= m <= B + 2 -> ls m p = 1 \/ ls m p = -1).
  { intros m M. destruct (ls_spec m p Pp P2) as ([Z|S] & _); [|destruct S; auto]. apply ls_zero in Z; auto. apply Z.divide_pos_le in Z; lia. }
  assert (step : forall m, 1 <= m -> m + 4 <= B + 2 -> ls m p = ls (m + 4) p).
  { intros m M1 M2. pose proof (H (m + 2) ltac:(lia)) as E. replace ((m + 2) * (m + 2) - 4) with (m * (m + 4)) in E by ring. rewrite ls_mul in E by auto.
    destruct (NZ m ltac:(lia)) as [A|A]; destruct (NZ (m + 4) ltac:(lia)) as [C|C]; rewrite A, C in *; lia. }
  assert (A1 : ls 1 p = 1) by (apply ls_one; auto).
  assert (A4 : ls 4 p = 1). { change 4 with (2 * 2). rewrite ls_mul by auto. destruct (NZ 2 ltac:(lia)) as [A|A]; rewrite A; reflexivity. }
  assert (A2 : ls 2 p = 1). { pose proof (step 4 ltac:(lia) ltac:(lia)) as E. change (4 + 4) with (2 * 4) in E. rewrite ls_mul, A4 in E by auto. lia. }
  assert (A3 : ls 3 p = 1). { pose proof (step 2 ltac:(lia) ltac:(lia)) as E. change (2 + 4) with (2 * 3) in E. rewrite ls_mul, A2 in E by auto. lia. }
  assert (G : forall n m, (Z.to_nat m <= n)%nat -> 1 <= m <= B + 2 -> ls m p = 1).
  { induction n as [|n IH]; intros m N M; [lia|]. destruct (Z_le_gt_dec m 4) as [L|L].
    - assert (C : m = 1 \/ m = 2 \/ m = 3 \/ m = 4) by lia. destruct C as [->|[->|[->| ->]]]; auto.
    - replace m with (m - 4 + 4) by lia. rewrite <- step by lia. apply IH; lia. }
  intros m M. apply (G (Z.to_nat m)); [lia|auto].
Qed.
