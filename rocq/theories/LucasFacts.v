(** Facts about [NatPrime]: the Lucas test of any odd number. *)
From Coq Require Import ZArith Znumtheory Zpow_facts List Lia Bool Setoid Morphisms.
From Verif Require Import Words WordsFacts NatModel NatFacts NatFacts2 NatFacts3 NatFacts4 NatFacts5 Spec SpecInt SpecNum SpecPrime VecPrims VecFacts Karatsuba KaraFacts KaraFacts2
  NatPow NatPowFacts NatExp NatExpFacts NatExpFacts2 BigInt BigIntFacts BigIntFacts2 NumTheory NumTheory2 NumTheory3 NumTheory4 NumBig NumBigFacts NumBigFacts2 NatPrime NatPrimeFacts NatPrimeFacts2 NatPrimeFacts3
  SpecLucas Properties_NumBig SpecNum.
Import ListNotations.
Open Scope Z_scope.

(* ------------------------------------------------------------------ *)
(** * The sequences *)
Lemma lucas_seq_rec P : forall k x y, lucas_seq P x y (S (S k)) = P * lucas_seq P x y (S k) - lucas_seq P x y k.
Proof. induction k as [|k IH]; intros x y; [reflexivity|]. exact (IH y (P * y - x)). Qed.
Lemma lucas_V_eq P k : 0 <= k -> lucas_V P k = V P k.
Proof.
  intros K. assert (G : forall n : nat, lucas_seq P 2 P n = V P (Z.of_nat n) /\ lucas_seq P 2 P (S n) = V P (Z.of_nat n + 1)).
  { induction n as [|n [IH1 IH2]]; [split; reflexivity|]. replace (Z.of_nat (S n)) with (Z.of_nat n + 1) by lia. split; [exact IH2|].
    rewrite lucas_seq_rec, IH1, IH2. replace (Z.of_nat n + 1 + 1) with (Z.of_nat n + 2) by lia. rewrite V_rec by lia. reflexivity. }
  unfold lucas_V. rewrite (proj1 (G (Z.to_nat k))), Z2Nat.id by auto. reflexivity.
Qed.
Lemma lucas_U_eq P k : 0 <= k -> (P * P - 4) * lucas_U P k = 2 * V P (k + 1) - P * V P k.
Proof.
  intros K. assert (G : forall n : nat, (P * P - 4) * lucas_seq P 0 1 n = 2 * V P (Z.of_nat n + 1) - P * V P (Z.of_nat n) /\
                                       (P * P - 4) * lucas_seq P 0 1 (S n) = 2 * V P (Z.of_nat n + 2) - P * V P (Z.of_nat n + 1)).
  { induction n as [|n [IH1 IH2]].
    - change (Z.of_nat 0) with 0. change (0 + 1) with 1. rewrite V_rec by lia. change (0 + 1) with 1. rewrite V_0, V_1. cbn [lucas_seq]. split; ring.
    - replace (Z.of_nat (S n) + 1) with (Z.of_nat n + 2) by lia. replace (Z.of_nat (S n) + 2) with (Z.of_nat n + 1 + 2) by lia. replace (Z.of_nat (S n)) with (Z.of_nat n + 1) by lia. split; [exact IH2|].
      rewrite lucas_seq_rec. rewrite (V_rec P (Z.of_nat n + 1)) by lia. replace (Z.of_nat n + 1 + 1) with (Z.of_nat n + 2) by lia.
      rewrite Z.mul_sub_distr_l. replace ((P * P - 4) * (P * lucas_seq P 0 1 (S n))) with (P * ((P * P - 4) * lucas_seq P 0 1 (S n))) by ring. rewrite IH1, IH2.
      rewrite (V_rec P (Z.of_nat n)) by lia. ring. }
  unfold lucas_U. rewrite (proj1 (G (Z.to_nat k))), Z2Nat.id by auto. reflexivity.
Qed.

(* ------------------------------------------------------------------ *)
(** * Jacobi symbols *)
Lemma J_values a ps : Forall odd_prime ps -> J a ps = 1 \/ J a ps = 0 \/ J a ps = -1.
Proof.
  induction 1 as [|p ps [P P2] F IH]; [left; reflexivity|]. unfold J in *. cbn [map]. rewrite prodZ_cons. destruct (ls_spec a p P P2) as ([T|[T|T]] & _); rewrite T; destruct IH as [IH|[IH|IH]]; rewrite IH; cbn; auto.
Qed.
Lemma J_coprime a ps : Forall odd_prime ps -> (J a ps <> 0 <-> rel_prime (prodZ ps) a).
Proof.
  induction 1 as [|p ps [P P2] F IH].
  - split; [intros _; apply rel_prime_1|]. intros _. discriminate.
  - unfold J in *. cbn [map]. rewrite !prodZ_cons. split.
    + intros H. apply rel_prime_sym, rel_prime_mult; apply rel_prime_sym.
      * apply prime_rel_prime; [exact P|]. intros D. apply (ls_zero a p P P2) in D. rewrite D in H. apply H. ring.
      * apply IH. intros E. rewrite E in H. apply H. ring.
    + intros R E. apply Z.mul_eq_0 in E. destruct E as [E|E].
      * apply (ls_zero a p P P2) in E. pose proof (prime_ge_2 p P). destruct R as [_ _ R]. specialize (R p (Z.divide_factor_l p (prodZ ps)) E). apply Z.divide_1_r_nonneg in R; lia.
      * apply IH; [|exact E]. apply rel_prime_div with (p * prodZ ps); [exact R|]. apply Z.divide_factor_r.
Qed.
Lemma J_app a ps qs : J a (ps ++ qs) = J a ps * J a qs.
Proof. unfold J. rewrite map_app, prodZ_app. reflexivity. Qed.

Lemma clean_word_any a b : 0 < a < W -> 0 < b -> Z.odd b = true -> clean a b.
Proof.
  intros A B O. destruct (Z.le_gt_cases b a) as [L|L]; [apply clean_small; [lia|exact O]|].
  destruct (odd_split a ltac:(lia)) as (q & s & S0 & Q0 & Oq & E). assert (M : a mod b = a) by (apply Z.mod_small; lia). assert (PP : 0 < 2 ^ s) by (apply Z.pow_pos_nonneg; lia).
  apply (clean_step a b s q); rewrite ?M; auto.
  - left. apply (Z.pow_lt_mono_r_iff 2); [lia|lia|]. change (2 ^ 32) with W. nia.
  - apply clean_small; [nia|auto].
Qed.

Section Any.
Variable n : Z.
Hypothesis N128 : 128 <= n.
Hypothesis On : Z.odd n = true.
Hypothesis N3 : ~ (3 | n).

Lemma not_eqm c : c <> 0 -> Z.abs c < n -> ~ eqm n c 0.
Proof. intros C B E. apply eqm_div in E. apply Z.divide_abs_r in E. apply Z.divide_pos_le in E; lia. Qed.

Lemma stuck P c k : eqm n (V P k) c -> eqm n (c * c - 2) c -> 0 <= k -> forall i, eqm n (V P (k * 2 ^ Z.of_nat i)) c.
Proof.
  intros E F K. induction i as [|i IH]; [rewrite Z.pow_0_r, Z.mul_1_r; exact E|]. rewrite Nat2Z.inj_succ, Z.pow_succ_r by lia.
  assert (0 <= k * 2 ^ Z.of_nat i) by (apply Z.mul_nonneg_nonneg; [auto|apply Z.pow_nonneg; lia]).
  replace (k * (2 * 2 ^ Z.of_nat i)) with (2 * (k * 2 ^ Z.of_nat i)) by ring. destruct (V_double P _ H) as [-> _]. rewrite IH. exact F.
Qed.

Lemma rounds_one cnt : lucas_rounds cnt [1] (of_Z n) = Ok false.
Proof.
  induction cnt as [|c IH]; [reflexivity|]. cbn [lucas_rounds]. change (nat_eq_u32 [1] 0) with false. change ((length [1] =? 1)%nat && (hd 0 [1] =? 2)) with false. cbv iota.
  change [1] with (of_Z 1). rewrite sqr_vec_of_Z by (apply (of_Z_canon 1); lia). cbn [bind]. rewrite of_Z_val by lia. change (trim (nat_sub_u32 (of_Z (1 * 1)) 2)) with (of_Z 1).
  rewrite nat_rem_of_Z' by lia. cbn [bind]. rewrite Z.mod_small by lia. exact IH.
Qed.

Lemma rounds_exact P s : 0 <= s -> forall cnt j r, vrep r (V P (s * 2 ^ Z.of_nat j) mod n) ->
  exists b, lucas_rounds cnt r (of_Z n) = Ok b /\ (b = true <-> exists i, (j <= i < j + cnt)%nat /\ eqm n (V P (s * 2 ^ Z.of_nat i)) 0).
Proof.
  intros S0. induction cnt as [|c IH]; intros j r VR.
  { exists false. split; [reflexivity|]. split; [discriminate|]. intros (i & I & _). lia. }
  cbn [lucas_rounds].
  set (k := s * 2 ^ Z.of_nat j) in *. assert (K0 : 0 <= k) by (apply Z.mul_nonneg_nonneg; [auto|apply Z.pow_nonneg; lia]).
  assert (KI : forall i, (j <= i)%nat -> s * 2 ^ Z.of_nat i = k * 2 ^ Z.of_nat (i - j)). { intros i I. unfold k. rewrite <- Z.mul_assoc, <- Z.pow_add_r by lia. do 2 f_equal. lia. }
  assert (EV : eqm n (V P k) (V P k mod n)) by (symmetry; apply eqm_mod; lia).
  pose proof (Z.mod_pos_bound (V P k) n ltac:(lia)) as MB. set (v := V P k mod n) in *.
  rewrite (vrep_eq r v 0) by (auto; lia). destruct (Z.eqb_spec v 0) as [V0|V0].
  { exists true. split; [reflexivity|]. split; [|auto]. intros _. exists j. split; [lia|]. fold k. rewrite EV, V0. apply eqm_refl. }
  assert (NOJ : ~ eqm n (V P k) 0) by (rewrite EV; apply not_eqm; lia).
  destruct (_ && _) eqn:T2.
  { apply (vrep_two r v VR) in T2. exists false. split; [reflexivity|]. split; [discriminate|]. intros (i & I1 & I2). exfalso. rewrite T2 in EV.
    pose proof (stuck P 2 k EV ltac:(apply eqm_refl) K0 (i - j)) as ST. rewrite <- KI in ST by lia. rewrite I2 in ST. apply (not_eqm 2); [lia|lia|symmetry; exact ST]. }
  assert (V2 : v <> 2).
  { intros E. destruct VR as (Wr & Nr & Vr & [C|B]); [|lia]. rewrite E in Vr. rewrite (of_Z_unique r 2 C Vr) in T2. vm_compute in T2. discriminate T2. }
  destruct (Z.eq_dec v 1) as [V1|V1].
  { destruct VR as (Wr & Nr & Vr & [C|B]); [|lia]. rewrite V1 in Vr. rewrite (of_Z_unique r 1 C Vr).
    rewrite sqr_vec_of_Z by (apply (of_Z_canon 1); lia). cbn [bind]. rewrite (of_Z_val 1) by lia. change (trim (nat_sub_u32 (of_Z (1 * 1)) 2)) with (of_Z 1).
    rewrite nat_rem_of_Z' by lia. cbn [bind]. rewrite (Z.mod_small 1 n) by lia. change (of_Z 1) with [1]. rewrite rounds_one.
    exists false. split; [reflexivity|]. split; [discriminate|]. intros (i & I1 & I2). exfalso.
    destruct (Nat.eq_dec i j) as [->|IJ]; [fold k in I2; exact (NOJ I2)|]. rewrite V1 in EV.
    assert (EV2 : eqm n (V P (2 * k)) (-1)). { destruct (V_double P k K0) as [-> _]. rewrite EV. apply eqm_refl. }
    pose proof (stuck P (-1) (2 * k) EV2 ltac:(apply eqm_refl) ltac:(lia) (i - j - 1)) as ST.
    replace (2 * k * 2 ^ Z.of_nat (i - j - 1)) with (s * 2 ^ Z.of_nat i) in ST.
    2:{ rewrite KI by lia. replace (Z.of_nat (i - j)) with (Z.succ (Z.of_nat (i - j - 1))) by lia. rewrite Z.pow_succ_r by lia. ring. }
    rewrite I2 in ST. apply (not_eqm (-1)); [lia|lia|symmetry; exact ST]. }
  destruct VR as (Wr & Nr & Vr & _). rewrite sqr_vec_words by auto. cbn [bind]. rewrite Vr.
  rewrite rem_sub2 by nia. cbn [bind]. pose proof (vrep_of_Z ((v * v - 2) mod n) ltac:(apply Z.mod_pos_bound; lia)) as R2.
  destruct (IH (S j) (of_Z ((v * v - 2) mod n))) as (b & B1 & B2).
  { replace (V P (s * 2 ^ Z.of_nat (S j)) mod n) with ((v * v - 2) mod n); [exact R2|]. apply eqm_iff; [lia|].
    rewrite Nat2Z.inj_succ, Z.pow_succ_r by lia. replace (s * (2 * 2 ^ Z.of_nat j)) with (2 * k) by (unfold k; ring). destruct (V_double P k K0) as [-> _]. rewrite EV. apply eqm_refl. }
  exists b. split; [exact B1|]. rewrite B2. split; intros (i & I1 & I2).
  - exists i. split; [lia|exact I2].
  - exists i. split; [|exact I2]. destruct (Nat.eq_dec i j) as [->|IJ]; [fold k in I2; destruct (NOJ I2)|lia].
Qed.

Hypothesis NF : no_fermat n.
Lemma any_nm2 : nat_sub_u32 (of_Z n) 2 = of_Z (n - 2).
Proof.
  pose proof (of_Z_canon n ltac:(lia)) as Cn. assert (W2 : 2 < W) by (change W with (2 ^ 32); lia).
  destruct (sub_basic_spec (of_Z n) 2 Cn ltac:(lia)) as (V & Wl & L). rewrite of_Z_val, Z.abs_eq in V by lia. unfold nat_sub_u32. rewrite op1_canon by auto.
  apply of_Z_unique; [|auto]. pose proof (canon_len_pos _ Cn) as LP. apply canon_intro; [auto|intros E; rewrite E in L; cbn in L; lia|]. intros L1. rewrite L in *. rewrite V.
  pose proof (canon_lower _ Cn L1) as CL. rewrite of_Z_val in CL by lia. set (m := (length (of_Z n) - 1)%nat) in *.
  assert (EV : Z.even (Wp m) = true). { replace m with (S (m - 1)) by (unfold m; lia). rewrite Wp_S, Z.even_mul. reflexivity. }
  pose proof On as O. rewrite <- Z.negb_even in O. assert (n <> Wp m) by (intros E; rewrite E, EV in O; discriminate).
  assert (n <> Wp m + 1); [|lia]. intros E. apply (NF (Z.of_nat m)); [lia|]. rewrite <- Wp_pow2. exact E.
Qed.

Hypothesis SH : shift_ok (n + 1).

Lemma lucas_test_exact P : 3 <= P < n -> P < W -> rel_prime n (P * P - 4) ->
  exists b, lucas_test (of_Z n) P = Ok b /\ (b = true <-> extra_strong n P).
Proof.
  intros P3 PW RP. destruct (odd_split (n + 1) ltac:(lia)) as (s & r & R0 & S0 & Os & E). assert (PP : 0 < 2 ^ r) by (apply Z.pow_pos_nonneg; lia).
  assert (R1 : 1 <= r). { destruct (Z.eq_dec r 0) as [->|]; [|lia]. rewrite Z.pow_0_r, Z.mul_1_r in E. subst s. pose proof On. rewrite Z.odd_add, H in Os. discriminate Os. }
  unfold lucas_test. rewrite (trim_num n) by lia. pose proof (of_Z_canon n ltac:(lia)) as Cn. assert (E1 : nat_add_u32 (of_Z n) 1 = of_Z (n + 1)).
  { unfold nat_add_u32. rewrite op1_canon, add_basic_of_Z by (auto; change W with (2 ^ 32); lia). rewrite of_Z_val by lia. reflexivity. }
  rewrite E1. assert (TZ : trailling_zeros (of_Z (n + 1)) = r) by (rewrite E; apply tz_of_Z; auto). rewrite TZ.
  assert (E2 : shr_inner (of_Z (n + 1)) r = of_Z s).
  { rewrite shr_inner_good; [|apply of_Z_canon; lia|lia|apply shr_exact_good; [lia|lia|apply (SH r s); auto; lia]]. rewrite of_Z_val, E, Z.div_mul by lia. reflexivity. }
  rewrite E2, any_nm2. assert (SB : s < 2 ^ Z.of_nat (S (Z.to_nat (bits_len (of_Z s))))).
  { pose proof (bits_len_of_Z s ltac:(lia)) as B. pose proof (bits_len_of_Z_ge1 s ltac:(lia)). rewrite Nat2Z.inj_succ, Z2Nat.id, Z.pow_succ_r by lia. lia. }
  pose proof (ladder_spec n N128 P s P3 S0 (S (Z.to_nat (bits_len (of_Z s)))) 0 ltac:(rewrite Z.div_small by lia; reflexivity)) as LD. change (0 + 1) with 1 in LD.
  rewrite V_0, V_1, (Z.mod_small 2 n), (Z.mod_small P n) in LD by lia. rewrite (of_Z_small 2), (of_Z_small P) in LD by (change W with (2 ^ 32) in *; lia).
  unfold from_u32. rewrite LD. clear LD. cbn [bind]. pose proof (Z.mod_pos_bound (V P s) n ltac:(lia)) as B0. pose proof (Z.mod_pos_bound (V P (s + 1)) n ltac:(lia)) as B1.
  assert (W2 : 2 < W) by (change W with (2 ^ 32); lia).
  rewrite nat_eq_u32_of_Z, nat_eq_of_Z by lia.
  assert (EV0 : eqm n (V P s mod n) (V P s)) by (apply eqm_mod; lia). assert (EV1 : eqm n (V P (s + 1) mod n) (V P (s + 1))) by (apply eqm_mod; lia).
  set (a := V P s mod n) in *. set (b := V P (s + 1) mod n) in *.
  assert (EM2 : eqm n (n - 2) (-2)). { replace (n - 2) with (-2 + 1 * n) by ring. symmetry; apply eqm_shift. }
  (* the decomposition of n + 1 is unique *)
  assert (UNI : extra_strong n P <-> ((n | lucas_U P s) /\ ((n | lucas_V P s - 2) \/ (n | lucas_V P s + 2))) \/ exists i, (0 <= i < 0 + Z.to_nat (r - 1))%nat /\ eqm n (V P (s * 2 ^ Z.of_nat i)) 0).
  { split.
    - intros (s' & r' & E' & R' & O' & H). assert (r' = r) by (apply (odd_pow_unique s' r' s r); auto; lia). subst r'.
      assert (s' = s) by nia. subst s'. destruct H as [H|(t & T & D)]; [left; exact H|]. right. exists (Z.to_nat t). split; [lia|]. rewrite Z2Nat.id by lia.
      rewrite lucas_V_eq in D by (apply Z.mul_nonneg_nonneg; [lia|apply Z.pow_nonneg; lia]). apply div_eqm. exact D.
    - intros H. exists s, r. split; [exact E|]. split; [lia|]. split; [exact Os|]. destruct H as [H|(i & I & D)]; [left; exact H|]. right. exists (Z.of_nat i). split; [lia|].
      rewrite lucas_V_eq by (apply Z.mul_nonneg_nonneg; [lia|apply Z.pow_nonneg; lia]). apply eqm_div. exact D. }
  assert (VI : (n | lucas_V P s - 2) \/ (n | lucas_V P s + 2) <-> (a =? 2) || (a =? n - 2) = true).
  { rewrite lucas_V_eq by lia. rewrite orb_true_iff, !Z.eqb_eq. split.
    - intros [D|D]; [left|right].
      + apply eqm_small with n; [lia|lia|lia|]. rewrite EV0. apply eqm_minus, div_eqm. exact D.
      + apply eqm_small with n; [lia|lia|lia|]. rewrite EV0, EM2. apply eqm_minus, div_eqm. replace (V P s - -2) with (V P s + 2) by ring. exact D.
    - intros [D|D]; [left|right]; apply eqm_div.
      + apply eqm_minus. rewrite <- EV0, D. apply eqm_refl.
      + replace (V P s + 2) with (V P s - -2) by ring. apply eqm_minus. rewrite <- EV0, <- EM2, D. apply eqm_refl. }
  assert (UI : (n | lucas_U P s) <-> Z.abs (a * P - b * 2) mod n = 0).
  { pose proof (lucas_U_eq P s ltac:(lia)) as U. rewrite Z.mod_divide, Z.divide_abs_r by lia.
    assert (X : eqm n (a * P - b * 2) (-1 * ((P * P - 4) * lucas_U P s))). { rewrite U, EV0, EV1. replace (-1 * (2 * V P (s + 1) - P * V P s)) with (V P s * P - V P (s + 1) * 2) by ring. apply eqm_refl. }
    split; intros D.
    - apply eqm_div. rewrite X. apply div_eqm in D. rewrite D. rewrite Z.mul_0_r, Z.mul_0_r. apply eqm_refl.
    - apply div_eqm in D. rewrite D in X. symmetry in X. apply eqm_div in X. apply Z.divide_opp_r in X. replace (- (-1 * ((P * P - 4) * lucas_U P s))) with ((P * P - 4) * lucas_U P s) in X by ring.
      apply Gauss with (P * P - 4); auto. }
  assert (RO : exists b0, lucas_rounds (Z.to_nat (r - 1)) (of_Z a) (of_Z n) = Ok b0 /\ (b0 = true <-> exists i, (0 <= i < 0 + Z.to_nat (r - 1))%nat /\ eqm n (V P (s * 2 ^ Z.of_nat i)) 0)).
  { apply (rounds_exact P s ltac:(lia) (Z.to_nat (r - 1)) 0). rewrite Z.pow_0_r, Z.mul_1_r. apply vrep_of_Z. lia. }
  destruct RO as (b0 & RO1 & RO2).
  destruct (_ || _) eqn:T.
  - change [P] with (from_u32 P). unfold from_u32. rewrite <- (of_Z_small P) by lia. rewrite mul_vec_of_Z by (apply of_Z_canon; lia). cbn [bind]. rewrite !of_Z_val by lia.
    assert (SL : nat_shl (of_Z b) 1 = of_Z (b * 2)).
    { destruct (Z.eq_dec b 0) as [->|]; [reflexivity|]. unfold nat_shl. rewrite op1_canon, shl_of_Z by (try apply of_Z_canon; lia). reflexivity. }
    rewrite SL. unfold nat_sub, op2. rewrite !is_nan_of_Z by nia. cbn [orb]. rewrite sub_of_Z by nia. rewrite trim_canon_id by (apply of_Z_canon; lia). rewrite nat_rem_of_Z' by lia. cbn [bind].
    pose proof (Z.mod_pos_bound (Z.abs (a * P - b * 2)) n ltac:(lia)) as MB. rewrite nat_eq_u32_of_Z by lia.
    destruct (Z.eqb_spec (Z.abs (a * P - b * 2) mod n) 0) as [ZM|ZM].
    + exists true. split; [reflexivity|]. split; [|auto]. intros _. apply UNI. left. split; [apply UI; exact ZM|apply VI; reflexivity].
    + exists b0. split; [exact RO1|]. rewrite RO2, UNI. split; [auto|]. intros [(D & _)|H]; [|exact H]. apply UI in D. congruence.
  - cbn [bind]. exists b0. split; [exact RO1|]. rewrite RO2, UNI. split; [auto|]. intros [(_ & D)|H]; [|exact H]. apply VI in D. discriminate D.
Qed.

(* ------------------------------------------------------------------ *)
(** * The search for the parameter *)
Section Search.
Variable ps : list Z.
Hypothesis F : Forall odd_prime ps.
Hypothesis Eps : prodZ ps = n.

Lemma jac_iff a w : 0 < a < W -> (jacobi_symbol a n w <-> w = J a ps).
Proof.
  intros A. split.
  - intros H. pose proof (b_jacobi_spec a n ps ltac:(lia) F ltac:(rewrite Z.abs_eq by lia; exact Eps) ltac:(rewrite Z.abs_eq by lia; apply clean_word_any; auto; lia)) as E1.
    destruct (jacobi_symbol_inv a n w On H) as (qs & G & Eq & ->).
    pose proof (b_jacobi_spec a n qs ltac:(lia) G ltac:(rewrite Z.abs_eq by lia; exact Eq) ltac:(rewrite Z.abs_eq by lia; apply clean_word_any; auto; lia)) as E2.
    rewrite E1 in E2. destruct (Z.ltb_spec a 0); [lia|]. cbn [andb] in E2. rewrite !Z.mul_1_l in E2. congruence.
  - intros ->. apply (jacobi_symbol_J _ _ _ ps); auto. rewrite Forall_forall in *. intros p I. apply F. exact I.
Qed.

Definition param (P : Z) : Prop :=
  3 <= P /\ (forall Q, 3 <= Q < P -> J (Q * Q - 4) ps = 1) /\
  ((P <= 10000 /\ J (P * P - 4) ps = -1) \/ (P = 10001 /\ forall m, n <> m * m)).
Lemma param_iff P : first_parameter n P <-> param P.
Proof.
  assert (WB : 100030000 < W) by (change W with (2 ^ 32); lia).
  unfold first_parameter, param. split; intros (P3 & A & B); (split; [exact P3|]); assert (PB : P <= 10001) by (destruct B as [(B & _)|(B & _)]; lia).
  - split; [intros Q HQ; symmetry; apply jac_iff; [nia|auto]|]. destruct B as [(B1 & B2)|B]; [left|right; exact B]. split; [exact B1|]. symmetry. apply jac_iff; [nia|auto].
  - split; [intros Q HQ; apply jac_iff; [nia|symmetry; auto]|]. destruct B as [(B1 & B2)|B]; [left|right; exact B]. split; [exact B1|]. apply jac_iff; [nia|auto].
Qed.
Lemma param_unique P Q : param P -> param Q -> P = Q.
Proof.
  assert (G : forall P Q, param P -> param Q -> ~ P < Q).
  { intros P0 Q0 (P3 & A & B) (Q3 & C & D) L. specialize (C P0 ltac:(lia)). destruct B as [(_ & B)|(B & _)]; [congruence|]. destruct D as [(D & _)|(D & _)]; lia. }
  intros HP HQ. pose proof (G P Q HP HQ). pose proof (G Q P HQ HP). lia.
Qed.
Lemma all_coprime P : (forall Q, 3 <= Q < P -> J (Q * Q - 4) ps = 1) -> forall d, (1 <= d <= 4 \/ d < P + 2) -> 0 < d -> rel_prime n d.
Proof.
  intros A d D D0. assert (R2 : rel_prime n 2). { apply rel_prime_sym, prime_rel_prime; [exact Znumtheory.prime_2|]. intros (z & E). rewrite E, Z.odd_mul, andb_false_r in On. discriminate On. }
  destruct (Z.le_gt_cases d 4) as [L|L].
  - assert (d = 1 \/ d = 2 \/ d = 3 \/ d = 4) as [->|[->|[->| ->]]] by lia; [apply rel_prime_sym, rel_prime_1|exact R2|apply rel_prime_sym, prime_rel_prime; [exact prime_3|exact N3]|].
    change 4 with (2 * 2). apply rel_prime_mult; exact R2.
  - destruct (Z.lt_ge_cases d (P + 2)) as [LP|LP]; [|lia]. pose proof (A (d - 2) ltac:(lia)) as J1. assert (JN : J ((d - 2) * (d - 2) - 4) ps <> 0) by (rewrite J1; discriminate).
    apply J_coprime in JN; [|exact F]. rewrite Eps in JN. apply rel_prime_sym in JN. replace ((d - 2) * (d - 2) - 4) with (d * (d - 4)) in JN by ring.
    apply rel_prime_sym. apply rel_prime_div with (d * (d - 4)); [exact JN|]. apply Z.divide_factor_l.
Qed.
Lemma param_coprime P : param P -> rel_prime n (P * P - 4) /\ P < n.
Proof.
  intros (P3 & A & B). split.
  - destruct B as [(_ & B)|(-> & _)].
    + rewrite <- Eps. apply J_coprime; [exact F|]. rewrite B. discriminate.
    + change (10001 * 10001 - 4) with (9999 * (7 * 1429)). apply rel_prime_mult; [|apply rel_prime_mult]; apply (all_coprime 10001 A); lia.
  - destruct (Z.lt_ge_cases P n) as [|L]; [assumption|exfalso]. pose proof (A (n - 2) ltac:(lia)) as J1.
    assert (JN : J ((n - 2) * (n - 2) - 4) ps <> 0) by (rewrite J1; discriminate). apply J_coprime in JN; [|exact F]. rewrite Eps in JN.
    destruct JN as [_ _ JN]. specialize (JN n ltac:(exists 1; ring)). replace ((n - 2) * (n - 2) - 4) with ((n - 4) * n) in JN by ring. specialize (JN ltac:(exists (n - 4); ring)).
    apply Z.divide_1_r_nonneg in JN; lia.
Qed.

Lemma square_J m a : n = m * m -> 0 < a < W -> J a ps <> -1.
Proof.
  intros E A H. assert (M : Z.abs m <> 0) by nia. assert (Om : Z.odd (Z.abs m) = true). { rewrite E, Z.odd_mul in On. destruct (Z.odd m) eqn:X; [|discriminate On]. destruct m; auto. }
  destruct (factor_odd (Z.abs m) ltac:(lia) Om) as (qs & G & Eq).
  assert (J a (qs ++ qs) = J a ps) as E2.
  { apply jac_iff; [exact A|]. apply (jacobi_symbol_J _ _ _ (qs ++ qs)); auto.
    - apply Forall_app. split; (eapply Forall_impl; [|exact G]); intros p [? ?]; assumption.
    - rewrite prodZ_app, Eq. rewrite E. nia. }
  rewrite H, J_app in E2. nia.
Qed.

Lemma search_exact : forall cnt P, 3 <= P -> P + Z.of_nat cnt = 10001 -> (forall Q, 3 <= Q < P -> J (Q * Q - 4) ps = 1) -> (40 < P -> forall m, n <> m * m) ->
  (exists Q, lucas_search cnt P (of_Z n) = Ok (inr Q) /\ param Q) \/
  (lucas_search cnt P (of_Z n) = Ok (inl true) /\ prime n /\ n <= 10002) \/
  (lucas_search cnt P (of_Z n) = Ok (inl false) /\ (forall Q, ~ param Q) /\ ~ (prime n /\ n <= 10002)).
Proof.
  assert (WB : 100030000 < W) by (change W with (2 ^ 32); lia).
  induction cnt as [|c IH]; intros P P3 PC ALL SQN.
  - left. exists P. split; [reflexivity|]. split; [lia|]. split; [exact ALL|]. right. split; [lia|]. apply SQN. lia.
  - cbn [lucas_search]. assert (JB : 0 < P * P - 4 < W) by nia. assert (BI [P * P - 4] false = zint (P * P - 4)) as ->.
    { unfold zint. rewrite Z.abs_eq, of_Z_small by lia. f_equal. symmetry. apply Z.ltb_ge. lia. }
    unfold b_from_nat. rewrite trim_canon_id, zint_of_Z by (try apply of_Z_canon; lia).
    rewrite (b_jacobi_spec (P * P - 4) n ps ltac:(lia) F ltac:(rewrite Z.abs_eq by lia; exact Eps) ltac:(rewrite Z.abs_eq by lia; apply clean_word_any; auto; lia)). cbn [bind].
    destruct (Z.ltb_spec (P * P - 4) 0); [lia|]. cbn [andb]. rewrite Z.mul_1_l.
    destruct (Z.eqb_spec (J (P * P - 4) ps) (-1)) as [M|M].
    { left. exists P. split; [reflexivity|]. split; [lia|]. split; [exact ALL|]. left. split; [lia|exact M]. }
    destruct (Z.eqb_spec (J (P * P - 4) ps) 0) as [Z0|Z0].
    + right. assert (CH : (length (of_Z n) =? 1)%nat && (hd 0 (of_Z n) =? P + 2) = (n =? P + 2)).
      { destruct (Z.lt_ge_cases n W) as [L|L].
        - rewrite of_Z_small by lia. reflexivity.
        - destruct (Z.eqb_spec n (P + 2)); [lia|]. destruct (of_Z n) as [|x [|y l]] eqn:EQ; [reflexivity| |reflexivity]. pose proof (of_Z_val n ltac:(lia)) as VV. rewrite EQ in VV. cbn [nval] in VV.
          pose proof (of_Z_words n ltac:(lia)) as WW. rewrite EQ in WW. apply words_ok_cons in WW. lia. }
      rewrite CH. destruct (Z.eqb_spec n (P + 2)) as [EN|EN].
      * left. split; [reflexivity|]. split; [|lia]. constructor; [lia|]. intros d D. apply rel_prime_sym. apply (all_coprime P ALL); lia.
      * right. split; [reflexivity|]. split.
        { intros Q (Q3 & A & B). destruct (Z.lt_trichotomy P Q) as [L|[L|L]].
          - rewrite (A P ltac:(lia)) in Z0. discriminate.
          - subst Q. destruct B as [(_ & B)|(B & _)]; [congruence|lia].
          - destruct B as [(_ & B)|(B & _)]; [rewrite ALL in B by lia; discriminate|lia]. }
        intros (PN & NB). assert (EP : J (P * P - 4) ps = J (P * P - 4) [n]).
        { symmetry. apply jac_iff; [exact JB|]. apply (jacobi_symbol_J _ _ _ [n]); auto. rewrite prodZ_cons, prodZ_nil. ring. }
        rewrite EP in Z0. unfold J in Z0. cbn [map] in Z0. rewrite prodZ_cons, prodZ_nil, Z.mul_1_r in Z0. apply ls_zero in Z0; [|auto|lia].
        replace (P * P - 4) with ((P - 2) * (P + 2)) in Z0 by ring. assert (DN : n <= P + 2). { apply prime_mult in Z0; [|auto]. destruct Z0 as [D|D]; apply Z.divide_pos_le in D; lia. }
        pose proof (ALL (n - 2) ltac:(lia)) as J1. assert (JN : J ((n - 2) * (n - 2) - 4) ps <> 0) by (rewrite J1; discriminate). apply J_coprime in JN; [|exact F]. rewrite Eps in JN.
        destruct JN as [_ _ JN]. specialize (JN n ltac:(exists 1; ring)). replace ((n - 2) * (n - 2) - 4) with ((n - 4) * n) in JN by ring. specialize (JN ltac:(exists (n - 4); ring)).
        apply Z.divide_1_r_nonneg in JN; lia.
    + assert (L1 : J (P * P - 4) ps = 1) by (destruct (J_values (P * P - 4) ps F) as [T|[T|T]]; congruence).
      assert (ALL' : forall Q, 3 <= Q < P + 1 -> J (Q * Q - 4) ps = 1). { intros Q HQ. destruct (Z.eq_dec Q P); [subst; auto|apply ALL; lia]. }
      destruct (Z.eqb_spec P 40) as [P40|P40].
      * rewrite nat_sqrt_of_Z by (apply of_Z_canon; lia). cbn [bind]. rewrite of_Z_val by lia. pose proof (Z.sqrt_nonneg n) as SN.
        rewrite nat_sqr_of_Z by (apply of_Z_canon; auto). cbn [bind]. rewrite of_Z_val by auto. rewrite nat_eq_of_Z by nia. destruct (Z.eqb_spec (Z.sqrt n * Z.sqrt n) n) as [E|E]; cbn [bind].
        -- right. right. split; [reflexivity|]. split.
           ++ intros Q (Q3 & A & [(QB & B)|(_ & B)]); [|exact (B (Z.sqrt n) ltac:(auto))]. apply (square_J (Z.sqrt n) (Q * Q - 4)); [auto|nia|exact B].
           ++ intros (PN & _). assert (D : (Z.sqrt n | n)) by (exists (Z.sqrt n); auto). apply prime_divisors in D; [|auto]. nia.
        -- apply IH; [lia|lia|exact ALL'|]. intros _ m EM. apply E. rewrite EM. replace (m * m) with (Z.abs m * Z.abs m) by nia. rewrite Z.sqrt_square by lia. reflexivity.
      * cbn [bind]. apply IH; [lia|lia|exact ALL'|]. intros PB. apply SQN. lia.
Qed.

Lemma lucas_exact : exists b, lucas (of_Z n) = Ok b /\ (b = true <-> lucas_probable n).
Proof.
  unfold lucas. rewrite is_nan_of_Z, nat_eq_u32_of_Z by (change W with (2 ^ 32); lia). destruct (Z.eqb_spec n 1); [lia|]. cbn [orb].
  rewrite low_even, of_Z_val, On by (try apply of_Z_canon; lia). cbn [negb].
  destruct (search_exact (Z.to_nat 9998) 3) as [(Q & E & HQ)|[(E & PN & NB)|(E & NP & NB)]]; [lia|lia|intros; lia|lia| | |]; rewrite E; cbn [bind].
  - destruct (param_coprime Q HQ) as (RP & QN). destruct (lucas_test_exact Q) as (b & B1 & B2); [destruct HQ; lia|destruct HQ as (_ & _ & [(?&_)|(?&_)]); change W with (2 ^ 32); lia|exact RP|].
    exists b. split; [exact B1|]. split.
    + intros Hb. right. exists Q. split; [apply param_iff; exact HQ|apply B2; exact Hb].
    + intros [(PN & NB)|(P & HP & HE)].
      * pose proof (lucas_prime n PN N128 NF SH (or_introl NB)) as LP. unfold lucas in LP. rewrite is_nan_of_Z, nat_eq_u32_of_Z in LP by (change W with (2 ^ 32); lia). destruct (Z.eqb_spec n 1); [lia|]. cbn [orb] in LP.
        rewrite low_even, of_Z_val, On in LP by (try apply of_Z_canon; lia). cbn [negb] in LP. rewrite E in LP. cbn [bind] in LP. congruence.
      * apply param_iff in HP. rewrite (param_unique P Q HP HQ) in HE. apply B2. exact HE.
  - exists true. split; [reflexivity|]. split; [|auto]. intros _. left. auto.
  - exists false. split; [reflexivity|]. split; [discriminate|]. intros [H|(P & HP & _)]; [tauto|]. apply param_iff in HP. destruct (NP P HP).
Qed.
End Search.

Lemma lucas_any : exists b, lucas (of_Z n) = Ok b /\ (b = true <-> lucas_probable n).
Proof. destruct (factor_odd n ltac:(lia) On) as (ps & F & E). apply (lucas_exact ps F E). Qed.
End Any.
