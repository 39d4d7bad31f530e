(** The Lucas test of every odd number that 3 does not divide: what it
    accepts, also where the shift of n + 1 or the number n - 2 is not what was
    meant. *)
From Coq Require Import ZArith Znumtheory Zpow_facts List Lia Bool Setoid Morphisms.
From Verif Require Import Words WordsFacts NatModel NatFacts NatFacts2 NatFacts3 NatFacts4 NatFacts5 Spec SpecInt SpecNum SpecPrime VecPrims VecFacts Karatsuba KaraFacts KaraFacts2
  NatPow NatPowFacts NatExp NatExpFacts NatExpFacts2 BigInt BigIntFacts BigIntFacts2 NumTheory NumTheory2 NumTheory3 NumTheory4 NumBig NumBigFacts NumBigFacts2 NatPrime NatPrimeFacts NatPrimeFacts2 NatPrimeFacts3
  SpecLucas Properties_NumBig SpecNum LucasFacts SpecShift ShiftFacts SpecPrimeCode NatPrimeFacts6 PrimeExactFacts LucasFacts.
Import ListNotations.
Open Scope Z_scope.

(* ------------------------------------------------------------------ *)
(** * Bits of a number that may have zero words on top *)
Lemma bits_upper l : words_ok l -> l <> [] -> nval l < 2 ^ bits_len l /\ 0 <= bits_len l <= 32 * Z.of_nat (length l).
Proof.
  intros Wl Nl. pose proof (bits_len_words l Wl Nl) as BW. pose proof (words_ok_last l Wl) as LB. assert (LP : (1 <= length l)%nat) by (destruct l; [congruence|cbn [length]; lia]).
  destruct (Z.eq_dec (last l 0) 0) as [L0|L0].
  - pose proof (nval_last l Nl) as NL. rewrite L0, Z.mul_0_r, Z.add_0_r in NL. pose proof (nval_bound _ (words_ok_removelast l Wl)) as B. rewrite <- NL, removelast_len, Wp_pow2 in B.
    rewrite bits_len_nonnil in * by auto. rewrite L0, Z.eqb_refl in *. destruct (Nat.eqb_spec (length l) 1) as [L1|L1].
    + rewrite L1 in B. change (2 ^ (32 * Z.of_nat (1 - 1))) with 1 in B. split; [lia|lia].
    + replace ((Z.of_nat (length l) - 1) * 32) with (32 * Z.of_nat (length l - 1)) in * by lia. lia.
  - assert (C : canon l) by (split; [auto|split; [auto|right; auto]]). pose proof (bits_len_ge1 l C). split; [|lia]. destruct (Z.eq_dec (nval l) 0) as [E|E]; [rewrite E; apply Z.pow_pos_nonneg; lia|].
    apply bits_len_pos; auto. pose proof (nval_nonneg l Wl). lia.
Qed.
Lemma bit_any l i : words_ok l -> l <> [] -> 0 <= i ->
  exists ob, is_set_bit l i = Ok ob /\ match ob with Some true => true | _ => false end = Z.testbit (nval l) i.
Proof.
  intros Wl Nl I. destruct (bits_upper l Wl Nl) as (U & B). pose proof (nval_nonneg l Wl) as V0. unfold is_set_bit. destruct (Z.leb_spec (bits_len l) i) as [L|L].
  - exists None. split; [reflexivity|]. symmetry. destruct (Z.eq_dec (nval l) 0) as [->|]; [apply Z.bits_0|]. apply Z.bits_above_log2; [lia|]. apply Z.log2_lt_pow2; [lia|].
    assert (2 ^ bits_len l <= 2 ^ i) by (apply Z.pow_le_mono_r; lia). lia.
  - rewrite is_set_bit__spec by (auto; lia). cbn [bind]. eexists. split; [reflexivity|]. destruct (Z.testbit (nval l) i); reflexivity.
Qed.

Section Any.
Variable n : Z.
Hypothesis N128 : 128 <= n.
Hypothesis On : Z.odd n = true.
Hypothesis N3 : ~ (3 | n).
Let nm2 := nat_sub_u32 (of_Z n) 2.
Let m := (length (of_Z n) - 1)%nat.

(* ------------------------------------------------------------------ *)
(** * n - 2 *)
Lemma n_canon : canon (of_Z n) /\ nval (of_Z n) = n /\ length (of_Z n) = S m.
Proof. assert (C : canon (of_Z n)) by (apply of_Z_canon; lia). pose proof (canon_len_pos _ C). split; [exact C|]. split; [apply of_Z_val; lia|unfold m; lia]. Qed.
Lemma nm2_facts : words_ok nm2 /\ nm2 <> [] /\ nval nm2 = n - 2 /\ length nm2 = S m.
Proof.
  destruct n_canon as (Cn & Vn & Ln). assert (W2 : 0 <= 2 < W) by (change W with (2 ^ 32); lia). destruct (sub_basic_spec (of_Z n) 2 Cn W2) as (V & Wl & L). unfold nm2, nat_sub_u32. rewrite op1_canon by auto.
  rewrite Vn, Z.abs_eq in V by lia. rewrite Ln in L. split; [auto|]. split; [intros E; rewrite E in L; discriminate L|]. auto.
Qed.
Lemma n_above : (1 <= m)%nat -> Wp m + 1 <= n.
Proof.
  intros M. destruct n_canon as (Cn & Vn & Ln). pose proof (canon_lower _ Cn ltac:(lia)) as CL. rewrite Vn in CL. fold m in CL. enough (n <> Wp m) by lia. intros E.
  pose proof On as O. rewrite E in O. replace m with (S (m - 1)) in O by lia. rewrite Wp_S, Z.odd_mul in O. discriminate O.
Qed.
Lemma shape : (n = Wp m + 1 /\ (1 <= m)%nat) \/ (forall k, 0 <= k -> n <> 2 ^ (32 * k) + 1).
Proof.
  destruct n_canon as (Cn & Vn & Ln). destruct (Z.eq_dec n (Wp m + 1)) as [E|E].
  - left. split; [auto|]. destruct m as [|m']; [|lia]. change (Wp 0) with 1 in E. lia.
  - right. intros k K EK. apply E. rewrite EK. f_equal. rewrite Wp_pow2. f_equal. pose proof (len_of_Z n ltac:(lia)) as L. rewrite Ln in L.
    assert (LG : Z.log2 n = 32 * k). { destruct (Z.eq_dec k 0) as [->|]; [change (2 ^ (32 * 0)) with 1 in EK; lia|]. apply Z.log2_unique; [lia|]. rewrite EK, Z.pow_succ_r by lia. assert (2 ^ 1 < 2 ^ (32 * k)) by (apply Z.pow_lt_mono_r; lia). lia. }
    rewrite LG, Z.mul_comm, Z.div_mul in L by lia. lia.
Qed.
Lemma nm2_canon : (forall k, 0 <= k -> n <> 2 ^ (32 * k) + 1) -> nm2 = of_Z (n - 2).
Proof.
  intros NF. destruct nm2_facts as (Wm & Nm & Vm & Lm). apply of_Z_unique; [|auto]. apply canon_intro; [auto|auto|]. rewrite Lm, Vm. intros L. replace (S m - 1)%nat with m by lia.
  pose proof (n_above ltac:(lia)). assert (n <> Wp m + 1) by (rewrite Wp_pow2; apply NF; lia).
  assert (n <> Wp m + 2); [|lia]. intros E. pose proof On as O. rewrite E in O. replace m with (S (m - 1)) in O by lia. rewrite Wp_S, Z.odd_add, Z.odd_mul in O. discriminate O.
Qed.
Lemma nm2_not : n = Wp m + 1 -> (1 <= m)%nat -> forall v, 0 <= v -> nat_eq (of_Z v) nm2 = false.
Proof.
  intros E M v V. destruct (nat_eq (of_Z v) nm2) eqn:T; [|reflexivity]. exfalso. unfold nat_eq in T. rewrite is_nan_of_Z in T by auto. apply list_eqb_spec in T.
  destruct nm2_facts as (Wm & Nm & Vm & Lm). assert (C : canon nm2) by (rewrite <- T; apply of_Z_canon; auto). pose proof (canon_lower _ C) as CL. rewrite Lm, Vm in CL. replace (S m - 1)%nat with m in CL by lia. specialize (CL ltac:(lia)). lia.
Qed.

Lemma add_nm2 c : 0 <= c -> nat_rem (trim (add_inner (of_Z (c * c)) nm2)) (of_Z n) = Ok (of_Z ((c * c - 2) mod n)).
Proof.
  intros C0. destruct nm2_facts as (Wm & Nm & Vm & Lm). assert (S0 : 0 <= c * c) by nia. assert (Cc : canon (of_Z (c * c))) by (apply of_Z_canon; auto). pose proof (canon_words _ Cc) as Wc.
  pose proof (of_Z_val _ S0) as Vc. pose proof (add_inner_val _ _ Wc Wm) as AV. pose proof (add_inner_words _ _ Wc Wm) as AW. rewrite Vc, Vm in AV.
  rewrite trim_of_Z, AV by (auto; intros E; rewrite E in AV; cbn [nval] in AV; lia). rewrite nat_rem_of_Z' by lia. do 2 f_equal. replace (c * c + (n - 2)) with (c * c - 2 + 1 * n) by ring. apply Z.mod_add. lia.
Qed.

(* ------------------------------------------------------------------ *)
(** * The ladder *)
Section Ladder.
Variables (P s : Z) (sl : list Z).
Hypothesis P3 : 3 <= P < n.
Hypothesis Wsl : words_ok sl.
Hypothesis Nsl : sl <> [].
Hypothesis Vsl : nval sl = s.

Lemma ladder_any : forall i k, k = s / 2 ^ Z.of_nat i ->
  lucas_ladder i sl (of_Z (V P k mod n)) (of_Z (V P (k + 1) mod n)) (of_Z n) (of_Z P) nm2 = Ok (of_Z (V P s mod n), of_Z (V P (s + 1) mod n)).
Proof.
  assert (S0 : 0 <= s) by (rewrite <- Vsl; apply nval_nonneg; auto).
  induction i as [|i IH]; intros k K; cbn [lucas_ladder].
  - rewrite Z.pow_0_r, Z.div_1_r in K. subst k. reflexivity.
  - assert (K0 : 0 <= k) by (subst k; apply Z.div_pos; [lia|apply Z.pow_pos_nonneg; lia]).
    pose proof (Z.mod_pos_bound (V P k) n ltac:(lia)) as B0. pose proof (Z.mod_pos_bound (V P (k + 1)) n ltac:(lia)) as B1.
    assert (E0 : eqm n (V P k mod n) (V P k)) by (apply eqm_mod; lia). assert (E1 : eqm n (V P (k + 1) mod n) (V P (k + 1))) by (apply eqm_mod; lia).
    pose proof (of_Z_canon _ (proj1 B0)) as C0. pose proof (of_Z_canon _ (proj1 B1)) as C1. pose proof (of_Z_val _ (proj1 B0)) as V0. pose proof (of_Z_val _ (proj1 B1)) as V1.
    set (a := V P k mod n) in *. set (b := V P (k + 1) mod n) in *.
    rewrite mul_vec_of_Z by auto. cbn [bind]. rewrite V0, V1. rewrite add_of_Z, sub_of_Z, Z.abs_eq by nia.
    destruct (bit_any sl (Z.of_nat i) Wsl Nsl ltac:(lia)) as (ob & OB & HB). rewrite OB. cbn [bind]. rewrite Vsl in HB.
    assert (KB : s / 2 ^ Z.of_nat i = 2 * k + (if Z.testbit s (Z.of_nat i) then 1 else 0)).
    { rewrite Nat2Z.inj_succ, Z.pow_succ_r, Z.mul_comm in K by lia. rewrite <- Z.div_div in K by (try apply Z.pow_pos_nonneg; lia). subst k. set (q := s / 2 ^ Z.of_nat i).
      pose proof (Z.div_mod q 2 ltac:(lia)) as DM. rewrite DM at 1. f_equal.
      assert (Z.testbit q 0 = Z.testbit s (Z.of_nat i)). { unfold q. rewrite <- Z.shiftr_div_pow2, Z.shiftr_spec by lia. f_equal. }
      rewrite <- H, Zmod_odd, Z.bit0_odd. reflexivity. }
    destruct (V_double P k K0) as [D0 D1]. destruct (V_double P (k + 1) ltac:(lia)) as [D2 _]. replace (2 * (k + 1)) with (2 * k + 1 + 1) in D2 by ring.
    assert (T1 : nat_rem (trim (of_Z (a * b + n - P))) (of_Z n) = Ok (of_Z (V P (2 * k + 1) mod n))).
    { rewrite trim_canon_id by (apply of_Z_canon; nia). rewrite nat_rem_of_Z' by nia. do 2 f_equal. apply eqm_iff; [lia|]. rewrite D1, <- E0, <- E1. replace (a * b + n - P) with (a * b - P + 1 * n) by ring. symmetry; apply eqm_shift. }
    assert (SQ : forall c j, 0 <= c -> eqm n (c * c - 2) (V P j) -> nat_rem (trim (add_inner (of_Z (c * c)) nm2)) (of_Z n) = Ok (of_Z (V P j mod n))).
    { intros c j C EQ. rewrite add_nm2 by auto. apply eqm_iff in EQ; [|lia]. rewrite EQ. reflexivity. }
    assert (Q1 : eqm n (b * b - 2) (V P (2 * k + 1 + 1))) by (rewrite D2, E1; apply eqm_refl). assert (Q3 : eqm n (a * a - 2) (V P (2 * k))) by (rewrite D0, E0; apply eqm_refl).
    destruct ob as [[|]|]; rewrite <- HB in KB; rewrite T1; cbn [bind]; rewrite sqr_vec_words by (auto using canon_words, canon_nonnil); cbn [bind]; rewrite ?V0, ?V1.
    + rewrite (SQ b _ ltac:(lia) Q1). cbn [bind]. apply IH. lia.
    + rewrite (SQ a _ ltac:(lia) Q3). cbn [bind]. apply IH. lia.
    + rewrite (SQ a _ ltac:(lia) Q3). cbn [bind]. apply IH. lia.
Qed.
End Ladder.

(* ------------------------------------------------------------------ *)
(** * The test *)
Lemma lucas_test_any P : 3 <= P < n -> P < W -> rel_prime n (P * P - 4) ->
  exists b, lucas_test (of_Z n) P = Ok b /\ (b = true <-> lucas_passed n P).
Proof.
  intros P3 PW RP. destruct (odd_split (n + 1) ltac:(lia)) as (q & r & R0 & Q0 & Oq & E). assert (PP : 0 < 2 ^ r) by (apply Z.pow_pos_nonneg; lia).
  assert (R1 : 1 <= r). { destruct (Z.eq_dec r 0) as [->|]; [|lia]. rewrite Z.pow_0_r, Z.mul_1_r in E. subst q. pose proof On as O. rewrite Z.odd_add, O in Oq. discriminate Oq. }
  unfold lucas_test. rewrite (trim_num n) by lia. destruct n_canon as (Cn & Vn & Ln). assert (E1 : nat_add_u32 (of_Z n) 1 = of_Z (n + 1)).
  { unfold nat_add_u32. rewrite op1_canon, add_basic_of_Z by (auto; change W with (2 ^ 32); lia). rewrite of_Z_val by lia. reflexivity. }
  rewrite E1. assert (TZ : trailling_zeros (of_Z (n + 1)) = r) by (rewrite E; apply tz_of_Z; auto). rewrite TZ. fold nm2.
  assert (Cn1 : canon (of_Z (n + 1))) by (apply of_Z_canon; lia). destruct (shr_inner_value (of_Z (n + 1)) r (canon_words _ Cn1) (canon_nonnil _ Cn1) R0) as (SV & SW & SN).
  rewrite len_words, of_Z_val in SV by (auto; lia). set (sl := shr_inner (of_Z (n + 1)) r) in *. set (s := shift_result (words (n + 1)) (n + 1) r) in *.
  assert (S0 : 0 <= s) by (rewrite <- SV; apply nval_nonneg; auto). destruct (bits_upper sl SW SN) as (SB & BB).
  assert (K0 : 0 = s / 2 ^ Z.of_nat (S (Z.to_nat (bits_len sl)))). { symmetry. apply Z.div_small. rewrite Nat2Z.inj_succ, Z2Nat.id, Z.pow_succ_r by lia. rewrite SV in SB. lia. }
  pose proof (ladder_any P s sl P3 SW SN SV (S (Z.to_nat (bits_len sl))) 0 K0) as LD. change (0 + 1) with 1 in LD. rewrite V_0, V_1, !Z.mod_small in LD by lia.
  rewrite (of_Z_small 2), (of_Z_small P) in LD by (change W with (2 ^ 32) in *; lia). unfold from_u32. rewrite LD. clear LD. cbn [bind].
  pose proof (Z.mod_pos_bound (V P s) n ltac:(lia)) as B0. pose proof (Z.mod_pos_bound (V P (s + 1)) n ltac:(lia)) as B1.
  assert (W2 : 2 < W) by (change W with (2 ^ 32); lia).
  assert (EV0 : eqm n (V P s mod n) (V P s)) by (apply eqm_mod; lia). assert (EV1 : eqm n (V P (s + 1) mod n) (V P (s + 1))) by (apply eqm_mod; lia).
  set (a := V P s mod n) in *. set (b := V P (s + 1) mod n) in *.
  assert (EM2 : eqm n (n - 2) (-2)). { replace (n - 2) with (-2 + 1 * n) by ring. symmetry; apply eqm_shift. }
  rewrite nat_eq_u32_of_Z by lia.
  assert (VM : nat_eq (of_Z a) nm2 = true <-> (forall k, 0 <= k -> n <> 2 ^ (32 * k) + 1) /\ a = n - 2).
  { destruct shape as [(EN & M)|NF].
    - rewrite nm2_not by (auto; lia). split; [discriminate|]. intros (NF & _). exfalso. apply (NF (Z.of_nat m)); [lia|]. rewrite <- Wp_pow2. exact EN.
    - rewrite (nm2_canon NF), nat_eq_of_Z, Z.eqb_eq by lia. tauto. }
  assert (UNI : lucas_passed n P <-> ((n | lucas_U P s) /\ ((n | lucas_V P s - 2) \/ ((forall k, 0 <= k -> n <> 2 ^ (32 * k) + 1) /\ (n | lucas_V P s + 2)))) \/ exists i, (0 <= i < 0 + Z.to_nat (r - 1))%nat /\ eqm n (V P (s * 2 ^ Z.of_nat i)) 0).
  { split.
    - intros (r' & q' & E' & R' & O' & H). rewrite E in E'. apply odd_part_unique in E'; auto. destruct E' as [<- <-]. cbv zeta in H. fold s in H.
      destruct H as [H|(t & T & D)]; [left; exact H|]. right. exists (Z.to_nat t). split; [lia|]. rewrite Z2Nat.id by lia.
      rewrite lucas_V_eq in D by (apply Z.mul_nonneg_nonneg; [lia|apply Z.pow_nonneg; lia]). apply div_eqm. exact D.
    - intros H. exists r, q. split; [exact E|]. split; [lia|]. split; [exact Oq|]. cbv zeta. fold s. destruct H as [H|(i & I & D)]; [left; exact H|]. right. exists (Z.of_nat i). split; [lia|].
      rewrite lucas_V_eq by (apply Z.mul_nonneg_nonneg; [lia|apply Z.pow_nonneg; lia]). apply eqm_div. exact D. }
  assert (VI : (n | lucas_V P s - 2) \/ ((forall k, 0 <= k -> n <> 2 ^ (32 * k) + 1) /\ (n | lucas_V P s + 2)) <-> (a =? 2) || nat_eq (of_Z a) nm2 = true).
  { rewrite lucas_V_eq by lia. rewrite orb_true_iff, VM, Z.eqb_eq.
    assert (X1 : (n | V P s - 2) <-> a = 2).
    { split; intros D.
      - apply eqm_small with n; [lia|lia|lia|]. rewrite EV0. apply eqm_minus, div_eqm. exact D.
      - apply eqm_div, eqm_minus. rewrite <- EV0, D. apply eqm_refl. }
    assert (X2 : (n | V P s + 2) <-> a = n - 2).
    { split; intros D.
      - apply eqm_small with n; [lia|lia|lia|]. rewrite EV0, EM2. apply eqm_minus, div_eqm. replace (V P s - -2) with (V P s + 2) by ring. exact D.
      - apply eqm_div. replace (V P s + 2) with (V P s - -2) by ring. apply eqm_minus. rewrite <- EV0, <- EM2, D. apply eqm_refl. }
    rewrite X1, X2. tauto. }
  assert (UI : (n | lucas_U P s) <-> Z.abs (a * P - b * 2) mod n = 0).
  { pose proof (lucas_U_eq P s ltac:(lia)) as U. rewrite Z.mod_divide, Z.divide_abs_r by lia.
    assert (X : eqm n (a * P - b * 2) (-1 * ((P * P - 4) * lucas_U P s))). { rewrite U, EV0, EV1. replace (-1 * (2 * V P (s + 1) - P * V P s)) with (V P s * P - V P (s + 1) * 2) by ring. apply eqm_refl. }
    split; intros D.
    - apply eqm_div. rewrite X. apply div_eqm in D. rewrite D. rewrite Z.mul_0_r, Z.mul_0_r. apply eqm_refl.
    - apply div_eqm in D. rewrite D in X. symmetry in X. apply eqm_div in X. apply Z.divide_opp_r in X. replace (- (-1 * ((P * P - 4) * lucas_U P s))) with ((P * P - 4) * lucas_U P s) in X by ring.
      apply Gauss with (P * P - 4); auto. }
  assert (RO : exists b0, lucas_rounds (Z.to_nat (r - 1)) (of_Z a) (of_Z n) = Ok b0 /\ (b0 = true <-> exists i, (0 <= i < 0 + Z.to_nat (r - 1))%nat /\ eqm n (V P (s * 2 ^ Z.of_nat i)) 0)).
  { apply (LucasFacts.rounds_exact n N128 P s ltac:(lia) (Z.to_nat (r - 1)) 0). change (Z.of_nat 0) with 0. rewrite Z.pow_0_r, Z.mul_1_r. apply vrep_of_Z. lia. }
  destruct RO as (b0 & RO1 & RO2). clear VM.
  destruct (_ || _) eqn:T.
  - rewrite <- (of_Z_small P) by lia. rewrite mul_vec_of_Z by (apply of_Z_canon; lia). cbn [bind]. rewrite !of_Z_val by lia. assert (SHL : nat_shl (of_Z b) 1 = of_Z (b * 2)).
    { destruct (Z.eq_dec b 0) as [->|]; [reflexivity|]. unfold nat_shl. rewrite op1_canon, shl_of_Z by (try apply of_Z_canon; lia). reflexivity. }
    rewrite SHL.
    unfold nat_sub, op2. rewrite !is_nan_of_Z by nia. cbn [orb]. rewrite sub_of_Z by nia. rewrite trim_canon_id by (apply of_Z_canon; lia). rewrite nat_rem_of_Z' by lia. cbn [bind].
    pose proof (Z.mod_pos_bound (Z.abs (a * P - b * 2)) n ltac:(lia)) as MB. rewrite nat_eq_u32_of_Z by lia.
    destruct (Z.eqb_spec (Z.abs (a * P - b * 2) mod n) 0) as [ZM|ZM].
    + exists true. split; [reflexivity|]. split; [|auto]. intros _. apply UNI. left. split; [apply UI; exact ZM|apply VI; reflexivity].
    + exists b0. split; [exact RO1|]. rewrite RO2, UNI. split; [auto|]. intros [(D & _)|H]; [|exact H]. apply UI in D. congruence.
  - cbn [bind]. exists b0. split; [exact RO1|]. rewrite RO2, UNI. split; [auto|]. intros [(_ & D)|H]; [apply VI in D; discriminate D|exact H].
Qed.

Lemma lucas_every : exists b, lucas (of_Z n) = Ok b /\ (b = true <-> lucas_accepts n).
Proof.
  destruct (factor_odd n ltac:(lia) On) as (ps & F & Eps).
  assert (LU : lucas (of_Z n) = (do f <- lucas_search (Z.to_nat 9998) 3 (of_Z n); match f with inl b => Ok b | inr p => lucas_test (of_Z n) p end)).
  { unfold lucas. rewrite is_nan_of_Z, nat_eq_u32_of_Z by (change W with (2 ^ 32); lia). destruct (Z.eqb_spec n 1); [lia|]. cbn [orb]. rewrite low_even, of_Z_val, On by (try apply of_Z_canon; lia). reflexivity. }
  destruct (search_exact n N128 On N3 ps F Eps (Z.to_nat 9998) 3) as [(Q & E & HQ)|[(E & PN & NB)|(E & NP & NB)]]; [lia|lia|intros; lia|lia| | |]; rewrite E in LU; cbn [bind] in LU.
  - destruct (param_coprime n N128 On N3 ps F Eps Q HQ) as (RP & QN). destruct (lucas_test_any Q) as (b & B1 & B2); [destruct HQ; lia|destruct HQ as (_ & _ & [(?&_)|(?&_)]); change W with (2 ^ 32); lia|exact RP|].
    exists b. split; [rewrite LU; exact B1|]. split.
    + intros Hb. right. exists Q. split; [apply (param_iff n N128 On ps F Eps); exact HQ|apply B2; exact Hb].
    + intros [(PN & NB)|(P & HP & HE)].
      * assert (LP : lucas (of_Z n) = Ok true).
        { apply lucas_prime; auto; [intros k K EK; destruct (Z.eq_dec k 0) as [->|]; [change (2 ^ (32 * 0)) with 1 in EK; lia|]; assert (2 ^ 32 <= 2 ^ (32 * k)) by (apply Z.pow_le_mono_r; lia); lia|]. intros e s' ES E0 O. left. apply (Z.pow_lt_mono_r_iff 2); [lia|lia|]. assert (0 < 2 ^ e) by (apply Z.pow_pos_nonneg; lia). assert (s' <> 0) by (intros ->; discriminate O). nia. }
        rewrite LU, B1 in LP. congruence.
      * apply (param_iff n N128 On ps F Eps) in HP. rewrite (param_unique n ps P Q HP HQ) in HE. apply B2. exact HE.
  - exists true. split; [exact LU|]. split; [|auto]. intros _. left. auto.
  - exists false. split; [exact LU|]. split; [discriminate|]. intros [H|(P & HP & _)]; [tauto|]. apply (param_iff n N128 On ps F Eps) in HP. destruct (NP P HP).
Qed.
End Any.
