(** Facts about [NatPrime]: the Lucas test of a prime. *)
From Coq Require Import ZArith Znumtheory Zpow_facts List Lia Bool Setoid Morphisms.
From Verif Require Import Words WordsFacts NatModel NatFacts NatFacts2 NatFacts3 NatFacts4 NatFacts5 Spec SpecInt SpecPrime VecPrims VecFacts Karatsuba KaraFacts KaraFacts2
  NatPow NatPowFacts NatExp NatExpFacts NatExpFacts2 BigInt BigIntFacts BigIntFacts2 NumTheory NumTheory2 NumTheory3 NumTheory4 NumBig NumBigFacts NumBigFacts2 NatPrime NatPrimeFacts NatPrimeFacts2.
Import ListNotations.
Open Scope Z_scope.

(* ------------------------------------------------------------------ *)
(** * Remainder of a subtraction of 2 that left a high zero word *)
Lemma sub_inner_longer a b : words_ok a -> words_ok b -> b <> [] -> (length b < length a)%nat -> nval b <= nval a -> sub_inner a b = of_Z (nval a - nval b).
Proof.
  intros Wa Wb Nb L Hge. unfold sub_inner, sub_inner_with_sign. assert (G : nat_ge a b = true).
  { unfold nat_ge, partial_cmp. assert (is_nan a = false) as -> by (destruct a; [cbn in L; lia|reflexivity]). assert (is_nan b = false) as -> by (destruct b; [congruence|reflexivity]).
    cbn [orb]. unfold cmp_inner. assert ((length a <? length b)%nat = false) as -> by (apply Nat.ltb_ge; lia). assert ((length b <? length a)%nat = true) as -> by (apply Nat.ltb_lt; lia). reflexivity. }
  rewrite G.
  pose proof (sub_zip_spec true a 0 b Wa Wb ltac:(lia)) as S0. cbv zeta in S0. destruct (sub_zip true 0 a b) as [lo c]. cbn [fst snd] in S0.
  rewrite Nat.min_r in S0 by lia. destruct S0 as (S1 & S2 & S3 & S4). rewrite (firstn_all b) in S4.
  pose proof (nval_split (length b) a Wa) as SP. pose proof (words_ok_skipn (length b) a Wa) as Wh. pose proof (nval_nonneg _ Wh).
  pose proof (nval_bound _ (words_ok_firstn (length b) a Wa)) as B1. pose proof (nval_bound _ Wb). pose proof (Wp_pos (length b)). pose proof (nval_bound lo S1) as B2. rewrite S2 in B2.
  set (hi := skipn (length b) a) in *. set (hi' := if true && (c >? 0) then sub_tail c hi else hi).
  assert (T : nval hi' = nval hi - c /\ words_ok hi').
  { subst hi'. cbn [andb]. rewrite Z.gtb_ltb. destruct (Z.ltb_spec 0 c).
    - assert (c = 1) by lia. subst c. destruct (sub_tail_spec hi 1) as (T1 & T2 & T3); [auto|lia|nia|auto].
    - assert (c = 0) by lia. split; auto; lia. }
  destruct T as [T1 T2]. cbn [fst snd]. assert (Wl : words_ok (lo ++ hi')) by (apply words_ok_app; auto). apply of_Z_unique.
  - apply trim_canon; auto. destruct lo; [|discriminate]. cbn in S2. destruct b; [congruence|discriminate].
  - rewrite trim_val, nval_app, S2, S4, T1, SP. ring.
Qed.

Lemma low_even x : canon x -> (Z.land (hd 0 x) 1 =? 0) = negb (Z.odd (nval x)).
Proof.
  intros C. rewrite <- hd_odd by (auto using canon_words, canon_nonnil). set (h := hd 0 x). change (Z.land h 1) with (Z.land h (Z.ones 1)). rewrite Z.land_ones by lia. change (2 ^ 1) with 2.
  rewrite Zmod_odd. destruct (Z.odd h); reflexivity.
Qed.

(** A word list for [v], canonical unless [v] is large. *)
Definition vrep (r : list Z) (v : Z) : Prop := words_ok r /\ r <> [] /\ nval r = v /\ (canon r \/ 2 < v).
Lemma vrep_of_Z v : 0 <= v -> vrep (of_Z v) v.
Proof.
  intros V0. pose proof (of_Z_canon v V0) as C. split; [apply canon_words; auto|]. split; [apply canon_nonnil; auto|]. split; [apply of_Z_val; auto|left; auto].
Qed.
Lemma vrep_eq r v w : vrep r v -> 0 <= w <= 2 -> nat_eq_u32 r w = (v =? w).
Proof.
  intros (Wr & Nr & Vr & [C|B]) HW.
  - rewrite nat_eq_u32_spec by (auto; lia). rewrite Vr. reflexivity.
  - destruct (Z.eqb_spec v w); [lia|]. unfold nat_eq_u32, nat_eq. destruct (is_nan r); [reflexivity|]. destruct (list_eqb r (from_u32 w)) eqn:E; [|reflexivity].
    apply list_eqb_spec in E. rewrite E in Vr. unfold from_u32 in Vr. cbn [nval] in Vr. lia.
Qed.
Lemma vrep_two r v : vrep r v -> (length r =? 1)%nat && (hd 0 r =? 2) = true -> v = 2.
Proof.
  intros (Wr & Nr & Vr & _) H. apply andb_prop in H. destruct H as (H1 & H2). destruct r as [|x [|? ?]]; try discriminate H1. cbn [hd nval] in *. apply Z.eqb_eq in H2. lia.
Qed.

Lemma rem_sub2 t n : 2 <= t -> 1 < n -> nat_rem (trim (nat_sub_u32 (of_Z t) 2)) (of_Z n) = Ok (of_Z ((t - 2) mod n)).
Proof.
  intros T N. pose proof (of_Z_canon t ltac:(lia)) as Ct. assert (W2 : 2 < W) by (change W with (2 ^ 32); lia).
  destruct (sub_basic_spec (of_Z t) 2 Ct ltac:(lia)) as (V & Wl & L). rewrite of_Z_val, Z.abs_eq in V by lia. unfold nat_sub_u32. rewrite op1_canon by auto.
  rewrite trim_of_Z, V by (auto; intros E; pose proof (canon_len_pos _ Ct); rewrite E in L; cbn in L; lia). apply nat_rem_of_Z'; lia.
Qed.

(* ------------------------------------------------------------------ *)
(** * The Lucas test of an odd prime *)
Section Lucas.
Variable n : Z.
Hypothesis Pn : prime n.
Hypothesis N128 : 128 <= n.

Lemma n_odd : Z.odd n = true.
Proof. apply odd_prime_odd. split; [auto|lia]. Qed.
Lemma v_stuck P c k : eqm n (V P k) c -> eqm n (c * c - 2) c -> 0 <= k -> forall i, eqm n (V P (k * 2 ^ Z.of_nat i)) c.
Proof.
  intros E F K. induction i as [|i IH]; [rewrite Z.pow_0_r, Z.mul_1_r; exact E|]. rewrite Nat2Z.inj_succ, Z.pow_succ_r by lia.
  assert (0 <= k * 2 ^ Z.of_nat i) by (apply Z.mul_nonneg_nonneg; [auto|apply Z.pow_nonneg; lia]).
  replace (k * (2 * 2 ^ Z.of_nat i)) with (2 * (k * 2 ^ Z.of_nat i)) by ring. destruct (V_double P _ H) as [-> _]. rewrite IH. exact F.
Qed.

Lemma rounds_spec P s : 0 <= s -> forall cnt j r, vrep r (V P (s * 2 ^ Z.of_nat j) mod n) ->
  (exists i, (j <= i < j + cnt)%nat /\ eqm n (V P (s * 2 ^ Z.of_nat i)) 0) -> lucas_rounds cnt r (of_Z n) = Ok true.
Proof.
  intros S0. induction cnt as [|c IH]; intros j r VR (i & I1 & I2); [lia|]. cbn [lucas_rounds].
  set (k := s * 2 ^ Z.of_nat j) in *. assert (K0 : 0 <= k) by (apply Z.mul_nonneg_nonneg; [auto|apply Z.pow_nonneg; lia]).
  assert (KI : s * 2 ^ Z.of_nat i = k * 2 ^ Z.of_nat (i - j)). { unfold k. rewrite <- Z.mul_assoc, <- Z.pow_add_r by lia. do 2 f_equal. lia. }
  assert (EV : eqm n (V P k) (V P k mod n)) by (symmetry; apply eqm_mod; lia).
  pose proof (Z.mod_pos_bound (V P k) n ltac:(lia)) as MB. set (v := V P k mod n) in *.
  rewrite (vrep_eq r v 0) by (auto; lia). destruct (Z.eqb_spec v 0) as [|V0]; [reflexivity|].
  assert (V2 : v <> 2).
  { intros E. rewrite E in EV. pose proof (v_stuck P 2 k EV ltac:(apply eqm_refl) K0 (i - j)) as ST. rewrite <- KI, I2 in ST. apply eqm_small in ST; lia. }
  assert (IJ : i <> j). { intros ->. apply V0. unfold v. apply eqm_iff in I2; [|lia]. fold k in I2. rewrite I2. reflexivity. }
  assert (V1 : v <> 1).
  { intros E. rewrite E in EV. assert (EV2 : eqm n (V P (2 * k)) (-1)). { destruct (V_double P k K0) as [-> _]. rewrite EV. apply eqm_refl. }
    pose proof (v_stuck P (-1) (2 * k) EV2 ltac:(apply eqm_refl) ltac:(lia) (i - j - 1)) as ST.
    replace (2 * k * 2 ^ Z.of_nat (i - j - 1)) with (s * 2 ^ Z.of_nat i) in ST.
    2:{ rewrite KI. replace (Z.of_nat (i - j)) with (Z.succ (Z.of_nat (i - j - 1))) by lia. rewrite Z.pow_succ_r by lia. ring. }
    rewrite I2 in ST. symmetry in ST. apply eqm_0 in ST. destruct ST as [z ST]. destruct (Z.eq_dec z 0); [subst; lia|]. nia. }
  destruct (_ && _) eqn:T2. { apply (vrep_two r v VR) in T2. lia. }
  destruct VR as (Wr & Nr & Vr & _). rewrite sqr_vec_words by auto. cbn [bind]. rewrite Vr.
  rewrite rem_sub2 by nia. cbn [bind]. pose proof (vrep_of_Z ((v * v - 2) mod n) ltac:(apply Z.mod_pos_bound; lia)) as R2. apply (IH (S j)).
  - replace (V P (s * 2 ^ Z.of_nat (S j)) mod n) with ((v * v - 2) mod n); [exact R2|]. apply eqm_iff; [lia|].
    rewrite Nat2Z.inj_succ, Z.pow_succ_r by lia. replace (s * (2 * 2 ^ Z.of_nat j)) with (2 * k) by (unfold k; ring). destruct (V_double P k K0) as [-> _]. rewrite EV. apply eqm_refl.
  - exists i. split; [lia|auto].
Qed.

Hypothesis NF : no_fermat n.
Lemma nm2_of_Z : nat_sub_u32 (of_Z n) 2 = of_Z (n - 2).
Proof.
  pose proof (of_Z_canon n ltac:(lia)) as Cn. assert (W2 : 2 < W) by (change W with (2 ^ 32); lia).
  destruct (sub_basic_spec (of_Z n) 2 Cn ltac:(lia)) as (V & Wl & L). rewrite of_Z_val, Z.abs_eq in V by lia. unfold nat_sub_u32. rewrite op1_canon by auto.
  apply of_Z_unique; [|auto]. pose proof (canon_len_pos _ Cn) as LP. apply canon_intro; [auto|intros E; rewrite E in L; cbn in L; lia|]. intros L1. rewrite L in *. rewrite V.
  pose proof (canon_lower _ Cn L1) as CL. rewrite of_Z_val in CL by lia. set (m := (length (of_Z n) - 1)%nat) in *.
  assert (EV : Z.even (Wp m) = true). { replace m with (S (m - 1)) by (unfold m; lia). rewrite Wp_S, Z.even_mul. reflexivity. }
  pose proof n_odd as O. rewrite <- Z.negb_even in O. assert (n <> Wp m) by (intros E; rewrite E, EV in O; discriminate).
  assert (n <> Wp m + 1); [|lia]. intros E. apply (NF (Z.of_nat m)); [lia|]. rewrite <- Wp_pow2. exact E.
Qed.

Section Ladder.
Variables P s : Z.
Hypothesis P3 : 3 <= P < n.
Hypothesis S0 : 0 < s.
Let nm2 := of_Z (n - 2).

Lemma ladder_spec : forall i k, k = s / 2 ^ Z.of_nat i ->
  lucas_ladder i (of_Z s) (of_Z (V P k mod n)) (of_Z (V P (k + 1) mod n)) (of_Z n) (of_Z P) nm2 = Ok (of_Z (V P s mod n), of_Z (V P (s + 1) mod n)).
Proof.
  induction i as [|i IH]; intros k K; cbn [lucas_ladder].
  - rewrite Z.pow_0_r, Z.div_1_r in K. subst k. reflexivity.
  - assert (K0 : 0 <= k) by (subst k; apply Z.div_pos; [lia|apply Z.pow_pos_nonneg; lia]).
    pose proof (Z.mod_pos_bound (V P k) n ltac:(lia)) as B0. pose proof (Z.mod_pos_bound (V P (k + 1)) n ltac:(lia)) as B1.
    assert (E0 : eqm n (V P k mod n) (V P k)) by (apply eqm_mod; lia). assert (E1 : eqm n (V P (k + 1) mod n) (V P (k + 1))) by (apply eqm_mod; lia).
    set (a := V P k mod n) in *. set (b := V P (k + 1) mod n) in *.
    rewrite mul_vec_of_Z by (apply of_Z_canon; lia). cbn [bind]. rewrite !of_Z_val by lia. rewrite add_of_Z, sub_of_Z, Z.abs_eq by nia.
    rewrite is_set_bit_spec by (try apply of_Z_canon; lia). cbn [bind]. rewrite of_Z_val by lia.
    assert (KB : s / 2 ^ Z.of_nat i = 2 * k + (if Z.testbit s (Z.of_nat i) then 1 else 0)).
    { rewrite Nat2Z.inj_succ, Z.pow_succ_r, Z.mul_comm in K by lia. rewrite <- Z.div_div in K by (try apply Z.pow_pos_nonneg; lia). subst k. set (q := s / 2 ^ Z.of_nat i).
      pose proof (Z.div_mod q 2 ltac:(lia)) as DM. rewrite DM at 1. f_equal. rewrite <- (Z.mod_pow2_bits_low s (Z.of_nat i + 1) (Z.of_nat i)) by lia.
      assert (Z.testbit q 0 = Z.testbit s (Z.of_nat i)). { unfold q. rewrite <- Z.shiftr_div_pow2, Z.shiftr_spec by lia. f_equal. }
      rewrite Z.mod_pow2_bits_low by lia. rewrite <- H, Zmod_odd, Z.bit0_odd. reflexivity. }
    assert (HB : match (if bits_len (of_Z s) <=? Z.of_nat i then None else Some (Z.testbit s (Z.of_nat i))) with Some true => true | _ => false end = Z.testbit s (Z.of_nat i)).
    { destruct (Z.leb_spec (bits_len (of_Z s)) (Z.of_nat i)) as [L|]; [|destruct (Z.testbit s (Z.of_nat i)); reflexivity]. symmetry. rewrite bits_len_of_Z_eq in L by lia.
      destruct (Z.eqb_spec s 0); [lia|]. apply Z.bits_above_log2; lia. }
    destruct (V_double P k K0) as [D0 D1]. destruct (V_double P (k + 1) ltac:(lia)) as [D2 _]. replace (2 * (k + 1)) with (2 * k + 1 + 1) in D2 by ring.
    assert (T1 : nat_rem (trim (of_Z (a * b + n - P))) (of_Z n) = Ok (of_Z (V P (2 * k + 1) mod n))).
    { rewrite trim_canon_id by (apply of_Z_canon; nia). rewrite nat_rem_of_Z' by nia. do 2 f_equal. apply eqm_iff; [lia|]. rewrite D1, <- E0, <- E1. replace (a * b + n - P) with (a * b - P + 1 * n) by ring. symmetry; apply eqm_shift. }
    assert (SQ : forall c m, 0 <= c -> eqm n (c * c - 2) (V P m) -> nat_rem (trim (add_inner (of_Z (c * c)) nm2)) (of_Z n) = Ok (of_Z (V P m mod n))).
    { intros c m C EQ. unfold nm2. rewrite add_of_Z by nia. rewrite trim_canon_id by (apply of_Z_canon; nia). rewrite nat_rem_of_Z' by nia. do 2 f_equal. apply eqm_iff; [lia|]. rewrite <- EQ. replace (c * c + (n - 2)) with (c * c - 2 + 1 * n) by ring. symmetry; apply eqm_shift. }
    destruct (if bits_len (of_Z s) <=? Z.of_nat i then None else Some (Z.testbit s (Z.of_nat i))) as [[|]|]; rewrite <- HB in KB; rewrite T1; cbn [bind];
    rewrite sqr_vec_of_Z by (apply of_Z_canon; lia); cbn [bind]; rewrite of_Z_val by lia.
    + rewrite (SQ b (2 * k + 1 + 1)) by (try lia; rewrite D2, E1; apply eqm_refl). cbn [bind]. apply IH. lia.
    + rewrite (SQ a (2 * k)) by (try lia; rewrite D0, E0; apply eqm_refl). cbn [bind]. apply IH. lia.
    + rewrite (SQ a (2 * k)) by (try lia; rewrite D0, E0; apply eqm_refl). cbn [bind]. apply IH. lia.
Qed.
End Ladder.

Hypothesis SH : forall e s, n + 1 = s * 2 ^ e -> 0 <= e -> Z.odd s = true -> shr_exact (n + 1) e.

Lemma lucas_test_prime P : 3 <= P < n -> P < W -> ls (P * P - 4) n = -1 -> lucas_test (of_Z n) P = Ok true.
Proof.
  intros P3 PW LS. assert (N2 : n <> 2) by lia. destruct (odd_split (n + 1) ltac:(lia)) as (s & r & R0 & S0 & Os & E). assert (PP : 0 < 2 ^ r) by (apply Z.pow_pos_nonneg; lia).
  assert (R1 : 1 <= r). { destruct (Z.eq_dec r 0) as [->|]; [|lia]. rewrite Z.pow_0_r, Z.mul_1_r in E. subst s. pose proof n_odd. rewrite Z.odd_add, H in Os. discriminate Os. }
  unfold lucas_test. rewrite (trim_num n) by lia. pose proof (of_Z_canon n ltac:(lia)) as Cn. assert (E1 : nat_add_u32 (of_Z n) 1 = of_Z (n + 1)).
  { unfold nat_add_u32. rewrite op1_canon, add_basic_of_Z by (auto; change W with (2 ^ 32); lia). rewrite of_Z_val by lia. reflexivity. }
  rewrite E1. assert (TZ : trailling_zeros (of_Z (n + 1)) = r) by (rewrite E; apply tz_of_Z; auto). rewrite TZ.
  assert (E2 : shr_inner (of_Z (n + 1)) r = of_Z s).
  { rewrite shr_inner_good; [|apply of_Z_canon; lia|lia|apply shr_exact_good; [lia|lia|apply (SH r s); auto; lia]]. rewrite of_Z_val, E, Z.div_mul by lia. reflexivity. }
  rewrite E2, nm2_of_Z. assert (SB : s < 2 ^ Z.of_nat (S (Z.to_nat (bits_len (of_Z s))))).
  { pose proof (bits_len_of_Z s ltac:(lia)) as B. pose proof (bits_len_of_Z_ge1 s ltac:(lia)). rewrite Nat2Z.inj_succ, Z2Nat.id, Z.pow_succ_r by lia. lia. }
  pose proof (ladder_spec P s P3 S0 (S (Z.to_nat (bits_len (of_Z s)))) 0 ltac:(rewrite Z.div_small by lia; reflexivity)) as LD. change (0 + 1) with 1 in LD.
  rewrite V_0, V_1, (Z.mod_small 2 n), (Z.mod_small P n) in LD by lia. rewrite (of_Z_small 2), (of_Z_small P) in LD by (change W with (2 ^ 32) in *; lia).
  unfold from_u32. rewrite LD. clear LD. cbn [bind]. pose proof (Z.mod_pos_bound (V P s) n ltac:(lia)) as B0. pose proof (Z.mod_pos_bound (V P (s + 1)) n ltac:(lia)) as B1.
  assert (W2 : 2 < W) by (change W with (2 ^ 32); lia).
  rewrite nat_eq_u32_of_Z, nat_eq_of_Z by lia.
  assert (EV0 : eqm n (V P s mod n) (V P s)) by (apply eqm_mod; lia). assert (EV1 : eqm n (V P (s + 1) mod n) (V P (s + 1))) by (apply eqm_mod; lia).
  set (a := V P s mod n) in *. set (b := V P (s + 1) mod n) in *.
  assert (EM2 : eqm n (n - 2) (-2)). { replace (n - 2) with (-2 + 1 * n) by ring. symmetry; apply eqm_shift. }
  destruct (_ || _) eqn:T.
  - assert (A2 : eqm n a 2 \/ eqm n a (-2)).
    { apply orb_prop in T. destruct T as [T|T]; apply Z.eqb_eq in T; rewrite T; [left; apply eqm_refl|right; exact EM2]. }
    assert (SQ : eqm n (P * a - 2 * b) 0).
    { assert (X : eqm n ((P * a - 2 * b) * (P * a - 2 * b)) 0).
      { rewrite EV0, EV1. rewrite V_square by lia. rewrite <- EV0. assert (eqm n (a * a) 4) by (destruct A2 as [H|H]; rewrite H; apply eqm_refl). rewrite H.
        replace ((P * P - 4) * (4 - 4)) with 0 by ring. apply eqm_refl. }
      destruct (eqm_integral n _ _ Pn X); auto. }
    assert (B0' : b <> 0).
    { intros Z0. rewrite Z0 in SQ. assert (X : eqm n (2 * P) 0).
      { destruct A2 as [H|H]; rewrite H in SQ.
        - replace (2 * P) with (P * 2 - 2 * 0) by ring. exact SQ.
        - replace (2 * P) with (-1 * (P * -2 - 2 * 0)) by ring. rewrite SQ. apply eqm_refl. }
      destruct (eqm_integral n _ _ Pn X) as [X1|X1]; apply eqm_div in X1; apply Z.divide_pos_le in X1; lia. }
    change [P] with (from_u32 P). unfold from_u32. rewrite <- (of_Z_small P) by lia. rewrite mul_vec_of_Z by (apply of_Z_canon; lia). cbn [bind]. rewrite !of_Z_val by lia.
    unfold nat_shl. rewrite op1_canon, shl_of_Z by (try apply of_Z_canon; lia). change (2 ^ 1) with 2.
    unfold nat_sub, op2. rewrite !is_nan_of_Z by nia. cbn [orb]. rewrite sub_of_Z by nia. rewrite trim_canon_id by (apply of_Z_canon; lia). rewrite nat_rem_of_Z' by lia. cbn [bind].
    assert (ZM : Z.abs (a * P - b * 2) mod n = 0).
    { apply Z.mod_divide; [lia|]. apply Z.divide_abs_r. apply eqm_div. replace (a * P - b * 2) with (P * a - 2 * b) by ring. exact SQ. }
    rewrite ZM. reflexivity.
  - cbn [bind]. apply orb_false_elim in T. destruct T as (T1 & T2). apply Z.eqb_neq in T1. apply Z.eqb_neq in T2.
    apply (rounds_spec P s ltac:(lia) (Z.to_nat (r - 1)) 0).
    + rewrite Z.pow_0_r, Z.mul_1_r. apply vrep_of_Z. lia.
    + destruct (V_half n P Pn N2 LS (Z.to_nat (r - 1)) s) with (j := 0%nat) as [[H|H]|(i & I1 & I2)]; [|lia|lia| | |].
      * replace (Z.of_nat (S (Z.to_nat (r - 1)))) with r by lia. exact E.
      * exfalso. rewrite Z.pow_0_r, Z.mul_1_r, <- EV0 in H. apply eqm_small in H; lia.
      * exfalso. rewrite Z.pow_0_r, Z.mul_1_r, <- EV0, <- EM2 in H. apply eqm_small in H; lia.
      * exists i. split; [lia|auto].
Qed.

(** Some number up to 10002 is a quadratic non-residue. *)
Hypothesis NR : n <= 10002 \/ exists q, 1 <= q <= 10002 /\ ls q n = -1.

Lemma search_spec : forall cnt P, 3 <= P -> P + 2 <= n -> P + Z.of_nat cnt = 10001 -> (forall Q, 3 <= Q < P -> ls (Q * Q - 4) n = 1) ->
  lucas_search cnt P (of_Z n) = Ok (inl true) \/ exists Q, lucas_search cnt P (of_Z n) = Ok (inr Q) /\ 3 <= Q < n /\ Q < W /\ ls (Q * Q - 4) n = -1.
Proof.
  assert (N2 : n <> 2) by lia. assert (WB : 100030000 < W) by (change W with (2 ^ 32); lia).
  induction cnt as [|c IH]; intros P P3 PN PC ALL.
  - exfalso. destruct NR as [H|(q & Q1 & Q2)]; [lia|]. pose proof (residues_all n 10000 Pn N2 ltac:(lia) ltac:(lia) ltac:(intros Q HQ; apply ALL; lia) q ltac:(lia)). lia.
  - cbn [lucas_search]. assert (JB : 0 < P * P - 4 < W) by nia. assert (BI [P * P - 4] false = zint (P * P - 4)) as ->.
    { unfold zint. rewrite Z.abs_eq, of_Z_small by lia. f_equal. symmetry. apply Z.ltb_ge. lia. }
    unfold b_from_nat. rewrite trim_canon_id, zint_of_Z by (try apply of_Z_canon; lia). rewrite (jacobi_prime n Pn N2) by (apply clean_word; auto). cbn [bind].
    destruct (Z.eqb_spec (ls (P * P - 4) n) (-1)) as [M|M]; [right; exists P; repeat split; auto; lia|].
    destruct (Z.eqb_spec (ls (P * P - 4) n) 0) as [Z0|Z0].
    + left. apply ls_zero in Z0; auto. replace (P * P - 4) with ((P - 2) * (P + 2)) in Z0 by ring. apply prime_mult in Z0; [|auto]. destruct Z0 as [D|D]; apply Z.divide_pos_le in D; try lia.
      assert (n = P + 2) by lia. rewrite of_Z_small by lia. cbn [length hd]. destruct (Z.eqb_spec n (P + 2)); [reflexivity|lia].
    + assert (L1 : ls (P * P - 4) n = 1). { destruct (ls_spec (P * P - 4) n Pn N2) as ([T|[T|T]] & _); congruence || auto. }
      assert (NP : P + 2 <> n). { intros E. apply Z0. apply ls_zero; auto. exists (P - 2). rewrite <- E. ring. }
      assert (SQ : (if P =? 40 then do t <- nat_sqrt (of_Z n); do t <- nat_sqr t; Ok (nat_eq t (of_Z n)) else Ok false) = Ok false).
      { destruct (P =? 40); [|reflexivity]. rewrite nat_sqrt_of_Z by (apply of_Z_canon; lia). cbn [bind]. rewrite of_Z_val by lia. pose proof (Z.sqrt_nonneg n) as SN.
        rewrite nat_sqr_of_Z by (apply of_Z_canon; auto). cbn [bind]. rewrite of_Z_val by auto. rewrite nat_eq_of_Z by nia. destruct (Z.eqb_spec (Z.sqrt n * Z.sqrt n) n) as [E|]; [|reflexivity]. exfalso.
        assert (D : (Z.sqrt n | n)) by (exists (Z.sqrt n); auto). apply prime_divisors in D; [|auto]. nia. }
      rewrite SQ. cbn [bind]. apply IH; [lia|lia|lia|]. intros Q HQ. destruct (Z.eq_dec Q P); [subst; auto|apply ALL; lia].
Qed.

Lemma lucas_prime : lucas (of_Z n) = Ok true.
Proof.
  unfold lucas. rewrite is_nan_of_Z, nat_eq_u32_of_Z by (change W with (2 ^ 32); lia). destruct (Z.eqb_spec n 1); [lia|]. cbn [orb].
  rewrite low_even, of_Z_val, n_odd by (try apply of_Z_canon; lia). cbn [negb].
  destruct (search_spec (Z.to_nat 9998) 3) as [E|(Q & E & Q1 & Q2 & Q3)]; [lia|lia|lia|intros; lia| |]; rewrite E; cbn [bind]; [reflexivity|]. apply lucas_test_prime; auto.
Qed.
End Lucas.
