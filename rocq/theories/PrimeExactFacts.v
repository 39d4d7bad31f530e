(** Miller-Rabin of every odd number: what a round accepts, also where the
    shift of n - 1 is wrong. *)
From Coq Require Import ZArith Znumtheory Zpow_facts List Lia Bool.
From Verif Require Import Words WordsFacts NatModel NatFacts NatFacts2 NatFacts3 NatFacts4 NatFacts5 Spec SpecInt SpecNum SpecPrime SpecShift SpecPrimeCode ShiftFacts BigIntFacts2
  NatExp NatExpFacts NatExpFacts2 NatPrime NumBigFacts NumBigFacts2 NumTheory NatPrimeFacts NatPrimeFacts2 NatPrimeFacts6.
Import ListNotations.
Open Scope Z_scope.

(* ------------------------------------------------------------------ *)
(** * The exponent *)
Lemma shr_len v k : words_ok v -> v <> [] -> 0 <= k -> (length (shr_inner v k) <= Nat.max 1 (length v - Z.to_nat (k / 32)))%nat.
Proof.
  intros Wv Nv K. destruct (Nat.leb_spec (length v) (Z.to_nat (k / 32))) as [L|L].
  { unfold shr_inner. apply Nat.leb_le in L. rewrite L. cbn [length]. lia. }
  destruct (Z.eq_dec (k mod 32) 0) as [S0|S0].
  { unfold shr_inner. apply Nat.leb_gt in L as L'. rewrite L', S0. cbn [Z.gtb Z.compare andb]. rewrite firstn_length. lia. }
  destruct (shr_inner_shape v k Wv K L S0) as (ws & p & _ & L2 & _ & _ & _ & E). rewrite E. cbv zeta in *.
  destruct (p >? 0); [rewrite app_length; cbn [length]; lia|]. destruct (_ =? 0)%nat; [|rewrite app_length; cbn [length]; lia]. destruct ws; cbn [length] in *; lia.
Qed.

(** It is below n. *)
Lemma shr_below m t : 0 <= m -> 0 <= t -> nval (shr_inner (of_Z m) t) < Wp (length (of_Z m)) /\ (length (shr_inner (of_Z m) t) <= length (of_Z m))%nat.
Proof.
  intros M T. assert (C : canon (of_Z m)) by (apply of_Z_canon; lia). pose proof (canon_len_pos _ C) as LP.
  destruct (shr_inner_value (of_Z m) t (canon_words _ C) (canon_nonnil _ C) ltac:(lia)) as (_ & Ws & _). pose proof (shr_len (of_Z m) t (canon_words _ C) (canon_nonnil _ C) ltac:(lia)) as SL.
  assert (L : (length (shr_inner (of_Z m) t) <= length (of_Z m))%nat) by lia. split; [|exact L]. pose proof (nval_bound _ Ws) as B.
  assert (Wp (length (shr_inner (of_Z m) t)) <= Wp (length (of_Z m))) by (rewrite !Wp_pow2; apply Z.pow_le_mono_r; lia). lia.
Qed.

(* ------------------------------------------------------------------ *)
(** * The power *)
Section Power.
Variables (n : Z) (checks : bool).
Hypothesis N2 : 2 < n.
Hypothesis On : Z.odd n = true.

Lemma exp_any r v b u : drawn (of_Z n) v r -> words_ok b -> b <> [] -> (length b <= length (of_Z n))%nat -> nval b = u -> (length b = 1%nat -> u < n) ->
  nat_exp checks r b (of_Z n) = Ok (of_Z (v ^ u mod n)).
Proof.
  intros D Wb Nb Lb Ub UN. assert (Cn : canon (of_Z n)) by (apply of_Z_canon; lia). assert (Vn : nval (of_Z n) = n) by (apply of_Z_val; lia). pose proof (canon_len_pos _ Cn) as Ln.
  destruct (Nat.eq_dec (length b) 1) as [L1|L1].
  - assert (Cb : canon b) by (split; [auto|split; [auto|left; lia]]). specialize (UN L1). pose proof (canon_nonneg b Cb) as B0. rewrite Ub in B0. rewrite (of_Z_unique b u Cb Ub).
    apply (base_pow n N2 On); auto.
  - destruct D as (Wr & Lr & Vr). assert (Lb1 : (1 < length b)%nat) by (destruct b as [|? [|? ?]]; cbn [length] in *; [congruence|lia|lia]).
    assert (Nr : r <> []) by (intros ->; cbn [length] in Lr; lia). assert (Nanr : is_nan r = false) by (unfold is_nan; destruct r; [congruence|reflexivity]). assert (Nanb : is_nan b = false) by (unfold is_nan; destruct b; [congruence|reflexivity]).
    unfold nat_exp. rewrite Nanr, Nanb, (is_nan_canon (of_Z n)) by auto. cbn [orb].
    assert (T1 : (length b =? 1)%nat = false) by (apply Nat.eqb_neq; lia). rewrite T1. cbn [andb]. assert (T2 : (length (of_Z n) =? 1)%nat = false) by (apply Nat.eqb_neq; lia). rewrite T2. cbn [andb].
    assert ((1 <? length r)%nat = true) as -> by (apply Nat.ltb_lt; lia). assert ((1 <? length b)%nat = true) as -> by (apply Nat.ltb_lt; lia).
    assert ((1 <? length (of_Z n))%nat = true) as -> by (apply Nat.ltb_lt; lia). cbn [orb andb]. rewrite hd_odd, Vn, On by auto using canon_words, canon_nonnil.
    rewrite exp_montgomery_words by (auto; rewrite Vn; auto). rewrite Vr, Ub, Vn. reflexivity.
Qed.

(* ------------------------------------------------------------------ *)
(** * The rounds *)
Variables t q : Z.
Hypothesis E : n - 1 = q * 2 ^ t.
Hypothesis T1 : 1 <= t.
Hypothesis Q0 : 0 < q.
Hypothesis Qo : Z.odd q = true.
Let b := shr_inner (of_Z (n - 1)) t.
Let u := shift_result (words (n - 1)) (n - 1) t.

Lemma exponent : words_ok b /\ b <> [] /\ nval b = u /\ (length b <= length (of_Z n))%nat /\ (length b = 1%nat -> u < n).
Proof.
  assert (C : canon (of_Z (n - 1))) by (apply of_Z_canon; lia). destruct (shr_inner_value (of_Z (n - 1)) t (canon_words _ C) (canon_nonnil _ C) ltac:(lia)) as (SV & SW & SN). fold b in SV, SW, SN.
  rewrite len_words, of_Z_val in SV by (auto; lia). fold u in SV. split; [auto|]. split; [auto|]. split; [auto|].
  destruct (shr_below (n - 1) t ltac:(lia) ltac:(lia)) as (_ & SL). fold b in SL. assert (LL : (length (of_Z (n - 1)) <= length (of_Z n))%nat).
  { apply Nat2Z.inj_le. rewrite !len_of_Z by lia. pose proof (Z.log2_le_mono (n - 1) n ltac:(lia)). assert (Z.log2 (n - 1) / 32 <= Z.log2 n / 32) by (apply Z.div_le_mono; lia). lia. }
  split; [lia|].
  intros L. destruct (Z.lt_ge_cases n W) as [S|B].
    + pose proof (result_right (words (n - 1)) (n - 1) t) as RR. assert (WN : words (n - 1) = 1). { rewrite <- (of_Z_val (n - 1)) by lia. rewrite <- len_words by auto. rewrite of_Z_small by lia. reflexivity. }
      assert (T32 : t < 32). { apply (Z.pow_lt_mono_r_iff 2); [lia|lia|]. change (2 ^ 32) with W. assert (0 < 2 ^ t) by (apply Z.pow_pos_nonneg; lia). nia. }
      rewrite WN in RR. fold u in RR. unfold u. rewrite WN. destruct RR as [_ RR]; [lia|change (2 ^ (32 * 1)) with W; lia|lia|]. rewrite RR by auto. assert ((n - 1) / 2 ^ t <= n - 1); [|lia].
      apply Z.div_le_upper_bound; [apply Z.pow_pos_nonneg; lia|]. assert (0 < 2 ^ t) by (apply Z.pow_pos_nonneg; lia). nia.
    + pose proof (nval_bound b SW) as BB. rewrite L in BB. change (Wp 1) with W in BB. lia.
Qed.

Lemma round_iff v : 0 <= v < n -> (round_passed n v <-> chain n (Z.to_nat t) (v ^ u mod n)).
Proof.
  intros V. assert (U0 : 0 <= u) by (destruct exponent as (X & _ & <- & _); apply nval_nonneg; auto).
  split.
  - intros (t' & q' & E' & T' & O' & H). rewrite E in E'. apply odd_part_unique in E'; auto; [|lia]. destruct E' as [<- <-]. cbv zeta in H. fold u in H. destruct H as [H|(i & I & H)]; [left; auto|right].
    exists (Z.to_nat i). split; [apply Z2Nat.inj_lt; lia|]. rewrite Z2Nat.id, (pow_combine n N2) by lia. exact H.
  - intros C. exists t, q. split; [auto|]. split; [lia|]. split; [auto|]. cbv zeta. fold u. destruct C as [C|(i & I & H)]; [left; auto|right]. exists (Z.of_nat i). split; [lia|]. rewrite (pow_combine n N2) in H by lia. exact H.
Qed.

Lemma rounds_any : forall g vs rest, draws n g vs rest -> stream_ok g ->
  exists w g', mr_rounds checks (length vs) (of_Z n) (Z.to_nat t) b (of_Z (n - 1)) g = Ok (w, g') /\ (w = true <-> Forall (round_passed n) vs) /\ (w = true -> g' = rest).
Proof.
  destruct exponent as (Wb & Nb & Vb & Lb & UN).
  intros g vs rest D. induction D as [g|g v g' vs rest D DS IH]; intros G.
  - exists true, g. split; [reflexivity|]. split; [split; auto|auto].
  - cbn [length mr_rounds]. assert (Cn : canon (of_Z n)) by (apply of_Z_canon; lia). assert (Vn : nval (of_Z n) = n) by (apply of_Z_val; lia).
    pose proof (random_inner_inv (of_Z n) Cn ltac:(lia) g G) as R. destruct (random_inner (of_Z n) g) as [[r g2]| |]; cbn [bind].
    + destruct R as (v2 & D2 & R2 & R3 & R4). rewrite Vn in *. destruct (draw_fun _ _ _ _ _ _ D D2). subst v2 g2.
      rewrite (exp_any r v b u) by auto. cbn [bind].
      destruct (witness_exact n N2 (Z.to_nat t) (v ^ u mod n)) as (w & W1 & W2); [apply Z.mod_pos_bound; lia|]. rewrite <- round_iff in W2 by auto. rewrite W1. cbn [bind].
      destruct w.
      * exists false, g'. split; [reflexivity|]. split; [|discriminate]. split; [discriminate|]. intros F. apply Forall_inv in F. apply W2 in F. discriminate F.
      * destruct (IH R4) as (w & g2 & B1 & B2 & B3). exists w, g2. split; [exact B1|]. split; [|exact B3]. rewrite B2. split; [intros F; constructor; [apply W2; reflexivity|exact F]|intros F; inversion F; auto].
    + tauto.
    + rewrite Vn in R. apply R in D. tauto.
Qed.
End Power.

Lemma mr_any checks n g vs rest : 2 < n -> Z.odd n = true -> stream_ok g -> draws n g vs rest ->
  exists w g', miller_rabin checks (of_Z n) (length vs) g = Ok (w, g') /\ (w = true <-> Forall (round_passed n) vs) /\ (w = true -> g' = rest).
Proof.
  intros N2 On G D. destruct (odd_split (n - 1) ltac:(lia)) as (q & t & T0 & Q0 & Oq & E).
  assert (T1 : 1 <= t). { destruct (Z.eq_dec t 0) as [->|]; [|lia]. rewrite Z.pow_0_r, Z.mul_1_r in E. subst q. exfalso. rewrite Z.odd_sub, On in Oq. discriminate Oq. }
  unfold miller_rabin. rewrite trim_num by lia. rewrite sub1_odd by (auto; lia). rewrite trim_num by lia. assert (TZ : trailling_zeros (of_Z (n - 1)) = t) by (rewrite E; apply tz_of_Z; auto). rewrite TZ.
  unfold nat_shr. rewrite op1_canon by (apply of_Z_canon; lia). apply (rounds_any n checks N2 On t q E T1 Q0 Oq); auto.
Qed.
