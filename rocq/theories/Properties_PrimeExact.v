(** What the primality test answers for every number: C105. *)
From Coq Require Import ZArith Znumtheory Zpow_facts List Lia Bool.
From Verif Require Import Words WordsFacts NatModel NatFacts NatFacts2 NatFacts5 Spec SpecInt SpecNum SpecPrime SpecRabin SpecLucas SpecShift SpecPrimeCode NumTheory NumTheory2 NumTheory3 NumTheory4 NumTheory5 NumBig NumBigFacts NumBigFacts2
  NatPrime NatPrimeFacts NatPrimeFacts2 NatPrimeFacts3 NatPrimeFacts4 NatPrimeFacts5 NatPrimeFacts6 LucasFacts ShiftFacts BigIntFacts2 Properties_Prime Properties_Lucas Properties_NumBig PrimeExactFacts LucasExactFacts BigInt BigIntFacts.
Import ListNotations.
Open Scope Z_scope.

(* ------------------------------------------------------------------ *)
(** * C105 *)

(** The two parts ([miller_rabin] and [lucas] are private). *)
Theorem C105_rounds : forall checks x n g vs rest, represents x n -> 2 < n -> Z.odd n = true -> stream_ok g -> draws n g vs rest ->
  exists b g', miller_rabin checks x (length vs) g = Ok (b, g') /\ (b = true <-> Forall (round_passed n) vs) /\ (b = true -> g' = rest).
Proof. intros checks x n g vs rest (C & V) N O G D. rewrite (of_Z_unique x n C V). apply mr_any; auto. Qed.
Theorem C105_lucas : forall x n, represents x n -> 128 <= n -> Z.odd n = true -> ~ (3 | n) -> exists b, lucas x = Ok b /\ (b = true <-> lucas_accepts n).
Proof. intros x n (C & V) N O N3. rewrite (of_Z_unique x n C V). apply lucas_every; auto. Qed.

(** The public test; no hypothesis on n. *)
Theorem C105_accepts : forall checks x n rounds g vs rest, represents x n -> 128 <= n -> stream_ok g -> draws n g vs rest -> length vs = S rounds ->
  exists b g', probably_prime checks x rounds g = Ok (b, g') /\
    (b = true <-> (forall q, prime q -> q <= 53 -> ~ (q | n)) /\ Forall (round_passed n) vs /\ lucas_accepts n) /\ (b = true -> g' = rest).
Proof.
  intros checks x n rounds g vs rest (C & V) N G D L. rewrite (of_Z_unique x n C V), pp_large by auto.
  destruct (Z.odd n) eqn:O; cbn [negb].
  2:{ exists false, g. split; [reflexivity|]. split; [|discriminate]. split; [discriminate|]. intros (T & _). exfalso. apply (T 2); [exact Znumtheory.prime_2|lia|]. exists (n / 2). pose proof (Z.div_mod n 2 ltac:(lia)) as DM. rewrite Zmod_odd, O in DM. lia. }
  destruct (existsb _ _) eqn:T.
  { exists false, g. split; [reflexivity|]. split; [|discriminate]. split; [discriminate|]. intros (A & _). exfalso. destruct (trial_hit n ltac:(lia) T) as (q & Q1 & Q2 & Q3). exact (A q Q1 Q2 Q3). }
  pose proof (no_trial n O T) as TR. assert (N3 : ~ (3 | n)) by (apply TR; [exact prime_3|lia]).
  destruct (mr_any checks n g vs rest ltac:(lia) O G D) as (b & g' & E & H & R). replace (rounds + 1)%nat with (length vs) by lia. rewrite E. cbn [bind]. destruct b.
  - destruct (lucas_every n N O N3) as (l & L1 & L2). rewrite L1. cbn [bind]. exists l, g'. split; [reflexivity|]. split; [|auto]. rewrite L2. assert (FS : Forall (round_passed n) vs) by (apply H; reflexivity). tauto.
  - exists false, g'. split; [reflexivity|]. split; [|discriminate]. split; [discriminate|]. intros (_ & B & _). apply H in B. discriminate B.
Qed.

(** Where the shift is right, the conditions are the published ones. *)
Lemma result_exact m e : 0 < m -> 0 <= e -> shr_exact m e -> shift_result (words m) m e = m / 2 ^ e.
Proof.
  intros M E H. assert (C : canon (of_Z m)) by (apply of_Z_canon; lia). destruct (shr_inner_value (of_Z m) e (canon_words _ C) (canon_nonnil _ C) E) as (SV & _). rewrite len_words, of_Z_val in SV by (auto; lia). rewrite <- SV.
  rewrite shr_inner_good; [|auto|auto|apply shr_exact_good; [lia|lia|exact H]]. rewrite (of_Z_val m) by lia. apply of_Z_val. apply Z.div_pos; [lia|apply Z.pow_pos_nonneg; lia].
Qed.
Theorem C105_rounds_right : forall n v, 2 < n -> 0 <= v < n -> shift_ok (n - 1) -> (round_passed n v <-> strong_base n v).
Proof.
  assert (ODD : forall q, Z.odd q = true -> q <> 0) by (intros q O ->; discriminate O).
  assert (DV : forall q t, 0 <= t -> q * 2 ^ t / 2 ^ t = q) by (intros q t T; apply Z.div_mul, Z.pow_nonzero; lia).
  intros n v N V SH. split.
  - intros (t & q & E & T & O & H). exists t, q. split; [auto|]. split; [auto|]. split; [auto|]. rewrite result_exact in H by (try apply (SH t q); auto; lia). assert (EQ : (n - 1) / 2 ^ t = q) by (rewrite E; apply DV; auto). rewrite EQ in H. exact H.
  - intros (t & q & E & T & O & H). exists t, q. split; [auto|]. split; [auto|]. split; [auto|]. cbv zeta. rewrite result_exact by (try apply (SH t q); auto; lia). assert (EQ : (n - 1) / 2 ^ t = q) by (rewrite E; apply DV; auto). rewrite EQ. exact H.
Qed.
Theorem C105_lucas_right : forall n P, 2 < n -> shift_ok (n + 1) -> no_fermat n -> (lucas_passed n P <-> extra_strong n P).
Proof.
  assert (DV : forall q t, 0 <= t -> q * 2 ^ t / 2 ^ t = q) by (intros q t T; apply Z.div_mul, Z.pow_nonzero; lia).
  intros n P N SH NF. split.
  - intros (r & q & E & R & O & H). exists q, r. split; [auto|]. split; [auto|]. split; [auto|]. rewrite result_exact in H by (try apply (SH r q); auto; lia). cbv zeta in H. rewrite E, DV in H by auto. destruct H as [(H1 & [H2|(_ & H2)])|H]; [left; auto|left; auto|right; exact H].
  - intros (q & r & E & R & O & H). exists r, q. split; [auto|]. split; [auto|]. split; [auto|]. cbv zeta. rewrite result_exact by (try apply (SH r q); auto; lia). rewrite E, DV by auto.
    destruct H as [(H1 & [H2|H2])|H]; [left; auto| |right; auto].
    left. split; [auto|]. right. split; [|auto]. exact NF.
Qed.

(** ** Where it is 0, nothing is checked *)
Lemma shift_zero m c j : m = c * 2 ^ (32 * j) -> 1 <= j -> 0 < c < 2 ^ (32 * j) -> shift_result (words m) m (32 * j) = 0.
Proof.
  intros E J C. assert (PP : 0 < 2 ^ (32 * j)) by (apply Z.pow_pos_nonneg; lia). assert (M : 0 < m) by nia. assert (LG : Z.log2 m < 64 * j) by (apply Z.log2_lt_pow2; [lia|]; replace (64 * j) with (32 * j + 32 * j) by ring; rewrite Z.pow_add_r by lia; nia).
  assert (LB : words m <= 2 * j). { unfold words. assert (Z.log2 m / 32 < 2 * j); [|lia]. apply Z.div_lt_upper_bound; lia. }
  unfold shift_result. cbv zeta. rewrite (Z.mul_comm 32 j), Z.div_mul, Z.mod_mul by lia. destruct (Z.leb_spec (words m) j) as [|L]; [reflexivity|]. cbn [Z.eqb].
  apply Z.mod_divide; [apply Z.pow_nonzero; lia|]. exists (c * 2 ^ (32 * j - 32 * (words m - j))). rewrite E at 1. rewrite <- Z.mul_assoc, <- Z.pow_add_r by lia. do 2 f_equal. lia.
Qed.
(** n = c * 2^(32 j) + 1 with c < 2^(32 j): no base is rejected. *)
Theorem C105_no_rounds : forall c j v, 1 <= j -> 0 < c < 2 ^ (32 * j) -> Z.odd c = true -> round_passed (c * 2 ^ (32 * j) + 1) v.
Proof.
  intros c j v J C O. set (n := c * 2 ^ (32 * j) + 1). assert (PP : 2 ^ 32 <= 2 ^ (32 * j)) by (apply Z.pow_le_mono_r; lia). exists (32 * j), c. split; [unfold n; ring|]. split; [lia|]. split; [auto|]. cbv zeta.
  rewrite (shift_zero (n - 1) c j) by (auto; unfold n; ring). left. rewrite Z.pow_0_r. apply Z.mod_small. unfold n. nia.
Qed.
(** n = c * 2^(32 j) - 1 with c < 2^(32 j): the Lucas test rejects nothing. *)
Theorem C105_no_lucas : forall c j P, 1 <= j -> 0 < c < 2 ^ (32 * j) -> Z.odd c = true -> lucas_passed (c * 2 ^ (32 * j) - 1) P.
Proof.
  intros c j P J C O. set (n := c * 2 ^ (32 * j) - 1). exists (32 * j), c. split; [unfold n; ring|]. split; [lia|]. split; [auto|]. cbv zeta.
  rewrite (shift_zero (n + 1) c j) by (auto; unfold n; ring). left. split; [exists 0; reflexivity|]. left. exists 0. reflexivity.
Qed.

(** ** The published conditions are not what is checked *)
Lemma V_powers p P c : 0 < p -> 0 <= c -> forall k, V P (c * 2 ^ Z.of_nat k) mod p = Nat.iter k (fun v => (v * v - 2) mod p) (V P c mod p).
Proof.
  intros Pp C. induction k as [|k IH]; [change (2 ^ Z.of_nat 0) with 1; rewrite Z.mul_1_r; reflexivity|]. rewrite Nat2Z.inj_succ, Z.pow_succ_r by lia. assert (K : 0 <= c * 2 ^ Z.of_nat k) by (apply Z.mul_nonneg_nonneg; [auto|apply Z.pow_nonneg; lia]).
  replace (c * (2 * 2 ^ Z.of_nat k)) with (2 * (c * 2 ^ Z.of_nat k)) by ring. destruct (V_double P _ K) as [-> _]. cbn [Nat.iter nat_rect]. unfold Nat.iter in IH |- *. cbn [nat_rect]. rewrite <- IH. rewrite <- (Zminus_mod_idemp_l (_ * _)), Zmult_mod, Zminus_mod_idemp_l. reflexivity.
Qed.
(** 382252089343 = 89 * 2^32 - 1 = 73 * 5236329991 fails the Lucas test, but the
    code accepts it for the base 1 (which every number passes). *)
Lemma not_extra : ~ lucas_probable 382252089343.
Proof.
  assert (D73 : (73 | 382252089343)) by (exists 5236329991; reflexivity).
  intros [(_ & B)|(P & (P3 & A & B) & (s & r & E & R & O & H))]; [lia|].
  assert (JJ : forall w, jacobi_symbol (3 * 3 - 4) 382252089343 w -> w = -1).
  { intros w J. destruct (jacobi_symbol_inv (3 * 3 - 4) 382252089343 w ltac:(reflexivity) J) as (qs & G & Eq & ->).
    pose proof (b_jacobi_spec (3 * 3 - 4) 382252089343 qs ltac:(lia) G ltac:(rewrite Z.abs_eq by lia; exact Eq) ltac:(rewrite Z.abs_eq by lia; apply clean_word_any; [split; reflexivity|reflexivity|reflexivity])) as X.
    assert (Y : b_jacobi (zint (3 * 3 - 4)) (zint 382252089343) = Ok (Some (-1))) by (vm_compute; reflexivity). rewrite Y in X. destruct (Z.ltb_spec (3 * 3 - 4) 0); [lia|]. cbn [andb] in X. rewrite Z.mul_1_l in X. congruence. }
  assert (P = 3) as ->. { destruct (Z.eq_dec P 3); [auto|]. specialize (A 3 ltac:(lia)). apply JJ in A. discriminate A. }
  change (382252089343 + 1) with (89 * 2 ^ 32) in E. apply odd_part_unique in E; auto; [|lia]. destruct E as [<- <-].
  destruct H as [(H & _)|(t & T & H)].
  - assert (X : (73 | lucas_U 3 89)) by (apply Z.divide_trans with 382252089343; auto). apply Z.mod_divide in X; [|lia]. vm_compute in X. discriminate X.
  - rewrite lucas_V_eq in H by (apply Z.mul_nonneg_nonneg; [lia|apply Z.pow_nonneg; lia]). assert (X : (73 | V 3 (89 * 2 ^ t))) by (apply Z.divide_trans with 382252089343; auto). apply Z.mod_divide in X; [|lia].
    rewrite <- (Z2Nat.id t), V_powers in X by lia. assert (ALL : forallb (fun k => negb (Nat.iter k (fun v => (v * v - 2) mod 73) (V 3 89 mod 73) =? 0)) (seq 0 31) = true) by (vm_compute; reflexivity).
    rewrite forallb_forall in ALL. specialize (ALL (Z.to_nat t) ltac:(apply in_seq; lia)). rewrite X in ALL. discriminate ALL.
Qed.
Theorem C101_published_refuted : exists n vs, ~ prime n /\ ~ bpsw_conditions n vs /\
  draws n [Some 1; Some 0] vs [] /\ represents (of_Z n) n /\ forall checks, probably_prime checks (of_Z n) 0 [Some 1; Some 0] = Ok (true, []).
Proof.
  exists 382252089343, [1]. split. { intros Pn. destruct (prime_divisors _ Pn 73) as [?|[?|[?|?]]]; [exists 5236329991; reflexivity|discriminate..]. }
  split; [intros (_ & _ & X); exact (not_extra X)|]. split.
  { apply draws_cons with []; [|constructor]. apply (draw_hit 382252089343 [Some 1; Some 0] [1; 0] []); [exists [Some 1], 0; split; reflexivity|reflexivity|reflexivity]. }
  split; [split; [apply of_Z_canon|apply of_Z_val]; lia|]. intros [|]; vm_compute; reflexivity.
Qed.

(** 2^33 + 1 is divisible by 3; every base of 2^32 + 1 is accepted. *)
Example C105_case : miller_rabin true [1; 2] 2 [Some 1; Some 0; Some 0; Some 2] = Ok (true, []) /\ miller_rabin true [1; 2] 1 [Some 2; Some 0] = Ok (false, []) /\ round_passed (2 ^ 33 + 1) (2 ^ 33) /\
  lucas (of_Z (89 * 2 ^ 32 - 1)) = Ok true /\ lucas [1; 1] = Ok false /\ miller_rabin true [1; 1] 1 [Some 2; Some 0] = Ok (true, []).
Proof.
  split; [vm_compute; reflexivity|]. split; [vm_compute; reflexivity|]. split.
  { exists 33, 1. split; [reflexivity|]. split; [lia|]. split; [reflexivity|]. right. exists 0. split; [lia|]. vm_compute. reflexivity. }
  split; [vm_compute; reflexivity|]. split; vm_compute; reflexivity.
Qed.
Print Assumptions C105_rounds.
Print Assumptions C105_lucas.
Print Assumptions C105_accepts.
Print Assumptions C105_rounds_right.
Print Assumptions C105_lucas_right.
Print Assumptions C105_no_rounds.
Print Assumptions C105_no_lucas.
Print Assumptions C101_published_refuted.
