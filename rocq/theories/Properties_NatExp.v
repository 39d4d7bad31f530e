(** [Nat::exp]. *)
From Coq Require Import ZArith List Lia Bool.
From Verif Require Import Words Spec WordsFacts NatModel NatFacts NatFacts2 NatFacts5 NatExp NatExpFacts NatExpFacts2.
Import ListNotations.
Open Scope Z_scope.

(** ** C18 (arithmetic overflow checks off, the release profile) *)
Theorem C18_nat_exp : forall x b n, canon x -> canon b -> canon n -> 0 < nval n ->
  exists r, nat_exp false x b n = Ok r /\ represents r (nval x ^ nval b mod nval n).
Proof.
  intros x b n Hx Hb Hn Hp. eexists. split; [apply nat_exp_release; auto|].
  apply rep_of_Z, Z.mod_pos_bound. auto.
Qed.
Theorem C18_nat_exp_no_modulus : forall x b n, canon x -> canon b -> canon n -> nval n = 0 ->
  exists r, nat_exp false x b n = Ok r /\ represents r (nval x ^ nval b).
Proof.
  intros x b n Hx Hb Hn Hp. eexists. split; [apply nat_exp_release; auto|].
  rewrite Hp, Zmod_0_r. apply rep_of_Z, Z.pow_nonneg, canon_nonneg. auto.
Qed.
Theorem C18_nat_exp_nan : forall checks x b n, x = nan \/ b = nan \/ n = nan -> nat_exp checks x b n = Ok nan.
Proof.
  intros checks x b n H. unfold nat_exp.
  assert (is_nan x || is_nan b || is_nan n = true) as ->; [|reflexivity].
  destruct H as [->|[->| ->]]; [reflexivity| |]; rewrite ?orb_true_r; reflexivity.
Qed.
(** The three algorithms separately, whatever [exp] selects. *)
Theorem C18_exp_montgomery : forall x y m, canon x -> canon y -> canon m -> Z.odd (nval m) = true ->
  exists r, exp_montgomery x y m = Ok r /\ represents r (nval x ^ nval y mod nval m).
Proof.
  intros x y m Hx Hy Hm Om. eexists. split; [apply exp_montgomery_of_Z; auto|].
  pose proof (canon_nonneg m Hm). apply rep_of_Z, Z.mod_pos_bound.
  destruct (Z.eq_dec (nval m) 0) as [E|]; [rewrite E in Om; discriminate|lia].
Qed.
Theorem C18_exp_windowed : forall x y m, canon x -> canon y -> canon m -> 1 < nval m ->
  exists r, exp_windowed x y m = Ok r /\ represents r (nval x ^ nval y mod nval m).
Proof.
  intros x y m Hx Hy Hm Hp. eexists. split; [apply exp_windowed_of_Z; auto using canon_words, canon_nonnil|].
  apply rep_of_Z, Z.mod_pos_bound. lia.
Qed.
(** One almost-Montgomery multiplication: r * 2^(32n) = x*y modulo m, and the
    result fits n words. *)
Theorem C18_montgomery_step : forall n x y m k, length x = n -> length y = n -> length m = n ->
  words_ok x -> words_ok y -> words_ok m -> (0 < n)%nat ->
  (nval m * k) mod 2 ^ 32 = 2 ^ 32 - 1 -> 0 <= k < 2 ^ 32 ->
  exists r, montgomery x y m k n = Ok r /\ words_ok r /\ length r = n /\
    (nval r * 2 ^ (32 * Z.of_nat n)) mod nval m = (nval x * nval y) mod nval m.
Proof.
  intros n x y m k Lx Ly Lm Wx Wy Wm Hn Hk Bk.
  destruct (montgomery_spec n x y m k) as (r & R1 & R2 & R3 & R4); auto.
  - destruct m as [|a m']; [cbn in Lm; lia|]. cbn [hd]. rewrite nval_cons in Hk.
    change (2 ^ 32) with W in *. replace ((a + W * nval m') * k) with (a * k + (nval m' * k) * W) in Hk by ring.
    rewrite Z_mod_plus_full in Hk. rewrite <- Zplus_mod_idemp_l, Hk. reflexivity.
  - exists r. rewrite <- Wp_pow2. auto.
Qed.
Example C18_case :
  nat_exp false (of_Z 123456789123456789) (of_Z 98765432198765) (of_Z 1000000000000000003) = Ok (of_Z 1412077417638034)
  /\ nat_exp false (of_Z 123456789123456789) (of_Z 98765432198765) (of_Z 1000000000000000004) = Ok (of_Z 366853315159266953)
  /\ nat_exp false [7] [30] [0] = Ok (of_Z (7 ^ 30)) /\ nat_exp false [7] [30] [1000] = Ok [249].
Proof. vm_compute. repeat split. Qed.
Print Assumptions C18_nat_exp.
Print Assumptions C18_nat_exp_no_modulus.
Print Assumptions C18_nat_exp_nan.
Print Assumptions C18_exp_montgomery.
Print Assumptions C18_exp_windowed.
Print Assumptions C18_montgomery_step.

(** ** C68: [exp] in a build with overflow checks *)
Theorem C68_exp_checked_refuted : ~ (forall x b n, canon x -> canon b -> canon n ->
  exists r, nat_exp true x b n = Ok r).
Proof.
  intros H. destruct (H [1] [0; 1] [5]) as (r & E).
  - apply canon_single. lia.
  - change [0; 1] with (of_Z (2 ^ 32)). apply of_Z_canon. lia.
  - apply canon_single. lia.
  - discriminate E.
Qed.
(** It panics only for a base 0 or 1 or a zero modulus, and an exponent whose
    top word is 1 and not its only word; otherwise it returns the power. *)
Theorem C68_exp_checked_partial : forall x b n, canon x -> canon b -> canon n ->
  ~ ((nval x <= 1 \/ nval n = 0) /\ nval n <> 1 /\ exists j, 1 <= j /\ 2 ^ (32 * j) <= nval b < 2 ^ (32 * j + 1)) ->
  exists r, nat_exp true x b n = Ok r /\ represents r (nval x ^ nval b mod nval n).
Proof.
  intros x b n Hx Hb Hn NP. destruct (nat_exp_of_Z true x b n Hx Hb Hn) as [E|(_ & _ & O)].
  - eexists. split; [exact E|]. apply rep_of_Z, mod_nonneg; [apply Z.pow_nonneg|]; apply canon_nonneg; auto.
  - contradiction.
Qed.
Lemma top_word_one b j : canon b -> 1 <= j -> 2 ^ (32 * j) <= nval b < 2 ^ (32 * j + 1) -> (1 < length b)%nat /\ last b 0 = 1.
Proof.
  intros Hb J B. pose proof (canon_words b Hb) as Wb. pose proof (canon_nonnil b Hb) as Nb.
  destruct (exists_last Nb) as (l & v & E). assert (Ev : last b 0 = v) by (rewrite E; apply last_last).
  assert (Vb : nval b = v * Wp (length l) + nval l) by (rewrite E, nval_app; cbn [nval]; ring).
  rewrite E in Wb. apply words_ok_app in Wb as [Wl Wv]. apply words_ok_cons in Wv as [Bv _]. pose proof (nval_bound l Wl) as Bl.
  assert (P0 : 0 < 2 ^ (32 * j)) by (apply Z.pow_pos_nonneg; lia).
  assert (V1 : v <> 0). { rewrite <- Ev. apply canon_pos_last; auto. lia. }
  rewrite Wp_pow2 in *. rewrite Ev. assert (L : Z.of_nat (length l) = j).
  { destruct (Z.lt_trichotomy (Z.of_nat (length l)) j) as [H|[H|H]]; [exfalso|exact H|exfalso].
    - assert (2 ^ (32 * Z.of_nat (length l) + 32) <= 2 ^ (32 * j)) by (apply Z.pow_le_mono_r; lia). rewrite Z.pow_add_r in H0 by lia. change (2 ^ 32) with W in H0. nia.
    - assert (2 ^ (32 * j + 1) <= 2 ^ (32 * Z.of_nat (length l))) by (apply Z.pow_le_mono_r; lia). nia. }
  rewrite <- L in *. rewrite Z.pow_add_r in B by lia. change (2 ^ 1) with 2 in B. split; [rewrite E, app_length; cbn; lia|nia].
Qed.
Lemma nat_exp_overflows x b n : canon x -> canon b -> canon n -> exp_shift_overflow (nval x) (nval b) (nval n) -> nat_exp true x b n = Panic.
Proof.
  intros Hx Hb Hn (A & N1 & j & J & B). destruct (top_word_one b j Hb J B) as (L & T). unfold nat_exp. rewrite !is_nan_canon by auto. cbn [orb].
  rewrite (is_word_test n 1) by (auto; lia). destruct (Z.eqb_spec (nval n) 1); [congruence|].
  destruct (Nat.eqb_spec (length b) 1); [lia|]. cbn [andb].
  assert (((1 <? length x)%nat || (1 <? hd 0 x)) && (1 <? length b)%nat && ((1 <? length n)%nat || (0 <? hd 0 n)) = false) as ->.
  { assert (U : forall l, canon l -> nval l <= 1 -> length l = 1%nat /\ hd 0 l = nval l).
    { intros l C V. destruct l as [|a [|a2 l]]; [apply canon_nonnil in C; congruence|cbn; lia|].
      pose proof (canon_lower _ C ltac:(cbn; lia)) as LO. cbn [length] in LO. replace (S (S (length l)) - 1)%nat with (S (length l)) in LO by lia. rewrite Wp_S in LO. pose proof (Wp_pos (length l)). nia. }
    destruct A as [A|A].
    - destruct (U x Hx A) as (-> & ->). destruct (Z.ltb_spec 1 (nval x)); [lia|]. reflexivity.
    - destruct (U n Hn ltac:(lia)) as (-> & ->). rewrite A. rewrite andb_false_r. reflexivity. }
  rewrite T. reflexivity.
Qed.
(** When exactly, and what comes otherwise. *)
Theorem C68_exp_checked_iff : forall x b n, canon x -> canon b -> canon n ->
  (nat_exp true x b n = Panic <-> (nval x <= 1 \/ nval n = 0) /\ nval n <> 1 /\ exists j, 1 <= j /\ 2 ^ (32 * j) <= nval b < 2 ^ (32 * j + 1)) /\
  (nat_exp true x b n <> Panic -> nat_exp true x b n = nat_exp false x b n).
Proof.
  intros x b n Hx Hb Hn. destruct (nat_exp_of_Z true x b n Hx Hb Hn) as [E|(_ & E & O)].
  - split.
    + split; [rewrite E; discriminate|]. intros O. rewrite (nat_exp_overflows x b n Hx Hb Hn O) in E. discriminate.
    + intros _. rewrite E, nat_exp_release by auto. reflexivity.
  - split; [split; [intros _; exact O|intros _; exact E]|]. intros H. congruence.
Qed.
Example C68_case : nat_exp true [1] [0; 1] [5] = Panic /\ nat_exp true [1] [0; 2] [5] = Ok [1] /\ nat_exp true [2] [0; 1] [5] = Ok [1].
Proof. vm_compute. repeat split. Qed.
Print Assumptions C68_exp_checked_refuted.
Print Assumptions C68_exp_checked_partial.
Print Assumptions C68_exp_checked_iff.
