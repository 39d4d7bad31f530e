(** Conformance of the lagged Fibonacci generators with the C++ standard: C102. *)
From Coq Require Import ZArith List Lia Bool.
From Verif Require Import Words Spec SpecText SpecRand SpecRanlux Rand RandFacts RandFacts2 Properties_Rand.
Import ListNotations.
Open Scope Z_scope.

Lemma std_lcg_add a : forall b z, std_lcg (a + b) z = std_lcg b (std_lcg a z).
Proof. induction a as [|a IH]; intros b z; [reflexivity|]. cbn [Nat.add std_lcg]. apply IH. Qed.
Lemma std_word_spec : forall n z, std_word n z = le_value (2 ^ 32) (map (fun i => std_lcg i z) (seq 1 n)).
Proof.
  induction n as [|n IH]; intros z; [reflexivity|]. cbn [std_word seq map le_value]. rewrite IH. rewrite <- (seq_shift n 1), map_map. reflexivity.
Qed.
Lemma seq_plus n m : forall a, seq (n + a) m = map (fun j => (n + j)%nat) (seq a m).
Proof. induction m as [|m IH]; intros a; [reflexivity|]. cbn [seq map]. f_equal. rewrite <- IH. f_equal. lia. Qed.
Lemma std_state_spec w n : forall r z i, (i < r)%nat -> nth i (std_state w n r z) 0 = le_value (2 ^ 32) (map (fun j => std_lcg j z) (seq (n * i + 1) n)) mod 2 ^ w.
Proof.
  induction r as [|r IH]; intros z i I; [lia|]. cbn [std_state]. destruct i as [|i].
  - cbn [nth]. rewrite std_word_spec. rewrite Nat.mul_0_r. reflexivity.
  - cbn [nth]. rewrite IH by lia. f_equal. f_equal. replace (n * S i + 1)%nat with (n + (n * i + 1))%nat by lia.
    rewrite (seq_plus n n (n * i + 1)), map_map. apply map_ext. intros j. symmetry. apply std_lcg_add.
Qed.
Lemma std_state_len w n : forall r z, length (std_state w n r z) = r.
Proof. induction r as [|r IH]; intros z; [reflexivity|]. cbn [std_state length]. rewrite IH. reflexivity. Qed.

Definition history (x : nat -> Z) (i : nat) : list Z := rev (map x (seq 0 i)).
Lemma history_S x i : history x (S i) = x i :: history x i.
Proof. unfold history. rewrite seq_S, map_app, rev_app_distr. reflexivity. Qed.
Lemma history_nth x : forall i j, (j < i)%nat -> nth j (history x i) 0 = x (i - 1 - j)%nat.
Proof.
  induction i as [|i IH]; intros j J; [lia|]. rewrite history_S. destruct j as [|j]; cbn [nth]; [f_equal; lia|]. rewrite IH by lia. f_equal. lia.
Qed.
Lemma std_run_spec w s r x c : (1 <= s < r)%nat -> swc_recurrence w s r x c -> forall k i, (r <= i)%nat ->
  std_run w s r k (history x i) (c (i - 1)%nat) = map x (seq i k).
Proof.
  intros S0 R. induction k as [|k IH]; intros i I; [reflexivity|]. cbn [std_run seq map]. rewrite !history_nth by lia.
  replace (i - 1 - (s - 1))%nat with (i - s)%nat by lia. replace (i - 1 - (r - 1))%nat with (i - r)%nat by lia.
  destruct (R i I) as (E1 & E2). rewrite <- E1, <- E2. f_equal. rewrite <- history_S. specialize (IH (S i) ltac:(lia)). replace (S i - 1)%nat with i in IH by lia. exact IH.
Qed.

(* ------------------------------------------------------------------ *)
(** * C102 *)

(** Over u64 (and usize) the generator is the standard engine: every word size
    below 64, every pair of lags, every seed that no product overflows on and
    that the standard does not replace.  Missing: the other seeds, and u32. *)
Theorem C102_u64_partial : forall checks w s r seed k, 0 < w < 64 -> 0 < s < r -> 2 * r <= 2 ^ 64 ->
  0 < seed -> 40014 * seed < 2 ^ 64 -> seed mod 2147483563 <> 0 ->
  exists g g', lf_new 64 (ROk seed) w s r = ROk g /\ lf_draws checks 64 k g = Ok (std_swc w (Z.to_nat s) (Z.to_nat r) seed k, g').
Proof.
  intros checks w s r seed k Hw Hs Hr S0 S1 S2.
  assert (E : exists g, lf_new 64 (ROk seed) w s r = ROk g).
  { unfold lf_new. destruct (Z.eqb_spec w 0); [lia|]. destruct (Z.eqb_spec s 0); [lia|]. destruct (Z.eqb_spec r 0); [lia|]. cbn [orb]. destruct (Z.leb_spec r s); [lia|]. destruct (Z.ltb_spec 64 w); [lia|]. eexists. reflexivity. }
  destruct E as (g & E). exists g.
  destruct (C64_subtract_with_carry_partial checks 64 w s r seed g ltac:(right; reflexivity) Hw Hs ltac:(lia) ltac:(lia) ltac:(right; lia) E) as (x & c & z & (Z0 & Z1) & X & C & R & _ & D).
  destruct (D k) as (g' & Dk). exists g'. split; [exact E|]. rewrite Dk. do 2 f_equal. clear D Dk.
  set (S' := Z.to_nat s) in *. set (R' := Z.to_nat r) in *. assert (SR : (1 <= S' < R')%nat) by lia.
  assert (ZS : forall i, z (S i) = std_lcg (S i) (std_seed seed) /\ 0 <= z (S i) < 2147483563).
  { assert (SS : std_seed seed = seed mod 2147483563). { unfold std_seed. destruct (Z.eqb_spec seed 0); [lia|]. destruct (Z.eqb_spec (seed mod 2147483563) 0); [lia|]. reflexivity. }
    induction i as [|i (IH & B)].
    - rewrite Z1, Z0. rewrite (Z.mod_small (40014 * seed)) by lia. split; [|apply Z.mod_pos_bound; lia]. cbn [std_lcg]. rewrite SS. rewrite Z.mul_mod_idemp_r by lia. reflexivity.
    - rewrite Z1. rewrite (Z.mod_small (40014 * z (S i))) by lia. split; [|apply Z.mod_pos_bound; lia]. replace (S (S i)) with (S i + 1)%nat by lia. rewrite std_lcg_add, <- IH. reflexivity. }
  assert (HI : rev (std_state w (Z.to_nat ((w + 31) / 32)) R' (std_seed seed)) = history x R').
  { unfold history. f_equal. apply nth_ext with 0 0; [rewrite std_state_len, map_length, seq_length; reflexivity|]. intros i I. rewrite std_state_len in I. rewrite std_state_spec by exact I.
    rewrite (nth_indep _ 0 (x O)) by (rewrite map_length, seq_length; exact I). rewrite map_nth, seq_nth by exact I. rewrite Nat.add_0_l. cbv zeta in X. rewrite X by exact I. do 2 f_equal.
    apply map_ext_in. intros j J. apply in_seq in J. destruct j as [|j]; [lia|]. symmetry. apply ZS. }
  unfold std_swc. fold S' R'. rewrite HI. assert (H0 : hd 0 (history x R') = x (R' - 1)%nat). { replace R' with (S (R' - 1)) at 1 by lia. rewrite history_S. reflexivity. }
  rewrite H0, <- C. rewrite (std_run_spec w S' R' x c SR R) by lia.
  rewrite <- (map_map (fun i => (R' + i)%nat) x). f_equal. rewrite <- (seq_plus R' k 0). f_equal. lia.
Qed.

(** [ranlux24_base!] and [ranlux48_base!] over u64. *)
Theorem C102_ranlux_partial : forall checks seed k, 0 < seed -> 40014 * seed < 2 ^ 64 -> seed mod 2147483563 <> 0 ->
  (exists g g', lf_new 64 (ROk seed) 24 10 24 = ROk g /\ lf_draws checks 64 k g = Ok (std_swc 24 10 24 seed k, g')) /\
  (exists g g', lf_new 64 (ROk seed) 48 5 12 = ROk g /\ lf_draws checks 64 k g = Ok (std_swc 48 5 12 seed k, g')).
Proof. intros checks seed k A B C. split; [apply (C102_u64_partial checks 24 10 24)|apply (C102_u64_partial checks 48 5 12)]; auto; lia. Qed.

(** Over u32 the products of the seeding wrap: with the standard's own default
    seed the first number already differs.  Over u64 the same happens for large
    seeds, and 0 is taken as it is (the standard replaces it). *)
Theorem C102_u32_refuted : exists g g', lf_new 32 (ROk 19780503) 24 10 24 = ROk g /\ lf_draws true 32 1 g = Ok ([9529736], g') /\ std_swc 24 10 24 19780503 1 = [15039276].
Proof. eexists. eexists. split; [reflexivity|]. split; vm_compute; reflexivity. Qed.
Theorem C102_seeds_refuted : forall seed, seed = 0 \/ seed = 2147483563 \/ seed = 2 ^ 63 + 1 -> exists g l g', lf_new 64 (ROk seed) 24 10 24 = ROk g /\ lf_draws true 64 1 g = Ok (l, g') /\ l <> std_swc 24 10 24 seed 1.
Proof.
  intros seed [->|[->| ->]]; eexists; eexists; eexists; (split; [reflexivity|]); (split; [vm_compute; reflexivity|]); intros E; vm_compute in E; discriminate E.
Qed.
Print Assumptions C102_u64_partial.
Print Assumptions C102_ranlux_partial.
Print Assumptions C102_u32_refuted.
Print Assumptions C102_seeds_refuted.
Example C102_case : exists g g', lf_new 64 (ROk 19780503) 24 10 24 = ROk g /\ lf_draws true 64 3 g = Ok ([15039276; 16323925; 14283486], g').
Proof. eexists. eexists. split; [reflexivity|]. vm_compute. reflexivity. Qed.
(** The values that the standard gives for the 10000th number of a default
    constructed ranlux24_base and ranlux48_base. *)
Example C102_standard_case : nth (Z.to_nat 9999) (std_swc 24 10 24 19780503 (Z.to_nat 10000)) 0 = 7937952 /\
  nth (Z.to_nat 9999) (std_swc 48 5 12 19780503 (Z.to_nat 10000)) 0 = 61839128582725.
Proof. split; vm_compute; reflexivity. Qed.
