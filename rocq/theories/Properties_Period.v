(** C100: the period of the linear congruential generators. *)
From Coq Require Import ZArith Znumtheory Zpow_facts List Lia Bool Arith.
From Verif Require Import Words NumTheory NumTheory6 Rand SpecRand RandFacts RandFacts2 SpecPeriod LcgPeriod Properties_Rand.
Import ListNotations.
Open Scope Z_scope.

(* ------------------------------------------------------------------ *)
(** * The modulus 2^31 - 1 *)

Lemma prime_by_gcd n : 1 < n -> forallb (fun d => Z.gcd d n =? 1) (zrange 1 (Z.to_nat (n - 1))) = true -> prime n.
Proof.
  intros N H. rewrite forallb_forall in H. constructor; [exact N|]. intros d D. apply Zgcd_1_rel_prime. apply Z.eqb_eq. apply H. apply in_zrange. lia.
Qed.
Lemma prime_7 : prime 7. Proof. apply prime_by_gcd; reflexivity. Qed.
Lemma prime_11 : prime 11. Proof. apply prime_by_gcd; reflexivity. Qed.
Lemma prime_31 : prime 31. Proof. apply prime_by_gcd; reflexivity. Qed.
Lemma prime_151 : prime 151. Proof. apply prime_by_gcd; [reflexivity|]. vm_compute. reflexivity. Qed.
Lemma prime_331 : prime 331. Proof. apply prime_by_gcd; [reflexivity|]. vm_compute. reflexivity. Qed.

Definition m31 : Z := 2147483647.
Lemma m31_prime : prime m31.
Proof.
  assert (N0 : 0 < m31) by reflexivity.
  assert (G : forall q r, 0 < q -> Zpow_mod 7 ((m31 - 1) / q) m31 = r -> Z.gcd (r - 1) m31 = 1 -> Z.gcd (7 ^ ((m31 - 1) / q) - 1) m31 = 1).
  { intros q r Q <- E. rewrite Zpow_mod_correct in E by lia. set (y := 7 ^ ((m31 - 1) / q)) in *.
    rewrite Z.gcd_comm, <- Z.gcd_mod in E by lia. rewrite Zminus_mod_idemp_l in E. rewrite Z.gcd_mod in E by lia. rewrite Z.gcd_comm. exact E. }
  apply (pocklington2 m31 7 151 1 331 1 42966); [reflexivity|exact prime_151|exact prime_331|discriminate|reflexivity|reflexivity|reflexivity|reflexivity| | | |reflexivity].
  - apply eqm_iff; [exact N0|]. rewrite <- Zpow_mod_correct by discriminate. vm_compute. reflexivity.
  - eapply G; [reflexivity|vm_compute; reflexivity|vm_compute; reflexivity].
  - eapply G; [reflexivity|vm_compute; reflexivity|vm_compute; reflexivity].
Qed.

Definition m31_factors : list Z := [2; 3; 7; 11; 31; 151; 331].
Lemma m31_prime_factors q : prime q -> (q | m31 - 1) -> In q m31_factors.
Proof.
  intros Q D. change (m31 - 1) with (2 * (3 * (3 * (7 * (11 * (31 * (151 * 331))))))) in D.
  assert (E : forall r, prime r -> (q | r) -> q = r) by (intros r R X; apply prime_div_prime; auto).
  apply prime_mult in D; [|exact Q]. destruct D as [D|D]; [rewrite (E 2 Znumtheory.prime_2 D); left; reflexivity|].
  apply prime_mult in D; [|exact Q]. destruct D as [D|D]; [rewrite (E 3 prime_3 D); right; left; reflexivity|].
  apply prime_mult in D; [|exact Q]. destruct D as [D|D]; [rewrite (E 3 prime_3 D); right; left; reflexivity|].
  apply prime_mult in D; [|exact Q]. destruct D as [D|D]; [rewrite (E 7 prime_7 D); cbv; tauto|].
  apply prime_mult in D; [|exact Q]. destruct D as [D|D]; [rewrite (E 11 prime_11 D); cbv; tauto|].
  apply prime_mult in D; [|exact Q]. destruct D as [D|D]; [rewrite (E 31 prime_31 D); cbv; tauto|].
  apply prime_mult in D; [|exact Q]. destruct D as [D|D]; [rewrite (E 151 prime_151 D); cbv; tauto|rewrite (E 331 prime_331 D); cbv; tauto].
Qed.

Notation root_check a := (forallb (fun q => negb (Zpow_mod a ((m31 - 1) / q) m31 =? 1)) m31_factors).
Lemma pow_check m a e : 1 < m -> Zpow_mod a e m <> 1 -> ~ eqm m (a ^ e) 1.
Proof. intros M C E. apply C. rewrite Zpow_mod_correct by lia. apply eqm_iff in E; [|lia]. rewrite E. apply Z.mod_1_l. exact M. Qed.
Lemma forallb_neq (f : Z -> Z) l : forallb (fun q => negb (f q =? 1)) l = true -> forall q, In q l -> f q <> 1.
Proof. intros C q Q. rewrite forallb_forall in C. specialize (C q Q). cbv beta in C. apply negb_true_iff in C. apply Z.eqb_neq in C. exact C. Qed.
Lemma root_check_ok a : root_check a = true -> forall q, prime q -> (q | m31 - 1) -> ~ eqm m31 (a ^ ((m31 - 1) / q)) 1.
Proof.
  intros C q Q D. exact (pow_check m31 a ((m31 - 1) / q) eq_refl (forallb_neq (fun r => Zpow_mod a ((m31 - 1) / r) m31) m31_factors C q (m31_prime_factors q Q D))).
Qed.
Lemma root_16807 : root_check 16807 = true. Proof. vm_compute. reflexivity. Qed.
Lemma root_48271 : root_check 48271 = true. Proof. vm_compute. reflexivity. Qed.

(* ------------------------------------------------------------------ *)
(** * Running the 32-bit generators cheaply *)

Definition fast (a x : Z) : Z :=
  let t := Z.land (a * x) 4294967295 in
  if t <? m31 then t else let u := t - m31 in if u <? m31 then u else u - m31.
Definition slow (a x : Z) : Z := ((a * x + 0) mod 2 ^ 32) mod m31.
Lemma fast_slow a x : fast a x = slow a x.
Proof.
  unfold fast, slow. cbv zeta. change 4294967295 with (Z.ones 32). rewrite Z.land_ones, Z.add_0_r by lia.
  pose proof (Z.mod_pos_bound (a * x) (2 ^ 32) ltac:(reflexivity)) as B. set (t := (a * x) mod 2 ^ 32) in *.
  change (2 ^ 32) with 4294967296 in B. unfold m31 in *. destruct (Z.ltb_spec t 2147483647); [symmetry; apply Z.mod_small; lia|].
  destruct (Z.ltb_spec (t - 2147483647) 2147483647).
  - apply (Z.mod_unique t 2147483647 1); lia.
  - apply (Z.mod_unique t 2147483647 2); lia.
Qed.

Definition force (z : Z) (f : Z -> Z) : Z := match z with Z0 => f Z0 | Zpos p => f (Zpos p) | Zneg p => f (Zneg p) end.
Fixpoint fast_run (a : Z) (p : positive) (x : Z) : Z :=
  match p with
  | xH => fast a x
  | xO q => force (fast_run a q x) (fast_run a q)
  | xI q => force (fast a x) (fun y => force (fast_run a q y) (fast_run a q))
  end.
Lemma fast_run_seq a x0 p : forall i, fast_run a p (lcg_seq 32 a 0 m31 x0 i) = lcg_seq 32 a 0 m31 x0 (i + Pos.to_nat p).
Proof.
  assert (F : forall i, fast a (lcg_seq 32 a 0 m31 x0 i) = lcg_seq 32 a 0 m31 x0 (S i)) by (intros i; apply fast_slow).
  assert (M : forall z f, force z f = f z) by (intros [| |] f; reflexivity).
  induction p as [p IH|p IH|]; intros i; cbn [fast_run].
  - rewrite !M, F, IH, IH. f_equal. rewrite Pos2Nat.inj_xI. lia.
  - rewrite M, IH, IH. f_equal. rewrite Pos2Nat.inj_xO. lia.
  - rewrite F. f_equal. change (Pos.to_nat 1) with 1%nat. lia.
Qed.

Lemma seq_repeat B a c m x0 i p : lcg_seq B a c m x0 (i + p) = lcg_seq B a c m x0 i -> forall d, lcg_seq B a c m x0 (i + d + p) = lcg_seq B a c m x0 (i + d).
Proof.
  intros E d. induction d as [|d IH]; [rewrite Nat.add_0_r; exact E|]. rewrite <- plus_n_Sm. cbn [Nat.add lcg_seq]. rewrite IH. reflexivity.
Qed.
Lemma seq_cycle a x0 y (e p : positive) : fast_run a e x0 = y -> fast_run a p y = y ->
  forall i, Z.pos e <= Z.of_nat i -> lcg_seq 32 a 0 m31 x0 (i + Pos.to_nat p) = lcg_seq 32 a 0 m31 x0 i.
Proof.
  intros E P i I. pose proof (fast_run_seq a x0 e O) as E2. cbn [lcg_seq Nat.add] in E2. rewrite E in E2.
  pose proof (fast_run_seq a x0 p (Pos.to_nat e)) as P2. rewrite <- E2, P in P2.
  replace i with (Pos.to_nat e + (i - Pos.to_nat e))%nat by lia. apply seq_repeat. congruence.
Qed.
Lemma seq_cycle0 a x0 (p : positive) : fast_run a p x0 = x0 -> forall i, lcg_seq 32 a 0 m31 x0 (i + Pos.to_nat p) = lcg_seq 32 a 0 m31 x0 i.
Proof.
  intros P i. pose proof (fast_run_seq a x0 p O) as P2. cbn [lcg_seq Nat.add] in P2. rewrite P in P2. apply (seq_repeat _ _ _ _ _ O). cbn [Nat.add lcg_seq]. auto.
Qed.
Lemma seq_dead a x0 : slow a x0 = 0 -> forall i, lcg_seq 32 a 0 m31 x0 (S i) = 0.
Proof.
  intros H. induction i as [|i IH]; [exact H|]. change (lcg_seq 32 a 0 m31 x0 (S (S i))) with (slow a (lcg_seq 32 a 0 m31 x0 (S i))). rewrite IH. unfold slow. rewrite Z.mul_0_r. reflexivity.
Qed.

(** [x] is the sequence of outputs of [g], after the seed. *)
Definition outputs (B : Z) (g : lcg) (x : nat -> Z) : Prop := forall k, fst (lcg_draws B k g) = map x (seq 1 k).
Lemma outputs_seq B a c m seed : 0 <= B -> outputs B (Lcg a c m seed) (lcg_seq B a c m seed).
Proof. intros HB k. rewrite (lcg_draws_spec B a c m seed HB k O : lcg_draws B k (Lcg a c m seed) = _). reflexivity. Qed.

(* ------------------------------------------------------------------ *)
(** * C100 *)

(** A prime modulus, a multiplier that is a primitive root of it, a word that
    holds the products: all of 1..m-1, each once in m - 1 steps. *)
Theorem C100_prime_modulus : forall B a m seed g, width B -> prime m -> 0 <= a -> 0 <= seed -> a * seed < 2 ^ B -> a * (m - 1) < 2 ^ B ->
  (forall k, 0 < k -> (m | a ^ k - 1) -> m - 1 <= k) -> ~ (m | a) -> ~ (m | seed) ->
  lcg_new (ROk seed) a 0 m = ROk g ->
  exists x, outputs B g x /\ cycles 1 (m - 1) x /\ reaches_all 1 (m - 1) 1 m x.
Proof.
  intros B a m seed g HB P A S H1 H2 Prim Na Ns E. pose proof (prime_ge_2 m P) as M2. unfold lcg_new in E.
  replace (m =? 0) with false in E by (symmetry; apply Z.eqb_neq; lia). injection E as <-.
  assert (HB0 : 0 <= B) by (destruct HB; lia).
  assert (R : lcg_recurrence a 0 m (lcg_seq B a 0 m seed)) by (apply lcg_seq_exact; try assumption; lia).
  assert (Pr : forall q, prime q -> (q | m - 1) -> ~ eqm m (a ^ ((m - 1) / q)) 1).
  { intros q Q (w & D) E. pose proof (prime_ge_2 q Q) as Q2. rewrite D, Z.div_mul in E by lia.
    assert (W0 : 0 < w) by nia. specialize (Prim w W0). apply eqm_iff in E; [|lia].
    assert (m - 1 <= w); [|nia]. apply Prim. apply Z.mod_divide; [lia|]. rewrite Zminus_mod, E, <- Zminus_mod. apply Z.mod_0_l. lia. }
  exists (lcg_seq B a 0 m seed). split; [apply outputs_seq; exact HB0|]. split; [apply (rec_cycles m a P Na Pr); auto|apply (rec_all m a P Na Pr); auto].
Qed.
Print Assumptions C100_prime_modulus.

(** The two minimal standard multipliers over u64 (u32 seeds, or any up to
    2^48). *)
Theorem C100_minstd_64 : forall a seed g, a = 16807 \/ a = 48271 -> 0 <= seed < 2 ^ 48 -> ~ (2147483647 | seed) ->
  lcg_new (ROk seed) a 0 2147483647 = ROk g ->
  exists x, outputs 64 g x /\ cycles 1 2147483646 x /\ reaches_all 1 2147483646 1 2147483647 x.
Proof.
  intros a seed g HA HS Ns E. unfold lcg_new in E. cbn [Z.eqb] in E. injection E as <-. change 2147483647 with m31 in *. change 2147483646 with (m31 - 1).
  assert (B64 : 2 ^ 64 = 65536 * 2 ^ 48) by reflexivity.
  assert (R : lcg_recurrence a 0 m31 (lcg_seq 64 a 0 m31 seed)).
  { apply lcg_seq_exact; try lia; unfold m31; destruct HA; subst a; lia. }
  assert (Na : ~ (m31 | a)) by (intros D; apply Z.divide_pos_le in D; unfold m31 in *; lia).
  assert (Pr : forall q, prime q -> (q | m31 - 1) -> ~ eqm m31 (a ^ ((m31 - 1) / q)) 1).
  { apply root_check_ok. destruct HA; subst a; [exact root_16807|exact root_48271]. }
  exists (lcg_seq 64 a 0 m31 seed). split; [apply outputs_seq; lia|]. split; [apply (rec_cycles m31 a m31_prime Na Pr); auto|apply (rec_all m31 a m31_prime Na Pr); auto].
Qed.
Print Assumptions C100_minstd_64.

(** A seed that is a multiple of the modulus gives zeros only. *)
Theorem C100_dead_seed : forall B a m seed g, width B -> 0 <= a -> 0 < m -> 0 <= seed -> a * seed < 2 ^ B -> a * (m - 1) < 2 ^ B -> (m | seed) ->
  lcg_new (ROk seed) a 0 m = ROk g -> forall k, fst (lcg_draws B k g) = repeat 0 k.
Proof.
  intros B a m seed g HB A M S H1 H2 D E k. unfold lcg_new in E.
  replace (m =? 0) with false in E by (symmetry; apply Z.eqb_neq; lia). injection E as <-.
  assert (HB0 : 0 <= B) by (destruct HB; lia).
  assert (R : lcg_recurrence a 0 m (lcg_seq B a 0 m seed)) by (apply lcg_seq_exact; try assumption; lia).
  pose proof (recurrence_zero a m _ M R D) as Z. rewrite outputs_seq by exact HB0. rewrite <- seq_shift, map_map.
  rewrite (map_ext _ (fun _ => 0)) by exact Z. clear. induction k as [|k IH]; [reflexivity|]. rewrite seq_S, map_app, IH. cbn [map]. rewrite <- repeat_cons. reflexivity.
Qed.
Print Assumptions C100_dead_seed.

(** The modulus a power of two: the wrap-around does no harm.  With an odd
    increment and a multiplier of the form 4h + 1 every value comes once in m
    steps, for every seed. *)
Theorem C100_two_power : forall B a c k seed g, width B -> (Z.of_nat k < B) -> a mod 4 = 1 -> Z.odd c = true ->
  lcg_new (ROk seed) a c (2 ^ Z.of_nat k) = ROk g ->
  exists x, x O = seed /\ lcg_recurrence a c (2 ^ Z.of_nat k) x /\ outputs B g x /\ cycles 1 (2 ^ Z.of_nat k) x /\ reaches_all 1 (2 ^ Z.of_nat k) 0 (2 ^ Z.of_nat k) x.
Proof.
  intros B a c k seed g HB K A C E. unfold lcg_new in E. assert (M : 0 < 2 ^ Z.of_nat k) by (apply Z.pow_pos_nonneg; lia).
  replace (2 ^ Z.of_nat k =? 0) with false in E by (symmetry; apply Z.eqb_neq; lia). injection E as <-.
  pose proof (lcg_seq_two_power B a c k seed ltac:(lia)) as R. pose proof (two_power_cycles a c k _ A C R) as CY.
  exists (lcg_seq B a c (2 ^ Z.of_nat k) seed). split; [reflexivity|]. split; [exact R|]. split; [apply outputs_seq; destruct HB; lia|]. split; [exact CY|].
  apply (cycles_reach 1 (2 ^ Z.of_nat k) 0); [lia|exact M| |exact CY]. intros [|i] I; [lia|]. apply lcg_seq_range. exact M.
Qed.
Print Assumptions C100_two_power.

(** The generators as shipped, over u32, seed 1: a cycle of 21729 numbers after
    16313 steps, and one of 31396 after 43635. *)
Theorem C100_shipped_seed_1_refuted :
  (exists g x, minstd_rand0 (ROk 1) = ROk g /\ outputs 32 g x /\ forall i, 16313 <= Z.of_nat i -> x (i + Pos.to_nat 21729)%nat = x i) /\
  (exists g x, minstd_rand (ROk 1) = ROk g /\ outputs 32 g x /\ forall i, 43635 <= Z.of_nat i -> x (i + Pos.to_nat 31396)%nat = x i).
Proof.
  split.
  - exists (Lcg 16807 0 m31 1), (lcg_seq 32 16807 0 m31 1). split; [reflexivity|]. split; [apply outputs_seq; lia|].
    apply (seq_cycle 16807 1 1623076423); vm_compute; reflexivity.
  - exists (Lcg 48271 0 m31 1), (lcg_seq 32 48271 0 m31 1). split; [reflexivity|]. split; [apply outputs_seq; lia|].
    apply (seq_cycle 48271 1 1775017015); vm_compute; reflexivity.
Qed.
Print Assumptions C100_shipped_seed_1_refuted.

(** Seeds with a far shorter cycle, and seeds after which only zeros come. *)
Theorem C100_shipped_short_refuted :
  (exists g x, minstd_rand0 (ROk 9850926) = ROk g /\ outputs 32 g x /\ forall i, x (i + 210)%nat = x i) /\
  (exists g x, minstd_rand (ROk 1215433) = ROk g /\ outputs 32 g x /\ forall i, x (i + 629)%nat = x i) /\
  (exists g, minstd_rand0 (ROk 868985321) = ROk g /\ forall k, fst (lcg_draws 32 k g) = repeat 0 k) /\
  (exists g, minstd_rand (ROk 1622613393) = ROk g /\ forall k, fst (lcg_draws 32 k g) = repeat 0 k).
Proof.
  assert (Z : forall a s, slow a s = 0 -> forall k, fst (lcg_draws 32 k (Lcg a 0 m31 s)) = repeat 0 k).
  { intros a s H k. rewrite outputs_seq by lia. rewrite <- seq_shift, map_map. rewrite (map_ext _ (fun _ => 0)) by exact (seq_dead a s H).
    clear. induction k as [|k IH]; [reflexivity|]. rewrite seq_S, map_app, IH. cbn [map]. rewrite <- repeat_cons. reflexivity. }
  split; [|split; [|split]].
  - exists (Lcg 16807 0 m31 9850926), (lcg_seq 32 16807 0 m31 9850926). split; [reflexivity|]. split; [apply outputs_seq; lia|].
    apply (seq_cycle0 16807 9850926 210). vm_compute. reflexivity.
  - exists (Lcg 48271 0 m31 1215433), (lcg_seq 32 48271 0 m31 1215433). split; [reflexivity|]. split; [apply outputs_seq; lia|].
    apply (seq_cycle0 48271 1215433 629). vm_compute. reflexivity.
  - exists (Lcg 16807 0 m31 868985321). split; [reflexivity|]. apply Z. reflexivity.
  - exists (Lcg 48271 0 m31 1622613393). split; [reflexivity|]. apply Z. reflexivity.
Qed.
Print Assumptions C100_shipped_short_refuted.

Example C100_case :
  (exists g, lcg_new (ROk 1) 16807 0 2147483647 = ROk g /\ fst (lcg_draws 64 4 g) = [16807; 282475249; 1622650073; 984943658] /\ fst (lcg_draws 32 4 g) <> fst (lcg_draws 64 4 g)) /\
  (exists g, lcg_new (ROk 7) 5 3 8 = ROk g /\ fst (lcg_draws 32 9 g) = [6; 1; 0; 3; 2; 5; 4; 7; 6]).
Proof. split; eexists; (split; [reflexivity|]); [|vm_compute; reflexivity]. split; [vm_compute; reflexivity|]. vm_compute. discriminate. Qed.
