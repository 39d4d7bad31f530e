(** Facts about the period of the linear congruential generators. *)
From Coq Require Import ZArith Znumtheory Zpow_facts List Lia Bool Arith.
From Verif Require Import Words NumTheory NumTheory6 NatPrimeFacts4 Rand SpecRand RandFacts RandFacts2 SpecPeriod.
Import ListNotations.
Open Scope Z_scope.

(* ------------------------------------------------------------------ *)
(** * Counting *)

Definition zrange (lo : Z) (n : nat) : list Z := map (fun k => lo + Z.of_nat k) (seq 0 n).
Lemma in_zrange lo n v : In v (zrange lo n) <-> lo <= v < lo + Z.of_nat n.
Proof.
  unfold zrange. rewrite in_map_iff. split.
  - intros (k & <- & K). apply in_seq in K. lia.
  - intros H. exists (Z.to_nat (v - lo)). split; [lia|]. apply in_seq. lia.
Qed.

Lemma nodup_map_inj {A B} (f : A -> B) l : (forall a b, In a l -> In b l -> f a = f b -> a = b) -> NoDup l -> NoDup (map f l).
Proof.
  induction l as [|a l IH]; intros I N; cbn [map]; [constructor|]. inversion N; subst. constructor.
  - intros X. apply in_map_iff in X. destruct X as (b & E & X). rewrite (I b a) in X; auto; [right; auto|left; auto].
  - apply IH; auto. intros b c Bb Bc. apply I; right; auto.
Qed.

Lemma cycles_reach s p lo x : 0 <= s -> 0 < p -> (forall i, s <= Z.of_nat i -> lo <= x i < lo + p) -> cycles s p x -> reaches_all s p lo (lo + p) x.
Proof.
  intros S0 P R C v t V T. set (l := map x (seq (Z.to_nat t) (Z.to_nat p))).
  assert (I : incl (zrange lo (Z.to_nat p)) l).
  { apply NoDup_length_incl.
    - apply nodup_map_inj; [|apply seq_NoDup]. intros i j I J E. apply in_seq in I. apply in_seq in J.
      apply C in E; [|lia|lia]. destruct E as (k & K). assert (k = 0) by nia. lia.
    - unfold l, zrange. rewrite !map_length, !seq_length. reflexivity.
    - intros y Y. apply in_map_iff in Y. destruct Y as (i & <- & Y). apply in_seq in Y. apply in_zrange. rewrite Z2Nat.id by lia. apply R. lia. }
  specialize (I v). rewrite in_zrange, Z2Nat.id in I by lia. specialize (I V). apply in_map_iff in I. destruct I as (i & E & I). apply in_seq in I.
  exists i. split; [lia|exact E].
Qed.

(* ------------------------------------------------------------------ *)
(** * Prime modulus, no increment *)

Lemma order_full p a : prime p -> ~ (p | a) -> (forall q, prime q -> (q | p - 1) -> ~ eqm p (a ^ ((p - 1) / q)) 1) ->
  forall k, 0 < k -> eqm p (a ^ k) 1 -> (p - 1 | k).
Proof.
  intros P N H k K E. pose proof (prime_ge_2 p P) as P2. destruct (Z.eq_dec p 2) as [->|P3]; [exists k; lia|].
  pose proof (pow_gcd p a (p - 1) k ltac:(lia) K (fermat p a P N) E) as G. set (g := Z.gcd (p - 1) k) in *.
  destruct (Z.gcd_divide_l (p - 1) k) as (u & U). destruct (Z.gcd_divide_r (p - 1) k) as (v & V). fold g in U, V.
  assert (G0 : 0 <= g) by apply Z.gcd_nonneg. assert (G1 : 0 < g) by (destruct (Z.eq_dec g 0); [nia|lia]).
  assert (U0 : 0 < u) by nia. destruct (Z.eq_dec u 1) as [->|U1]; [exists v; lia|]. exfalso.
  assert (exists q, prime q /\ (q | u)) as (q & Q & w & W).
  { destruct (prime_dec u) as [X|X]; [exists u; split; [auto|exists 1; lia]|]. destruct (least_factor u ltac:(lia) X) as (q & Q & D & _). exists q. auto. }
  pose proof (prime_ge_2 q Q) as Q2. apply (H q Q).
  - exists (w * g). rewrite U, W. ring.
  - replace ((p - 1) / q) with (g * w).
    + rewrite Z.pow_mul_r by nia. rewrite (eqm_pow p (a ^ g) 1 w ltac:(nia) G). rewrite Z.pow_1_l by nia. apply eqm_refl.
    + rewrite U, W. replace (w * q * g) with (g * w * q) by ring. symmetry. apply Z.div_mul. lia.
Qed.

Lemma recurrence_power a m x k : 0 < m -> lcg_recurrence a 0 m x -> eqm m (x k) (a ^ Z.of_nat k * x O).
Proof.
  intros M R. induction k as [|k IH].
  - change (Z.of_nat 0) with 0. rewrite Z.pow_0_r, Z.mul_1_l. apply eqm_refl.
  - rewrite R, Z.add_0_r. rewrite eqm_mod by lia. rewrite IH. rewrite Nat2Z.inj_succ, Z.pow_succ_r by lia. rewrite Z.mul_assoc. apply eqm_refl.
Qed.

Section PrimeModulus.
Context (m a : Z) (Pm : prime m) (Na : ~ (m | a)) (Prim : forall q, prime q -> (q | m - 1) -> ~ eqm m (a ^ ((m - 1) / q)) 1).
Context (x : nat -> Z) (R : lcg_recurrence a 0 m x) (S0 : ~ (m | x O)).

Lemma rec_nonzero k : ~ (m | x k).
Proof.
  pose proof (prime_ge_2 m Pm). induction k as [|k IH]; [exact S0|]. rewrite R, Z.add_0_r. intros D.
  apply Z.mod_divide in D; [|lia]. rewrite Z.mod_mod in D by lia. apply Z.mod_divide in D; [|lia]. apply prime_mult in D; tauto.
Qed.
Lemma rec_range k : (1 <= k)%nat -> 1 <= x k < 1 + (m - 1).
Proof.
  pose proof (prime_ge_2 m Pm). destruct k as [|k]; [lia|]. intros _. pose proof (rec_nonzero (S k)) as N. rewrite R in *.
  pose proof (Z.mod_pos_bound (a * x k + 0) m ltac:(lia)) as B. assert ((a * x k + 0) mod m <> 0); [|lia]. intros E. apply N. rewrite E. apply Z.divide_0_r.
Qed.

Lemma rec_shift i d : eqm m (x (i + d)%nat) (a ^ Z.of_nat d * x i).
Proof.
  pose proof (prime_ge_2 m Pm). assert (R2 : lcg_recurrence a 0 m (fun k => x (i + k)%nat)) by (intros k; rewrite <- plus_n_Sm; apply R).
  pose proof (recurrence_power a m _ d ltac:(lia) R2) as E. cbv beta in E. rewrite Nat.add_0_r in E. exact E.
Qed.

Lemma rec_cycles_le i j : (1 <= i)%nat -> (i <= j)%nat -> (x i = x j <-> (m - 1 | Z.of_nat j - Z.of_nat i)).
Proof.
  pose proof (prime_ge_2 m Pm) as M2. intros I J. set (d := (j - i)%nat). assert (E : j = (i + d)%nat) by (unfold d; lia).
  pose proof (rec_shift i d) as S. rewrite <- E in S. replace (Z.of_nat j - Z.of_nat i) with (Z.of_nat d) by lia.
  pose proof (rec_range i I) as Ri. pose proof (rec_range j ltac:(lia)) as Rj. split.
  - intros EX. destruct (Nat.eq_dec d 0) as [->|D]; [exists 0; reflexivity|]. apply (order_full m a Pm Na Prim); [lia|].
    rewrite <- EX in S. apply eqm_iff; [lia|]. apply eqm_iff in S; [|lia].
    assert (DV : (m | (a ^ Z.of_nat d - 1) * x i)).
    { apply Z.mod_divide; [lia|]. rewrite Z.mul_sub_distr_r, Z.mul_1_l. rewrite Zminus_mod, <- S, Z.sub_diag. apply Z.mod_0_l. lia. }
    apply prime_mult in DV; [|exact Pm]. destruct DV as [DV|DV]; [|destruct (rec_nonzero i DV)].
    destruct DV as (k & K). replace (a ^ Z.of_nat d) with (1 + k * m) by lia. apply Z_mod_plus_full.
  - intros (k & K). apply (eqm_small m); [lia|lia|lia|]. rewrite S. assert (0 <= k) by nia.
    rewrite K, (Z.mul_comm k), Z.pow_mul_r by lia. rewrite (eqm_pow m _ 1 k) by (auto using fermat; lia). rewrite Z.pow_1_l, Z.mul_1_l by lia. apply eqm_refl.
Qed.

Lemma rec_cycles : cycles 1 (m - 1) x.
Proof.
  intros i j I J. destruct (Nat.le_ge_cases i j) as [L|L].
  - rewrite rec_cycles_le by lia. replace (Z.of_nat i - Z.of_nat j) with (- (Z.of_nat j - Z.of_nat i)) by lia. symmetry. apply Z.divide_opp_r.
  - rewrite <- rec_cycles_le by lia. split; auto.
Qed.
Lemma rec_all : reaches_all 1 (m - 1) 1 m x.
Proof.
  pose proof (prime_ge_2 m Pm). replace m with (1 + (m - 1)) at 2 by lia. apply cycles_reach; [lia|lia| |exact rec_cycles]. intros i I. apply rec_range. lia.
Qed.
End PrimeModulus.

(** A seed that the modulus divides. *)
Lemma recurrence_zero a m x : 0 < m -> lcg_recurrence a 0 m x -> (m | x O) -> forall k, x (S k) = 0.
Proof.
  intros M R D. assert (A : forall k, (m | x k)).
  { induction k as [|k IH]; [exact D|]. rewrite R, Z.add_0_r. apply Z.mod_divide; [lia|]. rewrite Z.mod_mod by lia. apply Z.mod_divide; [lia|]. apply Z.divide_mul_r. exact IH. }
  intros k. rewrite R, Z.add_0_r. apply Z.mod_divide; [lia|]. apply Z.divide_mul_r. apply A.
Qed.

(* ------------------------------------------------------------------ *)
(** * Power of two as modulus *)

(** 1 + a + ... + a^(n-1). *)
Fixpoint geo (a : Z) (n : nat) : Z := match n with O => 0 | S k => a * geo a k + 1 end.
Lemma geo_add a n d : geo a (n + d) = a ^ Z.of_nat n * geo a d + geo a n.
Proof.
  induction n as [|n IH].
  - change (Z.of_nat 0) with 0. rewrite Z.pow_0_r. cbn [Nat.add geo]. ring.
  - rewrite Nat2Z.inj_succ, Z.pow_succ_r by lia. cbn [Nat.add geo]. rewrite IH. ring.
Qed.
Lemma geo_pow a n : a ^ Z.of_nat n = (a - 1) * geo a n + 1.
Proof. induction n as [|n IH]; [change (Z.of_nat 0) with 0; rewrite Z.pow_0_r; cbn [geo]; ring|]. rewrite Nat2Z.inj_succ, Z.pow_succ_r, IH by lia. cbn [geo]. ring. Qed.

Lemma geo_odd a n : Z.odd a = true -> Z.odd (geo a n) = Nat.odd n.
Proof.
  intros A. induction n as [|n IH]; [reflexivity|]. cbn [geo]. rewrite Z.odd_add, Z.odd_mul, A, IH. cbn [andb]. rewrite Nat.odd_succ, <- Nat.negb_odd. destruct (Nat.odd n); reflexivity.
Qed.

(** 2^k divides the sum exactly when it divides n. *)
Lemma geo_divide a k : a mod 4 = 1 -> forall n, (2 ^ Z.of_nat k | geo a n) <-> (2 ^ Z.of_nat k | Z.of_nat n).
Proof.
  intros A. assert (Ao : Z.odd a = true). { rewrite (Z.div_mod a 4) by lia. rewrite A, Z.odd_add, Z.odd_mul. reflexivity. }
  induction k as [|k IH]; intros n.
  - change (2 ^ Z.of_nat 0) with 1. split; intros _; apply Z.divide_1_l.
  - rewrite Nat2Z.inj_succ, Z.pow_succ_r by lia. set (p := 2 ^ Z.of_nat k) in *. assert (P : 0 < p) by (apply Z.pow_pos_nonneg; lia).
    destruct (Nat.odd n) eqn:O.
    + pose proof (geo_odd a n Ao) as G. rewrite O in G. split; intros (c & C).
      * rewrite C in G. rewrite Z.odd_mul, Z.odd_mul in G. cbn [Z.odd andb] in G. rewrite andb_false_r in G. discriminate.
      * apply Nat.odd_spec in O. destruct O as (h & O). nia.
    + assert (Nat.even n = true) as Ev by (rewrite <- Nat.negb_odd, O; reflexivity). apply Nat.even_spec in Ev. destruct Ev as (h & ->).
      replace (2 * h)%nat with (h + h)%nat by lia. rewrite geo_add.
      assert (exists w, a ^ Z.of_nat h + 1 = 2 * (2 * w + 1)) as (w & Ew).
      { rewrite geo_pow. exists (a / 4 * geo a h). pose proof (Z.div_mod a 4 ltac:(lia)) as DM. replace (a - 1) with (4 * (a / 4)) by lia. ring. }
      replace (a ^ Z.of_nat h * geo a h + geo a h) with (2 * (geo a h * (2 * w + 1))) by (transitivity (geo a h * (a ^ Z.of_nat h + 1)); [rewrite Ew; ring|ring]).
      rewrite Nat2Z.inj_add. replace (Z.of_nat h + Z.of_nat h) with (2 * Z.of_nat h) by lia.
      rewrite !Z.mul_divide_cancel_l by lia.
      rewrite <- IH. split; [|apply Z.divide_mul_l]. intros D. rewrite Z.mul_comm in D. apply Gauss with (2 * w + 1); [exact D|].
      unfold p. apply rel_prime_sym. apply rel_prime_Zpower_r; [lia|]. apply rel_prime_sym. apply Zgcd_1_rel_prime.
      replace (2 * w + 1) with (1 + w * 2) by ring. rewrite Z.gcd_add_mult_diag_r. reflexivity.
Qed.

Lemma recurrence_shift a c m x i d : 0 < m -> lcg_recurrence a c m x -> eqm m (x (i + d)%nat) (a ^ Z.of_nat d * x i + c * geo a d).
Proof.
  intros M R. induction d as [|d IH].
  - rewrite Nat.add_0_r. change (Z.of_nat 0) with 0. rewrite Z.pow_0_r. cbn [geo]. rewrite Z.mul_1_l, Z.mul_0_r, Z.add_0_r. apply eqm_refl.
  - rewrite <- plus_n_Sm, R. rewrite eqm_mod by lia. rewrite IH. rewrite Nat2Z.inj_succ, Z.pow_succ_r by lia. cbn [geo].
    replace (a * (a ^ Z.of_nat d * x i + c * geo a d) + c) with (a * a ^ Z.of_nat d * x i + c * (a * geo a d + 1)) by ring. apply eqm_refl.
Qed.

Lemma two_power_cycles a c k x : a mod 4 = 1 -> Z.odd c = true -> lcg_recurrence a c (2 ^ Z.of_nat k) x -> cycles 1 (2 ^ Z.of_nat k) x.
Proof.
  intros A C R. set (m := 2 ^ Z.of_nat k) in *. assert (M : 0 < m) by (apply Z.pow_pos_nonneg; lia).
  assert (L : forall i j, (1 <= i)%nat -> (i <= j)%nat -> (x i = x j <-> (m | Z.of_nat j - Z.of_nat i))).
  { intros i j I J. set (d := (j - i)%nat). assert (E : j = (i + d)%nat) by (unfold d; lia).
    pose proof (recurrence_shift a c m x i d M R) as S. rewrite <- E in S. replace (Z.of_nat j - Z.of_nat i) with (Z.of_nat d) by lia.
    assert (B : forall n, (1 <= n)%nat -> 0 <= x n < m). { intros [|n] N; [lia|]. rewrite R. apply Z.mod_pos_bound. exact M. }
    pose proof (B i I) as Bi. pose proof (B j ltac:(lia)) as Bj.
    unfold m. rewrite <- (geo_divide a k A d). fold m.
    assert (EQ : a ^ Z.of_nat d * x i + c * geo a d = x i + geo a d * ((a - 1) * x i + c)) by (rewrite geo_pow; ring).
    rewrite EQ in S. apply eqm_iff in S; [|exact M]. split.
    - intros EX. rewrite <- EX in S.
      assert (D : (m | geo a d * ((a - 1) * x i + c))).
      { apply Z.mod_divide; [lia|]. replace (geo a d * ((a - 1) * x i + c)) with (x i + geo a d * ((a - 1) * x i + c) - x i) by ring.
        rewrite Zminus_mod, <- S, Z.sub_diag. apply Z.mod_0_l. lia. }
      rewrite Z.mul_comm in D. apply Gauss with ((a - 1) * x i + c); [exact D|].
      unfold m. apply rel_prime_sym. apply rel_prime_Zpower_r; [lia|]. apply rel_prime_sym. apply Zgcd_1_rel_prime.
      apply Z.odd_spec in C. destruct C as (h & C).
      replace ((a - 1) * x i + c) with (1 + (2 * (a / 4) * x i + h) * 2) by (pose proof (Z.div_mod a 4 ltac:(lia)) as DM; replace (a - 1) with (4 * (a / 4)) by lia; rewrite C; ring).
      rewrite Z.gcd_add_mult_diag_r. reflexivity.
    - intros (h & H). rewrite H in S. replace (x i + h * m * ((a - 1) * x i + c)) with (x i + (h * ((a - 1) * x i + c)) * m) in S by ring.
      rewrite Z_mod_plus_full in S. rewrite !Z.mod_small in S by auto. auto. }
  intros i j I J. destruct (Nat.le_ge_cases i j) as [G|G].
  - rewrite L by lia. replace (Z.of_nat i - Z.of_nat j) with (- (Z.of_nat j - Z.of_nat i)) by lia. symmetry. apply Z.divide_opp_r.
  - rewrite <- L by lia. split; auto.
Qed.

(** Reducing modulo 2^B first does no harm. *)
Lemma lcg_seq_two_power B a c k x0 : Z.of_nat k <= B -> lcg_recurrence a c (2 ^ Z.of_nat k) (lcg_seq B a c (2 ^ Z.of_nat k) x0).
Proof.
  intros H i. cbn [lcg_seq]. replace B with (Z.of_nat k + (B - Z.of_nat k)) by lia. rewrite Z.pow_add_r by lia.
  set (y := a * lcg_seq _ a c _ x0 i + c). symmetry. apply Zmod_div_mod; [apply Z.pow_pos_nonneg; lia| |exists (2 ^ (B - Z.of_nat k)); ring].
  assert (0 < 2 ^ Z.of_nat k) by (apply Z.pow_pos_nonneg; lia). assert (0 < 2 ^ (B - Z.of_nat k)) by (apply Z.pow_pos_nonneg; lia). nia.
Qed.
