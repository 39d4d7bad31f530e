(** A small non-residue, and primality by trial division.  Nothing here is
    about the code. *)
From Coq Require Import ZArith Znumtheory List Lia Bool Setoid Morphisms.
From Verif Require Import NumTheory NumTheory2.
Import ListNotations.
Open Scope Z_scope.

Lemma xh_eval h x : 1 <= h -> peval (xh (Z.to_nat h)) x = x ^ h - 1.
Proof.
  intros H. unfold xh. cbn [peval]. rewrite peval_repeat. cbn [peval]. rewrite <- (Z2Nat.id h) at 2 by lia.
  replace (Z.of_nat (Z.to_nat h)) with (Z.succ (Z.of_nat (pred (Z.to_nat h)))) by lia. rewrite Z.pow_succ_r by lia. ring.
Qed.
Lemma xh_length h : 1 <= h -> length (xh (Z.to_nat h)) = S (Z.to_nat h).
Proof. intros H. unfold xh. cbn [length]. rewrite app_length, repeat_length. cbn [length]. lia. Qed.
Lemma xh_last h : last (xh h) 0 = 1.
Proof. unfold xh. change (-1 :: repeat 0 (pred h) ++ [1]) with ((-1 :: repeat 0 (pred h)) ++ [1]). apply last_last. Qed.

Lemma nonresidue_exists p : prime p -> p <> 2 -> exists n, 1 <= n < p /\ ls n p = -1.
Proof.
  intros P N2. destruct (odd_prime_half p P N2) as (E & H1). set (h := (p - 1) / 2) in *.
  destruct (existsb (fun n => ls n p =? -1) (range (Z.to_nat (p - 1)))) eqn:X.
  - apply existsb_exists in X as (n & I & L). apply range_in in I. exists n. split; [lia|]. apply Z.eqb_eq. auto.
  - exfalso. assert (L : (length (range (Z.to_nat (p - 1))) <= Z.to_nat h)%nat); [|rewrite range_length in L; lia].
    apply (roots_bound p P (Z.to_nat h) (xh (Z.to_nat h))); [apply xh_length; auto|rewrite xh_last; intros D; apply Z.divide_pos_le in D; lia|apply range_nodup|].
    intros x I. pose proof I as J. apply range_in in I. split; [lia|]. rewrite xh_eval by auto. apply eqm_minus.
    assert (N : ls x p <> -1) by (intros Y; assert (Z : existsb (fun n => ls n p =? -1) (range (Z.to_nat (p - 1))) = true) by (apply existsb_exists; exists x; split; [auto|apply Z.eqb_eq; auto]); congruence).
    assert (N0 : ls x p <> 0) by (rewrite <- ls_zero by auto; intros D; apply Z.divide_pos_le in D; lia).
    destruct (ls_spec x p P N2) as ([T|[T|T]] & EQ); try congruence. rewrite T in EQ. symmetry. exact EQ.
Qed.
(** The least non-residue [n] has n (n - 1) < p. *)
Lemma least_nonresidue p : prime p -> p <> 2 -> exists n, 2 <= n < p /\ n * (n - 1) < p /\ ls n p = -1.
Proof.
  intros P N2. pose proof (prime_2 p P) as P2. destruct (nonresidue_exists p P N2) as (m & M & LM).
  assert (G : forall k, 0 <= k -> 1 <= k < p -> ls k p = -1 -> exists n, 2 <= n < p /\ ls n p = -1 /\ forall i, 1 <= i < n -> ls i p <> -1).
  { intros k K. pattern k. apply Zlt_0_ind; [|exact K]. clear k K. intros k IH _ K L.
    destruct (existsb (fun i => ls i p =? -1) (range (Z.to_nat (k - 1)))) eqn:X.
    - apply existsb_exists in X as (i & I & Li). apply range_in in I. apply Z.eqb_eq in Li. apply (IH i); [lia|lia|auto].
    - exists k. assert (k <> 1) by (intros ->; rewrite ls_one in L by auto; lia). split; [lia|]. split; [auto|]. intros i I Li.
      assert (Y : existsb (fun i => ls i p =? -1) (range (Z.to_nat (k - 1))) = true); [|congruence]. apply existsb_exists. exists i. split; [apply range_in; lia|apply Z.eqb_eq; auto]. }
  destruct (G m ltac:(lia) M LM) as (n & N & L & LE). exists n. split; [auto|]. split; [|auto].
  destruct (Z.lt_ge_cases (n * (n - 1)) p) as [|GE]; [auto|exfalso].
  set (q := p / n). pose proof (Z.div_mod p n ltac:(lia)) as DM. fold q in DM. pose proof (Z.mod_pos_bound p n ltac:(lia)) as B.
  assert (RZ : p mod n <> 0). { intros Z0. assert (D : (n | p)) by (exists q; lia). destruct (prime_divisors p P n D) as [?|[?|[?|?]]]; lia. }
  (* (q + 1) n = p + (n - p mod n) *)
  assert (Q1 : 1 <= q + 1 < n) by nia. set (r := n - p mod n). assert (R : 1 <= r < n) by (unfold r; lia).
  assert (E : eqm p ((q + 1) * n) r) by (apply eqm_minus, div_eqm; exists 1; unfold r; lia).
  apply (ls_eqm _ _ p P N2) in E. rewrite ls_mul, L in E by auto. pose proof (LE _ Q1) as L1. pose proof (LE _ R) as L2.
  assert (Z1 : ls (q + 1) p <> 0) by (rewrite <- ls_zero by auto; intros D; apply Z.divide_pos_le in D; lia).
  destruct (ls_spec (q + 1) p P N2) as ([T|[T|T]] & _), (ls_spec r p P N2) as ([T'|[T'|T']] & _); rewrite T, T' in *; lia.
Qed.

(** Trial division. *)
Fixpoint no_div (cnt : nat) (d n : Z) : bool :=
  match cnt with O => true | S c => negb (n mod d =? 0) && no_div c (d + 1) n end.
Lemma no_div_spec cnt : forall d n, 1 < d -> no_div cnt d n = true -> forall k, d <= k < d + Z.of_nat cnt -> ~ (k | n).
Proof.
  induction cnt as [|c IH]; intros d n D T k K; [lia|]. cbn [no_div] in T. apply andb_true_iff in T as (T1 & T2).
  destruct (Z.eq_dec k d) as [->|]; [|apply (IH (d + 1) n); auto; lia].
  intros X. apply Z.mod_divide in X; [|lia]. rewrite X in T1. discriminate.
Qed.
Definition prime_test (n : Z) : bool := (1 <? n) && no_div (Z.to_nat (Z.sqrt n - 1)) 2 n.
Lemma prime_test_sound n : prime_test n = true -> prime n.
Proof.
  intros T. apply andb_true_iff in T as (T1 & T2). apply Z.ltb_lt in T1. destruct (prime_dec n) as [P|NP]; [auto|exfalso].
  destruct (not_prime_divide n T1 NP) as (d & D & (k & K)). pose proof (Z.sqrt_spec n ltac:(lia)) as SQ. cbv zeta in SQ. pose proof (no_div_spec _ 2 n ltac:(lia) T2) as ND.
  assert (K2 : 2 <= k) by nia. destruct (Z.le_gt_cases d (Z.sqrt n)) as [L|L].
  - apply (ND d); [lia|]. exists k. lia.
  - assert (k <= Z.sqrt n) by nia. apply (ND k); [lia|]. exists d. lia.
Qed.
