(** Pocklington's criterion: a certificate for the primality of numbers too
    large for trial division. *)
From Coq Require Import ZArith List Bool Lia Znumtheory Zpow_facts.
From Verif Require Import NumTheory.
Open Scope Z_scope.

(** Powers with exponents m and k that are 1 give 1 for the gcd. *)
Lemma pow_gcd p a m k : 0 < m -> 0 < k -> eqm p (a ^ m) 1 -> eqm p (a ^ k) 1 -> eqm p (a ^ Z.gcd m k) 1.
Proof.
  intros M K E1 E2. destruct (Z.gcd_bezout m k _ eq_refl) as (u & v & B).
  pose proof (Z.gcd_nonneg m k) as G0.
  set (j := Z.abs u + Z.abs v). assert (J0 : 0 <= j) by (unfold j; lia).
  assert (U0 : 0 <= u + j * k) by (unfold j; nia). assert (V0 : 0 <= - v + j * m) by (unfold j; nia).
  assert (EQ : m * (u + j * k) = k * (- v + j * m) + Z.gcd m k) by lia.
  assert (P1 : eqm p (a ^ (m * (u + j * k))) 1).
  { rewrite Z.pow_mul_r by lia. replace 1 with (1 ^ (u + j * k)) by (apply Z.pow_1_l; lia). apply eqm_pow; assumption. }
  assert (P2 : eqm p (a ^ (k * (- v + j * m))) 1).
  { rewrite Z.pow_mul_r by lia. replace 1 with (1 ^ (- v + j * m)) by (apply Z.pow_1_l; lia). apply eqm_pow; assumption. }
  assert (KV : 0 <= k * (- v + j * m)) by (apply Z.mul_nonneg_nonneg; lia).
  rewrite EQ, Z.pow_add_r in P1 by assumption. change (p | a ^ (k * (- v + j * m)) * a ^ Z.gcd m k - 1) in P1. change (p | a ^ (k * (- v + j * m)) - 1) in P2.
  change (p | a ^ Z.gcd m k - 1). destruct P1 as [c1 P1], P2 as [c2 P2]. exists (c1 - c2 * a ^ Z.gcd m k).
  replace (a ^ Z.gcd m k - 1) with (a ^ (k * (- v + j * m)) * a ^ Z.gcd m k - 1 - (a ^ (k * (- v + j * m)) - 1) * a ^ Z.gcd m k) by ring. rewrite P1, P2. ring.
Qed.

(** One prime power of the factored part divides p - 1. *)
Lemma pocklington_factor n p a q e m : prime p -> (p | n) -> prime q -> 0 < e -> 0 < m -> n - 1 = q ^ e * m ->
  eqm n (a ^ (n - 1)) 1 -> Z.gcd (a ^ ((n - 1) / q) - 1) n = 1 -> (q ^ e | p - 1).
Proof.
  intros P PN Q E0 M0 EN A1 AG. pose proof (prime_ge_2 p P) as P2. pose proof (prime_ge_2 q Q) as Q2.
  assert (QE : 0 < q ^ e) by (apply Z.pow_pos_nonneg; lia). assert (N1 : 0 < n - 1) by nia.
  assert (AP : eqm p (a ^ (n - 1)) 1) by (change (p | a ^ (n - 1) - 1); apply Z.divide_trans with n; [exact PN|exact A1]).
  assert (ND : ~ (p | a)).
  { intros D. assert (D1 : (p | a ^ (n - 1))). { replace (n - 1) with (Z.succ (n - 2)) by lia. rewrite Z.pow_succ_r by lia. apply Z.divide_mul_l. exact D. }
    assert (D2 : (p | 1)). { replace 1 with (a ^ (n - 1) - (a ^ (n - 1) - 1)) by ring. apply Z.divide_sub_r; [exact D1|exact AP]. }
    apply Z.divide_1_r_nonneg in D2; lia. }
  pose proof (pow_gcd p a (n - 1) (p - 1) N1 ltac:(lia) AP (fermat p a P ND)) as AD.
  pose proof (Z.gcd_divide_l (n - 1) (p - 1)) as DL. pose proof (Z.gcd_divide_r (n - 1) (p - 1)) as DR.
  set (d := Z.gcd (n - 1) (p - 1)) in *. assert (D0 : 0 < d). { pose proof (Z.gcd_nonneg (n - 1) (p - 1)) as G. destruct (Z.eq_dec d 0) as [Z0|]; [apply Z.gcd_eq_0_l in Z0; lia|fold d in G; lia]. }
  destruct DL as [c DL]. assert (C0 : 0 < c) by nia.
  destruct (Zdivide_dec q c) as [QC|QC].
  - exfalso. destruct QC as [c' ->]. assert (C1 : 0 < c') by nia.
    assert (X : (n - 1) / q = c' * d). { rewrite DL. replace (c' * q * d) with (c' * d * q) by ring. apply Z.div_mul. lia. }
    rewrite X in AG. assert (D1 : (p | a ^ (c' * d) - 1)).
    { change (eqm p (a ^ (c' * d)) 1). replace (c' * d) with (d * c') by ring. rewrite Z.pow_mul_r by lia. replace 1 with (1 ^ c') by (apply Z.pow_1_l; lia). apply eqm_pow; [lia|exact AD]. }
    pose proof (Z.gcd_greatest _ _ _ D1 PN) as D2. rewrite AG in D2. apply Z.divide_1_r_nonneg in D2; lia.
  - apply Z.divide_trans with d; [|exact DR]. apply Gauss with c; [exists m; lia|].
    apply rel_prime_sym. apply rel_prime_Zpower_r; [lia|]. apply rel_prime_sym, prime_rel_prime; assumption.
Qed.

Lemma least_factor n : 1 < n -> ~ prime n -> exists p, prime p /\ (p | n) /\ p * p <= n.
Proof.
  cut (forall x, 0 <= x -> 1 < x -> ~ prime x -> exists p, prime p /\ (p | x) /\ p * p <= x); [intros C N; apply C; lia|]. clear n.
  apply (Zlt_0_ind (fun x => 1 < x -> ~ prime x -> exists p, prime p /\ (p | x) /\ p * p <= x)). intros n IH _ N NP.
  destruct (not_prime_divide n N NP) as (k & K1 & [j J]). assert (J1 : 1 < j) by nia.
  assert (W : exists h, 1 < h < n /\ (h | n) /\ h * h <= n).
  { destruct (Z.le_ge_cases j k); [exists j; split; [nia|]; split; [exists k; lia|nia]|exists k; split; [nia|]; split; [exists j; lia|nia]]. }
  destruct W as (h & H1 & HD & HS). destruct (prime_dec h) as [PH|PH]; [exists h; auto|].
  destruct (IH h ltac:(lia) ltac:(lia) PH) as (p & PP & PD & PS). pose proof (prime_ge_2 p PP). exists p. split; [exact PP|]. split; [apply Z.divide_trans with h; assumption|nia].
Qed.

(** Two prime powers are enough here. *)
Lemma pocklington2 n a q1 e1 q2 e2 m : 1 < n -> prime q1 -> prime q2 -> q1 <> q2 -> 0 < e1 -> 0 < e2 -> 0 < m -> n - 1 = q1 ^ e1 * q2 ^ e2 * m ->
  eqm n (a ^ (n - 1)) 1 -> Z.gcd (a ^ ((n - 1) / q1) - 1) n = 1 -> Z.gcd (a ^ ((n - 1) / q2) - 1) n = 1 -> n < (q1 ^ e1 * q2 ^ e2) * (q1 ^ e1 * q2 ^ e2) -> prime n.
Proof.
  intros N Q1 Q2 NE E1 E2 M EN A1 G1 G2 B. destruct (prime_dec n) as [|NP]; [assumption|exfalso].
  destruct (least_factor n N NP) as (p & P & PD & PS). pose proof (prime_ge_2 p P) as P2. pose proof (prime_ge_2 q1 Q1). pose proof (prime_ge_2 q2 Q2).
  assert (X1 : 0 < q1 ^ e1) by (apply Z.pow_pos_nonneg; lia). assert (X2 : 0 < q2 ^ e2) by (apply Z.pow_pos_nonneg; lia).
  pose proof (pocklington_factor n p a q1 e1 (q2 ^ e2 * m) P PD Q1 E1 ltac:(nia) ltac:(lia) A1 G1) as D1.
  pose proof (pocklington_factor n p a q2 e2 (q1 ^ e1 * m) P PD Q2 E2 ltac:(nia) ltac:(lia) A1 G2) as D2.
  assert (R : rel_prime (q1 ^ e1) (q2 ^ e2)).
  { apply rel_prime_Zpower; [lia|lia|]. apply prime_rel_prime; [exact Q1|]. intros D. apply prime_div_prime in D; auto. }
  assert (D3 : (q1 ^ e1 * q2 ^ e2 | p - 1)).
  { destruct D1 as [c D1]. destruct (Gauss (q2 ^ e2) (q1 ^ e1) c) as [k K]; [destruct D2 as [k D2]; exists k; rewrite <- D2, D1; ring|apply rel_prime_sym; exact R|].
    exists k. rewrite D1, K. ring. }
  apply Z.divide_pos_le in D3; [|lia]. set (F := q1 ^ e1 * q2 ^ e2) in *. assert (F * F <= (p - 1) * (p - 1)) by (apply Z.mul_le_mono_nonneg; lia). nia.
Qed.
