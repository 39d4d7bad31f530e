(** The Jacobi symbol and square roots modulo a prime: properties C42, C43. *)
From Coq Require Import ZArith Znumtheory List Lia Bool.
From Verif Require Import Words Spec WordsFacts NatModel NatFacts BigInt SpecInt BigIntFacts NumBig SpecNum NumTheory NumTheory2 NumTheory3 NumBigFacts NumBigFacts2.
Import ListNotations.
Open Scope Z_scope.

(** ** C42
    Full claim: for odd [b], [a.jacobi(b)] is the Jacobi symbol.  It is false:
    see [C42_jacobi_refuted].

    It holds for every [b] of one word, and for larger [b] when the shifts of
    the reduction are ones that [Nat] does right ([clean]); that hypothesis is
    what is missing.  The symbol of a negative [b] is (a/|b|), negated when [a]
    is negative too. *)
Theorem C42_jacobi_partial : forall x y a b, is_int x a -> is_int y b -> Z.odd b = true -> clean a (Z.abs b) ->
  exists v, b_jacobi x y = Ok (Some v) /\
    forall w, jacobi_symbol a (Z.abs b) w <-> v = (if (a <? 0) && (b <? 0) then -1 else 1) * w.
Proof.
  intros x y a b X Y O C. apply is_int_iff in X. apply is_int_iff in Y. subst x y. assert (B : b <> 0) by (intros ->; discriminate).
  assert (O' : Z.odd (Z.abs b) = true) by (destruct b; auto). destruct (factor_odd (Z.abs b) ltac:(lia) O') as (ps & F & E).
  eexists. split; [apply (b_jacobi_spec a b ps); auto|]. set (s := if (a <? 0) && (b <? 0) then -1 else 1). assert (S1 : s = 1 \/ s = -1) by (unfold s; destruct (_ && _); auto).
  intros w. split.
  - intros JS. destruct (jacobi_symbol_inv _ _ _ O' JS) as (qs & G & E' & ->).
    pose proof (b_jacobi_spec a b ps B F E C) as J1. pose proof (b_jacobi_spec a b qs B G E' C) as J2. rewrite J1 in J2. fold s in J2. congruence.
  - intros EQ. apply (jacobi_symbol_J _ _ _ ps); auto; [rewrite Forall_forall in *; intros p I; apply F; auto|]. destruct S1 as [->| ->]; lia.
Qed.
Theorem C42_jacobi_word : forall x y a b, is_int x a -> is_int y b -> Z.odd b = true -> 0 < b < 2 ^ 32 ->
  exists v, b_jacobi x y = Ok (Some v) /\ forall w, jacobi_symbol a b w <-> v = w.
Proof.
  intros x y a b X Y O B. change (2 ^ 32) with W in B. destruct (C42_jacobi_partial x y a b X Y O) as (v & E & S).
  { rewrite Z.abs_eq by lia. apply clean_small; [lia|auto]. }
  exists v. split; [auto|]. intros w. rewrite Z.abs_eq in S by lia. rewrite S. destruct (Z.ltb_spec b 0); [lia|]. rewrite andb_false_r, Z.mul_1_l. reflexivity.
Qed.
(** The symbol exists and is unique, so the two theorems pin the result down. *)
Theorem C42_symbol_exists : forall a b, 0 < b -> Z.odd b = true -> exists v, jacobi_symbol a b v.
Proof.
  intros a b B O. destruct (factor_odd b B O) as (ps & F & E). exists (J a ps). apply (jacobi_symbol_J _ _ _ ps); auto. rewrite Forall_forall in *. intros p I. apply F. auto.
Qed.
(** No symbol is returned exactly for NaN and a zero [b]. *)
Theorem C42_none : forall x y, b_is_nan x || b_is_nan y || b_eq_u32 y 0 = true -> b_jacobi x y = Ok None.
Proof. intros x y H. unfold b_jacobi. rewrite H. reflexivity. Qed.
(** (2^32 / 2^32 + 1) is 1, the symbol of a square; the code panics on it. *)
Theorem C42_jacobi_refuted : ~ (forall a b, 0 < b -> Z.odd b = true -> exists v, b_jacobi (zint a) (zint b) = Ok (Some v)).
Proof. intros H. destruct (H (2 ^ 32) (2 ^ 32 + 1) ltac:(lia) eq_refl) as (v & E). vm_compute in E. discriminate E. Qed.
Example C42_case : b_jacobi (zint 1001) (zint 9907) = Ok (Some (-1)) /\ b_jacobi (zint (-7)) (zint (-15)) = Ok (Some (-1)) /\
  b_jacobi (zint (-15)) (zint 5) = Ok (Some 0) /\ b_jacobi (zint (10 ^ 30 + 57)) (zint (10 ^ 20 + 39)) = Ok (Some (-1)) /\
  jacobi_symbol 2 15 1 /\ clean (10 ^ 20) 9907.
Proof.
  split; [vm_compute; reflexivity|]. split; [vm_compute; reflexivity|]. split; [vm_compute; reflexivity|]. split; [vm_compute; reflexivity|]. split.
  - assert (P3 : prime 3) by (apply prime_test_sound; reflexivity). assert (P5 : prime 5) by (apply prime_test_sound; reflexivity).
    exists [3; 5], [-1; -1]. split; [constructor; [auto|constructor; [auto|constructor]]|]. split; [reflexivity|]. split; [|reflexivity].
    constructor; [|constructor; [|constructor]]; apply legendre_ls; try reflexivity; split; auto; lia.
  - apply clean_small; [lia|reflexivity].
Qed.

(** ** C43
    Full claim: for an odd prime [p], [a.mod_sqrt(p)] is a square root of [a]
    modulo [p], or [None] when there is none.  It is false: see
    [C43_mod_sqrt_refuted] and [C43_debug_refuted].

    It holds for primes below 2^32 in a release build ([C43_mod_sqrt_word]).
    For larger primes the shifts of the Jacobi symbol and, when p = 1 modulo 8,
    of p - 1 must be ones that [Nat] does right, and some non-residue must fit
    a word; with overflow checks [a] must not be 1 modulo [p]. *)
Definition sqrt_result (p a : Z) (r : res (option bigint)) : Prop :=
  (~ square_mod p a /\ r = Ok None) \/
  (exists z x, r = Ok (Some z) /\ is_int z x /\ 0 <= x < p /\ (p | x * x - a)).

Theorem C43_mod_sqrt_partial : forall p, prime p -> p <> 2 ->
  (p mod 8 = 1 -> (forall e s, p - 1 = s * 2 ^ e -> 0 <= e -> Z.odd s = true -> shr_exact (p - 1) e) /\
                  (p < 2 ^ 63 \/ exists n, 0 < n < 2 ^ 32 /\ ~ square_mod p n)) ->
  exists N, forall fuel, (N <= fuel)%nat -> forall checks x y a, is_int x a -> is_int y p -> clean a p -> checks = false \/ a mod p <> 1 ->
  sqrt_result p a (b_mod_sqrt fuel checks x y).
Proof.
  intros p P P2 T. assert (R : exists N, forall fuel, (N <= fuel)%nat -> tonelli_ready p fuel).
  { destruct (Z.eq_dec (p mod 8) 1) as [M|M]; [|exists O; intros fuel _ M'; congruence]. destruct (T M) as (T1 & T2). pose proof (prime_2 p P) as PP.
    assert (N : exists n0, 2 <= n0 < W /\ ~ is_qr p n0).
    { destruct T2 as [L|(n & B & NQ)].
      - destruct (least_nonresidue p P P2) as (n & B & S & L1). exists n. split; [split; [lia|]|apply ls_legendre; auto]. change (2 ^ 63) with 9223372036854775808 in L. nia.
      - rewrite square_mod_qr in NQ. change (2 ^ 32) with W in B. exists n. split; [|auto]. assert (n <> 1); [|lia]. intros ->. apply NQ. exists 1. reflexivity. }
    destruct N as (n0 & N0 & NQ). destruct (odd_split (p - 1) ltac:(lia)) as (s & e & E0 & S0 & O & E).
    exists (Nat.max (S (Z.to_nat e)) (Z.to_nat n0)). intros fuel F _. exists e, s, n0.
    split; [auto|]. split; [auto|]. split; [auto|]. split; [apply (T1 e s); auto|]. split; [auto|]. split; [auto|]. lia. }
  destruct R as (N & R). exists N. intros fuel F checks x y a X Y C CH. apply is_int_iff in X. apply is_int_iff in Y. subst x y. unfold sqrt_result. rewrite square_mod_qr.
  destruct (Zdivide_dec p a) as [D|D].
  - right. exists (zint 0), 0. split; [apply b_mod_sqrt_zero; auto|]. split; [apply is_int_zint|]. pose proof (prime_2 p P). split; [lia|].
    destruct D as [k ->]. exists (- k). ring.
  - destruct (ls_legendre a p P P2) as (L0 & L1 & L2). destruct (ls_spec a p P P2) as ([TR|[TR|TR]] & _).
    + exfalso. apply D, L0, TR.
    + right. destruct (b_mod_sqrt_root p P P2 fuel checks a C D) as (z & E & B & S); [apply L1; auto|auto|apply R; auto|].
      exists (zint z), z. split; [auto|]. split; [apply is_int_zint|]. split; [lia|]. apply eqm_div, eqm_minus. exact S.
    + left. split; [apply L2; auto|]. apply b_mod_sqrt_none; auto. apply L2. auto.
Qed.
Theorem C43_mod_sqrt_word : forall p, prime p -> p <> 2 -> p < 2 ^ 32 ->
  exists N, forall fuel, (N <= fuel)%nat -> forall x y a, is_int x a -> is_int y p -> sqrt_result p a (b_mod_sqrt fuel false x y).
Proof.
  intros p P P2 B. pose proof (prime_2 p P). destruct (C43_mod_sqrt_partial p P P2) as (N & H1).
  { intros _. split; [|left; apply Z.lt_trans with (2 ^ 32); [auto|reflexivity]]. intros e s E E0 O. left. apply (Z.pow_lt_mono_r_iff 2); [lia|lia|].
    assert (0 < 2 ^ e) by (apply Z.pow_pos_nonneg; lia). assert (0 < s) by nia. assert (2 ^ e <= p - 1) by nia. lia. }
  exists N. intros fuel F x y a X Y. apply H1; auto. apply clean_small; [change (2 ^ 32) with W in B; lia|apply odd_prime_odd; split; auto].
Qed.
(** 2^32 is the square of 2^16, but the code panics on it modulo the prime
    2^32 + 15. *)
Theorem C43_mod_sqrt_refuted : ~ (forall p a, prime p -> p <> 2 -> exists fuel, sqrt_result p a (b_mod_sqrt fuel false (zint a) (zint p))).
Proof.
  intros H. destruct (H (2 ^ 32 + 15) (2 ^ 32)) as (fuel & [(_ & E)|(z & x & E & _)]).
  - apply prime_test_sound. vm_compute. reflexivity.
  - lia.
  - unfold b_mod_sqrt in E. assert (J : b_jacobi (zint (2 ^ 32)) (zint (2 ^ 32 + 15)) = Panic) by (vm_compute; reflexivity). rewrite J in E. discriminate E.
  - unfold b_mod_sqrt in E. assert (J : b_jacobi (zint (2 ^ 32)) (zint (2 ^ 32 + 15)) = Panic) by (vm_compute; reflexivity). rewrite J in E. discriminate E.
Qed.
(** With overflow checks the root of 1 panics modulo the prime 2^34 + 79. *)
Theorem C43_debug_refuted : ~ (forall p a, prime p -> p <> 2 -> 0 < a < 2 ^ 31 -> exists fuel, sqrt_result p a (b_mod_sqrt fuel true (zint a) (zint p))).
Proof.
  intros H. assert (E : forall fuel, b_mod_sqrt fuel true (zint 1) (zint (2 ^ 34 + 79)) = Panic) by (intros fuel; vm_compute; reflexivity).
  destruct (H (2 ^ 34 + 79) 1) as (fuel & [(_ & E')|(z & x & E' & _)]).
  - apply prime_test_sound. vm_compute. reflexivity.
  - lia.
  - lia.
  - rewrite E in E'. discriminate E'.
  - rewrite E in E'. discriminate E'.
Qed.
Example C43_case : b_mod_sqrt 10 true (zint 5) (zint 11) = Ok (Some (zint 4)) /\ b_mod_sqrt 10 true (zint (-4)) (zint 29) = Ok (Some (zint 24)) /\
  b_mod_sqrt 10 false (zint 2) (zint 97) = Ok (Some (zint 83)) /\ b_mod_sqrt 10 false (zint 5) (zint 97) = Ok None /\ prime 97 /\
  b_mod_sqrt 20 false (zint (3 ^ 50)) (zint 65537) = Ok (Some (zint 6894)).
Proof.
  split; [vm_compute; reflexivity|]. split; [vm_compute; reflexivity|]. split; [vm_compute; reflexivity|]. split; [vm_compute; reflexivity|].
  split; [apply prime_test_sound; reflexivity|]. vm_compute; reflexivity.
Qed.

Print Assumptions C42_jacobi_partial.
Print Assumptions C42_jacobi_word.
Print Assumptions C42_symbol_exists.
Print Assumptions C42_none.
Print Assumptions C42_jacobi_refuted.
Print Assumptions C43_mod_sqrt_partial.
Print Assumptions C43_mod_sqrt_word.
Print Assumptions C43_mod_sqrt_refuted.
Print Assumptions C43_debug_refuted.
