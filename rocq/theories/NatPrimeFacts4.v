(** Facts about [NatPrime]: trial division, the whole test, [generate_prime]. *)
From Coq Require Import ZArith Znumtheory Zpow_facts List Lia Bool.
From Verif Require Import Words WordsFacts NatModel NatFacts NatFacts2 NatFacts3 NatFacts4 NatFacts5 Spec SpecInt SpecNum SpecPrime VecPrims VecFacts Karatsuba KaraFacts KaraFacts2
  NatPow NatPowFacts NatExp NatExpFacts NatExpFacts2 BigInt BigIntFacts BigIntFacts2 NumTheory NumTheory2 NumTheory3 NumTheory4 NumBig NumBigFacts NumBigFacts2
  NatPrime NatPrimeFacts NatPrimeFacts2 NatPrimeFacts3.
Import ListNotations.
Open Scope Z_scope.

(* ------------------------------------------------------------------ *)
(** * Remainders by words *)
Lemma lor_hi r e : 0 <= r -> 0 <= e < W -> Z.lor (r * W) e = r * W + e.
Proof. intros R E. apply (lor_shift_add r 32 e); [lia|auto]. Qed.
Lemma rem_u32_loop_spec rhs : 0 < rhs -> forall ws r, words_ok ws -> 0 <= r -> ws <> [] -> rem_u32_loop ws r rhs = (r * Wp (length ws) + nval (rev ws)) mod rhs.
Proof.
  intros H. assert (G : forall ws r, words_ok ws -> 0 <= r -> rem_u32_loop ws r rhs mod rhs = (r * Wp (length ws) + nval (rev ws)) mod rhs /\ 0 <= rem_u32_loop ws r rhs /\ (ws <> [] -> rem_u32_loop ws r rhs < rhs)).
  { induction ws as [|e ws IH]; intros r Wl R; cbn [rem_u32_loop].
    - cbn [rev nval length]. change (Wp 0) with 1. rewrite Z.mul_1_r, Z.add_0_r. split; [reflexivity|]. split; [auto|congruence].
    - apply words_ok_cons in Wl. destruct Wl as (We & Wl). rewrite lor_hi by auto. pose proof (Z.mod_pos_bound (r * W + e) rhs H) as MB.
      destruct (IH ((r * W + e) mod rhs) Wl ltac:(lia)) as (I1 & I2 & I3). rewrite I1. split; [|split; [auto|]].
      + cbn [rev length]. rewrite nval_app, rev_length. cbn [nval]. rewrite Wp_S. rewrite <- Z.add_mod_idemp_l, Z.mul_mod_idemp_l, Z.add_mod_idemp_l by lia. f_equal. ring.
      + intros _. destruct ws as [|e' ws]; [cbn [rem_u32_loop]; lia|apply I3; discriminate]. }
  intros ws r Wl R Nw. destruct (G ws r Wl R) as (G1 & G2 & G3). rewrite <- G1. symmetry. apply Z.mod_small. auto.
Qed.
Lemma rem_inner_u32_spec a rhs : words_ok a -> a <> [] -> 0 < rhs -> rem_inner_u32 a rhs = nval a mod rhs.
Proof.
  intros Wa Na H. unfold rem_inner_u32. rewrite rem_u32_loop_spec; [|auto|apply words_ok_rev; auto|lia|].
  - rewrite rev_involutive, Z.mul_0_l. reflexivity.
  - intros E. apply (f_equal (@rev Z)) in E. rewrite rev_involutive in E. auto.
Qed.
Lemma rem_u64_u32 rhs : 0 < rhs -> forall ws r, words_ok ws -> 0 <= r -> rem_u64_loop ws r rhs = rem_u32_loop ws r rhs.
Proof.
  intros H. assert (G : forall k ws r, (length ws <= k)%nat -> words_ok ws -> 0 <= r -> rem_u64_loop ws r rhs = rem_u32_loop ws r rhs).
  { induction k as [|k IH]; intros [|a [|b ws]] r L Wl R; try reflexivity; [cbn in L; lia|]. cbn [rem_u64_loop rem_u32_loop].
    apply words_ok_cons in Wl. destruct Wl as (Wx & Wl). apply words_ok_cons in Wl. destruct Wl as (Wy & Wl). rewrite (lor_hi r a) by (auto; lia).
    pose proof (Z.mod_pos_bound (r * W + a) rhs H). assert (0 <= r * W + a) by nia. rewrite (lor_hi (r * W + a)), (lor_hi ((r * W + a) mod rhs)) by (auto; lia). rewrite IH; [|cbn [length] in L; lia|auto|apply Z.mod_pos_bound; auto]. f_equal.
    rewrite <- (Z.add_mod_idemp_l ((r * W + a) * W)), <- (Z.mul_mod_idemp_l (r * W + a)), Z.add_mod_idemp_l by lia. reflexivity. }
  intros ws r Wl R. apply (G (length ws)); auto.
Qed.
Lemma rem_inner_u64_spec a rhs : words_ok a -> a <> [] -> 0 < rhs -> rem_inner_u64 a rhs = nval a mod rhs.
Proof. intros Wa Na H. unfold rem_inner_u64. rewrite rem_u64_u32 by (auto using words_ok_rev; lia). apply rem_inner_u32_spec; auto. Qed.

(* ------------------------------------------------------------------ *)
(** * Numbers below 128 *)
Definition small_ok (x : Z) : bool :=
  if negb (Z.land (2 ^ x) prime_bit_mask =? 0) then prime_test x else (x <? 2) || existsb (fun d => (x mod d =? 0) && (d <? x)) [2; 3; 5; 7; 11].
Lemma small_all : forallb small_ok (map Z.of_nat (seq 0 128)) = true.
Proof. vm_compute. reflexivity. Qed.
Lemma small_prime x : 0 <= x < 128 -> (negb (Z.land (2 ^ x) prime_bit_mask =? 0) = true <-> prime x).
Proof.
  intros X. pose proof small_all as A. rewrite forallb_forall in A. assert (I : In x (map Z.of_nat (seq 0 128))).
  { apply in_map_iff. exists (Z.to_nat x). split; [lia|]. apply in_seq. lia. }
  specialize (A x I). unfold small_ok in A. destruct (negb _).
  - split; [|auto]. intros _. apply prime_test_sound. exact A.
  - split; [discriminate|]. intros P. exfalso. pose proof (prime_ge_2 x P). apply orb_prop in A. destruct A as [A|A]; [apply Z.ltb_lt in A; lia|].
    apply existsb_exists in A. destruct A as (d & D1 & D2). apply andb_prop in D2. destruct D2 as (D2 & D3). apply Z.eqb_eq in D2. apply Z.ltb_lt in D3.
    assert (2 <= d) by (cbn [In] in D1; lia). assert (D : (d | x)) by (apply Z.mod_divide; lia). apply prime_divisors in D; [|auto]. lia.
Qed.

(* ------------------------------------------------------------------ *)
(** * Trial division *)
Definition trial_primes : list Z := [3; 5; 7; 11; 13; 17; 19; 23; 37; 29; 31; 41; 43; 47; 53].
Definition trial (ra rb : Z) : bool :=
  (ra mod 3 =? 0) || (ra mod 5 =? 0) || (ra mod 7 =? 0) || (ra mod 11 =? 0) || (ra mod 13 =? 0)
         || (ra mod 17 =? 0) || (ra mod 19 =? 0) || (ra mod 23 =? 0) || (ra mod 37 =? 0)
         || (rb mod 29 =? 0) || (rb mod 31 =? 0) || (rb mod 41 =? 0) || (rb mod 43 =? 0) || (rb mod 47 =? 0) || (rb mod 53 =? 0).
Lemma mod_factor a m q k : 0 < q -> m = q * k -> 0 < k -> (a mod m) mod q = a mod q.
Proof. intros Q -> K. rewrite Z.rem_mul_r by lia. rewrite (Z.mul_comm q), Z.mod_add, Z.mod_mod by lia. reflexivity. Qed.
Lemma trial_spec n : trial (n mod primes_a) (n mod primes_b) = existsb (fun q => n mod q =? 0) trial_primes.
Proof.
  unfold trial, trial_primes. cbn [existsb].
  rewrite (mod_factor n primes_a 3 (primes_a / 3)), (mod_factor n primes_a 5 (primes_a / 5)), (mod_factor n primes_a 7 (primes_a / 7)), (mod_factor n primes_a 11 (primes_a / 11)),
    (mod_factor n primes_a 13 (primes_a / 13)), (mod_factor n primes_a 17 (primes_a / 17)), (mod_factor n primes_a 19 (primes_a / 19)), (mod_factor n primes_a 23 (primes_a / 23)),
    (mod_factor n primes_a 37 (primes_a / 37)), (mod_factor n primes_b 29 (primes_b / 29)), (mod_factor n primes_b 31 (primes_b / 31)), (mod_factor n primes_b 41 (primes_b / 41)),
    (mod_factor n primes_b 43 (primes_b / 43)), (mod_factor n primes_b 47 (primes_b / 47)), (mod_factor n primes_b 53 (primes_b / 53)) by reflexivity.
  rewrite orb_false_r, !orb_assoc. reflexivity.
Qed.

Lemma pp_large checks n rounds g : 128 <= n -> probably_prime checks (of_Z n) rounds g =
  if negb (Z.odd n) then Ok (false, g) else if existsb (fun q => n mod q =? 0) trial_primes then Ok (false, g) else
  do '(m, g') <- miller_rabin checks (of_Z n) (rounds + 1) g; if m then do l <- lucas (of_Z n); Ok (l, g') else Ok (false, g').
Proof.
  intros N. pose proof (of_Z_canon n ltac:(lia)) as C. unfold probably_prime. rewrite is_nan_of_Z, nat_eq_u32_of_Z by (change W with (2 ^ 32); lia). destruct (Z.eqb_spec n 0); [lia|]. cbn [orb].
  assert (T : (length (of_Z n) =? 1)%nat && (hd 0 (of_Z n) <? 128) = false).
  { destruct (of_Z n) as [|x [|? ?]] eqn:E; try reflexivity. pose proof (of_Z_val n ltac:(lia)) as V. rewrite E in V. cbn [nval] in V. cbn [length hd]. apply andb_false_iff. right. apply Z.ltb_ge. lia. }
  rewrite T, low_even, of_Z_val by (auto; lia). destruct (negb (Z.odd n)); [reflexivity|].
  rewrite !rem_inner_u32_spec by (auto using canon_words, canon_nonnil; reflexivity). rewrite of_Z_val by lia. fold (trial (n mod primes_a) (n mod primes_b)). rewrite trial_spec. reflexivity.
Qed.
Lemma pp_small checks n rounds g : 0 <= n < 128 -> exists b, probably_prime checks (of_Z n) rounds g = Ok (b, g) /\ (b = true <-> prime n).
Proof.
  intros N. assert (WB : 128 < W) by reflexivity. unfold probably_prime. rewrite is_nan_of_Z, nat_eq_u32_of_Z by lia. destruct (Z.eqb_spec n 0) as [->|N0].
  - exists false. split; [reflexivity|]. split; [discriminate|]. intros P. apply prime_ge_2 in P. lia.
  - rewrite of_Z_small by lia. cbn [orb length Nat.eqb andb hd]. destruct (Z.ltb_spec n 128); [|lia]. eexists. split; [reflexivity|]. apply small_prime. lia.
Qed.
(** Even numbers and multiples of a prime up to 53. *)
Lemma pp_trial checks n rounds g q : 2 <= q <= 53 -> prime q -> (q | n) -> 0 <= n -> n <> q -> probably_prime checks (of_Z n) rounds g = Ok (false, g).
Proof.
  intros Q P D N NQ. assert (NP : ~ prime n). { intros PN. apply prime_divisors in D; [|auto]. lia. }
  destruct (Z.lt_ge_cases n 128) as [S0|B].
  - destruct (pp_small checks n rounds g ltac:(lia)) as (b & E & H). rewrite E. destruct b; [|reflexivity]. exfalso. apply NP, H. reflexivity.
  - rewrite pp_large by auto. destruct (Z.odd n) eqn:O; [|reflexivity]. cbn [negb]. assert (Q2 : q <> 2). { intros ->. destruct D as [z ->]. rewrite Z.odd_mul in O. rewrite andb_false_r in O. discriminate. }
    assert (existsb (fun q => n mod q =? 0) trial_primes = true) as ->; [|reflexivity]. apply existsb_exists. exists q. split; [|apply Z.eqb_eq, Z.mod_divide; [lia|auto]].
    assert (X : negb (Z.land (2 ^ q) prime_bit_mask =? 0) = true) by (apply small_prime; [lia|auto]).
    assert (A : forallb (fun x => implb (negb (Z.land (2 ^ x) prime_bit_mask =? 0) && (2 <? x)) (existsb (Z.eqb x) trial_primes)) (map Z.of_nat (seq 0 54)) = true) by (vm_compute; reflexivity).
    rewrite forallb_forall in A. specialize (A q). rewrite X in A. destruct (Z.ltb_spec 2 q); [|lia]. cbn [andb implb] in A.
    assert (I : In q (map Z.of_nat (seq 0 54))) by (apply in_map_iff; exists (Z.to_nat q); split; [lia|apply in_seq; lia]).
    specialize (A I). apply existsb_exists in A. destruct A as (y & Y1 & Y2). apply Z.eqb_eq in Y2. subst y. exact Y1.
Qed.
Lemma prime_no_trial n : prime n -> 128 <= n -> existsb (fun q => n mod q =? 0) trial_primes = false.
Proof.
  intros P N. destruct (existsb _ _) eqn:E; [|reflexivity]. exfalso. apply existsb_exists in E. destruct E as (q & Q1 & Q2). apply Z.eqb_eq in Q2.
  assert (2 <= q < 128) by (cbn [trial_primes In] in Q1; unfold trial_primes in Q1; cbn [In] in Q1; lia). assert (D : (q | n)) by (apply Z.mod_divide; lia). apply prime_divisors in D; [|auto]. lia.
Qed.

(* ------------------------------------------------------------------ *)
(** * The whole test on primes *)
Lemma shift_no_fermat n : 2 < n -> shift_ok (n - 1) -> no_fermat n.
Proof.
  intros N S k K E. assert (0 < k) by (destruct (Z.eq_dec k 0) as [->|]; [change (2 ^ (32 * 0)) with 1 in E; lia|lia]).
  destruct (S (32 * k) 1) as [H1|[H1|(H1 & _)]]; try lia; [reflexivity| |].
  - rewrite (Z.mul_comm 32 k), Z.div_mul, (Z.mul_comm 32 k) in H1 by lia. rewrite (Z.mul_comm 32 k) in E. lia.
  - apply H1. rewrite (Z.mul_comm 32 k). apply Z.mod_mul. lia.
Qed.
Lemma pp_prime checks n g vs rest : prime n -> 128 <= n -> shift_ok (n - 1) -> shift_ok (n + 1) -> early_nonsquare n ->
  stream_ok g -> draws n g vs rest -> Forall (fun v => v <> 0) vs -> forall rounds, length vs = (rounds + 1)%nat -> probably_prime checks (of_Z n) rounds g = Ok (true, rest).
Proof.
  intros P N S1 S2 NR G D NZ rounds L. pose proof (shift_no_fermat n ltac:(lia) S1) as NF. rewrite pp_large by auto. rewrite (n_odd n P N), prime_no_trial by auto. cbn [negb]. rewrite <- L.
  rewrite (mr_prime n ltac:(lia) (n_odd n P N) checks g vs rest P S1 D G NZ). cbn [bind]. rewrite lucas_prime; auto.
  destruct NR as [|(q & Q1 & Q2)]; [left; auto|]. right. exists q. split; [auto|]. apply ls_legendre; [auto|lia|]. rewrite <- square_mod_qr. exact Q2.
Qed.
Lemma pp_zero checks n g vs rest rounds : prime n -> 128 <= n -> shift_ok (n - 1) ->
  stream_ok g -> draws n g (vs ++ [0]) rest -> Forall (fun v => v <> 0) vs -> (length vs <= rounds)%nat -> probably_prime checks (of_Z n) rounds g = Ok (false, rest).
Proof.
  intros P N S1 G D NZ L. rewrite pp_large by auto. rewrite (n_odd n P N), prime_no_trial by auto. cbn [negb].
  rewrite (mr_zero n ltac:(lia) (n_odd n P N) checks g vs rest (rounds + 1) P S1 D G NZ ltac:(lia)). reflexivity.
Qed.

Lemma shift_word m : 0 < m < 2 ^ 32 -> shift_ok m.
Proof.
  intros M e s E E0 O. left. assert (0 < 2 ^ e) by (apply Z.pow_pos_nonneg; lia). assert (s <> 0) by (intros ->; discriminate O). assert (0 < s) by nia.
  apply (Z.pow_lt_mono_r_iff 2); [lia|lia|]. nia.
Qed.
Lemma nonresidue_small n : prime n -> 2 < n < 100000000 -> early_nonsquare n.
Proof.
  intros P N. destruct (least_nonresidue n P ltac:(lia)) as (q & Q1 & Q2 & Q3). right. exists q. split; [nia|]. rewrite square_mod_qr. apply ls_legendre; [auto|lia|exact Q3].
Qed.
