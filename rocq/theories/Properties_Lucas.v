(** Which numbers the primality test accepts: C101. *)
From Coq Require Import ZArith Znumtheory Zpow_facts List Lia Bool.
From Verif Require Import Words WordsFacts NatModel NatFacts NatFacts2 NatFacts5 Spec SpecInt SpecNum SpecPrime SpecRabin SpecLucas NumTheory NumTheory5 NumBigFacts
  NatPrime NatPrimeFacts NatPrimeFacts2 NatPrimeFacts3 NatPrimeFacts4 NatPrimeFacts5 NatPrimeFacts6 LucasFacts Properties_Prime NumTheory3 NumBigFacts2 Properties_NumBig.
Import ListNotations.
Open Scope Z_scope.

(** The published conditions: no prime up to 53 divides n, every base drawn
    is a strong base, n passes the extra strong Lucas test. *)
Definition bpsw_conditions (n : Z) (vs : list Z) : Prop :=
  (forall q, prime q -> q <= 53 -> ~ (q | n)) /\ Forall (strong_base n) vs /\ lucas_probable n.

Lemma no_trial n : Z.odd n = true -> existsb (fun q => n mod q =? 0) trial_primes = false -> (forall q, prime q -> q <= 53 -> ~ (q | n)).
Proof.
  intros O T q Q B D. destruct (Z.eq_dec q 2) as [->|Q2]; [destruct D as [z ->]; rewrite Z.odd_mul, andb_false_r in O; discriminate O|].
  assert (existsb (fun q => n mod q =? 0) trial_primes = true); [|congruence]. apply existsb_exists. exists q. pose proof (prime_ge_2 q Q). split; [|apply Z.eqb_eq, Z.mod_divide; [lia|auto]].
  assert (A : forallb (fun x => implb (negb (Z.land (2 ^ x) prime_bit_mask =? 0) && (2 <? x)) (existsb (Z.eqb x) trial_primes)) (map Z.of_nat (seq 0 54)) = true) by (vm_compute; reflexivity).
  rewrite forallb_forall in A. specialize (A q ltac:(apply in_map_iff; exists (Z.to_nat q); split; [lia|apply in_seq; lia])).
  apply (small_prime q ltac:(lia)) in Q. rewrite Q in A. destruct (Z.ltb_spec 2 q); [|lia]. cbn [andb implb] in A. apply existsb_exists in A. destruct A as (y & I & E). apply Z.eqb_eq in E. congruence.
Qed.
Lemma trial_hit n : 0 < n -> existsb (fun q => n mod q =? 0) trial_primes = true -> exists q, prime q /\ q <= 53 /\ (q | n).
Proof.
  intros N T. apply existsb_exists in T. destruct T as (q & I & E). apply Z.eqb_eq in E.
  assert (B : 2 <= q <= 53) by (unfold trial_primes in I; cbn [In] in I; lia). exists q. split; [|split; [lia|apply Z.mod_divide; lia]].
  apply small_prime; [lia|]. unfold trial_primes in I. cbn [In] in I. repeat (destruct I as [<-|I]; [reflexivity|]). destruct I.
Qed.

(* ------------------------------------------------------------------ *)
(** * C101 *)

(** The Lucas part on its own ([lucas] is private; it is called on odd numbers
    that no prime up to 53 divides). *)
Theorem C101_lucas_partial : forall x n, represents x n -> 128 <= n -> Z.odd n = true -> ~ (3 | n) -> no_fermat n -> shift_ok (n + 1) ->
  exists b, lucas x = Ok b /\ (b = true <-> lucas_probable n).
Proof. intros x n (C & V) N O N3 NF S2. rewrite (of_Z_unique x n C V). apply lucas_any; auto. Qed.

(** The public test.  Missing: the numbers on which C08 says the shifts
    are wrong ([shift_ok]). *)
Theorem C101_accepts_partial : forall checks x n rounds g vs rest, represents x n -> 128 <= n -> shift_ok (n - 1) -> shift_ok (n + 1) ->
  stream_ok g -> draws n g vs rest -> length vs = S rounds ->
  exists b g', probably_prime checks x rounds g = Ok (b, g') /\ (b = true <-> bpsw_conditions n vs) /\ (b = true -> g' = rest).
Proof.
  intros checks x n rounds g vs rest (C & V) N S1 S2 G D L. pose proof (shift_no_fermat n ltac:(lia) S1) as NF. rewrite (of_Z_unique x n C V), pp_large by auto. unfold bpsw_conditions.
  destruct (Z.odd n) eqn:O; cbn [negb].
  2:{ exists false, g. split; [reflexivity|]. split; [|discriminate]. split; [discriminate|]. intros (T & _). exfalso. apply (T 2); [exact Znumtheory.prime_2|lia|]. exists (n / 2). pose proof (Z.div_mod n 2 ltac:(lia)) as DM. rewrite Zmod_odd, O in DM. lia. }
  destruct (existsb _ _) eqn:T.
  { exists false, g. split; [reflexivity|]. split; [|discriminate]. split; [discriminate|]. intros (A & _). exfalso. destruct (trial_hit n ltac:(lia) T) as (q & Q1 & Q2 & Q3). exact (A q Q1 Q2 Q3). }
  pose proof (no_trial n O T) as TR. assert (N3 : ~ (3 | n)) by (apply TR; [exact prime_3|lia]).
  destruct (mr_exact checks n g vs rest ltac:(lia) O S1 G D) as (b & g' & E & H & R). replace (rounds + 1)%nat with (length vs) by lia. rewrite E. cbn [bind]. destruct b.
  - destruct (lucas_any n N O N3 NF S2) as (l & L1 & L2). rewrite L1. cbn [bind]. exists l, g'. split; [reflexivity|]. split; [|auto]. rewrite L2. assert (FS : Forall (strong_base n) vs) by (apply H; reflexivity). tauto.
  - exists false, g'. split; [reflexivity|]. split; [|discriminate]. split; [discriminate|]. intros (_ & B & _). apply H in B. discriminate B.
Qed.

Lemma shift_ok_word m : 0 < m < 2 ^ 32 -> shift_ok m.
Proof.
  intros M e s E E0 O. left. apply (Z.pow_lt_mono_r_iff 2); [lia|lia|]. assert (0 < 2 ^ e) by (apply Z.pow_pos_nonneg; lia). assert (s <> 0) by (intros ->; discriminate O). nia.
Qed.
(** Numbers of one word: no further hypothesis. *)
Theorem C101_word : forall checks x n rounds g vs rest, represents x n -> 128 <= n < 2 ^ 32 -> stream_ok g -> draws n g vs rest -> length vs = S rounds ->
  exists b g', probably_prime checks x rounds g = Ok (b, g') /\ (b = true <-> bpsw_conditions n vs) /\ (b = true -> g' = rest).
Proof.
  intros checks x n rounds g vs rest R N G D L. destruct (Z.eq_dec n (2 ^ 32 - 1)) as [E|E].
  - destruct R as (C & V). rewrite (of_Z_unique x n C V). assert (D3 : (3 | n)) by (exists 1431655765; rewrite E; reflexivity).
    rewrite (pp_trial checks n rounds g 3 ltac:(lia) prime_3 D3) by lia. exists false, g. split; [reflexivity|]. split; [|discriminate]. split; [discriminate|]. intros (T & _). destruct (T 3 prime_3 ltac:(lia) D3).
  - apply C101_accepts_partial; auto; [lia|apply shift_ok_word; lia|apply shift_ok_word; lia].
Qed.
(** 10877 = 73 * 149 passes the Lucas part; with the base 1 drawn it is
    accepted, with the base 2 it is not.  42799 = 127 * 337 is a strong
    pseudoprime to the base 2 that the Lucas part rejects. *)
Example C101_case :
  lucas [10877] = Ok true /\ probably_prime true [10877] 0 [Some 1] = Ok (true, []) /\ probably_prime true [10877] 0 [Some 2] = Ok (false, []) /\
  miller_rabin true [42799] 1 [Some 2] = Ok (true, []) /\ lucas [42799] = Ok false /\ probably_prime true [42799] 0 [Some 2] = Ok (false, []) /\
  first_parameter 10877 3 /\ draws 42799 [Some 2] [2] [].
Proof.
  do 6 (split; [vm_compute; reflexivity|]). split.
  - split; [lia|]. split; [intros; lia|]. left. split; [lia|]. assert (P1 : prime 73) by (apply prime_test_sound; vm_compute; reflexivity). assert (P2 : prime 149) by (apply prime_test_sound; vm_compute; reflexivity).
    apply (jacobi_symbol_J _ _ _ [73; 149]); [reflexivity|auto|reflexivity|vm_compute; reflexivity].
  - apply draws_cons with []; [|constructor]. apply (draw_hit 42799 [Some 2] [2] []); [exists [], 2; split; reflexivity|reflexivity|reflexivity].
Qed.
Print Assumptions C101_lucas_partial.
Print Assumptions C101_accepts_partial.
Print Assumptions C101_word.
