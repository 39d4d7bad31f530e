(** The error bound of the primality test and the uniformity of random: C81, C23. *)
From Coq Require Import ZArith Znumtheory Zpow_facts List Lia Bool.
From Verif Require Import Words WordsFacts NatModel NatFacts NatFacts2 NatFacts5 Spec SpecInt SpecNum SpecPrime SpecRabin NumTheory NumTheory5 NumBigFacts
  NatPrime NatPrimeFacts NatPrimeFacts2 NatPrimeFacts3 NatPrimeFacts4 NatPrimeFacts5 NatPrimeFacts6 Properties_Prime.
Import ListNotations.
Open Scope Z_scope.

(* ------------------------------------------------------------------ *)
(** * C23: random is uniform *)
Lemma takes_all l : l <> [] -> takes (map Some l) l [].
Proof.
  intros Nl. exists (map Some (removelast l)), (last l 0). split.
  - rewrite (last_split l Nl) at 1. rewrite map_app. reflexivity.
  - rewrite (last_split l Nl) at 1. f_equal. induction (removelast l) as [|a r IH]; [reflexivity|]. cbn [map somes flat_map app]. f_equal. exact IH.
Qed.
Lemma stream_words l : words_ok l -> stream_ok (map Some l).
Proof. intros Wl. apply Forall_forall. intros o O. apply in_map_iff in O. destruct O as (w & <- & I). unfold words_ok in Wl. rewrite Forall_forall in Wl. apply Wl. exact I. Qed.

(** The first group of words gives [v] for exactly the groups of value
    v + q * 2^bits, q below 2^(32 * words - bits): the number of groups is the
    same for every value below the bound. *)
Theorem C23_uniform : forall x n v ws, represents x n -> 0 <= v < n -> words_ok ws -> length ws = length x ->
  (exists r, nat_random x (map Some ws) = Ok (r, []) /\ has_value r v) <->
  exists q, 0 <= q < 2 ^ (32 * Z.of_nat (length x) - bit_length n) /\ nval ws = v + q * 2 ^ bit_length n.
Proof.
  intros x n v ws R B Wd L. pose proof R as (C & V). assert (N : 0 < nval x) by lia. destruct (canon_bits x C N) as (E1 & E2 & Bb). rewrite V in *. rewrite E1 in Bb.
  assert (Nl : ws <> []) by (pose proof (canon_len_pos x C); intros E; rewrite E in L; cbn in L; lia).
  assert (P : 0 < 2 ^ bit_length n) by (apply Z.pow_pos_nonneg; [lia|unfold bit_length; pose proof (Z.log2_nonneg n); lia]).
  assert (NB : n < 2 ^ bit_length n). { unfold bit_length. destruct (Z.log2_spec n ltac:(lia)) as (_ & L2). exact L2. }
  pose proof (nval_bound ws Wd) as NW. rewrite Wp_pow2, L in NW.
  assert (B0 : 0 <= bit_length n) by (unfold bit_length; pose proof (Z.log2_nonneg n); lia).
  assert (SP : 2 ^ (32 * Z.of_nat (length x)) = 2 ^ (32 * Z.of_nat (length x) - bit_length n) * 2 ^ bit_length n) by (rewrite <- Z.pow_add_r by lia; f_equal; lia).
  split.
  - intros (r & E & (_ & Vr)). pose proof (C23_range x n (map Some ws) R ltac:(lia) (stream_words ws Wd)) as RG. rewrite E in RG. destruct RG as (v' & (_ & Vr') & _ & D). assert (v' = v) by congruence. subst v'.
    inversion D as [? ws' ? T L' V'|? ws' g'' ? ? T L' V' D']; subst.
    + destruct (takes_fun _ _ _ _ _ T (takes_all ws Nl) ltac:(lia)) as (-> & _). exists (nval ws / 2 ^ bit_length (nval x)). split.
      * split; [apply Z.div_pos; lia|]. apply Z.div_lt_upper_bound; [lia|]. lia.
      * pose proof (Z.div_mod (nval ws) (2 ^ bit_length (nval x)) ltac:(lia)). lia.
    + destruct (takes_fun _ _ _ _ _ T (takes_all ws Nl) ltac:(lia)) as (_ & ->). exfalso. inversion D' as [? ? ? T2|? ? ? ? ? T2]; subst; apply takes_nil in T2; exact T2.
  - intros (q & Q & E). assert (M : nval ws mod 2 ^ bit_length n = v) by (rewrite E, Z.mod_add, Z.mod_small by lia; reflexivity).
    assert (D : draw n (map Some ws) v []). { pose proof (draw_hit n (map Some ws) ws [] (takes_all ws Nl) ltac:(congruence) ltac:(rewrite M; lia)) as X. rewrite M in X. exact X. }
    destruct (C23_random x n _ v [] R ltac:(lia) (stream_words ws Wd) D) as (r & R1 & R2 & _). exists r. auto.
Qed.
Example C23_uniform_case : nat_random [0; 6] (map Some [5; 3]) = Ok ([5; 3], []) /\ nat_random [0; 6] (map Some [5; 11]) = Ok ([5; 3], []) /\ bit_length (nval [0; 6]) = 35.
Proof. repeat split; reflexivity. Qed.

(* ------------------------------------------------------------------ *)
(** * C81: the error of Miller-Rabin is at most 2^-s *)

(** The rounds accept exactly when every base drawn is a strong base. *)
Theorem C81_rounds_partial : forall checks x n g vs rest, represents x n -> Z.odd n = true -> 2 < n -> shift_ok (n - 1) -> stream_ok g -> draws n g vs rest ->
  exists b g', miller_rabin checks x (length vs) g = Ok (b, g') /\ (b = true <-> Forall (strong_base n) vs) /\ (b = true -> g' = rest).
Proof. intros checks x n g vs rest (C & V) O N S1 G D. rewrite (of_Z_unique x n C V). apply mr_exact; auto. Qed.
(** For a composite number fewer than half of the bases are strong. *)
Theorem C81_half : forall n l, 2 < n -> Z.odd n = true -> ~ prime n -> NoDup l -> (forall v, In v l -> 0 <= v < n /\ strong_base n v) -> 2 * Z.of_nat (length l) <= n - 1.
Proof. exact strong_half. Qed.
(** However large a collection of base sequences is on which the rounds err,
    it is at most the 2^-s part of all sequences. *)
Theorem C81_error_partial : forall checks x n s L, represents x n -> Z.odd n = true -> 2 < n -> shift_ok (n - 1) -> ~ prime n -> NoDup L ->
  (forall vs, In vs L -> base_seq n s vs /\ exists g rest g', stream_ok g /\ draws n g vs rest /\ miller_rabin checks x s g = Ok (true, g')) ->
  2 ^ Z.of_nat s * Z.of_nat (length L) <= n ^ Z.of_nat s.
Proof.
  intros checks x n s L R O N S1 NP ND H. apply Z.le_trans with ((n - 1) ^ Z.of_nat s); [|apply Z.pow_le_mono_l; lia]. apply seq_count; auto. intros vs I.
  destruct (H vs I) as (B & g & rest & g' & G & D & E). split; [auto|]. pose proof B as (Ls & _). subst s.
  destruct (C81_rounds_partial checks x n g vs rest R O N S1 G D) as (b & g2 & E2 & F & _). rewrite E in E2. injection E2 as <- _. apply F. reflexivity.
Qed.
(** The same for the public test, for every composite number. *)
Theorem C81_test_partial : forall checks x n rounds L, represents x n -> shift_ok (n - 1) -> ~ prime n -> NoDup L ->
  (forall vs, In vs L -> base_seq n (rounds + 1) vs /\ exists g rest g', stream_ok g /\ draws n g vs rest /\ probably_prime checks x rounds g = Ok (true, g')) ->
  2 ^ Z.of_nat (rounds + 1) * Z.of_nat (length L) <= n ^ Z.of_nat (rounds + 1).
Proof.
  intros checks x n rounds L R S1 NP ND H. pose proof R as (C & V). pose proof (nval_nonneg x (canon_words x C)) as N0. rewrite V in N0.
  assert (EMPTY : L = [] -> 2 ^ Z.of_nat (rounds + 1) * Z.of_nat (length L) <= n ^ Z.of_nat (rounds + 1)) by (intros ->; cbn [length]; rewrite Z.mul_0_r; apply Z.pow_nonneg; lia).
  assert (NONE : (forall g g', probably_prime checks x rounds g <> Ok (true, g')) -> L = []). { intros A. destruct L as [|vs L]; [auto|]. destruct (H vs (or_introl eq_refl)) as (_ & g & rest & g' & _ & _ & E). apply A in E. tauto. }
  destruct (Z_lt_dec n 128) as [N|N].
  { apply EMPTY, NONE. intros g g' E. destruct (C24_small checks x n rounds g R N) as (b & E2 & F). rewrite E in E2. injection E2 as <- _. apply NP, F. reflexivity. }
  destruct (Z.odd n) eqn:O.
  2:{ apply EMPTY, NONE. intros g g' E. rewrite (C24_even checks x n rounds g R) in E; [discriminate E|rewrite <- Z.negb_odd, O; reflexivity|lia]. }
  apply (C81_error_partial checks x n); auto; [lia|]. intros vs I. destruct (H vs I) as (B & g & rest & g' & G & D & E). split; [auto|]. exists g, rest.
  rewrite (of_Z_unique x n C V) in E |- *. rewrite pp_large in E by lia. rewrite O in E. cbn [negb] in E. destruct (existsb _ _); [discriminate E|].
  destruct (miller_rabin checks (of_Z n) (rounds + 1) g) as [[m g1]| |]; try discriminate E. cbn [bind] in E. destruct m; [|discriminate E]. exists g1. auto.
Qed.
(** Without the condition on the shift the bound fails: for the composite
    2^32 + 1 = 641 * 6700417 every base is accepted. *)
Theorem C81_error_refuted : ~ (forall checks x n s L, represents x n -> Z.odd n = true -> 2 < n -> ~ prime n -> NoDup L ->
  (forall vs, In vs L -> base_seq n s vs /\ exists g rest g', stream_ok g /\ draws n g vs rest /\ miller_rabin checks x s g = Ok (true, g')) ->
  2 ^ Z.of_nat s * Z.of_nat (length L) <= n ^ Z.of_nat s).
Proof.
  intros H. assert (NP : ~ prime (1 * 2 ^ 32 + 1)). { intros P. destruct (prime_divisors _ P 641) as [?|[?|[?|?]]]; [exists 6700417; reflexivity|discriminate..]. }
  assert (R : represents (of_Z (1 * 2 ^ 32 + 1)) (1 * 2 ^ 32 + 1)) by (split; [apply of_Z_canon|apply of_Z_val]; discriminate).
  assert (Rg : forall v, 1 <= v <= 2 ^ 32 -> exists g rest g', stream_ok g /\ draws (1 * 2 ^ 32 + 1) g [v] rest /\ miller_rabin true (of_Z (1 * 2 ^ 32 + 1)) 1 g = Ok (true, g')).
  { intros v Hv. exists [Some (v mod 2 ^ 32); Some (v / 2 ^ 32)], [], []. pose proof (Z.mod_pos_bound v (2 ^ 32) eq_refl) as MB. pose proof (Z.div_mod v (2 ^ 32) ltac:(discriminate)) as DM.
    assert (Q : 0 <= v / 2 ^ 32 <= 1). { split; [apply Z.div_pos; lia|]. apply Z.lt_succ_r. apply Z.div_lt_upper_bound; lia. }
    assert (G : stream_ok [Some (v mod 2 ^ 32); Some (v / 2 ^ 32)]) by (repeat constructor; lia).
    assert (D : draws (1 * 2 ^ 32 + 1) [Some (v mod 2 ^ 32); Some (v / 2 ^ 32)] [v] []).
    { apply draws_cons with []; [|constructor]. assert (Vn : nval [v mod 2 ^ 32; v / 2 ^ 32] = v) by (cbn [nval]; lia).
      assert (M : v mod 2 ^ bit_length (1 * 2 ^ 32 + 1) = v) by (apply Z.mod_small; change (2 ^ bit_length (1 * 2 ^ 32 + 1)) with (2 ^ 33); lia).
      pose proof (draw_hit (1 * 2 ^ 32 + 1) [Some (v mod 2 ^ 32); Some (v / 2 ^ 32)] [v mod 2 ^ 32; v / 2 ^ 32] []) as X. rewrite Vn, M in X. apply X; [exists [Some (v mod 2 ^ 32)], (v / 2 ^ 32); split; reflexivity|reflexivity|lia]. }
    split; [auto|]. split; [auto|]. apply (mr_vacuous true 1 _ [v] []); auto. lia. }
  assert (K : exists k, Z.of_nat k = 2 ^ 32) by (exists (Z.to_nat (2 ^ 32)); apply Z2Nat.id; discriminate). destruct K as (k & K).
  assert (ND : NoDup (map (fun v : Z => [v]) (range k))).
  { pose proof (range_nodup k) as NR. induction NR as [|v l I1 I2 IH]; cbn [map]; constructor; [|auto]. intros I. apply in_map_iff in I. destruct I as (w & E & I). injection E as ->. auto. }
  assert (F : forall vs, In vs (map (fun v : Z => [v]) (range k)) -> exists v, vs = [v] /\ 1 <= v <= 2 ^ 32).
  { intros vs I. apply in_map_iff in I. destruct I as (v & <- & I). exists v. split; [auto|]. apply range_in in I. rewrite K in I. exact I. }
  pose proof (H true _ _ 1%nat _ R eq_refl ltac:(reflexivity) NP ND) as X. rewrite map_length, range_length, K in X.
  assert (A : 2 ^ Z.of_nat 1 * 2 ^ 32 <= (1 * 2 ^ 32 + 1) ^ Z.of_nat 1); [|apply A; reflexivity].
  apply X. intros vs I. destruct (F vs I) as (v & -> & Hv). split; [|auto]. split; [reflexivity|]. constructor; [lia|constructor].
Qed.
(** 2047 = 23 * 89 is a strong pseudoprime to base 2 but not to base 3. *)
Example C81_case : miller_rabin true [2047] 1 [Some 2] = Ok (true, []) /\ miller_rabin true [2047] 2 [Some 2; Some 3] = Ok (false, []) /\ strong_base 2047 2 /\ shift_ok 2046.
Proof.
  split; [vm_compute; reflexivity|]. split; [vm_compute; reflexivity|]. split; [exists 1, 1023; split; [reflexivity|]; split; [lia|]; split; [reflexivity|]; left; rewrite <- Zpow_mod_correct by discriminate; vm_compute; reflexivity|].
  apply shift_word; lia.
Qed.
Print Assumptions C23_uniform.
Print Assumptions C81_rounds_partial.
Print Assumptions C81_half.
Print Assumptions C81_error_partial.
Print Assumptions C81_test_partial.
Print Assumptions C81_error_refuted.
