(** C103: what [generate_prime] returns, for every outcome of the generator. *)
From Coq Require Import ZArith Znumtheory List Lia Bool.
From Verif Require Import Words WordsFacts NatModel NatFacts NatFacts2 Spec SpecInt SpecNum SpecPrime SpecGen NumTheory3 NatPrime NatPrimeFacts4 NatPrimeFacts5 GenFacts Properties_Prime.
Import ListNotations.
Open Scope Z_scope.

(** The answer of the code's primality test for the number n. *)
Definition answer (checks : bool) (rounds : nat) (n : Z) (g : list (option Z)) : option (bool * list (option Z)) :=
  match probably_prime checks (of_Z n) rounds g with Ok r => Some r | _ => None end.

(** Exactly the numbers described by [generates] come out, with exactly that
    part of the stream used up. *)
Theorem C103_exact : forall checks bits rounds g p rest, 2 <= bits -> stream_ok g ->
  (generate_prime checks bits rounds g = Ok (Some p, rest) <-> exists n, represents p n /\ generates (answer checks rounds) bits g n rest).
Proof.
  intros checks bits rounds g p rest B G. rewrite (generate_iff checks bits rounds g p rest B G). split; intros (n & H1 & H2); exists n; (split; [|exact H2]).
  - assert (N : 0 <= n).
    { assert (E : generate_prime checks bits rounds g = Ok (Some p, rest)) by (apply generate_iff; auto; exists n; auto). destruct (generate_spec checks bits rounds g p rest G E) as (m & g1 & EP & _ & MB & _).
      destruct (Z.lt_ge_cases n 0) as [L|L]; [|auto]. exfalso. clear -H2 L B.
      assert (S : forall v, 0 <= start bits v) by (intros v; unfold start; apply Z.lor_nonneg; split; [|lia]; apply Z.lor_nonneg; split; [apply Z.mod_pos_bound|apply Z.mul_nonneg_nonneg; [lia|apply Z.pow_nonneg; lia]]; apply Z.pow_pos_nonneg; lia).
      induction H2; auto. destruct H1 as [(d & -> & D & _)|(-> & _)]; specialize (S (nval ws)); lia. }
    rewrite H1. split; [apply of_Z_canon; auto|apply of_Z_val; auto].
  - destruct H1 as (C & V). apply of_Z_unique; auto.
Qed.
(** Every prime of the length with its two top bits set comes out of some
    stream, whatever follows that stream. *)
Theorem C103_reachable_partial : forall checks bits rounds n rest, prime n -> 2 <= bits -> 3 * 2 ^ (bits - 2) <= n < 2 ^ bits ->
  shift_ok (n - 1) -> shift_ok (n + 1) -> early_nonsquare n -> stream_ok rest ->
  exists g p, stream_ok g /\ represents p n /\ generate_prime checks bits rounds (g ++ rest) = Ok (Some p, rest).
Proof.
  intros checks bits rounds n rest P B N S1 S2 NR R. assert (K : 0 < 2 ^ (bits - 2)) by (apply Z.pow_pos_nonneg; lia). assert (RN : represents (of_Z n) n) by (split; [apply of_Z_canon|apply of_Z_val]; lia).
  assert (T : exists pre, stream_ok pre /\ probably_prime checks (of_Z n) rounds (pre ++ rest) = Ok (true, rest)).
  { destruct (Z.lt_ge_cases n 128) as [L|L].
    - exists []. split; [constructor|]. apply (C25_prime_small checks (of_Z n) n); auto.
    - destruct (draws_one n rest ltac:(lia) (rounds + 1)) as (pre & P1 & P2). exists pre. split; [auto|].
      apply (C25_prime_partial checks (of_Z n) n rounds (pre ++ rest) (repeat 1 (rounds + 1)) rest); auto; [apply stream_ok_app; auto|apply repeat_length|]. intros I. apply repeat_spec in I. discriminate I. }
  destruct T as (pre & P1 & T). destruct (generates_prime checks rounds bits n pre rest B P N P1 T) as (g & G & GN). exists g, (of_Z n). split; [auto|]. split; [auto|].
  apply generate_iff; [auto|apply stream_ok_app; auto|]. exists n. auto.
Qed.
(** Up to 26 bits there are no further conditions. *)
Theorem C103_reachable_short : forall checks bits rounds n rest, prime n -> 2 <= bits <= 26 -> 3 * 2 ^ (bits - 2) <= n < 2 ^ bits -> stream_ok rest ->
  exists g p, stream_ok g /\ represents p n /\ generate_prime checks bits rounds (g ++ rest) = Ok (Some p, rest).
Proof.
  intros checks bits rounds n rest P B N R. assert (K : 0 < 2 ^ (bits - 2)) by (apply Z.pow_pos_nonneg; lia). assert (U : 2 ^ bits <= 2 ^ 26) by (apply Z.pow_le_mono_r; lia). change (2 ^ 26) with 67108864 in U. assert (W0 : 100000001 < 2 ^ 32) by reflexivity.
  apply C103_reachable_partial; auto; try lia; [apply shift_word; lia|apply shift_word; lia|apply nonresidue_small; auto; lia].
Qed.
(** The generator failing at the start of a group is a panic, not an [Err]. *)
Theorem C103_error_refuted : forall checks bits rounds g, 2 <= bits -> generate_prime checks bits rounds (None :: g) = Panic.
Proof.
  intros checks bits rounds g B. unfold generate_prime. destruct (Z.ltb_spec bits 2); [lia|]. cbv zeta. cbn [length]. rewrite loop_panic by auto. reflexivity.
Qed.
(** The primes of a length are not equally likely: of the words, three
    quarters give 29 and one quarter 31. *)
Theorem C103_uneven_refuted : forall checks rounds w g, 0 <= w < 2 ^ 32 -> stream_ok g ->
  generate_prime checks 5 rounds (Some w :: g) = Ok (Some [if (w / 2) mod 4 =? 3 then 31 else 29], g).
Proof.
  intros checks rounds w g Hw G. apply C103_exact; [lia|constructor; auto|]. set (n := if (w / 2) mod 4 =? 3 then 31 else 29). exists n.
  assert (NW : 0 <= n < W) by (unfold n; destruct (_ =? _); split; reflexivity || discriminate). split; [split; [apply canon_single; auto|cbn [nval]; lia]|].
  assert (P : prime n) by (unfold n; destruct (_ =? _); apply prime_test_sound; vm_compute; reflexivity).
  assert (S : start 5 w <= n /\ (start 5 w = n \/ n = 29 /\ start 5 w = 25 \/ n = 29 /\ start 5 w = 27)).
  { unfold start. change (2 ^ 5) with 32. assert (E : n = if ((w mod 32) / 2) mod 4 =? 3 then 31 else 29).
    { unfold n. replace ((w mod 32 / 2) mod 4) with ((w / 2) mod 4); [reflexivity|]. pose proof (Z.div_mod w 32 ltac:(lia)) as D. rewrite D at 1. replace (32 * (w / 32) + w mod 32) with (w mod 32 + (16 * (w / 32)) * 2) by ring. rewrite Z.div_add by lia. replace (w mod 32 / 2 + 16 * (w / 32)) with (w mod 32 / 2 + (4 * (w / 32)) * 4) by ring. apply Z.mod_add. lia. }
    rewrite E. pose proof (Z.mod_pos_bound w 32 ltac:(lia)) as M. clear E P NW. generalize dependent (w mod 32). intros r M.
    assert (A : forallb (fun r => let s := Z.lor (Z.lor r 24) 1 in let n := if (r / 2) mod 4 =? 3 then 31 else 29 in (s <=? n) && ((s =? n) || (n =? 29) && (s =? 25) || (n =? 29) && (s =? 27))) (map Z.of_nat (seq 0 32)) = true) by (vm_compute; reflexivity).
    rewrite forallb_forall in A. specialize (A r ltac:(apply in_map_iff; exists (Z.to_nat r); split; [lia|apply in_seq; lia])). cbv zeta in A. change (3 * 2 ^ (5 - 2)) with 24. apply andb_prop in A. destruct A as (A1 & A2). apply Z.leb_le in A1. split; [exact A1|].
    apply orb_prop in A2. destruct A2 as [A2|A2]; [apply orb_prop in A2; destruct A2 as [A2|A2]; [apply Z.eqb_eq in A2; auto|]|]; apply andb_prop in A2; destruct A2 as (A2 & A3); apply Z.eqb_eq in A2, A3; auto. }
  assert (NS : forall m, 25 <= m < n -> m <> 29 -> ~ (Z.Even m) -> ~ sieved 5 m).
  { intros m M M29 EV H. assert (m = 25 \/ m = 27) as [->| ->].
    - assert (n <= 31) by (unfold n; destruct (_ =? _); lia). assert (m <> 26 /\ m <> 28 /\ m <> 30); [|lia]. repeat split; intros ->; apply EV; [exists 13|exists 14|exists 15]; reflexivity.
    - destruct (H 5) as (_ & X); [apply prime_test_sound; reflexivity|lia|exists 5; reflexivity|discriminate X].
    - destruct (H 3) as (_ & X); [apply prime_test_sound; reflexivity|lia|exists 9; reflexivity|discriminate X]. }
  change (Some w :: g) with (map Some [w] ++ g). apply gen_hit; [repeat constructor; change W with (2 ^ 32); lia|reflexivity| | |].
  - replace (nval [w]) with w by (cbn [nval]; lia). left. exists (n - start 5 w). destruct S as (S1 & S2). assert (NV : n = 29 \/ n = 31) by (unfold n; destruct (_ =? _); auto).
    split; [lia|]. split; [change (2 ^ 20) with 1048576; lia|]. split; [destruct S2 as [-> |[(-> & ->)|(-> & ->)]]; [exists 0; lia|exists 2; reflexivity|exists 1; reflexivity]|].
    split; [apply prime_sieved; [lia|auto|change (2 ^ (5 - 1)) with 16; lia]|]. intros d' D' (j & J). apply NS; [lia| |intros (i & I); lia]. 
    intros X. lia.
  - unfold n. destruct (_ =? _); reflexivity.
  - unfold answer. assert (PP : probably_prime checks (of_Z n) rounds g = Ok (true, g)) by (apply (C25_prime_small checks (of_Z n) n); auto; [split; [apply of_Z_canon|apply of_Z_val]; lia|unfold n; destruct (_ =? _); reflexivity]). rewrite PP. reflexivity.
Qed.
(** Two tries: 0xc3 = 195 is a multiple of 3, so 197 is tested and one base 0
    rejects it; then 0xf1 = 241 is taken.  A group with an error in it is
    dropped. *)
Example C103_case : generate_prime true 8 0 [Some 0x12c3; Some 0; Some 0xf1; Some 3; Some 7] = Ok (Some [241], [Some 7]) /\
  generate_prime true 8 0 [Some 0x12c3; Some 3; Some 7] = Ok (Some [197], [Some 7]) /\ candidate_of 8 0x12c3 197 /\ start 8 0x12c3 = 195 /\
  generate_prime true 40 0 [Some 1; None; Some 0x23; Some 0xc0; Some 2; Some 0; Some 9] = Ok (Some (of_Z (0xc000000023 + 6)), [Some 9]).
Proof.
  split; [vm_compute; reflexivity|]. split; [vm_compute; reflexivity|]. split; [|split; [reflexivity|]].
  - left. exists 2. split; [reflexivity|]. split; [split; reflexivity || discriminate|]. split; [exists 1; reflexivity|]. split.
    + apply prime_sieved; [lia|apply prime_test_sound; vm_compute; reflexivity|discriminate].
    + intros d' D' (j & J) H. assert (d' = 0) as -> by lia. destruct (H 3) as (_ & X); [apply prime_test_sound; reflexivity|lia|exists 65; reflexivity|discriminate X].
  - vm_compute. reflexivity.
Qed.
Print Assumptions C103_exact.
Print Assumptions C103_reachable_partial.
Print Assumptions C103_reachable_short.
Print Assumptions C103_error_refuted.
Print Assumptions C103_uneven_refuted.
