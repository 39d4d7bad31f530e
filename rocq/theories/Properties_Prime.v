(** Random numbers and primes: C23, C24, C25, C26, C77, C78. *)
From Coq Require Import ZArith Znumtheory Zpow_facts List Lia Bool.
From Verif Require Import Words WordsFacts NatModel NatFacts NatFacts2 NatFacts5 Spec SpecInt SpecNum SpecPrime BigInt BigIntFacts NumTheory NumTheory2 NumTheory3 NumBigFacts
  NatPrime NatPrimeFacts NatPrimeFacts2 NatPrimeFacts3 NatPrimeFacts4 NatPrimeFacts5.
Import ListNotations.
Open Scope Z_scope.

(* ------------------------------------------------------------------ *)
(** * C23: Nat random *)

(** The result is the first group of words that, cut to the bit length of the
    bound, lies below the bound. *)
Theorem C23_random : forall x n g v rest, represents x n -> 0 < n -> stream_ok g -> draw n g v rest ->
  exists r, nat_random x g = Ok (r, rest) /\ has_value r v /\ 0 <= v < n.
Proof.
  intros x n g v rest (C & <-) N G D. rewrite nat_random_inner by auto. destruct (random_inner_draw x C N g v rest G D) as (r & R1 & (R2 & _ & R3) & R4 & _).
  exists r. split; [auto|]. split; [split; auto|auto].
Qed.
(** Whatever the generator does: no panic, and any value returned is a draw
    below the bound; only a stream without a complete draw gives no answer. *)
Theorem C23_range : forall x n g, represents x n -> 0 < n -> stream_ok g ->
  match nat_random x g with
  | Ok (r, rest) => exists v, has_value r v /\ 0 <= v < n /\ draw n g v rest
  | Panic => False
  | Fuel => forall v rest, ~ draw n g v rest
  end.
Proof.
  intros x n g (C & <-) N G. rewrite nat_random_inner by auto. pose proof (random_inner_inv x C N g G) as R. destruct (random_inner x g) as [[r rest]| |]; [|auto|auto].
  destruct R as (v & D & (R2 & _ & R3) & R4 & _). exists v. split; [split; auto|]. auto.
Qed.
(** Every value below the bound is drawn from some stream. *)
Theorem C23_every_value : forall x n v, represents x n -> 0 <= v < n -> exists g r, stream_ok g /\ nat_random x g = Ok (r, []) /\ has_value r v.
Proof.
  intros x n v (C & V) H. assert (N : 0 < nval x) by lia. destruct (canon_bits x C N) as (E1 & E2 & B). rewrite V in *.
  set (l := of_Z v ++ repeat 0 (length x - length (of_Z v))). pose proof (of_Z_canon v ltac:(lia)) as Cv. pose proof (of_Z_val v ltac:(lia)) as Vv.
  assert (LE : (length (of_Z v) <= length x)%nat).
  { destruct (Nat.le_gt_cases (length (of_Z v)) (length x)) as [|G]; [auto|]. pose proof (canon_len_lt x (of_Z v) C Cv G). lia. }
  assert (Wl : words_ok l) by (apply words_ok_app; split; [apply canon_words; auto|apply words_ok_repeat0]).
  assert (Ll : length l = length x) by (unfold l; rewrite app_length, repeat_length; lia).
  assert (Vl : nval l = v) by (unfold l; rewrite nval_app, nval_repeat0, Vv; ring).
  assert (Nl : l <> []) by (pose proof (canon_len_pos x C); intros E; rewrite E in Ll; cbn in Ll; lia).
  assert (T : takes (map Some l) l []).
  { exists (map Some (removelast l)), (last l 0). split.
    - rewrite (last_split l Nl) at 1. rewrite map_app. reflexivity.
    - rewrite (last_split l Nl) at 1. f_equal. induction (removelast l) as [|a r IH]; [reflexivity|]. cbn [map somes flat_map app]. f_equal. exact IH. }
  assert (M : v mod 2 ^ bit_length n = v). { apply Z.mod_small. unfold bit_length. destruct (Z.log2_spec n ltac:(lia)) as (_ & L2). replace (Z.log2 n + 1) with (Z.succ (Z.log2 n)) by lia. lia. }
  assert (D : draw n (map Some l) v []). { pose proof (draw_hit n (map Some l) l [] T ltac:(congruence) ltac:(rewrite Vl, M; lia)) as X. rewrite Vl, M in X. exact X. }
  assert (G : stream_ok (map Some l)). { apply Forall_forall. intros o O. apply in_map_iff in O. destruct O as (w & <- & I). unfold words_ok in Wl. rewrite Forall_forall in Wl. apply Wl. exact I. }
  destruct (C23_random x n _ v [] (conj C V) ltac:(lia) G D) as (r & R1 & R2 & _). exists (map Some l), r. auto.
Qed.
Theorem C23_nan : forall g, nat_random [] g = Ok ([], g) /\ nat_random [0] g = Ok ([], g).
Proof. intros g. split; reflexivity. Qed.
Example C23_case : nat_random [10] [None; Some 0xfffffffb; Some 0x35; Some 9] = Ok ([5], [Some 9]) /\ draw 10 [None; Some 0xfffffffb; Some 0x35; Some 9] 5 [Some 9].
Proof.
  split; [reflexivity|]. apply (draw_miss 10 _ [0xfffffffb] [Some 0x35; Some 9]); [exists [None], 0xfffffffb; split; reflexivity|reflexivity|vm_compute; discriminate|].
  apply (draw_hit 10 _ [0x35]); [exists [], 0x35; split; reflexivity|reflexivity|reflexivity].
Qed.
(** The result keeps the high zero words, so it need not be canonical. *)
Theorem C06_random_refuted : exists x g r rest, canon x /\ stream_ok g /\ nat_random x g = Ok (r, rest) /\ ~ canon r.
Proof.
  exists [5; 1], [Some 7; Some 0], [7; 0], []. split; [apply canon_intro; [repeat constructor; lia|discriminate|intros _; cbn; lia]|]. split; [repeat constructor; discriminate|]. split; [reflexivity|].
  intros (_ & _ & [H|H]); [discriminate H|apply H; reflexivity].
Qed.

(* ------------------------------------------------------------------ *)
(** * C77: BigInt random *)
Theorem C77_random_partial : forall x n g, is_int x n -> n <> 0 -> stream_ok g ->
  match b_random x g with
  | Ok (r, rest) => exists v, draw (Z.abs n) g v rest /\ 0 <= v < Z.abs n /\ int_value r (if n <? 0 then - v else v)
  | Panic => False
  | Fuel => forall v rest, ~ draw (Z.abs n) g v rest
  end.
Proof.
  intros x n g X N G. apply is_int_iff in X. subst x. unfold b_random. rewrite zint_not_nan, zint_eq_u32 by lia. destruct (Z.eqb_spec n 0); [lia|]. cbn [orb].
  assert (RP : represents (of_Z (Z.abs n)) (Z.abs n)) by (split; [apply of_Z_canon|apply of_Z_val]; lia).
  pose proof (C23_range (of_Z (Z.abs n)) (Z.abs n) g RP ltac:(lia) G) as R. rewrite zint_nat. destruct (nat_random (of_Z (Z.abs n)) g) as [[r rest]| |] eqn:E; cbn [bind]; [|auto|auto].
  destruct R as (v & (Wr & Vr) & B & D). exists v. split; [auto|]. split; [auto|]. destruct RP as (C & V). rewrite nat_random_inner in E by (auto; lia).
  pose proof (random_inner_inv (of_Z (Z.abs n)) C ltac:(lia) g G) as I. rewrite E in I. destruct I as (v' & _ & (_ & Lr & _) & _). split; [exact Wr|]. split.
  - cbn [bnat]. pose proof (canon_len_pos _ C). intros X. rewrite X in Lr. cbn in Lr. lia.
  - unfold bvalue. cbn [bnat bneg]. rewrite Vr. assert (NG : bneg (zint n) = (n <? 0)) by reflexivity. rewrite NG. destruct (nat_eq_u32 r 0) eqn:E0; [|reflexivity].
    assert (v = 0). { unfold nat_eq_u32, nat_eq in E0. destruct (is_nan r); [discriminate|]. apply list_eqb_spec in E0. rewrite E0 in Vr. cbn in Vr. lia. }
    destruct (n <? 0); lia.
Qed.
Theorem C77_nan : forall g, b_random (zint 0) g = Ok (b_nan, g) /\ b_random b_nan g = Ok (b_nan, g).
Proof. intros g. split; reflexivity. Qed.
(** Below one word the result is a canonical integer; in particular its zero
    has no sign. *)
Theorem C77_word_partial : forall x n g r rest, is_int x n -> Z.abs n < 2 ^ 32 -> n <> 0 -> stream_ok g -> b_random x g = Ok (r, rest) ->
  exists v, draw (Z.abs n) g v rest /\ 0 <= v < Z.abs n /\ is_int r (if n <? 0 then - v else v).
Proof.
  intros x n g r rest X S1 N G E. pose proof (C77_random_partial x n g X N G) as R. rewrite E in R. destruct R as (v & D & B & V). exists v. split; [auto|]. split; [auto|].
  apply is_int_iff in X. subst x. unfold b_random in E. rewrite zint_not_nan, zint_eq_u32 in E by lia. destruct (Z.eqb_spec n 0); [lia|]. cbn [orb] in E. rewrite zint_nat in E.
  assert (C : canon (of_Z (Z.abs n))) by (apply of_Z_canon; lia). pose proof (of_Z_val (Z.abs n) ltac:(lia)) as Vn.
  rewrite nat_random_inner in E by (auto; lia). pose proof (random_inner_inv (of_Z (Z.abs n)) C ltac:(lia) g G) as I.
  destruct (random_inner (of_Z (Z.abs n)) g) as [[q rest']| |]; cbn [bind] in E; [|discriminate|discriminate]. injection E as <- <-.
  destruct I as (v' & _ & (Wq & Lq & Vq) & B' & _). rewrite of_Z_small in Lq by (change (2 ^ 32) with W in S1; lia). destruct q as [|w [|]]; [discriminate| |discriminate].
  assert (Ew : nval [w] = w) by (cbn [nval]; ring). rewrite Ew in Vq. apply words_ok_cons in Wq. destruct Wq as (Hw & _).
  destruct V as (_ & _ & V). unfold bvalue in V. cbn [bnat bneg] in V. rewrite Ew in V.
  assert (Q : nat_eq_u32 [w] 0 = (w =? 0)). { unfold nat_eq_u32, nat_eq. cbn. destruct (w =? 0); reflexivity. }
  rewrite Q in V. rewrite Q. change (bneg (zint n)) with (n <? 0) in V |- *. apply is_int_iff. unfold zint.
  destruct (Z.eqb_spec w 0) as [->|W0]; [replace (if n <? 0 then - v else v) with 0 by lia; reflexivity|].
  rewrite <- V. rewrite of_Z_small by (destruct (n <? 0); lia). f_equal; [f_equal|]; destruct (Z.ltb_spec n 0); lia.
Qed.
(** A zero drawn with several words keeps the sign: a negative zero. *)
Theorem C77_zero_refuted : exists x n g r rest, is_int x n /\ stream_ok g /\ b_random x g = Ok (r, rest) /\ int_value r 0 /\ bneg r = true.
Proof.
  exists (zint (- (2 ^ 32 + 5))), (- (2 ^ 32 + 5)), [Some 0; Some 0], (BI [0; 0] true), []. split; [apply is_int_zint|]. split; [repeat constructor; discriminate|]. split; [reflexivity|].
  split; [|reflexivity]. split; [repeat constructor; lia|]. split; [discriminate|reflexivity].
Qed.
Example C77_case : b_random (zint (-10)) [Some 0xfffffffb; Some 0x35] = Ok (zint (-5), []) /\ b_random (zint (-10)) [Some 0] = Ok (zint 0, []).
Proof. split; reflexivity. Qed.

(* ------------------------------------------------------------------ *)
(** * C24: the certain answers *)
Theorem C24_small : forall checks x n rounds g, represents x n -> n < 128 -> exists b, probably_prime checks x rounds g = Ok (b, g) /\ (b = true <-> prime n).
Proof.
  intros checks x n rounds g (C & V) N. rewrite (of_Z_unique x n C V). apply pp_small. pose proof (canon_nonneg x C). lia.
Qed.
Theorem C24_divisible : forall checks x n rounds g q, represents x n -> prime q -> q <= 53 -> (q | n) -> n <> q -> probably_prime checks x rounds g = Ok (false, g).
Proof.
  intros checks x n rounds g q (C & V) P Q D N. rewrite (of_Z_unique x n C V). pose proof (prime_ge_2 q P). apply (pp_trial checks n rounds g q); auto. pose proof (canon_nonneg x C). lia.
Qed.
Theorem C24_even : forall checks x n rounds g, represents x n -> Z.even n = true -> n <> 2 -> probably_prime checks x rounds g = Ok (false, g).
Proof.
  intros checks x n rounds g R E N. apply (C24_divisible checks x n rounds g 2); auto; [exact Znumtheory.prime_2|lia|]. apply Z.even_spec in E. destruct E as [k ->]. exists k. ring.
Qed.
Theorem C24_nan : forall checks rounds g, probably_prime checks [] rounds g = Ok (false, g).
Proof. reflexivity. Qed.
Example C24_case : probably_prime true [127] 3 [] = Ok (true, []) /\ probably_prime true [121] 3 [] = Ok (false, []) /\ probably_prime true [0; 1] 3 [] = Ok (false, []) /\
  probably_prime true (of_Z (53 * 4294967311)) 3 [] = Ok (false, []) /\ probably_prime true [2] 0 [] = Ok (true, []).
Proof. repeat split; vm_compute; reflexivity. Qed.

(* ------------------------------------------------------------------ *)
(** * C25: primes are accepted *)

(** A prime is accepted when no base drawn is zero, under the conditions of
    [SpecPrime] on the shifts and on the least non-square. *)
Theorem C25_prime_partial : forall checks x n rounds g vs rest, represents x n -> prime n -> 128 <= n ->
  shift_ok (n - 1) -> shift_ok (n + 1) -> early_nonsquare n ->
  stream_ok g -> draws n g vs rest -> length vs = (rounds + 1)%nat -> ~ In 0 vs -> probably_prime checks x rounds g = Ok (true, rest).
Proof.
  intros checks x n rounds g vs rest (C & V) P N S1 S2 NR G D L NZ. rewrite (of_Z_unique x n C V). apply (pp_prime checks n g vs rest); auto.
  apply Forall_forall. intros v I ->. auto.
Qed.
(** Below 10^8 the conditions hold. *)
Theorem C25_prime_word : forall checks x n rounds g vs rest, represents x n -> prime n -> 128 <= n < 100000000 ->
  stream_ok g -> draws n g vs rest -> length vs = (rounds + 1)%nat -> ~ In 0 vs -> probably_prime checks x rounds g = Ok (true, rest).
Proof.
  intros checks x n rounds g vs rest R P N G D L NZ. assert (B : n + 1 < 2 ^ 32) by (apply Z.lt_trans with 100000002; [lia|reflexivity]).
  apply (C25_prime_partial checks x n rounds g vs rest); auto; try lia; [apply shift_word; lia|apply shift_word; lia|apply nonresidue_small; auto; lia].
Qed.
Theorem C25_prime_small : forall checks x n rounds g, represents x n -> prime n -> n < 128 -> probably_prime checks x rounds g = Ok (true, g).
Proof. intros checks x n rounds g R P N. destruct (C24_small checks x n rounds g R N) as (b & E & H). rewrite E. replace b with true; [reflexivity|]. symmetry. apply H. auto. Qed.
(** A base of zero makes every such prime a "composite". *)
Theorem C25_zero_rejects : forall checks x n rounds g vs rest, represents x n -> prime n -> 128 <= n -> shift_ok (n - 1) ->
  stream_ok g -> draws n g (vs ++ [0]) rest -> ~ In 0 vs -> (length vs <= rounds)%nat -> probably_prime checks x rounds g = Ok (false, rest).
Proof.
  intros checks x n rounds g vs rest (C & V) P N S1 G D NZ L. rewrite (of_Z_unique x n C V). apply (pp_zero checks n g vs); auto. apply Forall_forall. intros v I ->. auto.
Qed.
Theorem C25_never_rejects_refuted : ~ (forall checks x n rounds g vs rest, represents x n -> prime n -> stream_ok g -> draws n g vs rest -> length vs = (rounds + 1)%nat ->
  exists rest', probably_prime checks x rounds g = Ok (true, rest')).
Proof.
  intros H. destruct (H true [131] 131 0%nat [Some 0] [0] []) as (rest' & E).
  - split; [apply canon_single; lia|reflexivity].
  - apply prime_test_sound. reflexivity.
  - repeat constructor; discriminate.
  - apply draws_cons with []; [|constructor]. apply (draw_hit 131 [Some 0] [0] []); [exists [], 0; split; reflexivity|reflexivity|reflexivity].
  - reflexivity.
  - vm_compute in E. discriminate E.
Qed.
Example C25_case : probably_prime true [131] 1 [Some 5; Some 77] = Ok (true, []) /\ probably_prime true [15; 1] 0 [Some 123456; Some 0] = Ok (true, []) /\
  shift_ok (2 ^ 32 + 14) /\ shift_ok (2 ^ 32 + 16) /\ early_nonsquare (2 ^ 32 + 15) /\ prime (2 ^ 32 + 15).
Proof.
  assert (PR : prime (2 ^ 32 + 15)) by (apply prime_test_sound; vm_compute; reflexivity).
  assert (SO : forall m, 0 < m < 2 ^ 33 -> m <> 2 ^ 32 -> shift_ok m).
  { intros m M M2 e s E E0 O. left. assert (0 < 2 ^ e) by (apply Z.pow_pos_nonneg; lia). assert (s <> 0) by (intros ->; discriminate O). assert (0 < s) by nia.
    assert (L : e < 33) by (apply (Z.pow_lt_mono_r_iff 2); [lia|lia|nia]). assert (e <> 32); [|lia]. intros ->. assert (s = 1 \/ 2 <= s) as [->|] by lia; nia. }
  split; [vm_compute; reflexivity|]. split; [vm_compute; reflexivity|]. split; [apply SO; lia|]. split; [apply SO; lia|].
  split; [|exact PR]. right. exists 3. split; [lia|]. rewrite square_mod_qr. apply ls_legendre; [exact PR|lia|]. unfold ls. rewrite <- Zpow_mod_correct by discriminate. vm_compute. reflexivity.
Qed.

(* ------------------------------------------------------------------ *)
(** * C26: generate_prime *)
Theorem C26_generated : forall checks bits rounds g p g', stream_ok g -> generate_prime checks bits rounds g = Ok (Some p, g') ->
  exists n g1, represents p n /\ bit_length n = bits /\ bits_len p = bits /\ 3 * 2 ^ (bits - 2) <= n < 2 ^ bits /\ Z.odd n = true /\
    probably_prime checks p rounds g1 = Ok (true, g') /\ (bits <= 7 -> prime n) /\ (forall q, prime q -> q <= 53 -> (q | n) -> n = q).
Proof.
  intros checks bits rounds g p g' G E. destruct (generate_spec checks bits rounds g p g' G E) as (n & g1 & EP & B2 & NB & O & G1 & PP). exists n, g1.
  assert (P2 : 0 < 2 ^ (bits - 2)) by (apply Z.pow_pos_nonneg; lia). assert (N0 : 0 < n) by lia. assert (R : represents p n) by (rewrite EP; split; [apply of_Z_canon|apply of_Z_val]; lia).
  assert (E2 : 2 ^ (bits - 1) = 2 * 2 ^ (bits - 2)) by (replace (bits - 1) with (1 + (bits - 2)) by ring; rewrite Z.pow_add_r by lia; reflexivity).
  assert (LG : Z.log2 n = bits - 1) by (apply Z.log2_unique; [lia|]; replace (Z.succ (bits - 1)) with bits by lia; lia).
  split; [exact R|]. split; [unfold bit_length; lia|]. split; [rewrite EP, bits_len_of_Z_eq by lia; destruct (Z.eqb_spec n 0); lia|]. split; [auto|]. split; [auto|]. split; [auto|]. split.
  - intros B7. assert (2 ^ bits <= 2 ^ 7) by (apply Z.pow_le_mono_r; lia). destruct (C24_small checks p n rounds g1 R ltac:(lia)) as (b & Eb & H1). rewrite PP in Eb. injection Eb as <- _. apply H1. reflexivity.
  - intros q Q1 Q2 Q3. destruct (Z.eq_dec n q) as [|NE]; [auto|]. rewrite (C24_divisible checks p n rounds g1 q R Q1 Q2 Q3 NE) in PP. discriminate PP.
Qed.
Theorem C26_short : forall checks bits rounds g, bits < 2 -> generate_prime checks bits rounds g = Ok (None, g).
Proof. intros checks bits rounds g B. unfold generate_prime. destruct (Z.ltb_spec bits 2); [reflexivity|lia]. Qed.
Example C26_case : generate_prime true 8 1 [Some 0xf1; Some 3; Some 5; Some 7] = Ok (Some [241], [Some 7]) /\ generate_prime true 2 1 [Some 0] = Ok (Some [3], []) /\
  generate_prime true 4 1 [Some 2; Some 0] = Ok (Some [13], []).
Proof. repeat split; vm_compute; reflexivity. Qed.

(* ------------------------------------------------------------------ *)
(** * C78: the Miller-Rabin rounds *)

(** A positive answer means that all the bases drawn satisfy Fermat's
    congruence. *)
Theorem C78_rounds_partial : forall checks x n rounds g rest, represents x n -> 128 <= n -> shift_ok (n - 1) -> stream_ok g ->
  probably_prime checks x rounds g = Ok (true, rest) -> exists vs, draws n g vs rest /\ length vs = (rounds + 1)%nat /\ Forall (fun v => v ^ (n - 1) mod n = 1) vs.
Proof. intros checks x n rounds g rest (C & V) N S1 G E. rewrite (of_Z_unique x n C V) in E. apply (pp_sound checks); auto. Qed.
(** For two-word numbers c * 2^32 + 1 the rounds accept whatever is drawn. *)
Theorem C78_rounds_vacuous : forall checks c g vs rest, 0 < c < 2 ^ 32 -> Z.odd c = true -> stream_ok g -> draws (c * 2 ^ 32 + 1) g vs rest ->
  miller_rabin checks (of_Z (c * 2 ^ 32 + 1)) (length vs) g = Ok (true, rest).
Proof. intros. apply mr_vacuous; auto. Qed.
Theorem C78_rounds_refuted : ~ (forall checks x n g vs rest, represents x n -> Z.odd n = true -> 2 < n -> stream_ok g -> draws n g vs rest ->
  miller_rabin checks x (length vs) g = Ok (true, rest) -> Forall (fun v => v ^ (n - 1) mod n = 1) vs).
Proof.
  intros H. assert (R : represents (of_Z (7 * 2 ^ 32 + 1)) (7 * 2 ^ 32 + 1)) by (split; [apply of_Z_canon|apply of_Z_val]; discriminate).
  assert (D : draws (7 * 2 ^ 32 + 1) [Some 2; Some 0] [2] []).
  { apply draws_cons with []; [|constructor]. apply (draw_hit (7 * 2 ^ 32 + 1) [Some 2; Some 0] [2; 0] []); [exists [Some 2], 0; split; reflexivity|reflexivity|reflexivity]. }
  assert (G : stream_ok [Some 2; Some 0]) by (repeat constructor; discriminate).
  pose proof (H true (of_Z (7 * 2 ^ 32 + 1)) (7 * 2 ^ 32 + 1) _ [2] [] R eq_refl ltac:(reflexivity) G D (mr_vacuous true 7 _ [2] [] ltac:(lia) eq_refl G D)) as F. apply Forall_inv in F.
  rewrite <- Zpow_mod_correct in F by discriminate. vm_compute in F. discriminate F.
Qed.
(** A composite with the right shifts for which one base already decides. *)
Example C78_case : probably_prime true [10403] 0 [Some 2] = Ok (false, []) /\ 2 ^ 10402 mod 10403 <> 1 /\ shift_ok 10402.
Proof.
  split; [vm_compute; reflexivity|]. split; [rewrite <- Zpow_mod_correct by discriminate; vm_compute; discriminate|]. apply shift_word; lia.
Qed.
Print Assumptions C23_random.
Print Assumptions C23_range.
Print Assumptions C23_every_value.
Print Assumptions C23_nan.
Print Assumptions C06_random_refuted.
Print Assumptions C77_random_partial.
Print Assumptions C77_word_partial.
Print Assumptions C77_nan.
Print Assumptions C77_zero_refuted.
Print Assumptions C24_small.
Print Assumptions C24_divisible.
Print Assumptions C24_even.
Print Assumptions C24_nan.
Print Assumptions C25_prime_partial.
Print Assumptions C25_prime_word.
Print Assumptions C25_prime_small.
Print Assumptions C25_zero_rejects.
Print Assumptions C25_never_rejects_refuted.
Print Assumptions C26_generated.
Print Assumptions C26_short.
Print Assumptions C78_rounds_partial.
Print Assumptions C78_rounds_vacuous.
Print Assumptions C78_rounds_refuted.
