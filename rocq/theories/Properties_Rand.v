(** Properties C61 to C66 and C69 to C71: the random number generators. *)
From Coq Require Import ZArith List Lia Bool Arith.
From Verif Require Import Words Spec Rand SpecRand RandFacts RandFacts2.
Import ListNotations.
Open Scope Z_scope.

(** The widths of the element types u32, u64 and usize. *)
Definition width (B : Z) : Prop := B = 32 \/ B = 64.

Lemma par_ok_b : forall B p,
  forallb (fun v => (0 <=? v) && (v <? 2 ^ B))
    [mt_w p; mt_n p; mt_m p; mt_r p; mt_a p; mt_u p; mt_d p; mt_s p; mt_b p; mt_t p; mt_c p; mt_l p; mt_f p] = true ->
  par_ok B p.
Proof.
  intros B p H. rewrite forallb_forall in H. apply Forall_forall. intros v Hv.
  specialize (H v Hv). apply andb_true_iff in H. destruct H as [H1 H2].
  apply Z.leb_le in H1. apply Z.ltb_lt in H2. split; assumption.
Qed.

(* ------------------------------------------------------------------ *)
(** * C61 *)

(** The documented recurrence fails for the shipped [minstd_rand0]: with seed 1
    the third output is not 16807^3 mod (2^31 - 1), because the product wraps. *)
Theorem C61_minstd_wraps_refuted :
  exists g, minstd_rand0 (ROk 1) = ROk g /\
    ~ exists x, x O = 1 /\ lcg_recurrence 16807 0 2147483647 x /\
        fst (lcg_draws 32 3 g) = map x (seq 1 3).
Proof.
  eexists. split; [reflexivity|]. intros (x & H0 & H & E).
  assert (H1 := H O). rewrite H0 in H1.
  assert (H2 := H 1%nat). rewrite H1 in H2.
  assert (H3 := H 2%nat). rewrite H2 in H3.
  cbn [seq map] in E. rewrite H1, H2, H3 in E. vm_compute in E. discriminate.
Qed.
Print Assumptions C61_minstd_wraps_refuted.

(** What holds for every parameter set and seed: the recurrence with the
    product reduced modulo 2^B first; outputs are below the modulus.
    Missing for C61: the exact recurrence when [a*x + c] exceeds the type. *)
Theorem C61_wrapping_recurrence_partial : forall B a c m seed g k,
  width B -> 0 < m -> lcg_new (ROk seed) a c m = ROk g ->
  exists x, x O = seed /\ (forall i, x (S i) = ((a * x i + c) mod 2 ^ B) mod m) /\
    fst (lcg_draws B k g) = map x (seq 1 k) /\
    Forall (fun v => 0 <= v < m) (fst (lcg_draws B k g)).
Proof.
  intros B a c m seed g k HB Hm E. unfold lcg_new in E.
  replace (m =? 0) with false in E by (symmetry; apply Z.eqb_neq; lia). injection E as <-.
  exists (lcg_seq B a c m seed). split; [reflexivity|]. split; [reflexivity|].
  rewrite (lcg_draws_spec B a c m seed ltac:(destruct HB; lia) k O : lcg_draws B k (Lcg a c m seed) = _).
  split; [reflexivity|]. cbn [fst]. apply Forall_map, Forall_forall. intros i Hi. apply in_seq in Hi.
  destruct i; [lia|]. apply lcg_seq_range. exact Hm.
Qed.
Print Assumptions C61_wrapping_recurrence_partial.

(** The documented recurrence holds when neither the seed nor a state can make
    the sum exceed the type. *)
Theorem C61_exact_recurrence_partial : forall B a c m seed g k,
  width B -> 0 <= a -> 0 <= c -> 0 < m -> 0 <= seed ->
  a * seed + c < 2 ^ B -> a * (m - 1) + c < 2 ^ B ->
  lcg_new (ROk seed) a c m = ROk g ->
  exists x, x O = seed /\ lcg_recurrence a c m x /\ fst (lcg_draws B k g) = map x (seq 1 k).
Proof.
  intros B a c m seed g k HB Ha Hc Hm Hs H1 H2 E. unfold lcg_new in E.
  replace (m =? 0) with false in E by (symmetry; apply Z.eqb_neq; lia). injection E as <-.
  exists (lcg_seq B a c m seed). split; [reflexivity|].
  split; [apply lcg_seq_exact; try assumption; destruct HB; lia|].
  rewrite (lcg_draws_spec B a c m seed ltac:(destruct HB; lia) k O : lcg_draws B k (Lcg a c m seed) = _).
  reflexivity.
Qed.
Print Assumptions C61_exact_recurrence_partial.

(** The two shipped generators (over u32): multipliers 16807 and 48271,
    increment 0, modulus 2^31 - 1; the product is cut to 32 bits first. *)
Theorem C61_minstd_partial : forall seed k, 0 <= seed < 2 ^ 32 ->
  (exists g x, minstd_rand0 (ROk seed) = ROk g /\ x O = seed /\ (forall i, x (S i) = ((16807 * x i) mod 2 ^ 32) mod (2 ^ 31 - 1)) /\
     fst (lcg_draws 32 k g) = map x (seq 1 k)) /\
  (exists g x, minstd_rand (ROk seed) = ROk g /\ x O = seed /\ (forall i, x (S i) = ((48271 * x i) mod 2 ^ 32) mod (2 ^ 31 - 1)) /\
     fst (lcg_draws 32 k g) = map x (seq 1 k)).
Proof.
  intros seed k _. split.
  - destruct (C61_wrapping_recurrence_partial 32 16807 0 2147483647 seed _ k (or_introl eq_refl) ltac:(lia) eq_refl) as (x & X0 & X & D & _).
    exists (Lcg 16807 0 2147483647 seed), x. split; [reflexivity|]. split; [exact X0|]. split; [|exact D]. intros i. rewrite X, Z.add_0_r. reflexivity.
  - destruct (C61_wrapping_recurrence_partial 32 48271 0 2147483647 seed _ k (or_introl eq_refl) ltac:(lia) eq_refl) as (x & X0 & X & D & _).
    exists (Lcg 48271 0 2147483647 seed), x. split; [reflexivity|]. split; [exact X0|]. split; [|exact D]. intros i. rewrite X, Z.add_0_r. reflexivity.
Qed.
Print Assumptions C61_minstd_partial.

(** [reset] makes the generator equal to a new one; a failing seed leaves it
    alone; a zero modulus is refused. *)
Theorem C61_reset : forall B g seed k,
  let '(r, g') := lcg_reset (ROk seed) g in
  r = ROk tt /\
  (lcg_m g <> 0 -> exists f, lcg_new (ROk seed) (lcg_a g) (lcg_c g) (lcg_m g) = ROk f /\
     lcg_draws B k g' = lcg_draws B k f).
Proof.
  intros B g seed k. cbn [lcg_reset]. split; [reflexivity|]. intros H.
  unfold lcg_new. apply Z.eqb_neq in H. rewrite H. eexists. split; reflexivity.
Qed.
Print Assumptions C61_reset.

Theorem C61_errors : forall sd a c m g e,
  lcg_new sd a c 0 = RErr DivisorIsZero /\
  lcg_reset (RErr e) g = (RErr e, g) /\
  (m <> 0 -> lcg_new (RErr e) a c m = RErr e).
Proof.
  intros sd a c m g e. split; [reflexivity|]. split; [reflexivity|]. intros H. unfold lcg_new.
  apply Z.eqb_neq in H. rewrite H. reflexivity.
Qed.
Print Assumptions C61_errors.

Example C61_case :
  fst (lcg_draws 32 3 (Lcg 16807 0 2147483647 1)) = [16807; 282475249; 1622647863] /\
  fst (lcg_draws 64 3 (Lcg 16807 0 2147483647 1)) = [16807; 282475249; 1622650073].
Proof. vm_compute. split; reflexivity. Qed.

(* ------------------------------------------------------------------ *)
(** * C62 *)

(** The output sequence for every accepted parameter set, seed and number of
    draws: it is a function of parameters and seed, given by the published
    seeding and recurrence, tempered with right shifts. *)
Theorem C62_sequence : forall B p seed g,
  width B -> par_ok B p -> 0 <= seed < 2 ^ B -> mt_new B (ROk seed) p = ROk g ->
  exists x, mt_seeded (mt_w p) (mt_f p) seed (Z.to_nat (mt_n p)) x /\
    mt_recurrence (mt_r p) (mt_a p) (Z.to_nat (mt_n p)) (Z.to_nat (mt_m p)) x /\
    forall k, exists g', mt_draws B k g =
      Ok (map (fun i => right_temper (mt_u p) (mt_d p) (mt_s p) (mt_b p) (mt_t p) (mt_c p) (mt_l p)
                          (x (Z.to_nat (mt_n p) + i)%nat)) (seq 0 k), g').
Proof.
  intros B p seed g _ HP _ E. unfold mt_new in E. destruct (mt_check B p) eqn:C; [|discriminate].
  injection E as <-. pose proof (mt_check_good B p HP C) as HG.
  exists (mt_words B p seed). split; [apply words_seeded; exact HG|].
  split; [apply words_recur; exact HG|].
  intros k. exact (draws_fresh B p HG (mt_n p) seed [] k).
Qed.
Print Assumptions C62_sequence.

(** Seeding and recurrence have only one solution. *)
Theorem C62_sequence_unique : forall B p seed x y,
  par_ok B p -> mt_check B p = true ->
  mt_seeded (mt_w p) (mt_f p) seed (Z.to_nat (mt_n p)) x ->
  mt_recurrence (mt_r p) (mt_a p) (Z.to_nat (mt_n p)) (Z.to_nat (mt_m p)) x ->
  mt_seeded (mt_w p) (mt_f p) seed (Z.to_nat (mt_n p)) y ->
  mt_recurrence (mt_r p) (mt_a p) (Z.to_nat (mt_n p)) (Z.to_nat (mt_m p)) y ->
  forall i, x i = y i.
Proof.
  intros B p seed x y HP C. exact (seq_unique B p (mt_check_good B p HP C) seed x y).
Qed.
Print Assumptions C62_sequence_unique.

(** Outputs are below 2^w. *)
Theorem C62_range : forall B p seed g k l g',
  width B -> par_ok B p -> mt_new B (ROk seed) p = ROk g -> mt_draws B k g = Ok (l, g') ->
  Forall (fun z => 0 <= z < 2 ^ mt_w p) l.
Proof.
  intros B p seed g k l g' _ HP E D. unfold mt_new in E. destruct (mt_check B p) eqn:C; [|discriminate].
  injection E as <-. pose proof (mt_check_good B p HP C) as HG.
  destruct (draws_fresh B p HG (mt_n p) seed [] k) as (g2 & E2). rewrite E2 in D. injection D as <- <-.
  apply Forall_map, Forall_forall. intros i _. apply (temper_range B p HG).
  apply (seq_range B p HG seed); [apply words_seeded | apply words_recur]; exact HG.
Qed.
Print Assumptions C62_range.

(** After [reset(seed)], whatever was drawn before (with any earlier seed), the
    next [k] outputs are those of a new generator with that seed. *)
Theorem C62_reset : forall B p seed0 g0 j l0 g seed k,
  width B -> par_ok B p -> mt_new B (ROk seed0) p = ROk g0 -> mt_draws B j g0 = Ok (l0, g) ->
  exists g1 f l g2 f2,
    mt_reset B (ROk seed) g = Ok (ROk tt, g1) /\ mt_new B (ROk seed) p = ROk f /\
    mt_draws B k g1 = Ok (l, g2) /\ mt_draws B k f = Ok (l, f2).
Proof.
  intros B p seed0 g0 j l0 g seed k _ HP E D. unfold mt_new in *.
  destruct (mt_check B p) eqn:C; [|discriminate].
  injection E as <-. pose proof (mt_check_good B p HP C) as HG.
  assert (EG : mt_p g = p).
  { destruct j as [|j]; [injection D as <- <-; reflexivity|].
    destruct (check_init_inv B p HG (mt_n p) seed0 []) as (gi & Ei & HI).
    rewrite (draws_of_init B _ gi (S j) Ei) in D by lia.
    destruct (draws_inv B p HG seed0 (S j) O gi HI) as (g' & E' & (HP' & _)).
    rewrite E' in D. injection D as <- <-. exact HP'. }
  unfold mt_reset. rewrite EG.
  destruct (check_init_inv B p HG (mt_idx g) seed (mt_state g)) as (g1 & E1 & HI1). rewrite E1. cbn [bind].
  destruct (draws_inv B p HG seed k O g1 HI1) as (g2 & E2 & _).
  destruct (draws_fresh B p HG (mt_n p) seed [] k) as (f2 & F2).
  do 5 eexists. split; [reflexivity|]. split; [reflexivity|]. split; [exact E2 | exact F2].
Qed.
Print Assumptions C62_reset.

(** A seed source that fails changes nothing. *)
Theorem C62_reset_error : forall B e g, mt_reset B (RErr e) g = Ok (RErr e, g).
Proof. reflexivity. Qed.
Print Assumptions C62_reset_error.

(** A small accepted parameter set: w = 8, n = 3, m = 2, r = 5. *)
Definition small_par : mt_par := MtPar 8 3 2 5 157 3 255 2 86 4 200 5 77.
Example C62_case :
  par_ok 32 small_par /\ mt_check 32 small_par = true /\
  exists g g', mt_new 32 (ROk 1000) small_par = ROk g /\
    mt_draws 32 7 g = Ok ([247; 191; 238; 132; 206; 42; 244], g').
Proof.
  split; [apply par_ok_b; reflexivity|]. split; [reflexivity|]. eexists. eexists.
  split; [reflexivity|]. vm_compute. reflexivity.
Qed.

(* ------------------------------------------------------------------ *)
(** * C63 *)

(** The published generator: the word sequence with the published tempering. *)
Definition published (p : mt_par) (seed : Z) (out : nat -> Z) : Prop :=
  exists x, mt_seeded (mt_w p) (mt_f p) seed (Z.to_nat (mt_n p)) x /\
    mt_recurrence (mt_r p) (mt_a p) (Z.to_nat (mt_n p)) (Z.to_nat (mt_m p)) x /\
    forall k, out k = published_temper (mt_u p) (mt_d p) (mt_s p) (mt_b p) (mt_t p) (mt_c p) (mt_l p)
                       (x (Z.to_nat (mt_n p) + k)%nat).

Lemma mt19937_good : par_ok 32 mt19937_par /\ mt_check 32 mt19937_par = true.
Proof. split; [apply par_ok_b; reflexivity | reflexivity]. Qed.
Lemma mt19937_64_good : par_ok 64 mt19937_64_par /\ mt_check 64 mt19937_64_par = true.
Proof. split; [apply par_ok_b; reflexivity | reflexivity]. Qed.

(** With the published default seed 5489 the first output of MT19937 is
    3499211612; the code gives another number. *)
Theorem C63_mt19937_refuted : forall g,
  mt_new 32 (ROk 5489) mt19937_par = ROk g ->
  (forall out, published mt19937_par 5489 out -> out O = 3499211612) /\
  exists z g', mt_gen 32 g = Ok (z, g') /\ z <> 3499211612.
Proof.
  intros g E. destruct mt19937_good as [HP C]. pose proof (mt_check_good 32 _ HP C) as HG.
  split.
  - intros out (x & S1 & R1 & H). rewrite H.
    rewrite (seq_unique 32 _ HG 5489 x (mt_words 32 mt19937_par 5489) S1 R1
               (words_seeded 32 _ HG 5489) (words_recur 32 _ HG 5489)).
    vm_compute. reflexivity.
  - unfold mt_new in E. rewrite C in E. cbn [rmap] in E. injection E as <-.
    destruct (gen_fresh 32 _ HG (mt_n mt19937_par) 5489 []) as (g' & E1).
    eexists. exists g'. split; [exact E1|]. vm_compute. discriminate.
Qed.
Print Assumptions C63_mt19937_refuted.

Theorem C63_mt19937_64_refuted : forall g,
  mt_new 64 (ROk 5489) mt19937_64_par = ROk g ->
  (forall out, published mt19937_64_par 5489 out -> out O = 14514284786278117030) /\
  exists z g', mt_gen 64 g = Ok (z, g') /\ z <> 14514284786278117030.
Proof.
  intros g E. destruct mt19937_64_good as [HP C]. pose proof (mt_check_good 64 _ HP C) as HG.
  split.
  - intros out (x & S1 & R1 & H). rewrite H.
    rewrite (seq_unique 64 _ HG 5489 x (mt_words 64 mt19937_64_par 5489) S1 R1
               (words_seeded 64 _ HG 5489) (words_recur 64 _ HG 5489)).
    vm_compute. reflexivity.
  - unfold mt_new in E. rewrite C in E. cbn [rmap] in E. injection E as <-.
    destruct (gen_fresh 64 _ HG (mt_n mt19937_64_par) 5489 []) as (g' & E1).
    eexists. exists g'. split; [exact E1|]. vm_compute. discriminate.
Qed.
Print Assumptions C63_mt19937_64_refuted.

(** What conforms: for every seed and step the state word is that of MT19937
    (and of its 64-bit form); only the tempering differs.  Missing for C63: the
    left shifts of the tempering. *)
Theorem C63_state_words_partial : forall B p seed g,
  (B = 32 /\ p = mt19937_par) \/ (B = 64 /\ p = mt19937_64_par) ->
  0 <= seed < 2 ^ B -> mt_new B (ROk seed) p = ROk g ->
  exists x, mt_seeded (mt_w p) (mt_f p) seed (Z.to_nat (mt_n p)) x /\
    mt_recurrence (mt_r p) (mt_a p) (Z.to_nat (mt_n p)) (Z.to_nat (mt_m p)) x /\
    forall k, exists g', mt_draws B k g =
      Ok (map (fun i => right_temper (mt_u p) (mt_d p) (mt_s p) (mt_b p) (mt_t p) (mt_c p) (mt_l p)
                          (x (Z.to_nat (mt_n p) + i)%nat)) (seq 0 k), g').
Proof.
  intros B p seed g [[-> ->]|[-> ->]] HS E.
  - exact (C62_sequence 32 mt19937_par seed g (or_introl eq_refl) (proj1 mt19937_good) HS E).
  - exact (C62_sequence 64 mt19937_64_par seed g (or_intror eq_refl) (proj1 mt19937_64_good) HS E).
Qed.
Print Assumptions C63_state_words_partial.

(** Seed 1: the word before tempering, and the output of the code. *)
Example C63_case :
  mt_words 32 mt19937_par 1 624 = 2629073562 /\
  right_temper 11 4294967295 7 2636928640 15 4022730752 18 2629073562 = 2643430902.
Proof. vm_compute. split; reflexivity. Qed.

(* ------------------------------------------------------------------ *)
(** * C64 *)

(** With w equal to the width of the type the test [state + carry] can
    overflow.  u32, w = 32, s = 2, r = 4, seed 0: the sixth draw panics when
    overflow checks are on; when they are off it loses the borrow and the
    seventh is not the subtract-with-carry value. *)
Theorem C64_full_width_refuted : forall g,
  lf_new 32 (ROk 0) 32 2 4 = ROk g ->
  lf_draws true 32 6 g = Panic /\
  exists l g', lf_draws false 32 7 g = Ok (l, g') /\
    ~ exists x c, swc_recurrence 32 2 4 x c /\
        map x (seq 0 4) = lf_state (lf_check_init 32 g) /\
        c 3%nat = lf_carry (lf_check_init 32 g) /\ map x (seq 4 7) = l.
Proof.
  intros g E. injection E as <-. split; [vm_compute; reflexivity|].
  eexists. eexists. split; [vm_compute; reflexivity|].
  intros (x & c & HR & HI & HC & HO).
  vm_compute in HI, HC, HO. injection HI as X0 X1 X2 X3. injection HO as X4 X5 X6 X7 X8 X9 X10.
  destruct (HR 4%nat ltac:(lia)) as [_ C4]. cbn [Nat.sub] in C4. rewrite X2, X0, HC in C4. vm_compute in C4.
  destruct (HR 5%nat ltac:(lia)) as [_ C5]. cbn [Nat.sub] in C5. rewrite X3, X1, C4 in C5. vm_compute in C5.
  destruct (HR 6%nat ltac:(lia)) as [_ C6]. cbn [Nat.sub] in C6. rewrite X4, X2, C5 in C6. vm_compute in C6.
  destruct (HR 7%nat ltac:(lia)) as [_ C7]. cbn [Nat.sub] in C7. rewrite X5, X3, C6 in C7. vm_compute in C7.
  destruct (HR 8%nat ltac:(lia)) as [_ C8]. cbn [Nat.sub] in C8. rewrite X6, X4, C7 in C8. vm_compute in C8.
  destruct (HR 9%nat ltac:(lia)) as [_ C9]. cbn [Nat.sub] in C9. rewrite X7, X5, C8 in C9. vm_compute in C9.
  destruct (HR 10%nat ltac:(lia)) as [Y10 _]. cbn [Nat.sub] in Y10. rewrite X8, X6, C9, X10 in Y10.
  vm_compute in Y10. discriminate.
Qed.
Print Assumptions C64_full_width_refuted.

(** For a word size below the width: outputs follow subtract-with-carry for
    every parameter set, seed and step, from [r] initial words made of
    successive outputs of a linear congruential generator (with the wrap-around
    of C61).  Missing for C64: word sizes equal to the width; with overflow
    checks on, a long lag above half the type's range. *)
Theorem C64_subtract_with_carry_partial : forall checks B w s r seed g,
  width B -> 0 < w < B -> 0 < s < r -> r < 2 ^ B -> 0 <= seed < 2 ^ B ->
  checks = false \/ 2 * r <= 2 ^ B ->
  lf_new B (ROk seed) w s r = ROk g ->
  exists x c z,
    (z O = seed /\ forall i, z (S i) = ((40014 * z i) mod 2 ^ B) mod 2147483563) /\
    (let n := Z.to_nat ((w + 31) / 32) in
     forall i, (i < Z.to_nat r)%nat ->
       x i = le_value (2 ^ 32) (map z (seq (n * i + 1) n)) mod 2 ^ w) /\
    c (Z.to_nat r - 1)%nat = (if x (Z.to_nat r - 1)%nat =? 0 then 1 else 0) /\
    swc_recurrence w (Z.to_nat s) (Z.to_nat r) x c /\
    (forall i, 0 <= x i < 2 ^ w) /\
    forall k, exists g', lf_draws checks B k g = Ok (map (fun i => x (Z.to_nat r + i)%nat) (seq 0 k), g').
Proof.
  intros checks B w s r seed g HB Hw Hs Hr HS HC E.
  unfold lf_new in E.
  replace (w =? 0) with false in E by (symmetry; apply Z.eqb_neq; lia).
  replace (s =? 0) with false in E by (symmetry; apply Z.eqb_neq; lia).
  replace (r =? 0) with false in E by (symmetry; apply Z.eqb_neq; lia).
  replace (r <=? s) with false in E by (symmetry; apply Z.leb_gt; lia).
  replace (B <? w) with false in E by (symmetry; apply Z.ltb_ge; lia).
  injection E as <-.
  assert (HB32 : 32 <= B) by (destruct HB; lia).
  assert (H1 : (1 <= Z.to_nat s < Z.to_nat r)%nat) by lia.
  pose proof (lf_recur B w (Z.to_nat s) (Z.to_nat r) H1 Hw seed) as HR.
  pose proof (lf_range B w (Z.to_nat s) (Z.to_nat r) H1 Hw seed) as HRg.
  exists (lf_words B w (Z.to_nat s) (Z.to_nat r) seed), (lf_borrows B w (Z.to_nat s) (Z.to_nat r) seed),
    (lcg_seq B 40014 0 2147483563 seed).
  assert (HI : forall i, (i < Z.to_nat r)%nat ->
     lf_words B w (Z.to_nat s) (Z.to_nat r) seed i = nth i (lf_init B w (Z.to_nat r) seed) 0).
  { intros i Hi. unfold lf_words. rewrite lf_pairs_init by assumption. reflexivity. }
  split; [split; [reflexivity | intros i; cbn [lcg_seq]; rewrite Z.add_0_r; reflexivity]|].
  split.
  { cbv zeta. intros i Hi. rewrite HI by exact Hi. unfold lf_init.
    exact (lf_fill_spec B w seed HB32 ltac:(lia) (Z.to_nat r) O i Hi). }
  split.
  { unfold lf_borrows at 1. rewrite lf_pairs_init by lia. cbn [snd]. rewrite HI by lia. unfold lf_carry0.
    replace (last (lf_init B w (Z.to_nat r) seed) 0)
      with (nth (Z.to_nat r - 1) (lf_init B w (Z.to_nat r) seed) 0); [reflexivity|].
    assert (HLn : length (lf_init B w (Z.to_nat r) seed) = Z.to_nat r) by apply lf_fill_len.
    rewrite <- HLn at 1. revert HLn. generalize (lf_init B w (Z.to_nat r) seed). intros l _.
    induction l as [|y [|y' l] IH]; [reflexivity | reflexivity |].
    cbn [length]. replace (S (S (length l)) - 1)%nat with (S (length l)) by lia.
    cbn [last nth]. cbn [length] in IH. replace (S (length l) - 1)%nat with (length l) in IH by lia. exact IH. }
  split; [exact HR|]. split; [intros i; exact (proj1 (HRg i))|].
  intros k.
  pose proof (lf_draws_fresh checks B w (Z.to_nat s) (Z.to_nat r) H1 Hw) as D.
  rewrite !Z2Nat.id in D by lia. exact (D Hr HC seed 0 0 [] k).
Qed.
Print Assumptions C64_subtract_with_carry_partial.

(** [reset] restarts the generator whatever its state. *)
Theorem C64_reset : forall checks B g seed k,
  0 < lf_w g <= B -> 0 < lf_s g < lf_r g -> (0 < k)%nat ->
  exists g1 f, lf_reset B (ROk seed) g = (ROk tt, g1) /\
    lf_new B (ROk seed) (lf_w g) (lf_s g) (lf_r g) = ROk f /\
    lf_draws checks B k g1 = lf_draws checks B k f.
Proof.
  intros checks B g seed k Hw Hs Hk. unfold lf_new.
  replace (lf_w g =? 0) with false by (symmetry; apply Z.eqb_neq; lia).
  replace (lf_s g =? 0) with false by (symmetry; apply Z.eqb_neq; lia).
  replace (lf_r g =? 0) with false by (symmetry; apply Z.eqb_neq; lia).
  replace (lf_r g <=? lf_s g) with false by (symmetry; apply Z.leb_gt; lia).
  replace (B <? lf_w g) with false by (symmetry; apply Z.ltb_ge; lia).
  do 2 eexists. split; [reflexivity|]. split; [reflexivity|].
  rewrite (lf_draws_init checks B 1 2 ltac:(lia) k (Lfg _ _ _ true seed 0 0 [])) by exact Hk. reflexivity.
Qed.
Print Assumptions C64_reset.

Example C64_case :
  exists g g', lf_new 32 (ROk 12345) 24 10 24 = ROk g /\
    lf_draws true 32 3 g = Ok ([8726260; 5148248; 11337509], g').
Proof. eexists. eexists. split; [reflexivity|]. vm_compute. reflexivity. Qed.

(* ------------------------------------------------------------------ *)
(** * C65 *)

(** For every source and every sequence of [next] and [clear_error] calls on a
    new iterator: the source was asked some number [k] of times, the values
    handed out are, in order, all values among its first [k] results, and a
    pending error is the last of these results. *)
Theorem C65_nothing_skipped : forall (S : Type) (gen : S -> rres Z * S) s ops,
  let '(out, it) := iter_run gen ops (iter_new s) in
  exists k, it_inner it = snd (pulls gen k s) /\
    somes out = values (fst (pulls gen k s)) /\
    (forall e, iter_last_error it = Some e -> exists l, fst (pulls gen k s) = l ++ [RErr e]).
Proof.
  intros S gen s ops.
  destruct (iter_run_spec gen s ops (iter_new s) O) as (k & H); [reflexivity | intros e E; discriminate |].
  destruct (iter_run gen ops (iter_new s)) as [out it]. destruct H as (_ & H1 & H2 & H3).
  exists k. split; [exact H1|]. split; [symmetry; exact H3 | exact H2].
Qed.
Print Assumptions C65_nothing_skipped.

(** While an error is pending [next] gives [None] and does not touch the
    source; otherwise it asks the source once, and an error becomes pending. *)
Theorem C65_next : forall (S : Type) (gen : S -> rres Z * S) it,
  (forall e, iter_last_error it = Some e -> iter_next gen it = (None, it)) /\
  (iter_last_error it = None ->
   (forall x s, gen (it_inner it) = (ROk x, s) ->
      fst (iter_next gen it) = Some x /\ it_inner (snd (iter_next gen it)) = s /\
      iter_last_error (snd (iter_next gen it)) = None) /\
   (forall e s, gen (it_inner it) = (RErr e, s) ->
      fst (iter_next gen it) = None /\ it_inner (snd (iter_next gen it)) = s /\
      iter_last_error (snd (iter_next gen it)) = Some e)) /\
  (iter_last_error (iter_clear_error it) = None /\ it_inner (iter_clear_error it) = it_inner it).
Proof.
  intros S gen it. unfold iter_next, iter_last_error. split; [intros e ->; reflexivity|].
  split; [|split; reflexivity].
  intros ->. split.
  - intros x s ->. repeat split.
  - intros e s ->. repeat split.
Qed.
Print Assumptions C65_next.

(** A source that fails on every third call. *)
Definition third (s : Z) : rres Z * Z :=
  (if s mod 3 =? 2 then RErr NoNewRandNumberGen else ROk (s * 10), s + 1).
Example C65_case :
  iter_run third [INext; INext; INext; INext; IClear; INext] (iter_new 0)
  = ([Some 0; Some 10; None; None; Some 30], Iter 4 None).
Proof. reflexivity. Qed.

(* ------------------------------------------------------------------ *)
(** * C66 *)

(** For every history of requests and system call results, starting with an
    empty queue: the bytes delivered by successful requests, in order, are a
    prefix of the bytes the system gave (the rest is in the queue), and every
    successful request is filled completely. *)
Theorem C66_fresh_bytes : forall reqs,
  Forall (fun r : option (list Z) * list Z => (length (sys_bytes (fst r)) <= length (snd r))%nat) reqs ->
  let '(l, q) := random_run reqs [] in
  flat_map (fun r : option (list Z) * list Z => sys_bytes (fst r)) reqs = delivered l ++ rev q /\
  Forall2 (fun (r : option (list Z) * list Z) (o : bool * list Z) =>
             fst o = true -> length (snd o) = length (snd r)) reqs l.
Proof. intros reqs H. exact (random_run_spec reqs [] H). Qed.
Print Assumptions C66_fresh_bytes.

(** A request succeeds exactly when queue and system together have enough. *)
Theorem C66_success : forall q sys buf,
  (length (sys_bytes sys) <= length buf)%nat ->
  (fst (fst (gen_random q sys buf)) = true <-> (length buf <= length q + length (sys_bytes sys))%nat).
Proof.
  intros q sys buf H. pose proof (gen_random_spec q sys buf H) as G.
  destruct (gen_random q sys buf) as [[ok out] q']. cbn [fst].
  destruct ok; destruct G as [G1 G2].
  - split; [|reflexivity]. intros _. apply (f_equal (@length Z)) in G2.
    rewrite !app_length, !rev_length in G2. lia.
  - rewrite app_length, rev_length in G2. split; [discriminate | lia].
Qed.
Print Assumptions C66_success.

(** [CryptoRand] of the portable build: the number is the little-endian value
    of the next bytes. *)
Theorem C66_crypto_word : forall len q sys,
  (length (sys_bytes sys) <= len)%nat ->
  let '(r, q') := crypto_gen len q sys in
  match r with
  | ROk x => exists bs, length bs = len /\ x = le_value 256 bs /\ rev q ++ sys_bytes sys = bs ++ rev q'
  | RErr e => e = InnerErr /\ rev q' = rev q ++ sys_bytes sys
  end.
Proof.
  intros len q sys H. unfold crypto_gen.
  pose proof (gen_random_spec q sys (repeat 0 len)) as G. rewrite repeat_length in G. specialize (G H).
  destruct (gen_random q sys (repeat 0 len)) as [[ok out] q']. destruct ok.
  - exists out. destruct G as [G1 G2]. split; [exact G1|]. split; [reflexivity | exact G2].
  - split; [reflexivity | exact (proj1 G)].
Qed.
Print Assumptions C66_crypto_word.

Example C66_case :
  random_run [(Some [1; 2], [0; 0; 0]); (Some [3; 4], [0; 0]); (None, [0; 0; 0]); (Some [5], [0; 0; 0])] []
  = ([(false, [1; 2; 0]); (true, [1; 2]); (false, [0; 0; 0]); (true, [3; 4; 5])], []).
Proof. reflexivity. Qed.

(* ------------------------------------------------------------------ *)
(** * C69 *)

(** The documentation allows [l = 0] and forbids [u = 0]; the constructor
    refuses the former and accepts the latter. *)
Definition documented (B : Z) (p : mt_par) : Prop :=
  0 < mt_w p <= B /\ 1 <= mt_m p <= mt_n p /\ 0 < mt_r p < mt_w p /\ 0 < mt_a p <= 2 ^ mt_w p - 1 /\
  0 < mt_u p < mt_w p /\ 0 < mt_d p <= 2 ^ mt_w p - 1 /\ 0 < mt_s p < mt_w p /\ 0 < mt_b p <= 2 ^ mt_w p - 1 /\
  0 < mt_t p < mt_w p /\ 0 < mt_c p <= 2 ^ mt_w p - 1 /\ 0 <= mt_l p < mt_w p /\ 0 < mt_f p <= 2 ^ mt_w p - 1.

Theorem C69_documented_parameters_refuted :
  (exists p, par_ok 32 p /\ documented 32 p /\ forall seed, mt_new 32 (ROk seed) p = RErr InvalidRngPara) /\
  (exists p g, par_ok 32 p /\ ~ documented 32 p /\ mt_new 32 (ROk 1) p = ROk g).
Proof.
  split.
  - exists (MtPar 8 3 2 5 157 3 255 2 86 4 200 0 77). split; [apply par_ok_b; reflexivity|].
    split; [unfold documented; cbn; lia|]. reflexivity.
  - exists (MtPar 8 3 2 5 157 0 255 2 86 4 200 5 77). eexists. split; [apply par_ok_b; reflexivity|].
    split; [unfold documented; cbn; lia | reflexivity].
Qed.
Print Assumptions C69_documented_parameters_refuted.

(** Otherwise the constructor accepts what is documented: it accepts every
    documented set with [l > 0], and accepts nothing else than documented sets,
    except that one of a shift and its mask (not both) may be 0. *)
Theorem C69_parameters_partial : forall B p seed,
  width B -> par_ok B p ->
  ((exists g, mt_new B (ROk seed) p = ROk g) <->
   (0 < mt_w p <= B /\ 1 <= mt_m p <= mt_n p /\ 0 < mt_r p < mt_w p /\ 0 < mt_a p <= 2 ^ mt_w p - 1 /\
    mt_u p < mt_w p /\ mt_d p <= 2 ^ mt_w p - 1 /\ 0 < mt_u p + mt_d p /\
    mt_s p < mt_w p /\ mt_b p <= 2 ^ mt_w p - 1 /\ 0 < mt_s p + mt_b p /\
    mt_t p < mt_w p /\ mt_c p <= 2 ^ mt_w p - 1 /\ 0 < mt_t p + mt_c p /\
    0 < mt_l p < mt_w p /\ 0 < mt_f p <= 2 ^ mt_w p - 1)).
Proof.
  intros B p seed _ HP. unfold mt_new.
  assert (E : mt_check B p = true <->
   (0 < mt_w p <= B /\ 1 <= mt_m p <= mt_n p /\ 0 < mt_r p < mt_w p /\ 0 < mt_a p <= 2 ^ mt_w p - 1 /\
    mt_u p < mt_w p /\ mt_d p <= 2 ^ mt_w p - 1 /\ 0 < mt_u p + mt_d p /\
    mt_s p < mt_w p /\ mt_b p <= 2 ^ mt_w p - 1 /\ 0 < mt_s p + mt_b p /\
    mt_t p < mt_w p /\ mt_c p <= 2 ^ mt_w p - 1 /\ 0 < mt_t p + mt_c p /\
    0 < mt_l p < mt_w p /\ 0 < mt_f p <= 2 ^ mt_w p - 1)).
  { unfold par_ok in HP. rewrite !Forall_cons_iff in HP.
    destruct HP as (H1 & H2 & H3 & H4 & H5 & H6 & H7 & H8 & H9 & H10 & H11 & H12 & H13 & _).
    split.
    - intros HC. unfold mt_check in HC. rewrite !andb_true_iff, !negb_true_iff, !orb_false_iff, !andb_false_iff in HC.
      decompose [and] HC; clear HC.
      repeat match goal with
      | H : (_ =? _) = false |- _ => apply Z.eqb_neq in H
      | H : (_ <? _) = false |- _ => apply Z.ltb_ge in H
      | H : (_ <=? _) = false |- _ => apply Z.leb_gt in H
      end.
      rewrite (pmask_val B (mt_w p)) in * by lia.
      repeat match goal with
      | H : (_ =? _) = false \/ (_ =? _) = false |- _ => rewrite !Z.eqb_neq in H
      end.
      lia.
    - intros HD. unfold mt_check. rewrite (pmask_val B (mt_w p)) by lia.
      rewrite !andb_true_iff, !negb_true_iff, !orb_false_iff, !andb_false_iff.
      rewrite !Z.eqb_neq, !Z.ltb_ge, !Z.leb_gt. lia. }
  destruct (mt_check B p).
  - split; [intros _; apply E; reflexivity | intros _; eexists; reflexivity].
  - split; [intros [g Hg]; discriminate | intros H; apply E in H; discriminate].
Qed.
Print Assumptions C69_parameters_partial.

Example C69_case : mt_check 32 (MtPar 8 3 2 8 157 3 255 2 86 4 200 5 77) = false.
Proof. reflexivity. Qed.

(* ------------------------------------------------------------------ *)
(** * C70 *)

(** A failed [gen_random] shows its caller bytes which a later request
    delivers. *)
Theorem C70_failed_request_refuted :
  exists buf q1, gen_random [] (Some [17]) [0; 0] = (false, buf, q1) /\ In 17 buf /\
  exists out q2, gen_random q1 (Some [35]) [0; 0] = (true, out, q2) /\ In 17 out.
Proof.
  do 2 eexists. split; [reflexivity|]. split; [left; reflexivity|].
  do 2 eexists. split; [reflexivity|]. left. reflexivity.
Qed.
Print Assumptions C70_failed_request_refuted.

(** Only that: the bytes shown by a failed request are the ones the system
    wrote in this call, and the rest of the buffer is unchanged. *)
Theorem C70_failed_request_partial : forall q sys buf out q',
  (length (sys_bytes sys) <= length buf)%nat ->
  gen_random q sys buf = (false, out, q') ->
  out = sys_bytes sys ++ skipn (length (sys_bytes sys)) buf.
Proof.
  intros q sys buf out q' H E. unfold gen_random in E. cbv zeta in E.
  destruct sys as [bs|]; cbn [sys_bytes length] in *;
    match type of E with context [if ?b then _ else _] => destruct b end; try discriminate;
    injection E as <- _; reflexivity.
Qed.
Print Assumptions C70_failed_request_partial.

Example C70_case : gen_random [9] None [1; 2] = (false, [1; 2], [9]).
Proof. reflexivity. Qed.
