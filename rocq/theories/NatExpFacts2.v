(** [Nat::exp] is modular exponentiation. *)
From Coq Require Import ZArith Znumtheory Zpow_facts List Lia Bool PeanoNat.
From Verif Require Import Words WordsFacts NatModel NatFacts NatFacts2 NatFacts3 NatFacts5 VecPrims VecFacts Karatsuba KaraFacts KaraFacts2 NatExp NatExpFacts.
Import ListNotations.
Open Scope Z_scope.

Lemma win_nibbles_spec sq mu powers (P : Z -> list Z -> Prop) :
  (forall e z, 0 <= e -> P e z -> exists z', sq z = Ok z' /\ P (2 * e) z') ->
  (forall e z k, 0 <= e -> P e z -> 0 <= k < 16 -> exists z', mu z (nth (Z.to_nat k) powers []) = Ok z' /\ P (e + k) z') ->
  forall cnt skip yi e z, 0 <= e -> (skip = true -> e = 0) -> 0 <= yi < W -> (cnt <= 8)%nat -> P e z ->
  exists z', win_nibbles sq mu powers cnt skip yi z = Ok z' /\
    P (e * 16 ^ Z.of_nat cnt + yi / 2 ^ (32 - 4 * Z.of_nat cnt)) z'.
Proof.
  intros Hsq Hmu. induction cnt as [|c IH]; intros skip yi e z He Hs Hy Hc HP; cbn [win_nibbles].
  - exists z. split; [auto|]. change (16 ^ Z.of_nat 0) with 1. change (2 ^ (32 - 4 * Z.of_nat 0)) with W.
    rewrite Z.div_small, Z.mul_1_r, Z.add_0_r by lia. auto.
  - assert (S1 : exists z1, (if skip then Ok z else do z <- sq z; do z <- sq z; do z <- sq z; sq z) = Ok z1 /\ P (16 * e) z1).
    { destruct skip.
      - exists z. rewrite (Hs eq_refl) in *. auto.
      - destruct (Hsq e z He HP) as (a & -> & Ha). cbn [bind].
        destruct (Hsq (2 * e) a ltac:(lia) Ha) as (b & -> & Hb). cbn [bind].
        destruct (Hsq (2 * (2 * e)) b ltac:(lia) Hb) as (d & -> & Hd). cbn [bind].
        destruct (Hsq (2 * (2 * (2 * e))) d ltac:(lia) Hd) as (f & -> & Hf).
        exists f. split; [auto|]. replace (16 * e) with (2 * (2 * (2 * (2 * e)))) by ring. auto. }
    destruct S1 as (z1 & -> & HP1). cbn [bind].
    assert (Bk : 0 <= yi / 2 ^ 28 < 16) by (split; [apply Z.div_pos; lia|apply Z.div_lt_upper_bound; lia]).
    destruct (Hmu (16 * e) z1 (yi / 2 ^ 28) ltac:(lia) HP1 Bk) as (z2 & -> & HP2). cbn [bind].
    destruct (IH false ((yi * 16) mod W) (16 * e + yi / 2 ^ 28) z2) as (z' & E & HP'); auto; try lia.
    { apply Z.mod_pos_bound; lia. }
    exists z'. split; [auto|]. 
    replace (e * 16 ^ Z.of_nat (S c) + yi / 2 ^ (32 - 4 * Z.of_nat (S c)))
      with ((16 * e + yi / 2 ^ 28) * 16 ^ Z.of_nat c + (yi * 16) mod W / 2 ^ (32 - 4 * Z.of_nat c)); [auto|].
    rewrite Nat2Z.inj_succ, Z.pow_succ_r by lia. set (j := Z.of_nat c) in *.
    pose proof (Z.div_mod yi (2 ^ 28) ltac:(lia)) as DM. pose proof (Z.mod_pos_bound yi (2 ^ 28) ltac:(lia)) as BM.
    set (q := yi / 2 ^ 28) in *. set (r := yi mod 2 ^ 28) in *.
    assert (E1 : (yi * 16) mod W = r * 16).
    { symmetry. apply (Z.mod_unique_pos _ _ q); lia. }
    rewrite E1. replace (2 ^ (32 - 4 * j)) with (2 ^ (28 - 4 * j) * 16).
    2:{ change 16 with (2 ^ 4). rewrite <- Z.pow_add_r by lia. f_equal. lia. }
    rewrite Z.div_mul_cancel_r by (try lia; apply Z.pow_nonzero; lia).
    replace (32 - 4 * Z.succ j) with (28 - 4 * j) by lia.
    rewrite DM. replace (2 ^ 28 * q + r) with (r + (q * 16 ^ j) * 2 ^ (28 - 4 * j)).
    + rewrite Z.div_add by (apply Z.pow_nonzero; lia). ring.
    + change 16 with (2 ^ 4). rewrite <- Z.pow_mul_r, <- Z.mul_assoc, <- Z.pow_add_r by lia.
      replace (4 * j + (28 - 4 * j)) with 28 by lia. ring.
Qed.

Lemma win_words_spec sq mu powers (P : Z -> list Z -> Prop) :
  (forall e z, 0 <= e -> P e z -> exists z', sq z = Ok z' /\ P (2 * e) z') ->
  (forall e z k, 0 <= e -> P e z -> 0 <= k < 16 -> exists z', mu z (nth (Z.to_nat k) powers []) = Ok z' /\ P (e + k) z') ->
  forall ys first e z, words_ok ys -> 0 <= e -> (first = true -> e = 0) -> P e z ->
  exists z', win_words sq mu powers first ys z = Ok z' /\ P (e * Wp (length ys) + bval ys) z'.
Proof.
  intros Hsq Hmu. induction ys as [|y ys IH]; intros first e z Wy He Hf HP; cbn [win_words].
  - exists z. cbn [length bval]. change (Wp 0) with 1. rewrite Z.mul_1_r, Z.add_0_r. auto.
  - apply words_ok_cons in Wy as [By Wy].
    destruct (win_nibbles_spec sq mu powers P Hsq Hmu 8 first y e z) as (z1 & -> & HP1); auto. cbn [bind].
    change (16 ^ Z.of_nat 8) with W in HP1. change (2 ^ (32 - 4 * Z.of_nat 8)) with 1 in HP1. rewrite Z.div_1_r in HP1.
    destruct (IH false (e * W + y) z1) as (z' & E & HP'); auto; [nia|discriminate|].
    exists z'. split; [auto|]. cbn [length bval]. rewrite Wp_S.
    replace (e * (W * Wp (length ys)) + (y * Wp (length ys) + bval ys)) with ((e * W + y) * Wp (length ys) + bval ys) by ring.
    auto.
Qed.

(* ------------------------------------------------------------------ *)
(** * Montgomery *)
Lemma odd_coprime_pow m n : Z.odd m = true -> rel_prime (Wp n) m.
Proof.
  intros O. apply rel_prime_sym, rel_prime_Zpower_r; [lia|]. change W with (2 ^ 32). apply rel_prime_Zpower_r; [lia|].
  apply bezout_rel_prime. apply Z.odd_spec in O. destruct O as [q ->].
  apply Bezout_intro with 1 (- q). ring.
Qed.
Lemma mod_cancel R m a b : rel_prime R m -> (a * R) mod m = (b * R) mod m -> a mod m = b mod m.
Proof.
  intros HR H. destruct (Z.eq_dec m 0) as [->|Hm].
  - rewrite !Zmod_0_r in *. destruct (Z.eq_dec R 0) as [->|]; [|nia].
    destruct HR as [_ _ HR]. exfalso. specialize (HR 2 ltac:(exists 0; lia) ltac:(exists 0; lia)).
    destruct HR as [q HR]. lia.
  - apply Zmod_divide_minus_iff || idtac.
    assert (D : (m | (a - b) * R)).
    { apply Z.mod_divide; [auto|]. replace ((a - b) * R) with (a * R - b * R) by ring.
      rewrite Zminus_mod, H, Z.sub_diag. apply Zmod_0_l. }
    rewrite Z.mul_comm in D. apply Gauss in D; [|apply rel_prime_sym; auto].
    destruct D as [q D]. replace a with (b + q * m) by lia. apply Z_mod_plus_full.
Qed.

Section Mont.
Variables (n : nat) (m : list Z) (k x : Z).
Hypotheses (Lm : length m = n) (Wm : words_ok m) (Hn : (0 < n)%nat) (Hk : (hd 0 m * k + 1) mod W = 0)
  (Bk : 0 <= k < W) (Cop : rel_prime (Wp n) (nval m)).

Definition mrep (a : Z) (z : list Z) : Prop :=
  length z = n /\ words_ok z /\ nval z mod nval m = (a * Wp n) mod nval m.

Lemma mont_mul a b z y : mrep a z -> mrep b y -> exists r, montgomery z y m k n = Ok r /\ mrep (a * b) r.
Proof.
  intros (L1 & W1 & V1) (L2 & W2 & V2).
  destruct (montgomery_spec n z y m k) as (r & E & Lr & Wr & Vr); auto.
  exists r. split; [auto|]. split; [auto|]. split; [auto|].
  apply (mod_cancel (Wp n) (nval m)); [auto|]. rewrite Vr, Zmult_mod, V1, V2, <- Zmult_mod. f_equal. ring.
Qed.
Lemma mont_one a z one : mrep a z -> length one = n -> words_ok one -> nval one = 1 ->
  exists r, montgomery z one m k n = Ok r /\ length r = n /\ words_ok r /\ nval r mod nval m = a mod nval m.
Proof.
  intros (L1 & W1 & V1) L2 W2 V2.
  destruct (montgomery_spec n z one m k) as (r & E & Lr & Wr & Vr); auto.
  exists r. split; [auto|]. split; [auto|]. split; [auto|].
  apply (mod_cancel (Wp n) (nval m)); [auto|]. rewrite Vr, V2, Z.mul_1_r. auto.
Qed.
Lemma mont_enter z rr : length z = n -> words_ok z -> length rr = n -> words_ok rr ->
  nval rr mod nval m = (Wp n * Wp n) mod nval m -> exists r, montgomery z rr m k n = Ok r /\ mrep (nval z) r.
Proof.
  intros L1 W1 L2 W2 V2.
  destruct (montgomery_spec n z rr m k) as (r & E & Lr & Wr & Vr); auto.
  exists r. split; [auto|]. split; [auto|]. split; [auto|].
  apply (mod_cancel (Wp n) (nval m)); [auto|]. rewrite Vr, <- Zmult_mod_idemp_r, V2, Zmult_mod_idemp_r. f_equal. ring.
Qed.
Lemma mont_powers_spec p1 : mrep x p1 -> forall cnt j prev, 0 <= j -> mrep (x ^ j) prev ->
  exists ps, mont_powers cnt prev p1 m k n = Ok ps /\ length ps = cnt /\
    forall i, (i < cnt)%nat -> mrep (x ^ (j + 1 + Z.of_nat i)) (nth i ps []).
Proof.
  intros H1. induction cnt as [|c IH]; intros j prev Hj Hp; cbn [mont_powers].
  - exists []. split; [auto|]. split; [auto|]. intros i Hi. lia.
  - destruct (mont_mul (x ^ j) x prev p1 Hp H1) as (p & -> & Hpp). cbn [bind].
    rewrite Z.mul_comm, <- Z.pow_succ_r in Hpp by auto.
    destruct (IH (Z.succ j) p ltac:(lia) Hpp) as (ps & -> & L & Hps). cbn [bind].
    exists (p :: ps). split; [auto|]. split; [cbn [length]; lia|]. intros [|i] Hi.
    + cbn [nth Z.of_nat]. rewrite Z.add_0_r. auto.
    + cbn [nth]. rewrite Nat2Z.inj_succ. replace (j + 1 + Z.succ (Z.of_nat i)) with (Z.succ j + 1 + Z.of_nat i) by lia.
      apply Hps. lia.
Qed.
End Mont.

Lemma pad_spec l n : words_ok l -> (length l <= n)%nat -> length (pad l n) = n /\ words_ok (pad l n) /\ nval (pad l n) = nval l.
Proof.
  intros Wl Hl. unfold pad. split; [rewrite app_length, repeat_length; lia|].
  split; [apply words_app; auto using words_ok_repeat0|]. rewrite nval_app, nval_repeat0. lia.
Qed.

Lemma nat_rem_of_Z a m : canon a -> canon m -> 0 < nval m -> nat_rem a m = Ok (of_Z (nval a mod nval m)).
Proof. intros. unfold nat_rem. rewrite op2r_canon by auto. apply rem_inner_of_Z; auto. Qed.

Lemma canon_len_le a b : canon a -> canon b -> nval a <= nval b -> (length a <= length b)%nat.
Proof.
  intros Ha Hb H. destruct (Nat.le_gt_cases (length a) (length b)) as [|L]; [auto|].
  pose proof (canon_len_lt b a Hb Ha L). lia.
Qed.

Lemma hd_odd m : words_ok m -> m <> [] -> Z.odd (hd 0 m) = Z.odd (nval m).
Proof.
  destruct m as [|a m]; intros Wm Nm; [congruence|]. cbn [hd]. rewrite nval_cons, Z.odd_add, Z.odd_mul.
  change (Z.odd W) with false. cbn [andb]. destruct (Z.odd a); reflexivity.
Qed.

Lemma exp_montgomery_words x y m : words_ok x -> x <> [] -> words_ok y -> canon m -> Z.odd (nval m) = true ->
  exp_montgomery x y m = Ok (of_Z (nval x ^ nval y mod nval m)).
Proof.
  intros Wx Nx Hy Hm Om. pose proof (canon_nonneg m Hm) as M0. pose proof (nval_nonneg x Wx) as X0.
  assert (TX : canon (trim x)) by (apply trim_canon; auto). assert (VT : nval (trim x) = nval x) by apply trim_val.
  assert (LT : (length (trim x) <= length x)%nat) by apply trim_len.
  assert (Mp : 0 < nval m) by (destruct (Z.eq_dec (nval m) 0) as [E|]; [rewrite E in Om; discriminate|lia]).
  pose proof (canon_words m Hm) as Wm. pose proof (canon_nonnil m Hm) as Nm.
  assert (Hn : (0 < length m)%nat) by (apply nonnil_len; auto).
  unfold exp_montgomery. set (n := length m) in *.
  (* the base *)
  assert (EX : exists x1, (if (n <? length x)%nat then nat_rem (trim x) m else Ok (trim x)) = Ok x1 /\ canon x1 /\
            (length x1 <= n)%nat /\ nval x1 mod nval m = nval x mod nval m).
  { destruct (Nat.ltb_spec n (length x)) as [L|L].
    - rewrite nat_rem_of_Z, VT by auto. eexists. split; [reflexivity|].
      pose proof (Z.mod_pos_bound (nval x) (nval m) Mp) as B.
      assert (C : canon (of_Z (nval x mod nval m))) by (apply of_Z_canon; lia). split; [auto|].
      rewrite of_Z_val by lia. split; [|apply Zmod_mod].
      apply canon_len_le; auto. rewrite of_Z_val by lia. lia.
    - exists (trim x). rewrite VT. split; [auto|]. split; [auto|]. split; [lia|auto]. }
  destruct EX as (x1 & -> & Cx1 & Lx1 & Vx1). cbn [bind].
  destruct (pad_spec x1 n (canon_words _ Cx1) Lx1) as (PX1 & PX2 & PX3).
  (* k0 *)
  assert (Hd : 0 <= hd 0 m < W).
  { destruct m; [congruence|]. apply words_ok_cons in Wm as [B _]. exact B. }
  destruct (mont_k0_spec (hd 0 m) Hd) as [Hk Bk]; [rewrite hd_odd by auto; auto|].
  set (k := mont_k0 (hd 0 m)) in *.
  (* rr *)
  assert (C1 : canon (from_u32 1)) by (apply canon_single; lia).
  assert (ESH : nat_shl (from_u32 1) (64 * Z.of_nat n) = of_Z (Wp n * Wp n)).
  { unfold nat_shl. rewrite op1_canon by auto. change (from_u32 1) with (of_Z 1). rewrite shl_of_Z by lia.
    f_equal. rewrite Z.mul_1_l, Wp_pow2, <- Z.pow_add_r by lia. f_equal. lia. }
  pose proof (Wp_pos n) as Rp.
  rewrite ESH, nat_rem_of_Z; [|apply of_Z_canon; nia|auto|auto]. cbn [bind]. rewrite of_Z_val by nia.
  pose proof (Z.mod_pos_bound (Wp n * Wp n) (nval m) Mp) as BRR.
  assert (CRR : canon (of_Z ((Wp n * Wp n) mod nval m))) by (apply of_Z_canon; lia).
  destruct (pad_spec (of_Z ((Wp n * Wp n) mod nval m)) n (canon_words _ CRR)) as (RR1 & RR2 & RR3).
  { apply canon_len_le; auto. rewrite of_Z_val by lia. lia. }
  set (rr := pad (of_Z ((Wp n * Wp n) mod nval m)) n) in *. rewrite of_Z_val in RR3 by lia.
  assert (VRR : nval rr mod nval m = (Wp n * Wp n) mod nval m) by (rewrite RR3; apply Zmod_mod).
  destruct (pad_spec (from_u32 1) n (canon_words _ C1) ltac:(cbn; lia)) as (O1 & O2 & O3).
  set (one := pad (from_u32 1) n) in *. change (nval (from_u32 1)) with 1 in O3.
  pose proof (odd_coprime_pow (nval m) n Om) as Cop.
  destruct (mont_enter n m k eq_refl Wm Hn Hk Bk Cop one rr) as (p0 & -> & HP0); auto. cbn [bind].
  destruct (mont_enter n m k eq_refl Wm Hn Hk Bk Cop (pad x1 n) rr) as (p1 & -> & HP1); auto. cbn [bind].
  rewrite O3 in HP0. rewrite PX3 in HP1.
  assert (HP1' : mrep n m (nval x) p1).
  { destruct HP1 as (A & B & C). split; [auto|]. split; [auto|]. rewrite C.
    rewrite <- Zmult_mod_idemp_l, Vx1, Zmult_mod_idemp_l. reflexivity. }
  destruct (mont_powers_spec n m k (nval x) eq_refl Wm Hn Hk Bk Cop p1 HP1' 14 1 p1 ltac:(lia)) as (ps & -> & Lps & Hps).
  { rewrite Z.pow_1_r. auto. }
  cbn [bind].
  destruct (win_words_spec (fun z => montgomery z z m k n) (fun z p => montgomery z p m k n) (p0 :: p1 :: ps)
     (fun e z => mrep n m (nval x ^ e) z)) with (ys := rev y) (first := true) (e := 0) (z := p0)
    as (z & -> & Hz).
  { intros e z He Hz. destruct (mont_mul n m k eq_refl Wm Hn Hk Bk Cop _ _ z z Hz Hz) as (r & E & Hr).
    exists r. split; [auto|]. replace (2 * e) with (e + e) by ring. rewrite Z.pow_add_r by auto. auto. }
  { intros e z j He Hz Hj.
    assert (HPj : mrep n m (nval x ^ j) (nth (Z.to_nat j) (p0 :: p1 :: ps) [])).
    { destruct (Z.to_nat j) as [|[|i]] eqn:Ej.
      - replace j with 0 by lia. rewrite Z.pow_0_r. exact HP0.
      - replace j with 1 by lia. rewrite Z.pow_1_r. exact HP1'.
      - cbn [nth]. replace j with (1 + 1 + Z.of_nat i) by lia. apply Hps. lia. }
    destruct (mont_mul n m k eq_refl Wm Hn Hk Bk Cop _ _ z _ Hz HPj) as (r & E & Hr).
    exists r. split; [auto|]. rewrite Z.pow_add_r by lia. auto. }
  { apply words_ok_rev; auto. }
  { lia. }
  { auto. }
  { rewrite Z.pow_0_r. auto. }
  cbn [bind]. rewrite Z.mul_0_l, Z.add_0_l, <- nval_rev_bval, rev_involutive in Hz.
  destruct (mont_one n m k eq_refl Wm Hn Hk Bk Cop _ z one Hz O1 O2 O3) as (r & -> & Lr & Wr & Vr). cbn [bind].
  set (v := nval x ^ nval y) in *.
  assert (Nr : r <> []) by (apply nonnil_len; lia).
  assert (EG : nat_ge r m = (nval m <=? nval r)).
  { unfold nat_ge, partial_cmp. rewrite (is_nan_canon m Hm). destruct r as [|r0 r'] eqn:Er; [congruence|].
    cbn [is_nan orb]. rewrite <- Er in *. rewrite cmp_inner_words by auto.
    destruct (Z.compare_spec (nval r) (nval m)); symmetry; [apply Z.leb_le|apply Z.leb_gt|apply Z.leb_le]; lia. }
  rewrite EG. destruct (Z.leb_spec (nval m) (nval r)) as [G|G].
  - assert (Cr : canon r).
    { apply canon_intro; auto. intros L. rewrite Lr in *. pose proof (canon_lower m Hm) as CL. change (length m) with n in CL. specialize (CL L). lia. }
    assert (ES : nat_sub r m = of_Z (nval r - nval m)).
    { unfold nat_sub. rewrite op2_canon by auto. rewrite <- (of_Z_nval r Cr) at 1. rewrite <- (of_Z_nval m Hm) at 1.
      rewrite sub_of_Z by lia. f_equal. lia. }
    rewrite ES. assert (CS : canon (of_Z (nval r - nval m))) by (apply of_Z_canon; lia).
    rewrite nat_ge_spec by auto. rewrite of_Z_val by lia.
    destruct (Z.leb_spec (nval m) (nval r - nval m)) as [G2|G2].
    + rewrite nat_rem_of_Z by auto. cbn [bind]. rewrite of_Z_val by lia.
      replace ((nval r - nval m) mod nval m) with (v mod nval m).
      * pose proof (Z.mod_pos_bound v (nval m) Mp). rewrite trim_canon_id by (apply of_Z_canon; lia). reflexivity.
      * rewrite <- Vr. replace (nval r) with ((nval r - nval m) + 1 * nval m) at 1 by ring. apply Z_mod_plus_full.
    + cbn [bind]. rewrite trim_canon_id by auto. do 2 f_equal. rewrite <- Vr.
      apply (Z.mod_unique_pos _ _ 1); lia.
  - cbn [bind]. rewrite trim_of_Z by auto. do 2 f_equal. rewrite <- Vr. symmetry. apply Z.mod_small.
    pose proof (nval_bound r Wr). lia.
Qed.

Lemma exp_montgomery_of_Z x y m : canon x -> canon y -> canon m -> Z.odd (nval m) = true ->
  exp_montgomery x y m = Ok (of_Z (nval x ^ nval y mod nval m)).
Proof. intros Hx Hy. apply exp_montgomery_words; auto using canon_words, canon_nonnil. Qed.

(* ------------------------------------------------------------------ *)
(** * Windowed *)
Lemma sqr_vec_words x : words_ok x -> x <> [] -> sqr_vec x = Ok (of_Z (nval x * nval x)).
Proof.
  intros Hx Nx. unfold sqr_vec.
  destruct (sqr_v_spec (length x) x Hx ltac:(lia)) as (r & R1 & R2 & R3 & R4 & R5).
  rewrite R1. f_equal. apply of_Z_unique; auto.
Qed.
Lemma sqr_vec_of_Z x : canon x -> sqr_vec x = Ok (of_Z (nval x * nval x)).
Proof. intros Hx. apply sqr_vec_words; auto using canon_words, canon_nonnil. Qed.
Lemma mul_vec_words x y : words_ok x -> words_ok y -> x <> [] -> y <> [] -> mul_vec x y = Ok (of_Z (nval x * nval y)).
Proof.
  intros Hx Hy Nx Ny. unfold mul_vec.
  destruct (mul_by_karatsuba_spec (length x + length y) x y Hx Hy ltac:(lia))
    as (r & R1 & R2 & R3 & R4 & R5).
  rewrite R1. f_equal. apply of_Z_unique; auto.
Qed.
Lemma mul_vec_of_Z x y : canon x -> canon y -> mul_vec x y = Ok (of_Z (nval x * nval y)).
Proof. intros Hx Hy. apply mul_vec_words; auto using canon_words, canon_nonnil. Qed.

Lemma win_powers_spec x m : words_ok x -> x <> [] -> canon m -> 0 < nval m -> forall cnt i tbl,
  length tbl = i -> Nat.even i = true -> (2 <= i)%nat ->
  (forall j, (j < i)%nat -> canon (nth j tbl []) /\ nval (nth j tbl []) mod nval m = nval x ^ Z.of_nat j mod nval m) ->
  exists t, win_powers cnt i tbl x m = Ok t /\ length t = (i + 2 * cnt)%nat /\
   (forall j, (j < i + 2 * cnt)%nat -> canon (nth j t []) /\ nval (nth j t []) mod nval m = nval x ^ Z.of_nat j mod nval m).
Proof.
  intros Hx Nx Hm Mp. pose proof (nval_nonneg x Hx) as X0.
  induction cnt as [|c IH]; intros i tbl Lt Ev Hi Ht; cbn [win_powers].
  - exists tbl. rewrite Nat.add_0_r. auto.
  - apply Nat.even_spec in Ev as [h Eh].
    assert (Eh2 : (i / 2 = h)%nat) by (rewrite Eh, Nat.mul_comm; apply Nat.div_mul; lia).
    destruct (Ht h ltac:(lia)) as [Ch Vh]. rewrite Eh2, sqr_vec_of_Z by auto. cbn [bind].
    pose proof (canon_nonneg _ Ch) as H0.
    rewrite (trim_canon_id (of_Z _)) by (apply of_Z_canon; nia). rewrite nat_rem_of_Z; [|apply of_Z_canon; nia|auto|auto]. cbn [bind]. rewrite of_Z_val by nia.
    set (p := (nval (nth h tbl []) * nval (nth h tbl [])) mod nval m).
    assert (Vp : p = nval x ^ Z.of_nat i mod nval m).
    { unfold p. rewrite Zmult_mod, Vh, <- Zmult_mod, <- Z.pow_add_r by lia. do 2 f_equal. lia. }
    assert (Bp : 0 <= p < nval m) by (apply Z.mod_pos_bound; auto).
    rewrite mul_vec_words by (auto; first [apply canon_words|apply canon_nonnil]; apply of_Z_canon; lia). cbn [bind]. rewrite of_Z_val by lia.
    rewrite (trim_canon_id (of_Z _)) by (apply of_Z_canon; nia). rewrite nat_rem_of_Z; [|apply of_Z_canon; nia|auto|auto]. cbn [bind]. rewrite of_Z_val by nia.
    set (p1 := (p * nval x) mod nval m).
    assert (Vp1 : p1 = nval x ^ Z.of_nat (S i) mod nval m).
    { unfold p1. rewrite Vp, Zmult_mod_idemp_l. f_equal. rewrite Nat2Z.inj_succ, Z.pow_succ_r by lia. ring. }
    assert (Bp1 : 0 <= p1 < nval m) by (apply Z.mod_pos_bound; auto).
    destruct (IH (i + 2)%nat (tbl ++ [of_Z p; of_Z p1])) as (t & E & L & Hj).
    + rewrite app_length. cbn [length]. lia.
    + apply Nat.even_spec. exists (S h). lia.
    + lia.
    + intros j Hj. destruct (Nat.lt_ge_cases j i) as [J|J].
      * rewrite app_nth1 by lia. apply Ht. auto.
      * rewrite app_nth2 by lia. rewrite Lt. assert (j = i \/ j = S i) as [-> | ->] by lia.
        -- rewrite Nat.sub_diag. cbn [nth]. rewrite of_Z_val by lia. split; [apply of_Z_canon; lia|].
           rewrite Vp. apply Zmod_mod.
        -- replace (S i - i)%nat with 1%nat by lia. cbn [nth]. rewrite of_Z_val by lia. split; [apply of_Z_canon; lia|].
           rewrite Vp1. apply Zmod_mod.
    + exists t. split; [auto|]. split; [lia|]. intros j Hjj. apply Hj. lia.
Qed.

Lemma exp_windowed_of_Z x y m : words_ok x -> x <> [] -> words_ok y -> canon m -> 1 < nval m ->
  exp_windowed x y m = Ok (of_Z (nval x ^ nval y mod nval m)).
Proof.
  intros Hx Nx Hy Hm Mp. pose proof (nval_nonneg x Hx) as X0. unfold exp_windowed.
  destruct (win_powers_spec x m Hx Nx Hm ltac:(lia) 7 2 [from_u32 1; trim x]) as (t & -> & Lt & Ht); auto.
  { intros [|[|j]] Hj; [| |lia]; cbn [nth].
    - split; [apply canon_single; lia|reflexivity].
    - split; [apply trim_canon; auto|]. rewrite trim_val. change (Z.of_nat 1) with 1. rewrite Z.pow_1_r. reflexivity. }
  cbn [bind].
  destruct (win_words_spec (fun z => do s <- sqr_vec z; nat_rem s m) (fun z p => do s <- mul_vec z p; nat_rem s m) t
     (fun e z => z = of_Z (nval x ^ e mod nval m))) with (ys := rev y) (first := true) (e := 0) (z := from_u32 1)
    as (z & -> & ->).
  { intros e z He ->. pose proof (Z.mod_pos_bound (nval x ^ e) (nval m) ltac:(lia)) as B.
    rewrite sqr_vec_of_Z by (apply of_Z_canon; lia). cbn [bind]. rewrite of_Z_val by lia.
    rewrite nat_rem_of_Z; [|apply of_Z_canon; nia|auto|lia]. eexists. split; [reflexivity|].
    rewrite of_Z_val by nia. f_equal. rewrite <- Zmult_mod, <- Z.pow_add_r by lia. do 2 f_equal. ring. }
  { intros e z k He -> Hk. pose proof (Z.mod_pos_bound (nval x ^ e) (nval m) ltac:(lia)) as B.
    destruct (Ht (Z.to_nat k) ltac:(lia)) as [Ck Vk]. rewrite Z2Nat.id in Vk by lia.
    pose proof (canon_nonneg _ Ck).
    rewrite mul_vec_of_Z by (auto; apply of_Z_canon; lia). cbn [bind]. rewrite of_Z_val by lia.
    rewrite nat_rem_of_Z; [|apply of_Z_canon; nia|auto|lia]. eexists. split; [reflexivity|].
    rewrite of_Z_val by nia. f_equal. rewrite <- Zmult_mod_idemp_r, Vk, <- Zmult_mod, <- Z.pow_add_r by lia. reflexivity. }
  { apply words_ok_rev; auto. }
  { lia. }
  { auto. }
  { rewrite Z.pow_0_r, Z.mod_small by lia. reflexivity. }
  cbn [bind]. rewrite Z.mul_0_l, Z.add_0_l, <- nval_rev_bval, rev_involutive.
  rewrite trim_canon_id; [reflexivity|]. apply of_Z_canon, Z.mod_pos_bound. lia.
Qed.

(* ------------------------------------------------------------------ *)
(** * Square and multiply; [a mod 0 = a] covers the unreduced case *)
Lemma is_zero_test n : canon n -> ((length n =? 1)%nat && (hd 0 n =? 0)) = (nval n =? 0).
Proof.
  intros Hn. destruct n as [|a [|b n]].
  - apply canon_nonnil in Hn. congruence.
  - cbn [length Nat.eqb hd andb nval]. f_equal. lia.
  - cbn [length Nat.eqb andb]. symmetry. apply Z.eqb_neq.
    pose proof (canon_lower _ Hn ltac:(cbn; lia)). pose proof (Wp_pos (length (a :: b :: n) - 1)). lia.
Qed.
Lemma is_word_test n w : canon n -> 0 <= w < W -> ((length n =? 1)%nat && (hd 0 n =? w)) = (nval n =? w).
Proof.
  intros Hn Hw. destruct n as [|a [|b n]].
  - apply canon_nonnil in Hn. congruence.
  - cbn [length Nat.eqb hd andb nval]. f_equal. lia.
  - cbn [length Nat.eqb andb]. symmetry. apply Z.eqb_neq.
    pose proof (canon_lower _ Hn ltac:(cbn; lia)) as L. cbn [length] in L.
    replace (S (S (length n)) - 1)%nat with (S (length n)) in L by lia. rewrite Wp_S in L.
    pose proof (Wp_pos (length n)). nia.
Qed.

Lemma rem_or_id z n : canon z -> canon n ->
  (if (length n =? 1)%nat && (hd 0 n =? 0) then Ok z else nat_rem (trim z) n) = Ok (of_Z (nval z mod nval n)).
Proof.
  intros Hz Hn. rewrite is_zero_test by auto. destruct (Z.eqb_spec (nval n) 0) as [E|E].
  - rewrite E, Zmod_0_r, of_Z_nval by auto. reflexivity.
  - rewrite trim_canon_id by auto. apply nat_rem_of_Z; auto. pose proof (canon_nonneg n Hn). lia.
Qed.
Lemma mod_nonneg a n : 0 <= a -> 0 <= n -> 0 <= a mod n.
Proof.
  intros Ha Hn. destruct (Z.eq_dec n 0) as [->|]; [rewrite Zmod_0_r; auto|apply Z.mod_pos_bound; lia].
Qed.

Lemma testbit31 v : 0 <= v < W -> Z.testbit v 31 = (2 ^ 31 <=? v).
Proof.
  intros Hv. pose proof (Z.testbit_spec' v 31 ltac:(lia)) as E.
  destruct (Z.leb_spec (2 ^ 31) v).
  - assert (D : v / 2 ^ 31 = 1) by (symmetry; apply (Z.div_unique_pos _ _ 1 (v - 2 ^ 31)); lia). rewrite D in E.
    destruct (Z.testbit v 31); [auto|discriminate].
  - rewrite Z.div_small in E by lia. destruct (Z.testbit v 31); [discriminate|auto].
Qed.

Lemma exp_bits_spec x n : words_ok x -> x <> [] -> canon n -> forall cnt v e z, (cnt <= 32)%nat -> 0 <= v < W -> 0 <= e ->
  words_ok z -> z <> [] -> nval z mod nval n = nval x ^ e mod nval n ->
  exists r, exp_bits cnt v z x n = Ok r /\ words_ok r /\ r <> [] /\
    let e' := e * 2 ^ Z.of_nat cnt + v / 2 ^ (32 - Z.of_nat cnt) in
    nval r mod nval n = nval x ^ e' mod nval n /\ ((0 < cnt)%nat -> nval r = nval x ^ e' mod nval n).
Proof.
  intros Hx Nx Hn. pose proof (nval_nonneg x Hx) as X0. pose proof (canon_nonneg n Hn) as N0.
  induction cnt as [|c IH]; intros v e z Hc Hv He Hz Nz HV; cbn [exp_bits].
  - exists z. split; [auto|]. split; [auto|]. split; [auto|]. change (2 ^ Z.of_nat 0) with 1. change (2 ^ (32 - Z.of_nat 0)) with W.
    rewrite Z.div_small, Z.mul_1_r, Z.add_0_r by lia. split; [auto|lia].
  - pose proof (nval_nonneg z Hz) as Z0. rewrite sqr_vec_words by auto. cbn [bind].
    set (b := if Z.testbit v 31 then 1 else 0).
    assert (E1 : (if Z.testbit v 31 then mul_vec (of_Z (nval z * nval z)) x else Ok (of_Z (nval z * nval z)))
                 = Ok (of_Z (nval z * nval z * nval x ^ b))).
    { subst b. destruct (Z.testbit v 31).
      - rewrite mul_vec_words by (auto; first [apply canon_words|apply canon_nonnil]; apply of_Z_canon; nia). rewrite of_Z_val by nia. rewrite Z.pow_1_r. reflexivity.
      - rewrite Z.pow_0_r, Z.mul_1_r. reflexivity. }
    rewrite E1. cbn [bind]. clear E1.
    assert (Bb : 0 <= b <= 1) by (subst b; destruct (Z.testbit v 31); lia).
    assert (NN : 0 <= nval z * nval z * nval x ^ b).
    { apply Z.mul_nonneg_nonneg; [nia|apply Z.pow_nonneg; auto]. }
    rewrite rem_or_id by (auto; apply of_Z_canon; auto). cbn [bind]. rewrite of_Z_val by auto.
    set (z1 := nval z * nval z * nval x ^ b) in *.
    assert (V1 : z1 mod nval n = nval x ^ (2 * e + b) mod nval n).
    { assert (A : (nval z * nval z) mod nval n = (nval x ^ e * nval x ^ e) mod nval n).
      { rewrite Zmult_mod, HV, <- Zmult_mod. reflexivity. }
      unfold z1. rewrite <- Zmult_mod_idemp_l, A, Zmult_mod_idemp_l. replace (2 * e + b) with (e + e + b) by ring.
      rewrite !Z.pow_add_r by lia. reflexivity. }
    pose proof (mod_nonneg z1 (nval n) NN N0) as NN1.
    destruct (IH ((v * 2) mod W) (2 * e + b) (of_Z (z1 mod nval n))) as (r & E & Cr & Nr & R1 & R2).
    { lia. }
    { apply Z.mod_pos_bound; lia. }
    { lia. }
    { apply canon_words, of_Z_canon; auto. }
    { apply canon_nonnil, of_Z_canon; auto. }
    { rewrite of_Z_val by auto. rewrite Zmod_mod. auto. }
    exists r. split; [auto|]. split; [auto|]. split; [auto|].
    assert (EE : (2 * e + b) * 2 ^ Z.of_nat c + (v * 2) mod W / 2 ^ (32 - Z.of_nat c) =
                 e * 2 ^ Z.of_nat (S c) + v / 2 ^ (32 - Z.of_nat (S c))).
    { rewrite Nat2Z.inj_succ, Z.pow_succ_r by lia. set (j := Z.of_nat c) in *.
      assert (BV : v = b * 2 ^ 31 + (v - b * 2 ^ 31) /\ 0 <= v - b * 2 ^ 31 < 2 ^ 31).
      { subst b. rewrite testbit31 by auto. destruct (Z.leb_spec (2 ^ 31) v); lia. }
      set (w := v - b * 2 ^ 31) in *. destruct BV as [EV BW].
      assert (Em : (v * 2) mod W = w * 2) by (symmetry; apply (Z.mod_unique_pos _ _ b); lia).
      rewrite Em. replace (2 ^ (32 - j)) with (2 ^ (31 - j) * 2).
      2:{ replace (32 - j) with (31 - j + 1) by lia. rewrite Z.pow_add_r by lia. reflexivity. }
      rewrite Z.div_mul_cancel_r by (try lia; apply Z.pow_nonzero; lia).
      replace (32 - Z.succ j) with (31 - j) by lia. rewrite EV.
      replace (b * 2 ^ 31 + w) with (w + (b * 2 ^ j) * 2 ^ (31 - j)).
      - rewrite Z.div_add by (apply Z.pow_nonzero; lia). ring.
      - rewrite <- Z.mul_assoc, <- Z.pow_add_r by lia. replace (j + (31 - j)) with 31 by lia. ring. }
    cbv zeta in *. rewrite EE in *. split; [auto|]. intros _.
    destruct c as [|c]; [|apply R2; lia].
    cbn [exp_bits] in E. injection E as <-. rewrite of_Z_val by auto. rewrite V1. f_equal. f_equal.
    rewrite <- EE. change (2 ^ Z.of_nat 0) with 1. change (2 ^ (32 - Z.of_nat 0)) with W.
    rewrite Z.div_small by (apply Z.mod_pos_bound; lia). ring.
Qed.

Lemma exp_words_spec x n : words_ok x -> x <> [] -> canon n -> forall ys e z, words_ok ys -> 0 <= e ->
  words_ok z -> z <> [] -> nval z mod nval n = nval x ^ e mod nval n ->
  exists r, exp_words ys z x n = Ok r /\ words_ok r /\ r <> [] /\
    let e' := e * Wp (length ys) + bval ys in
    nval r mod nval n = nval x ^ e' mod nval n /\
    (ys <> [] \/ nval z = nval x ^ e mod nval n -> nval r = nval x ^ e' mod nval n).
Proof.
  intros Hx Nx Hn. induction ys as [|y ys IH]; intros e z Wy He Hz Nz HV; cbn [exp_words].
  - exists z. split; [auto|]. split; [auto|]. split; [auto|]. cbn [length bval]. change (Wp 0) with 1. rewrite Z.mul_1_r, Z.add_0_r.
    split; [auto|]. intros [H|H]; [congruence|auto].
  - apply words_ok_cons in Wy as [By Wy].
    destruct (exp_bits_spec x n Hx Nx Hn 32 y e z ltac:(lia) By He Hz Nz HV) as (r & -> & Cr & Nr & R1 & R2). cbn [bind].
    change (2 ^ Z.of_nat 32) with W in *. change (2 ^ (32 - Z.of_nat 32)) with 1 in *. rewrite Z.div_1_r in *.
    destruct (IH (e * W + y) r) as (r' & E & Cr' & Nr' & R3 & R4); auto; [nia|].
    exists r'. split; [auto|]. split; [auto|]. split; [auto|]. cbn [length bval]. rewrite Wp_S.
    replace (e * (W * Wp (length ys)) + (y * Wp (length ys) + bval ys)) with ((e * W + y) * Wp (length ys) + bval ys) by ring.
    split; [auto|]. intros _. apply R4. right. apply R2. lia.
Qed.

(** The overflow check of [v <<= shift] fires exactly here. *)
Definition exp_shift_overflow (x b n : Z) : Prop :=
  (x <= 1 \/ n = 0) /\ n <> 1 /\ exists j, 1 <= j /\ 2 ^ (32 * j) <= b < 2 ^ (32 * j + 1).

Lemma top_word_lz v : 0 < v < W -> let s := leading_zeros v + 1 in
  1 <= s <= 32 /\ 2 ^ (32 - s) <= v < 2 ^ (32 - s + 1).
Proof.
  intros Hv. unfold leading_zeros. destruct (Z.eqb_spec v 0); [lia|]. cbv zeta.
  pose proof (Z.log2_spec v ltac:(lia)) as L. pose proof (Z.log2_nonneg v) as L0.
  assert (Z.log2 v < 32) by (apply Z.log2_lt_pow2; lia).
  replace (32 - (31 - Z.log2 v + 1)) with (Z.log2 v) by lia. rewrite <- Z.add_1_r in L. lia.
Qed.

(** The base may have leading zero words. *)
Lemma nat_exp_words checks x b n : words_ok x -> x <> [] -> canon b -> canon n ->
  nat_exp checks x b n = Ok (of_Z (nval x ^ nval b mod nval n)) \/
  (checks = true /\ nat_exp checks x b n = Panic /\ exp_shift_overflow (nval x) (nval b) (nval n) /\
    (nval n = 0 \/ length x = 1%nat)).
Proof.
  intros Hx Nx Hb Hn. pose proof (nval_nonneg x Hx) as X0. pose proof (canon_nonneg n Hn) as N0. pose proof (canon_nonneg b Hb) as B0.
  unfold nat_exp. assert (is_nan x = false) as -> by (unfold is_nan; destruct x; [congruence|reflexivity]). rewrite !is_nan_canon by auto. cbn [orb].
  rewrite (is_word_test n 1) by (auto; lia). destruct (Z.eqb_spec (nval n) 1) as [En|En].
  { left. rewrite En, Z.mod_1_r. reflexivity. }
  rewrite (is_word_test b 0) by (auto; lia). destruct (Z.eqb_spec (nval b) 0) as [Eb|Eb].
  { left. rewrite Eb, Z.pow_0_r. destruct (Z.eq_dec (nval n) 0) as [->|]; [reflexivity|].
    rewrite Z.mod_small by lia. reflexivity. }
  rewrite (is_word_test b 1) by (auto; lia). destruct (Z.eqb_spec (nval b) 1) as [Eb1|Eb1].
  { left. rewrite Eb1, Z.pow_1_r. pose proof (trim_canon x Hx Nx) as TC. pose proof (rem_or_id (trim x) n TC Hn) as RO. rewrite (trim_canon_id _ TC), trim_val in RO. exact RO. }
  assert (LenX : ((1 <? length x)%nat || (1 <? hd 0 x)) = false -> nval x <= 1 /\ length x = 1%nat).
  { destruct x as [|a [|a2 x']]; intros L.
    - congruence.
    - cbn [length Nat.ltb Nat.leb orb hd] in L. apply Z.ltb_ge in L. cbn [nval length]. lia.
    - cbn [length] in L. replace (1 <? S (S (length x')))%nat with true in L by (symmetry; apply Nat.ltb_lt; lia). discriminate L. }
  set (bigx := (1 <? length x)%nat || (1 <? hd 0 x)) in *.
  assert (LenN : ((1 <? length n)%nat || (0 <? hd 0 n)) = (0 <? nval n)).
  { destruct n as [|a [|a2 n']].
    - apply canon_nonnil in Hn. congruence.
    - cbn [length Nat.ltb Nat.leb orb hd nval]. f_equal. lia.
    - cbn [length]. replace (1 <? S (S (length n')))%nat with true by (symmetry; apply Nat.ltb_lt; lia). cbn [orb].
      symmetry. apply Z.ltb_lt. pose proof (canon_lower _ Hn ltac:(cbn; lia)) as L. cbn [length] in L.
      pose proof (Wp_pos (S (S (length n')) - 1)). lia. }
  rewrite LenN, hd_odd by (auto using canon_words, canon_nonnil).
  destruct (bigx && (1 <? length b)%nat && (0 <? nval n)) eqn:Ebig.
  { apply andb_prop in Ebig as [Ebig E3]. apply andb_prop in Ebig as [E1 E2].
    apply Z.ltb_lt in E3. left. destruct (Z.odd (nval n)) eqn:Od.
    - apply exp_montgomery_words; auto using canon_words.
    - apply exp_windowed_of_Z; auto using canon_words. lia. }
  (* square and multiply *)
  pose proof (canon_words b Hb) as Wb. pose proof (canon_nonnil b Hb) as Nb.
  destruct (exists_last Nb) as (bl & v & Eb2). assert (Ev : last b 0 = v) by (rewrite Eb2; apply last_last).
  rewrite Ev. assert (Bv : 0 < v < W).
  { pose proof (canon_pos_last b Hb ltac:(lia)). rewrite Ev in *.
    rewrite Eb2 in Wb. apply words_ok_app in Wb as [_ Wv]. apply words_ok_cons in Wv as [Bv _]. lia. }
  pose proof (top_word_lz v Bv) as TL. cbv zeta in TL. set (s := leading_zeros v + 1) in *.
  assert (Vb : nval b = v * Wp (length bl) + nval bl) by (rewrite Eb2, nval_app; cbn [nval]; ring).
  assert (Wbl : words_ok bl) by (rewrite Eb2 in Wb; apply words_ok_app in Wb as [Wbl _]; auto).
  assert (Go : exists r, (do z <- exp_bits (Z.to_nat (32 - s)) ((v * 2 ^ (s mod 32)) mod W) x x n;
      do z0 <- exp_words (tl (rev b)) z x n; Ok (trim z0)) = Ok r /\ r = of_Z (nval x ^ nval b mod nval n)).
  { destruct (exp_bits_spec x n Hx Nx Hn (Z.to_nat (32 - s)) ((v * 2 ^ (s mod 32)) mod W) 1 x) as (r & -> & Cr & Nr & R1 & R2); auto.
    { lia. }
    { apply Z.mod_pos_bound; lia. }
    { lia. }
    { rewrite Z.pow_1_r. auto. }
    cbn [bind]. rewrite Z2Nat.id in * by lia.
    assert (EE : 1 * 2 ^ (32 - s) + (v * 2 ^ (s mod 32)) mod W / 2 ^ (32 - (32 - s)) = v).
    { replace (32 - (32 - s)) with s by lia. destruct (Z.eq_dec s 32) as [E32|E32].
      - rewrite E32 in *. change (32 mod 32) with 0. change (2 ^ (32 - 32 + 1)) with 2 in *. change (2 ^ (32 - 32)) with 1 in *.
        rewrite Z.pow_0_r, Z.mul_1_r, Z.mod_small by lia. replace v with 1 by lia. reflexivity.
      - rewrite (Z.mod_small s 32) by lia.
        assert (EM : (v * 2 ^ s) mod W = (v - 2 ^ (32 - s)) * 2 ^ s).
        { symmetry. apply (Z.mod_unique_pos _ _ 1); rewrite (pow2_split s) by lia; pose proof (pow2_pos s ltac:(lia)).
          - rewrite Z.pow_add_r in TL by lia. change (2 ^ 1) with 2 in TL. nia.
          - ring. }
        rewrite EM, Z.div_mul by (apply Z.pow_nonzero; lia). lia. }
    rewrite EE in *.
    assert (Et : tl (rev b) = rev bl) by (rewrite Eb2, rev_app_distr; reflexivity).
    rewrite Et.
    destruct (exp_words_spec x n Hx Nx Hn (rev bl) v r) as (r' & -> & Cr' & Nr' & R3 & R4); auto.
    { apply words_ok_rev; auto. }
    { lia. }
    cbn [bind]. exists (trim r'). split; [auto|].
    rewrite rev_length, <- nval_rev_bval, rev_involutive in *. apply of_Z_unique; [apply trim_canon; auto|].
    rewrite trim_val, Vb. apply R4. destruct bl as [|b0 bl']; [|left].
    - right. apply R2. cbn [length nval] in Vb. change (Wp 0) with 1 in Vb.
      destruct (Z.eq_dec s 32) as [E32|]; [|lia]. rewrite E32 in TL. change (2 ^ (32 - 32 + 1)) with 2 in *. change (2 ^ (32 - 32)) with 1 in *. lia.
    - intros H. apply (f_equal (@length Z)) in H. rewrite rev_length in H. discriminate. }
  destruct Go as (r & Eg & ->). rewrite (Z.mod_small (32 - s) W) by (change W with 4294967296; lia).
  destruct (checks && (32 <=? s)) eqn:Ec; [|left; exact Eg].
  right. apply andb_prop in Ec as [-> Es]. apply Z.leb_le in Es. assert (s = 32) as Es' by lia. clear Es. rename Es' into Es. split; [auto|]. split; [auto|].
  rewrite Es in TL. change (2 ^ (32 - 32 + 1)) with 2 in *. change (2 ^ (32 - 32)) with 1 in *. assert (v = 1) by lia.
  pose proof (nval_bound bl Wbl) as BB.
  assert (Lb : (1 <= length bl)%nat).
  { destruct bl; [|cbn [length]; lia]. cbn [length nval] in *. change (Wp 0) with 1 in *. lia. }
  assert (NX : nval n = 0 \/ (nval x <= 1 /\ length x = 1%nat)).
  { apply andb_false_iff in Ebig as [Ebig|Ebig].
    + apply andb_false_iff in Ebig as [Ebig|Ebig]; [specialize (LenX Ebig); lia|].
      apply Nat.ltb_ge in Ebig. rewrite Eb2, app_length in Ebig. cbn [length] in Ebig. lia.
    + apply Z.ltb_ge in Ebig. lia. }
  split; [|lia]. split; [|split; [auto|]].
  - lia.
  - exists (Z.of_nat (length bl)). split; [lia|]. rewrite Z.pow_add_r, <- Wp_pow2 by lia. change (2 ^ 1) with 2. nia.
Qed.

Lemma nat_exp_of_Z checks x b n : canon x -> canon b -> canon n ->
  nat_exp checks x b n = Ok (of_Z (nval x ^ nval b mod nval n)) \/
  (checks = true /\ nat_exp checks x b n = Panic /\ exp_shift_overflow (nval x) (nval b) (nval n)).
Proof.
  intros Hx Hb Hn. destruct (nat_exp_words checks x b n) as [E|(E1 & E2 & E3 & _)]; auto using canon_words, canon_nonnil.
Qed.
Lemma nat_exp_release x b n : canon x -> canon b -> canon n -> nat_exp false x b n = Ok (of_Z (nval x ^ nval b mod nval n)).
Proof. intros Hx Hb Hn. destruct (nat_exp_of_Z false x b n Hx Hb Hn) as [E|(E & _)]; [auto|discriminate]. Qed.
