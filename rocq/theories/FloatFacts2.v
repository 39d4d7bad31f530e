(** The words of a mantissa: what [fl_round] does to them. *)
From Coq Require Import ZArith Znumtheory QArith Qabs Qpower Lqa Lia Bool List.
From Verif Require Import Words Spec WordsFacts NatModel NatFacts NatFacts2 NatFacts4 NatFacts5 NatConvFacts
  VecPrims VecFacts NatConv BigInt Ieee Rat Float SpecFloat FloatFacts.
Import ListNotations.
Open Scope Z_scope.

(** * Sticky bit *)
Lemma existsb_nval l : words_ok l -> existsb (fun x => negb (x =? 0)) l = negb (nval l =? 0).
Proof.
  induction l as [|x l IH]; intros H; [reflexivity|].
  apply words_ok_cons in H as [Hx Hl]. cbn [existsb]. rewrite IH, nval_cons by auto.
  pose proof (nval_nonneg l Hl).
  destruct (Z.eqb_spec x 0), (Z.eqb_spec (nval l) 0), (Z.eqb_spec (x + W * nval l) 0); cbn; lia.
Qed.

Lemma nval_nth k l : words_ok l -> (k < length l)%nat -> nth k l 0 = (nval l / Wp k) mod W.
Proof.
  intros Hw Hk. rewrite <- nval_skipn by auto. rewrite skipn_cons_nth by auto. rewrite nval_cons.
  rewrite Z.mul_comm, Z.mod_add by lia. symmetry. apply Z.mod_small.
  apply (proj1 (Forall_forall _ l) Hw). apply nth_In. auto.
Qed.

Lemma shl_word_0 w s : 0 <= w -> 0 <= s <= 32 -> ((w * 2 ^ (32 - s)) mod W =? 0) = (w mod 2 ^ s =? 0).
Proof.
  intros Hw Hs. pose proof (pow2_pos s ltac:(lia)). pose proof (pow2_pos (32 - s) ltac:(lia)).
  assert (EW : W = 2 ^ s * 2 ^ (32 - s)) by (rewrite <- Z.pow_add_r by lia; replace (s + (32 - s)) with 32 by lia; reflexivity).
  rewrite EW. rewrite Z.mul_mod_distr_r by lia.
  destruct (Z.eqb_spec (w mod 2 ^ s) 0) as [->|N]; [reflexivity|]. apply Z.eqb_neq. nia.
Qed.

Lemma sticky_spec a r : words_ok a -> 0 <= r < mbits a ->
  sticky a r = if nval a mod 2 ^ r =? 0 then 0 else 1.
Proof.
  intros Hw Hr. unfold sticky, mbits in *.
  assert (is_nan a = false) as -> by (destruct a; [cbn in Hr; lia|reflexivity]).
  set (k := r / 32) in *. set (s := r mod 32).
  assert (Es : r = 32 * k + s) by (apply Z.div_mod; lia).
  assert (Bs : 0 <= s < 32) by (apply Z.mod_pos_bound; lia).
  assert (Bk : 0 <= k < Z.of_nat (length a)) by lia.
  destruct (Z.leb_spec (Z.of_nat (length a)) k); [lia|].
  rewrite existsb_nval by (apply words_ok_firstn; auto). rewrite nval_firstn by auto.
  assert (EP : 2 ^ r = Wp (Z.to_nat k) * 2 ^ s).
  { rewrite Wp_pow2, Z2Nat.id, Es, Z.pow_add_r by lia. reflexivity. }
  pose proof (Wp_pos (Z.to_nat k)) as PK. pose proof (pow2_pos s ltac:(lia)) as PS.
  pose proof (nval_nonneg a Hw) as NN.
  rewrite EP, Z.rem_mul_r by lia.
  pose proof (Z.mod_pos_bound (nval a) (Wp (Z.to_nat k)) PK) as B1.
  set (q := nval a / Wp (Z.to_nat k)).
  pose proof (Z.mod_pos_bound q (2 ^ s) PS) as B2.
  assert (Q0 : 0 <= q) by (apply Z.div_pos; lia).
  destruct (Z.eqb_spec (nval a mod Wp (Z.to_nat k)) 0) as [E0|N0]; cbn [negb].
  2: { destruct (Z.eqb_spec (nval a mod Wp (Z.to_nat k) + Wp (Z.to_nat k) * (q mod 2 ^ s)) 0); [nia|reflexivity]. }
  rewrite E0, Z.add_0_l. rewrite shl_word_0; [|rewrite nval_nth by (auto; lia); apply Z.mod_pos_bound; lia|lia].
  rewrite nval_nth by (auto; lia). fold q.
  assert (EM : (q mod W) mod 2 ^ s = q mod 2 ^ s).
  { symmetry. apply Zmod_div_mod; [lia|lia|]. exists (2 ^ (32 - s)). rewrite <- Z.pow_add_r by lia.
    replace (32 - s + s) with 32 by lia. reflexivity. }
  rewrite EM. destruct (Z.ltb_spec 0 s) as [L|L]; cbn [andb].
  - destruct (Z.eqb_spec (q mod 2 ^ s) 0) as [->|N]; cbn [negb].
    + rewrite Z.mul_0_r. reflexivity.
    + destruct (Z.eqb_spec (Wp (Z.to_nat k) * (q mod 2 ^ s)) 0); [nia|reflexivity].
  - assert (s = 0) as -> by lia. rewrite Z.mod_1_r, Z.mul_0_r. reflexivity.
Qed.

(** * Normalised mantissas *)
Lemma normal_pos m : normal_mant m -> words_ok m /\ (0 < length m)%nat /\ 2 ^ (mbits m - 1) <= nval m < 2 ^ mbits m.
Proof.
  intros (C & L). pose proof (canon_words _ C) as Hw. pose proof (canon_len_pos _ C). split; [auto|]. split; [auto|].
  split; [auto|]. pose proof (nval_bound m Hw) as B. rewrite Wp_pow2 in B. apply B.
Qed.
Lemma normal_intro m : words_ok m -> (0 < length m)%nat -> 2 ^ (mbits m - 1) <= nval m -> normal_mant m.
Proof.
  intros Hw Hl H. split; [|auto]. apply canon_intro; [auto|destruct m; [cbn in Hl; lia|discriminate]|].
  intros L. rewrite Wp_pow2. transitivity (2 ^ (mbits m - 1)); [|auto]. apply Z.pow_le_mono_r; unfold mbits; lia.
Qed.
Lemma normal_bits_len m : normal_mant m -> bits_len m = mbits m.
Proof.
  intros H. destruct (normal_pos m H) as (Hw & Hl & B). destruct H as (C & _). rewrite bits_len_spec by auto.
  pose proof (pow2_pos (mbits m - 1) ltac:(unfold mbits; lia)). destruct (Z.eqb_spec (nval m) 0); [lia|].
  rewrite (Z.log2_unique (nval m) (mbits m - 1)); [lia|unfold mbits; lia|].
  replace (Z.succ (mbits m - 1)) with (mbits m) by lia. auto.
Qed.

Lemma clear_spec v t : words_ok v -> v <> [] -> 0 <= t < 32 ->
  exists v', upd_first (fun w => w - w mod 2 ^ t) v = Ok v' /\ nval v' = 2 ^ t * (nval v / 2 ^ t) /\
             words_ok v' /\ length v' = length v.
Proof.
  intros Hw Hn Ht. destruct v as [|w v]; [congruence|]. apply words_ok_cons in Hw as [B Hw].
  pose proof (pow2_pos t ltac:(lia)) as P. pose proof (Z.mod_pos_bound w (2 ^ t) P).
  pose proof (Z.mod_le w (2 ^ t) ltac:(lia) P).
  eexists. cbn [upd_first]. split; [reflexivity|]. split; [|split; [apply words_ok_cons; split; [lia|auto]|reflexivity]].
  rewrite !nval_cons.
  assert (EW : W = 2 ^ (32 - t) * 2 ^ t) by (rewrite <- Z.pow_add_r by lia; replace (32 - t + t) with 32 by lia; reflexivity).
  rewrite EW. replace (2 ^ (32 - t) * 2 ^ t * nval v) with (2 ^ (32 - t) * nval v * 2 ^ t) by ring.
  rewrite Z.div_add by lia. pose proof (Z.div_mod w (2 ^ t) ltac:(lia)). lia.
Qed.

(** Setting the top bit of a vector whose top bit is 0. *)
Lemma set_top v : words_ok v -> (0 < length v)%nat -> nval v < 2 ^ (mbits v - 1) ->
  let r := set_last v (Z.lor (last v 0) (2 ^ 31)) in
  words_ok r /\ length r = length v /\ nval r = nval v + 2 ^ (mbits v - 1).
Proof.
  intros Hw Hl Hb.
  assert (Hn : v <> []) by (destruct v; [cbn in Hl; lia|discriminate]).
  pose proof (last_split v Hn) as E. pose proof (nval_last v Hn) as EV. pose proof (words_ok_last v Hw) as BL.
  pose proof (removelast_len v) as RL.
  remember (removelast v) as u. remember (last v 0) as w. 
  assert (Hu : words_ok u) by (rewrite E in Hw; apply words_ok_app in Hw; tauto).
  assert (EP : 2 ^ (mbits v - 1) = Wp (length v - 1) * 2 ^ 31).
  { rewrite Wp_pow2, <- Z.pow_add_r by lia. f_equal. unfold mbits. lia. }
  pose proof (nval_nonneg u Hu). pose proof (Wp_pos (length v - 1)).
  assert (w < 2 ^ 31) by nia.
  assert (EL : Z.lor w (2 ^ 31) = w + 2 ^ 31).
  { rewrite Z.lor_comm. replace (2 ^ 31) with (1 * 2 ^ 31) by reflexivity. rewrite lor_low_add by lia. lia. }
  cbv zeta. rewrite EL.
  assert (ES : set_last v (w + 2 ^ 31) = u ++ [w + 2 ^ 31]) by (rewrite E at 1; apply set_last_snoc).
  rewrite ES. split; [|split].
  - apply words_ok_app. split; [auto|]. apply words_ok_cons. split; [|constructor].
    change W with (2 * 2 ^ 31). lia.
  - rewrite (f_equal (@length Z) E), !app_length. reflexivity.
  - rewrite nval_app, RL. cbn [nval]. rewrite EV, EP. ring.
Qed.

(** * The three ways [fl_round] leaves the mantissa *)
Section ROUND.
Variables (mant : list Z) (p : Z).
Hypothesis HN : normal_mant mant.
Hypothesis HP : 0 < p < mbits mant.
Let B := mbits mant.
Let k := B - p.
Let n := (p + 31) / 32.
Let t := 32 * n - p.
Let M := nval mant.
Let q := M / 2 ^ k.
Let m1 := if n <? Z.of_nat (length mant) then skipn (Z.to_nat (Z.of_nat (length mant) - n)) mant else mant.

Lemma t_bounds : 0 <= t < 32 /\ 1 <= n <= Z.of_nat (length mant) /\ 32 * n = p + t.
Proof using HP.
  clear m1 q. subst t n. unfold mbits in HP. pose proof (Z.div_mod (p + 31) 32 ltac:(lia)). pose proof (Z.mod_pos_bound (p + 31) 32 ltac:(lia)).
  lia.
Qed.

Lemma m1_eq : m1 = skipn (Z.to_nat (Z.of_nat (length mant) - n)) mant.
Proof using HP.
  destruct t_bounds as (T & NB & _). subst m1. destruct (Z.ltb_spec n (Z.of_nat (length mant))); [reflexivity|].
  replace (Z.of_nat (length mant) - n) with 0 by lia. reflexivity.
Qed.

Lemma q_bounds : 2 ^ (p - 1) <= q < 2 ^ p.
Proof using HP HN.
  destruct (normal_pos _ HN) as (Hw & Hl & L). fold M in L. fold B in L, HP.
  pose proof (pow2_pos k ltac:(lia)). subst q. split.
  - apply Z.div_le_lower_bound; [lia|]. rewrite <- Z.pow_add_r by lia. subst k. replace (B - p + (p - 1)) with (B - 1) by lia. lia.
  - apply Z.div_lt_upper_bound; [lia|]. rewrite <- Z.pow_add_r by lia. subst k. replace (B - p + p) with B by lia. lia.
Qed.

Lemma m1_spec : words_ok m1 /\ Z.of_nat (length m1) = n /\ m1 <> [] /\ nval m1 / 2 ^ t = q /\ 0 <= nval m1 < 2 ^ (32 * n).
Proof using HP HN.
  destruct t_bounds as (T & NB & ET). destruct (normal_pos _ HN) as (Hw & Hl & L).
  rewrite m1_eq. set (K := Z.to_nat (Z.of_nat (length mant) - n)).
  assert (EK : Z.of_nat K = Z.of_nat (length mant) - n) by (apply Z2Nat.id; lia).
  pose proof (words_ok_skipn K mant Hw) as Hw1. pose proof (skipn_length K mant) as EL.
  assert (EL' : Z.of_nat (length (skipn K mant)) = n) by lia.
  split; [auto|]. split; [auto|]. split; [intros E; rewrite E in EL'; cbn in EL'; lia|]. split.
  - rewrite nval_skipn by auto. rewrite Z.div_div by (try apply Wp_pos; try apply pow2_pos; try apply Z.pow_nonzero; lia).
    unfold q. f_equal. rewrite Wp_pow2, <- Z.pow_add_r by lia. f_equal. unfold k, B, mbits. lia.
  - pose proof (nval_bound _ Hw1) as NBd. rewrite Wp_pow2, EL' in NBd. auto.
Qed.

Lemma round_keep : exists v, upd_first (fun w => w - w mod 2 ^ t) m1 = Ok v /\ normal_mant v /\
  mbits v = 32 * n /\ nval v = 2 ^ t * q.
Proof using HP HN.
  destruct t_bounds as (T & NB & ET). destruct m1_spec as (Hw & El & Hn & EQ & BN).
  destruct (clear_spec m1 t Hw Hn T) as (v & E1 & E2 & E3 & E4). exists v. split; [auto|].
  rewrite EQ in E2. assert (EB : mbits v = 32 * n) by (unfold mbits; lia).
  split; [|auto]. apply normal_intro; [auto|lia|]. rewrite EB, E2. destruct q_bounds as (Q & _).
  replace (32 * n - 1) with (t + (p - 1)) by lia. rewrite Z.pow_add_r by lia.
  pose proof (pow2_pos t ltac:(lia)). nia.
Qed.

Lemma round_add v c : add_vw m1 (2 ^ t) = (v, c) ->
  (c <> 0 <-> q + 1 = 2 ^ p) /\
  (c = 0 -> exists v', upd_first (fun w => w - w mod 2 ^ t) v = Ok v' /\ normal_mant v' /\
     mbits v' = 32 * n /\ nval v' = 2 ^ t * (q + 1)) /\
  (c <> 0 -> let u := fst (shr_vu v 1) in
     exists v', upd_first (fun w => w - w mod 2 ^ t) (set_last u (Z.lor (last u 0) (2 ^ 31))) = Ok v' /\ normal_mant v' /\
     mbits v' = 32 * n /\ nval v' = 2 ^ (32 * n - 1)).
Proof using HP HN.
  intros EA. destruct t_bounds as (T & NB & ET). destruct m1_spec as (Hw & El & Hn & EQ & BN). destruct q_bounds as (Q1 & Q2).
  pose proof (pow2_pos t ltac:(lia)) as PT. pose proof (pow2_pos p ltac:(lia)) as PP.
  assert (TW : 2 ^ t < W) by (change W with (2 ^ 32); apply Z.pow_lt_mono_r; lia).
  pose proof (add_vw_spec m1 (2 ^ t) Hw ltac:(lia)) as (E1 & Hv & Lv & Bc & Bc1). rewrite EA in *. cbn [fst snd] in *. specialize (Bc1 Hn).
  rewrite Wp_pow2, El in E1. rewrite ET, Z.pow_add_r in E1, BN by lia.
  pose proof (Z.div_mod (nval m1) (2 ^ t) ltac:(lia)) as DM. rewrite EQ in DM.
  pose proof (Z.mod_pos_bound (nval m1) (2 ^ t) PT) as MB. set (rho := nval m1 mod 2 ^ t) in *.
  pose proof (nval_bound v Hv) as BV. rewrite Wp_pow2, Lv, El, ET, Z.pow_add_r in BV by lia.
  assert (HC : c <> 0 <-> q + 1 = 2 ^ p).
  { split; intros H.
    - assert (c = 1) by lia. subst c. nia.
    - intros ->. nia. }
  assert (Hnv : v <> []) by (intros ->; cbn in Lv; lia).
  split; [auto|]. split; intros Hc.
  - subst c. destruct (clear_spec v t Hv Hnv T) as (v' & C1 & C2 & C3 & C4). exists v'. split; [auto|].
    assert (EV : nval v = (q + 1) * 2 ^ t + rho) by lia.
    assert (ED : nval v / 2 ^ t = q + 1) by (symmetry; apply Z.div_unique with rho; lia).
    rewrite ED in C2. assert (EB : mbits v' = 32 * n) by (unfold mbits; lia).
    split; [|auto]. apply normal_intro; [auto|lia|]. rewrite EB, C2.
    replace (32 * n - 1) with (t + (p - 1)) by lia. rewrite Z.pow_add_r by lia. nia.
  - assert (c = 1) by lia. subst c. assert (q + 1 = 2 ^ p) by (apply HC; lia).
    assert (EV : nval v = rho) by nia. cbv zeta.
    pose proof (shr_vu_spec v 1 Hv ltac:(lia)) as (S1 & _ & S3 & S4). set (u := fst (shr_vu v 1)) in *.
    rewrite EV, Z.pow_1_r in S1.
    assert (EU : mbits u = 32 * n) by (unfold mbits; lia).
    assert (RU : 0 <= nval u < 2 ^ t).
    { rewrite S1. split; [apply Z.div_pos; lia|]. apply Z.div_lt_upper_bound; lia. }
    assert (TN : 2 ^ t <= 2 ^ (32 * n - 1)) by (apply Z.pow_le_mono_r; lia).
    destruct (set_top u S3 ltac:(lia)) as (U1 & U2 & U3); [rewrite EU; lia|].
    set (w := set_last u (Z.lor (last u 0) (2 ^ 31))) in *.
    assert (Hnw : w <> []) by (intros E; rewrite E in U2; cbn in U2; lia).
    destruct (clear_spec w t U1 Hnw T) as (v' & C1 & C2 & C3 & C4). exists v'. split; [auto|].
    assert (EB : mbits v' = 32 * n) by (unfold mbits; lia).
    assert (ES : 2 ^ (32 * n - 1) = 2 ^ t * 2 ^ (p - 1)) by (rewrite <- Z.pow_add_r by lia; f_equal; lia).
    assert (EN : nval v' = 2 ^ (32 * n - 1)).
    { rewrite C2, U3, EU, ES. rewrite (Z.mul_comm (2 ^ t) (2 ^ (p - 1))), Z.div_add by lia.
      rewrite Z.div_small by lia. ring. }
    split; [|auto]. apply normal_intro; [auto|lia|]. rewrite EB, EN. lia.
Qed.

(** The parity that the code reads is that of the last kept bit. *)
Lemma odd_bit w l : m1 = w :: l -> negb (Z.land w (2 ^ t) =? 0) = Z.odd q.
Proof using HP HN.
  intros E. destruct t_bounds as (T & NB & ET). destruct m1_spec as (Hw & El & Hn & EQ & BN).
  rewrite land_pow2_testbit by lia. rewrite <- EQ, <- Z.bit0_odd, <- Z.shiftr_div_pow2, Z.shiftr_spec by lia.
  rewrite Z.add_0_l. rewrite (testbit_nval m1) by (auto; lia).
  rewrite Z.div_small, Z.mod_small by lia. rewrite E. reflexivity.
Qed.
End ROUND.
