(** Lemmas about the Jacobi symbol of [BigInt]. *)
From Coq Require Import ZArith Znumtheory List Bool Lia.
From Verif Require Import Words Spec WordsFacts NatModel NatFacts NatFacts2 NatFacts3 NatFacts4 NatFacts5 NatExp NatExpFacts NatExpFacts2
  BigInt SpecInt BigIntFacts BigIntFacts2 BigIntFacts4 Alias NumBig SpecNum NumTheory NumTheory2.
Import ListNotations.
Open Scope Z_scope.

Lemma hd_of_Z m : 0 <= m -> hd 0 (of_Z m) = m mod W.
Proof.
  intros M. pose proof (of_Z_canon m M) as C. pose proof (of_Z_val m M) as V. pose proof (canon_words _ C) as Wm. destruct (of_Z m) as [|x l] eqn:E; [apply canon_len_pos in C; cbn in C; lia|].
  cbn [hd]. rewrite nval_cons in V. apply words_ok_cons in Wm. destruct Wm as (Wx & _). rewrite <- V, Z.mul_comm, Z.mod_add, Z.mod_small by lia. reflexivity.
Qed.
Lemma low_zint n : low (zint n) = Z.abs n mod W.
Proof. unfold low. rewrite zint_nat. apply hd_of_Z. lia. Qed.
Lemma land_mod8 m : Z.land (m mod W) 7 = m mod 8.
Proof.
  change 7 with (Z.ones 3). rewrite Z.land_ones by lia. change (2 ^ 3) with 8. change W with (8 * 536870912). rewrite Z.rem_mul_r by lia.
  rewrite (Z.mul_comm 8), Z_mod_plus_full, Z.mod_mod by lia. reflexivity.
Qed.
Lemma land_mod4 m : Z.land (m mod W) 3 = m mod 4.
Proof.
  change 3 with (Z.ones 2). rewrite Z.land_ones by lia. change (2 ^ 2) with 4. change W with (4 * 1073741824). rewrite Z.rem_mul_r by lia.
  rewrite (Z.mul_comm 4), Z_mod_plus_full, Z.mod_mod by lia. reflexivity.
Qed.
Lemma odd_pow_unique q s r t : 0 <= s -> 0 <= t -> Z.odd q = true -> Z.odd r = true -> q * 2 ^ s = r * 2 ^ t -> s = t.
Proof.
  assert (G : forall q s r t, 0 <= s -> 0 < t -> Z.odd q = true -> q * 2 ^ s = r * 2 ^ (s + t) -> False).
  { intros q0 s0 r0 t0 S0 T0 O E. rewrite Z.pow_add_r in E by lia. assert (P : 0 < 2 ^ s0) by (apply Z.pow_pos_nonneg; lia).
    assert (E' : q0 = r0 * 2 ^ t0) by nia. rewrite E', Z.odd_mul, Z.odd_pow in O by lia. rewrite andb_false_r in O. discriminate. }
  intros S0 T0 Oq Or E. destruct (Z.lt_trichotomy s t) as [L|[L|L]]; [exfalso|auto|exfalso].
  - apply (G q s r (t - s)); auto; [lia|]. rewrite E. do 2 f_equal. lia.
  - apply (G r t q (s - t)); auto; [lia|]. rewrite <- E. do 2 f_equal. lia.
Qed.
Lemma tz_of_Z q s : 0 <= s -> 0 < q -> Z.odd q = true -> trailling_zeros (of_Z (q * 2 ^ s)) = s.
Proof.
  intros S0 Q0 O. assert (P : 0 < 2 ^ s) by (apply Z.pow_pos_nonneg; lia). assert (N : 0 <= q * 2 ^ s) by nia.
  destruct (trailling_zeros_spec (of_Z (q * 2 ^ s))) as (r & T0 & R0 & E); [apply of_Z_words; auto|rewrite of_Z_val by auto; nia|].
  rewrite of_Z_val in E by auto. symmetry. apply (odd_pow_unique q s (2 * r + 1) _); auto. rewrite Z.odd_add, Z.odd_mul. reflexivity.
Qed.
Lemma odd_split r : 0 < r -> exists q s, 0 <= s /\ 0 < q /\ Z.odd q = true /\ r = q * 2 ^ s.
Proof.
  intros R. destruct (trailling_zeros_spec (of_Z r)) as (q & T0 & Q0 & E); [apply of_Z_words; lia|rewrite of_Z_val by lia; lia|].
  rewrite of_Z_val in E by lia. exists (2 * q + 1), (trailling_zeros (of_Z r)). split; [auto|]. split; [lia|]. split; [rewrite Z.odd_add, Z.odd_mul; reflexivity|exact E].
Qed.

Lemma clean_mod a b : 0 < b -> clean a b -> clean (a mod b) b.
Proof.
  intros B C. inversion_clear C as [|? ? D|? ? s q E S0 O X C'].
  - constructor.
  - apply clean_zero. apply Z.mod_divide in D; [|lia]. rewrite D. apply Z.divide_0_r.
  - apply (clean_step (a mod b) b s q); rewrite ?Z.mod_mod by lia; auto.
Qed.

Lemma chi8_pow b s : 0 <= s -> chi8 b ^ s = if Z.odd s then chi8 b else 1.
Proof.
  intros S0. assert (E : chi8 b = par (if (b mod 8 =? 3) || (b mod 8 =? 5) then 1 else 0)) by (unfold chi8, par; destruct (_ || _); reflexivity).
  rewrite E, par_pow by auto. destruct ((b mod 8 =? 3) || (b mod 8 =? 5)).
  - rewrite Z.mul_1_r. unfold par. rewrite <- Z.negb_odd. destruct (Z.odd s); reflexivity.
  - rewrite Z.mul_0_r. destruct (Z.odd s); reflexivity.
Qed.
Lemma J_pow2 ps s : Forall odd_prime ps -> 0 <= s -> J (2 ^ s) ps = chi8 (prodZ ps) ^ s.
Proof.
  intros F. revert s. apply natlike_ind; [rewrite !Z.pow_0_r; apply J_one; auto|]. intros s S0 IH. rewrite !Z.pow_succ_r, J_mul, J_2, IH by auto. reflexivity.
Qed.

(** One reduction: a = q 2^s modulo b. *)
Lemma J_step a b s q ps qs : 0 < b -> Forall odd_prime ps -> prodZ ps = b -> Forall odd_prime qs -> prodZ qs = q -> 0 <= s ->
  a mod b = q * 2 ^ s -> J a ps = (if Z.odd s then chi8 b else 1) * eps b q * J b qs.
Proof.
  intros B F Eb G Eq S0 E. rewrite (J_eqm a (q * 2 ^ s) ps F).
  - rewrite J_mul, J_pow2, Eb, chi8_pow by auto. rewrite <- Eq at 1. rewrite J_recip, Eb, Eq by auto. ring.
  - rewrite Eb, <- E. symmetry. apply eqm_mod. lia.
Qed.

Lemma jacobi_loop_step f j a b q s : 1 < b -> 0 <= a -> a mod b = q * 2 ^ s -> 0 <= s -> 0 < q -> Z.odd q = true -> shr_exact (a mod b) s ->
  jacobi_loop (S f) j (zint a) (zint b) = jacobi_loop f (j * ((if Z.odd s then chi8 b else 1) * eps b q)) (zint b) (zint q).
Proof.
  intros B A E S0 Q0 O X. assert (P : 0 < 2 ^ s) by (apply Z.pow_pos_nonneg; lia). assert (M0 : 0 < a mod b) by nia.
  assert (A0 : a <> 0) by (intros ->; rewrite Z.mod_0_l in M0; lia).
  assert (TZ : trailling_zeros (of_Z (a mod b)) = s) by (rewrite E; apply tz_of_Z; auto).
  assert (SH : b_shr (zint (a mod b)) s = zint q) by (rewrite zint_shr_nonneg by (auto; lia); rewrite E, Z.div_mul by lia; reflexivity).
  cbn [jacobi_loop]. rewrite zint_eq_u32 by lia. destruct (Z.eqb_spec b 1); [lia|]. rewrite zint_nat, of_Z_eq_u32 by lia. destruct (Z.eqb_spec (Z.abs a) 0); [lia|].
  rewrite zint_rem_euclid_pos by lia. cbn [bind]. rewrite (Z.abs_eq b) by lia. rewrite zint_nat, of_Z_eq_u32 by lia. destruct (Z.eqb_spec (Z.abs (a mod b)) 0); [lia|].
  rewrite (Z.abs_eq (a mod b)) by lia. rewrite TZ, SH. rewrite !low_zint, land_mod8, !land_mod4, !Z.abs_eq by lia. f_equal. unfold chi8, eps.
  destruct (Z.odd s), ((b mod 8 =? 3) || (b mod 8 =? 5)), ((b mod 4 =? 3) && (q mod 4 =? 3)); cbn [andb]; ring.
Qed.
Lemma jacobi_loop_zero f j a b : 1 < b -> 0 <= a -> a mod b = 0 -> jacobi_loop (S f) j (zint a) (zint b) = Ok 0.
Proof.
  intros B A E. cbn [jacobi_loop]. rewrite zint_eq_u32 by lia. destruct (Z.eqb_spec b 1); [lia|]. rewrite zint_nat, of_Z_eq_u32 by lia. destruct (Z.eqb_spec (Z.abs a) 0); [reflexivity|].
  rewrite zint_rem_euclid_pos by lia. cbn [bind]. rewrite (Z.abs_eq b), E by lia. reflexivity.
Qed.
Lemma jacobi_loop_one f j a : jacobi_loop (S f) j a (zint 1) = Ok j.
Proof. reflexivity. Qed.
Lemma jacobi_loop_neg f j a b : 1 < b -> a < 0 -> a mod b <> 0 -> jacobi_loop (S f) j (zint a) (zint b) = jacobi_loop (S f) j (zint (a mod b)) (zint b).
Proof.
  intros B A E. pose proof (Z.mod_pos_bound a b ltac:(lia)). cbn [jacobi_loop]. rewrite zint_eq_u32 by lia. destruct (Z.eqb_spec b 1); [lia|].
  rewrite !zint_nat, !of_Z_eq_u32 by lia. destruct (Z.eqb_spec (Z.abs a) 0); [lia|]. destruct (Z.eqb_spec (Z.abs (a mod b)) 0); [lia|].
  rewrite !zint_rem_euclid by lia. rewrite (Z.abs_eq b) by lia. destruct (Z.eqb_spec (a mod b) 0); [lia|]. rewrite Z.mod_mod by lia.
  destruct (Z.ltb_spec (a mod b) 0); [lia|]. rewrite andb_false_r. reflexivity.
Qed.
Lemma jacobi_loop_negzero f j a b : 1 < b -> Z.odd b = true -> a < 0 -> a mod b = 0 -> jacobi_loop (S (S f)) j (zint a) (zint b) = Ok 0.
Proof.
  intros B O A E. remember (S f) as f1. cbn [jacobi_loop]. rewrite zint_eq_u32 by lia. destruct (Z.eqb_spec b 1); [lia|].
  rewrite !zint_nat, !of_Z_eq_u32 by lia. destruct (Z.eqb_spec (Z.abs a) 0); [lia|]. rewrite zint_rem_euclid by lia. rewrite (Z.abs_eq b), E by lia. cbn [bind Z.eqb].
  destruct (Z.ltb_spec a 0); [|lia]. cbn [andb]. rewrite !zint_nat, !of_Z_eq_u32, (Z.abs_eq b) by lia. destruct (Z.eqb_spec b 0); [lia|].
  assert (TZ : trailling_zeros (of_Z b) = 0) by (rewrite <- (Z.mul_1_r b); apply (tz_of_Z b 0); auto; lia). rewrite TZ. rewrite zint_shr_nonneg by (try lia; left; lia).
  rewrite Z.pow_0_r, Z.div_1_r. subst f1. apply jacobi_loop_zero; [lia|lia|apply Z.mod_same; lia].
Qed.

Lemma clean_small b : forall a, 0 < b <= W -> Z.odd b = true -> clean a b.
Proof.
  assert (G : forall b, 0 <= b -> forall a, 0 < b <= W -> Z.odd b = true -> clean a b).
  { intros b0 B0. pattern b0. apply Zlt_0_ind; [|exact B0]. clear b0 B0. intros b0 IH _ a B O. destruct (Z.eq_dec (a mod b0) 0) as [E|E]; [apply clean_zero, Z.mod_divide; lia|].
    pose proof (Z.mod_pos_bound a b0 ltac:(lia)) as R. destruct (odd_split (a mod b0) ltac:(lia)) as (q & s & S0 & Q0 & Oq & Er).
    assert (P : 0 < 2 ^ s) by (apply Z.pow_pos_nonneg; lia). apply (clean_step a b0 s q); auto.
    - left. apply (Z.pow_lt_mono_r_iff 2); [lia|lia|]. change (2 ^ 32) with W. nia.
    - apply IH; [nia|nia|auto]. }
  intros a B O. apply G; auto; lia.
Qed.

Lemma jacobi_loop_spec k : forall fuel j a b ps, Forall odd_prime ps -> prodZ ps = b -> 0 <= a -> (a mod b) * b < 2 ^ Z.of_nat k -> (k + 2 <= fuel)%nat ->
  clean a b -> jacobi_loop fuel j (zint a) (zint b) = Ok (j * J a ps).
Proof.
  induction k as [|k IH]; intros fuel j a b ps F Eb A K L C; destruct fuel as [|f]; try lia; destruct (odd_prod ps F) as (B0 & Ob); rewrite Eb in B0, Ob.
  all: destruct (Z.eq_dec b 1) as [B1|B1]; [rewrite B1, jacobi_loop_one; f_equal; replace (J a ps) with 1; [ring|];
    symmetry; rewrite (J_eqm a 1 ps F); [apply J_one; auto|rewrite Eb, B1; apply eqm_minus, div_eqm, Z.divide_1_l]|].
  all: destruct (Z.eq_dec (a mod b) 0) as [R0|R0]; [rewrite jacobi_loop_zero by lia; f_equal; rewrite (J_eqm a 0 ps F); [rewrite J_zero; [ring|auto|intros ->; rewrite prodZ_nil in Eb; lia]|
    rewrite Eb, <- R0; symmetry; apply eqm_mod; lia]|].
  all: pose proof (Z.mod_pos_bound a b ltac:(lia)) as R.
  - exfalso. change (2 ^ Z.of_nat 0) with 1 in K. nia.
  - inversion C as [? E1 E2|? ? D E1 E2|? ? s q E S0 O X C' E1 E2]; [congruence|apply Z.mod_divide in D; lia|]. assert (P : 0 < 2 ^ s) by (apply Z.pow_pos_nonneg; lia). assert (Q0 : 0 < q) by nia.
    rewrite (jacobi_loop_step f j a b q s) by (auto; lia). destruct (factor_odd q Q0 O) as (qs & G & Eq).
    rewrite (J_step a b s q ps qs) by (auto; lia). rewrite (IH f _ b q qs); auto; [f_equal; ring|lia| |lia].
    replace (Z.of_nat (S k)) with (Z.of_nat k + 1) in K by lia. rewrite Z.pow_add_r in K by lia. change (2 ^ 1) with 2 in K.
    pose proof (Z.mod_pos_bound b q Q0) as R2. assert (Q1 : q < b) by nia. pose proof (Z.div_mod b q ltac:(lia)) as DM.
    assert (1 <= b / q) by (apply Z.div_le_lower_bound; lia). assert (2 * (b mod q) <= b) by nia. assert (b * q <= a mod b * b) by nia. nia.
Qed.

(** [jacobi] for a positive odd second argument. *)
Lemma jacobi_pos fuel j a b ps : Forall odd_prime ps -> prodZ ps = b -> clean a b -> (jacobi_fuel (zint b) <= fuel)%nat ->
  jacobi_loop fuel j (zint a) (zint b) = Ok (j * J a ps).
Proof.
  intros F Eb C L. destruct (odd_prod ps F) as (B0 & Ob). rewrite Eb in B0, Ob. unfold jacobi_fuel in L. rewrite zint_nat, (Z.abs_eq b) in L by lia.
  assert (BL : b < 2 ^ bits_len (of_Z b)).
  { rewrite bits_len_of_Z_eq by lia. destruct (Z.eqb_spec b 0); [lia|]. pose proof (Z.log2_spec b B0). replace (Z.log2 b + 1) with (Z.succ (Z.log2 b)) by lia. lia. }
  set (n := bits_len (of_Z b)) in *. assert (N0 : 0 <= n) by (destruct (Z.le_gt_cases 0 n); [auto|rewrite Z.pow_neg_r in BL by lia; lia]).
  assert (KK : forall r, 0 <= r < b -> r * b < 2 ^ Z.of_nat (2 * Z.to_nat n)).
  { intros r R. replace (Z.of_nat (2 * Z.to_nat n)) with (n + n) by lia. rewrite Z.pow_add_r by lia. nia. }
  pose proof (Z.mod_pos_bound a b B0) as R. destruct (Z.le_gt_cases 0 a) as [A|A].
  - apply (jacobi_loop_spec (2 * Z.to_nat n)); auto. lia.
  - destruct fuel as [|[|f]]; try lia. destruct (Z.eq_dec b 1) as [B1|B1].
    + rewrite B1, jacobi_loop_one. f_equal. replace (J a ps) with 1; [ring|]. symmetry. rewrite (J_eqm a 1 ps F); [apply J_one; auto|]. rewrite Eb, B1. apply eqm_minus, div_eqm, Z.divide_1_l.
    + destruct (Z.eq_dec (a mod b) 0) as [R0|R0].
      * rewrite jacobi_loop_negzero by (auto; lia). f_equal. rewrite (J_eqm a 0 ps F); [rewrite J_zero; [ring|auto|intros ->; rewrite prodZ_nil in Eb; lia]|]. rewrite Eb, <- R0. symmetry. apply eqm_mod. lia.
      * rewrite jacobi_loop_neg by lia. rewrite (jacobi_loop_spec (2 * Z.to_nat n) _ j (a mod b) b ps); auto; [|lia|rewrite Z.mod_mod by lia; auto|lia|apply clean_mod; auto].
        do 2 f_equal. apply J_eqm; auto. rewrite Eb. apply eqm_mod. lia.
Qed.

Lemma b_jacobi_spec a b ps : b <> 0 -> Forall odd_prime ps -> prodZ ps = Z.abs b -> clean a (Z.abs b) ->
  b_jacobi (zint a) (zint b) = Ok (Some ((if (a <? 0) && (b <? 0) then -1 else 1) * J a ps)).
Proof.
  intros B F E C. unfold b_jacobi. rewrite !zint_clone, !zint_not_nan, zint_eq_u32, !zint_is_negative by lia. destruct (Z.eqb_spec b 0); [lia|]. cbn [orb].
  assert (EQ : (if b <? 0 then BI (trim (bnat (zint b))) false else zint b) = zint (Z.abs b)).
  { destruct (Z.ltb_spec b 0) as [L|L]; [|rewrite Z.abs_eq by lia; reflexivity]. rewrite zint_nat, trim_canon_id by apply abs_canon. unfold zint. rewrite Z.abs_involutive. f_equal. symmetry. apply Z.ltb_ge. lia. }
  rewrite EQ. rewrite (jacobi_pos _ _ a (Z.abs b) ps) by auto. cbn [bind]. destruct (a <? 0), (b <? 0); reflexivity.
Qed.

(** An even second argument: the first round reduces to an odd one. *)
Lemma even_signs b q : Z.odd b = false -> chi8 b = 1 /\ eps b q = 1.
Proof.
  intros O. assert (M : forall m, (m = 8 \/ m = 4) -> Z.odd (b mod m) = false).
  { intros m M. rewrite Z.mod_eq by lia. rewrite Z.odd_sub, Z.odd_mul, O. destruct M as [-> | ->]; reflexivity. }
  pose proof (M 8 ltac:(auto)) as M8. pose proof (M 4 ltac:(auto)) as M4. unfold chi8, eps.
  destruct (Z.eqb_spec (b mod 8) 3) as [E|_]; [rewrite E in M8; discriminate|]. destruct (Z.eqb_spec (b mod 8) 5) as [E|_]; [rewrite E in M8; discriminate|].
  destruct (Z.eqb_spec (b mod 4) 3) as [E|_]; [rewrite E in M4; discriminate|]. auto.
Qed.
Lemma b_jacobi_open a b : b <> 0 ->
  b_jacobi (zint a) (zint b) = do v <- jacobi_loop (jacobi_fuel (zint (Z.abs b))) (if (a <? 0) && (b <? 0) then -1 else 1) (zint a) (zint (Z.abs b)); Ok (Some v).
Proof.
  intros B. unfold b_jacobi. rewrite !zint_clone, !zint_not_nan, zint_eq_u32, !zint_is_negative by lia. destruct (Z.eqb_spec b 0); [lia|]. cbn [orb].
  assert (EQ : (if b <? 0 then BI (trim (bnat (zint b))) false else zint b) = zint (Z.abs b)).
  { destruct (Z.ltb_spec b 0) as [L|L]; [|rewrite Z.abs_eq by lia; reflexivity]. rewrite zint_nat, trim_canon_id by apply abs_canon. unfold zint. rewrite Z.abs_involutive. f_equal. symmetry. apply Z.ltb_ge. lia. }
  rewrite EQ. destruct (a <? 0), (b <? 0); reflexivity.
Qed.
Lemma jacobi_even_step a b q s qs : b <> 0 -> Z.odd b = false -> a mod Z.abs b = q * 2 ^ s -> 0 <= s -> 0 < q -> Z.odd q = true -> shr_exact (a mod Z.abs b) s ->
  Forall odd_prime qs -> prodZ qs = q -> clean (Z.abs b) q ->
  b_jacobi (zint a) (zint b) = Ok (Some ((if (a <? 0) && (b <? 0) then -1 else 1) * J (Z.abs b) qs)).
Proof.
  intros B O E S0 Q0 Oq X F Eq C. rewrite b_jacobi_open by auto. set (j := if (a <? 0) && (b <? 0) then -1 else 1). assert (Ob : Z.odd (Z.abs b) = false) by (destruct b; auto).
  set (c := Z.abs b) in *. assert (C1 : 1 < c) by (destruct (Z.eq_dec c 1) as [Y|Y]; [rewrite Y in Ob; discriminate|unfold c in *; lia]).
  assert (P : 0 < 2 ^ s) by (apply Z.pow_pos_nonneg; lia). pose proof (Z.mod_pos_bound a c ltac:(lia)) as R. assert (M0 : 0 < a mod c) by nia.
  assert (BL : c < 2 ^ bits_len (of_Z c)).
  { rewrite bits_len_of_Z_eq by lia. destruct (Z.eqb_spec c 0); [lia|]. pose proof (Z.log2_spec c ltac:(lia)). replace (Z.log2 c + 1) with (Z.succ (Z.log2 c)) by lia. lia. }
  unfold jacobi_fuel. rewrite zint_nat, (Z.abs_eq c) by lia.
  set (n := bits_len (of_Z c)) in *. assert (N0 : 0 <= n) by (destruct (Z.le_gt_cases 0 n); [auto|rewrite Z.pow_neg_r in BL by lia; lia]).
  change (3 + 2 * Z.to_nat n)%nat with (S (2 + 2 * Z.to_nat n)).
  assert (STEP : jacobi_loop (S (2 + 2 * Z.to_nat n)) j (zint a) (zint c) = jacobi_loop (2 + 2 * Z.to_nat n) j (zint c) (zint q)).
  { destruct (even_signs c q Ob) as (E1 & E2). assert (G : forall a', 0 <= a' -> a' mod c = a mod c -> jacobi_loop (S (2 + 2 * Z.to_nat n)) j (zint a') (zint c) = jacobi_loop (2 + 2 * Z.to_nat n) j (zint c) (zint q)).
    { intros a' A' EA. rewrite (jacobi_loop_step (2 + 2 * Z.to_nat n) j a' c q s) by (rewrite ?EA; auto; lia). rewrite E1, E2. f_equal. destruct (Z.odd s); ring. }
    destruct (Z.le_gt_cases 0 a) as [A|A]; [apply G; auto|]. rewrite jacobi_loop_neg by lia. apply G; [lia|apply Z.mod_mod; lia]. }
  assert (K : (c mod q) * q < 2 ^ Z.of_nat (2 * Z.to_nat n)).
  { replace (Z.of_nat (2 * Z.to_nat n)) with (n + n) by lia. rewrite Z.pow_add_r by lia. pose proof (Z.mod_pos_bound c q Q0). assert (q <= a mod c) by nia. nia. }
  rewrite STEP, (jacobi_loop_spec (2 * Z.to_nat n) (2 + 2 * Z.to_nat n) j c q qs F Eq ltac:(lia) K ltac:(lia) C). reflexivity.
Qed.
(** A multiple of an even number: what is left of a negative one is |b|. *)
Lemma jacobi_even_multiple a b q s : b <> 0 -> Z.odd b = false -> (b | a) -> Z.abs b = q * 2 ^ s -> 0 <= s -> 0 < q -> Z.odd q = true -> 0 <= a \/ shr_exact (Z.abs b) s ->
  b_jacobi (zint a) (zint b) = Ok (Some (if (a <? 0) && (q =? 1) then (if b <? 0 then -1 else 1) else 0)).
Proof.
  intros B O D E S0 Q0 Oq X. rewrite b_jacobi_open by auto. set (j := if (a <? 0) && (b <? 0) then -1 else 1). assert (Ob : Z.odd (Z.abs b) = false) by (destruct b; auto).
  assert (D' : a mod Z.abs b = 0) by (apply Z.mod_divide; [lia|apply Z.divide_abs_l; auto]).
  set (c := Z.abs b) in *. assert (C1 : 1 < c) by (destruct (Z.eq_dec c 1) as [Y|Y]; [rewrite Y in Ob; discriminate|unfold c in *; lia]).
  unfold jacobi_fuel. set (k := (2 * Z.to_nat (bits_len (bnat (zint c))))%nat). change (3 + k)%nat with (S (S (S k))).
  destruct (Z.ltb_spec a 0) as [A|A]; cbn [andb].
  - destruct X as [X|X]; [lia|]. assert (TZ : trailling_zeros (of_Z c) = s) by (rewrite E; apply tz_of_Z; auto).
    assert (P : 0 < 2 ^ s) by (apply Z.pow_pos_nonneg; lia).
    assert (STEP : jacobi_loop (S (S (S k))) j (zint a) (zint c) = jacobi_loop (S (S k)) j (zint c) (zint q)).
    { remember (S (S k)) as f1. cbn [jacobi_loop]. rewrite zint_eq_u32 by lia. destruct (Z.eqb_spec c 1); [lia|].
      rewrite !zint_nat, !of_Z_eq_u32 by lia. destruct (Z.eqb_spec (Z.abs a) 0); [lia|]. rewrite zint_rem_euclid by lia. rewrite (Z.abs_eq c), D' by lia. cbn [bind Z.eqb].
      destruct (Z.ltb_spec a 0); [|lia]. cbn [andb]. rewrite !zint_nat, !of_Z_eq_u32, (Z.abs_eq c) by lia. destruct (Z.eqb_spec c 0); [lia|]. rewrite TZ.
      rewrite zint_shr_nonneg by (auto; lia). replace (c / 2 ^ s) with q by (rewrite E, Z.div_mul; lia). rewrite !low_zint, land_mod8, !land_mod4, !Z.abs_eq by lia.
      destruct (even_signs c q Ob) as (E1 & E2). unfold chi8, eps in E1, E2. destruct ((c mod 8 =? 3) || (c mod 8 =? 5)); [discriminate|]. rewrite andb_false_r.
      destruct ((c mod 4 =? 3) && (q mod 4 =? 3)); [discriminate|]. reflexivity. }
    rewrite STEP. destruct (Z.eqb_spec q 1) as [->|Q1].
    + rewrite jacobi_loop_one. unfold j. destruct (Z.ltb_spec a 0); [|lia]. reflexivity.
    + rewrite jacobi_loop_zero; [reflexivity|lia|lia|]. rewrite E, Z.mul_comm. apply Z.mod_mul. lia.
  - rewrite jacobi_loop_zero by lia. reflexivity.
Qed.

(* ------------------------------------------------------------------ *)
(** * The specification's symbol *)

Lemma product_prodZ l : product l = prodZ l. Proof. reflexivity. Qed.
Lemma square_mod_qr p a : square_mod p a <-> is_qr p a.
Proof.
  unfold square_mod, is_qr. split; intros [x D]; exists x; [apply eqm_minus, div_eqm; auto|apply eqm_minus, eqm_div in D; auto].
Qed.
Lemma legendre_ls a p v : odd_prime p -> legendre a p v <-> v = ls a p.
Proof.
  intros [P P2]. destruct (ls_legendre a p P P2) as (L0 & L1 & L2). unfold legendre. rewrite square_mod_qr. split.
  - intros [(-> & D)|[(-> & D)|(-> & D)]]; symmetry; tauto.
  - intros ->. destruct (ls_spec a p P P2) as ([T|[T|T]] & _); [left|right; left|right; right]; rewrite T; tauto.
Qed.
Lemma odd_primes_of ps : Z.odd (prodZ ps) = true -> Forall prime ps -> Forall odd_prime ps.
Proof.
  intros O F. rewrite Forall_forall in *. intros p I. split; [auto|]. intros ->.
  apply in_split in I as (l & m & ->). rewrite prodZ_app, prodZ_cons, !Z.odd_mul in O. cbn [Z.odd] in O. rewrite andb_false_r in O. discriminate.
Qed.
Lemma legendre_list a ps vs : Forall odd_prime ps -> Forall2 (legendre a) ps vs <-> vs = map (ls a) ps.
Proof.
  intros F. split.
  - intros G. induction G as [|p v ps vs L G IH]; [reflexivity|]. inversion_clear F as [|? ? Pp F']. cbn [map]. rewrite IH by auto. f_equal. apply legendre_ls; auto.
  - intros ->. induction F as [|p ps Pp F IH]; constructor; [|auto]. apply legendre_ls; auto.
Qed.
(** J over any prime factorisation is the Jacobi symbol. *)
Lemma jacobi_symbol_J a b v ps : Z.odd b = true -> Forall prime ps -> prodZ ps = b -> v = J a ps -> jacobi_symbol a b v.
Proof.
  intros O F E ->. subst b. pose proof (odd_primes_of ps O F) as G. exists ps, (map (ls a) ps). split; [auto|]. split; [reflexivity|]. split; [apply legendre_list; auto|reflexivity].
Qed.
Lemma jacobi_symbol_inv a b v : Z.odd b = true -> jacobi_symbol a b v -> exists ps, Forall odd_prime ps /\ prodZ ps = b /\ v = J a ps.
Proof.
  intros O (ps & vs & F & E & L & V). rewrite product_prodZ in *. assert (G : Forall odd_prime ps) by (apply odd_primes_of; [rewrite E; auto|auto]).
  exists ps. split; [auto|]. split; [auto|]. apply legendre_list in L; [|auto]. subst vs. symmetry. exact V.
Qed.
