(** Lemmas about square roots modulo a prime. *)
From Coq Require Import ZArith Znumtheory List Bool Lia Setoid Morphisms.
From Verif Require Import Words Spec WordsFacts NatModel NatFacts NatFacts2 NatFacts3 NatFacts4 NatFacts5 NatExp NatExpFacts NatExpFacts2
  BigInt SpecInt BigIntFacts BigIntFacts2 BigIntFacts4 Alias AliasFacts NumBig SpecNum NumTheory NumTheory2 NumBigFacts.
Import ListNotations.
Open Scope Z_scope.

Lemma b_exp_any checks x b n : 0 <= b -> n <> 0 -> checks = false \/ 1 < Z.abs x -> b_exp checks (zint x) (zint b) (zint n) = Ok (zint (x ^ b mod Z.abs n)).
Proof.
  intros Hb Hn HC. unfold b_exp. rewrite !zint_not_nan, !(zint_is_negative b). cbn [orb].
  destruct (Z.ltb_spec b 0); [lia|]. cbn [andb bind]. rewrite !zint_nat.
  destruct (nat_exp_of_Z checks (of_Z (Z.abs x)) (of_Z (Z.abs b)) (of_Z (Z.abs n))) as [E|(C & _ & (OV & _))]; try apply abs_canon.
  - rewrite E, !abs_val. cbn [bind]. rewrite (Z.abs_eq b) by auto.
    etransitivity; [apply (exp_tail x (Z.abs x) b n); lia|]. do 2 f_equal. rewrite abs_pow by auto.
    destruct (_ && _); [rewrite Z.opp_involutive|]; reflexivity.
  - exfalso. rewrite !abs_val in OV. destruct HC as [HC|HC]; [congruence|]. lia.
Qed.
Lemma zint_of_Z m : 0 <= m -> BI (of_Z m) false = zint m.
Proof. intros M. unfold zint. rewrite Z.abs_eq by auto. f_equal. symmetry. apply Z.ltb_ge. auto. Qed.
Lemma sub1_odd p : 0 < p -> Z.odd p = true -> nat_sub_u32 (of_Z p) 1 = of_Z (p - 1).
Proof.
  intros P O. destruct (sub1_spec p P) as (l & E & Wl & Nl & V & L). rewrite E. apply of_Z_unique; [|lia]. apply canon_intro; auto. intros LL.
  pose proof (canon_lower (of_Z p) (of_Z_canon p ltac:(lia))) as CL. rewrite <- L in CL. rewrite of_Z_val in CL by lia. specialize (CL LL). rewrite V.
  destruct (Z.eq_dec (Wp (length l - 1)) p) as [X|X]; [|lia]. exfalso. rewrite <- X in O. replace (length l - 1)%nat with (S (length l - 2)) in O by lia.
  rewrite Wp_S, Z.odd_mul in O. change (Z.odd W) with false in O. discriminate.
Qed.
Lemma shr_small m k : 0 <= m -> 0 <= k < 32 -> shr_inner (of_Z m) k = of_Z (m / 2 ^ k).
Proof. intros M K. rewrite shr_inner_good; [rewrite of_Z_val by auto; reflexivity|apply of_Z_canon; auto|lia|left; lia]. Qed.

Lemma set_word_last j x v : set_word (repeat 0 j ++ [x]) j v = repeat 0 j ++ [v].
Proof. induction j as [|j IH]; [reflexivity|]. cbn [repeat app set_word]. rewrite IH. reflexivity. Qed.
Lemma nval_rep0 j l : nval (repeat 0 j ++ l) = Wp j * nval l.
Proof.
  induction j as [|j IH]; [change (Wp 0) with 1; cbn [repeat app]; lia|]. cbn [repeat app]. rewrite nval_cons, IH, Wp_S. ring.
Qed.
Lemma set_bits_zero i : 0 <= i -> nat_set_bits [0] i true = of_Z (2 ^ i).
Proof.
  intros I. unfold nat_set_bits. cbv zeta. set (j := Z.to_nat (i / 32)). pose proof (Z.mod_pos_bound i 32 ltac:(lia)) as B. pose proof (Z.div_mod i 32 ltac:(lia)) as DM. assert (0 <= i / 32) by (apply Z.div_pos; lia).
  assert (B2 : 0 < 2 ^ (i mod 32) < W).
  { split; [apply Z.pow_pos_nonneg; lia|]. change W with (2 ^ 32). apply Z.pow_lt_mono_r; lia. }
  assert (E : set_word (if (length [0] <=? j)%nat then resize [0] (j + 1) 0 else [0]) j
    (Z.lor (nth j (if (length [0] <=? j)%nat then resize [0] (j + 1) 0 else [0]) 0) (2 ^ (i mod 32))) = repeat 0 j ++ [2 ^ (i mod 32)]).
  { assert (R : (if (length [0] <=? j)%nat then resize [0] (j + 1) 0 else [0]) = repeat 0 j ++ [0]).
    { destruct j as [|k]; [reflexivity|]. cbn [length Nat.leb]. unfold resize. cbn [length]. replace (S k + 1)%nat with (S (S k)) by lia.
      destruct k as [|k]; [reflexivity|]. change (firstn (S (S (S k))) [0] ++ repeat 0 (S (S (S k)) - 1) = 0 :: repeat 0 (S k) ++ [0]). rewrite <- repeat_cons. reflexivity. }
    rewrite R, set_word_last, app_nth2, repeat_length, Nat.sub_diag by (rewrite repeat_length; lia). reflexivity. }
  etransitivity; [exact E|]. apply of_Z_unique.
  - apply canon_intro.
    + apply words_ok_app. split; [apply words_ok_repeat0|]. apply words_ok_cons. split; [lia|constructor].
    + destruct j; discriminate.
    + intros _. rewrite app_length, repeat_length, nval_rep0. cbn [length nval]. replace (j + 1 - 1)%nat with j by lia. pose proof (Wp_pos j). nia.
  - rewrite nval_rep0. cbn [nval]. unfold j. rewrite Wp_pow2, Z2Nat.id by lia. rewrite Z.mul_0_r, Z.add_0_r, <- Z.pow_add_r by lia. f_equal. lia.
Qed.

Lemma mul_self_zint x : mul_self (zint x) = zint (x * x).
Proof.
  unfold mul_self. rewrite zint_nat, is_nan_of_Z, mul_alias_eq by lia. assert (E : mul_inner (of_Z (Z.abs x)) (of_Z (Z.abs x)) = of_Z (x * x)).
  { pose proof (nat_mul_of_Z (Z.abs x) (Z.abs x) ltac:(lia) ltac:(lia)) as M. unfold nat_mul, op2 in M. rewrite !is_nan_of_Z in M by lia. cbn [orb] in M. rewrite M. f_equal. nia. }
  rewrite E. apply zint_of_Z. nia.
Qed.
Lemma sqr_zint t : 0 <= t -> sqr_vec (bnat (zint t)) = Ok (of_Z (t * t)).
Proof. intros T. rewrite zint_nat, sqr_vec_of_Z, abs_val by apply abs_canon. do 2 f_equal. nia. Qed.
Lemma rem_pos a p : 0 <= a -> 0 < p -> b_rem_euclid (zint a) (zint p) = Ok (zint (a mod p)).
Proof. intros A P. rewrite zint_rem_euclid_pos, (Z.abs_eq p) by lia. reflexivity. Qed.

Lemma eqm_pow_mod p a n : 0 < p -> 0 <= n -> eqm p (a ^ n mod p) (a ^ n).
Proof. intros P N. apply eqm_mod. lia. Qed.
Lemma one_ne_mone p : 2 < p -> ~ eqm p 1 (-1).
Proof. intros P E. apply eqm_minus, eqm_div, Z.divide_pos_le in E; lia. Qed.
Lemma zero_ne_mone p : 2 < p -> ~ eqm p 0 (-1).
Proof. intros P E. apply eqm_minus, eqm_div, Z.divide_pos_le in E; lia. Qed.

(* ------------------------------------------------------------------ *)
Section Prime.
Variables p : Z.
Hypothesis (HP : prime p) (H2 : p <> 2).
Let P3 : 2 < p. Proof. pose proof (prime_2 p HP). lia. Qed.
Let PO : Z.odd p = true. Proof. apply odd_prime_odd. split; auto. Qed.

Lemma jacobi_prime n : clean n p -> b_jacobi (zint n) (zint p) = Ok (Some (ls n p)).
Proof.
  intros C. pose proof P3. rewrite (b_jacobi_spec n p [p]); [|lia|constructor; [split; auto|constructor]|rewrite prodZ_cons, prodZ_nil; lia|rewrite Z.abs_eq by lia; auto].
  destruct (Z.ltb_spec p 0); [lia|]. rewrite andb_false_r. unfold J. cbn [map]. rewrite prodZ_cons, prodZ_nil. do 2 f_equal. ring.
Qed.
Lemma clean_word n : 0 < n < W -> clean n p.
Proof.
  intros N. pose proof P3. destruct (Z.le_gt_cases p n) as [L|L]; [apply clean_small; [lia|exact PO]|].
  destruct (odd_split n ltac:(lia)) as (q & s & S0 & Q0 & O & E). assert (M : n mod p = n) by (apply Z.mod_small; lia). assert (PP : 0 < 2 ^ s) by (apply Z.pow_pos_nonneg; lia).
  apply (clean_step n p s q); rewrite ?M; auto.
  - left. apply (Z.pow_lt_mono_r_iff 2); [lia|lia|]. change (2 ^ 32) with W. nia.
  - apply clean_small; [nia|auto].
Qed.

Lemma find_spec k : forall n fuel, 2 <= n -> n + Z.of_nat k < W -> ls (n + Z.of_nat k) p = -1 -> (S k <= fuel)%nat ->
  exists n1, 2 <= n1 < W /\ ls n1 p = -1 /\ find_nonresidue fuel (zint n) (zint p) = Ok (zint n1).
Proof.
  assert (ST : forall n f, 2 <= n < W -> find_nonresidue (S f) (zint n) (zint p) = if ls n p =? -1 then Ok (zint n) else find_nonresidue f (zint (n + 1)) (zint p)).
  { intros n f N. cbn [find_nonresidue]. rewrite (jacobi_prime n) by (apply clean_word; lia). cbn [bind].
    assert (E : BI (add_inner_basic (bnat (zint n)) 1) (bneg (zint n)) = zint (n + 1)).
    { rewrite zint_nat, zint_neg, Z.abs_eq by lia. pose proof (add1_canon n ltac:(lia)) as A. unfold nat_add_u32 in A. rewrite op1_canon in A by (apply of_Z_canon; lia). rewrite A.
      destruct (Z.ltb_spec n 0); [lia|]. apply zint_of_Z. lia. }
    rewrite E. destruct (ls_spec n p HP H2) as ([T|[T|T]] & _); rewrite T; reflexivity. }
  induction k as [|k IH]; intros n fuel N B L F; (destruct fuel as [|f]; [lia|]).
  - rewrite Z.add_0_r in *. exists n. split; [lia|]. split; [auto|]. rewrite ST, L by lia. reflexivity.
  - rewrite ST by lia. destruct (Z.eqb_spec (ls n p) (-1)) as [E|E]; [exists n; split; [lia|auto]|].
    apply IH; [lia|lia| |lia]. rewrite <- L. f_equal. lia.
Qed.

Lemma count_spec k : forall x m fuel, 0 <= x < p -> eqm p (x ^ (2 ^ Z.of_nat k)) 1 -> (S k <= fuel)%nat ->
  exists d, 0 <= d <= Z.of_nat k /\ count_squarings fuel (zint x) (zint p) m = Ok (m + d) /\ eqm p (x ^ (2 ^ d)) 1 /\ (0 < d -> ~ eqm p (x ^ (2 ^ (d - 1))) 1).
Proof.
  pose proof P3 as P3'. induction k as [|k IH]; intros x m fuel X E F; (destruct fuel as [|f]; [lia|]); cbn [count_squarings]; rewrite zint_eq_u32 by lia.
  - change (2 ^ Z.of_nat 0) with 1 in E. rewrite Z.pow_1_r in E. assert (x = 1) as -> by (apply (eqm_small p); auto; lia). cbn [Z.eqb Pos.eqb].
    exists 0. split; [lia|]. split; [f_equal; lia|]. split; [reflexivity|lia].
  - destruct (Z.eqb_spec x 1) as [->|N1].
    + exists 0. split; [lia|]. split; [f_equal; lia|]. split; [reflexivity|lia].
    + rewrite mul_self_zint, rem_pos by nia. cbn [bind].
      assert (PW : forall d, 0 <= d -> eqm p (((x * x) mod p) ^ (2 ^ d)) (x ^ (2 ^ (d + 1)))).
      { intros d D. rewrite (eqm_pow p _ (x * x)); [|lia|apply eqm_mod; lia]. replace (x * x) with (x ^ 2) by ring. rewrite <- Z.pow_mul_r by lia.
        rewrite Z.pow_add_r by lia. change (2 ^ 1) with 2. rewrite (Z.mul_comm 2). reflexivity. }
      destruct (IH ((x * x) mod p) (m + 1) f) as (d & D & C & E1 & E2); [apply Z.mod_pos_bound; lia| |lia|].
      * rewrite PW by lia. replace (Z.of_nat k + 1) with (Z.of_nat (S k)) by lia. exact E.
      * exists (d + 1). split; [lia|]. split; [rewrite C; f_equal; lia|]. split; [rewrite <- PW by lia; auto|]. intros _. replace (d + 1 - 1) with d by lia.
        destruct (Z.eq_dec d 0) as [->|D0].
        -- rewrite Z.pow_0_r, Z.pow_1_r. intros E0. apply N1. apply (eqm_small p); auto; lia.
        -- intros E0. apply E2; [lia|]. rewrite PW by lia. replace (d - 1 + 1) with d by lia. exact E0.
Qed.

Lemma tonelli_spec (checks : bool) (a : Z) fuel : forall r y b g, 1 <= r -> (Z.to_nat r < fuel)%nat -> 0 <= y < p -> 0 <= b < p -> 0 <= g < p ->
  eqm p (y * y) (a * b) -> eqm p (b ^ (2 ^ (r - 1))) 1 -> eqm p (g ^ (2 ^ (r - 1))) (-1) ->
  exists z, tonelli_loop fuel checks (zint y) (zint b) (zint g) r (zint p) = Ok (zint z) /\ 0 <= z < p /\ eqm p (z * z) a.
Proof.
  pose proof P3 as P3'. induction fuel as [|f IH]; intros r y b g R F Y B G EY EB EG; [lia|].
  cbn [tonelli_loop]. remember (S f) as F1. 
  destruct (count_spec (Z.to_nat (r - 1)) b 0 F1 B) as (m & M & C & E1 & E2); [rewrite Z2Nat.id by lia; auto|lia|]. rewrite Z2Nat.id in M by lia. subst F1.
  rewrite C. cbn [bind]. rewrite Z.add_0_l. destruct (Z.eqb_spec m 0) as [->|M0].
  - rewrite Z.pow_0_r, Z.pow_1_r in E1. exists y. split; [reflexivity|]. split; [auto|]. rewrite EY, E1, Z.mul_1_r. reflexivity.
  - destruct (Z.ltb_spec (r - m - 1) 0); [lia|].
    assert (TM : b_set_bits (BI [0] false) (r - m - 1) true = zint (2 ^ (r - m - 1))).
    { unfold b_set_bits. change (b_is_negative (BI [0] false)) with false. cbn [bnat bneg]. rewrite set_bits_zero by lia. apply zint_of_Z. lia. }
    rewrite TM. assert (G1 : 1 < g).
    { assert (g <> 0 /\ g <> 1); [|lia]. split; intros ->; [rewrite Z.pow_0_l in EG by lia; exact (zero_ne_mone p ltac:(lia) EG)|rewrite Z.pow_1_l in EG by lia; exact (one_ne_mone p ltac:(lia) EG)]. }
    rewrite b_exp_any by lia. cbn [bind]. rewrite (Z.abs_eq p) by lia. set (t := g ^ 2 ^ (r - m - 1) mod p). assert (T : 0 <= t < p) by (apply Z.mod_pos_bound; lia).
    rewrite sqr_zint by lia. cbn [bind]. rewrite zint_of_Z by nia. rewrite rem_pos by nia. cbn [bind]. rewrite zint_mul, rem_pos by nia. cbn [bind].
    assert (TG : 0 <= (t * t) mod p < p) by (apply Z.mod_pos_bound; lia). rewrite zint_mul, rem_pos by nia. cbn [bind].
    assert (Et : eqm p t (g ^ 2 ^ (r - m - 1))) by (apply eqm_mod; lia).
    assert (Eg : eqm p ((t * t) mod p) (g ^ 2 ^ (r - m))).
    { rewrite eqm_mod by lia. rewrite Et, <- Z.pow_add_r by lia. replace (2 ^ (r - m - 1) + 2 ^ (r - m - 1)) with (2 ^ (r - m)); [reflexivity|].
      replace (r - m) with (Z.succ (r - m - 1)) by lia. rewrite Z.pow_succ_r by lia. replace (Z.succ (r - m - 1) - 1) with (r - m - 1) by lia. lia. }
    assert (Eg' : eqm p (((t * t) mod p) ^ 2 ^ (m - 1)) (-1)).
    { rewrite (eqm_pow p _ _ (2 ^ (m - 1)) ltac:(lia) Eg). rewrite <- Z.pow_mul_r, <- Z.pow_add_r by lia. replace (r - m + (m - 1)) with (r - 1) by lia. exact EG. }
    apply IH; auto; [lia|lia|apply Z.mod_pos_bound; lia|apply Z.mod_pos_bound; lia| |].
    + rewrite !eqm_mod by lia. transitivity ((y * y) * (t * t)); [replace (y * t * (y * t)) with ((y * y) * (t * t)) by ring; reflexivity|].
      rewrite EY. rewrite (Z.mul_assoc a b). reflexivity.
    + rewrite (eqm_pow p _ (b * ((t * t) mod p))); [|lia|apply eqm_mod; lia]. rewrite Z.pow_mul_l, Eg'.
      assert (Bm : eqm p (b ^ 2 ^ (m - 1)) (-1)).
      { assert (SQ : eqm p (b ^ 2 ^ (m - 1) * b ^ 2 ^ (m - 1)) (1 * 1)).
        { rewrite <- Z.pow_add_r by lia. replace (2 ^ (m - 1) + 2 ^ (m - 1)) with (2 ^ m); [exact E1|]. replace m with (Z.succ (m - 1)) at 1 by lia. rewrite Z.pow_succ_r by lia. lia. }
        apply (eqm_sqr p _ _ HP) in SQ. destruct SQ as [SQ|SQ]; [exfalso; apply E2; [lia|exact SQ]|exact SQ]. }
      rewrite Bm. reflexivity.
Qed.

(** p = 3 modulo 4. *)
Lemma sqrt_3mod4 checks x : p mod 4 = 3 -> 0 < x < p -> checks = false \/ x <> 1 -> is_qr p x ->
  exists z, mod_sqrt_3mod4 checks (zint x) (zint p) = Ok (zint z) /\ 0 <= z < p /\ eqm p (z * z) x.
Proof.
  intros M X C Q. pose proof P3 as P3'. unfold mod_sqrt_3mod4. rewrite zint_nat, trim_abs, Z.abs_eq, add1_canon, shr_small, zint_of_Z by (try apply Z.div_pos; lia).
  rewrite b_exp_any; [|apply Z.div_pos; lia|lia|destruct C; [auto|right; lia]]. rewrite (Z.abs_eq p) by lia. eexists. split; [reflexivity|]. split; [apply Z.mod_pos_bound; lia|].
  assert (N : ~ (p | x)) by (intros D; apply Z.divide_pos_le in D; lia). change (2 ^ 2) with 4. pose proof (Z.div_mod p 4 ltac:(lia)) as DM.
  assert (E4 : (p + 1) / 4 = p / 4 + 1) by (symmetry; apply (Z.div_unique _ _ _ 0); lia).
  rewrite eqm_mod, <- Z.pow_add_r by (try apply Z.div_pos; lia). rewrite E4. destruct (odd_prime_half p HP H2) as (Ep & Hh). pose proof (qr_pow p x HP H2 N Q) as EU.
  replace (p / 4 + 1 + (p / 4 + 1)) with (Z.succ ((p - 1) / 2)) by lia. rewrite Z.pow_succ_r, EU, Z.mul_1_r by lia. reflexivity.
Qed.

(** p = 5 modulo 8. *)
Lemma sqrt_5mod8 checks x : p mod 8 = 5 -> 0 < x < p -> is_qr p x ->
  exists z, mod_sqrt_5mod8 checks (zint x) (zint p) = Ok (zint z) /\ 0 <= z < p /\ eqm p (z * z) x.
Proof.
  intros M X Q. pose proof P3 as P3'. unfold mod_sqrt_5mod8. rewrite !zint_clone. pose proof (Z.div_mod p 8 ltac:(lia)) as DM. rewrite M in DM. set (k := p / 8) in *. assert (K0 : 0 <= k) by lia.
  assert (E3 : b_shr (zint p) 3 = zint k) by (rewrite zint_shr_nonneg by (try lia; left; lia); reflexivity). rewrite E3.
  rewrite b_shl_zint by lia. change (2 ^ 1) with 2. rewrite b_exp_any by lia. cbn [bind]. rewrite (Z.abs_eq p) by lia. set (al := (x * 2) ^ k mod p). assert (AL : 0 <= al < p) by (apply Z.mod_pos_bound; lia).
  rewrite sqr_zint by lia. cbn [bind]. rewrite zint_of_Z, rem_pos by nia. cbn [bind]. set (b1 := (al * al) mod p). assert (B1 : 0 <= b1 < p) by (apply Z.mod_pos_bound; lia).
  rewrite zint_mul, rem_pos by nia. cbn [bind]. set (b2 := (b1 * (x * 2)) mod p). assert (B2 : 0 <= b2 < p) by (apply Z.mod_pos_bound; lia).
  assert (N : ~ (p | x)) by (intros D; apply Z.divide_pos_le in D; lia). destruct (odd_prime_half p HP H2) as (Ep & Hh). assert (HK : (p - 1) / 2 = 4 * k + 2) by lia.
  assert (Ea : eqm p al ((x * 2) ^ k)) by (apply eqm_mod; lia).
  assert (Eb : eqm p b2 ((x * 2) * (al * al))) by (unfold b2, b1; rewrite !eqm_mod by lia; rewrite (Z.mul_comm (al * al)); reflexivity).
  assert (Ei : eqm p (b2 * b2) (-1)).
  { rewrite Eb, Ea. assert (TX : ls (x * 2) p = -1).
    { rewrite ls_mul by auto. rewrite (ls_2 p HP H2). unfold chi8. rewrite M.
      assert (ls x p = 1) as -> by (apply ls_legendre; auto). reflexivity. }
    destruct (ls_spec (x * 2) p HP H2) as (_ & LE). rewrite TX, HK in LE. rewrite LE. set (u := x * 2). replace (4 * k + 2) with (k + k + k + k + 2) by lia. rewrite !Z.pow_add_r by lia.
    replace (u * (u ^ k * u ^ k) * (u * (u ^ k * u ^ k))) with (u ^ k * u ^ k * u ^ k * u ^ k * u ^ 2) by ring. reflexivity. }
  assert (BN : b2 <> 0) by (intros Z0; rewrite Z0 in Ei; exact (zero_ne_mone p ltac:(lia) Ei)).
  change (b_from_u32 1) with (zint 1). rewrite zint_sub, zint_mul, rem_pos by nia. cbn [bind]. set (b3 := ((b2 - 1) * x) mod p). assert (B3 : 0 <= b3 < p) by (apply Z.mod_pos_bound; lia).
  rewrite zint_mul, rem_pos by nia. eexists. split; [reflexivity|]. split; [apply Z.mod_pos_bound; lia|].
  rewrite eqm_mod by lia. unfold b3. rewrite eqm_mod by lia.
  transitivity (x * x * (al * al) * (b2 * b2 - 2 * b2 + 1)); [replace ((b2 - 1) * x * al * ((b2 - 1) * x * al)) with (x * x * (al * al) * (b2 * b2 - 2 * b2 + 1)) by ring; reflexivity|].
  rewrite Ei. transitivity (- (x * (b2 * (x * 2 * (al * al))))); [replace (- (x * (b2 * (x * 2 * (al * al))))) with (x * x * (al * al) * (-1 - 2 * b2 + 1)) by ring; reflexivity|].
  rewrite <- Eb, Ei. replace (- (x * -1)) with x by ring. reflexivity.
Qed.

(** Otherwise: Tonelli-Shanks. *)
Lemma sqrt_tonelli checks x e s n0 fuel : p - 1 = s * 2 ^ e -> 0 <= e -> Z.odd s = true -> shr_exact (p - 1) e -> 2 <= n0 < W -> ~ is_qr p n0 ->
  0 < x < p -> checks = false \/ x <> 1 -> is_qr p x -> (Z.to_nat e < fuel)%nat -> (Z.to_nat n0 <= fuel)%nat ->
  exists z, mod_sqrt_tonelli fuel checks (zint x) (zint p) = Ok (zint z) /\ 0 <= z < p /\ eqm p (z * z) x.
Proof.
  intros E E0 O SX N0 NQ X C Q F1 F2. pose proof P3 as P3'. assert (PW : 0 < 2 ^ e) by (apply Z.pow_pos_nonneg; lia). assert (S0 : 0 < s) by nia.
  assert (E1 : 1 <= e). { destruct (Z.eq_dec e 0) as [Z0|]; [exfalso|lia]. rewrite Z0, Z.pow_0_r, Z.mul_1_r in E. rewrite <- E, Z.odd_sub, PO in O. discriminate. }
  unfold mod_sqrt_tonelli. rewrite zint_nat, trim_abs, Z.abs_eq, sub1_odd by (auto; lia). assert (TZ : trailling_zeros (of_Z (p - 1)) = e) by (rewrite E; apply tz_of_Z; auto). rewrite TZ.
  assert (SH : shr_inner (of_Z (p - 1)) e = of_Z s).
  { rewrite shr_inner_good; [|apply of_Z_canon; lia|auto|apply shr_exact_good; auto; lia]. rewrite of_Z_val, E, Z.div_mul by lia. reflexivity. }
  rewrite SH, (zint_of_Z s) by lia.
  destruct (find_spec (Z.to_nat (n0 - 2)) 2 fuel) as (n1 & N1 & L1 & FN); [lia|lia|replace (2 + Z.of_nat (Z.to_nat (n0 - 2))) with n0 by lia; apply ls_legendre; auto|lia|].
  change (b_from_u32 2) with (zint 2). rewrite FN. cbn [bind]. rewrite zint_nat, trim_abs, Z.abs_eq, add1_canon, shr_small, zint_of_Z by (try apply Z.div_pos; lia). change (2 ^ 1) with 2.
  assert (X1 : checks = false \/ 1 < Z.abs x) by (destruct C; [auto|right; lia]).
  rewrite b_exp_any by (auto; try apply Z.div_pos; lia). cbn [bind]. rewrite b_exp_any by (auto; lia). cbn [bind]. rewrite b_exp_any by lia. cbn [bind]. rewrite (Z.abs_eq p) by lia.
  assert (N : ~ (p | x)) by (intros D; apply Z.divide_pos_le in D; lia). destruct (odd_prime_half p HP H2) as (Ep & Hh).
  assert (HH : s * 2 ^ (e - 1) = (p - 1) / 2). { replace e with (Z.succ (e - 1)) in E by lia. rewrite Z.pow_succ_r in E by lia. nia. }
  assert (Os : (s + 1) / 2 + (s + 1) / 2 = s + 1). { apply Z.odd_spec in O. destruct O as [q ->]. replace (2 * q + 1 + 1) with (0 + (q + 1) * 2) by ring. rewrite Z_div_plus_full by lia. change (0 / 2) with 0. lia. }
  apply tonelli_spec; auto; try (apply Z.mod_pos_bound; lia).
  - rewrite !eqm_mod by lia. rewrite <- Z.pow_add_r, Os, Z.pow_add_r by (try apply Z.div_pos; lia). rewrite Z.pow_1_r, Z.mul_comm. reflexivity.
  - rewrite (eqm_pow p _ (x ^ s)); [|lia|apply eqm_mod; lia]. rewrite <- Z.pow_mul_r, HH by lia. apply qr_pow; auto.
  - rewrite (eqm_pow p _ (n1 ^ s)); [|lia|apply eqm_mod; lia]. rewrite <- Z.pow_mul_r, HH by lia. destruct (ls_spec n1 p HP H2) as (_ & LE). rewrite <- LE, L1. reflexivity.
Qed.

Lemma low_mod4 : low (zint p) mod 4 = p mod 4.
Proof. pose proof P3. rewrite low_zint, Z.abs_eq by lia. rewrite <- (land_mod4 p). change 3 with (Z.ones 2). rewrite Z.land_ones by lia. reflexivity. Qed.
Lemma low_mod8 : low (zint p) mod 8 = p mod 8.
Proof. pose proof P3. rewrite low_zint, Z.abs_eq by lia. rewrite <- (land_mod8 p). change 7 with (Z.ones 3). rewrite Z.land_ones by lia. reflexivity. Qed.
Lemma low_odd : (Z.land (low (zint p)) 1 =? 1) = true.
Proof. pose proof P3. unfold low. rewrite zint_nat, low_bit_of_Z by lia. rewrite Z.abs_eq by lia. exact PO. Qed.

Definition tonelli_ready (fuel : nat) : Prop := p mod 8 = 1 -> exists e s n0, p - 1 = s * 2 ^ e /\ 0 <= e /\ Z.odd s = true /\ shr_exact (p - 1) e /\ 2 <= n0 < W /\ ~ is_qr p n0 /\
  (Z.to_nat e < fuel)%nat /\ (Z.to_nat n0 <= fuel)%nat.

Lemma b_mod_sqrt_none fuel checks a : clean a p -> ~ is_qr p a -> b_mod_sqrt fuel checks (zint a) (zint p) = Ok None.
Proof.
  intros C Q. unfold b_mod_sqrt. rewrite (jacobi_prime a C). cbn [bind]. assert (ls a p = -1) as -> by (apply ls_legendre; auto). reflexivity.
Qed.
Lemma b_mod_sqrt_zero fuel checks a : clean a p -> (p | a) -> b_mod_sqrt fuel checks (zint a) (zint p) = Ok (Some (zint 0)).
Proof.
  intros C Q. unfold b_mod_sqrt. rewrite (jacobi_prime a C). cbn [bind]. assert (ls a p = 0) as -> by (apply ls_legendre; auto). reflexivity.
Qed.
Lemma b_mod_sqrt_root fuel checks a : clean a p -> ~ (p | a) -> is_qr p a -> checks = false \/ a mod p <> 1 -> tonelli_ready fuel ->
  exists z, b_mod_sqrt fuel checks (zint a) (zint p) = Ok (Some (zint z)) /\ 0 < z < p /\ eqm p (z * z) a.
Proof.
  intros C N Q CH TR. pose proof P3 as P3'. unfold b_mod_sqrt. rewrite (jacobi_prime a C). cbn [bind]. assert (ls a p = 1) as -> by (apply ls_legendre; auto).
  rewrite low_odd, low_mod4, low_mod8. cbn [negb]. set (x := a mod p) in *. assert (X : 0 < x < p).
  { pose proof (Z.mod_pos_bound a p ltac:(lia)). assert (x <> 0); [|unfold x in *; lia]. unfold x. intros Z0. apply N. apply Z.mod_divide; lia. }
  assert (EX : (if b_is_negative (zint a) || b_ge (zint a) (zint p) then b_rem_euclid (b_clone (zint a)) (zint p) else Ok (zint a)) = Ok (zint x)).
  { rewrite zint_clone, zint_is_negative, zint_ge, Z.geb_leb. destruct (Z.ltb_spec a 0), (Z.leb_spec p a); cbn [orb]; try (rewrite zint_rem_euclid, (Z.abs_eq p) by lia; fold x; destruct (Z.eqb_spec x 0); [lia|]; rewrite andb_false_r; reflexivity).
    unfold x. rewrite Z.mod_small by lia. reflexivity. }
  rewrite EX. cbn [bind]. assert (Ex : eqm p x a) by (apply eqm_mod; lia). assert (Qx : is_qr p x) by (destruct Q as [w Hw]; exists w; rewrite Hw, Ex; reflexivity).
  assert (G : exists z, (if p mod 4 =? 3 then mod_sqrt_3mod4 checks (zint x) (zint p) else if p mod 8 =? 5 then mod_sqrt_5mod8 checks (zint x) (zint p) else mod_sqrt_tonelli fuel checks (zint x) (zint p)) = Ok (zint z)
    /\ 0 <= z < p /\ eqm p (z * z) x).
  { destruct (Z.eqb_spec (p mod 4) 3) as [M4|M4]; [apply sqrt_3mod4; auto|]. destruct (Z.eqb_spec (p mod 8) 5) as [M8|M8]; [apply sqrt_5mod8; auto|].
    assert (M1 : p mod 8 = 1). { destruct (odd_mod8 p PO) as [H|[H|[H|H]]]; auto; exfalso; apply M4; rewrite (Z.div_mod p 8) by lia; rewrite H;
      [replace (8 * (p / 8) + 3) with (3 + (2 * (p / 8)) * 4) by ring|contradiction|replace (8 * (p / 8) + 7) with (3 + (2 * (p / 8) + 1) * 4) by ring]; rewrite Z_mod_plus_full; reflexivity. }
    destruct (TR M1) as (e & s & n0 & E & E0 & O & SX & N0 & NQ & F1 & F2). apply (sqrt_tonelli checks x e s n0 fuel); auto. }
  destruct G as (z & -> & Z0 & SQ). cbn [bind]. exists z. split; [reflexivity|]. rewrite SQ, Ex. split; [|reflexivity]. assert (z <> 0); [|lia]. intros ->. rewrite Z.mul_0_l, Ex in SQ.
  apply N. apply eqm_div. symmetry. exact SQ.
Qed.
End Prime.
