(** [to_f32] and [to_f64] of values below half the least float (C51). *)
From Coq Require Import ZArith QArith List Lia Bool.
From Verif Require Import Words Spec WordsFacts NatModel NatFacts NatFacts2 NatFacts3 NatFacts4 NatFacts5
  NatConv NatConvFacts BigInt SpecInt BigIntFacts BigIntFacts3 Ieee Rat SpecRat SpecExact RatFacts IeeeFacts IeeeFacts2 RatFacts2.
Import ListNotations.
Open Scope Z_scope.

Section Tiny.
  Variables (mant : list Z -> Z) (mb eb : Z).
  Hypothesis Hmb : 1 <= mb.
  Hypothesis Heb : 2 <= eb.
  Hypothesis Hmant : forall v, 0 <= v < 2 ^ (mb + 3) -> mant (of_Z v) = v.
  Notation T := (2 ^ mb).
  Notation U := (funit mb eb).
  Notation emin := (1 - (2 ^ (eb - 1) - 1)).

  Lemma quo_tiny A B : 0 < A -> 0 < B -> 2 * (A * 2 ^ (- U)) < B -> exists r e ex,
    quo_core mant mb eb (of_Z A) (of_Z B) = Ok (r, e, ex) /\
    (ex = true <-> exists c j k, 0 <= c < 2 ^ (mb + 1) /\ 0 <= j /\ 0 <= k /\ A * 2 ^ j = c * 2 ^ k * B).
  Proof.
    intros HA HB HT. destruct (quo_first mant mb eb Hmb Heb Hmant A B HA HB) as (m & e & h & x & y & Hx & Hy & D & C & Hm & Q).
    rewrite Q. clear Q.
    assert (PT : 0 < T) by (apply Z.pow_pos_nonneg; lia). pose proof (U_neg mb eb Hmb Heb) as UN.
    assert (PU : 0 < 2 ^ (- U)) by (apply Z.pow_pos_nonneg; lia).
    assert (PX : 0 < 2 ^ x) by (apply Z.pow_pos_nonneg; lia).
    assert (PY : 0 < 2 ^ y) by (apply Z.pow_pos_nonneg; lia).
    assert (DN : (emin - mb <=? e) && (e <=? emin) = false).
    { apply andb_false_iff. left. apply Z.leb_gt. destruct (Z.lt_ge_cases e (emin - mb)) as [L|L]; [exact L|exfalso].
      destruct C as (_ & _ & [HP _] & _). rewrite <- U_emin in L.
      assert (H : 2 * T * (B * 2 ^ y) <= A * 2 ^ x) by nia.
      assert (H2 : 2 * 2 ^ (- U) * (2 * T * (B * 2 ^ y)) < B * 2 ^ x) by nia.
      assert (E1 : 2 * 2 ^ (- U) * (2 * T * (B * 2 ^ y)) = B * 2 ^ (2 - U + mb + y)).
      { replace (2 - U + mb + y) with (2 + (- U + (mb + y))) by lia.
        rewrite !Z.pow_add_r by lia. change (2 ^ 2) with 4. ring. }
      rewrite E1 in H2. assert (2 ^ x <= 2 ^ (2 - U + mb + y)) by (apply Z.pow_le_mono_r; lia). nia. }
    rewrite DN. destruct (quo_last mb Hmb m h e ltac:(lia)) as (r & e' & EQ & _ & _).
    exists r, e', (rnd_exact m h). split; [exact EQ|].
    destruct (rnd_spec _ _ _ _ C) as (R1 & _ & _ & R4). destruct C as (_ & M0 & HP & Hh).
    assert (T2 : 2 ^ (mb + 1) = 2 * T) by (rewrite Z.pow_add_r by lia; change (2 ^ 1) with 2; ring).
    rewrite T2. split.
    - intros E. unfold rnd_exact in E. rewrite land1 in E.
      destruct (Z.eqb_spec (m mod 2) 0) as [Ev|]; [|discriminate E]. cbn [negb] in E.
      exists (m / 2), x, (y + 1). split; [split; [apply Z.div_pos; lia|apply Z.div_lt_upper_bound; lia]|].
      split; [exact Hx|]. split; [lia|].
      assert (NP : ~ m * (B * 2 ^ y) < A * 2 ^ x) by (destruct h; [discriminate E|]; intros F; apply Hh in F; discriminate F).
      pose proof (Z.div_mod m 2 ltac:(lia)). rewrite Z.pow_add_r by lia. change (2 ^ 1) with 2. nia.
    - intros (c & j & k & Hc & Hj & Hk & E).
      (* A 2^x = c B 2^(k + x - j), at least 2 T B 2^y *)
      assert (PJ : 0 < 2 ^ j) by (apply Z.pow_pos_nonneg; lia).
      assert (PK : 0 < 2 ^ k) by (apply Z.pow_pos_nonneg; lia).
      assert (E2 : A * 2 ^ x * 2 ^ j = c * B * 2 ^ (k + x)) by (rewrite Z.pow_add_r by lia; nia).
      assert (G : y + j < k + x).
      { destruct (Z.lt_ge_cases (y + j) (k + x)) as [L|L]; [exact L|exfalso].
        assert (2 ^ (k + x) <= 2 ^ (y + j)) by (apply Z.pow_le_mono_r; lia).
        assert (2 * T * (B * 2 ^ y) <= A * 2 ^ x) by nia.
        assert (2 * T * (B * 2 ^ y) * 2 ^ j <= A * 2 ^ x * 2 ^ j) by (apply Z.mul_le_mono_nonneg_r; lia).
        assert (H4 : c * B * 2 ^ (k + x) <= c * B * 2 ^ (y + j)) by (apply Z.mul_le_mono_nonneg_l; [nia|assumption]).
        assert (E3 : 2 * T * (B * 2 ^ (y + j)) <= c * (B * 2 ^ (y + j))).
        { replace (2 * T * (B * 2 ^ (y + j))) with (2 * T * (B * 2 ^ y) * 2 ^ j) by (rewrite Z.pow_add_r by lia; ring). lia. }
        assert (0 < B * 2 ^ (y + j)) by (apply Z.mul_pos_pos; [lia|apply Z.pow_pos_nonneg; lia]).
        apply Z.mul_le_mono_pos_r in E3; lia. }
      set (t := k + x - y - j - 1). assert (Ht : 0 <= t) by (unfold t; lia).
      assert (PTt : 0 < 2 ^ t) by (apply Z.pow_pos_nonneg; lia).
      assert (E4 : A * 2 ^ x = 2 * (c * 2 ^ t) * (B * 2 ^ y)).
      { apply (Z.mul_reg_r _ _ (2 ^ j)); [lia|]. rewrite E2. replace (k + x) with (1 + (t + (y + j))) by (unfold t; lia).
        rewrite !Z.pow_add_r by lia. change (2 ^ 1) with 2. ring. }
      assert (PQ : 0 < B * 2 ^ y) by nia.
      assert (EM : m = 2 * (c * 2 ^ t)) by nia.
      unfold rnd_exact. rewrite land1. rewrite EM, Z.mul_comm, Z.mod_mul by lia. cbn [Z.eqb negb].
      destruct h; [|reflexivity]. exfalso. pose proof (proj1 Hh eq_refl). nia.
  Qed.

  Lemma near_tiny A B k : 0 <= A -> 0 < B -> 2 * (A * 2 ^ (- U)) < B -> nearest mb eb A B k -> k = 0.
  Proof.
    intros HA HB HT N. pose proof (finf_pos mb eb Hmb Heb) as FP. pose proof (U_neg mb eb Hmb Heb) as UN.
    assert (PU : 0 < 2 ^ (- U)) by (apply Z.pow_pos_nonneg; lia).
    assert (PT : 0 < T) by (apply Z.pow_pos_nonneg; lia).
    apply (near_unique mb eb Hmb Heb (A * 2 ^ (- U)) B); [exact HB|exact N|].
    assert (PA : 0 <= A * 2 ^ (- U)) by nia.
    assert (DZ : Z.abs (A * 2 ^ (- U) - B * (0 * 2 ^ 0)) = A * 2 ^ (- U)) by (rewrite Z.abs_eq; lia).
    change 0 with (0 + 0 * T).
    apply (near_intro mb eb Hmb _ _ 0 0);
      [exact HB|exact PA|split; [lia|split; [lia|auto]]|lia|left; reflexivity|rewrite DZ; lia|reflexivity|lia].
  Qed.
End Tiny.

Lemma to_f64_tiny x : ok_rat x -> ~ not_tiny 52 11 (rvalue x) -> exists ex,
  r_to_f64 x = Ok (fsigned 52 11 (bneg (rnum x)) 0, ex) /\ (ex = true <-> fits_bits 53 (rvalue x)).
Proof.
  intros H NT. destruct (ok_rat_mk x H) as (s & m & t & n & Hm & Hn & ->). unfold not_tiny, fits_bits in *. rewrite rvalue_mk in * by auto.
  cbn [Qnum Qden] in *. rewrite Z2Pos.id in * by auto.
  assert (AB : Z.abs (sgv s m) = m) by (unfold sgv; destruct s; lia). rewrite AB in *.
  assert (M0 : 0 < m) by (destruct (Z.eq_dec m 0) as [->|]; [exfalso; apply NT; left; destruct s; reflexivity|lia]).
  assert (TN : 2 * (m * 2 ^ (- funit 52 11)) < n).
  { destruct (Z.lt_ge_cases (2 * (m * 2 ^ (- funit 52 11))) n) as [L|L]; [exact L|exfalso]. apply NT. right. rewrite unit64 in *.
    change (1 - -1074) with (Z.succ 1074). change (- -1074) with 1074 in L. rewrite Z.pow_succ_r by lia. lia. }
  unfold r_to_f64. rewrite mk_nan by lia. unfold mk. cbn [rnum rden bnat bneg].
  rewrite (of_Z_eq_u32 n) by lia. rewrite (proj2 (Z.eqb_neq n 0)) by lia.
  destruct (quo_to_f64_spec m n Hm Hn) as (k & ex & Q & NE & _ & _ & _).
  assert (K0 : k = 0) by exact (near_tiny 52 11 h52 h11 m n k Hm Hn TN NE). subst k.
  rewrite Q. cbn [bind]. exists ex. split; [destruct s; [rewrite fopp_pos by (auto using h52, h11; pose proof (finf_pos 52 11 h52 h11); lia)|]; reflexivity|].
  destruct (quo_tiny mant64 52 11 h52 h11 mant64_of_Z m n M0 Hn TN) as (r & e & ex2 & Q2 & EX).
  unfold quo_to_f64 in Q. rewrite (of_Z_eq_u32 m), (proj2 (Z.eqb_neq m 0)), Q2 in Q by lia. cbn [bind] in Q.
  assert (EE : ex = ex2).
  { destruct (f_is_inf 52 11 _) eqn:FI in Q; [|congruence].
    assert (F0 : ldexp (f64_of_uint r) (e - 53) = 0) by congruence. rewrite F0 in FI. vm_compute in FI. discriminate FI. }
  rewrite EE. exact EX.
Qed.
Lemma to_f32_tiny x : ok_rat x -> ~ not_tiny 23 8 (rvalue x) -> exists ex,
  r_to_f32 x = Ok (fsigned 23 8 (bneg (rnum x)) 0, ex) /\ (ex = true <-> fits_bits 24 (rvalue x)).
Proof.
  intros H NT. destruct (ok_rat_mk x H) as (s & m & t & n & Hm & Hn & ->). unfold not_tiny, fits_bits in *. rewrite rvalue_mk in * by auto.
  cbn [Qnum Qden] in *. rewrite Z2Pos.id in * by auto.
  assert (AB : Z.abs (sgv s m) = m) by (unfold sgv; destruct s; lia). rewrite AB in *.
  assert (M0 : 0 < m) by (destruct (Z.eq_dec m 0) as [->|]; [exfalso; apply NT; left; destruct s; reflexivity|lia]).
  assert (TN : 2 * (m * 2 ^ (- funit 23 8)) < n).
  { destruct (Z.lt_ge_cases (2 * (m * 2 ^ (- funit 23 8))) n) as [L|L]; [exact L|exfalso]. apply NT. right. rewrite unit32 in *.
    change (1 - -149) with (Z.succ 149). change (- -149) with 149 in L. rewrite Z.pow_succ_r by lia. lia. }
  unfold r_to_f32. rewrite mk_nan by lia. unfold mk. cbn [rnum rden bnat bneg].
  rewrite (of_Z_eq_u32 n) by lia. rewrite (proj2 (Z.eqb_neq n 0)) by lia.
  destruct (quo_to_f32_spec m n M0 Hn) as (k & ex & Q & NE & _ & _).
  assert (K0 : k = 0) by exact (near_tiny 23 8 h23 h8 m n k Hm Hn TN NE). subst k.
  rewrite Q. cbn [bind]. exists ex. split; [destruct s; [rewrite fopp_pos by (auto using h23, h8; pose proof (finf_pos 23 8 h23 h8); lia)|]; reflexivity|].
  destruct (quo_tiny mant32 23 8 h23 h8 mant32_of_Z m n M0 Hn TN) as (r & e & ex2 & Q2 & EX).
  unfold quo_to_f32 in Q. rewrite Q2 in Q. cbn [bind] in Q.
  assert (EE : ex = ex2).
  { destruct (f_is_inf 23 8 _) eqn:FI in Q; [|congruence].
    assert (F0 : f32_of_f64 (ldexp (f64_of_uint r) (e - 24)) = 0) by congruence. rewrite F0 in FI. vm_compute in FI. discriminate FI. }
  rewrite EE. exact EX.
Qed.
