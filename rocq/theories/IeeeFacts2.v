(** Lemmas about [ldexp] and about the quotient that [Rat] rounds. *)
From Coq Require Import ZArith QArith List Lia Bool.
From Verif Require Import Words WordsFacts NatModel NatFacts NatFacts2 NatConvFacts BigIntFacts Ieee Rat SpecRat IeeeFacts.
Import ListNotations.
Open Scope Z_scope.

Notation T52 := (2 ^ 52).
Lemma h52 : 1 <= 52. Proof. lia. Qed.
Lemma h11 : 2 <= 11. Proof. lia. Qed.
Lemma h23 : 1 <= 23. Proof. lia. Qed.
Lemma h8 : 2 <= 8. Proof. lia. Qed.
Lemma finf64 : finf 52 11 = 2047 * T52. Proof. reflexivity. Qed.
Lemma unit64 : funit 52 11 = -1074. Proof. reflexivity. Qed.
Lemma finf32 : finf 23 8 = 255 * 2 ^ 23. Proof. reflexivity. Qed.
Lemma unit32 : funit 23 8 = -149. Proof. reflexivity. Qed.

(** Positive patterns. *)
Lemma pos_pattern mb eb k : 1 <= mb -> 2 <= eb -> 0 <= k <= finf mb eb -> fneg_bit mb eb k = false /\ fmag mb eb k = k.
Proof.
  intros Hm He Hk. assert (k < 2 ^ (mb + eb)).
  { unfold finf in Hk. rewrite Z.pow_add_r by lia. pose proof (Z.pow_pos_nonneg 2 mb). nia. }
  split; [apply Z.leb_gt; auto|apply Z.mod_small; lia].
Qed.
Lemma pos_tests mb eb k : 1 <= mb -> 2 <= eb -> 0 <= k <= finf mb eb ->
  f_is_nan mb eb k = false /\ f_is_inf mb eb k = (k =? finf mb eb) /\ f_is_zero mb eb k = (k =? 0).
Proof.
  intros Hm He Hk. unfold f_is_nan, f_is_inf, f_is_zero. destruct (pos_pattern mb eb k Hm He Hk) as [_ ->].
  split; [apply Z.ltb_ge; lia|auto].
Qed.

(** Multiplication by a power of two. *)
Lemma fmul_pow2 j x : -1022 <= j <= 1023 -> 0 < x < finf 52 11 ->
  fmul 52 11 (f64_pow2 j) x = fround 52 11 (fsig 52 x) (fexp 52 11 x + j).
Proof.
  intros Hj Hx. pose proof finf64 as FI. set (p := f64_pow2 j).
  assert (Hp : 0 < p < finf 52 11) by (unfold p, f64_pow2; lia).
  assert (Dp : p / T52 = j + 1023) by (unfold p, f64_pow2; apply Z.div_mul; lia).
  assert (Mp : p mod T52 = 0) by (unfold p, f64_pow2; apply Z.mod_mul; lia).
  assert (Sp : fsig 52 p = T52) by (unfold fsig; rewrite Dp, Mp; destruct (Z.eqb_spec (j + 1023) 0); lia).
  assert (Ep : fexp 52 11 p = j - 52) by (unfold fexp; rewrite Dp, unit64; lia).
  unfold fmul.
  destruct (pos_pattern 52 11 p h52 h11 ltac:(lia)) as [-> ->]. destruct (pos_pattern 52 11 x h52 h11 ltac:(lia)) as [-> ->].
  destruct (pos_tests 52 11 p h52 h11 ltac:(lia)) as (-> & -> & ->). destruct (pos_tests 52 11 x h52 h11 ltac:(lia)) as (-> & -> & ->).
  rewrite !(proj2 (Z.eqb_neq _ _)) by lia. cbn [orb andb eqb negb fsigned]. rewrite Sp, Ep.
  destruct (sig_exp 52 11 h52 x ltac:(lia)) as (_ & P & _).
  rewrite Z.mul_comm, fround_shift by (auto; lia). f_equal. lia.
Qed.

(** [ldexp] of a positive normal number rounds correctly. *)
Lemma ldexp_normal sig c e : T52 <= sig < 2 * T52 -> 0 <= c <= 2045 ->
  ldexp (sig + c * T52) e = fround 52 11 sig (c - 1074 + e).
Proof.
  intros Hs Hc. pose proof finf64 as FI. set (k := sig + c * T52).
  assert (Hk : T52 <= k < finf 52 11) by (unfold k; lia).
  assert (Dk : k / T52 = c + 1).
  { unfold k. rewrite Z.div_add by lia. assert (sig / T52 = 1); [|lia]. symmetry. apply (Z.div_unique_pos sig T52 1 (sig - T52)); lia. }
  assert (Mk : k mod T52 = sig - T52).
  { unfold k. rewrite Z.mod_add by lia. symmetry. apply (Z.mod_unique_pos sig T52 1); lia. }
  unfold ldexp. destruct (pos_tests 52 11 k h52 h11 ltac:(lia)) as (-> & -> & ->).
  rewrite !(proj2 (Z.eqb_neq _ _)) by lia. cbn [orb]. unfold normalize.
  destruct (pos_pattern 52 11 k h52 h11 ltac:(lia)) as [Nk Fk]. rewrite Fk.
  rewrite (proj2 (Z.ltb_ge _ _)) by lia. rewrite Nk, Dk.
  assert (LA : Z.land (c + 1) 2047 = c + 1).
  { change 2047 with (Z.ones 11). rewrite Z.land_ones, Z.mod_small by lia. reflexivity. }
  rewrite LA. cbn [fsigned].
  set (exp := e + 0 + (c + 1 - 1023)).
  assert (Ee : c - 1074 + e = exp - 52) by (unfold exp; lia). rewrite Ee. clearbody exp. clear Ee.
  assert (Cl : Z.ldiff k (2047 * 2 ^ 52) = sig - T52).
  { rewrite <- Mk. rewrite <- Z.land_ones by lia. apply Z.bits_inj. intros i. rewrite Z.ldiff_spec, Z.land_spec.
    destruct (Z.lt_ge_cases i 0) as [L|L]; [rewrite !Z.testbit_neg_r by auto; reflexivity|].
    change 2047 with (Z.ones 11). rewrite Z.mul_pow2_bits by lia.
    destruct (Z.lt_ge_cases i 52) as [L1|L1].
    - rewrite (Z.testbit_neg_r (Z.ones 11)), Z.ones_spec_low by lia. reflexivity.
    - rewrite (Z.ones_spec_high 52), andb_false_r by lia.
      destruct (Z.lt_ge_cases (i - 52) 11) as [L2|L2]; [rewrite Z.ones_spec_low by lia; apply andb_false_r|].
      rewrite (Z.bits_above_log2 k i); [reflexivity|lia|].
      apply Z.log2_lt_pow2; [lia|]. apply Z.lt_le_trans with (2 ^ 63); [|apply Z.pow_le_mono_r; lia].
      change (2 ^ 63) with (2048 * 2 ^ 52). lia. }
  rewrite Cl.
  assert (OR : forall f, 0 <= f -> Z.lor (sig - T52) (f * 2 ^ 52) = sig - T52 + f * T52).
  { intros f Hf. rewrite Z.lor_comm, lor_low_add by lia. lia. }
  assert (PT : forall f, 1 <= f <= 2046 -> 0 < sig - T52 + f * T52 < finf 52 11 /\
    fsig 52 (sig - T52 + f * T52) = sig /\ fexp 52 11 (sig - T52 + f * T52) = f - 1075).
  { intros f Hf. assert (D : (sig - T52 + f * T52) / T52 = f) by (rewrite Z.div_add, Z.div_small by lia; lia).
    assert (M : (sig - T52 + f * T52) mod T52 = sig - T52) by (rewrite Z.mod_add, Z.mod_small by lia; lia).
    split; [lia|]. unfold fsig, fexp. rewrite D, M, unit64. rewrite (proj2 (Z.eqb_neq _ _)) by lia. lia. }
  destruct (Z.ltb_spec exp (-1075)) as [L|L].
  { symmetry. apply (fround_tiny 52 11 h52 h11 sig (exp - 52) (- exp)); rewrite ?unit64; try lia.
    replace (exp - 52 - -1074 + - exp) with 1022 by lia.
    apply Z.le_trans with (2 ^ 1076); [|apply Z.pow_le_mono_r; lia].
    change (2 ^ 1076) with (2 ^ 53 * 2 * 2 ^ 1022). change (2 ^ 53) with (2 * 2 ^ 52).
    assert (0 < 2 ^ 1022) by (apply Z.pow_pos_nonneg; lia). set (Y := 2 ^ 1022) in *. nia. }
  destruct (Z.ltb_spec 1023 exp) as [H|H].
  { symmetry. apply (fround_large 52 11 h52 h11 sig (exp - 52) 0); rewrite ?unit64; try lia.
    assert (2 ^ (2 ^ 11 - 2) <= 2 ^ (exp - 52 - -1074 + 0)) by (apply Z.pow_le_mono_r; lia).
    set (Y := 2 ^ (2 ^ 11 - 2)) in *. set (Y' := 2 ^ (exp - 52 - -1074 + 0)) in *.
    assert (0 < Y) by (apply Z.pow_pos_nonneg; lia). clearbody Y Y'. nia. }
  destruct (Z.ltb_spec exp (-1022)) as [D|D].
  - rewrite OR by lia. destruct (PT (exp + 53 + 1023) ltac:(lia)) as (P1 & P2 & P3).
    rewrite fmul_pow2 by (auto; lia). rewrite P2, P3. f_equal. lia.
  - rewrite OR by lia. destruct (PT (exp + 1023) ltac:(lia)) as (P1 & P2 & P3).
    rewrite fmul_pow2 by (auto; lia). rewrite P2, P3. f_equal. lia.
Qed.

(** An integer of at most 53 bits is represented exactly ... *)
Lemma of_uint_pattern m : 0 < m < 2 ^ 53 -> exists d, 0 <= d <= 52 /\ T52 <= m * 2 ^ d < 2 * T52 /\
  f64_of_uint m = m * 2 ^ d + (1074 - d) * T52.
Proof.
  intros Hm. assert (L : 0 <= Z.log2 m <= 52).
  { split; [apply Z.log2_nonneg|].
    apply Z.lt_succ_r. apply Z.log2_lt_pow2; lia. }
  exists (52 - Z.log2 m). split; [lia|]. pose proof (Z.log2_spec m ltac:(lia)) as [A B]. set (l := Z.log2 m) in *.
  assert (P : 0 < 2 ^ (52 - l)) by (apply Z.pow_pos_nonneg; lia).
  assert (E1 : T52 = 2 ^ l * 2 ^ (52 - l)) by (rewrite <- Z.pow_add_r by lia; f_equal; lia).
  assert (E2 : 2 ^ Z.succ l * 2 ^ (52 - l) = 2 * T52) by (rewrite Z.pow_succ_r, E1 by lia; ring).
  assert (R : T52 <= m * 2 ^ (52 - l) < 2 * T52).
  { rewrite E1 at 1. rewrite <- E2. split; nia. }
  split; [exact R|]. unfold f64_of_uint.
  replace (fround 52 11 m 0) with (fround 52 11 (m * 2 ^ (52 - l)) ((1074 - (52 - l)) + funit 52 11)).
  - rewrite fround_exact; [|lia|lia|split; lia|lia]. rewrite finf64. apply Z.min_l. lia.
  - rewrite fround_shift, unit64 by lia. f_equal. lia.
Qed.
(** ... and [ldexp] of it is correctly rounded. *)
Lemma ldexp_uint m e : 0 <= m < 2 ^ 53 -> ldexp (f64_of_uint m) e = fround 52 11 m e.
Proof.
  intros Hm. destruct (Z.eq_dec m 0) as [->|N]; [reflexivity|].
  destruct (of_uint_pattern m ltac:(lia)) as (d & Hd & R & ->). rewrite ldexp_normal by lia.
  rewrite fround_shift by lia. f_equal. lia.
Qed.

(* ------------------------------------------------------------------ *)
(** * The rounded quotient *)

(** [m] is the quotient P / Q cut to an integer, [h] tells of a remainder. *)
Definition cut (P Q m : Z) (h : bool) : Prop := 0 < Q /\ 0 <= m /\ m * Q <= P < (m + 1) * Q /\ (h = true <-> m * Q < P).
Lemma cut_shift P Q m h s : 0 <= s -> cut P Q m h ->
  cut P (Q * 2 ^ s) (m / 2 ^ s) (h || negb (m mod 2 ^ s =? 0)).
Proof.
  intros Hs (HQ & Hm & HP & Hh). assert (P2 : 0 < 2 ^ s) by (apply Z.pow_pos_nonneg; lia).
  pose proof (Z.div_mod m (2 ^ s)). pose proof (Z.mod_pos_bound m (2 ^ s)). pose proof (Z.div_pos m (2 ^ s) Hm P2).
  set (q := m / 2 ^ s) in *. set (r := m mod 2 ^ s) in *.
  assert (E : q * (Q * 2 ^ s) = m * Q - r * Q) by nia.
  split; [nia|]. split; [lia|]. split; [rewrite Z.mul_add_distr_r, E; nia|]. rewrite E.
  destruct (Z.eqb_spec r 0) as [->|N]; cbn [negb].
  - rewrite orb_false_r, Hh. lia.
  - rewrite orb_true_r. split; [nia|auto].
Qed.

(** Rounding off the last bit. *)
Definition rnd (m : Z) (h : bool) : Z :=
  if negb (Z.land m 1 =? 0) then if h || negb (Z.land m 2 =? 0) then (m + 1) / 2 else m / 2 else m / 2.
Definition rnd_exact (m : Z) (h : bool) : bool := if negb (Z.land m 1 =? 0) then false else negb h.
Lemma land1 m : Z.land m 1 = m mod 2.
Proof. change 1 with (Z.ones 1). rewrite Z.land_ones by lia. reflexivity. Qed.
Lemma land2 m : (Z.land m 2 =? 0) = Z.even (m / 2).
Proof.
  destruct (Z.eqb_spec (Z.land m 2) 0) as [E|N].
  - assert (B : Z.testbit (Z.land m 2) 1 = false) by (rewrite E; reflexivity).
    rewrite Z.land_spec in B. change (Z.testbit 2 1) with true in B. rewrite andb_true_r in B.
    rewrite <- Z.negb_odd, <- Z.bit0_odd, <- Z.shiftr_div_pow2 with (n := 1) by lia.
    rewrite Z.shiftr_spec by lia. change (0 + 1) with 1. rewrite B. reflexivity.
  - rewrite <- Z.negb_odd, <- Z.bit0_odd. rewrite <- Z.shiftr_div_pow2 with (n := 1) by lia.
    rewrite Z.shiftr_spec by lia. change (0 + 1) with 1.
    destruct (Z.testbit m 1) eqn:B; [reflexivity|]. exfalso. apply N. apply Z.bits_inj. intros i. rewrite Z.land_spec, Z.bits_0.
    destruct (Z.eq_dec i 1) as [->|Ni]; [rewrite B; reflexivity|].
    change 2 with (2 ^ 1). rewrite Z.pow2_bits_false by lia. apply andb_false_r.
Qed.
Lemma rnd_spec P Q m h : cut P Q m h ->
  m / 2 <= rnd m h <= m / 2 + 1 /\
  2 * Z.abs (P - rnd m h * (Q * 2)) <= Q * 2 /\
  (2 * Z.abs (P - rnd m h * (Q * 2)) = Q * 2 -> Z.even (rnd m h) = true) /\
  (rnd_exact m h = true <-> P = rnd m h * (Q * 2)).
Proof.
  intros (HQ & Hm & HP & Hh). unfold rnd, rnd_exact. rewrite land1, land2.
  pose proof (Z.div_mod m 2). pose proof (Z.mod_pos_bound m 2).
  destruct (Z.eqb_spec (m mod 2) 0) as [E|N]; cbn [negb].
  - set (q := m / 2) in *. assert (Em : m = 2 * q) by lia. clearbody q. subst m.
    assert (E1 : q * (Q * 2) = 2 * q * Q) by ring. rewrite E1.
    split; [lia|]. split; [lia|]. split; [lia|]. destruct h; cbn [negb].
    + split; [discriminate|]. assert (2 * q * Q < P) by (apply Hh; auto). lia.
    + split; [|auto]. intros _. destruct (Z.eq_dec P (2 * q * Q)) as [|C]; [auto|].
      assert (false = true); [apply Hh; lia|discriminate].
  - set (q := m / 2) in *. assert (Em : m = 2 * q + 1) by lia.
    assert (E0 : (m + 1) / 2 = q + 1) by (rewrite Em; replace (2 * q + 1 + 1) with ((q + 1) * 2) by ring; apply Z.div_mul; lia).
    rewrite E0. clearbody q. clear E0. subst m.
    assert (E1 : (q + 1) * (Q * 2) = (2 * q + 1 + 1) * Q) by ring.
    assert (E2 : q * (Q * 2) = (2 * q + 1) * Q - Q) by ring.
    destruct h; cbn [orb].
    + assert ((2 * q + 1) * Q < P) by (apply Hh; auto). rewrite E1. split; [lia|]. split; [lia|]. split; [lia|].
      split; [discriminate|lia].
    + assert (P = (2 * q + 1) * Q).
      { destruct (Z.eq_dec P ((2 * q + 1) * Q)) as [|C]; [auto|]. assert (false = true); [apply Hh; lia|discriminate]. }
      destruct (Z.even q) eqn:Ev; cbn [negb]; [rewrite E2|rewrite E1].
      * split; [lia|]. split; [lia|]. split; [auto|]. split; [discriminate|lia].
      * split; [lia|]. split; [lia|]. split; [intros _; rewrite Z.even_add, Ev; reflexivity|]. split; [discriminate|lia].
Qed.

Lemma gt_zero r : 0 <= r -> match partial_cmp (of_Z r) (from_u32 0) with Some Gt => true | _ => false end = (0 <? r).
Proof.
  intros Hr. change (from_u32 0) with (of_Z 0). rewrite partial_cmp_spec, !of_Z_val by (try apply of_Z_canon; lia).
  unfold Z.ltb. rewrite Z.compare_antisym. destruct (0 ?= r); reflexivity.
Qed.

Section Quo.
  Variables (mant : list Z -> Z) (mb eb : Z).
  Hypothesis Hmb : 1 <= mb.
  Hypothesis Heb : 2 <= eb.
  Hypothesis Hmant : forall v, 0 <= v < 2 ^ (mb + 3) -> mant (of_Z v) = v.
  Notation T := (2 ^ mb).
  Notation U := (funit mb eb).
  Notation emin := (1 - (2 ^ (eb - 1) - 1)).

  Lemma U_emin : U = emin - mb. Proof. reflexivity. Qed.
  Lemma U_neg : U <= 0.
  Proof.
    rewrite U_emin. assert (2 ^ 1 <= 2 ^ (eb - 1)) by (apply Z.pow_le_mono_r; lia). change (2 ^ 1) with 2 in *. lia.
  Qed.

  (** The first two steps: a quotient with mb + 2 bits. *)
  Lemma quo_first A B : 0 < A -> 0 < B ->
    exists m e h x y, 0 <= x /\ 0 <= y /\ y - x = e - (mb + 2) /\ cut (A * 2 ^ x) (B * 2 ^ y) m h /\ 2 * T <= m < 4 * T /\
    quo_core mant mb eb (of_Z A) (of_Z B) =
      let '(mantissa, exp, have_rem) :=
        if (emin - mb <=? e) && (e <=? emin) then
          let shift := emin - (e - 1) in
          (m / 2 ^ shift, 2 - (2 ^ (eb - 1) - 1), h || negb (m mod 2 ^ shift =? 0))
        else (m, e, h) in
      let '(mantissa, exp, exact) :=
        if negb (Z.land mantissa 1 =? 0) then
          if have_rem || negb (Z.land mantissa 2 =? 0) then
            let mantissa := mantissa + 1 in
            if 2 ^ (mb + 2) <=? mantissa then (mantissa / 2, exp + 1, false) else (mantissa, exp, false)
          else (mantissa, exp, false)
        else (mantissa, exp, negb have_rem) in
      Ok (mantissa / 2, exp, exact).
  Proof.
    intros HA HB. unfold quo_core. rewrite !bits_len_of_Z_eq by lia.
    rewrite !(proj2 (Z.eqb_neq _ _)) by lia.
    pose proof (Z.log2_spec A HA) as [A1 A2]. pose proof (Z.log2_spec B HB) as [B1 B2].
    pose proof (Z.log2_nonneg A) as LA. pose proof (Z.log2_nonneg B) as LB.
    set (la := Z.log2 A) in *. set (lb := Z.log2 B) in *.
    set (e0 := la + 1 - (lb + 1)). assert (E0 : e0 = la - lb) by (unfold e0; lia). clearbody e0.
    set (x0 := Z.max 0 (mb + 2 - e0)). set (y0 := Z.max 0 (e0 - (mb + 2))).
    assert (SA : (if e0 <? mb + 2 then shl_inner (of_Z A) (mb + 2 - e0) else of_Z A) = of_Z (A * 2 ^ x0)).
    { unfold x0. destruct (Z.ltb_spec e0 (mb + 2)); [rewrite shl_of_Z by lia; do 3 f_equal; lia|].
      rewrite Z.max_l, Z.mul_1_r by lia. reflexivity. }
    assert (SB : (if e0 <? mb + 2 then of_Z B else shl_inner (of_Z B) (e0 - (mb + 2))) = of_Z (B * 2 ^ y0)).
    { unfold y0. destruct (Z.ltb_spec e0 (mb + 2)); [rewrite Z.max_l, Z.mul_1_r by lia; reflexivity|].
      rewrite shl_of_Z by lia. do 3 f_equal. lia. }
    assert (D0 : y0 - x0 = e0 - (mb + 2)) by (unfold x0, y0; lia).
    assert (X0 : 0 <= x0) by (unfold x0; lia). assert (Y0 : 0 <= y0) by (unfold y0; lia). clearbody x0 y0.
    cbv zeta. rewrite SA, SB. clear SA SB.
    assert (PX : 0 < 2 ^ x0) by (apply Z.pow_pos_nonneg; lia). assert (PY : 0 < 2 ^ y0) by (apply Z.pow_pos_nonneg; lia).
    rewrite !trim_canon_id by (apply of_Z_canon; nia). rewrite nat_div_of_Z, nat_rem_of_Z' by nia. cbn [bind].
    set (P := A * 2 ^ x0) in *. set (Q := B * 2 ^ y0) in *. assert (HP : 0 < P) by (unfold P; nia). assert (HQ : 0 < Q) by (unfold Q; nia).
    pose proof (Z.div_mod P Q ltac:(lia)) as DM. pose proof (Z.mod_pos_bound P Q ltac:(lia)) as MB.
    assert (PT : 0 < T) by (apply Z.pow_pos_nonneg; lia).
    assert (T2 : 2 ^ (mb + 2) = 4 * T) by (rewrite Z.pow_add_r by lia; change (2 ^ 2) with 4; ring).
    assert (T1 : 2 ^ (mb + 1) = 2 * T) by (rewrite Z.pow_add_r by lia; change (2 ^ 1) with 2; ring).
    assert (T3 : 2 ^ (mb + 3) = 8 * T) by (rewrite Z.pow_add_r by lia; change (2 ^ 3) with 8; ring).
    assert (R : 2 * T * Q < P < 8 * T * Q).
    { (* 2^la 2^x0 <= P < 2^(la+1) 2^x0 and the same for Q *)
      unfold P, Q. rewrite !Z.pow_succ_r in * by lia.
      assert (K : 2 ^ la * 2 ^ x0 = 4 * T * (2 ^ lb * 2 ^ y0)).
      { rewrite <- T2, <- !Z.pow_add_r by lia. f_equal. lia. }
      assert (0 < 2 ^ lb) by (apply Z.pow_pos_nonneg; lia).
      assert (Q1 : 2 ^ lb * 2 ^ y0 <= B * 2 ^ y0) by nia. assert (Q2 : B * 2 ^ y0 < 2 * (2 ^ lb * 2 ^ y0)) by nia.
      assert (P1 : 2 ^ la * 2 ^ x0 <= A * 2 ^ x0) by nia. assert (P2 : A * 2 ^ x0 < 2 * (2 ^ la * 2 ^ x0)) by nia.
      set (q := 2 ^ lb * 2 ^ y0) in *. set (p := 2 ^ la * 2 ^ x0) in *. clearbody p q. nia. }
    assert (QB : 2 * T <= P / Q < 8 * T).
    { split; [apply Z.div_le_lower_bound; lia|apply Z.div_lt_upper_bound; lia]. }
    rewrite Hmant by (rewrite T3; lia). rewrite gt_zero by lia.
    set (q := P / Q) in *. set (r := P mod Q) in *.
    assert (C : cut P Q q (0 <? r)).
    { split; [auto|]. split; [lia|]. split; [nia|]. rewrite Z.ltb_lt. lia. }
    rewrite T2, T1.
    destruct (Z.eqb_spec (q / (4 * T)) 1) as [E|N].
    - assert (QR : 4 * T <= q).
      { destruct (Z.le_gt_cases (4 * T) q); [auto|]. rewrite Z.div_small in E by lia. discriminate. }
      pose proof (cut_shift P Q q (0 <? r) 1 ltac:(lia) C) as C1. change (2 ^ 1) with 2 in C1.
      exists (q / 2), (e0 + 1), ((0 <? r) || (Z.land q 1 =? 1)), x0, (y0 + 1).
      assert (HR : 2 * T <= q / 2 < 4 * T) by (split; [apply Z.div_le_lower_bound; lia|apply Z.div_lt_upper_bound; lia]).
      split; [lia|]. split; [lia|]. split; [lia|]. split; [|split; [exact HR|]].
      + replace (B * 2 ^ (y0 + 1)) with (Q * 2) by (unfold Q; rewrite Z.pow_add_r by lia; change (2 ^ 1) with 2; ring).
        replace (Z.land q 1 =? 1) with (negb (q mod 2 =? 0)); [exact C1|]. rewrite land1.
        pose proof (Z.mod_pos_bound q 2). destruct (Z.eqb_spec (q mod 2) 0), (Z.eqb_spec (q mod 2) 1); lia || reflexivity.
      + assert (E1 : (q / 2) / (2 * T) = 1) by (symmetry; apply (Z.div_unique_pos _ _ _ (q / 2 - 2 * T)); lia).
        rewrite E1. cbn [Z.eqb Pos.eqb negb]. reflexivity.
    - assert (QR : q < 4 * T).
      { destruct (Z.le_gt_cases (4 * T) q); [|auto]. exfalso. apply N. symmetry. apply (Z.div_unique_pos _ _ _ (q - 4 * T)); lia. }
      exists q, e0, (0 <? r), x0, y0. split; [lia|]. split; [lia|]. split; [lia|]. split; [exact C|]. split; [lia|].
      assert (E1 : q / (2 * T) = 1) by (symmetry; apply (Z.div_unique_pos _ _ _ (q - 2 * T)); lia).
      rewrite E1. cbn [Z.eqb Pos.eqb negb]. reflexivity.
  Qed.

  (** The last steps, on a quotient of at most mb + 2 bits. *)
  Lemma quo_last m h e : 0 <= m < 4 * T -> exists r e',
    (let '(mantissa, exp, exact) :=
        if negb (Z.land m 1 =? 0) then
          if h || negb (Z.land m 2 =? 0) then
            let mantissa := m + 1 in
            if 2 ^ (mb + 2) <=? mantissa then (mantissa / 2, e + 1, false) else (mantissa, e, false)
          else (m, e, false)
        else (m, e, negb h) in
      Ok (mantissa / 2, exp, exact)) = Ok (r, e', rnd_exact m h) /\
    0 <= r < 2 * T /\ (r = rnd m h /\ e' = e \/ rnd m h = 2 * T /\ r = T /\ e' = e + 1).
  Proof.
    intros Hm. assert (PT : 0 < T) by (apply Z.pow_pos_nonneg; lia).
    assert (T2 : 2 ^ (mb + 2) = 4 * T) by (rewrite Z.pow_add_r by lia; change (2 ^ 2) with 4; ring).
    unfold rnd, rnd_exact. rewrite T2.
    assert (M2 : 0 <= m / 2 < 2 * T) by (split; [apply Z.div_pos; lia|apply Z.div_lt_upper_bound; lia]).
    destruct (negb (Z.land m 1 =? 0)); [|eexists; eexists; split; [reflexivity|]; split; [exact M2|left; auto]].
    destruct (h || negb (Z.land m 2 =? 0)); [|eexists; eexists; split; [reflexivity|]; split; [exact M2|left; auto]].
    cbv zeta. destruct (Z.leb_spec (4 * T) (m + 1)).
    - assert (E : m + 1 = 2 * T * 2) by lia. rewrite E, Z.div_mul by lia. rewrite (Z.mul_comm 2 T), Z.div_mul by lia.
      eexists; eexists; split; [reflexivity|]. split; [lia|right]. auto with zarith.
    - eexists; eexists; split; [reflexivity|]. split; [split; [apply Z.div_pos; lia|apply Z.div_lt_upper_bound; lia]|left; auto].
  Qed.

  Lemma quo_spec A B : 0 < A -> 0 < B -> exists r e ex,
    quo_core mant mb eb (of_Z A) (of_Z B) = Ok (r, e, ex) /\ 0 <= r < 2 * T /\
    let k := fround mb eb r (e - (mb + 1)) in
    near mb eb (A * 2 ^ (- U)) B k /\
    (B <= 2 * (A * 2 ^ (- U)) -> k < finf mb eb -> (ex = true <-> A * 2 ^ (- U) = B * funits mb k)).
  Proof.
    intros HA HB. destruct (quo_first A B HA HB) as (m & e & h & x & y & Hx & Hy & D & C & Hm & Q). rewrite Q. clear Q.
    assert (PT : 0 < T) by (apply Z.pow_pos_nonneg; lia). pose proof U_neg as UN.
    assert (PU : 0 < 2 ^ (- U)) by (apply Z.pow_pos_nonneg; lia).
    assert (PX : 0 < 2 ^ x) by (apply Z.pow_pos_nonneg; lia).
    assert (PY : 0 < 2 ^ y) by (apply Z.pow_pos_nonneg; lia). pose proof (finf_pos mb eb Hmb Heb) as FP.
    assert (MAIN : forall m2 h2 e2 y2, 0 <= y2 -> y2 - x = e2 - (mb + 2) -> cut (A * 2 ^ x) (B * 2 ^ y2) m2 h2 -> m2 < 4 * T ->
      (e2 = emin + 1 \/ emin < e2 /\ 2 * T <= m2) ->
      let k := fround mb eb (rnd m2 h2) (e2 - (mb + 1)) in
      near mb eb (A * 2 ^ (- U)) B k /\
      (k < finf mb eb -> (rnd_exact m2 h2 = true <-> A * 2 ^ (- U) = B * funits mb k))).
    { clear m h e y Hy PY D C Hm. intros m h e y Hy D C Hm He. cbv zeta.
      destruct (rnd_spec _ _ _ _ C) as (R1 & R2 & R3 & R4).
      destruct C as (_ & M0 & HP & _).
      assert (M1 : m / 2 < 2 * T) by (apply Z.div_lt_upper_bound; lia).
      assert (M2 : 0 <= m / 2) by (apply Z.div_pos; lia).
      assert (M3 : e = emin + 1 \/ T <= m / 2).
      { destruct He as [He|[_ He]]; [left; auto|right]. apply Z.div_le_lower_bound; lia. }
      set (c := e - emin - 1). assert (Hc : 0 <= c) by (unfold c; lia).
      assert (PC : 0 < 2 ^ c) by (apply Z.pow_pos_nonneg; lia).
      assert (EC : e - (mb + 1) = c + U) by (rewrite U_emin; unfold c; lia). rewrite EC.
      assert (OK : sig_ok mb (rnd m h) c).
      { split; [auto|]. split; [lia|]. destruct M3 as [->|M3]; [left; unfold c; lia|right; lia]. }
      rewrite fround_exact by (auto; lia).
      assert (SC : B * 2 ^ x * 2 ^ c = B * 2 ^ y * 2 * 2 ^ (- U)).
      { replace (B * 2 ^ y * 2) with (B * 2 ^ (y + 1)) by (rewrite (Z.pow_add_r 2 y 1) by lia; change (2 ^ 1) with 2; ring).
        rewrite <- !Z.mul_assoc, <- !Z.pow_add_r by lia. do 2 f_equal. lia. }
      set (r := rnd m h) in *. clearbody r.
      assert (DI : A * 2 ^ x * 2 ^ (- U) - B * 2 ^ x * (r * 2 ^ c) = (A * 2 ^ x - r * (B * 2 ^ y * 2)) * 2 ^ (- U)).
      { replace (B * 2 ^ x * (r * 2 ^ c)) with (r * (B * 2 ^ x * 2 ^ c)) by ring. rewrite SC. ring. }
      split.
      - apply (near_scale mb eb (A * 2 ^ (- U)) B _ (2 ^ x) PX).
        replace (A * 2 ^ (- U) * 2 ^ x) with (A * 2 ^ x * 2 ^ (- U)) by ring.
        apply near_round; [exact Hmb|exact Heb|nia|nia|exact OK|lia| | |].
        + destruct M3 as [->|M3]; [left; unfold c; lia|right].
          replace (B * 2 ^ x * (T * 2 ^ c)) with (T * (B * 2 ^ x * 2 ^ c)) by ring. rewrite SC.
          replace (T * (B * 2 ^ y * 2 * 2 ^ (- U))) with (2 * T * (B * 2 ^ y) * 2 ^ (- U)) by ring.
          apply Z.mul_le_mono_nonneg_r; [lia|]. destruct HP as [HP _]. eapply Z.le_trans; [|exact HP].
          apply Z.mul_le_mono_nonneg_r; [pose proof (Z.pow_pos_nonneg 2 y); nia|].
          pose proof (Z.mul_div_le m 2). lia.
        + rewrite DI, Z.abs_mul, SC, (Z.abs_eq (2 ^ (- U))) by lia. rewrite Z.mul_assoc.
          apply Z.mul_le_mono_nonneg_r; lia.
        + rewrite DI, Z.abs_mul, SC, (Z.abs_eq (2 ^ (- U))) by lia. rewrite Z.mul_assoc. intros E.
          apply R3. apply Z.mul_reg_r in E; lia.
      - intros K. rewrite Z.min_l by lia. rewrite units_pattern by (auto; lia). rewrite R4.
        assert (EQ : A * 2 ^ (- U) * 2 ^ x - B * (r * 2 ^ c) * 2 ^ x = (A * 2 ^ x - r * (B * 2 ^ y * 2)) * 2 ^ (- U)).
        { rewrite <- DI. ring. }
        split; intros E.
        + apply (Z.mul_reg_r _ _ (2 ^ x)); [lia|]. rewrite E, Z.sub_diag, Z.mul_0_l in EQ. lia.
        + rewrite E, Z.sub_diag in EQ. symmetry in EQ. apply Z.mul_eq_0 in EQ. lia. }
    assert (FIN : forall m2 h2 e2 r e', (r = rnd m2 h2 /\ e' = e2 \/ rnd m2 h2 = 2 * T /\ r = T /\ e' = e2 + 1) ->
      fround mb eb r (e' - (mb + 1)) = fround mb eb (rnd m2 h2) (e2 - (mb + 1))).
    { intros m2 h2 e2 r e' [[-> ->]|(E & -> & ->)]; [reflexivity|]. rewrite E.
      rewrite (Z.mul_comm 2 T). change 2 with (2 ^ 1) at 3. rewrite fround_shift by lia. f_equal. lia. }
    destruct ((emin - mb <=? e) && (e <=? emin)) eqn:DN.
    - apply andb_true_iff in DN. destruct DN as [D1 D2]. apply Z.leb_le in D1, D2. cbv zeta.
      set (s := emin - (e - 1)). assert (Hs : 1 <= s) by (unfold s; lia).
      assert (P1 : 2 <= 2 ^ s) by (change 2 with (2 ^ 1) at 1; apply Z.pow_le_mono_r; lia).
      pose proof (cut_shift _ _ _ _ s ltac:(lia) C) as C2.
      assert (M2 : 0 <= m / 2 ^ s < 4 * T) by (split; [apply Z.div_pos; lia|apply Z.div_lt_upper_bound; nia]).
      destruct (quo_last (m / 2 ^ s) (h || negb (m mod 2 ^ s =? 0)) (2 - (2 ^ (eb - 1) - 1)) M2) as (r & e' & EQ & Hr & HR).
      exists r, e', (rnd_exact (m / 2 ^ s) (h || negb (m mod 2 ^ s =? 0))). split; [exact EQ|]. split; [exact Hr|].
      cbv zeta. rewrite (FIN _ _ _ _ _ HR).
      destruct (MAIN (m / 2 ^ s) (h || negb (m mod 2 ^ s =? 0)) (2 - (2 ^ (eb - 1) - 1)) (y + s)) as [N1 N2]; try lia.
      + rewrite Z.pow_add_r by lia. rewrite Z.mul_assoc. exact C2.
      + split; [exact N1|]. intros _. exact N2.
    - destruct (quo_last m h e ltac:(lia)) as (r & e' & EQ & Hr & HR). exists r, e', (rnd_exact m h).
      split; [exact EQ|]. split; [exact Hr|]. cbv zeta. rewrite (FIN _ _ _ _ _ HR).
      destruct (Z.le_gt_cases (emin - mb) e) as [L|L].
      + rewrite (proj2 (Z.leb_le _ _) L) in DN. cbn [andb] in DN. apply Z.leb_gt in DN.
        destruct (MAIN m h e y) as [N1 N2]; try lia; auto.
      + (* less than half a unit *)
        destruct C as (_ & M0 & HP & _). rewrite <- U_emin in L.
        assert (S : 2 * (A * 2 ^ (- U)) < B).
        { assert (H : A * 2 ^ x < 4 * T * (B * 2 ^ y)) by nia.
          assert (E : 4 * T * 2 ^ y = 2 ^ (e + x)).
          { change 4 with (2 ^ 2). rewrite <- !Z.pow_add_r by lia. f_equal. lia. }
          assert (H2 : A * 2 ^ x < B * 2 ^ (e + x)) by (rewrite <- E; nia).
          (* multiply by 2^(1-U) / 2^x *)
          assert (EX : 0 <= e + x) by lia.
          assert (H3 : A * 2 ^ x * 2 ^ (1 - U) < B * 2 ^ x).
          { apply Z.lt_le_trans with (B * 2 ^ (e + x) * 2 ^ (1 - U)).
            - apply Z.mul_lt_mono_pos_r; [apply Z.pow_pos_nonneg; lia|auto].
            - rewrite <- Z.mul_assoc, <- Z.pow_add_r by lia. apply Z.mul_le_mono_nonneg_l; [lia|].
              apply Z.pow_le_mono_r; lia. }
          replace (1 - U) with (Z.succ (- U)) in H3 by lia. rewrite Z.pow_succ_r in H3 by lia. nia. }
        assert (RZ : fround mb eb (rnd m h) (e - (mb + 1)) = 0).
        { assert (R1 : 0 <= rnd m h <= 2 * T) by (destruct HR as [[<- _]|(-> & _ & _)]; lia).
          apply (fround_tiny mb eb Hmb Heb _ _ (mb + 1 - e + U)); try lia.
          replace (e - (mb + 1) - U + (mb + 1 - e + U)) with 0 by lia. rewrite Z.pow_0_r.
          apply Z.le_trans with (2 ^ (mb + 2)); [|apply Z.pow_le_mono_r; lia].
          rewrite Z.pow_add_r by lia. change (2 ^ 2) with 4. lia. }
        rewrite RZ. split; [|lia].
        assert (PA : 0 <= A * 2 ^ (- U)) by nia.
        assert (DZ : Z.abs (A * 2 ^ (- U) - B * (0 * 2 ^ 0)) = A * 2 ^ (- U)) by (rewrite Z.abs_eq; lia).
        apply (near_intro mb eb Hmb _ _ 0 0);
          [exact HB|exact PA|split; [lia|split; [lia|auto]]|lia|left; reflexivity|rewrite DZ; lia|reflexivity|lia].
  Qed.
End Quo.
