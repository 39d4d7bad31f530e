(** Facts about the powers and the square root of [Nat]. *)
From Coq Require Import ZArith List Lia Bool.
From Verif Require Import Words Spec WordsFacts NatModel NatFacts NatFacts2 NatFacts3 NatFacts4 NatFacts5.
From Verif Require Import NatPow NatConvFacts.
Import ListNotations.
Open Scope Z_scope.

Lemma bit_of_Z_spec b i : canon b -> 0 <= i < bits_len b -> is_set_bit_ b i = Ok (Z.testbit (nval b) i).
Proof.
  intros Hb Hi. apply is_set_bit__spec; [apply canon_words; auto|].
  pose proof (bits_len_le_words b Hb). lia.
Qed.

Lemma mod_pow2_succ b i : 0 <= i -> b mod 2 ^ (i + 1) = (if Z.testbit b i then 2 ^ i else 0) + b mod 2 ^ i.
Proof.
  intros Hi. rewrite Z.pow_add_r by lia. change (2 ^ 1) with 2.
  pose proof (pow2_pos i Hi). rewrite Z.rem_mul_r by lia.
  pose proof (Z.testbit_spec' b i Hi) as E. rewrite <- E.
  destruct (Z.testbit b i); cbn [Z.b2z]; lia.
Qed.

Lemma pow_loop_spec x b n : 0 <= x -> canon b -> forall i, 1 <= i -> i + Z.of_nat n = bits_len b ->
  pow_loop n i (of_Z (x ^ (2 ^ (i - 1)))) (of_Z (x ^ (nval b mod 2 ^ i))) b = Ok (of_Z (x ^ (nval b mod 2 ^ (bits_len b)))).
Proof.
  intros Hx Hb. induction n as [|n IH]; intros i Hi Hn; cbn [pow_loop].
  - do 2 f_equal. replace (bits_len b) with i by lia. reflexivity.
  - assert (P : 0 < 2 ^ (i - 1)) by (apply pow2_pos; lia).
    assert (P2 : 0 < 2 ^ i) by (apply pow2_pos; lia).
    assert (M : 0 <= nval b mod 2 ^ i) by (apply Z.mod_pos_bound; lia).
    rewrite mul_of_Z by (apply Z.pow_nonneg; auto).
    rewrite <- Z.pow_add_r by lia.
    replace (2 ^ (i - 1) + 2 ^ (i - 1)) with (2 ^ i)
      by (replace i with (i - 1 + 1) at 1 by lia; rewrite Z.pow_add_r by lia; lia).
    rewrite bit_of_Z_spec by (auto; lia). cbn [bind].
    specialize (IH (i + 1) ltac:(lia) ltac:(lia)). replace (i + 1 - 1) with i in IH by lia.
    rewrite <- IH. f_equal. rewrite mod_pow2_succ by lia.
    destruct (Z.testbit (nval b) i).
    + rewrite mul_of_Z by (apply Z.pow_nonneg; auto). rewrite <- Z.pow_add_r by lia. do 2 f_equal. lia.
    + reflexivity.
Qed.

Lemma pow_inner_of_Z a b : canon a -> canon b -> pow_inner a b = Ok (of_Z (nval a ^ nval b)).
Proof.
  intros Ha Hb. pose proof (canon_nonneg a Ha). pose proof (canon_nonneg b Hb).
  unfold pow_inner. rewrite !nat_eq_u32_spec by (auto; lia).
  destruct (Z.eqb_spec (nval b) 0) as [->|Nb].
  { rewrite Z.pow_0_r. destruct (nval a =? 0); reflexivity. }
  destruct (Z.eqb_spec (nval a) 0) as [->|Na].
  { rewrite Z.pow_0_l by lia. reflexivity. }
  pose proof (bits_len_ge1 b Hb). pose proof (bits_len_pos b Hb ltac:(lia)).
  rewrite bit_of_Z_spec by (auto; lia). cbn [bind].
  pose proof (pow_loop_spec (nval a) b (Z.to_nat (bits_len b - 1)) ltac:(lia) Hb 1 ltac:(lia) ltac:(lia)) as E.
  change (2 ^ (1 - 1)) with 1 in E. rewrite Z.pow_1_r in E. rewrite of_Z_nval in E by auto.
  rewrite (Z.mod_small (nval b) (2 ^ bits_len b)) in E by lia.
  rewrite <- E. f_equal. change (2 ^ 1) with 2. rewrite <- Z.bit0_mod.
  destruct (Z.testbit (nval b) 0); cbn [Z.b2z].
  - rewrite Z.pow_1_r, of_Z_nval; auto.
  - reflexivity.
Qed.

Lemma pow_mod_loop_spec x b n : 0 <= x -> canon b -> canon n -> 1 < nval n ->
  forall i s, Z.of_nat i <= bits_len b -> 0 <= s ->
  s = x ^ (nval b / 2 ^ Z.of_nat i) mod nval n ->
  pow_mod_loop i (of_Z s) (of_Z (x mod nval n)) b n = Ok (of_Z (x ^ nval b mod nval n)).
Proof.
  intros Hx Hb Hn H1. pose proof (canon_nonneg b Hb) as Hb0.
  induction i as [|i IH]; intros s Hi Hs E; cbn [pow_mod_loop].
  - rewrite E. cbn [Z.of_nat]. rewrite Z.pow_0_r, Z.div_1_r. reflexivity.
  - assert (Mx := Z.mod_pos_bound x (nval n) ltac:(lia)).
    rewrite mul_of_Z by lia.
    assert (S0 : 0 <= s * s) by nia.
    rewrite rem_inner_of_Z by (try apply of_Z_canon; auto; lia). cbn [bind]. rewrite of_Z_val by lia.
    rewrite bit_of_Z_spec by (auto; lia). cbn [bind].
    set (e := nval b / 2 ^ Z.of_nat i) in *.
    assert (He0 : 0 <= e) by (apply Z.div_pos; [lia|apply pow2_pos; lia]).
    assert (He : e = 2 * (nval b / 2 ^ Z.of_nat (S i)) + Z.b2z (Z.testbit (nval b) (Z.of_nat i))).
    { rewrite Z.testbit_spec' by lia. fold e.
      replace (2 ^ Z.of_nat (S i)) with (2 ^ Z.of_nat i * 2)
        by (rewrite Nat2Z.inj_succ, Z.pow_succ_r by lia; lia).
      rewrite <- Z.div_div by (try lia; apply Z.pow_nonzero; lia). fold e. apply Z.div_mod. lia. }
    assert (Hq : 0 <= nval b / 2 ^ Z.of_nat (S i)) by (apply Z.div_pos; [lia|apply pow2_pos; lia]).
    assert (Sq : (s * s) mod nval n = x ^ (2 * (nval b / 2 ^ Z.of_nat (S i))) mod nval n).
    { rewrite E. rewrite <- Z.mul_mod by lia. rewrite <- Z.pow_add_r by lia. do 2 f_equal. lia. }
    pose proof (Z.mod_pos_bound (s * s) (nval n) ltac:(lia)).
    destruct (Z.testbit (nval b) (Z.of_nat i)); cbn [Z.b2z] in He.
    + rewrite mul_of_Z by lia. rewrite rem_inner_of_Z by (try apply of_Z_canon; auto; nia). cbn [bind].
      rewrite of_Z_val by nia. apply IH; [lia|apply Z.mod_pos_bound; lia|].
      fold e. rewrite Sq, <- Z.mul_mod, He, Z.pow_add_r, Z.pow_1_r by lia. reflexivity.
    + cbn [bind]. apply IH; [lia|apply Z.mod_pos_bound; lia|].
      fold e. rewrite Sq, He, Z.add_0_r. reflexivity.
Qed.

Lemma pow_mod_inner_of_Z a b n : canon a -> canon b -> canon n -> 0 < nval n ->
  pow_mod_inner a b n = Ok (of_Z (nval a ^ nval b mod nval n)).
Proof.
  intros Ha Hb Hn Hp. pose proof (canon_nonneg a Ha). pose proof (canon_nonneg b Hb).
  unfold pow_mod_inner. rewrite !nat_eq_u32_spec by (auto; lia).
  assert ((nval n =? 0) = false) as -> by (apply Z.eqb_neq; lia).
  destruct (Z.eqb_spec (nval n) 1) as [->|N1]; [rewrite Z.mod_1_r; reflexivity|].
  rewrite rem_inner_of_Z by auto. cbn [bind].
  pose proof (bits_len_ge1 b Hb).
  change [1] with (of_Z 1). apply pow_mod_loop_spec; auto; try lia.
  rewrite Z2Nat.id by lia. rewrite Z.div_small.
  - rewrite Z.pow_0_r, Z.mod_small; lia.
  - split; [lia|]. destruct (Z.eq_dec (nval b) 0) as [->|]; [apply pow2_pos; lia|apply bits_len_pos; auto; lia].
Qed.

(* ------------------------------------------------------------------ *)
(** * Square root *)

Lemma sqrt_newton x z : 0 < z -> 0 <= x -> Z.sqrt x <= (x / z + z) / 2.
Proof.
  intros Hz Hx. pose proof (Z.sqrt_spec x Hx) as [S1 S2]. pose proof (Z.sqrt_nonneg x) as S0.
  set (s := Z.sqrt x) in *. apply Z.div_le_lower_bound; [lia|].
  assert (2 * s - z <= x / z); [|lia].
  apply Z.div_le_lower_bound; [lia|]. pose proof (Z.square_nonneg (s - z)). nia.
Qed.

Lemma sqrt_step x z : Z.sqrt x < z -> 0 <= x -> 2 * ((x / z + z) / 2 - Z.sqrt x) <= z - Z.sqrt x.
Proof.
  intros Hz Hx. pose proof (Z.sqrt_spec x Hx) as [S1 S2]. pose proof (Z.sqrt_nonneg x) as S0.
  set (s := Z.sqrt x) in *.
  assert (x / z <= s).
  { assert (x / z < s + 1); [|lia]. apply Z.div_lt_upper_bound; [lia|]. nia. }
  pose proof (Z.mul_div_le (x / z + z) 2 ltac:(lia)). lia.
Qed.

Lemma sqrt_loop_spec x : 1 < x -> forall f z, Z.sqrt x <= z -> z - Z.sqrt x < 2 ^ (Z.of_nat f) ->
  sqrt_loop (S f) (of_Z x) (of_Z z) = Ok (of_Z (Z.sqrt x)).
Proof.
  intros Hx. pose proof (Z.sqrt_pos x) as [_ Sp]. specialize (Sp ltac:(lia)).
  induction f as [|f IH]; intros z Hz Hf.
  - assert (z = Z.sqrt x) as -> by (cbn in Hf; lia).
    cbn [sqrt_loop]. rewrite nat_div_of_Z by lia. cbn [bind].
    unfold nat_add, nat_shr. rewrite op2_canon by (apply of_Z_canon; try lia; apply Z.div_pos; lia).
    rewrite add_of_Z by (try lia; apply Z.div_pos; lia).
    pose proof (Z.div_pos x (Z.sqrt x) ltac:(lia) ltac:(lia)).
    rewrite op1_canon by (apply of_Z_canon; lia). rewrite shr1_of_Z by lia. change (2 ^ 1) with 2.
    pose proof (sqrt_newton x (Z.sqrt x) ltac:(lia) ltac:(lia)).
    rewrite nat_ge_spec by (apply of_Z_canon; lia). rewrite !of_Z_val by lia.
    destruct (Z.leb_spec (Z.sqrt x) ((x / Z.sqrt x + Z.sqrt x) / 2)); [reflexivity|lia].
  - cbn [sqrt_loop]. rewrite nat_div_of_Z by lia. cbn [bind].
    pose proof (Z.div_pos x z ltac:(lia) ltac:(lia)).
    unfold nat_add, nat_shr. rewrite op2_canon by (apply of_Z_canon; lia).
    rewrite add_of_Z by lia.
    rewrite op1_canon by (apply of_Z_canon; lia). rewrite shr1_of_Z by lia. change (2 ^ 1) with 2.
    pose proof (sqrt_newton x z ltac:(lia) ltac:(lia)) as N.
    rewrite nat_ge_spec by (apply of_Z_canon; lia). rewrite !of_Z_val by lia.
    destruct (Z.leb_spec z ((x / z + z) / 2)) as [L|L].
    + destruct (Z.eq_dec z (Z.sqrt x)) as [->|]; [reflexivity|].
      pose proof (sqrt_step x z ltac:(lia) ltac:(lia)). lia.
    + apply (IH ((x / z + z) / 2)); [lia|].
      destruct (Z.eq_dec z (Z.sqrt x)) as [->|]; [lia|].
      pose proof (sqrt_step x z ltac:(lia) ltac:(lia)).
      rewrite Nat2Z.inj_succ, Z.pow_succ_r in Hf by lia. lia.
Qed.

Lemma nat_sqrt_of_Z x : canon x -> nat_sqrt x = Ok (of_Z (Z.sqrt (nval x))).
Proof.
  intros Hx. pose proof (canon_nonneg x Hx) as H0. unfold nat_sqrt, from_u32.
  rewrite is_nan_canon by auto. rewrite nat_lt_spec by (auto; apply canon_single; lia).
  cbn [nval orb]. change (1 + W * 0) with 1. destruct (Z.ltb_spec 1 (nval x)) as [L|L]; cbn [negb].
  - pose proof (bits_len_pos x Hx ltac:(lia)) as [B1 B2]. pose proof (bits_len_ge1 x Hx).
    set (k := bits_len x) in *. assert (K : 0 <= (k + 1) / 2) by (apply Z.div_pos; lia).
    unfold nat_shl. rewrite op1_canon by (apply canon_single; lia).
    change [1] with (of_Z 1). rewrite shl_of_Z by lia. rewrite Z.mul_1_l.
    rewrite <- (of_Z_nval x) at 1 by auto.
    replace (Z.to_nat (k + 3)) with (S (Z.to_nat (k + 2))) by lia.
    pose proof (pow2_pos _ K).
    assert (S1 : Z.sqrt (nval x) < 2 ^ ((k + 1) / 2)).
    { apply Z.sqrt_lt_square; try lia. rewrite <- Z.pow_add_r by lia.
      eapply Z.lt_le_trans; [exact B2|]. apply Z.pow_le_mono_r; [lia|].
      pose proof (Z.div_mod (k + 1) 2). pose proof (Z.mod_pos_bound (k + 1) 2). lia. }
    apply sqrt_loop_spec; [auto|lia|].
    rewrite Z2Nat.id by lia. pose proof (Z.sqrt_nonneg (nval x)).
    assert (2 ^ ((k + 1) / 2) < 2 ^ (k + 2)); [|lia].
    apply Z.pow_lt_mono_r; try lia. apply Z.div_lt_upper_bound; lia.
  - f_equal. apply of_Z_unique; auto.
    assert (nval x = 0 \/ nval x = 1) as [C|C] by lia; rewrite C; reflexivity.
Qed.
