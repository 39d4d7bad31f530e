(** Exact descriptions of the cases in which a claim is false: C33 (Euclidean
    division of negative multiples), C40 (products and binomials at the ends of
    the i64 range), C41 (negative exponents), C51 (values below half the least
    float), C64 (words as wide as the type), C68 (checked powers), C72 (the least machine integer).
    Each theorem names the wrong result, so a caller knows when and how the
    answer differs from the documented one. *)
From Coq Require Import ZArith QArith List Lia Bool Arith.
From Verif Require Import Words Spec WordsFacts NatModel NatFacts NatFacts2 NatConv NatConvFacts
  BigInt SpecInt BigIntFacts BigIntFacts2 BigIntFacts3 BigIntFacts4 Properties_BigInt
  Ieee Rat SpecRat SpecExact RatFacts RatFacts2 RatFacts4 RatTinyFacts
  Rand SpecRand RandFacts RandFacts2 LfgFacts NatFacts5 NatExp NatExpFacts NatExpFacts2 Properties_NatExp.
Import ListNotations.
Open Scope Z_scope.

(** ** C33
    A negative multiple of the divisor: the remainder is [|n|] instead of 0 and
    the quotient is one step too far from it; the two still satisfy
    [a = q n + r].  With [C33_euclid_partial] every case is described. *)
Theorem C33_multiples : forall x y a n, is_int x a -> is_int y n -> n <> 0 -> a < 0 -> (n | a) ->
  exists r q, b_rem_euclid x y = Ok r /\ is_int r (Z.abs n) /\
    b_div_euclid x y = Ok q /\ is_int q (a / n - Z.sgn n) /\ a = (a / n - Z.sgn n) * n + Z.abs n.
Proof.
  intros x y a n Hx Hy Hn Ha [k Hk]. ints. rewrite zint_rem_euclid by auto.
  assert (M : k * n mod Z.abs n = 0) by (apply Z.mod_divide; [lia|]; apply Z.divide_abs_l; exists k; reflexivity).
  rewrite Hk in *. rewrite M. rewrite (proj2 (Z.ltb_lt _ _) Ha). cbn [Z.eqb andb].
  eexists _, _. split; [reflexivity|]. split; [apply is_int_zint|].
  rewrite zint_div_euclid by lia. rewrite (proj2 (Z.ltb_lt _ _) Ha). split; [reflexivity|].
  rewrite Z.quot_mul, Z.div_mul by auto. split; [apply is_int_zint|].
  pose proof (Z.sgn_abs n). lia.
Qed.
Example C33_multiples_case : b_rem_euclid (zint (-6)) (zint (-3)) = Ok (zint 3) /\ b_div_euclid (zint (-6)) (zint (-3)) = Ok (zint 3).
Proof. vm_compute. auto. Qed.
Print Assumptions C33_multiples.

(** ** C40
    [mul_range] with overflow checks panics exactly when the range starts at
    [i64::MIN] and ends below zero; [C40_mul_range_partial] gives the product
    in every other case. *)
Theorem C40_mul_range_panics : forall a b, i64_range a -> i64_range b ->
  (b_mul_range true a b = Panic <-> a = - 2 ^ 63 /\ b < 0).
Proof.
  intros a b Ha Hb. split.
  - intros P. destruct (Z.eq_dec a (- 2 ^ 63)) as [->|N].
    + split; [reflexivity|]. destruct (Z.lt_ge_cases b 0) as [L|L]; [exact L|].
      rewrite b_mul_range_spec in P by auto. discriminate P.
    + rewrite b_mul_range_spec in P by (unfold i64_range in *; auto; lia). discriminate P.
  - intros [-> L]. unfold i64_range in *. unfold b_mul_range. destruct (Z.gtb_spec (- 2 ^ 63) b); [lia|].
    destruct (Z.geb_spec b 0); [lia|]. rewrite andb_false_r. change (- 2 ^ 63 <? 0) with true. cbv iota.
    rewrite i64_ok by (unfold i64_range; lia). cbn [bind].
    unfold i64 at 1. destruct ((- 2 ^ 63 <=? - b) && (- b <? 2 ^ 63)); reflexivity.
Qed.

Lemma to_nat_nonpos z : z <= 0 -> Z.to_nat z = 0%nat.
Proof. destruct z; [reflexivity|lia|reflexivity]. Qed.

(** [k'] of [binomial]: the smaller of [k] and [n - k] inside the triangle. *)
Definition low_index (n k : Z) : Z := if (n / 2 <? k) && (k <=? n) then n - k else k.

Lemma low_index_cases n k : i64_range n -> i64_range k ->
  low_index n k = k /\ (k <= n / 2 \/ n < k) \/ low_index n k = n - k /\ 0 <= n - k /\ n / 2 < k <= n /\ 0 <= k.
Proof.
  intros Hn Hk. unfold low_index. destruct (Z.ltb_spec (n / 2) k), (Z.leb_spec k n); cbn [andb]; try (left; auto; fail).
  right. assert (0 <= n) by (apply Z.nlt_ge; intros L; pose proof (Z.div_mod n 2); pose proof (Z.mod_pos_bound n 2); lia).
  assert (0 <= n / 2) by (apply Z.div_pos; lia). lia.
Qed.
Lemma binomial_index c n k : i64_range n -> i64_range k ->
  b_binomial c n k = (do t <- i64 c (n - low_index n k); do lo <- i64 c (t + 1);
    do a <- b_mul_range c lo n; do b <- b_mul_range c 1 (low_index n k); b_div a b).
Proof.
  intros Hn Hk. pose proof (low_index_cases n k Hn Hk) as LC. unfold b_binomial. unfold low_index in *.
  destruct ((n / 2 <? k) && (k <=? n)); [|reflexivity].
  rewrite i64_ok by (unfold i64_range in *; lia). reflexivity.
Qed.
(** [binomial] with overflow checks panics exactly when [n - k'] or
    [n - k' + 1] does not fit; otherwise both builds agree. *)
Theorem C40_binomial_panics : forall n k, i64_range n -> i64_range k ->
  (b_binomial true n k = Panic <-> n - low_index n k < - 2 ^ 63 \/ 2 ^ 63 - 1 <= n - low_index n k) /\
  (- 2 ^ 63 <= n - low_index n k < 2 ^ 63 - 1 -> b_binomial true n k = b_binomial false n k).
Proof.
  intros n k Hn Hk. rewrite !binomial_index by auto. pose proof (low_index_cases n k Hn Hk) as LC.
  assert (HK : i64_range (low_index n k)) by (unfold i64_range in *; lia).
  set (j := low_index n k) in *. clearbody j. clear LC Hk.
  assert (IN : forall c, - 2 ^ 63 <= n - j < 2 ^ 63 - 1 -> (do t <- i64 c (n - j); do lo <- i64 c (t + 1);
    do a <- b_mul_range c lo n; do b <- b_mul_range c 1 j; b_div a b) =
    b_div (zint (prod_from (n - j + 1) (Z.to_nat (n - (n - j + 1) + 1)))) (zint (prod_from 1 (Z.to_nat (j - 1 + 1))))).
  { intros c H. rewrite i64_ok by (unfold i64_range; lia). cbn [bind]. rewrite i64_ok by (unfold i64_range; lia). cbn [bind].
    rewrite b_mul_range_spec by (unfold i64_range; auto; lia). cbn [bind].
    rewrite b_mul_range_spec by (unfold i64_range; auto; lia). reflexivity. }
  split; [|intros H; rewrite !IN by auto; reflexivity]. split.
  - intros P. destruct (Z.lt_ge_cases (n - j) (- 2 ^ 63)); [auto|]. destruct (Z.lt_ge_cases (n - j) (2 ^ 63 - 1)); [|auto].
    rewrite IN in P by lia. exfalso. set (A := prod_from _ _) in P. set (D := prod_from _ _) in P.
    assert (0 < D) by (apply prod_from_pos; lia). clearbody A D.
    rewrite b_div_raw in P by lia. discriminate P.
  - intros H. unfold i64 at 1. destruct ((- 2 ^ 63 <=? n - j) && (n - j <? 2 ^ 63)) eqn:E; [|reflexivity].
    apply andb_true_iff in E. rewrite Z.leb_le, Z.ltb_lt in E. assert (E2 : n - j = 2 ^ 63 - 1) by lia. rewrite E2. reflexivity.
Qed.

(** The values of the release build: 1 for a negative [k], the generalised
    coefficient as long as the product starts at [i64::MIN] or above, and 0
    when [n - k' + 1] has wrapped.  (Left out: [binomial(-1, i64::MIN)], which
    would multiply 2^63 numbers.) *)
Theorem C40_binomial_values : forall n k, i64_range n -> i64_range k -> n <> -1 \/ k <> - 2 ^ 63 ->
  exists r, b_binomial false n k = Ok r /\
  (k < 0 -> n - k < 2 ^ 63 - 1 -> bvalue r = 1) /\
  (0 <= k -> - 2 ^ 63 - 1 <= n - low_index n k < 2 ^ 63 - 1 -> bvalue r * fact (Z.to_nat k) = falling n (Z.to_nat k)) /\
  (n - low_index n k < - 2 ^ 63 - 1 \/ 2 ^ 63 - 1 <= n - low_index n k -> bvalue r = 0).
Proof.
  intros n k Hn Hk NE. pose proof (low_index_cases n k Hn Hk) as LC. pose proof (binomial_index false n k Hn Hk) as BI0.
  assert (GEN : forall v, v * fact (Z.to_nat k) = falling n (Z.to_nat k) -> v = falling n (Z.to_nat k) / fact (Z.to_nat k)).
  { intros v <-. pose proof (fact_pos (Z.to_nat k)). rewrite Z.div_mul by lia. reflexivity. }
  assert (BACK : falling n (Z.to_nat k) / fact (Z.to_nat k) * fact (Z.to_nat k) = falling n (Z.to_nat k)).
  { destruct (fact_falling (Z.to_nat k) n) as [v Hv]. pose proof (fact_pos (Z.to_nat k)). rewrite Hv, Z.div_mul by lia. reflexivity. }
  unfold i64_range in Hn, Hk. set (j := low_index n k) in *.
  destruct (Z.lt_ge_cases (n - j) (2 ^ 63 - 1)) as [U|U].
  2:{ (* too large: n is not negative, the product passes zero *)
    assert (J0 : j <= 0) by lia. assert (N0 : 0 <= n) by lia.
    assert (E : exists t, i64 false (n - j) = Ok t /\ i64 false (t + 1) = Ok (n - j + 1 - 2 ^ 64)).
    { destruct (Z.eq_dec (n - j) (2 ^ 63 - 1)) as [E|E].
      - rewrite E. exists (2 ^ 63 - 1). split; reflexivity.
      - exists (n - j - 2 ^ 64). unfold i64 at 1. destruct (Z.ltb_spec (n - j) (2 ^ 63)); [lia|]. rewrite andb_false_r.
        split; [|rewrite i64_ok by (unfold i64_range; lia); f_equal; lia].
        unfold wrap_i64. f_equal. rewrite <- (Z.mod_unique_pos (n - j + 2 ^ 63) (2 ^ 64) 1 (n - j + 2 ^ 63 - 2 ^ 64)); lia. }
    destruct E as (t & E1 & E2). rewrite E1 in BI0. cbn [bind] in BI0. rewrite E2 in BI0. cbn [bind] in BI0.
    assert (M1 : b_mul_range false (n - j + 1 - 2 ^ 64) n = Ok (zint 0)).
    { rewrite b_mul_range_spec by (unfold i64_range; auto; lia). rewrite prod_from_zero by lia. reflexivity. }
    assert (M2 : b_mul_range false 1 j = Ok (zint 1)).
    { rewrite b_mul_range_spec by (unfold i64_range; auto; lia). replace (j - 1 + 1) with j by lia.
      rewrite to_nat_nonpos by lia. reflexivity. }
    rewrite M1 in BI0. cbn [bind] in BI0. rewrite M2 in BI0. cbn [bind] in BI0.
    exists (zint 0). split; [exact BI0|]. repeat split; intros; try lia; reflexivity. }
  destruct (Z.lt_ge_cases (n - j) (- 2 ^ 63 - 1)) as [L|L].
  { (* too small *)
    assert (J2 : 2 <= j) by lia. assert (N0 : n < 0) by lia.
    assert (E : i64 false (n - j) = Ok (n - j + 2 ^ 64)).
    { unfold i64. destruct (Z.leb_spec (- 2 ^ 63) (n - j)); [lia|]. cbn [andb].
      unfold wrap_i64. f_equal. rewrite <- (Z.mod_unique_pos (n - j + 2 ^ 63) (2 ^ 64) (-1) (n - j + 2 ^ 63 + 2 ^ 64)); lia. }
    rewrite E in BI0. cbn [bind] in BI0. rewrite i64_ok in BI0 by (unfold i64_range; lia). cbn [bind] in BI0.
    assert (M1 : b_mul_range false (n - j + 2 ^ 64 + 1) n = Ok (zint 1)).
    { rewrite b_mul_range_spec by (unfold i64_range; auto; lia). rewrite to_nat_nonpos by lia. reflexivity. }
    rewrite M1 in BI0. cbn [bind] in BI0. rewrite b_mul_range_spec in BI0 by (unfold i64_range; auto; lia). cbn [bind] in BI0.
    replace (j - 1 + 1) with j in BI0 by lia. change (prod_from 1 (Z.to_nat j)) with (fact (Z.to_nat j)) in BI0.
    assert (F2 : 2 <= fact (Z.to_nat j)).
    { assert (G : forall i, (2 <= i)%nat -> 2 <= fact i).
      { induction i as [|i IH]; intros Hi; [lia|]. rewrite fact_succ. destruct (Nat.eq_dec i 1) as [->|]; [reflexivity|].
        specialize (IH ltac:(lia)). nia. }
      apply G. lia. }
    rewrite b_div_raw in BI0 by lia. eexists. split; [exact BI0|].
    assert (D0 : Z.abs 1 / Z.abs (fact (Z.to_nat j)) = 0) by (apply Z.div_small; lia). rewrite D0.
    repeat split; intros; try lia. unfold bvalue. cbn [bneg bnat]. change (nval (of_Z 0)) with 0. match goal with |- context [if ?b then _ else _] => destruct b end; reflexivity. }
  destruct (Z.lt_ge_cases k 0) as [K|K].
  { (* negative k: empty products *)
    assert (EJ : j = k) by lia. rewrite EJ in *. rewrite i64_ok in BI0 by (unfold i64_range; lia). cbn [bind] in BI0.
    rewrite i64_ok in BI0 by (unfold i64_range; lia). cbn [bind] in BI0.
    assert (M1 : b_mul_range false (n - k + 1) n = Ok (zint 1)).
    { rewrite b_mul_range_spec by (unfold i64_range; auto; lia). rewrite to_nat_nonpos by lia. reflexivity. }
    assert (M2 : b_mul_range false 1 k = Ok (zint 1)).
    { rewrite b_mul_range_spec by (unfold i64_range; auto; lia). rewrite to_nat_nonpos by lia. reflexivity. }
    rewrite M1 in BI0. cbn [bind] in BI0. rewrite M2 in BI0. cbn [bind] in BI0.
    exists (zint 1). split; [exact BI0|]. repeat split; intros; try lia; reflexivity. }
  assert (R : b_binomial false n k = Ok (zint (falling n (Z.to_nat k) / fact (Z.to_nat k)))).
  { destruct (Z.eq_dec (n - j) (- 2 ^ 63 - 1)) as [E|E].
    - assert (EJ : j = k) by lia. rewrite EJ in *. rewrite E in BI0. change (i64 false (- 2 ^ 63 - 1)) with (Ok (2 ^ 63 - 1)) in BI0.
      cbn [bind] in BI0. change (i64 false (2 ^ 63 - 1 + 1)) with (Ok (- 2 ^ 63)) in BI0. cbn [bind] in BI0.
      rewrite b_mul_range_spec in BI0 by (unfold i64_range; auto; lia). cbn [bind] in BI0.
      rewrite b_mul_range_spec in BI0 by (unfold i64_range; auto; lia). cbn [bind] in BI0. rewrite BI0.
      replace (k - 1 + 1) with k by lia. fold (fact (Z.to_nat k)).
      replace (n - - 2 ^ 63 + 1) with k by lia.
      pose proof (falling_prod (Z.to_nat k) n) as FP. rewrite Z2Nat.id in FP by lia.
      replace (n - k + 1) with (- 2 ^ 63) in FP by lia. rewrite <- FP.
      set (i := Z.to_nat k) in *. pose proof (fact_pos i). destruct (fact_falling i n) as [v Hv]. rewrite Hv.
      rewrite zint_div, Z.quot_mul, Z.div_mul; try lia. reflexivity.
      rewrite Z.quot_mul by lia. nia.
    - clear BACK GEN BI0. clearbody j. pose proof (Z.div_mod n 2 ltac:(lia)). pose proof (Z.mod_pos_bound n 2 ltac:(lia)).
      apply b_binomial_spec; unfold i64_range; auto; lia. }
  eexists. split; [exact R|]. rewrite bvalue_zint. split; [lia|]. split; [intros; exact BACK|lia].
Qed.
(** The one argument left: the lower end wraps to [i64::MIN], the quotient is
    (2 ^ 63)! instead of 1. *)
Lemma neg_prod m : prod_from (- Z.of_nat m) m = (if Nat.even m then 1 else -1) * fact m.
Proof.
  induction m as [|m IH]; [reflexivity|]. rewrite fact_succ, Nat.even_succ, <- Nat.negb_even. cbn [prod_from]. replace (- Z.of_nat (S m) + 1) with (- Z.of_nat m) by lia. rewrite IH.
  destruct (Nat.even m); cbn [negb]; lia.
Qed.
Lemma binomial_corner a : a = 2 ^ 63 -> b_binomial false (-1) (- a) = Ok (zint (fact (Z.to_nat a))).
Proof.
  intros A. pose proof (binomial_index false (-1) (- a) ltac:(split; lia) ltac:(split; lia)) as B.
  assert (L : low_index (-1) (- a) = - a) by (rewrite A; reflexivity). rewrite L in B.
  assert (E1 : i64 false (-1 - - a) = Ok (2 ^ 63 - 1)) by (rewrite A; reflexivity). rewrite E1 in B. cbn [bind] in B.
  assert (E2 : i64 false (2 ^ 63 - 1 + 1) = Ok (- a)) by (rewrite A; reflexivity). rewrite E2 in B. cbn [bind] in B.
  rewrite b_mul_range_spec in B by (unfold i64_range; auto; lia). cbn [bind] in B. rewrite b_mul_range_spec in B by (unfold i64_range; auto; lia). cbn [bind] in B.
  rewrite (to_nat_nonpos (- a - 1 + 1)) in B by lia. cbn [prod_from] in B. replace (-1 - - a + 1) with a in B by lia.
  pose proof (neg_prod (Z.to_nat a)) as P. rewrite Z2Nat.id in P by lia.
  assert (EV : Nat.even (Z.to_nat a) = true). { apply Nat.even_spec. exists (Z.to_nat (a / 2)). assert (E : a = 2 * (a / 2)) by (rewrite A; reflexivity). assert (0 <= a / 2) by lia. rewrite E at 1. rewrite Z2Nat.inj_mul by lia. reflexivity. }
  rewrite EV, Z.mul_1_l in P. rewrite P in B. pose proof (fact_pos (Z.to_nat a)). rewrite zint_div in B by lia. rewrite Z.quot_1_r in B. exact B.
Qed.
Theorem C40_binomial_corner : forall n k, n = -1 -> k = - 2 ^ 63 -> exists r, b_binomial false n k = Ok r /\ is_int r (fact (Z.to_nat (- k))).
Proof.
  intros n k -> K. assert (E : k = - - k) by lia. remember (- k) as a. rewrite E. eexists. split; [apply binomial_corner; lia|apply is_int_zint].
Qed.
Example C40_values_case : b_binomial false 7 (-3) = Ok (zint 1) /\ b_binomial false (2 ^ 63 - 1) (-5) = Ok (zint 0) /\
  b_binomial true (2 ^ 63 - 1) (-5) = Panic /\ b_binomial false (- 2 ^ 63) 1 = Ok (zint (- 2 ^ 63)) /\
  b_binomial true (- 2 ^ 63) 1 = Panic /\ b_binomial false (- 2 ^ 63) 2 = Ok (zint 0).
Proof. vm_compute. repeat split. Qed.
Print Assumptions C40_mul_range_panics.
Print Assumptions C40_binomial_panics.
Print Assumptions C40_binomial_values.
Print Assumptions C40_binomial_corner.

(** ** C41
    Every negative exponent: the result is the residue [v] with
    [a^|b| v = g^|b|], where [g] is the greatest common divisor of base and
    modulus, with the sign of the right-hand side changed when the base is
    negative and the exponent odd. *)
Theorem C41_exp_negative : forall x y z a b n, is_int x a -> is_int y b -> is_int z n -> b < 0 -> n <> 0 ->
  exists r v, b_exp false x y z = Ok r /\ is_int r v /\ 0 <= v < Z.abs n /\
    (a ^ (- b) * v) mod Z.abs n = ((if (a <? 0) && Z.odd b then -1 else 1) * Z.gcd a n ^ (- b)) mod Z.abs n.
Proof.
  intros x y z a b n Hx Hy Hz Hb Hn. ints. destruct (b_exp_neg a b n Hb Hn) as (v & Bv & Cv & E).
  eexists _, _. split; [exact E|]. split; [apply is_int_zint|].
  assert (P : (a ^ (- b) * v ^ (- b)) mod Z.abs n = Z.gcd a n ^ (- b) mod Z.abs n).
  { rewrite <- Z.pow_mul_l.
    rewrite (Zpow_facts.Zpower_mod (a * v) _ (Z.abs n)), Cv, <- (Zpow_facts.Zpower_mod _ _ (Z.abs n)) by lia. reflexivity. }
  destruct ((a <? 0) && Z.odd b).
  - split; [apply Z.mod_pos_bound; lia|]. rewrite Zmult_mod_idemp_r.
    replace (a ^ (- b) * - v ^ (- b)) with (-1 * (a ^ (- b) * v ^ (- b))) by ring.
    rewrite <- Zmult_mod_idemp_r, P, Zmult_mod_idemp_r. reflexivity.
  - split; [apply Z.mod_pos_bound; lia|]. rewrite Zmult_mod_idemp_r, P. rewrite Z.mul_1_l. reflexivity.
Qed.
Example C41_negative_case : b_exp false (zint (-2)) (zint (-3)) (zint 9) = Ok (zint 8) /\ ((-2) ^ 3 * 8) mod 9 = -1 mod 9 /\
  b_exp false (zint 6) (zint (-1)) (zint 15) = Ok (zint 13) /\ (6 * 13) mod 15 = Z.gcd 6 15.
Proof. vm_compute. repeat split. Qed.
Print Assumptions C41_exp_negative.

(** ** C51
    A value that is not zero but below half the least float becomes a signed
    zero, and the flag claims exactness exactly when the value has no more
    significant bits than the format: the exponent is not looked at.  With the
    theorems of Properties_Rat.v the flag is described for every Rat. *)
Theorem C51_tiny : forall x, ok_rat x ->
  (~ not_tiny 52 11 (rvalue x) -> exists ex, r_to_f64 x = Ok (fsigned 52 11 (bneg (rnum x)) 0, ex) /\ (ex = true <-> fits_bits 53 (rvalue x))) /\
  (~ not_tiny 23 8 (rvalue x) -> exists ex, r_to_f32 x = Ok (fsigned 23 8 (bneg (rnum x)) 0, ex) /\ (ex = true <-> fits_bits 24 (rvalue x))).
Proof. intros x H. split; [apply to_f64_tiny|apply to_f32_tiny]; exact H. Qed.
Example C51_tiny_case : r_to_f32 (mk true 5 false (2 ^ 160)) = Ok (2 ^ 31, true) /\ r_to_f32 (mk false (2 ^ 25 + 1) false (2 ^ 180)) = Ok (0, false) /\
  fits_bits 24 (rvalue (mk true 5 false (2 ^ 160))).
Proof.
  split; [vm_compute; reflexivity|]. split; [vm_compute; reflexivity|].
  exists 5, 160, 0. split; [lia|]. split; [lia|]. split; [lia|]. vm_compute. reflexivity.
Qed.
Print Assumptions C51_tiny.

(** ** C64
    Words as wide as the type.  Without overflow checks the draws follow
    subtract with carry except that the borrow is lost whenever the subtracted
    word and the old borrow add up to 2^B; with overflow checks the draws are
    the same up to the first such step, which panics. *)
Theorem C64_full_width : forall B s r seed g,
  B = 32 \/ B = 64 -> 0 < s < r -> r < 2 ^ B -> 0 <= seed < 2 ^ B ->
  lf_new B (ROk seed) B s r = ROk g ->
  exists x c z,
    (z O = seed /\ forall i, z (S i) = ((40014 * z i) mod 2 ^ B) mod 2147483563) /\
    (let n := Z.to_nat ((B + 31) / 32) in
     forall i, (i < Z.to_nat r)%nat -> x i = le_value (2 ^ 32) (map z (seq (n * i + 1) n)) mod 2 ^ B) /\
    c (Z.to_nat r - 1)%nat = (if x (Z.to_nat r - 1)%nat =? 0 then 1 else 0) /\
    wide_recurrence B (Z.to_nat s) (Z.to_nat r) x c /\
    (forall k, exists g', lf_draws false B k g = Ok (map (fun i => x (Z.to_nat r + i)%nat) (seq 0 k), g')) /\
    (2 * r <= 2 ^ B -> forall k,
      let lost i := x i + c (Z.to_nat r + i - 1)%nat = 2 ^ B in
      ((forall i, (i < k)%nat -> ~ lost i) -> lf_draws true B k g = lf_draws false B k g) /\
      ((exists i, (i < k)%nat /\ lost i) -> lf_draws true B k g = Panic)).
Proof.
  intros B s r seed g HB Hs Hr HS E. unfold lf_new in E.
  assert (HB32 : 32 <= B) by lia.
  replace (B =? 0) with false in E by (symmetry; apply Z.eqb_neq; lia).
  replace (s =? 0) with false in E by (symmetry; apply Z.eqb_neq; lia).
  replace (r =? 0) with false in E by (symmetry; apply Z.eqb_neq; lia).
  replace (r <=? s) with false in E by (symmetry; apply Z.leb_gt; lia).
  replace (B <? B) with false in E by (symmetry; apply Z.ltb_ge; lia).
  injection E as <-.
  set (s' := Z.to_nat s). set (r' := Z.to_nat r).
  assert (H1 : (1 <= s' < r')%nat) by (unfold s', r'; lia).
  assert (HRB : Z.of_nat r' < 2 ^ B) by (unfold r'; lia).
  pose proof (wide_recur B s' r' H1 ltac:(lia) seed) as HR.
  pose proof (wide_range B s' r' H1 ltac:(lia) seed) as HRg.
  exists (wide_words B s' r' seed), (wide_borrows B s' r' seed), (lcg_seq B 40014 0 2147483563 seed).
  assert (HI : forall i, (i < r')%nat -> wide_words B s' r' seed i = nth i (lf_init B B r' seed) 0).
  { intros i Hi. unfold wide_words. rewrite wide_pairs_init by assumption. reflexivity. }
  split; [split; [reflexivity | intros i; cbn [lcg_seq]; rewrite Z.add_0_r; reflexivity]|].
  split.
  { cbv zeta. intros i Hi. rewrite HI by exact Hi. unfold lf_init.
    exact (lf_fill_spec B B seed HB32 ltac:(lia) r' O i Hi). }
  split.
  { unfold wide_borrows at 1. rewrite wide_pairs_init by lia. cbn [snd]. rewrite HI by lia. unfold lf_carry0.
    replace (last (lf_init B B r' seed) 0) with (nth (r' - 1) (lf_init B B r' seed) 0); [reflexivity|].
    assert (HLn : length (lf_init B B r' seed) = r') by apply lf_fill_len.
    rewrite <- HLn at 1. revert HLn. generalize (lf_init B B r' seed). intros l _.
    induction l as [|y [|y' l] IH]; [reflexivity | reflexivity |].
    cbn [length]. replace (S (S (length l)) - 1)%nat with (S (length l)) by lia.
    cbn [last nth]. cbn [length] in IH. replace (S (length l) - 1)%nat with (length l) in IH by lia. exact IH. }
  split; [exact HR|].
  pose proof (wide_fresh_inv B s' r' H1 ltac:(lia) seed 0 0 []) as INV. unfold s', r' in INV. rewrite !Z2Nat.id in INV by lia. fold s' r' in INV.
  split.
  { intros k. destruct k as [|k]; [eexists; reflexivity|]. rewrite (lf_draws_init false B s' r' H1) by lia.
    exact (wide_draws_inv B s' r' H1 ltac:(lia) HRB _ _ HR HRg (S k) O _ INV). }
  intros H2 k. cbv zeta.
  destruct k as [|k]; [split; [reflexivity|intros (i & Hi & _); lia]|]. rewrite (lf_draws_init false B s' r' H1), (lf_draws_init true B s' r' H1) by lia.
  destruct (wide_draws_checked B s' r' H1 ltac:(lia) HRB _ _ ltac:(unfold r'; lia) HR HRg (S k) O _ INV) as [A P].
  split.
  - intros H. apply A. intros i Hi. apply H. lia.
  - intros (i & Hi & O). apply P. exists i. split; [lia|exact O].
Qed.
Example C64_full_width_case : exists g l g', lf_new 32 (ROk 0) 32 2 4 = ROk g /\ lf_draws false 32 7 g = Ok (l, g') /\
  lf_draws true 32 6 g = Panic /\ l = [4294967295; 4294967295; 4294967294; 4294967295; 4294967295; 4294967295; 1].
Proof. eexists. eexists. eexists. split; [reflexivity|]. split; [vm_compute; reflexivity|]. split; [vm_compute; reflexivity|]. vm_compute. reflexivity. Qed.
Print Assumptions C64_full_width.

(** ** C72
    [from_frac] of all machine integers: a panic with overflow checks exactly
    when the denominator is [isize::MIN], or the numerator is and the
    denominator is negative; without them the value is right except that
    [isize::MIN] over a negative denominator comes out negated. *)
Theorem C72_from_frac_exact : forall n d, i64_range n -> i64_range d -> d <> 0 ->
  (r_from_frac true n d = Panic <-> d = - 2 ^ 63 \/ n = - 2 ^ 63 /\ d < 0) /\
  exists z, r_from_frac false n d = Ok (Some z) /\
    denotes z (if (n =? - 2 ^ 63) && (d <? 0) then - (inject_Z n / inject_Z d) else inject_Z n / inject_Z d).
Proof.
  intros n d Hn Hd D0. pose proof Hn as [N1 N2]. pose proof Hd as [D1 D2]. split.
  - split.
    + intros P. destruct (Z.eq_dec d (- 2 ^ 63)); [auto|right].
      destruct (Z.eq_dec n (- 2 ^ 63)) as [E|E]; [split; [exact E|]|].
      * destruct (Z.lt_ge_cases d 0); [auto|]. destruct (from_frac_spec true n d) as (z & F & _); auto; [lia|congruence].
      * destruct (from_frac_spec true n d) as (z & F & _); auto. congruence.
    + intros H. unfold r_from_frac. rewrite (proj2 (Z.eqb_neq d 0)) by auto. rewrite (proj2 (Z.ltb_lt d 0)) by lia.
      destruct H as [->|[-> L]]; [|reflexivity]. destruct (i64 true (- n)) as [n'| |] eqn:E; [reflexivity|reflexivity|].
      unfold i64 in E. destruct (_ && _); discriminate E.
  - assert (FI : forall x, - 2 ^ 63 <= x < 2 ^ 63 -> b_from_i64 x = zint x).
    { intros x Hx. apply from_signed_spec; [lia|apply from_u64_of_Z|auto]. }
    assert (NEG : forall a b, a <> 0 -> 0 < b -> r_norm (RT (zint a) (zint (- b))) = r_norm (RT (zint a) (zint b))).
    { intros a b Ha Hb. unfold r_norm. cbn [rnum rden]. rewrite !zint_not_nan, !zint_nat, !Z.abs_opp, !of_Z_eq_u32 by lia.
      rewrite !(proj2 (Z.eqb_neq (Z.abs _) 0)) by lia. cbn [orb]. rewrite !zint_nat, Z.abs_opp. reflexivity. }
    destruct (Z.eq_dec d (- 2 ^ 63)) as [DM|DM].
    + subst d. unfold r_from_frac. change (- 2 ^ 63 =? 0) with false. change (- 2 ^ 63 <? 0) with true. cbv iota.
      change (i64 false (Z.abs (- 2 ^ 63))) with (Ok (- 2 ^ 63)). rewrite andb_true_r.
      destruct (Z.eqb_spec n (- 2 ^ 63)) as [->|NM].
      * eexists. split; [vm_compute; reflexivity|]. split; [|vm_compute; reflexivity].
        apply (ok_mk true 1 false 1); lia.
      * rewrite i64_ok by (unfold i64_range; lia). cbn [bind]. rewrite !FI by lia.
        destruct (Z.eq_dec n 0) as [->|N0].
        -- eexists. split; [reflexivity|]. split; [apply (ok_mk false 0 true (2 ^ 63)); lia|vm_compute; reflexivity].
        -- rewrite (NEG (- n) (2 ^ 63)) by lia. destruct (norm_int (- n) (2 ^ 63)) as (z & A & B & _); [lia|].
           rewrite A. cbn [bind]. exists z. split; [reflexivity|].
           apply (denotes_trans _ _ _ B). apply q_div_neg. lia.
    + destruct (Z.eqb_spec n (- 2 ^ 63)) as [NM|NM]; [destruct (Z.ltb_spec d 0) as [L|L]|]; cbn [andb].
      * unfold r_from_frac. rewrite (proj2 (Z.eqb_neq d 0)), (proj2 (Z.ltb_lt d 0)) by lia. subst n.
        change (i64 false (- - 2 ^ 63)) with (Ok (- 2 ^ 63)). rewrite i64_ok by (unfold i64_range; lia). cbn [bind].
        rewrite !FI by lia. destruct (norm_int (- 2 ^ 63) (Z.abs d)) as (z & A & B & _); [lia|].
        rewrite A. cbn [bind]. exists z. split; [reflexivity|]. apply (denotes_trans _ _ _ B).
        replace d with (- Z.abs d) at 2 by lia. rewrite <- q_div_neg by lia. reflexivity.
      * destruct (from_frac_spec false n d) as (z & F & G & _); auto; [lia|]. exists z. auto.
      * destruct (from_frac_spec false n d) as (z & F & G & _); auto. exists z. auto.
Qed.
Example C72_exact_case : (exists z, r_from_frac false (- 2 ^ 63) (-3) = Ok (Some z) /\ rvalue z = (- 2 ^ 63 # 3)%Q) /\
  (exists z, r_from_frac false 6 (- 2 ^ 63) = Ok (Some z) /\ rvalue z = (-3 # 2 ^ 62)%Q) /\ r_from_frac true 6 (- 2 ^ 63) = Panic.
Proof.
  split; [eexists; split; [vm_compute; reflexivity|vm_compute; reflexivity]|].
  split; [eexists; split; [vm_compute; reflexivity|vm_compute; reflexivity]|vm_compute; reflexivity].
Qed.
Print Assumptions C72_from_frac_exact.

(** ** C68 *)
(** The same for [BigInt::exp] with an exponent that is not negative. *)
Theorem C68_int_exp_checked : forall x y z a b n, is_int x a -> is_int y b -> is_int z n -> 0 <= b ->
  (b_exp true x y z = Panic <-> (Z.abs a <= 1 \/ n = 0) /\ Z.abs n <> 1 /\ exists j, 1 <= j /\ 2 ^ (32 * j) <= b < 2 ^ (32 * j + 1)) /\
  (b_exp true x y z <> Panic -> exists r, b_exp true x y z = Ok r /\ is_int r (a ^ b mod Z.abs n)).
Proof.
  intros x y z a b n Hx Hy Hz Hb. ints.
  assert (H : forall c, b_exp c (zint a) (zint b) (zint n) = match nat_exp c (of_Z (Z.abs a)) (of_Z (Z.abs b)) (of_Z (Z.abs n)) with Ok e => match b_exp false (zint a) (zint b) (zint n) with Ok r => Ok r | q => q end | Panic => Panic | Fuel => Fuel end).
  { intros c. unfold b_exp. rewrite !zint_not_nan, !(zint_is_negative b). cbn [orb]. destruct (Z.ltb_spec b 0); [lia|]. cbn [andb bind]. rewrite !zint_nat.
    destruct (nat_exp_of_Z c (of_Z (Z.abs a)) (of_Z (Z.abs b)) (of_Z (Z.abs n))) as [E|(C & E & _)]; try apply abs_canon; rewrite E; [|reflexivity].
    rewrite nat_exp_release by apply abs_canon. cbn [bind]. destruct (_ && _ && _ && _ && _); reflexivity. }
  destruct (C68_exp_checked_iff (of_Z (Z.abs a)) (of_Z (Z.abs b)) (of_Z (Z.abs n))) as (I & J); try apply abs_canon.
  rewrite !abs_val, (Z.abs_eq b) in I by lia. rewrite (H true). clear H. rewrite (Z.abs_eq b) in * by lia.
  rewrite (b_exp_nonneg a b n Hb) in *. destruct (nat_exp_of_Z true (of_Z (Z.abs a)) (of_Z b) (of_Z (Z.abs n))) as [E|(_ & E & _)]; try apply abs_canon; [apply of_Z_canon; lia| |].
  - rewrite E in *. split; [split; [discriminate|]|].
    + intros (A & N & R). destruct I as [_ I]. discriminate I. repeat split; auto. destruct A; [auto|right; lia].
    + intros _. eexists. split; [reflexivity|apply is_int_zint].
  - rewrite E in *. split; [|congruence]. split; [|reflexivity]. intros _. destruct I as [I _]. destruct (I eq_refl) as (A & N & R). repeat split; auto. destruct A; [auto|right; lia].
Qed.
Example C68_int_case : b_exp true (zint (-1)) (zint (2 ^ 32 + 1)) (zint 0) = Panic /\ b_exp true (zint (-1)) (zint (2 ^ 33 + 1)) (zint 7) = Ok (zint 6) /\
  b_exp true (zint (-1)) (zint (2 ^ 32)) (zint (-1)) = Ok (zint 0).
Proof. vm_compute. repeat split. Qed.
Print Assumptions C68_int_exp_checked.
