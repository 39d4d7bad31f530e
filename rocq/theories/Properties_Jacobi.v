(** The laws of the Jacobi symbol (C42) and what [jacobi] returns for an even
    second argument (C123). *)
From Coq Require Import ZArith Znumtheory List Lia Bool.
From Verif Require Import Words Spec WordsFacts NatModel NatFacts BigInt SpecInt BigIntFacts NumBig SpecNum NumTheory NumTheory2 NumTheory3 NumBigFacts NumBigFacts2.
Import ListNotations.
Open Scope Z_scope.

(** ** C42: multiplicative in [a], and a function of [a mod b]. *)
Theorem C42_multiplicative : forall x1 x2 x y a1 a2 b, is_int x1 a1 -> is_int x2 a2 -> is_int x (a1 * a2) -> is_int y b -> Z.odd b = true -> 0 < b ->
  clean a1 b -> clean a2 b -> clean (a1 * a2) b ->
  exists v1 v2, b_jacobi x1 y = Ok (Some v1) /\ b_jacobi x2 y = Ok (Some v2) /\ b_jacobi x y = Ok (Some (v1 * v2)).
Proof.
  intros x1 x2 x y a1 a2 b X1 X2 X Y O B C1 C2 C. apply is_int_iff in X1. apply is_int_iff in X2. apply is_int_iff in X. apply is_int_iff in Y. subst x1 x2 x y.
  destruct (factor_odd b B O) as (ps & F & E). rewrite <- (Z.abs_eq b) in E, C1, C2, C by lia. exists (J a1 ps), (J a2 ps). rewrite <- J_mul by auto.
  rewrite (b_jacobi_spec a1 b ps), (b_jacobi_spec a2 b ps), (b_jacobi_spec (a1 * a2) b ps) by (auto; lia).
  destruct (Z.ltb_spec b 0); [lia|]. rewrite !andb_false_r, !Z.mul_1_l. auto.
Qed.
Theorem C42_periodic : forall x1 x2 y a1 a2 b, is_int x1 a1 -> is_int x2 a2 -> is_int y b -> Z.odd b = true -> 0 < b -> (b | a1 - a2) ->
  clean a1 b -> clean a2 b -> exists v, b_jacobi x1 y = Ok (Some v) /\ b_jacobi x2 y = Ok (Some v).
Proof.
  intros x1 x2 y a1 a2 b X1 X2 Y O B D C1 C2. apply is_int_iff in X1. apply is_int_iff in X2. apply is_int_iff in Y. subst x1 x2 y.
  destruct (factor_odd b B O) as (ps & F & E). rewrite <- (Z.abs_eq b) in E, C1, C2 by lia. exists (J a1 ps).
  rewrite (b_jacobi_spec a1 b ps), (b_jacobi_spec a2 b ps) by (auto; lia).
  destruct (Z.ltb_spec b 0); [lia|]. rewrite !andb_false_r, !Z.mul_1_l. split; [reflexivity|]. do 2 f_equal. apply J_eqm; [auto|].
  rewrite E, Z.abs_eq by lia. apply eqm_minus, div_eqm. replace (a2 - a1) with (- (a1 - a2)) by lia. apply Z.divide_opp_r. auto.
Qed.
(** For a [b] of one word no condition on the shifts is left. *)
Theorem C42_laws_word : forall a1 a2 b, Z.odd b = true -> 0 < b < 2 ^ 32 ->
  exists v1 v2, b_jacobi (zint a1) (zint b) = Ok (Some v1) /\ b_jacobi (zint a2) (zint b) = Ok (Some v2) /\
    b_jacobi (zint (a1 * a2)) (zint b) = Ok (Some (v1 * v2)) /\ ((b | a1 - a2) -> v1 = v2) /\ (v1 = 0 <-> ~ rel_prime a1 b).
Proof.
  intros a1 a2 b O B. change (2 ^ 32) with W in B. assert (C : forall a, clean a b) by (intros a; apply clean_small; [lia|auto]).
  destruct (C42_multiplicative _ _ _ _ a1 a2 b (proj2 (is_int_iff _ _) eq_refl) (proj2 (is_int_iff _ _) eq_refl) (proj2 (is_int_iff _ _) eq_refl) (proj2 (is_int_iff _ _) eq_refl) O ltac:(lia) (C _) (C _) (C _)) as (v1 & v2 & E1 & E2 & E3).
  exists v1, v2. split; [exact E1|]. split; [exact E2|]. split; [exact E3|]. split.
  - intros D. destruct (C42_periodic _ _ _ a1 a2 b (proj2 (is_int_iff _ _) eq_refl) (proj2 (is_int_iff _ _) eq_refl) (proj2 (is_int_iff _ _) eq_refl) O ltac:(lia) D (C _) (C _)) as (v & F1 & F2). congruence.
  - destruct (factor_odd b ltac:(lia) O) as (ps & F & E). rewrite <- (Z.abs_eq b) in E by lia.
    rewrite (b_jacobi_spec a1 b ps) in E1 by (rewrite ?Z.abs_eq by lia; auto; lia). destruct (Z.ltb_spec b 0); [lia|]. rewrite andb_false_r, Z.mul_1_l in E1.
    assert (v1 = J a1 ps) as -> by congruence. rewrite Z.abs_eq in E by lia. rewrite <- E. clear - F. unfold J. induction F as [|p ps [P P2] F IH].
    + cbn [map]. rewrite prodZ_nil. split; [discriminate|]. intros H. destruct H. apply rel_prime_sym, rel_prime_1.
    + cbn [map]. rewrite !prodZ_cons, Z.mul_eq_0, IH, <- (ls_zero a1 p P P2). split.
      * intros [D|H]; intros R.
        -- destruct P as [P1 _]. destruct R as [_ _ R]. pose proof (R p D (Z.divide_factor_l _ _)) as R1. apply Z.divide_1_r_nonneg in R1; lia.
        -- apply H. apply rel_prime_sym. apply rel_prime_div with (p * prodZ ps); [apply rel_prime_sym; auto|]. apply Z.divide_factor_r.
      * intros H. destruct (Zdivide_dec p a1) as [D|D]; [auto|right]. intros R. apply H. apply rel_prime_mult; [|auto]. apply rel_prime_sym. apply prime_rel_prime; auto.
Qed.
Example C42_laws_case : b_jacobi (zint 21) (zint 55) = Ok (Some (-1)) /\ b_jacobi (zint 3) (zint 55) = Ok (Some (-1)) /\ b_jacobi (zint 7) (zint 55) = Ok (Some 1) /\
  b_jacobi (zint (-34)) (zint 55) = Ok (Some (-1)) /\ b_jacobi (zint 22) (zint 55) = Ok (Some 0) /\ clean 21 55.
Proof. split; [vm_compute; reflexivity|]. split; [vm_compute; reflexivity|]. split; [vm_compute; reflexivity|]. split; [vm_compute; reflexivity|]. split; [vm_compute; reflexivity|]. apply clean_small; [lia|reflexivity]. Qed.

Print Assumptions C42_multiplicative.
Print Assumptions C42_periodic.
Print Assumptions C42_laws_word.

(** ** C123
    The symbol is not defined for an even [b] and the code does not refuse one.
    With [a mod |b| = q * 2 ^ s], [q] odd, the answer is the symbol of the
    other order, ([|b|]/[q]), negated when both are negative; a multiple of [b]
    gives 0, except that a negative multiple of a power of two gives 1 or,
    for a negative [b], -1 ([rem_euclid] leaves |b| there, C33). *)
Theorem C123_step : forall x y a b q s, is_int x a -> is_int y b -> b <> 0 -> Z.odd b = false ->
  a mod Z.abs b = q * 2 ^ s -> 0 <= s -> 0 < q -> Z.odd q = true -> shr_exact (a mod Z.abs b) s -> clean (Z.abs b) q ->
  exists v, b_jacobi x y = Ok (Some v) /\
    forall w, jacobi_symbol (Z.abs b) q w <-> v = (if (a <? 0) && (b <? 0) then -1 else 1) * w.
Proof.
  intros x y a b q s X Y B O E S0 Q0 Oq H C. apply is_int_iff in X. apply is_int_iff in Y. subst x y.
  destruct (factor_odd q Q0 Oq) as (ps & F & Eq). eexists. split; [apply (jacobi_even_step a b q s ps); auto|].
  set (t := if (a <? 0) && (b <? 0) then -1 else 1). assert (S1 : t = 1 \/ t = -1) by (unfold t; destruct (_ && _); auto). intros w. split.
  - intros JS. destruct (jacobi_symbol_inv _ _ _ Oq JS) as (qs & G & E' & ->).
    pose proof (jacobi_even_step a b q s ps B O E S0 Q0 Oq H F Eq C) as J1. pose proof (jacobi_even_step a b q s qs B O E S0 Q0 Oq H G E' C) as J2. rewrite J1 in J2. fold t in J2. congruence.
  - intros EQ. apply (jacobi_symbol_J _ _ _ ps); auto; [rewrite Forall_forall in *; intros p I; apply F; auto|]. destruct S1 as [-> | ->]; lia.
Qed.
Theorem C123_multiple : forall x y a b q s, is_int x a -> is_int y b -> b <> 0 -> Z.odd b = false -> (b | a) ->
  Z.abs b = q * 2 ^ s -> 0 <= s -> 0 < q -> Z.odd q = true -> 0 <= a \/ shr_exact (Z.abs b) s ->
  b_jacobi x y = Ok (Some (if (a <? 0) && (q =? 1) then (if b <? 0 then -1 else 1) else 0)).
Proof.
  intros x y a b q s X Y B O D E S0 Q0 Oq H. apply is_int_iff in X. apply is_int_iff in Y. subst x y. apply (jacobi_even_multiple a b q s); auto.
Qed.
(** A [b] of one word meets the conditions, so this is every such case. *)
Theorem C123_word : forall a b, b <> 0 -> Z.abs b < 2 ^ 32 -> Z.odd b = false ->
  exists v, b_jacobi (zint a) (zint b) = Ok (Some v) /\
    if a mod Z.abs b =? 0 then v = (if (a <? 0) && (2 ^ Z.log2 (Z.abs b) =? Z.abs b) then (if b <? 0 then -1 else 1) else 0)
    else exists q s, a mod Z.abs b = q * 2 ^ s /\ 0 <= s /\ Z.odd q = true /\
      forall w, jacobi_symbol (Z.abs b) q w <-> v = (if (a <? 0) && (b <? 0) then -1 else 1) * w.
Proof.
  intros a b B L O. change (2 ^ 32) with W in L. destruct (Z.eqb_spec (a mod Z.abs b) 0) as [M|M].
  - destruct (odd_split (Z.abs b) ltac:(lia)) as (q & s & S0 & Q0 & Oq & E). assert (P : 0 < 2 ^ s) by (apply Z.pow_pos_nonneg; lia).
    eexists. split; [apply (jacobi_even_multiple a b q s); auto|].
    + apply Z.divide_abs_l. apply Z.mod_divide; lia.
    + right. left. assert (H2 : 2 ^ s < 2 ^ 32) by (change (2 ^ 32) with W; nia). apply Z.pow_lt_mono_r_iff in H2; lia.
    + destruct (a <? 0); cbn [andb]; [|reflexivity]. replace (2 ^ Z.log2 (Z.abs b) =? Z.abs b) with (q =? 1); [reflexivity|]. rewrite E.
      destruct (Z.eqb_spec q 1) as [->|Q1]; symmetry; [apply Z.eqb_eq; rewrite Z.mul_1_l, Z.log2_pow2; lia|]. apply Z.eqb_neq. intros Y.
      rewrite Z.log2_mul_pow2 in Y by lia. rewrite Z.pow_add_r in Y by (auto using Z.log2_nonneg). assert (Y' : 2 ^ Z.log2 q = q) by nia.
      assert (0 < Z.log2 q) by (apply Z.log2_pos; lia). rewrite <- Y' in Oq. rewrite Z.odd_pow in Oq by lia. discriminate.
  - pose proof (Z.mod_pos_bound a (Z.abs b) ltac:(lia)). destruct (odd_split (a mod Z.abs b) ltac:(lia)) as (q & s & S0 & Q0 & Oq & E). assert (P : 0 < 2 ^ s) by (apply Z.pow_pos_nonneg; lia).
    destruct (C123_step _ _ a b q s (proj2 (is_int_iff _ _) eq_refl) (proj2 (is_int_iff _ _) eq_refl) B O E S0 Q0 Oq) as (v & EV & SV).
    + left. assert (H2 : 2 ^ s < 2 ^ 32) by (change (2 ^ 32) with W; nia). apply Z.pow_lt_mono_r_iff in H2; lia.
    + apply clean_small; [nia|auto].
    + exists v. split; [exact EV|]. exists q, s. auto.
Qed.
Example C123_case : b_jacobi (zint 5) (zint 8) = Ok (Some (-1)) /\ b_jacobi (zint 2) (zint 4) = Ok (Some 1) /\ b_jacobi (zint 12) (zint 6) = Ok (Some 0) /\
  b_jacobi (zint (-12)) (zint 6) = Ok (Some 0) /\ b_jacobi (zint (-12)) (zint 4) = Ok (Some 1) /\ b_jacobi (zint (-12)) (zint (-4)) = Ok (Some (-1)) /\ b_jacobi (zint 12) (zint (-4)) = Ok (Some 0).
Proof. vm_compute. repeat split; reflexivity. Qed.

Print Assumptions C123_step.
Print Assumptions C123_multiple.
Print Assumptions C123_word.
