(** Final statements about [BigInt]: C30 - C41 and C44 - C46.

    Vocabulary (SpecInt.v): [is_int x n]: [x] is the canonical BigInt of the
    integer [n]; [int_value x n]: its value is [n] but the word list may have
    leading zero words; [shr_exact]: the shift amounts that [Nat] handles.
    Integer operations are those of Coq's [Z]: [Z.quot]/[Z.rem] truncate,
    [Z.div]/[Z.modulo] round down, [Z.land] etc. are two's complement,
    [Z.gcd], [Z.sqrt]. *)
From Coq Require Import ZArith String List Lia Bool.
From Verif Require Import Words Spec SpecText WordsFacts NatModel NatFacts NatFacts2 NatConv NatConvFacts Properties_NatConv
  NatExp BigInt SpecInt BigIntFacts BigIntFacts2 BigIntFacts3 BigIntFacts4.
Import ListNotations.
Open Scope Z_scope.

(* Every operand is [zint n]. *)
Ltac ints := repeat match goal with H : is_int ?x ?n |- _ => apply is_int_iff in H; subst x end.

(** ** C30 *)
Theorem C30_ring_operations : forall x y a b, is_int x a -> is_int y b ->
  is_int (b_add x y) (a + b) /\ is_int (b_sub x y) (a - b) /\ is_int (b_mul x y) (a * b) /\
  is_int (b_neg x) (- a) /\ is_int (b_abs x) (Z.abs a) /\ b_sqr x = Ok (b_mul x x).
Proof.
  intros. ints. rewrite zint_add, zint_sub, zint_mul, zint_opp, zint_abs, b_sqr_spec, zint_mul.
  repeat (split; [apply is_int_zint|]). reflexivity.
Qed.
Theorem C30_nan : forall x y, b_is_nan x = true \/ b_is_nan y = true ->
  b_is_nan (b_add x y) = true /\ b_is_nan (b_sub x y) = true /\ b_is_nan (b_mul x y) = true.
Proof.
  intros [l s] [m t] H.
  assert (E : forall f, is_nan (op2 f l m) = true).
  { intros f. unfold b_is_nan in H. cbn [bnat] in H. unfold op2.
    destruct l as [|w l]; [reflexivity|]. destruct m as [|v m]; [reflexivity|]. cbn in H. intuition discriminate. }
  unfold b_add, b_sub, b_mul, b_signed, b_is_nan, nat_add, nat_sub, nat_mul. cbn [bnat bneg].
  destruct (eqb s t); cbn [negb bnat]; rewrite !E; auto.
Qed.
Example C30_case : b_add (zint (- 2 ^ 70)) (zint (2 ^ 70)) = zint 0 /\ is_int (BI [5; 7] true) (-5 - 7 * 2 ^ 32) /\
  b_sub (BI [3] false) (BI [0; 1] false) = BI [4294967293] true /\ b_mul (BI [0; 1] true) (BI [3] true) = BI [0; 3] false.
Proof. split; [reflexivity|]. split; [apply is_int_iff; reflexivity|]. split; reflexivity. Qed.
Print Assumptions C30_ring_operations.
Print Assumptions C30_nan.

(** ** C31
    The values are those of truncated division; the sign flag of a zero result
    can be wrong, see C32. *)
Theorem C31_div_rem_values : forall x y a b, is_int x a -> is_int y b -> b <> 0 ->
  exists q r, b_div x y = Ok q /\ b_rem x y = Ok r /\ canon (bnat q) /\ canon (bnat r) /\
    bvalue q = Z.quot a b /\ bvalue r = Z.rem a b.
Proof.
  intros x y a b Hx Hy Hb. ints. rewrite b_div_raw, b_rem_raw by auto.
  eexists _, _. split; [reflexivity|]. split; [reflexivity|].
  pose proof (Z.div_pos (Z.abs a) (Z.abs b)). pose proof (Z.mod_pos_bound (Z.abs a) (Z.abs b)).
  cbn [bnat]. split; [apply of_Z_canon; lia|]. split; [apply of_Z_canon; lia|].
  pose proof (quot_abs_cases a b Hb). pose proof (rem_abs_cases a b Hb).
  unfold bvalue. cbn [bnat bneg]. rewrite !of_Z_val by lia. split.
  - rewrite H1. destruct (Z.eqb_spec a 0) as [->|];
      [rewrite andb_false_r; change (Z.abs 0) with 0; rewrite Z.div_0_l by lia; destruct (eqb _ _); reflexivity|].
    rewrite andb_true_r. destruct (eqb _ _); reflexivity.
  - rewrite H2. reflexivity.
Qed.
(** The law of truncated division, stated on the values alone. *)
Theorem C31_division_law : forall x y a b q r, is_int x a -> is_int y b -> b <> 0 ->
  b_div x y = Ok q -> b_rem x y = Ok r ->
  a = b * bvalue q + bvalue r /\ Z.abs (bvalue r) < Z.abs b /\ 0 <= bvalue r * a.
Proof.
  intros x y a b q r Hx Hy Hb Eq Er.
  destruct (C31_div_rem_values x y a b Hx Hy Hb) as (q' & r' & E1 & E2 & _ & _ & V1 & V2).
  rewrite E1 in Eq. rewrite E2 in Er. injection Eq as <-. injection Er as <-. rewrite V1, V2.
  split; [apply Z.quot_rem'|]. split; [apply Z.rem_bound_abs; auto|].
  apply Z.rem_sign_mul; auto.
Qed.
Theorem C31_division_by_zero : forall x y, is_int y 0 -> b_div x y = Panic /\ b_rem x y = Panic.
Proof. intros. ints. split; [apply b_div_zero|apply b_rem_zero]. Qed.
Example C31_case : b_div (zint (- 2 ^ 70 - 1)) (zint (2 ^ 35)) = Ok (zint (- 2 ^ 35)) /\
  b_rem (zint (- 2 ^ 70 - 1)) (zint (2 ^ 35)) = Ok (zint (-1)) /\ b_rem (zint 7) (zint (-4)) = Ok (zint 3).
Proof. split; [|split]; reflexivity. Qed.
Print Assumptions C31_div_rem_values.
Print Assumptions C31_division_law.
Print Assumptions C31_division_by_zero.

(** ** C32
    Full claim: no operation yields a negative zero.  False for [%] with a
    negative multiple and for [/] with a quotient 0 of different signs.  The
    partial theorem lists the operations that keep zero non-negative. *)
Theorem C32_negative_zero_refuted : exists x y r, bcanon x /\ bcanon y /\ b_rem x y = Ok r /\
  bvalue r = 0 /\ b_is_negative r = true /\ b_eq_u32 r 0 = false.
Proof. exists (zint (-4)), (zint 2), (BI [0] true). split; [apply bcanon_zint|]. split; [apply bcanon_zint|]. repeat split; reflexivity. Qed.
Theorem C32_negative_zero_quotient_refuted : exists x y q, bcanon x /\ bcanon y /\ b_div x y = Ok q /\
  bvalue q = 0 /\ b_is_negative q = true.
Proof. exists (zint 1), (zint (-2)), (BI [0] true). split; [apply bcanon_zint|]. split; [apply bcanon_zint|]. repeat split; reflexivity. Qed.
Theorem C32_canonical_results_partial : forall x y, bcanon x -> bcanon y ->
  bcanon (b_add x y) /\ bcanon (b_sub x y) /\ bcanon (b_mul x y) /\ bcanon (b_neg x) /\ bcanon (b_abs x) /\
  bcanon (b_and x y) /\ bcanon (b_xor x y) /\ bcanon (b_or x y) /\ bcanon (b_and_not x y).
Proof.
  intros x y Hx Hy. rewrite (bcanon_eq x Hx), (bcanon_eq y Hy).
  set (a := bvalue x). set (b := bvalue y). rewrite zint_add, zint_sub, zint_mul, zint_opp, zint_abs, zint_and, zint_xor.
  repeat (split; [apply bcanon_zint|]). split.
  - destruct (Z.ltb_spec a 0) as [A|A], (Z.ltb_spec b 0) as [B|B].
    + rewrite zint_or_same; [apply bcanon_zint|]. destruct (Z.ltb_spec a 0), (Z.ltb_spec b 0); try lia; reflexivity.
    + rewrite (proj2 (zint_or_mixed b a B A)). apply bcanon_zint.
    + rewrite (proj1 (zint_or_mixed a b A B)). apply bcanon_zint.
    + rewrite zint_or_same; [apply bcanon_zint|]. destruct (Z.ltb_spec a 0), (Z.ltb_spec b 0); try lia; reflexivity.
  - destruct (Z.ltb_spec a 0) as [A|A], (Z.ltb_spec b 0) as [B|B];
      try (rewrite zint_and_not by lia; apply bcanon_zint).
    rewrite zint_and_not_negs by auto. apply bcanon_zint.
Qed.
Theorem C32_quotient_partial : forall x y a b, is_int x a -> is_int y b -> b <> 0 ->
  (Z.quot a b <> 0 \/ (0 <= a /\ 0 < b) \/ a = 0 -> exists q, b_div x y = Ok q /\ is_int q (Z.quot a b)) /\
  (0 <= a \/ Z.rem a b <> 0 -> exists r, b_rem x y = Ok r /\ is_int r (Z.rem a b)).
Proof.
  intros x y a b Hx Hy Hb. ints. split; intros H.
  - rewrite zint_div by auto. eauto using is_int_zint.
  - rewrite zint_rem by auto. eauto using is_int_zint.
Qed.
(** Parsing never yields a negative zero, not even for "-0". *)
Theorem C32_parse_partial : forall s x, b_from_str s = Some x -> b_is_nan x = true \/ bcanon x.
Proof.
  intros s x E. destruct (trimmed_exists s) as [t Ht]. rewrite (b_from_str_eq _ _ Ht) in E.
  destruct t as [|c u]; [discriminate|]. cbv zeta in E.
  destruct (nat_from_str (if c =? 45 then u else c :: u)) as [v|] eqn:F; [|discriminate].
  destruct (nat_from_str_sound _ _ F) as (t' & base & ds & T & N & ->). injection E as <-.
  destruct ds as [|d ds]; [left; reflexivity|right].
  destruct (C14_parse_value_partial _ _ _ _ T N) as (v & E & [Cv Vv]); [discriminate|].
  rewrite F in E. replace (parsed base (d :: ds)) with v by congruence.
  split; cbn [bnat bneg]; [auto|]. intros Z0. rewrite (of_Z_unique v 0 Cv Z0). reflexivity.
Qed.
Example C32_case : b_sub (zint (-5)) (zint (-5)) = zint 0 /\ b_mul (zint (-5)) (zint 0) = zint 0 /\
  b_rem (zint (-4)) (zint 2) = Ok (BI [0] true) /\ b_div (zint 0) (zint (-3)) = Ok (zint 0) /\
  b_from_str (str "-0") = Some (zint 0).
Proof. repeat split; reflexivity. Qed.
Print Assumptions C32_negative_zero_refuted.
Print Assumptions C32_negative_zero_quotient_refuted.
Print Assumptions C32_canonical_results_partial.
Print Assumptions C32_quotient_partial.
Print Assumptions C32_parse_partial.

(** ** C33
    Full claim: [rem_euclid] in [0, |n|) congruent to [a], [div_euclid] the
    quotient.  False when a negative [a] is a multiple of [n] (a consequence of
    the negative zero of C32), and [1.div_euclid(-2)] is a negative zero. *)
Theorem C33_rem_euclid_refuted : exists x n r, bcanon x /\ bcanon n /\ bvalue n <> 0 /\
  b_rem_euclid x n = Ok r /\ ~ bvalue r < Z.abs (bvalue n).
Proof.
  exists (zint (-4)), (zint 2), (zint 2). split; [apply bcanon_zint|]. split; [apply bcanon_zint|].
  split; [discriminate|]. split; [reflexivity|]. rewrite !bvalue_zint. lia.
Qed.
Theorem C33_div_euclid_refuted : exists x n q, bcanon x /\ bcanon n /\ bvalue n <> 0 /\
  b_div_euclid x n = Ok q /\ bvalue x - bvalue n * bvalue q <> bvalue x mod Z.abs (bvalue n).
Proof.
  exists (zint (-4)), (zint 2), (zint (-3)). split; [apply bcanon_zint|]. split; [apply bcanon_zint|].
  split; [discriminate|]. split; [reflexivity|]. rewrite !bvalue_zint. discriminate.
Qed.
Theorem C33_euclid_partial : forall x y a n, is_int x a -> is_int y n -> n <> 0 ->
  0 <= a \/ a mod Z.abs n <> 0 ->
  exists r q, b_rem_euclid x y = Ok r /\ is_int r (a mod Z.abs n) /\
    b_div_euclid x y = Ok q /\ bvalue q * n + a mod Z.abs n = a.
Proof.
  intros x y a n Hx Hy Hn Ha. ints. rewrite zint_rem_euclid by auto.
  assert (F : (a <? 0) && (a mod Z.abs n =? 0) = false).
  { destruct (Z.ltb_spec a 0), (Z.eqb_spec (a mod Z.abs n) 0); try reflexivity; lia. }
  rewrite F.
  assert (Q : exists q, b_div_euclid (zint a) (zint n) = Ok q /\ bvalue q * n + a mod Z.abs n = a).
  { destruct (Z_lt_dec 0 a) as [P|P]; [destruct (Z_lt_dec a (- n)) as [P2|P2]|].
    - rewrite b_div_euclid_negzero by lia. eexists. split; [reflexivity|].
      change (bvalue (BI [0] true)) with 0. rewrite Z.mod_small; lia.
    - rewrite zint_div_euclid by lia. eexists. split; [reflexivity|]. rewrite bvalue_zint.
      destruct (Z.ltb_spec a 0); [lia|]. pose proof (Z.quot_rem' a n) as QR.
      rewrite <- (rem_nonneg_mod a n) by lia. lia.
    - rewrite zint_div_euclid by lia. eexists. split; [reflexivity|]. rewrite bvalue_zint.
      pose proof (Z.quot_rem' a n) as QR. destruct (Z.ltb_spec a 0) as [L|L].
      + pose proof (neg_mod_abs a n Hn L) as NM. destruct (Z.eqb_spec (a mod Z.abs n) 0); [lia|].
        rewrite <- NM. pose proof (rem_abs_cases a n Hn) as RC. destruct (Z.ltb_spec a 0); [|lia].
        pose proof (Z.sgn_abs n). rewrite Z.mul_sub_distr_r. lia.
      + rewrite <- (rem_nonneg_mod a n) by lia. lia. }
  destruct Q as (q & E1 & E2). eexists _, q. split; [reflexivity|]. split; [apply is_int_zint|]. auto.
Qed.
Example C33_case : b_rem_euclid (zint (-7)) (zint 2) = Ok (zint 1) /\ b_div_euclid (zint (-7)) (zint 2) = Ok (zint (-4)) /\
  b_rem_euclid (zint (-7)) (zint (-2)) = Ok (zint 1) /\ b_div_euclid (zint (-7)) (zint (-2)) = Ok (zint 4).
Proof. repeat split; reflexivity. Qed.
Print Assumptions C33_rem_euclid_refuted.
Print Assumptions C33_div_euclid_refuted.
Print Assumptions C33_euclid_partial.

(** ** C34
    Full claim: all five operations are the two's complement ones.  True of
    [&], [^] and the value of [!]; [|] is wrong when the signs differ,
    [and_not] swaps its operands when both are negative, and [!] of
    -2^(32k) keeps a zero top word. *)
Theorem C34_or_refuted : exists x y, bcanon x /\ bcanon y /\ bvalue (b_or x y) <> Z.lor (bvalue x) (bvalue y).
Proof.
  exists (zint 4), (zint (-1)). split; [apply bcanon_zint|]. split; [apply bcanon_zint|].
  rewrite !bvalue_zint. discriminate.
Qed.
Theorem C34_and_not_refuted : exists x y, bcanon x /\ bcanon y /\ bvalue (b_and_not x y) <> Z.ldiff (bvalue x) (bvalue y).
Proof.
  exists (zint (-1)), (zint (-2)). split; [apply bcanon_zint|]. split; [apply bcanon_zint|].
  rewrite !bvalue_zint. discriminate.
Qed.
Theorem C34_not_refuted : exists x, bcanon x /\ ~ bcanon (b_not x).
Proof.
  exists (zint (- 2 ^ 32)). split; [apply bcanon_zint|]. intros [C _].
  assert (E : bnat (b_not (zint (- 2 ^ 32))) = [4294967295; 0]) by reflexivity. rewrite E in C.
  revert C. apply NatFacts5.not_canon; reflexivity.
Qed.
Theorem C34_and_xor_partial : forall x y a b, is_int x a -> is_int y b ->
  is_int (b_and x y) (Z.land a b) /\ is_int (b_xor x y) (Z.lxor a b).
Proof. intros. ints. rewrite zint_and, zint_xor. auto using is_int_zint. Qed.
Theorem C34_or_partial : forall x y a b, is_int x a -> is_int y b ->
  (0 <= a /\ 0 <= b) \/ (a < 0 /\ b < 0) -> is_int (b_or x y) (Z.lor a b).
Proof.
  intros. ints. rewrite zint_or_same; [apply is_int_zint|].
  destruct (Z.ltb_spec a 0), (Z.ltb_spec b 0); try reflexivity; lia.
Qed.
Theorem C34_and_not_partial : forall x y a b, is_int x a -> is_int y b -> 0 <= a \/ 0 <= b ->
  is_int (b_and_not x y) (Z.ldiff a b).
Proof. intros. ints. rewrite zint_and_not by lia. apply is_int_zint. Qed.
Theorem C34_not_partial : forall x a, is_int x a ->
  int_value (b_not x) (Z.lnot a) /\ (0 <= a -> is_int (b_not x) (Z.lnot a)).
Proof.
  intros. ints. destruct (b_not_spec a) as (l & s & E & H1 & H2 & H3 & H4). rewrite E.
  split; [split; auto|]. intros Ha. apply is_int_iff. auto.
Qed.
(** What the two wrong branches compute instead. *)
Theorem C34_wrong_branches_partial : forall x y a b, is_int x a -> is_int y b -> a < 0 ->
  (b < 0 -> is_int (b_and_not x y) (Z.ldiff b a)) /\
  (0 <= b -> is_int (b_or x y) (Z.lnot (Z.ldiff b (Z.lnot a))) /\ is_int (b_or y x) (Z.lnot (Z.ldiff b (Z.lnot a)))).
Proof.
  intros x y a b Hx Hy Ha. ints. split; intros Hb.
  - rewrite zint_and_not_negs by auto. apply is_int_zint.
  - rewrite (proj2 (zint_or_mixed b a Hb Ha)), (proj1 (zint_or_mixed b a Hb Ha)). split; apply is_int_zint.
Qed.
Example C34_case : b_and (zint (- 2 ^ 40)) (zint (2 ^ 45 + 5)) = zint (2 ^ 45) /\
  b_xor (zint (-5)) (zint 3) = zint (-8) /\ b_or (zint (-4)) (zint (-7)) = zint (-3) /\
  b_not (zint 7) = zint (-8) /\ b_or (zint 4) (zint (-1)) = zint (-5).
Proof. repeat split; reflexivity. Qed.
Print Assumptions C34_or_refuted.
Print Assumptions C34_and_not_refuted.
Print Assumptions C34_not_refuted.
Print Assumptions C34_and_xor_partial.
Print Assumptions C34_or_partial.
Print Assumptions C34_and_not_partial.
Print Assumptions C34_not_partial.
Print Assumptions C34_wrong_branches_partial.

(** ** C35
    Full claim: [<<] multiplies and [>>] divides rounding down.  [<<] has the
    right value always; [0 << 32] is not canonical; [>>] inherits the word loop
    of C08. *)
Theorem C35_shr_refuted : exists x k, bcanon x /\ 0 <= k /\ bvalue (b_shr x k) <> bvalue x / 2 ^ k.
Proof.
  exists (zint (2 ^ 32)), 32. split; [apply bcanon_zint|]. split; [lia|]. discriminate.
Qed.
Theorem C35_shr_negative_refuted : exists x k, bcanon x /\ bvalue x < 0 /\ 0 <= k /\ bvalue (b_shr x k) <> bvalue x / 2 ^ k.
Proof.
  exists (zint (- 2 ^ 33)), 32. split; [apply bcanon_zint|]. split; [reflexivity|]. split; [lia|]. discriminate.
Qed.
Theorem C35_shl_refuted : exists x k, bcanon x /\ 0 <= k /\ ~ bcanon (b_shl x k).
Proof.
  exists (zint 0), 32. split; [apply bcanon_zint|]. split; [lia|]. intros [C _].
  assert (E : bnat (b_shl (zint 0) 32) = [0; 0]) by reflexivity. rewrite E in C.
  revert C. apply NatFacts5.not_canon; reflexivity.
Qed.
Theorem C35_shl_partial : forall x n k, is_int x n -> 0 <= k ->
  int_value (b_shl x k) (n * 2 ^ k) /\ (n <> 0 -> is_int (b_shl x k) (n * 2 ^ k)).
Proof.
  intros. ints. split; [apply b_shl_value; auto|]. intros. rewrite b_shl_zint by auto. apply is_int_zint.
Qed.
Theorem C35_shr_partial : forall x n k, is_int x n -> 0 <= k ->
  (if n <? 0 then shr_exact_neg (- n) k else shr_exact n k) -> is_int (b_shr x k) (n / 2 ^ k).
Proof.
  intros x n k Hx Hk H. ints. destruct (Z.ltb_spec n 0).
  - rewrite zint_shr_neg by auto. apply is_int_zint.
  - rewrite zint_shr_nonneg by auto. apply is_int_zint.
Qed.
(** In particular every shift by less than a word is right. *)
Theorem C35_shr_small_partial : forall x n k, is_int x n -> 0 <= k < 32 -> is_int (b_shr x k) (n / 2 ^ k).
Proof.
  intros x n k Hx Hk. apply C35_shr_partial; [auto|lia|].
  destruct (n <? 0); left; lia.
Qed.
Example C35_case : b_shr (zint (-5)) 1 = zint (-3) /\ b_shl (zint (-5)) 33 = zint (-5 * 2 ^ 33) /\
  b_shr (zint (- 2 ^ 70)) 35 = zint (- 2 ^ 35) /\ shr_exact_neg (2 ^ 70) 35 /\ b_shr (zint (2 ^ 32)) 32 = zint 0.
Proof.
  split; [reflexivity|]. split; [reflexivity|]. split; [reflexivity|]. split; [|reflexivity].
  right. right. split; [discriminate|reflexivity].
Qed.
Print Assumptions C35_shr_refuted.
Print Assumptions C35_shr_negative_refuted.
Print Assumptions C35_shl_refuted.
Print Assumptions C35_shl_partial.
Print Assumptions C35_shr_partial.
Print Assumptions C35_shr_small_partial.

(** ** C36 *)
Theorem C36_compare : forall x y a b, is_int x a -> is_int y b ->
  b_cmp x y = Some (a ?= b) /\ b_eq x y = (a =? b) /\
  b_lt x y = (a <? b) /\ b_gt x y = (a >? b) /\ b_ge x y = (a >=? b) /\
  b_is_negative x = (a <? 0) /\ b_is_positive x = (0 <? a) /\ b_signnum x = Some (Z.sgn a).
Proof.
  intros. ints. rewrite zint_cmp, zint_eq, zint_lt, zint_gt, zint_ge, zint_is_negative, zint_is_positive.
  repeat (split; [reflexivity|]). unfold b_signnum. rewrite zint_not_nan, zint_neg, zint_nat, of_Z_eq_u32 by lia.
  destruct (Z.ltb_spec a 0), (Z.eqb_spec (Z.abs a) 0); f_equal; lia.
Qed.
Theorem C36_compare_nan : forall x y, b_is_nan x = true \/ b_is_nan y = true ->
  b_cmp x y = None /\ b_lt x y = false /\ b_gt x y = false /\ b_ge x y = false.
Proof.
  intros x y H. assert (E : b_cmp x y = None).
  { unfold b_cmp. destruct H as [-> | ->]; [reflexivity|]. rewrite orb_true_r. reflexivity. }
  unfold b_lt, b_gt, b_ge. rewrite E. auto.
Qed.
Example C36_case : b_cmp (zint (- 2 ^ 40)) (zint (- 2 ^ 41)) = Some Gt /\ b_cmp (zint (-1)) (zint 0) = Some Lt /\
  b_cmp b_nan (zint 0) = None /\ b_eq (BI [5; 7] true) (BI [5; 7] false) = false.
Proof. repeat split; reflexivity. Qed.
Print Assumptions C36_compare.
Print Assumptions C36_compare_nan.

(** ** C37 *)
Theorem C37_gcd_bezout : forall x y a b, is_int x a -> is_int y b ->
  exists d u v s t, b_gcd x y = Ok (d, u, v) /\ is_int d (Z.gcd a b) /\ is_int u s /\ is_int v t /\
    a * s + b * t = Z.gcd a b.
Proof.
  intros x y a b Hx Hy. ints. destruct (b_gcd_spec a b) as (s & t & E & BZ & _).
  exists (zint (Z.gcd a b)), (zint s), (zint t), s, t. auto using is_int_zint.
Qed.
Theorem C37_gcd_nan : forall x y, b_is_nan x = true \/ b_is_nan y = true -> b_gcd x y = Ok (b_nan, b_nan, b_nan).
Proof. intros x y [E|E]; unfold b_gcd; rewrite E; [reflexivity|]. rewrite orb_true_r. reflexivity. Qed.
Example C37_case : b_gcd (zint (-12)) (zint 18) = Ok (zint 6, zint 1, zint 1) /\
  b_gcd (zint (2 ^ 64)) (zint (6 * 2 ^ 40)) = Ok (zint (2 ^ 41), zint (-1), zint 2796203).
Proof. vm_compute. repeat split. Qed.
Print Assumptions C37_gcd_bezout.
Print Assumptions C37_gcd_nan.

(** ** C38
    Full claim: also NaN when not coprime.  False: the Bezout coefficient is
    returned without looking at the gcd. *)
Theorem C38_not_coprime_refuted : exists x n r, bcanon x /\ bcanon n /\ Z.gcd (bvalue x) (bvalue n) <> 1 /\
  b_mod_inverse x n = Ok r /\ b_is_nan r = false.
Proof.
  exists (zint 2), (zint 4), (zint 1). split; [apply bcanon_zint|]. split; [apply bcanon_zint|].
  split; [discriminate|]. split; reflexivity.
Qed.
Theorem C38_inverse_partial : forall x y a n, is_int x a -> is_int y n -> n <> 0 -> Z.gcd a n = 1 ->
  exists r v, b_mod_inverse x y = Ok r /\ is_int r v /\ 0 <= v < Z.abs n /\ (a * v) mod Z.abs n = 1 mod Z.abs n.
Proof.
  intros x y a n Hx Hy Hn Hg. ints. destruct (b_mod_inverse_spec a n Hn) as (v & E & B & C). rewrite Hg in C.
  exists (zint v), v. auto using is_int_zint.
Qed.
(** In the other case it solves [a r = gcd(a, n)]. *)
Theorem C38_gcd_partial : forall x y a n, is_int x a -> is_int y n -> n <> 0 ->
  exists r v, b_mod_inverse x y = Ok r /\ is_int r v /\ 0 <= v < Z.abs n /\
    (a * v) mod Z.abs n = Z.gcd a n mod Z.abs n.
Proof.
  intros x y a n Hx Hy Hn. ints. destruct (b_mod_inverse_spec a n Hn) as (v & E & B & C).
  exists (zint v), v. auto using is_int_zint.
Qed.
Example C38_case : b_mod_inverse (zint (-3)) (zint 11) = Ok (zint 7) /\ b_mod_inverse (zint 3) (zint (- 2 ^ 33)) = Ok (zint 2863311531) /\
  b_mod_inverse (zint 2) (zint 4) = Ok (zint 1).
Proof. vm_compute. repeat split. Qed.
Print Assumptions C38_not_coprime_refuted.
Print Assumptions C38_inverse_partial.
Print Assumptions C38_gcd_partial.

(** ** C39
    Full claim: for every [b].  False for every negative [b] with a solution:
    the result is always None. *)
Theorem C39_negative_refuted : exists a b n, bcanon a /\ bcanon b /\ bcanon n /\ bvalue n <> 0 /\
  b_solve a b n = Ok None /\ exists z, (bvalue a * z) mod bvalue n = bvalue b mod bvalue n.
Proof.
  exists (zint 2), (zint (-4)), (zint 6). do 3 (split; [apply bcanon_zint|]). split; [discriminate|].
  split; [reflexivity|]. exists 1. rewrite !bvalue_zint. reflexivity.
Qed.
Theorem C39_solutions_partial : forall x y z a b n, is_int x a -> is_int y b -> is_int z n -> n <> 0 -> 0 <= b ->
  exists r, b_solve x y z = Ok r /\
  match r with
  | Some l => exists vs, Forall2 is_int l vs /\ NoDup vs /\
      forall v, In v vs <-> 0 <= v < Z.abs n /\ (a * v) mod Z.abs n = b mod Z.abs n
  | None => forall v, (a * v) mod Z.abs n <> b mod Z.abs n
  end.
Proof.
  intros x y z a b n Hx Hy Hz Hn Hb. ints. destruct (b_solve_spec a b n Hn Hb) as (r & E & H). exists r. split; [auto|].
  destruct r as [l|]; [|auto]. destruct H as (zs & -> & H1 & H2). exists zs. split; [|auto].
  clear. induction zs; constructor; auto using is_int_zint.
Qed.
Theorem C39_negative_partial : forall x y z a b n, is_int x a -> is_int y b -> is_int z n -> n <> 0 -> b < 0 ->
  b_solve x y z = Ok None.
Proof. intros. ints. apply b_solve_negative; auto. Qed.
Example C39_case : b_solve (zint 14) (zint 30) (zint 100) = Ok (Some [zint 95; zint 45]) /\
  b_solve (zint 2) (zint 3) (zint 4) = Ok None /\ b_solve (zint (-2)) (zint 0) (zint 4) = Ok (Some [zint 0; zint 2]).
Proof. vm_compute. repeat split. Qed.
Print Assumptions C39_negative_refuted.
Print Assumptions C39_solutions_partial.
Print Assumptions C39_negative_partial.

(** ** C40
    Full claim: for every i64 pair.  With overflow checks (debug build)
    [mul_range(i64::MIN, -1)] panics; without them [binomial(i64::MAX, 0)] is 0
    instead of 1.  [i64_range], [checks]: see BigInt.v. *)
Theorem C40_mul_range_refuted : exists a b, i64_range a /\ i64_range b /\ b_mul_range true a b = Panic.
Proof. exists (- 2 ^ 63), (-1). split; [split; discriminate || reflexivity|]. split; [split; discriminate || reflexivity|reflexivity]. Qed.
Theorem C40_binomial_refuted : b_binomial false (2 ^ 63 - 1) 0 = Ok (zint 0) /\ b_binomial true (2 ^ 63 - 1) 0 = Panic.
Proof. split; reflexivity. Qed.
Theorem C40_mul_range_partial : forall checks a b, i64_range a -> i64_range b ->
  checks = false \/ b < a \/ 0 <= b \/ - 2 ^ 63 < a ->
  exists r, b_mul_range checks a b = Ok r /\ is_int r (prod_from a (Z.to_nat (b - a + 1))).
Proof. intros. eexists. split; [apply b_mul_range_spec; auto|apply is_int_zint]. Qed.
Theorem C40_binomial_partial : forall checks n k, 0 <= k <= n -> n < 2 ^ 63 - 1 ->
  exists r c, b_binomial checks n k = Ok r /\ is_int r c /\
    c * (fact (Z.to_nat k) * fact (Z.to_nat (n - k))) = fact (Z.to_nat n).
Proof.
  intros checks n k Hk Hn. eexists _, _. split; [apply b_binomial_spec; unfold i64_range; lia|].
  split; [apply is_int_zint|].
  destruct (fact_falling (Z.to_nat k) n) as [v Hv]. pose proof (fact_pos (Z.to_nat k)).
  pose proof (falling_fact (Z.to_nat n) (Z.to_nat k) ltac:(lia)) as F. rewrite Z2Nat.id in F by lia.
  replace (Z.to_nat n - Z.to_nat k)%nat with (Z.to_nat (n - k)) in F by lia.
  rewrite Hv in *. rewrite Z.div_mul by lia. lia.
Qed.
(** Outside the triangle: 0 for [k > n >= 0], and for negative [n] the
    generalised coefficient [n (n-1) ... (n-k+1) / k!]. *)
Theorem C40_binomial_general_partial : forall checks n k, - 2 ^ 62 < n < 2 ^ 62 -> 0 <= k < 2 ^ 62 ->
  exists r c, b_binomial checks n k = Ok r /\ is_int r c /\ c * fact (Z.to_nat k) = falling n (Z.to_nat k).
Proof.
  intros checks n k Hn Hk. change (2 ^ 62) with 4611686018427387904 in *.
  eexists _, _. split; [apply b_binomial_spec; unfold i64_range; change (2 ^ 63) with 9223372036854775808; lia|].
  split; [apply is_int_zint|].
  destruct (fact_falling (Z.to_nat k) n) as [v Hv]. pose proof (fact_pos (Z.to_nat k)).
  rewrite Hv, Z.div_mul by lia. reflexivity.
Qed.
Example C40_case : b_mul_range true (-3) (-1) = Ok (zint (-6)) /\ b_mul_range true 5 20 = Ok (zint (prod_from 5 16)) /\
  b_mul_range true (-3) 3 = Ok (zint 0) /\ b_binomial true 50 25 = Ok (zint 126410606437752) /\
  b_binomial true 10 7 = Ok (zint 120) /\ b_binomial true (-2) 3 = Ok (zint (-4)) /\ prod_from 5 3 = 210.
Proof. vm_compute. repeat split. Qed.
Print Assumptions C40_mul_range_refuted.
Print Assumptions C40_binomial_refuted.
Print Assumptions C40_mul_range_partial.
Print Assumptions C40_binomial_partial.
Print Assumptions C40_binomial_general_partial.

(** ** C41
    Full claim: also for every negative exponent.  A negative base with an odd
    negative exponent gives the negated result; a base that is not coprime to
    the modulus does not give NaN (C38).  Release build ([checks = false]); the
    overflow panics of the debug build are the subject of C68.  In Coq
    [x mod 0 = x], so the first theorem covers n = 0 too. *)
Theorem C41_negative_exponent_refuted : exists x b n r, bcanon x /\ bcanon b /\ bcanon n /\
  bvalue x = -2 /\ bvalue b = -1 /\ bvalue n = 5 /\ b_exp false x b n = Ok r /\
  (bvalue x * bvalue r) mod bvalue n <> 1.
Proof.
  exists (zint (-2)), (zint (-1)), (zint 5), (zint 3). do 3 (split; [apply bcanon_zint|]).
  do 3 (split; [reflexivity|]). split; [vm_compute; reflexivity|discriminate].
Qed.
Theorem C41_not_coprime_refuted : exists x b n r, bcanon x /\ bcanon b /\ bcanon n /\
  Z.gcd (bvalue x) (bvalue n) <> 1 /\ bvalue b < 0 /\ b_exp false x b n = Ok r /\ b_is_nan r = false.
Proof.
  exists (zint 2), (zint (-1)), (zint 4), (zint 1). do 3 (split; [apply bcanon_zint|]).
  split; [discriminate|]. split; [reflexivity|]. split; [vm_compute; reflexivity|reflexivity].
Qed.
Theorem C41_exp_partial : forall x y z a b n, is_int x a -> is_int y b -> is_int z n -> 0 <= b ->
  exists r, b_exp false x y z = Ok r /\ is_int r (a ^ b mod Z.abs n).
Proof. intros. ints. eexists. split; [apply b_exp_nonneg; auto|apply is_int_zint]. Qed.
Theorem C41_exp_inverse_partial : forall x y z a b n, is_int x a -> is_int y b -> is_int z n -> b < 0 -> n <> 0 ->
  Z.gcd a n = 1 -> 0 <= a \/ Z.even b = true ->
  exists r v, b_exp false x y z = Ok r /\ is_int r v /\ 0 <= v < Z.abs n /\
    (a ^ (- b) * v) mod Z.abs n = 1 mod Z.abs n.
Proof.
  intros x y z a b n Hx Hy Hz Hb Hn Hg Hs. ints. destruct (b_exp_inverse a b n Hb Hn Hg Hs) as (v & E & B & C).
  exists (zint v), v. auto using is_int_zint.
Qed.
Theorem C41_exp_zero_modulus_partial : forall checks x y z a b, is_int x a -> is_int y b -> is_int z 0 -> b < 0 ->
  exists r, b_exp checks x y z = Ok r /\ is_int r 1.
Proof. intros. ints. eexists. split; [apply b_exp_neg_zero; auto|apply is_int_zint]. Qed.
Example C41_case : b_exp false (zint (-3)) (zint 5) (zint 7) = Ok (zint 2) /\
  b_exp false (zint 3) (zint (-2)) (zint (-7)) = Ok (zint 4) /\ b_exp false (zint (-3)) (zint 5) (zint 0) = Ok (zint (-243)).
Proof. vm_compute. repeat split. Qed.
Print Assumptions C41_negative_exponent_refuted.
Print Assumptions C41_not_coprime_refuted.
Print Assumptions C41_exp_partial.
Print Assumptions C41_exp_inverse_partial.
Print Assumptions C41_exp_zero_modulus_partial.

(** ** C44
    The documentation (bigint.rs:925) promises the ceiling; the code computes
    the floor. *)
Theorem C44_sqrt : forall x a, is_int x a -> 0 <= a ->
  exists r v, b_sqrt x = Ok r /\ is_int r v /\ 0 <= v /\ v * v <= a < (v + 1) * (v + 1).
Proof.
  intros x a Hx Ha. ints. rewrite b_sqrt_spec. destruct (Z.ltb_spec a 0); [lia|].
  exists (zint (Z.sqrt a)), (Z.sqrt a). split; [reflexivity|]. split; [apply is_int_zint|].
  pose proof (Z.sqrt_spec a Ha) as SP. unfold Z.succ in SP. split; [apply Z.sqrt_nonneg|exact SP].
Qed.
Theorem C44_sqrt_negative : forall x a, is_int x a -> a < 0 -> b_sqrt x = Ok b_nan.
Proof. intros x a Hx Ha. ints. rewrite b_sqrt_spec. destruct (Z.ltb_spec a 0); [reflexivity|lia]. Qed.
Theorem C44_sqrt_is_not_the_ceiling : exists x r, is_int x 2 /\ b_sqrt x = Ok r /\ is_int r 1.
Proof. exists (zint 2), (zint 1). split; [apply is_int_zint|]. split; [vm_compute; reflexivity|apply is_int_zint]. Qed.
Example C44_case : b_sqrt (zint (2 ^ 81)) = Ok (zint 1554944255987) /\ b_sqrt (zint 0) = Ok (zint 0) /\ b_sqrt (zint (-4)) = Ok b_nan.
Proof. vm_compute. repeat split. Qed.
Print Assumptions C44_sqrt.
Print Assumptions C44_sqrt_negative.
Print Assumptions C44_sqrt_is_not_the_ceiling.

(** ** C45 *)
Theorem C45_from_machine_integers : forall n,
  (0 <= n < 2 ^ 32 -> is_int (b_from_u32 n) n) /\ (0 <= n < 2 ^ 64 -> is_int (b_from_u64 n) n) /\
  (0 <= n < 2 ^ 128 -> is_int (b_from_u128 n) n) /\
  (- 2 ^ 31 <= n < 2 ^ 31 -> is_int (b_from_i32 n) n) /\ (- 2 ^ 63 <= n < 2 ^ 63 -> is_int (b_from_i64 n) n) /\
  (- 2 ^ 127 <= n < 2 ^ 127 -> is_int (b_from_i128 n) n).
Proof.
  intros n. split; [|split; [|split; [|split; [|split]]]]; intros H; apply is_int_iff.
  - apply zint_u32. auto.
  - unfold b_from_u64. rewrite from_u64_of_Z by auto. apply zint_intro; lia.
  - unfold b_from_u128. rewrite from_u128_of_Z by auto. apply zint_intro; lia.
  - apply from_signed_spec; [lia| |auto]. intros w Hw. unfold from_u32. symmetry. apply of_Z_small. exact Hw.
  - apply from_signed_spec; [lia|apply from_u64_of_Z|auto].
  - apply from_signed_spec; [lia|apply from_u128_of_Z|auto].
Qed.
Theorem C45_display : forall x n, is_int x n -> exists s t, b_fmt_display x = Ok t /\
  t = (if n <? 0 then str "-" else []) ++ s /\ lower_numeral 10 s (Z.abs n) /\ b_from_str t = Some x.
Proof.
  intros x n Hx. ints. unfold b_fmt_display. rewrite zint_nat.
  destruct (fmt_display_spec (of_Z (Z.abs n)) (abs_canon n)) as (s & E & N). rewrite E. cbn [bind].
  exists s, (b_sign_text (zint n) s). split; [reflexivity|]. split.
  { unfold b_sign_text. rewrite zint_is_negative. destruct (n <? 0); reflexivity. }
  rewrite abs_val in N. split; [apply lower_numeral_of; [lia|exact N]|]. apply b_from_str_signed.
  - destruct N as (ds & -> & Hok & _). apply (chr_range lchar 10); auto. intros d H. apply lchar_range. lia.
  - apply roundtrip_dec; [apply abs_canon|]. rewrite abs_val. auto.
Qed.
Theorem C45_parse_prefixed : forall x n, is_int x n ->
  b_from_str (b_fmt_lower_hex true x) = Some x /\ b_from_str (b_fmt_upper_hex true x) = Some x /\
  b_from_str (b_fmt_octal true x) = Some x /\ forall alt, b_from_str (b_fmt_binary alt x) = Some x.
Proof.
  intros x n Hx. ints. unfold b_fmt_lower_hex, b_fmt_upper_hex, b_fmt_octal, b_fmt_binary. rewrite zint_nat.
  pose proof (abs_canon n) as C. set (a := of_Z (Z.abs n)) in *.
  destruct (C15_parse_prefixed a C) as (P1 & P2 & P3 & P4).
  destruct (format_hex true a C) as [(s1 & E1 & ds1 & -> & K1 & _) (s2 & E2 & ds2 & -> & K2 & _)].
  destruct (format_binary true a C) as (s3 & E3 & ds3 & -> & K3 & _).
  destruct (fmt_octal_spec true a C) as (s4 & E4 & ds4 & -> & K4 & _).
  assert (R : forall chr base ds p, (forall d, 0 <= d < base -> 48 <= chr d <= 122) -> digits_ok base ds ->
    Forall (fun c => 48 <= c <= 122) p -> Forall (fun c => 48 <= c <= 122) (p ++ map chr ds)).
  { intros. apply Forall_app. split; [auto|]. apply (chr_range chr base); auto. }
  assert (RL : forall base d, base <= 16 -> 0 <= d < base -> 48 <= lchar d <= 122) by (intros; apply lchar_range; lia).
  repeat split.
  - apply b_from_str_signed; [|exact P1]. rewrite E1. apply (R lchar 16); auto; [intros; apply (RL 16); lia|].
    vm_compute; repeat constructor; discriminate.
  - apply b_from_str_signed; [|exact P2]. rewrite E2. apply (R uchar 16); auto; [intros; apply uchar_range; lia|].
    vm_compute; repeat constructor; discriminate.
  - apply b_from_str_signed; [|exact P4]. rewrite E4. apply (R lchar 8); auto; [intros; apply (RL 8); lia|].
    vm_compute; repeat constructor; discriminate.
  - intros _. apply b_from_str_signed; [|exact P3]. rewrite E3. apply (R lchar 2); auto; [intros; apply (RL 2); lia|].
    vm_compute; repeat constructor; discriminate.
Qed.
(** Every documented text, with an optional '-' in front, gives its value. *)
Theorem C45_parse_value : forall s t u base ds, ds <> [] -> numeral_text t base ds -> trimmed u t ->
  (trimmed s t -> exists v, b_from_str s = Some v /\ is_int v (be_value base ds)) /\
  (trimmed s (45 :: u) -> exists v, b_from_str s = Some v /\ is_int v (- be_value base ds)).
Proof.
  intros s t u base ds Hn Ht Hu.
  destruct (C14_parse_value_partial u t base ds Hu Ht Hn) as (v & E & [Cv Vv]).
  pose proof (of_Z_unique v _ Cv Vv) as ->. pose proof (canon_nonneg _ Cv) as V0.
  assert (E' : nat_from_str t = Some (of_Z (be_value base ds))).
  { rewrite <- E. pose proof (trimmed_idem u t Hu) as T.
    rewrite (nat_from_str_body _ _ Hu), (nat_from_str_body _ _ T). reflexivity. }
  rewrite Vv in V0. split; intros Hs; rewrite (b_from_str_eq _ _ Hs).
  - pose proof (numeral_not_minus t base ds Ht) as M. destruct t as [|c t]; [discriminate E'|]. cbn [hd] in M.
    destruct (Z.eqb_spec c 45); [contradiction|]. cbv zeta iota. rewrite E'.
    eexists. split; [reflexivity|]. apply is_int_iff. rewrite of_Z_eq_u32 by lia.
    destruct (be_value base ds =? 0); apply zint_intro; auto.
  - change (45 =? 45) with true. cbv zeta iota. rewrite E. eexists. split; [reflexivity|]. apply is_int_iff.
    rewrite of_Z_eq_u32 by lia. destruct (Z.eqb_spec (be_value base ds) 0); apply zint_intro; auto; lia.
Qed.
(** Every other text is refused. *)
Theorem C45_parse_rejects : forall s, 
  (forall t base ds, trimmed s t -> ~ numeral_text t base ds) ->
  (forall u t base ds, trimmed s (45 :: u) -> trimmed u t -> ~ numeral_text t base ds) ->
  b_from_str s = None.
Proof.
  intros s H1 H2. destruct (trimmed_exists s) as [t Ht]. rewrite (b_from_str_eq _ _ Ht).
  destruct t as [|c u]; [reflexivity|]. cbv zeta. destruct (Z.eqb_spec c 45) as [->|N].
  - rewrite (C14_parse_rejects_partial u); [reflexivity|]. intros t base ds Hu. apply (H2 u); auto.
  - rewrite (C14_parse_rejects_partial (c :: u)); [reflexivity|]. intros t base ds Hu. apply H1.
    replace t with (c :: u); [auto|]. rewrite <- (trim_ws_spec _ _ Hu). symmetry.
    apply trim_ws_spec, (trimmed_idem s). auto.
Qed.
Example C45_case : b_from_i64 (- 2 ^ 63) = BI [0; 2147483648] true /\
  b_from_str (str " -0x10") = Some (zint (-16)) /\ b_from_str (str "-0") = Some (zint 0) /\
  b_from_str (str "--1") = None /\ b_fmt_display (zint (- 2 ^ 64)) = Ok (str "-18446744073709551616").
Proof. vm_compute. repeat split. Qed.
Print Assumptions C45_from_machine_integers.
Print Assumptions C45_display.
Print Assumptions C45_parse_prefixed.
Print Assumptions C45_parse_value.
Print Assumptions C45_parse_rejects.

(** ** C46 *)
Theorem C46_is_set_bit : forall x n i, is_int x n -> 0 <= i ->
  exists o, b_is_set_bit x i = Ok o /\ match o with Some b => b = Z.testbit n i | None => True end.
Proof.
  intros x n i Hx Hi. ints. rewrite b_is_set_bit_spec by auto. eexists. split; [reflexivity|]. destruct (_ <=? i); auto.
Qed.
Theorem C46_is_set_bit_length : forall x n i, is_int x n -> 0 <= i ->
  (b_is_set_bit x i = Ok None <->
   i >= if n <? 0 then Z.max 1 (Z.log2 (- n - 1) + 1) else if n =? 0 then 1 else Z.log2 n + 1).
Proof.
  intros x n i Hx Hi. ints. rewrite b_is_set_bit_spec by auto. set (L := if n <? 0 then _ else _).
  destruct (Z.leb_spec L i); split; intros; auto; try discriminate; lia.
Qed.
Example C46_case : b_is_set_bit (zint (- 2 ^ 40)) 39 = Ok (Some false) /\ b_is_set_bit (zint (- 2 ^ 40)) 40 = Ok None /\
  b_is_set_bit (zint 5) 2 = Ok (Some true) /\ b_is_set_bit (zint (-1)) 0 = Ok (Some true).
Proof. vm_compute. repeat split. Qed.
Print Assumptions C46_is_set_bit.
Print Assumptions C46_is_set_bit_length.
