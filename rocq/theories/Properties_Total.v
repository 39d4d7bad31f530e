(** Total descriptions: what an operation does for every operand, with the
    cases in which it departs from the textbook written into the statement.
    C107 (Euclidean division of BigInts), C108 (bit operators of BigInts),
    C109 (linear congruences), C110 (comparison of Rats), C111 (Rats from
    floats), C112 (sums and differences of Floats), C113 (Floats to machine
    floats). *)
From Coq Require Import ZArith QArith Qabs Lqa List Lia Bool.
From Verif Require Import Words Spec WordsFacts NatModel NatFacts NatFacts2
  BigInt SpecInt BigIntFacts BigIntFacts3 BigIntFacts4 Properties_BigInt
  Ieee Rat SpecRat RatFacts RatFacts3 Properties_Rat
  Float SpecFloat FloatFacts FloatFacts3 FloatFacts4 FloatFacts5 FloatFacts6 Properties_Float Properties_FloatOut.
Import ListNotations.
Open Scope Z_scope.

(** ** C107
    [a = q n + r] with [0 <= r <= |n|]; [r] is [|n|] exactly for the negative
    multiples of [n]; a zero divisor panics. *)
Theorem C107_euclid : forall x y a n, is_int x a -> is_int y n -> n <> 0 ->
  exists r q k, b_rem_euclid x y = Ok r /\ b_div_euclid x y = Ok q /\ is_int r k /\ int_value q ((a - k) / n) /\
    a = (a - k) / n * n + k /\ 0 <= k <= Z.abs n /\ (k = Z.abs n <-> a < 0 /\ (n | a)).
Proof.
  intros x y a n Hx Hy Hn. ints. rewrite zint_rem_euclid by auto.
  remember (if (a <? 0) && (a mod Z.abs n =? 0) then Z.abs n else a mod Z.abs n) as k eqn:EK.
  pose proof (Z.mod_pos_bound a (Z.abs n)) as B. pose proof (Z.div_mod a (Z.abs n)) as D.
  assert (DV : (n | a) <-> a mod Z.abs n = 0).
  { rewrite <- Z.divide_abs_l. rewrite <- Z.mod_divide by lia. reflexivity. }
  assert (KD : exists j, a - k = j * n).
  { rewrite EK. destruct ((a <? 0) && (a mod Z.abs n =? 0)) eqn:F.
    - apply andb_prop in F. destruct F as [_ F]. apply Z.eqb_eq in F. apply DV in F. destruct F as [j F].
      exists (j - Z.sgn n). pose proof (Z.sgn_abs n). lia.
    - exists (a / Z.abs n * Z.sgn n). pose proof (Z.sgn_abs n). lia. }
  destruct KD as [j KD].
  assert (Q : exists q, b_div_euclid (zint a) (zint n) = Ok q /\ int_value q j).
  { destruct (Z_lt_dec 0 a) as [P|P]; [destruct (Z_lt_dec a (- n)) as [P2|P2]|].
    - exists (BI [0] true). split.
      + unfold b_div_euclid. rewrite b_rem_raw, b_div_raw by auto. cbn [bind].
        rewrite Z.mod_small, Z.div_small by lia. unfold b_is_negative, b_is_nan. cbn [bnat bneg]. rewrite is_nan_of_Z by lia.
        destruct (Z.ltb_spec a 0); [lia|]. cbn [negb andb]. destruct (Z.ltb_spec n 0); [|lia]. destruct (Z.eqb_spec a 0); [lia|]. reflexivity.
      + assert (k = a). { rewrite EK. destruct (Z.ltb_spec a 0); [lia|]. cbn [andb]. apply Z.mod_small. lia. }
        assert (j = 0) by nia. subst j. split; [|split; [discriminate|reflexivity]]. apply (of_Z_words 0). lia.
    - rewrite zint_div_euclid by lia. eexists. split; [reflexivity|].
      destruct (Z.ltb_spec a 0); [lia|]. assert (E : j = Z.quot a n).
      { assert (k = Z.rem a n). { rewrite EK. destruct (Z.ltb_spec a 0); [lia|]. cbn [andb]. rewrite Z.rem_mod, (Z.sgn_pos a), (Z.abs_eq a) by lia. lia. }
        pose proof (Z.quot_rem' a n). nia. }
      rewrite E. destruct (is_int_zint (Z.quot a n)) as [[C _] V]. split; [|split; auto]; apply C.
    - rewrite zint_div_euclid by lia. eexists. split; [reflexivity|].
      assert (E : j = if a <? 0 then Z.quot a n - Z.sgn n else Z.quot a n).
      { destruct (Z.ltb_spec a 0) as [L|L].
        - pose proof (Z.quot_rem' a n) as QR.
          assert (R : k = Z.rem a n + Z.abs n).
          { rewrite Z.rem_mod by lia. rewrite (Z.sgn_neg a), (Z.abs_neq a) by lia. rewrite EK. cbn [andb].
            destruct (Z.eqb_spec (a mod Z.abs n) 0) as [Z0|Z0].
            - rewrite Z_mod_zero_opp_full by auto. lia.
            - rewrite Z_mod_nz_opp_full by auto. lia. }
          pose proof (Z.sgn_abs n). nia.
        - assert (a = 0) by lia. subst a. assert (k = 0) by (rewrite EK; rewrite Z.mod_0_l by lia; reflexivity).
          rewrite Z.quot_0_l by auto. nia. }
      rewrite E. destruct (is_int_zint (if a <? 0 then Z.quot a n - Z.sgn n else Z.quot a n)) as [[C _] V]. split; [|split; auto]; apply C. }
  destruct Q as (q & EQ & IQ). exists (zint k), q, k. split; [reflexivity|]. split; [exact EQ|]. split; [apply is_int_zint|].
  rewrite KD, Z.div_mul by auto. split; [exact IQ|]. split; [lia|].
  rewrite EK. destruct (Z.ltb_spec a 0), (Z.eqb_spec (a mod Z.abs n) 0); cbn [andb]; split; try lia; split; intros H'; try lia; try tauto.
Qed.
Theorem C107_zero : forall x y, is_int y 0 -> b_rem_euclid x y = Panic /\ b_div_euclid x y = Panic.
Proof. intros. ints. unfold b_rem_euclid, b_div_euclid. rewrite b_rem_zero. split; reflexivity. Qed.
Example C107_case : b_rem_euclid (zint (-7)) (zint 3) = Ok (zint 2) /\ b_div_euclid (zint (-7)) (zint 3) = Ok (zint (-3)) /\
  b_rem_euclid (zint (-6)) (zint 3) = Ok (zint 3) /\ b_div_euclid (zint (-6)) (zint 3) = Ok (zint (-3)) /\
  b_rem_euclid (zint 7) (zint (-3)) = Ok (zint 1) /\ b_div_euclid (zint 7) (zint (-3)) = Ok (zint (-2)).
Proof. vm_compute. repeat split. Qed.
Print Assumptions C107_euclid.
Print Assumptions C107_zero.

(** ** C108
    Bit [i] of the result for every pair of integers, in two's complement.  The
    two departures: [|] of operands of different sign is the complement of
    their [&], and [and_not] of two negative numbers takes its operands in the
    other order. *)
Definition or_bit (differ p q : bool) : bool := if differ then negb (p && q) else p || q.
Definition and_not_bit (negs p q : bool) : bool := if negs then q && negb p else p && negb q.
Theorem C108_bits : forall x y a b, is_int x a -> is_int y b ->
  exists c d e f g, is_int (b_and x y) c /\ is_int (b_xor x y) d /\ is_int (b_or x y) e /\ is_int (b_and_not x y) f /\ int_value (b_not x) g /\
  forall i, 0 <= i -> let p := Z.testbit a i in let q := Z.testbit b i in
    Z.testbit c i = p && q /\ Z.testbit d i = xorb p q /\
    Z.testbit e i = or_bit (xorb (a <? 0) (b <? 0)) p q /\
    Z.testbit f i = and_not_bit ((a <? 0) && (b <? 0)) p q /\
    Z.testbit g i = negb p.
Proof.
  intros x y a b Hx Hy. pose proof (proj1 (C34_not_partial x a Hx)) as N. ints. rewrite zint_and, zint_xor.
  exists (Z.land a b), (Z.lxor a b), (if xorb (a <? 0) (b <? 0) then Z.lnot (Z.land a b) else Z.lor a b),
    (if (a <? 0) && (b <? 0) then Z.ldiff b a else Z.ldiff a b), (Z.lnot a).
  split; [apply is_int_zint|]. split; [apply is_int_zint|].
  assert (ML : forall u v, Z.lnot (Z.ldiff u (Z.lnot v)) = Z.lnot (Z.land u v)).
  { intros u v. f_equal. rewrite Z.ldiff_land, Z.lnot_involutive. reflexivity. }
  split; [|split; [|split; [exact N|]]].
  - destruct (Z.ltb_spec a 0) as [A|A], (Z.ltb_spec b 0) as [B|B]; cbn [xorb].
    + rewrite zint_or_same; [apply is_int_zint|]. rewrite !(proj2 (Z.ltb_lt _ _)) by auto. reflexivity.
    + rewrite (proj2 (zint_or_mixed b a B A)), ML, Z.land_comm. apply is_int_zint.
    + rewrite (proj1 (zint_or_mixed a b A B)), ML. apply is_int_zint.
    + rewrite zint_or_same; [apply is_int_zint|]. rewrite !(proj2 (Z.ltb_ge _ _)) by auto. reflexivity.
  - destruct (Z.ltb_spec a 0) as [A|A], (Z.ltb_spec b 0) as [B|B]; cbn [andb];
      [rewrite zint_and_not_negs by auto|rewrite zint_and_not by lia..]; apply is_int_zint.
  - intros i Hi. cbv zeta. rewrite Z.land_spec, Z.lxor_spec, (Z.lnot_spec a) by auto. split; [reflexivity|]. split; [reflexivity|].
    split; [|split; [|reflexivity]].
    + unfold or_bit. destruct (xorb _ _); [rewrite Z.lnot_spec, Z.land_spec by auto|rewrite Z.lor_spec]; reflexivity.
    + unfold and_not_bit. destruct (_ && _); rewrite Z.ldiff_spec; reflexivity.
Qed.
Example C108_case : b_or (zint 6) (zint (-6)) = zint (-3) /\ Z.lor 6 (-6) = -2 /\ Z.land 6 (-6) = 2 /\
  b_and_not (zint (-3)) (zint (-2)) = zint (Z.ldiff (-2) (-3)) /\ b_and_not (zint 13) (zint (-7)) = zint 4 /\
  b_xor (zint (-13)) (zint 7) = zint (-12).
Proof. vm_compute. repeat split. Qed.
Print Assumptions C108_bits.

(** ** C109
    [solve_mod_linear_equation]: with a modulus other than zero it never panics;
    it returns [None] exactly when there is no solution or [b] is negative, and
    otherwise every solution exactly once, [gcd a n] of them. *)
Lemma solve_count a b n l : n <> 0 -> 0 <= b -> b_solve (zint a) (zint b) (zint n) = Ok (Some l) -> Z.of_nat (length l) = Z.gcd a n.
Proof.
  intros Hn Hb. unfold b_solve. rewrite !zint_clone, !zint_not_nan, !zint_is_negative, zint_abs. cbn [orb].
  assert (EN : (if n <? 0 then zint (Z.abs n) else zint n) = zint (Z.abs n)) by (destruct (Z.ltb_spec n 0); f_equal; lia).
  rewrite EN. set (m := Z.abs n). assert (Hm : 0 < m) by lia. assert (MM : Z.abs m = m) by lia.
  set (g := if a <? 0 then (if a mod m =? 0 then m else a mod m) else a).
  assert (Eg : (if a <? 0 then b_rem_euclid (zint a) (zint m) else Ok (zint a)) = Ok (zint g)).
  { unfold g. destruct (Z.ltb_spec a 0) as [L|L]; [|reflexivity].
    rewrite zint_rem_euclid, MM by lia. destruct (Z.ltb_spec a 0); [|lia]. reflexivity. }
  rewrite Eg. cbn [bind].
  assert (GE : Z.gcd g m = Z.gcd a n).
  { unfold m. rewrite Z.gcd_abs_r. unfold g. destruct (Z.ltb_spec a 0); [|reflexivity].
    destruct (Z.eqb_spec (a mod m) 0) as [E|E].
    - unfold m in *. apply Z.mod_divide in E; [|lia]. apply Z.divide_gcd_iff in E; [|lia].
      rewrite Z.gcd_abs_l, Z.gcd_diag. rewrite Z.gcd_abs_l, Z.gcd_comm in E. symmetry. exact E.
    - unfold m. rewrite <- (Z.gcd_abs_r (a mod Z.abs n) n), Z.gcd_mod by lia. rewrite Z.gcd_abs_l. apply Z.gcd_comm. }
  destruct (b_gcd_spec g m) as (x & y & E & BZ & _). rewrite E. cbn [bind]. rewrite GE in *. set (d := Z.gcd a n) in *.
  assert (GP : 0 < d). { pose proof (Z.gcd_nonneg a n). destruct (Z.eq_dec d 0) as [Z0|]; [|lia]. apply Z.gcd_eq_0_r in Z0. lia. }
  rewrite zint_u32, zint_gt, zint_eq by lia. replace (d >? 0) with true by (symmetry; apply Z.gtb_lt; lia).
  destruct (if b =? 0 then _ else _) as [[|]| |]; cbn [bind]; try discriminate.
  destruct (b_div (zint b) (zint d)) as [q| |]; cbn [bind]; try discriminate.
  destruct (b_rem_euclid (b_clone (b_mul (zint x) q)) (zint m)) as [x0| |]; cbn [bind]; try discriminate.
  destruct (b_div (b_clone (zint m)) (zint d)) as [nd| |]; cbn [bind]; try discriminate.
  rewrite zint_nat, Z.abs_eq, of_Z_val by lia.
  assert (LEN : forall fuel i l, 0 <= i -> Z.of_nat fuel = d - i -> solve_loop fuel (zint i) (zint d) x0 nd (zint m) = Ok l -> Z.of_nat (length l) = d - i).
  { induction fuel as [|fuel IH]; intros i l' Hi HF; cbn [solve_loop]; rewrite zint_lt.
    - replace (i <? d) with false by (symmetry; apply Z.ltb_ge; lia). intros [= <-]. cbn. lia.
    - replace (i <? d) with true by (symmetry; apply Z.ltb_lt; lia). destruct (b_rem_euclid (b_clone (b_add (b_clone x0) (b_mul (zint i) nd))) (zint m)) as [t| |]; cbn [bind]; try discriminate.
      change (b_from_u32 1) with (zint 1). rewrite zint_add. destruct (solve_loop fuel _ _ _ _ _) as [rest| |] eqn:ER; cbn [bind]; try discriminate.
      intros EL. assert (l' = t :: rest) as -> by congruence. apply IH in ER; [|lia|lia]. cbn [length]. lia. }
  destruct (solve_loop _ _ _ _ _ _) as [l0| |] eqn:ES; cbn [bind]; try discriminate. intros EL. assert (l0 = l) as <- by congruence.
  apply (LEN _ 0) in ES; lia.
Qed.
Theorem C109_solve : forall x y z a b n, is_int x a -> is_int y b -> is_int z n -> n <> 0 ->
  exists r, b_solve x y z = Ok r /\
    (r = None <-> b < 0 \/ forall v, (a * v) mod Z.abs n <> b mod Z.abs n) /\
    forall l, r = Some l -> exists vs, Forall2 is_int l vs /\ NoDup vs /\ Z.of_nat (length vs) = Z.gcd a n /\
      forall v, In v vs <-> 0 <= v < Z.abs n /\ (a * v) mod Z.abs n = b mod Z.abs n.
Proof.
  intros x y z a b n Hx Hy Hz Hn. destruct (Z_lt_le_dec b 0) as [B|B].
  - exists None. split; [eapply C39_negative_partial; eauto|]. split; [tauto|discriminate].
  - destruct (C39_solutions_partial x y z a b n Hx Hy Hz Hn B) as (r & E & S). exists r. split; [exact E|].
    destruct r as [l|].
    + destruct S as (vs & F2 & ND & S).
      assert (LEN : Z.of_nat (length vs) = Z.gcd a n).
      { assert (FL : length l = length vs) by (clear - F2; induction F2; cbn; congruence). rewrite <- FL. clear FL S ND F2. ints. eapply solve_count; eauto. }
      split.
      * split; [discriminate|]. intros [L|F]; [lia|]. exfalso. destruct vs as [|v vs].
        -- cbn [length] in LEN. symmetry in LEN. apply Z.gcd_eq_0_r in LEN. lia.
        -- destruct (proj1 (S v) (or_introl eq_refl)) as (_ & V). exact (F v V).
      * intros l' [= <-]. exists vs. auto.
    + split; [|discriminate]. split; [intros _; right; exact S|reflexivity].
Qed.
Example C109_case : b_solve (zint 14) (zint 30) (zint (-100)) = Ok (Some [zint 95; zint 45]) /\
  b_solve (zint 14) (zint (-70)) (zint 100) = Ok None /\ 14 * 45 mod 100 = -70 mod 100 /\ b_solve (zint 2) (zint 3) (zint 4) = Ok None.
Proof. vm_compute. repeat split. Qed.
Print Assumptions C109_solve.

(** ** C110
    Comparison of any two Rats that are not NaN: by value, and a zero with the
    minus sign is just below a zero without.  It is a total order, so sorting
    is well defined for all of them. *)
Definition signed_zero (x : rat) : bool := (nval (bnat (rnum x)) =? 0) && bneg (rnum x).
Definition rat_order (x y : rat) : comparison :=
  match (rvalue x ?= rvalue y)%Q with
  | Eq => match signed_zero x, signed_zero y with true, false => Lt | false, true => Gt | _, _ => Eq end
  | c => c
  end.
Theorem C110_compare : forall x y, ok_rat x -> ok_rat y ->
  r_cmp x y = Some (rat_order x y) /\ (r_eq x y = true <-> (rvalue x == rvalue y)%Q /\ signed_zero x = signed_zero y).
Proof.
  intros x y Hx Hy.
  assert (E : r_cmp x y = Some (rat_order x y)).
  { destruct (ok_rat_mk x Hx) as (s & m & t & n & Hm & Hn & ->). destruct (ok_rat_mk y Hy) as (s0 & m0 & t0 & n0 & Hm0 & Hn0 & ->).
    unfold rat_order, signed_zero. cbn [mk rnum bnat bneg]. rewrite !of_Z_val by lia.
    rewrite r_cmp_mk, !rvalue_mk by auto. f_equal. unfold Qcompare. cbn [Qnum Qden]. rewrite !Z2Pos.id by auto.
    unfold sgv. destruct s, s0; rewrite ?andb_true_r, ?andb_false_r.
    - replace (- m * n0 ?= - m0 * n) with (m0 * n ?= m * n0) by (rewrite !Z.mul_opp_l; symmetry; apply Z.compare_opp).
      destruct (Z.compare_spec (m0 * n) (m * n0)) as [C|C|C]; try reflexivity.
      destruct (Z.eqb_spec m 0), (Z.eqb_spec m0 0); try reflexivity; nia.
    - destruct (Z.compare_spec (- m * n0) (m0 * n)); try reflexivity; [|nia]. destruct (Z.eqb_spec m 0); [reflexivity|nia].
    - destruct (Z.compare_spec (m * n0) (- m0 * n)); try reflexivity; [|nia]. destruct (Z.eqb_spec m0 0); [reflexivity|nia].
    - destruct (m * n0 ?= m0 * n); reflexivity. }
  split; [exact E|]. unfold r_eq. rewrite E. unfold rat_order.
  destruct (Qcompare_spec (rvalue x) (rvalue y)) as [C|C|C]; destruct (signed_zero x), (signed_zero y);
    split; try discriminate; try tauto; intros (V & W'); try discriminate; exfalso; lra.
Qed.
Theorem C110_total_order :
  (forall x, rat_order x x = Eq) /\ (forall x y, rat_order y x = CompOpp (rat_order x y)) /\
  (forall x y z, rat_order x y <> Gt -> rat_order y z <> Gt -> rat_order x z <> Gt) /\
  (forall x y z, rat_order x y <> Gt -> rat_order y z <> Gt -> rat_order x y = Lt \/ rat_order y z = Lt -> rat_order x z = Lt).
Proof.
  unfold rat_order. split; [|split; [|split]].
  - intros x. destruct (Qcompare_spec (rvalue x) (rvalue x)); [destruct (signed_zero x); reflexivity|lra|lra].
  - intros x y. destruct (Qcompare_spec (rvalue x) (rvalue y)), (Qcompare_spec (rvalue y) (rvalue x)); try lra;
      try (destruct (signed_zero x), (signed_zero y); reflexivity); reflexivity.
  - intros x y z. destruct (Qcompare_spec (rvalue x) (rvalue y)), (Qcompare_spec (rvalue y) (rvalue z)), (Qcompare_spec (rvalue x) (rvalue z));
      try lra; try congruence; destruct (signed_zero x), (signed_zero y), (signed_zero z); congruence.
  - intros x y z. destruct (Qcompare_spec (rvalue x) (rvalue y)), (Qcompare_spec (rvalue y) (rvalue z)), (Qcompare_spec (rvalue x) (rvalue z));
      try lra; try congruence; destruct (signed_zero x), (signed_zero y), (signed_zero z); try congruence; intros ? ? [?|?]; congruence.
Qed.
Example C110_case : r_cmp (mk true 0 false 7) (mk false 0 false 2) = Some Lt /\ r_cmp (mk true 1 false 9) (mk true 0 false 7) = Some Lt /\
  r_cmp (mk true 2 false 4) (mk true 1 true 2) = Some Eq /\ r_cmp (mk true 0 false 7) (mk true 0 false 2) = Some Eq.
Proof. vm_compute. repeat split. Qed.
Print Assumptions C110_compare.
Print Assumptions C110_total_order.

(** ** C111
    [Rat::from(f64)] of every bit pattern: NaN for the infinities and NaNs; else
    the value of the float divided by [4 ^ e], [e] being the excess of the
    exponent field over 1075 - so exactly right below [2 ^ 53]. *)
Theorem C111_from_f64 : forall bits, 0 <= bits < 2 ^ 64 ->
  (~ f64_finite bits -> r_from_f64 bits = Ok r_nan) /\
  (f64_finite bits -> exists z, r_from_f64 bits = Ok z /\
     denotes z (f64_value bits / inject_Z (4 ^ Z.max 0 (f64_field bits - 1075)))).
Proof.
  intros bits H. split; [apply C50_not_finite; auto|]. intros [_ F]. apply finite_field in F; [|auto].
  destruct (Z_le_gt_dec (f64_field bits) 1075) as [L|L].
  - destruct (C50_from_f64_partial bits H L) as (_ & z & E & O & V). exists z. split; [exact E|]. split; [exact O|].
    rewrite Z.max_l, V by lia. change (inject_Z (4 ^ 0)) with 1%Q. field.
  - destruct (from_f64_large bits H ltac:(lia)) as (z & E & D & _). exists z. rewrite Z.max_r by lia. auto.
Qed.
Theorem C111_from_f32 : forall b, f32_finite b -> exists z e, r_from_f32 b = Ok z /\ 0 <= e /\ denotes z (f32_value b / inject_Z (4 ^ e)) /\
  (e = 0 <-> (Qabs (f32_value b) < inject_Z (2 ^ 53))%Q).
Proof.
  intros b F. destruct (C50_from_f32 b F) as (bits & E & FB & V). pose proof FB as [H _].
  destruct (proj2 (C111_from_f64 bits H) FB) as (z & EZ & O & VZ). exists z, (Z.max 0 (f64_field bits - 1075)).
  rewrite E. split; [exact EZ|]. split; [lia|]. split; [split; [exact O|rewrite VZ, V; reflexivity]|].
  rewrite <- V. rewrite <- (C50_range_partial bits FB). lia.
Qed.
(** The single patterns that are no number. *)
Theorem C111_f32_nan : forall b, finf 23 8 <= fmag 23 8 b -> r_from_f32 b = Ok r_nan.
Proof.
  intros b H. unfold r_from_f32, f64_of_f32, fcast, f_is_nan, f_is_inf. destruct (Z.ltb_spec (finf 23 8) (fmag 23 8 b)); [reflexivity|].
  rewrite (proj2 (Z.eqb_eq _ _)) by lia. destruct (fneg_bit 23 8 b); reflexivity.
Qed.
Example C111_case : r_from_f64 (f64_pow2 60) = Ok (mk false (2 ^ 44) false 1) /\ (f64_value (f64_pow2 60) / inject_Z (4 ^ 8) == inject_Z (2 ^ 44))%Q /\
  f64_field (f64_pow2 60) - 1075 = 8 /\ r_from_f64 4608308318706860032 = Ok (mk false 5 false 4).
Proof. vm_compute. repeat split. Qed.
Print Assumptions C111_from_f64.
Print Assumptions C111_from_f32.
Print Assumptions C111_f32_nan.

(** ** C112
    The sum and difference of any two Floats, whatever their forms, precisions
    and rounding modes.  [left_prec]: a receiver of precision 0 takes that of
    the other operand. *)
Definition left_prec (x y : float) : Z := if flprec x =? 0 then flprec y else flprec x.
(** The operand whose settings are used for finite operands: the right one when
    the magnitudes are subtracted and the left one is not the larger. *)
Definition rounds_as (apart : bool) (x y : float) : float :=
  if apart && Qle_bool (Qabs (flvalue x)) (Qabs (flvalue y)) then y else x.
Definition finite_sum (apart : bool) (x y : float) (s : Q) (z : float) : Prop :=
  let w := rounds_as apart x y in
  (~ (s == 0)%Q -> result_for (flmode w) (flprec w) s z) /\
  ((s == 0)%Q -> zero_result (flmode w) (flprec w) (toward_minus (flmode w)) z).
Definition keeps (x y z : float) : Prop := z = set_prec x (left_prec x y).
Definition inf_like (x y z : float) : Prop :=
  flform z = Inf /\ flneg z = flneg y /\ flmode z = flmode x /\ flprec z = left_prec x y /\ flacc z = Exact.
Lemma default_keeps x y : default_prec x y = set_prec x (left_prec x y).
Proof. unfold default_prec, left_prec. destruct (flprec x =? 0); [reflexivity|]. destruct x; reflexivity. Qed.
Lemma apart_true x y : Qle_bool (Qabs (flvalue x)) (Qabs (flvalue y)) = false -> (Qabs (flvalue y) < Qabs (flvalue x))%Q.
Proof. intros H. apply Qnot_le_lt. intros L. apply Qle_bool_iff in L. congruence. Qed.
Lemma set_inf x y : flform y = Inf -> exists z, set_float (set_prec x (left_prec x y)) y = Ok z /\ inf_like x y z.
Proof.
  intros F. unfold set_float, inf_like, fl_round. cbn [set_prec flprec flmode]. rewrite F. cbn [is_finite flform set_acc negb].
  destruct (Z.eqb_spec (left_prec x y) 0) as [E|E]; [|destruct (_ <? _)]; (eexists; split; [reflexivity|]);
    (split; [reflexivity|]); (split; [reflexivity|]); (split; [reflexivity|]); (split; [|reflexivity]); cbn [set_prec flprec]; auto.
  unfold left_prec in *. destruct (Z.eqb_spec (flprec x) 0); congruence.
Qed.
Lemma set_finite x y : ok_float x -> ok_float y -> flform y = Finite ->
  exists z, set_float (set_prec x (left_prec x y)) y = Ok z /\ result_for (flmode x) (left_prec x y) (flvalue y) z.
Proof.
  intros (PX & _) OY F. pose proof OY as (PY & _). destruct (proj2 OY F) as (PY' & _).
  assert (L : 0 < left_prec x y) by (unfold left_prec; destruct (Z.eqb_spec (flprec x) 0); lia).
  destruct (set_float_spec (set_prec x (left_prec x y)) y OY F ltac:(cbn [set_prec flprec]; lia)) as (z & E & R).
  exists z. split; [exact E|]. cbn [set_prec flprec flmode] in R. destruct (Z.eqb_spec (left_prec x y) 0); [lia|exact R].
Qed.
Theorem C112_add : forall x y, ok_float x -> ok_float y -> exists z, fl_add x y = Ok z /\
  match flform x, flform y with
  | Nan, _ | _, Nan => z = fl_nan
  | Finite, Finite => finite_sum (xorb (flneg x) (flneg y)) x y (flvalue x + flvalue y) z
  | Inf, Inf => if eqb (flneg x) (flneg y) then keeps x y z else flform z = Nan
  | Inf, _ | Finite, Zero | Zero, Zero => keeps x y z
  | _, Inf => inf_like x y z
  | Zero, Finite => result_for (flmode x) (left_prec x y) (flvalue y) z
  end.
Proof.
  intros x y OX OY. destruct (flform x) eqn:FX, (flform y) eqn:FY;
    try (eexists; split; [unfold fl_add, fl_op2; rewrite FX, FY; reflexivity|reflexivity]);
    try (eexists; split; [unfold fl_add, fl_op2, fl_add_inner; rewrite default_keeps; cbn [set_prec flform]; rewrite FX, FY; reflexivity|reflexivity]).
  all: try (unfold fl_add, fl_op2, fl_add_inner; rewrite default_keeps; cbn [set_prec flform flneg]; rewrite FX, FY; cbn [is_fnan is_finite is_infinite is_zero orb andb]; fold (set_prec x (left_prec x y))).
  - apply set_finite; auto.
  - apply set_inf; auto.
  - destruct (add_spec x y OX OY FX FY) as (z & E & A & B & C). unfold fl_add, fl_op2, fl_add_inner in E. rewrite default_keeps in E.
    cbn [set_prec flform flneg] in E. rewrite FX, FY in E. cbn [is_fnan is_finite is_infinite is_zero orb andb] in E. fold (set_prec x (left_prec x y)) in E.
    exists z. split; [exact E|]. unfold finite_sum, rounds_as.
    destruct (bool_dec (flneg x) (flneg y)) as [S|S].
    + replace (xorb (flneg x) (flneg y)) with false by (rewrite S; destruct (flneg y); reflexivity). cbn [andb]. split; [intros _; apply A; auto|].
      intros Z. exfalso. rewrite (finite_val x FX), (finite_val y FY), S in Z.
      pose proof (mag_pos x (proj2 (ok_finite x OX FX))). pose proof (mag_pos y (proj2 (ok_finite y OY FY))). destruct (flneg y); cbn [sq] in Z; lra.
    + replace (xorb (flneg x) (flneg y)) with true by (destruct (flneg x), (flneg y); try reflexivity; congruence). cbn [andb].
      destruct (Qle_bool _ _) eqn:L.
      * apply Qle_bool_iff in L. split; [|intros Z; apply C; exact Z]. intros NZ. apply B; [intros [?|?]; [auto|lra]|exact NZ].
      * apply apart_true in L. split; [intros _; apply A; auto|]. intros Z. exfalso. assert (V : (flvalue x == - flvalue y)%Q) by lra. rewrite V, Qabs_opp in L. lra.
  - apply set_inf; auto.
  - destruct (eqb (flneg x) (flneg y)); cbn [negb]; (eexists; split; [reflexivity|reflexivity]).
Qed.
Theorem C112_sub : forall x y, ok_float x -> ok_float y -> exists z, fl_sub x y = Ok z /\
  match flform x, flform y with
  | Nan, _ | _, Nan => z = fl_nan
  | Finite, Finite => finite_sum (eqb (flneg x) (flneg y)) x y (flvalue x - flvalue y) z
  | Inf, Inf => if eqb (flneg x) (flneg y) then flform z = Nan else keeps x y z
  | Inf, _ | Finite, Zero => keeps x y z
  | Zero, Zero => flform z = Zero /\ flneg z = flneg x && negb (flneg y)
  | _, Inf => inf_like x y z
  | Zero, Finite => result_for (flmode x) (left_prec x y) (flvalue y) z
  end.
Proof.
  intros x y OX OY. destruct (flform x) eqn:FX, (flform y) eqn:FY;
    try (eexists; split; [unfold fl_sub, fl_op2; rewrite FX, FY; reflexivity|reflexivity]);
    try (eexists; split; [unfold fl_sub, fl_op2, fl_sub_inner; rewrite default_keeps; cbn [set_prec flform]; rewrite FX, FY; reflexivity|reflexivity]).
  all: try (unfold fl_sub, fl_op2, fl_sub_inner; rewrite default_keeps; cbn [set_prec flform flneg]; rewrite FX, FY; cbn [is_fnan is_finite is_infinite is_zero orb andb]; fold (set_prec x (left_prec x y))).
  - eexists. split; [reflexivity|]. split; reflexivity.
  - apply set_finite; auto.
  - apply set_inf; auto.
  - destruct (sub_spec x y OX OY FX FY) as (z & E & A & B & C). unfold fl_sub, fl_op2, fl_sub_inner in E. rewrite default_keeps in E.
    cbn [set_prec flform flneg] in E. rewrite FX, FY in E. cbn [is_fnan is_finite is_infinite is_zero orb andb] in E. fold (set_prec x (left_prec x y)) in E.
    exists z. split; [exact E|]. unfold finite_sum, rounds_as.
    destruct (bool_dec (flneg x) (flneg y)) as [S|S].
    + replace (eqb (flneg x) (flneg y)) with true by (rewrite S, eqb_reflx; reflexivity). cbn [andb].
      destruct (Qle_bool _ _) eqn:L.
      * apply Qle_bool_iff in L. split; [|intros Z; apply C; exact Z]. intros NZ. apply B; [intros [?|?]; [auto|lra]|exact NZ].
      * apply apart_true in L. split; [intros _; apply A; auto|]. intros Z. exfalso. assert (V : (flvalue x == flvalue y)%Q) by lra. rewrite V in L. lra.
    + replace (eqb (flneg x) (flneg y)) with false by (destruct (flneg x), (flneg y); try reflexivity; congruence). cbn [andb]. split; [intros _; apply A; auto|].
      intros Z. exfalso. rewrite (finite_val x FX), (finite_val y FY) in Z.
      pose proof (mag_pos x (proj2 (ok_finite x OX FX))). pose proof (mag_pos y (proj2 (ok_finite y OY FY))).
      destruct (flneg x), (flneg y); try congruence; cbn [sq] in Z; lra.
  - apply set_inf; auto.
  - destruct (eqb (flneg x) (flneg y)); cbn [negb]; (eexists; split; [reflexivity|reflexivity]).
Qed.
(** 1 at 64 bits minus 1000 at 3 bits is rounded to 3 bits; 1000 - 1 is not. *)
Example C112_case : (exists z, fl_sub (fu 1) (fp 1024 3) = Ok z /\ (flvalue z == -1024)%Q /\ flprec z = 3) /\
  (exists z, fl_sub (fu 1024) (fp 1 3) = Ok z /\ (flvalue z == 1023)%Q /\ flprec z = 64) /\
  (exists z, fl_sub (fu 0) (fu 5) = Ok z /\ (flvalue z == 5)%Q).
Proof. split; [|split]; (eexists; split; [vm_compute; reflexivity|]); vm_compute; auto. Qed.
Print Assumptions C112_add.
Print Assumptions C112_sub.

(** ** C113
    [Float::to_f64] and [to_f32] of every Float: the nearest float with the
    right accuracy, except strictly between half the least positive float and
    that float, where the least normal number is returned (with a sign in
    [to_f32] only). *)
Definition near_least (least : Z) (v : Q) : Prop := (dy 1 (least - 1) < Qabs v /\ Qabs v < dy 1 least)%Q.
Theorem C113_to_f64 : forall x, ok_float x -> exists k a, fl_to_f64 x = Ok (k, a) /\
  match flform x with
  | Nan => k = 0x7FF8000000000000 /\ a = Exact
  | Zero => k = fsigned 52 11 (flneg x) 0 /\ a = Exact
  | Inf => k = fsigned 52 11 (flneg x) (finf 52 11) /\ a = Exact
  | Finite =>
      (near_least (-1074) (flvalue x) -> k = 2 ^ 52 /\ a = (if flneg x then Below else Above)) /\
      (~ near_least (-1074) (flvalue x) -> exists m, k = fsigned 52 11 (flneg x) m /\
         nearest 52 11 (Z.abs (Qnum (flvalue x))) (Zpos (Qden (flvalue x))) m /\
         a = if m <? finf 52 11 then acc_of (f64_value k) (flvalue x) else if flneg x then Below else Above)
  end.
Proof.
  intros x O. destruct (C58_special x) as (A & B & C). destruct (flform x) eqn:F.
  - destruct (A eq_refl) as (A1 & _). eauto.
  - destruct (Qlt_le_dec (dy 1 (-1075)) (Qabs (flvalue x))) as [L|L]; [destruct (Qlt_le_dec (Qabs (flvalue x)) (dy 1 (-1074))) as [R|R]|].
    + destruct (C58_tiny_f64_refuted x O F L R) as (E & _). eexists _, _. split; [exact E|]. split; [auto|]. intros N. exfalso. apply N. split; auto.
    + destruct (C58_to_f64_partial x O F) as (m & a & E & N & A1 & A2); [intros [_ ?]; lra|].
      eexists _, a. split; [exact E|]. split; [intros [_ ?]; lra|]. intros _. exists m. split; [reflexivity|]. split; [exact N|].
      destruct (Z.ltb_spec m (finf 52 11)); [apply A1; auto|]. apply A2. destruct N as (? & _). lia.
    + destruct (C58_to_f64_partial x O F) as (m & a & E & N & A1 & A2); [intros [? _]; lra|].
      eexists _, a. split; [exact E|]. split; [intros [? _]; change (-1074 - 1) with (-1075) in *; lra|]. intros _. exists m. split; [reflexivity|]. split; [exact N|].
      destruct (Z.ltb_spec m (finf 52 11)); [apply A1; auto|]. apply A2. destruct N as (? & _). lia.
  - destruct (B eq_refl) as (A1 & _). eauto.
  - destruct (C eq_refl) as (A1 & _). eauto.
Qed.
Theorem C113_to_f32 : forall x, ok_float x -> exists k a, fl_to_f32 x = Ok (k, a) /\
  match flform x with
  | Nan => k = 0x7FC00000 /\ a = Exact
  | Zero => k = fsigned 23 8 (flneg x) 0 /\ a = Exact
  | Inf => k = fsigned 23 8 (flneg x) (finf 23 8) /\ a = Exact
  | Finite =>
      (near_least (-149) (flvalue x) -> k = fsigned 23 8 (flneg x) (2 ^ 23) /\ a = (if flneg x then Below else Above)) /\
      (~ near_least (-149) (flvalue x) -> exists m, k = fsigned 23 8 (flneg x) m /\
         nearest 23 8 (Z.abs (Qnum (flvalue x))) (Zpos (Qden (flvalue x))) m /\
         a = if m <? finf 23 8 then acc_of (f32_value k) (flvalue x) else if flneg x then Below else Above)
  end.
Proof.
  intros x O. destruct (C58_special x) as (A & B & C). destruct (flform x) eqn:F.
  - destruct (A eq_refl) as (_ & A1). eauto.
  - destruct (Qlt_le_dec (dy 1 (-150)) (Qabs (flvalue x))) as [L|L]; [destruct (Qlt_le_dec (Qabs (flvalue x)) (dy 1 (-149))) as [R|R]|].
    + destruct (C58_tiny_f32_refuted x O F L R) as (E & _). eexists _, _. split; [exact E|]. split; [auto|]. intros N. exfalso. apply N. split; auto.
    + destruct (C58_to_f32_partial x O F) as (m & a & E & N & A1 & A2); [intros [_ ?]; lra|].
      eexists _, a. split; [exact E|]. split; [intros [_ ?]; lra|]. intros _. exists m. split; [reflexivity|]. split; [exact N|].
      destruct (Z.ltb_spec m (finf 23 8)); [apply A1; auto|]. apply A2. destruct N as (? & _). lia.
    + destruct (C58_to_f32_partial x O F) as (m & a & E & N & A1 & A2); [intros [? _]; lra|].
      eexists _, a. split; [exact E|]. split; [intros [? _]; change (-149 - 1) with (-150) in *; lra|]. intros _. exists m. split; [reflexivity|]. split; [exact N|].
      destruct (Z.ltb_spec m (finf 23 8)); [apply A1; auto|]. apply A2. destruct N as (? & _). lia.
  - destruct (B eq_refl) as (_ & A1). eauto.
  - destruct (C eq_refl) as (_ & A1). eauto.
Qed.
Example C113_case : fl_to_f32 (fl_neg (fu 16777217)) = Ok (fsigned 23 8 true 1266679808, Above) /\
  (f32_value (fsigned 23 8 true 1266679808) == -16777216)%Q.
Proof. vm_compute. split; reflexivity. Qed.
Print Assumptions C113_to_f64.
Print Assumptions C113_to_f32.
