(** Theorems about [Rat] (C47-C52, C72-C75).

    [denotes x v]: [x] is a Rat with canonical magnitudes and non-zero
    denominator whose value is the rational [v]; [lowest]: lowest terms and
    positive denominator; see SpecRat.v. *)
From Coq Require Import ZArith QArith Qabs String List Lia Bool.
From Verif Require Import Words Spec WordsFacts NatModel NatFacts NatFacts2 NatFacts5 NatConv NatConvFacts NatPow
  BigInt SpecInt BigIntFacts BigIntFacts3 BigIntFacts4 Properties_BigInt
  Ieee Rat SpecRat RatFacts IeeeFacts IeeeFacts2 RatFacts2 RatFacts3 RatFacts4.
Import ListNotations.
Open Scope Z_scope.

Ltac rats := repeat match goal with
  | H : ok_rat ?x |- _ => is_var x; let s := fresh "s" in let m := fresh "m" in let t := fresh "t" in let n := fresh "n" in
      let Hm := fresh "Hm" in let Hn := fresh "Hn" in
      destruct (ok_rat_mk x H) as (s & m & t & n & Hm & Hn & ->); clear H
  end.
Lemma op2_ok f x y : ok_rat x -> ok_rat y -> r_op2 f x y = f x y.
Proof. intros. rats. unfold r_op2. rewrite !mk_nan by lia. reflexivity. Qed.
Lemma op2_assign_ok f x y : ok_rat x -> ok_rat y -> r_op2_assign f x y = f x y.
Proof. intros. rats. unfold r_op2_assign. rewrite !mk_nan by lia. reflexivity. Qed.

(** ** C47
    Full claim: every constructor and operator yields lowest terms with a
    positive denominator.  False: a zero result keeps its denominator, even a
    negative one, and [from_str] does not reduce and can make a negative zero. *)
Theorem C47_zero_keeps_denominator_refuted : exists x z, lowest x /\ r_sub x x = Ok z /\ rden z = zint 4.
Proof.
  exists (mk false 1 false 2), (mk false 0 false 4). split; [apply lowest_mk; try lia; reflexivity|].
  split; vm_compute; reflexivity.
Qed.
Theorem C47_negative_denominator_refuted : exists x y z, lowest x /\ lowest y /\ r_div x y = Ok z /\ rden z = zint (-6).
Proof.
  exists (mk false 0 false 1), (mk true 6 false 1), (mk false 0 true 6).
  split; [apply lowest_mk; try lia; reflexivity|]. split; [apply lowest_mk; try lia; reflexivity|]. split; vm_compute; reflexivity.
Qed.
Theorem C47_parse_refuted : forall pf, r_from_str pf (str "2/4") = Ok (Some (RT (zint 2) (zint 4))) /\
  r_from_str pf (str "0/-5") = Ok (Some (RT (BI [0] true) (zint 5))).
Proof. intros pf. split; reflexivity. Qed.
(** What holds: results that are not zero are in lowest terms, whatever the
    operands; zero results are unsigned (no negative zero appears). *)
Theorem C47_operators_partial : forall x y, ok_rat x -> ok_rat y ->
  (forall z, r_add x y = Ok z -> unsigned_zero z /\ (~ (rvalue z == 0)%Q -> lowest z)) /\
  (forall z, r_sub x y = Ok z -> unsigned_zero z /\ (~ (rvalue z == 0)%Q -> lowest z)) /\
  (forall z, r_mul x y = Ok z -> unsigned_zero z /\ (~ (rvalue z == 0)%Q -> lowest z)) /\
  (forall z, r_div x y = Ok z -> unsigned_zero z /\ (~ (rvalue z == 0)%Q -> lowest z)).
Proof.
  intros x y Hx Hy. unfold r_add, r_sub, r_mul, r_div. rewrite !op2_ok by auto.
  split; [|split; [|split]]; intros z E.
  - destruct (r_add_inner_spec x y Hx Hy) as (z' & E' & [_ D] & U & L). rewrite E' in E. injection E as <-.
    split; [auto|]. rewrite D. auto.
  - destruct (r_sub_inner_spec x y Hx Hy) as (z' & E' & [_ D] & U & L). rewrite E' in E. injection E as <-.
    split; [auto|]. rewrite D. auto.
  - destruct (r_mul_inner_spec x y Hx Hy) as (z' & E' & [_ D] & U & L). rewrite E' in E. injection E as <-.
    split; [auto|]. rewrite D. auto.
  - destruct (Qeq_dec (rvalue y) 0) as [Z0|N0]; [rewrite r_div_zero in E by auto; discriminate|].
    destruct (r_div_inner_spec x y Hx Hy N0) as (z' & E' & [_ D] & U & L). rewrite E' in E. injection E as <-.
    split; [auto|]. rewrite D. auto.
Qed.
Theorem C47_unary_partial : forall x, lowest x -> lowest (r_neg x) /\ lowest (r_abs x) /\
  forall z, r_inv x = Some z -> lowest z.
Proof.
  intros x H. destruct (lowest_inv x H) as (s & m & n & Hm & Hn & G & Z0 & ->). split; [|split].
  - unfold r_neg. rewrite mk_nan by lia. unfold mk. cbn [rnum rden]. unfold b_neg, b_is_nan, b_eq_u32. cbn [bnat bneg].
    rewrite is_nan_of_Z, of_Z_eq_u32 by lia. destruct (Z.eqb_spec m 0) as [->|N].
    + rewrite Z0 by reflexivity. cbn [negb andb]. apply (lowest_mk false 0 n); auto.
    + rewrite andb_false_r. apply (lowest_mk (negb s) m n); auto; lia.
  - unfold r_abs, mk. cbn [rnum rden bnat]. apply (lowest_mk false m n); auto.
  - intros z. unfold r_inv. rewrite mk_nan by lia. unfold mk. cbn [rnum rden bnat bneg]. rewrite of_Z_eq_u32 by lia.
    destruct (Z.eqb_spec m 0) as [->|N]; [discriminate|]. intros E. injection E as <-.
    apply (lowest_mk s n m); try lia. rewrite Z.gcd_comm. auto.
Qed.
Theorem C47_from_frac_partial : forall checks n d z, i64_range n -> i64_range d -> n <> 0 -> d <> - 2 ^ 63 ->
  (n <> - 2 ^ 63 \/ 0 < d) -> r_from_frac checks n d = Ok (Some z) -> lowest z.
Proof.
  intros c n d z Hn Hd N0 DM NM E.
  destruct (Z.eq_dec d 0) as [->|D0]; [discriminate E|].
  destruct (from_frac_spec c n d Hn Hd D0 DM NM) as (z' & E' & _ & _ & L). rewrite E' in E. injection E as <-. auto.
Qed.
Theorem C47_from_f64_partial : forall bits z, 0 <= bits < 2 ^ 64 -> r_from_f64 bits = Ok z -> r_is_nan z = true \/ lowest z.
Proof.
  intros bits z H E. destruct (fields bits H) as (_ & _ & FB).
  destruct (Z.le_gt_cases (f64_field bits) 1075) as [L|L].
  - destruct (from_f64_small bits H L) as (z' & E' & _ & K). rewrite E' in E. injection E as <-. auto.
  - destruct (Z.eq_dec (f64_field bits) 2047) as [F|F].
    + rewrite from_f64_nan in E by auto. injection E as <-. left. reflexivity.
    + destruct (from_f64_large bits H) as (z' & E' & _ & K); [lia|]. rewrite E' in E. injection E as <-. auto.
Qed.
Example C47_case : r_add (mk false 1 false 6) (mk false 1 false 3) = Ok (mk false 1 false 2) /\
  r_div (mk true 4 false 1) (mk true 6 false 1) = Ok (mk false 2 false 3) /\ r_from_frac true 6 (-4) = Ok (Some (mk true 3 false 2)).
Proof. vm_compute. auto. Qed.
Print Assumptions C47_zero_keeps_denominator_refuted.
Print Assumptions C47_negative_denominator_refuted.
Print Assumptions C47_parse_refuted.
Print Assumptions C47_operators_partial.
Print Assumptions C47_unary_partial.
Print Assumptions C47_from_frac_partial.
Print Assumptions C47_from_f64_partial.

(** ** C48 *)
Theorem C48_add : forall x y, ok_rat x -> ok_rat y -> exists z, r_add x y = Ok z /\ denotes z (rvalue x + rvalue y).
Proof.
  intros x y Hx Hy. unfold r_add. rewrite op2_ok by auto.
  destruct (r_add_inner_spec x y Hx Hy) as (z & E & D & _). eauto.
Qed.
Theorem C48_sub : forall x y, ok_rat x -> ok_rat y -> exists z, r_sub x y = Ok z /\ denotes z (rvalue x - rvalue y).
Proof.
  intros x y Hx Hy. unfold r_sub. rewrite op2_ok by auto.
  destruct (r_sub_inner_spec x y Hx Hy) as (z & E & D & _). eauto.
Qed.
Theorem C48_mul : forall x y, ok_rat x -> ok_rat y -> exists z, r_mul x y = Ok z /\ denotes z (rvalue x * rvalue y).
Proof.
  intros x y Hx Hy. unfold r_mul. rewrite op2_ok by auto.
  destruct (r_mul_inner_spec x y Hx Hy) as (z & E & D & _). eauto.
Qed.
Theorem C48_div : forall x y, ok_rat x -> ok_rat y -> ~ (rvalue y == 0)%Q ->
  exists z, r_div x y = Ok z /\ denotes z (rvalue x / rvalue y).
Proof.
  intros x y Hx Hy N. unfold r_div. rewrite op2_ok by auto.
  destruct (r_div_inner_spec x y Hx Hy N) as (z & E & D & _). eauto.
Qed.
Theorem C48_div_by_zero : forall x y, ok_rat x -> ok_rat y -> (rvalue y == 0)%Q -> r_div x y = Panic.
Proof. intros x y Hx Hy N. unfold r_div. rewrite op2_ok by auto. apply r_div_zero; auto. Qed.
Theorem C48_assign : forall x y, ok_rat x -> ok_rat y ->
  r_op2_assign r_add_inner x y = r_add x y /\ r_op2_assign r_sub_inner x y = r_sub x y /\
  r_mul_assign x y = r_mul x y /\ r_op2_assign r_div_inner x y = r_div x y.
Proof.
  intros x y Hx Hy. unfold r_add, r_sub, r_mul, r_div. rewrite !op2_ok, !op2_assign_ok by auto.
  repeat (split; [reflexivity|]). split; [|reflexivity]. rats. unfold r_mul_assign. rewrite mk_nan by lia. reflexivity.
Qed.
Theorem C48_neg : forall x, ok_rat x -> denotes (r_neg x) (- rvalue x).
Proof.
  intros x Hx. rats. unfold r_neg. rewrite mk_nan by lia. unfold mk at 1. cbn [rnum rden].
  unfold b_neg, b_is_nan, b_eq_u32. cbn [bnat bneg]. rewrite is_nan_of_Z, of_Z_eq_u32 by lia.
  destruct (negb s && (m =? 0)) eqn:Z0.
  - apply andb_true_iff in Z0. destruct Z0 as [Zs Z0]. apply Z.eqb_eq in Z0. subst m.
    split; [apply (ok_mk s 0 t n); lia|]. rewrite rvalue_mk by lia. change (RT _ _) with (mk s 0 t n).
    rewrite rvalue_mk by lia. destruct s; reflexivity.
  - split; [apply (ok_mk (negb s) m t n); lia|]. rewrite rvalue_mk by lia. change (RT _ _) with (mk (negb s) m t n).
    rewrite rvalue_mk by lia. unfold Qopp, Qeq. cbn [Qnum Qden]. unfold sgv. destruct s; cbn [negb]; ring.
Qed.
Theorem C48_abs : forall x, ok_rat x -> denotes (r_abs x) (Qabs (rvalue x)).
Proof.
  intros x Hx. rats. change (r_abs (mk s m t n)) with (mk false m t n). split; [apply ok_mk; auto|].
  rewrite !rvalue_mk by auto. unfold Qabs, sgv. replace (Z.abs (if s then - m else m)) with m by (destruct s; lia). reflexivity.
Qed.
Theorem C48_inv : forall x, ok_rat x ->
  (~ (rvalue x == 0)%Q -> exists z, r_inv x = Some z /\ denotes z (/ rvalue x)) /\
  ((rvalue x == 0)%Q -> r_inv x = None).
Proof.
  intros x Hx. rats. rewrite rvalue_mk by auto. unfold r_inv. rewrite mk_nan by lia. unfold mk at 1 2 3 4 5. cbn [rnum rden bnat bneg].
  rewrite of_Z_eq_u32 by lia. split; intros H.
  - destruct (Z.eqb_spec m 0) as [->|N]; [exfalso; apply H; destruct s; reflexivity|].
    exists (mk s n false m). split; [reflexivity|]. split; [apply ok_mk; lia|]. rewrite rvalue_mk by lia.
    destruct m as [|p|p]; [lia| |lia]. destruct n as [|q|q]; [lia| |lia].
    destruct s; unfold Qinv; cbn [sgv Z.opp Qnum Qden Z.to_pos]; reflexivity.
  - destruct (Z.eqb_spec m 0) as [->|N]; [reflexivity|]. exfalso. unfold Qeq in H. cbn [Qnum Qden] in H. unfold sgv in H. destruct s; lia.
Qed.
Example C48_case : r_add (mk false 2 false 4) (mk true 0 true 5) = Ok (mk false 1 false 2) /\
  r_mul (mk true 2 false 4) (mk true 3 false 6) = Ok (mk false 1 false 4) /\
  r_div (mk false 1 false 2) (mk true 0 false 3) = Panic /\ r_inv (mk true 2 false 3) = Some (mk true 3 false 2).
Proof. vm_compute. auto. Qed.
Print Assumptions C48_add.
Print Assumptions C48_sub.
Print Assumptions C48_mul.
Print Assumptions C48_div.
Print Assumptions C48_div_by_zero.
Print Assumptions C48_assign.
Print Assumptions C48_neg.
Print Assumptions C48_abs.
Print Assumptions C48_inv.

(** ** C49
    Full claim: comparison is the order of the values.  False for the negative
    zero that [from_str] makes. *)
Theorem C49_negative_zero_refuted : forall pf, exists x y, r_from_str pf (str "0/-5") = Ok (Some x) /\
  r_from_str pf (str "0") = Ok (Some y) /\ (rvalue x == rvalue y)%Q /\ r_cmp x y = Some Lt /\ r_eq x y = false.
Proof.
  intros pf. exists (mk true 0 false 5), (mk false 0 false 1).
  split; [reflexivity|]. split; [reflexivity|]. split; [reflexivity|]. split; reflexivity.
Qed.
Theorem C49_compare_partial : forall x y, ok_rat x -> ok_rat y -> unsigned_zero x -> unsigned_zero y ->
  r_cmp x y = Some (rvalue x ?= rvalue y)%Q /\ (r_eq x y = true <-> (rvalue x == rvalue y)%Q).
Proof.
  intros x y Hx Hy Ux Uy. assert (C : r_cmp x y = Some (rvalue x ?= rvalue y)%Q).
  { destruct (ok_rat_mk x Hx) as (s & m & t & n & Hm & Hn & ->). destruct (ok_rat_mk y Hy) as (s0 & m0 & t0 & n0 & Hm0 & Hn0 & ->).
    unfold unsigned_zero, mk in Ux, Uy. cbn [rnum bnat bneg] in Ux, Uy. rewrite of_Z_val in Ux, Uy by lia.
    rewrite r_cmp_mk, !rvalue_mk by auto. f_equal. unfold Qcompare. cbn [Qnum Qden]. rewrite !Z2Pos.id by auto.
    assert (M0 : s = true -> 0 < m) by (intros ->; destruct (Z.eq_dec m 0) as [E|]; [specialize (Ux E); discriminate|lia]).
    assert (M1 : s0 = true -> 0 < m0) by (intros ->; destruct (Z.eq_dec m0 0) as [E|]; [specialize (Uy E); discriminate|lia]).
    unfold sgv. destruct s, s0.
    - rewrite !Z.mul_opp_l. symmetry. apply Z.compare_opp.
    - symmetry. apply Z.compare_lt_iff. specialize (M0 eq_refl). nia.
    - symmetry. apply Z.compare_gt_iff. specialize (M1 eq_refl). nia.
    - reflexivity. }
  split; [auto|]. unfold r_eq. rewrite C. rewrite Qeq_alt. destruct (rvalue x ?= rvalue y)%Q; split; congruence.
Qed.
Theorem C49_nan : forall x y, r_is_nan x = true \/ r_is_nan y = true -> r_cmp x y = None /\ r_eq x y = false.
Proof.
  intros x y H. assert (C : r_cmp x y = None).
  { unfold r_cmp. destruct H as [->| ->]; [|rewrite orb_true_r]; reflexivity. }
  unfold r_eq. rewrite C. auto.
Qed.
Example C49_case : r_cmp (mk false 2 false 4) (mk false 1 true 2) = Some Eq /\ r_cmp (mk true 7 false 3) (mk true 9 false 4) = Some Lt /\
  r_cmp (mk false 0 false 4) (mk false 0 true 9) = Some Eq.
Proof. vm_compute. auto. Qed.
Print Assumptions C49_negative_zero_refuted.
Print Assumptions C49_compare_partial.
Print Assumptions C49_nan.

(** ** C50
    Full claim: exact for every finite f64.  False for every float of
    magnitude 2 ^ 53 and more. *)
Theorem C50_from_f64_refuted : exists bits z, f64_finite bits /\ r_from_f64 bits = Ok z /\ ~ (rvalue z == f64_value bits)%Q.
Proof.
  exists (f64_pow2 60), (mk false (2 ^ 44) false 1). split; [split; [vm_compute; split; [discriminate|reflexivity]|reflexivity]|].
  split; [vm_compute; reflexivity|]. intros C. vm_compute in C. discriminate C.
Qed.
Theorem C50_from_f64_wrong : forall bits, 0 <= bits < 2 ^ 64 -> 1075 < f64_field bits < 2047 ->
  exists z, r_from_f64 bits = Ok z /\ (rvalue z == f64_value bits / inject_Z (4 ^ (f64_field bits - 1075)))%Q.
Proof. intros bits H F. destruct (from_f64_large bits H F) as (z & E & [_ D] & _). eauto. Qed.
Theorem C50_from_f64_partial : forall bits, 0 <= bits < 2 ^ 64 -> f64_field bits <= 1075 ->
  f64_finite bits /\ exists z, r_from_f64 bits = Ok z /\ denotes z (f64_value bits).
Proof.
  intros bits H F. split; [split; [auto|apply finite_field; [auto|lia]]|].
  destruct (from_f64_small bits H F) as (z & E & D & _). eauto.
Qed.
(** [f64_field <= 1075] is |f| < 2 ^ 53. *)
Theorem C50_range_partial : forall bits, f64_finite bits ->
  (f64_field bits <= 1075 <-> (Qabs (f64_value bits) < inject_Z (2 ^ 53))%Q).
Proof.
  intros bits [H F]. destruct (fields bits H) as (_ & _ & FB). apply finite_field in F; [|auto].
  unfold f64_value. rewrite fvalue_sgv, mant_units by auto. pose proof (mant_bound bits) as MB.
  rewrite unit64. change (- -1074) with 1074. set (f := f64_field bits) in *.
  assert (M0 : f <> 0 -> 2 ^ 52 <= f64_mant bits).
  { intros N. unfold f64_mant. fold f. rewrite (proj2 (Z.eqb_neq _ _)) by lia.
    pose proof (Z.mod_pos_bound (fmag 52 11 bits) (2 ^ 52)). lia. }
  set (M := f64_mant bits) in *. unfold Qabs, Qlt, inject_Z. cbn [Qnum Qden].
  assert (P : 0 < 2 ^ (Z.max f 1 - 1)) by (apply Z.pow_pos_nonneg; lia).
  replace (Z.abs (sgv (fneg_bit 52 11 bits) (M * 2 ^ (Z.max f 1 - 1)))) with (M * 2 ^ (Z.max f 1 - 1)) by (unfold sgv; destruct (fneg_bit 52 11 bits); nia).
  rewrite Z2Pos.id by (apply Z.pow_pos_nonneg; lia). rewrite Z.mul_1_r.
  assert (P1 : 0 < 2 ^ 1074) by (apply Z.pow_pos_nonneg; lia).
  split; intros L.
  - assert (2 ^ (Z.max f 1 - 1) <= 2 ^ 1074) by (apply Z.pow_le_mono_r; lia).
    set (X := 2 ^ 1074) in *. clearbody X. nia.
  - destruct (Z.le_gt_cases f 1075) as [|G]; [auto|exfalso]. specialize (M0 ltac:(lia)).
    assert (E : 2 ^ 1075 <= 2 ^ (Z.max f 1 - 1)) by (apply Z.pow_le_mono_r; lia).
    change 1075 with (Z.succ 1074) in E. rewrite Z.pow_succ_r in E by lia. change (2 ^ 53) with (2 * 2 ^ 52) in *.
    set (X := 2 ^ 1074) in *. clearbody X. nia.
Qed.
Theorem C50_not_finite : forall bits, 0 <= bits < 2 ^ 64 -> ~ f64_finite bits -> r_from_f64 bits = Ok r_nan.
Proof.
  intros bits H N. apply from_f64_nan; auto. destruct (fields bits H) as (_ & _ & FB).
  destruct (Z.eq_dec (f64_field bits) 2047) as [|C]; [auto|]. exfalso. apply N. split; [auto|]. apply finite_field; [auto|lia].
Qed.
Theorem C50_from_f32 : forall b, f32_finite b -> exists bits, r_from_f32 b = r_from_f64 bits /\ f64_finite bits /\
  (f64_value bits == f32_value b)%Q.
Proof.
  intros b H. destruct (f64_of_f32_value b H) as (A & B & C). exists (f64_of_f32 b). split; [reflexivity|].
  split; [split; [auto|apply finite_field; [auto|lia]]|auto].
Qed.
Example C50_case : r_from_f64 4608308318706860032 = Ok (mk false 5 false 4) /\ r_from_f64 1 = Ok (mk false 1 false (2 ^ 1074)) /\
  r_from_f64 (2 ^ 63) = Ok (mk false 0 false 1) /\ r_from_f64 (finf 52 11) = Ok r_nan.
Proof. vm_compute. auto. Qed.
Print Assumptions C50_from_f64_refuted.
Print Assumptions C50_from_f64_wrong.
Print Assumptions C50_from_f64_partial.
Print Assumptions C50_range_partial.
Print Assumptions C50_not_finite.
Print Assumptions C50_from_f32.

(** ** C51
    Full claim: [to_f64] and [to_f32] return the nearest float, the flag tells
    whether it is exact, no panic.  False: the flag is true for some values
    that underflow to zero, and [to_f32] of zero panics. *)
Theorem C51_exact_flag_refuted : exists x, ok_rat x /\ ~ (rvalue x == 0)%Q /\ r_to_f64 x = Ok (0, true).
Proof.
  exists (mk false 1 false (2 ^ 1080)). split; [apply ok_mk; [lia|apply Z.pow_pos_nonneg; lia]|]. split; [discriminate|].
  vm_compute. reflexivity.
Qed.
Theorem C51_to_f32_zero_refuted : forall x, ok_rat x -> (rvalue x == 0)%Q -> r_to_f32 x = Panic.
Proof. apply to_f32_zero. Qed.
Theorem C51_to_f64_partial : forall x, ok_rat x -> exists f ex, r_to_f64 x = Ok (f, ex) /\
  fneg_bit 52 11 f = bneg (rnum x) /\
  nearest 52 11 (Z.abs (Qnum (rvalue x))) (Zpos (Qden (rvalue x))) (fmag 52 11 f) /\
  (not_tiny 52 11 (rvalue x) -> (ex = true <-> fmag 52 11 f < finf 52 11 /\ (f64_value f == rvalue x)%Q)).
Proof. apply to_f64_spec. Qed.
Theorem C51_to_f32_partial : forall x, ok_rat x -> ~ (rvalue x == 0)%Q -> exists f ex, r_to_f32 x = Ok (f, ex) /\
  fneg_bit 23 8 f = bneg (rnum x) /\
  nearest 23 8 (Z.abs (Qnum (rvalue x))) (Zpos (Qden (rvalue x))) (fmag 23 8 f) /\
  (not_tiny 23 8 (rvalue x) -> (ex = true <-> fmag 23 8 f < finf 23 8 /\ (f32_value f == rvalue x)%Q)).
Proof. apply to_f32_spec. Qed.
(** [nearest] determines the result. *)
Theorem C51_nearest_unique : forall p q j k, 0 < q -> nearest 52 11 p q j -> nearest 52 11 p q k -> j = k.
Proof. intros p q j k Hq A B. apply (near_unique 52 11 h52 h11 (p * 2 ^ (- funit 52 11)) q); auto. Qed.
Theorem C51_nan : forall x, r_is_nan x = true -> r_to_f64 x = Ok (0x7FF8000000000000, false) /\ r_to_f32 x = Ok (0x7FC00000, false).
Proof. intros x H. unfold r_to_f64, r_to_f32. rewrite H. auto. Qed.
Example C51_case : r_to_f64 (mk true 1 false 3) = Ok (13823048456275842389, false) /\ r_to_f64 (mk false 5 false 4) = Ok (4608308318706860032, true) /\
  r_to_f32 (mk false 1 false 3) = Ok (1051372203, false) /\ r_to_f64 (mk false (10 ^ 400) false 1) = Ok (finf 52 11, false).
Proof. vm_compute. auto. Qed.
Print Assumptions C51_exact_flag_refuted.
Print Assumptions C51_to_f32_zero_refuted.
Print Assumptions C51_to_f64_partial.
Print Assumptions C51_to_f32_partial.
Print Assumptions C51_nearest_unique.
Print Assumptions C51_nan.

(** ** C52 *)
(** 47 is '/', 46 is '.'; [trimmed s t] says that [t] is [s] without the white
    space around it. *)
Theorem C52_fraction : forall pf s u v a b, trimmed s (u ++ 47 :: v) -> ~ In 46 (u ++ 47 :: v) -> ~ In 47 u ->
  int_text u a -> int_text v b ->
  (b <> 0 -> exists z, r_from_str pf s = Ok (Some z) /\ denotes z (inject_Z a / inject_Z b)) /\
  (b = 0 -> r_from_str pf s = Ok None).
Proof.
  intros pf s u v a b T N N' A B. rewrite (parse_frac pf s u v) by auto. apply int_text_parse in A, B. rewrite A, B.
  split; [intros NZ|intros ->; rewrite parsed_zero; reflexivity].
  rewrite parsed_value by auto. eexists. split; [reflexivity|]. apply parsed_denotes. auto.
Qed.
Theorem C52_integer : forall pf s t a, trimmed s t -> t <> [] -> ~ In 46 t -> ~ In 47 t -> int_text t a ->
  exists z, r_from_str pf s = Ok (Some z) /\ denotes z (inject_Z a).
Proof.
  intros pf s t a T N0 N N' A. rewrite (parse_whole pf s t) by auto. apply int_text_parse in A. rewrite A.
  rewrite parsed_value by lia. eexists. split; [reflexivity|]. eapply denotes_trans; [apply parsed_denotes; lia|].
  unfold Qdiv. change (/ inject_Z 1)%Q with (inject_Z 1). apply Qmult_1_r.
Qed.
(** Anything else without a '.' is an error: if the parse succeeds, both parts
    are integer texts. *)
Theorem C52_sound : forall pf s t z, trimmed s t -> ~ In 46 t -> r_from_str pf s = Ok (Some z) ->
  (exists u v a b, t = u ++ 47 :: v /\ ~ In 47 u /\ int_text u a /\ int_text v b /\ b <> 0 /\ denotes z (inject_Z a / inject_Z b)) \/
  (exists a, ~ In 47 t /\ int_text t a /\ denotes z (inject_Z a)).
Proof.
  intros pf s t z T N E. destruct (find_char 47 t) as [[u v]|] eqn:F.
  - left. assert (HF : t = u ++ 47 :: v /\ ~ In 47 u).
    { clear - F. revert u v F. induction t as [|d t IH]; intros u v F; [discriminate|]. cbn [find_char] in F.
      destruct (Z.eqb_spec d 47) as [->|ND]; [injection F as <- <-; split; [reflexivity|intros []]|].
      destruct (find_char 47 t) as [[u' v']|]; [|discriminate]. injection F as <- <-. destruct (IH u' v' eq_refl) as [-> NI].
      split; [reflexivity|]. intros [C|C]; congruence. }
    destruct HF as [-> NI]. rewrite (parse_frac pf s u v) in E by auto.
    destruct (b_from_str u) as [x|] eqn:X; [|discriminate]. destruct (b_from_str v) as [y|] eqn:Y; [|discriminate].
    destruct (parse_int_text _ _ X) as [NX|(a & A & ->)]; [unfold parsed_rat in E; rewrite NX in E; discriminate|].
    destruct (parse_int_text _ _ Y) as [NY|(b & B & ->)]; [unfold parsed_rat in E; rewrite NY, orb_true_r in E; discriminate|].
    destruct (Z.eq_dec b 0) as [->|NZ]; [rewrite parsed_zero in E; discriminate|].
    rewrite parsed_value in E by auto. exists u, v, a, b. split; [reflexivity|]. split; [auto|]. split; [auto|]. split; [auto|].
    split; [auto|]. replace z with (mk (negb (eqb (a <? 0) (b <? 0))) (Z.abs a) false (Z.abs b)) by congruence. apply parsed_denotes. auto.
  - right. assert (NI : ~ In 47 t) by (intros C; apply find_char_some in C; congruence).
    assert (T0 : t <> []). { intros ->. unfold r_from_str in E. rewrite (trim_ws_spec _ _ T) in E. discriminate. }
    rewrite (parse_whole pf s t) in E by auto. destruct (b_from_str t) as [x|] eqn:X; [|discriminate].
    destruct (parse_int_text _ _ X) as [NX|(a & A & ->)]; [unfold parsed_rat in E; rewrite NX in E; discriminate|].
    rewrite parsed_value in E by lia. exists a. split; [auto|]. split; [auto|].
    replace z with (mk (negb (eqb (a <? 0) (1 <? 0))) (Z.abs a) false (Z.abs 1)) by congruence.
    eapply denotes_trans; [apply parsed_denotes; lia|]. unfold Qdiv. change (/ inject_Z 1)%Q with (inject_Z 1). apply Qmult_1_r.
Qed.
(** A text with a '.' is a decimal float, given to [f64::from_str] and
    converted as in C50; [pf] stands for [f64::from_str]. *)
Theorem C52_decimal : forall pf s t, trimmed s t -> In 46 t ->
  (pf t = None -> r_from_str pf s = Ok None) /\
  (forall f, pf t = Some f -> f_is_nan 52 11 f = true -> r_from_str pf s = Ok None) /\
  (forall f z, pf t = Some f -> f_is_nan 52 11 f = false -> r_from_f64 f = Ok z -> r_from_str pf s = Ok (Some z)).
Proof.
  intros pf s t T I. rewrite (parse_decimal pf s t) by auto. split; [intros ->; reflexivity|]. split.
  - intros f -> ->. reflexivity.
  - intros f z -> -> ->. reflexivity.
Qed.
Theorem C52_empty : forall pf s, trimmed s [] -> r_from_str pf s = Ok None.
Proof. intros pf s T. unfold r_from_str. rewrite (trim_ws_spec _ _ T). reflexivity. Qed.
Example C52_case : forall pf, r_from_str pf (str " -0x1f / 0b100 ") = Ok (Some (mk true 31 false 4)) /\
  r_from_str pf (str "3/0") = Ok None /\ r_from_str pf (str "-7") = Ok (Some (mk true 7 false 1)) /\ r_from_str pf (str "1/2/3") = Ok None.
Proof. intros pf. vm_compute. auto. Qed.
Print Assumptions C52_fraction.
Print Assumptions C52_integer.
Print Assumptions C52_sound.
Print Assumptions C52_decimal.
Print Assumptions C52_empty.

(** ** C72
    Full claim: from_frac(n, d) is n / d for all machine integers with d
    non-zero, from_frac_bigint likewise and NaN for a NaN operand.  False at
    the least integer and for a NaN denominator. *)
Theorem C72_min_refuted : r_from_frac true (- 2 ^ 63) (-1) = Panic /\ r_from_frac true 1 (- 2 ^ 63) = Panic /\
  exists z, r_from_frac false (- 2 ^ 63) (-1) = Ok (Some z) /\ (rvalue z == inject_Z (- 2 ^ 63))%Q.
Proof.
  split; [vm_compute; reflexivity|]. split; [vm_compute; reflexivity|]. exists (mk true (2 ^ 63) false 1). split; vm_compute; reflexivity.
Qed.
Theorem C72_nan_denominator_refuted : forall x a s, is_int x a ->
  r_from_frac_bigint x (BI nan s) = Ok (Some (r_from_bigint (zint (if s then - a else a)))).
Proof.
  intros x a s A. apply is_int_iff in A. subst. unfold r_from_frac_bigint. change (nat_eq_u32 (bnat (BI nan s)) 0) with false. cbn [bneg].
  rewrite zint_clone. replace (if s then b_neg (zint a) else zint a) with (zint (if s then - a else a)) by (destruct s; [rewrite zint_opp|]; reflexivity).
  generalize (if s then - a else a). clear. intros a. unfold r_norm. cbn [rnum rden]. change (b_is_nan (b_abs (BI nan s))) with true. cbn [orb]. rewrite orb_true_r. cbn [bind].
  unfold r_from_bigint. rewrite zint_clone. do 3 f_equal. rewrite zint_not_nan, zint_nat, of_Z_eq_u32 by lia. destruct (Z.eqb_spec (Z.abs a) 0) as [E|]; [|reflexivity].
  replace a with 0 by lia. reflexivity.
Qed.
Theorem C72_from_frac_partial : forall checks n d, i64_range n -> i64_range d -> d <> 0 -> d <> - 2 ^ 63 -> (n <> - 2 ^ 63 \/ 0 < d) ->
  exists z, r_from_frac checks n d = Ok (Some z) /\ denotes z (inject_Z n / inject_Z d).
Proof. intros c n d A B C D E. destruct (from_frac_spec c n d A B C D E) as (z & F & G & _). eauto. Qed.
Theorem C72_from_frac_bigint_partial : forall x y a b, is_int x a -> is_int y b -> b <> 0 ->
  exists z, r_from_frac_bigint x y = Ok (Some z) /\ denotes z (inject_Z a / inject_Z b) /\ (a <> 0 -> lowest z).
Proof.
  intros x y a b A B NZ. apply is_int_iff in A, B. subst.
  destruct (from_frac_bigint_spec a b NZ) as (z & E & D & _ & L). eauto.
Qed.
Theorem C72_zero_denominator : forall checks n x y, is_int y 0 -> r_from_frac checks n 0 = Ok None /\ r_from_frac_bigint x y = Ok None.
Proof. intros c n x y A. apply is_int_iff in A. subst. split; reflexivity. Qed.
Theorem C72_from_integer : forall x a, is_int x a -> denotes (r_from_bigint x) (inject_Z a) /\ lowest (r_from_bigint x).
Proof.
  intros x a A. apply is_int_iff in A. subst. unfold r_from_bigint. rewrite zint_clone. change (b_from_u32 1) with (BI (of_Z 1) false). rewrite zint_mk by lia.
  assert (L : lowest (mk (a <? 0) (Z.abs a) false 1)).
  { apply lowest_mk; try lia. apply Z.gcd_1_r. }
  split; [|auto]. split; [apply ok_mk; lia|]. rewrite rvalue_mk by lia. unfold sgv. destruct (Z.ltb_spec a 0).
  - rewrite Z.abs_neq, Z.opp_involutive by lia. reflexivity.
  - rewrite Z.abs_eq by lia. reflexivity.
Qed.
Example C72_case : r_from_frac true (-6) (-4) = Ok (Some (mk false 3 false 2)) /\ r_from_frac true 0 (-4) = Ok (Some (mk false 0 false 4)) /\
  r_from_frac_bigint (zint (10 ^ 30)) (zint (- 10 ^ 29)) = Ok (Some (mk true 10 false 1)).
Proof. vm_compute. auto. Qed.
Print Assumptions C72_min_refuted.
Print Assumptions C72_nan_denominator_refuted.
Print Assumptions C72_from_frac_partial.
Print Assumptions C72_from_frac_bigint_partial.
Print Assumptions C72_zero_denominator.
Print Assumptions C72_from_integer.

(** ** C73
    Full claim: the predicates agree with the value.  False for parsed
    fractions that are not in lowest terms and for negative zero. *)
Theorem C73_is_integer_refuted : forall pf, exists x, r_from_str pf (str "4/2") = Ok (Some x) /\ (rvalue x == 2)%Q /\ r_is_integer x = Some false.
Proof. intros pf. exists (mk false 4 false 2). split; [reflexivity|]. split; reflexivity. Qed.
Theorem C73_signnum_refuted : forall pf, exists x, r_from_str pf (str "0/-5") = Ok (Some x) /\ (rvalue x == 0)%Q /\ r_signnum x = Some (-1).
Proof. intros pf. exists (mk true 0 false 5). split; [reflexivity|]. split; reflexivity. Qed.
Theorem C73_is_integer_partial : forall x, lowest x -> exists b, r_is_integer x = Some b /\ (b = true <-> exists a, (rvalue x == inject_Z a)%Q).
Proof.
  intros x H. destruct (lowest_inv x H) as (s & m & n & Hm & Hn & G & Z0 & ->).
  unfold r_is_integer. rewrite mk_nan by lia. rewrite rvalue_mk by lia. unfold mk. cbn [rnum rden bnat]. unfold b_eq_u32. cbn [bnat bneg negb andb].
  rewrite !of_Z_eq_u32 by lia. eexists. split; [reflexivity|]. split.
  - intros E. apply orb_true_iff in E. destruct E as [E|E]; apply Z.eqb_eq in E; subst.
    + exists 0. unfold sgv. destruct s; reflexivity.
    + exists (sgv s m). reflexivity.
  - intros [a E]. unfold Qeq, inject_Z in E. cbn [Qnum Qden] in E. rewrite Z2Pos.id in E by lia.
    assert (D : (n | m)). { destruct s; cbn [sgv] in E; [exists (- a)|exists a]; lia. }
    assert (n = 1). { apply Z.divide_gcd_iff in D; [|lia]. rewrite Z.gcd_comm in D. lia. }
    subst. apply orb_true_iff. right. reflexivity.
Qed.
Theorem C73_signnum_partial : forall x, ok_rat x -> unsigned_zero x -> r_signnum x = Some (Z.sgn (Qnum (rvalue x))).
Proof.
  intros x H U. rats. rewrite rvalue_mk by lia. cbn [Qnum]. unfold unsigned_zero, mk in U. cbn [rnum bnat bneg] in U. rewrite of_Z_val in U by lia.
  unfold r_signnum, mk, b_signnum, b_is_nan, b_eq_u32. cbn [rnum bnat bneg]. rewrite is_nan_of_Z, of_Z_eq_u32 by lia. unfold sgv.
  destruct s; cbn [negb andb].
  - assert (m <> 0) by (intros C; specialize (U C); discriminate). f_equal. destruct m; cbn; lia.
  - destruct (Z.eqb_spec m 0) as [->|]; [reflexivity|]. destruct m; [lia|reflexivity|lia].
Qed.
(** NaN: every Rat that an operation makes has the NaN in the numerator. *)
Theorem C73_nan : forall x,
  (r_is_integer x = None <-> r_is_nan x = true) /\ (r_signnum x = None <-> b_is_nan (rnum x) = true) /\
  r_is_integer r_nan = None /\ r_signnum r_nan = None.
Proof.
  intros x. unfold r_is_integer, r_signnum, b_signnum. split; [|split; [|split; reflexivity]].
  - destruct (r_is_nan x); split; congruence.
  - destruct (b_is_nan (rnum x)); [split; congruence|]. destruct (bneg (rnum x)), (nat_eq_u32 (bnat (rnum x)) 0); split; congruence.
Qed.
Example C73_case : r_is_integer (mk false 6 false 1) = Some true /\ r_is_integer (mk true 7 false 3) = Some false /\ r_signnum (mk true 7 false 3) = Some (-1) /\
  r_signnum (mk false 0 false 4) = Some 0.
Proof. vm_compute. auto. Qed.
Print Assumptions C73_is_integer_refuted.
Print Assumptions C73_signnum_refuted.
Print Assumptions C73_is_integer_partial.
Print Assumptions C73_signnum_partial.
Print Assumptions C73_nan.

(** ** C74
    Full claim: parsing the text of a Rat gives that Rat back.  False for the
    zero with negative denominator that division makes, and for NaN. *)
Theorem C74_zero_refuted : forall pf, exists x y z t w, lowest x /\ lowest y /\ r_div x y = Ok z /\ r_fmt_display z = Ok t /\
  r_from_str pf t = Ok (Some w) /\ r_eq z w = false.
Proof.
  intros pf. exists (mk false 0 false 1), (mk true 6 false 1), (mk false 0 true 6), (str "0/-6"), (mk true 0 false 6).
  split; [apply lowest_mk; try lia; reflexivity|]. split; [apply lowest_mk; try lia; reflexivity|].
  split; [vm_compute; reflexivity|]. split; [vm_compute; reflexivity|]. split; vm_compute; reflexivity.
Qed.
Theorem C74_nan_refuted : forall pf x, r_is_nan x = true -> r_fmt_display x = Ok (str "NaN") /\ r_from_str pf (str "NaN") = Ok None.
Proof. intros pf x H. unfold r_fmt_display. rewrite H. split; reflexivity. Qed.
Lemma rt_form x : bcanon (rnum x) -> bcanon (rden x) -> 0 < bvalue (rden x) ->
  exists a b, 0 < b /\ rnum x = zint a /\ rden x = zint b /\ x = mk (negb (eqb (a <? 0) (b <? 0))) (Z.abs a) false (Z.abs b).
Proof.
  intros A B P. exists (bvalue (rnum x)), (bvalue (rden x)). split; [auto|].
  assert (EA : rnum x = zint (bvalue (rnum x))) by (apply is_int_iff; split; auto).
  assert (EB : rden x = zint (bvalue (rden x))) by (apply is_int_iff; split; auto).
  split; [auto|]. split; [auto|]. set (a := bvalue (rnum x)) in *. set (b := bvalue (rden x)) in *. clearbody a b.
  destruct x as [p q]. cbn [rnum rden] in *. subst p q. rewrite (proj2 (Z.ltb_ge b 0)) by lia.
  unfold mk. f_equal; [|].
  - replace (negb (eqb (a <? 0) false)) with (a <? 0) by (destruct (a <? 0); reflexivity). rewrite <- zint_nat, <- zint_neg. destruct (zint a); reflexivity.
  - rewrite <- zint_nat. rewrite <- (proj2 (Z.ltb_ge b 0)) at 1 by lia. rewrite <- zint_neg. destruct (zint b); reflexivity.
Qed.
Theorem C74_display_partial : forall pf x, bcanon (rnum x) -> bcanon (rden x) -> 0 < bvalue (rden x) ->
  exists t, r_fmt_display x = Ok t /\ r_from_str pf t = Ok (Some x).
Proof.
  intros pf x A B P. destruct (rt_form x A B P) as (a & b & Hb & EA & EB & EX).
  destruct (display_clean a) as (u & Eu & Cu & Pu). destruct (display_clean b) as (v & Ev & Cv & Pv).
  exists (u ++ 47 :: v). split.
  - unfold r_fmt_display, r_is_nan. rewrite EA, EB, !zint_not_nan. cbn [orb]. rewrite Eu, Ev. reflexivity.
  - rewrite (roundtrip_texts pf u v a b) by (auto; lia). rewrite <- EX. reflexivity.
Qed.
Theorem C74_radix_partial : forall pf x, bcanon (rnum x) -> bcanon (rden x) -> 0 < bvalue (rden x) ->
  r_from_str pf (r_fmt_lower_hex true x) = Ok (Some x) /\ r_from_str pf (r_fmt_upper_hex true x) = Ok (Some x) /\
  r_from_str pf (r_fmt_octal true x) = Ok (Some x) /\ r_from_str pf (r_fmt_binary true x) = Ok (Some x).
Proof.
  intros pf x A B P. destruct (rt_form x A B P) as (a & b & Hb & EA & EB & EX).
  unfold r_fmt_lower_hex, r_fmt_upper_hex, r_fmt_octal, r_fmt_binary, r_text, r_is_nan. rewrite EA, EB, !zint_not_nan. cbn [orb].
  destruct (prefixed_clean a) as (A1 & A2 & A3 & A4). destruct (prefixed_clean b) as (B1 & B2 & B3 & B4).
  assert (IA : is_int (zint a) a) by (apply is_int_zint). assert (IB : is_int (zint b) b) by (apply is_int_zint).
  destruct (C45_parse_prefixed _ _ IA) as (F1 & F2 & F3 & F4). destruct (C45_parse_prefixed _ _ IB) as (G1 & G2 & G3 & G4).
  split; [|split; [|split]]; (rewrite (roundtrip_texts pf _ _ a b); [rewrite <- EX; reflexivity|auto|auto|lia|auto|auto]).
Qed.
Theorem C74_lowest_partial : forall pf x, lowest x -> exists t, r_fmt_display x = Ok t /\ r_from_str pf t = Ok (Some x).
Proof. intros pf x (A & B & C & _). apply C74_display_partial; auto. Qed.
Example C74_case : r_fmt_display (mk true 22 false 7) = Ok (str "-22/7") /\ r_fmt_lower_hex true (mk true 255 false 16) = str "-0xff/0x10".
Proof. vm_compute. auto. Qed.
Print Assumptions C74_zero_refuted.
Print Assumptions C74_nan_refuted.
Print Assumptions C74_display_partial.
Print Assumptions C74_radix_partial.
Print Assumptions C74_lowest_partial.

(** ** C75 *)
Theorem C75_operators : forall x y, r_is_nan x = true \/ r_is_nan y = true ->
  r_add x y = Ok r_nan /\ r_sub x y = Ok r_nan /\ r_mul x y = Ok r_nan /\ r_div x y = Ok r_nan.
Proof.
  intros x y H. assert (E : r_is_nan x || r_is_nan y = true) by (destruct H as [->| ->]; [|rewrite orb_true_r]; reflexivity).
  unfold r_add, r_sub, r_mul, r_div, r_op2. rewrite E. auto.
Qed.
Theorem C75_assign : forall x y, r_is_nan x = true \/ r_is_nan y = true ->
  exists z1 z2 z3, r_op2_assign r_add_inner x y = Ok z1 /\ r_op2_assign r_sub_inner x y = Ok z2 /\ r_op2_assign r_div_inner x y = Ok z3 /\
    r_is_nan z1 = true /\ r_is_nan z2 = true /\ r_is_nan z3 = true.
Proof.
  intros x y H. assert (E : r_is_nan x || r_is_nan y = true) by (destruct H as [->| ->]; [|rewrite orb_true_r]; reflexivity).
  unfold r_op2_assign. rewrite E. exists (r_clear x), (r_clear x), (r_clear x). auto 10.
Qed.
Theorem C75_unary : forall x, r_is_nan x = true -> r_is_nan (r_neg x) = true /\ r_is_nan (r_abs x) = true /\
  exists z, r_inv x = Some z /\ r_is_nan z = true.
Proof.
  intros x H. unfold r_neg, r_inv. rewrite H. split; [reflexivity|]. split; [auto|]. exists r_nan. auto.
Qed.
(** [*=] does not look at its right operand; NaN still comes out if only the
    numerator is NaN, which is how every NaN is built. *)
Theorem C75_mul_assign : forall x y, ok_rat x \/ r_is_nan x = true -> ok_rat y \/ (b_is_nan (rnum y) = true /\ canon (bnat (rden y)) /\ 0 < nval (bnat (rden y))) ->
  exists z, r_mul_assign x y = Ok z /\ (r_is_nan x = true \/ r_is_nan y = true <-> r_is_nan z = true).
Proof.
  intros x y Hx Hy. unfold r_mul_assign. destruct (r_is_nan x) eqn:NX.
  { exists (r_clear x). split; [reflexivity|]. split; auto. }
  destruct Hx as [Hx|Hx]; [|congruence]. destruct Hy as [Hy|(Ny & Cy & Py)].
  - destruct (r_mul_inner_spec x y Hx Hy) as (z & E & [OK _] & _). exists z. split; [auto|]. rats. rewrite !mk_nan by lia. intuition congruence.
  - assert (YN : r_is_nan y = true) by (unfold r_is_nan; rewrite Ny; reflexivity).
    unfold r_mul_inner. assert (C : r_eq x y = false) by (apply C49_nan; auto). rewrite C.
    assert (BM : b_is_nan (b_mul (rnum x) (rnum y)) = true).
    { unfold b_mul, nat_mul, op2, b_signed, b_is_nan in *. rewrite Ny, orb_true_r. reflexivity. }
    unfold r_norm. cbn [rnum rden]. rewrite BM. cbn [orb].
    eexists. split; [reflexivity|]. split; [|intros _; right; exact YN].
    intros _. unfold r_is_nan. cbn [rnum]. unfold b_is_nan in *. cbn [bnat]. rewrite BM. reflexivity.
Qed.
Theorem C75_no_other_panic : forall x y, ok_rat x -> ok_rat y ->
  r_add x y <> Panic /\ r_sub x y <> Panic /\ r_mul x y <> Panic /\ (r_div x y = Panic <-> (rvalue y == 0)%Q).
Proof.
  intros x y Hx Hy. destruct (C48_add x y Hx Hy) as (? & -> & _). destruct (C48_sub x y Hx Hy) as (? & -> & _).
  destruct (C48_mul x y Hx Hy) as (? & -> & _). do 3 (split; [discriminate|]). split.
  - intros E. destruct (Qeq_dec (rvalue y) 0) as [|N]; [auto|]. destruct (C48_div x y Hx Hy N) as (? & E' & _). congruence.
  - apply C48_div_by_zero; auto.
Qed.
Example C75_case : r_add r_nan (mk false 1 false 2) = Ok r_nan /\ r_mul_assign (mk false 1 false 2) r_nan = Ok (RT (BI nan false) (zint 2)).
Proof. vm_compute. auto. Qed.
Print Assumptions C75_operators.
Print Assumptions C75_assign.
Print Assumptions C75_unary.
Print Assumptions C75_mul_assign.
Print Assumptions C75_no_other_panic.
