(** Lemmas about [BigInt]: canonical values are [zint n], and every operation
    is described by rewriting on [zint]. *)
From Coq Require Import ZArith List Lia Bool.
From Verif Require Import Words Spec WordsFacts NatModel NatFacts NatFacts2 NatFacts3 NatFacts4 NatFacts5
  NatConv NatPow NatPowFacts BigInt SpecInt.
Import ListNotations.
Open Scope Z_scope.

Definition zint (n : Z) : bigint := BI (of_Z (Z.abs n)) (n <? 0).

Lemma zint_nat n : bnat (zint n) = of_Z (Z.abs n). Proof. reflexivity. Qed.
Lemma zint_neg n : bneg (zint n) = (n <? 0). Proof. reflexivity. Qed.
Lemma abs_val n : nval (of_Z (Z.abs n)) = Z.abs n. Proof. apply of_Z_val. lia. Qed.
Lemma abs_canon n : canon (of_Z (Z.abs n)). Proof. apply of_Z_canon. lia. Qed.
Lemma bvalue_zint n : bvalue (zint n) = n.
Proof.
  unfold bvalue. rewrite zint_nat, zint_neg, abs_val. destruct (Z.ltb_spec n 0); lia.
Qed.
Lemma bcanon_zint n : bcanon (zint n).
Proof.
  split; [apply abs_canon|]. rewrite zint_nat, zint_neg, abs_val. intros. apply Z.ltb_ge. lia.
Qed.
Lemma is_int_zint n : is_int (zint n) n.
Proof. split; [apply bcanon_zint|apply bvalue_zint]. Qed.
Lemma zint_unique x n : is_int x n -> x = zint n.
Proof.
  intros [[C Z0] E]. destruct x as [l s]. unfold zint, bvalue in *. cbn [bnat bneg] in *.
  pose proof (canon_nonneg l C). f_equal.
  - symmetry. rewrite <- (of_Z_nval l C) at 1. f_equal. destruct s; lia.
  - destruct s; [|symmetry; apply Z.ltb_ge; lia]. symmetry. apply Z.ltb_lt.
    destruct (Z.eq_dec (nval l) 0) as [E0|]; [specialize (Z0 E0); discriminate|lia].
Qed.
Lemma bcanon_eq x : bcanon x -> x = zint (bvalue x).
Proof. intros. apply zint_unique. split; auto. Qed.
Lemma is_int_iff x n : is_int x n <-> x = zint n.
Proof. split; [apply zint_unique|intros ->; apply is_int_zint]. Qed.
Lemma zint_inj a b : zint a = zint b -> a = b.
Proof. intros H. rewrite <- (bvalue_zint a), <- (bvalue_zint b), H. reflexivity. Qed.

(** Building a canonical value from a magnitude and a sign. *)
Lemma zint_intro n (s : bool) m : 0 <= m -> n = (if s then - m else m) -> (m = 0 -> s = false) ->
  BI (of_Z m) s = zint n.
Proof.
  intros Hm -> Hs. unfold zint. f_equal.
  - f_equal. destruct s; lia.
  - destruct s; [|symmetry; apply Z.ltb_ge; lia]. symmetry. apply Z.ltb_lt.
    destruct (Z.eq_dec m 0) as [E|]; [specialize (Hs E); discriminate|lia].
Qed.

Lemma is_nan_of_Z n : 0 <= n -> is_nan (of_Z n) = false.
Proof. intros. apply is_nan_canon, of_Z_canon; auto. Qed.
Lemma zint_not_nan n : b_is_nan (zint n) = false.
Proof. unfold b_is_nan. apply is_nan_of_Z. cbn. lia. Qed.
Lemma of_Z_eq_u32 n w : 0 <= n -> 0 <= w < W -> nat_eq_u32 (of_Z n) w = (n =? w).
Proof. intros. rewrite nat_eq_u32_spec by (try apply of_Z_canon; auto). rewrite of_Z_val by auto. reflexivity. Qed.
Lemma zint_is_negative n : b_is_negative (zint n) = (n <? 0).
Proof. unfold b_is_negative. rewrite zint_not_nan. reflexivity. Qed.
Lemma zint_is_positive n : b_is_positive (zint n) = (0 <? n).
Proof.
  unfold b_is_positive. rewrite zint_not_nan, zint_nat, zint_neg, of_Z_eq_u32 by lia.
  cbn [negb andb]. destruct (Z.ltb_spec n 0), (Z.eqb_spec (Z.abs n) 0), (Z.ltb_spec 0 n); cbn; lia.
Qed.
Lemma zint_eq_u32 n w : 0 <= w < W -> b_eq_u32 (zint n) w = (n =? w).
Proof.
  intros. unfold b_eq_u32. rewrite zint_nat, zint_neg, of_Z_eq_u32 by lia.
  destruct (Z.ltb_spec n 0), (Z.eqb_spec (Z.abs n) w), (Z.eqb_spec n w); cbn; lia.
Qed.
Lemma zint_eq a b : b_eq (zint a) (zint b) = (a =? b).
Proof.
  unfold b_eq. rewrite !zint_nat, !zint_neg, nat_eq_spec by apply abs_canon. rewrite !abs_val.
  destruct (Z.ltb_spec a 0), (Z.ltb_spec b 0), (Z.eqb_spec (Z.abs a) (Z.abs b)), (Z.eqb_spec a b);
    cbn; lia.
Qed.
Lemma zint_cmp a b : b_cmp (zint a) (zint b) = Some (a ?= b).
Proof.
  unfold b_cmp. rewrite !zint_not_nan, !zint_neg, !zint_nat, partial_cmp_spec by apply abs_canon.
  rewrite !abs_val. cbn [orb].
  destruct (Z.ltb_spec a 0), (Z.ltb_spec b 0); cbn [option_map].
  - rewrite !Z.abs_neq by lia. rewrite Z.compare_opp, <- Z.compare_antisym. reflexivity.
  - f_equal. symmetry. apply Z.compare_lt_iff. lia.
  - f_equal. symmetry. apply Z.compare_gt_iff. lia.
  - rewrite !Z.abs_eq by lia. reflexivity.
Qed.
Lemma zint_lt a b : b_lt (zint a) (zint b) = (a <? b).
Proof. unfold b_lt. rewrite zint_cmp. reflexivity. Qed.
Lemma zint_gt a b : b_gt (zint a) (zint b) = (a >? b).
Proof. unfold b_gt. rewrite zint_cmp. reflexivity. Qed.
Lemma zint_ge a b : b_ge (zint a) (zint b) = (a >=? b).
Proof. unfold b_ge. rewrite zint_cmp. unfold Z.geb. destruct (a ?= b); reflexivity. Qed.

Lemma b_signed_zint m s : 0 <= m -> b_signed (of_Z m) s = zint (if s then - m else m).
Proof.
  intros. unfold b_signed. rewrite is_nan_of_Z, of_Z_eq_u32 by lia. cbn [orb].
  destruct (Z.eqb_spec m 0) as [->|]; apply zint_intro; auto; try lia.
  destruct s; reflexivity.
Qed.

Lemma nat_add_of_Z m n : 0 <= m -> 0 <= n -> nat_add (of_Z m) (of_Z n) = of_Z (m + n).
Proof. intros. unfold nat_add. rewrite op2_canon by (apply of_Z_canon; auto). apply add_of_Z; auto. Qed.
Lemma nat_sub_of_Z m n : 0 <= m -> 0 <= n -> nat_sub (of_Z m) (of_Z n) = of_Z (Z.abs (m - n)).
Proof. intros. unfold nat_sub. rewrite op2_canon by (apply of_Z_canon; auto). apply sub_of_Z; auto. Qed.
Lemma nat_mul_of_Z m n : 0 <= m -> 0 <= n -> nat_mul (of_Z m) (of_Z n) = of_Z (m * n).
Proof. intros. unfold nat_mul. rewrite op2_canon by (apply of_Z_canon; auto). apply mul_of_Z; auto. Qed.
Lemma nat_div_of_Z m n : 0 <= m -> 0 < n -> nat_div (of_Z m) (of_Z n) = Ok (of_Z (m / n)).
Proof. intros. unfold nat_div. rewrite op2r_canon by (apply of_Z_canon; lia). apply div_of_Z; auto. Qed.
Lemma nat_rem_of_Z' m n : 0 <= m -> 0 < n -> nat_rem (of_Z m) (of_Z n) = Ok (of_Z (m mod n)).
Proof. intros. unfold nat_rem. rewrite op2r_canon by (apply of_Z_canon; lia). apply rem_of_Z; auto. Qed.
Lemma nat_lt_of_Z m n : 0 <= m -> 0 <= n -> nat_lt (of_Z m) (of_Z n) = (m <? n).
Proof. intros. rewrite nat_lt_spec by (apply of_Z_canon; auto). rewrite !of_Z_val by auto. reflexivity. Qed.

(** Sign and canonical magnitude, zero possibly negative: what [/] and [%]
    can leave behind. *)
Definition sgv (s : bool) (m : Z) : Z := if s then - m else m.
Lemma zint_sgv n : zint n = BI (of_Z (Z.abs n)) (n <? 0). Proof. reflexivity. Qed.
Lemma sgv_zint n : sgv (n <? 0) (Z.abs n) = n.
Proof. unfold sgv. destruct (Z.ltb_spec n 0); lia. Qed.

Lemma gen_add s m t n : 0 <= m -> 0 <= n ->
  b_add (BI (of_Z m) s) (BI (of_Z n) t) = zint (sgv s m + sgv t n).
Proof.
  intros. unfold b_add, sgv. cbn [bnat bneg].
  rewrite nat_add_of_Z, nat_sub_of_Z, nat_lt_of_Z by lia. rewrite !b_signed_zint by lia.
  destruct s, t; cbn [eqb]; f_equal; try lia;
    destruct (Z.ltb_spec m n); cbn [negb]; lia.
Qed.
Lemma gen_sub s m t n : 0 <= m -> 0 <= n ->
  b_sub (BI (of_Z m) s) (BI (of_Z n) t) = zint (sgv s m - sgv t n).
Proof.
  intros. unfold b_sub, sgv. cbn [bnat bneg].
  rewrite nat_add_of_Z, nat_sub_of_Z, nat_lt_of_Z by lia. rewrite !b_signed_zint by lia.
  destruct s, t; cbn [eqb negb]; f_equal; try lia;
    destruct (Z.ltb_spec m n); cbn [negb]; lia.
Qed.
Lemma gen_mul s m t n : 0 <= m -> 0 <= n ->
  b_mul (BI (of_Z m) s) (BI (of_Z n) t) = zint (sgv s m * sgv t n).
Proof.
  intros. unfold b_mul, sgv. cbn [bnat bneg]. rewrite nat_mul_of_Z by lia.
  rewrite b_signed_zint by (apply Z.mul_nonneg_nonneg; lia). f_equal.
  destruct s, t; cbn [eqb negb]; lia.
Qed.
Lemma zint_add a b : b_add (zint a) (zint b) = zint (a + b).
Proof. rewrite (zint_sgv a), (zint_sgv b), gen_add, !sgv_zint by lia. reflexivity. Qed.
Lemma zint_sub a b : b_sub (zint a) (zint b) = zint (a - b).
Proof. rewrite (zint_sgv a), (zint_sgv b), gen_sub, !sgv_zint by lia. reflexivity. Qed.
Lemma zint_mul a b : b_mul (zint a) (zint b) = zint (a * b).
Proof. rewrite (zint_sgv a), (zint_sgv b), gen_mul, !sgv_zint by lia. reflexivity. Qed.
Lemma zint_opp a : b_neg (zint a) = zint (- a).
Proof.
  unfold b_neg. rewrite zint_not_nan, zint_eq_u32 by lia.
  destruct (Z.eqb_spec a 0) as [->|]; [reflexivity|].
  rewrite zint_nat, zint_neg. apply zint_intro; try lia; destruct (Z.ltb_spec a 0); cbn [negb]; lia.
Qed.
Lemma zint_abs a : b_abs (zint a) = zint (Z.abs a).
Proof. unfold b_abs. rewrite zint_nat, trim_canon_id by (apply of_Z_canon; lia). apply zint_intro; auto; lia. Qed.

Lemma quot_abs_cases a b : b <> 0 ->
  Z.quot a b = (if eqb (a <? 0) (b <? 0) then Z.abs a / Z.abs b else - (Z.abs a / Z.abs b)).
Proof.
  intros Hb. assert (HA : 0 <= Z.abs a) by lia. assert (HB : 0 < Z.abs b) by lia.
  rewrite <- (Z.quot_div_nonneg _ _ HA HB).
  destruct (Z.ltb_spec a 0), (Z.ltb_spec b 0); cbn [eqb].
  - rewrite !Z.abs_neq by lia. rewrite Z.quot_opp_opp by auto. reflexivity.
  - rewrite Z.abs_neq, Z.abs_eq by lia. rewrite Z.quot_opp_l by auto. lia.
  - rewrite Z.abs_eq, Z.abs_neq by lia. rewrite Z.quot_opp_r by auto. lia.
  - rewrite !Z.abs_eq by lia. reflexivity.
Qed.
Lemma rem_abs_cases a b : b <> 0 ->
  Z.rem a b = (if a <? 0 then - (Z.abs a mod Z.abs b) else Z.abs a mod Z.abs b).
Proof.
  intros Hb. assert (HA : 0 <= Z.abs a) by lia. assert (HB : 0 < Z.abs b) by lia.
  rewrite <- (Z.rem_mod_nonneg _ _ HA HB). rewrite Z.rem_abs_r by auto.
  destruct (Z.ltb_spec a 0).
  - rewrite Z.abs_neq by lia. rewrite Z.rem_opp_l by auto. lia.
  - rewrite Z.abs_eq by lia. reflexivity.
Qed.
Lemma b_div_raw a b : b <> 0 -> b_div (zint a) (zint b) =
  Ok (BI (of_Z (Z.abs a / Z.abs b)) (negb (eqb (a <? 0) (b <? 0)) && negb (a =? 0))).
Proof.
  intros Hb. unfold b_div. rewrite !zint_nat, !zint_neg, of_Z_eq_u32 by lia.
  destruct (Z.eqb_spec (Z.abs b) 0); [lia|].
  rewrite nat_div_of_Z by lia. cbn [bind]. do 2 f_equal.
  change (from_u32 0) with [0]. rewrite <- (of_Z_small 0) by lia.
  rewrite partial_cmp_spec by (apply of_Z_canon; lia). rewrite !of_Z_val by lia.
  destruct (eqb (a <? 0) (b <? 0)); [reflexivity|]. cbn [negb andb].
  destruct (Z.compare_spec (Z.abs a) 0), (Z.eqb_spec a 0); cbn; lia.
Qed.
Lemma zint_div a b : b <> 0 -> Z.quot a b <> 0 \/ (0 <= a /\ 0 < b) \/ a = 0 ->
  b_div (zint a) (zint b) = Ok (zint (Z.quot a b)).
Proof.
  intros Hb Hq. rewrite b_div_raw by auto. f_equal.
  pose proof (Z.div_pos (Z.abs a) (Z.abs b)).
  pose proof (quot_abs_cases a b Hb) as QE.
  apply zint_intro; [lia|..].
  - rewrite QE. destruct (Z.eqb_spec a 0) as [->|]; [rewrite !Z.div_0_l by lia; now destruct eqb|].
    destruct (eqb (a <? 0) (b <? 0)); reflexivity.
  - intros E0. rewrite E0 in QE. destruct (Z.eqb_spec a 0); [now destruct eqb|].
    destruct Hq as [Hq|[Hq|Hq]].
    + exfalso. apply Hq. rewrite QE. destruct eqb; reflexivity.
    + destruct (Z.ltb_spec a 0), (Z.ltb_spec b 0); try lia; reflexivity.
    + contradiction.
Qed.
Lemma b_div_zero a : b_div a (zint 0) = Panic.
Proof. unfold b_div. rewrite zint_nat, of_Z_eq_u32 by lia. reflexivity. Qed.
Lemma b_rem_raw a b : b <> 0 -> b_rem (zint a) (zint b) =
  Ok (BI (of_Z (Z.abs a mod Z.abs b)) (a <? 0)).
Proof.
  intros Hb. unfold b_rem. rewrite !zint_nat, !zint_neg, of_Z_eq_u32 by lia.
  destruct (Z.eqb_spec (Z.abs b) 0); [lia|].
  rewrite nat_rem_of_Z' by lia. reflexivity.
Qed.
Lemma zint_rem a b : b <> 0 -> 0 <= a \/ Z.rem a b <> 0 ->
  b_rem (zint a) (zint b) = Ok (zint (Z.rem a b)).
Proof.
  intros Hb Ha. rewrite b_rem_raw by auto. f_equal.
  pose proof (Z.mod_pos_bound (Z.abs a) (Z.abs b)).
  pose proof (rem_abs_cases a b Hb) as RE.
  apply zint_intro; [lia|auto|].
  intros E0. rewrite E0 in RE. destruct (Z.ltb_spec a 0); [lia|reflexivity].
Qed.
Lemma b_rem_zero a : b_rem a (zint 0) = Panic.
Proof. unfold b_rem. rewrite zint_nat, of_Z_eq_u32 by lia. reflexivity. Qed.

Lemma rem_nonneg_mod a b : 0 <= a -> b <> 0 -> Z.rem a b = a mod Z.abs b.
Proof. intros. rewrite rem_abs_cases by auto. destruct (Z.ltb_spec a 0); [lia|]. rewrite Z.abs_eq by lia. reflexivity. Qed.
Lemma neg_mod_abs a n : n <> 0 -> a < 0 ->
  Z.abs n - Z.abs a mod Z.abs n = (if a mod Z.abs n =? 0 then Z.abs n else a mod Z.abs n).
Proof.
  intros Hn Ha. rewrite (Z.abs_neq a) by lia.
  destruct (Z.eqb_spec (a mod Z.abs n) 0) as [E|E].
  - rewrite Z.mod_opp_l_z by (auto; lia). lia.
  - rewrite Z.mod_opp_l_nz by (auto; lia). lia.
Qed.

Lemma zint_rem_euclid a n : n <> 0 -> b_rem_euclid (zint a) (zint n) =
  Ok (zint (if (a <? 0) && (a mod Z.abs n =? 0) then Z.abs n else a mod Z.abs n)).
Proof.
  intros Hn. unfold b_rem_euclid. rewrite b_rem_raw by auto. cbn [bind]. f_equal.
  pose proof (Z.mod_pos_bound (Z.abs a) (Z.abs n)) as B.
  rewrite zint_is_negative. unfold b_is_negative at 1, b_is_nan. cbn [bnat bneg].
  rewrite is_nan_of_Z by lia. cbn [negb andb].
  rewrite (zint_sgv n), gen_add, gen_sub by lia. rewrite sgv_zint. unfold sgv.
  destruct (Z.ltb_spec a 0); cbn [andb].
  - rewrite <- neg_mod_abs by auto. destruct (Z.ltb_spec n 0); f_equal; lia.
  - rewrite (Z.abs_eq a) in * by lia. apply zint_intro; auto; lia.
Qed.

Lemma zint_rem_euclid_pos a n : 0 <= a -> n <> 0 ->
  b_rem_euclid (zint a) (zint n) = Ok (zint (a mod Z.abs n)).
Proof.
  intros. rewrite zint_rem_euclid by auto. destruct (Z.ltb_spec a 0); [lia|reflexivity].
Qed.

Lemma zint_one : b_from_i32 1 = zint 1. Proof. reflexivity. Qed.
Lemma zint_zero : b_from_i32 0 = zint 0. Proof. reflexivity. Qed.
Lemma zint_mone : b_from_i32 (-1) = zint (-1). Proof. reflexivity. Qed.
Lemma zint_u32 w : 0 <= w < W -> b_from_u32 w = zint w.
Proof.
  intros. unfold b_from_u32, from_u32. rewrite <- of_Z_small by auto. apply zint_intro; auto; lia.
Qed.

Lemma zint_div_euclid a n : n <> 0 -> ~ (0 < a < - n) -> b_div_euclid (zint a) (zint n) =
  Ok (zint (if a <? 0 then Z.quot a n - Z.sgn n else Z.quot a n)).
Proof.
  intros Hn Hx. unfold b_div_euclid. rewrite b_rem_raw, b_div_raw by auto. cbn [bind]. f_equal.
  pose proof (Z.mod_pos_bound (Z.abs a) (Z.abs n)) as B.
  pose proof (Z.div_pos (Z.abs a) (Z.abs n)) as D.
  rewrite zint_is_positive. unfold b_is_negative, b_is_nan. cbn [bnat bneg].
  rewrite is_nan_of_Z by lia. cbn [negb andb].
  rewrite zint_one, (zint_sgv 1), gen_add, gen_sub by lia. rewrite sgv_zint. unfold sgv.
  rewrite quot_abs_cases by auto.
  destruct (Z.ltb_spec a 0), (Z.ltb_spec n 0), (Z.eqb_spec a 0), (Z.ltb_spec 0 n);
    cbn [eqb negb andb]; try lia; try (f_equal; lia);
    (apply zint_intro; [lia| |auto]; try lia).
  all: try (subst a; rewrite Z.abs_0, Z.div_0_l by lia; lia).
  intros E0. apply Z.div_small_iff in E0; lia.
Qed.

Lemma b_div_euclid_negzero a n : 0 < a < - n -> b_div_euclid (zint a) (zint n) = Ok (BI [0] true).
Proof.
  intros Hx. unfold b_div_euclid. rewrite b_rem_raw, b_div_raw by lia. cbn [bind]. f_equal.
  unfold b_is_negative, b_is_nan. cbn [bnat bneg].
  pose proof (Z.mod_pos_bound (Z.abs a) (Z.abs n)) as B.
  rewrite is_nan_of_Z by lia. cbn [negb andb].
  destruct (Z.ltb_spec a 0), (Z.ltb_spec n 0), (Z.eqb_spec a 0); try lia. cbn [eqb negb andb].
  rewrite Z.div_small by lia. reflexivity.
Qed.

(* ------------------------------------------------------------------ *)
(** * [- 1u32] and [+ 1u32] around the bit operators *)

Lemma sub1_spec n : 0 < n -> exists l, nat_sub_u32 (of_Z n) 1 = l /\ words_ok l /\ l <> [] /\
  nval l = n - 1 /\ length l = length (of_Z n).
Proof.
  intros Hn. assert (C : canon (of_Z n)) by (apply of_Z_canon; lia).
  exists (nat_sub_u32 (of_Z n) 1). split; [reflexivity|]. unfold nat_sub_u32. rewrite op1_canon by auto.
  destruct (sub_basic_spec (of_Z n) 1 C) as (V & Wd & L); [lia|]. rewrite of_Z_val in V by lia.
  split; [auto|]. split; [|split; [lia|auto]].
  pose proof (canon_len_pos _ C). intros E. rewrite E in L. cbn in L. lia.
Qed.

(** Adding 1 to words whose value plus 1 needs all of them. *)
Lemma add1_of_Z l : words_ok l -> l <> [] -> ((1 < length l)%nat -> Wp (length l - 1) <= nval l + 1) ->
  nat_add_u32 l 1 = of_Z (nval l + 1).
Proof.
  intros Wl Nl Hl. unfold nat_add_u32, op1.
  assert (is_nan l = false) as -> by (destruct l; [congruence|reflexivity]).
  rewrite add_basic_as_add by auto. pose proof (nval_nonneg l Wl) as NN.
  assert (W1 : words_ok [1]) by (repeat constructor; lia).
  assert (V : nval (add_inner l [1]) = nval l + 1) by (rewrite add_inner_val by auto; cbn [nval]; lia).
  apply of_Z_unique; [|auto]. apply canon_intro; [apply add_inner_words; auto| |].
  - unfold add_inner. destruct l as [|x l0]; [congruence|]. cbn [add_loop]. destruct adc. discriminate.
  - rewrite V. unfold add_inner. pose proof (add_loop_len l 0 [1] Wl W1 ltac:(lia)) as AL.
    cbn [length] in AL. assert (LP : (1 <= length l)%nat) by (destruct l; [congruence|cbn; lia]).
    rewrite Nat.max_l in AL by lia. intros HL.
    destruct AL as [AL|[AL AG]]; rewrite AL in *; [auto|].
    replace (S (length l) - 1)%nat with (length l) by lia. cbn [nval] in AG. lia.
Qed.

Lemma bitand_words a b : words_ok a -> words_ok b -> a <> [] -> b <> [] ->
  nat_bitand a b = of_Z (Z.land (nval a) (nval b)).
Proof.
  intros Wa Wb Na Nb. unfold nat_bitand, op2.
  assert (is_nan a = false) as -> by (destruct a; [congruence|reflexivity]).
  assert (is_nan b = false) as -> by (destruct b; [congruence|reflexivity]).
  cbn [orb]. unfold bitand_inner. destruct (zip_land a b Wa Wb) as [V Wr].
  rewrite trim_of_Z, V; auto. destruct a, b; try congruence. cbn [zip_with skipn length app Nat.min firstn]. discriminate.
Qed.
Lemma bitxor_words a b : words_ok a -> words_ok b -> a <> [] -> b <> [] ->
  nat_bitxor a b = of_Z (Z.lxor (nval a) (nval b)).
Proof.
  intros Wa Wb Na Nb. unfold nat_bitxor, op2.
  assert (is_nan a = false) as -> by (destruct a; [congruence|reflexivity]).
  assert (is_nan b = false) as -> by (destruct b; [congruence|reflexivity]).
  cbn [orb]. unfold bitxor_inner. destruct (zip_lxor a b Wa Wb) as (V & Wr & L).
  rewrite trim_of_Z, V; auto. destruct a, b; try congruence. cbn [zip_with skipn length app Nat.min firstn]. discriminate.
Qed.
Lemma and_not_words a b : words_ok a -> words_ok b -> a <> [] ->
  and_not a b = of_Z (Z.ldiff (nval a) (nval b)).
Proof.
  intros Wa Wb Na. unfold and_not. destruct (zip_ldiff a b Wa Wb) as (V & Wr & L).
  rewrite trim_of_Z, V; auto. destruct a, b; try congruence; cbn [zip_with skipn length app]; discriminate.
Qed.
Lemma bitor_words a b : words_ok a -> words_ok b -> a <> [] -> b <> [] ->
  exists l, nat_bitor a b = l /\ words_ok l /\ l <> [] /\ nval l = Z.lor (nval a) (nval b) /\
    length l = Nat.max (length a) (length b).
Proof.
  intros Wa Wb Na Nb. exists (nat_bitor a b). split; [reflexivity|]. unfold nat_bitor, op2.
  assert (is_nan a = false) as -> by (destruct a; [congruence|reflexivity]).
  assert (is_nan b = false) as -> by (destruct b; [congruence|reflexivity]).
  cbn [orb]. unfold bitor_inner. destruct (zip_lor a b Wa Wb) as (V & Wr & L).
  split; [auto|]. split; [|auto]. destruct a, b; try congruence; cbn [zip_with skipn length app]; discriminate.
Qed.

(** (x-1) | m followed by + 1 is canonical for [m] no longer than its value
    forces. *)
Lemma bitor_add1 n l : 0 < n -> words_ok l -> l <> [] ->
  ((1 < length l)%nat -> Wp (length l - 1) <= nval l + 1) ->
  nat_add_u32 (nat_bitor (nat_sub_u32 (of_Z n) 1) l) 1 = of_Z (Z.lor (n - 1) (nval l) + 1).
Proof.
  intros Hn Wl Nl Hl. destruct (sub1_spec n Hn) as (a & -> & Wa & Na & Va & La).
  destruct (bitor_words a l Wa Wl Na Nl) as (r & -> & Wr & Nr & Vr & Lr).
  rewrite Va in Vr. rewrite add1_of_Z; [congruence|auto|auto|].
  rewrite Vr, Lr. intros HL. pose proof (nval_nonneg l Wl).
  pose proof (lor_ge_l (n - 1) (nval l) ltac:(lia) ltac:(lia)).
  pose proof (lor_ge_l (nval l) (n - 1) ltac:(lia) ltac:(lia)) as G2. rewrite Z.lor_comm in G2.
  assert (C : canon (of_Z n)) by (apply of_Z_canon; lia).
  destruct (Nat.max_spec (length a) (length l)) as [[? M]|[? M]]; rewrite M in *.
  - specialize (Hl HL). lia.
  - rewrite La in *. pose proof (canon_lower _ C HL) as CL. rewrite of_Z_val in CL by lia. lia.
Qed.

Lemma add1_canon n : 0 <= n -> nat_add_u32 (of_Z n) 1 = of_Z (n + 1).
Proof.
  intros. unfold nat_add_u32. assert (canon (of_Z n)) by (apply of_Z_canon; auto).
  rewrite op1_canon, add_basic_of_Z, of_Z_val by (auto; lia). reflexivity.
Qed.

Lemma neg_tail n : 0 < n -> BI (of_Z n) (negb (is_nan (of_Z n))) = zint (- n).
Proof. intros. rewrite is_nan_of_Z by lia. cbn [negb]. apply zint_intro; lia. Qed.

Lemma lnot_pred x : x < 0 -> Z.abs x - 1 = Z.lnot x.
Proof. intros. unfold Z.lnot. lia. Qed.

Ltac sub1 n H := let l := fresh "l" in let E := fresh "E" in
  destruct (sub1_spec n H) as (l & E & ?Hw & ?Hn & ?Hv & ?Hl); rewrite E.

Lemma trim_abs n : trim (of_Z (Z.abs n)) = of_Z (Z.abs n).
Proof. apply trim_canon_id, abs_canon. Qed.
Lemma zint_clone n : b_clone (zint n) = zint n.
Proof. unfold b_clone. rewrite zint_nat, trim_abs. reflexivity. Qed.

Lemma lor_nonneg' a b : 0 <= a -> 0 <= b -> 0 <= Z.lor a b.
Proof. intros. apply Z.lor_nonneg. auto. Qed.

Lemma zint_and a b : b_and (zint a) (zint b) = zint (Z.land a b).
Proof.
  unfold b_and. rewrite !zint_nat, !zint_neg, ?trim_abs.
  destruct (Z.ltb_spec a 0), (Z.ltb_spec b 0); cbn [eqb].
  - destruct (sub1_spec (Z.abs b)) as (l & -> & Wl & Nl & Vl & Ll); [lia|].
    rewrite bitor_add1; auto; [|lia|].
    + rewrite Vl. rewrite !lnot_pred by lia.
      assert (0 <= Z.lor (Z.lnot a) (Z.lnot b)) by (apply lor_nonneg'; unfold Z.lnot; lia).
      rewrite neg_tail by lia. f_equal. rewrite <- Z.lnot_land. unfold Z.lnot. lia.
    + rewrite Ll, Vl. intros HL. assert (C := abs_canon b). pose proof (canon_lower _ C HL) as CL.
      rewrite abs_val in CL. lia.
  - destruct (sub1_spec (Z.abs a)) as (l & -> & Wl & Nl & Vl & Ll); [lia|].
    rewrite and_not_words, Vl, lnot_pred, abs_val by (auto; try lia; try (apply of_Z_words; lia); apply of_Z_nonnil; lia).
    rewrite Z.abs_eq by lia. rewrite Z.ldiff_land, Z.lnot_involutive, Z.land_comm.
    apply zint_intro; auto. apply Z.land_nonneg. lia.
  - destruct (sub1_spec (Z.abs b)) as (l & -> & Wl & Nl & Vl & Ll); [lia|].
    rewrite and_not_words, Vl, lnot_pred, abs_val by (auto; try lia; try (apply of_Z_words; lia); apply of_Z_nonnil; lia).
    rewrite Z.abs_eq by lia. rewrite Z.ldiff_land, Z.lnot_involutive.
    apply zint_intro; auto. apply Z.land_nonneg. lia.
  - rewrite bitand_words, !abs_val, !Z.abs_eq by (try lia; try (apply of_Z_words; lia); apply of_Z_nonnil; lia).
    apply zint_intro; auto. apply Z.land_nonneg. lia.
Qed.

Lemma zint_xor a b : b_xor (zint a) (zint b) = zint (Z.lxor a b).
Proof.
  unfold b_xor. rewrite !zint_nat, !zint_neg, ?trim_abs.
  destruct (Z.ltb_spec a 0), (Z.ltb_spec b 0); cbn [eqb].
  - destruct (sub1_spec (Z.abs a)) as (k & -> & Wk & Nk & Vk & Lk); [lia|].
    destruct (sub1_spec (Z.abs b)) as (l & -> & Wl & Nl & Vl & Ll); [lia|].
    rewrite bitxor_words, Vk, Vl, !lnot_pred by (auto; lia).
    rewrite Z.lxor_lnot_lnot. apply zint_intro; auto. apply Z.lxor_nonneg. lia.
  - destruct (sub1_spec (Z.abs a)) as (l & -> & Wl & Nl & Vl & Ll); [lia|].
    rewrite bitxor_words, Vl, lnot_pred, abs_val, Z.abs_eq by (auto; try lia; try (apply of_Z_words; lia); apply of_Z_nonnil; lia).
    assert (0 <= Z.lxor b (Z.lnot a)) by (apply Z.lxor_nonneg; unfold Z.lnot; lia).
    rewrite add1_canon, neg_tail by lia. f_equal. rewrite Z.lxor_comm, <- Z.lnot_lxor_l. unfold Z.lnot. lia.
  - destruct (sub1_spec (Z.abs b)) as (l & -> & Wl & Nl & Vl & Ll); [lia|].
    rewrite bitxor_words, Vl, lnot_pred, abs_val, Z.abs_eq by (auto; try lia; try (apply of_Z_words; lia); apply of_Z_nonnil; lia).
    assert (0 <= Z.lxor a (Z.lnot b)) by (apply Z.lxor_nonneg; unfold Z.lnot; lia).
    rewrite add1_canon, neg_tail by lia. f_equal. rewrite <- Z.lnot_lxor_r. unfold Z.lnot. lia.
  - rewrite bitxor_words, !abs_val, !Z.abs_eq by (try lia; try (apply of_Z_words; lia); apply of_Z_nonnil; lia).
    apply zint_intro; auto. apply Z.lxor_nonneg. lia.
Qed.

(** [or]: right for equal signs; for mixed signs the code evaluates
    [x &^ (y-1)] where [(y-1) &^ x] is meant. *)
Lemma zint_or_same a b : eqb (a <? 0) (b <? 0) = true -> b_or (zint a) (zint b) = zint (Z.lor a b).
Proof.
  unfold b_or. rewrite !zint_nat, !zint_neg, ?trim_abs. intros E. rewrite E. revert E.
  destruct (Z.ltb_spec a 0), (Z.ltb_spec b 0); cbn [eqb]; try discriminate; intros _.
  - destruct (sub1_spec (Z.abs a)) as (k & -> & Wk & Nk & Vk & Lk); [lia|].
    destruct (sub1_spec (Z.abs b)) as (l & -> & Wl & Nl & Vl & Ll); [lia|].
    rewrite bitand_words, Vk, Vl, !lnot_pred by (auto; lia).
    assert (0 <= Z.land (Z.lnot a) (Z.lnot b)) by (apply Z.land_nonneg; unfold Z.lnot; lia).
    rewrite add1_canon, neg_tail by lia. f_equal. rewrite <- Z.lnot_lor. unfold Z.lnot. lia.
  - assert (E : nat_bitor (of_Z (Z.abs a)) (of_Z (Z.abs b)) = of_Z (Z.lor a b)).
    { unfold nat_bitor. rewrite op2_canon, bitor_of_Z, !abs_val, !Z.abs_eq by (try apply abs_canon; lia). reflexivity. }
    rewrite E. apply zint_intro; auto. apply Z.lor_nonneg. lia.
Qed.
Lemma zint_or_mixed a b : 0 <= a -> b < 0 ->
  b_or (zint a) (zint b) = zint (Z.lnot (Z.ldiff a (Z.lnot b))) /\
  b_or (zint b) (zint a) = zint (Z.lnot (Z.ldiff a (Z.lnot b))).
Proof.
  intros Ha Hb. unfold b_or. rewrite !zint_nat, !zint_neg, ?trim_abs.
  destruct (Z.ltb_spec a 0), (Z.ltb_spec b 0); try lia; cbn [eqb].
  destruct (sub1_spec (Z.abs b)) as (l & -> & Wl & Nl & Vl & Ll); [lia|].
  rewrite and_not_words, Vl, lnot_pred, abs_val, Z.abs_eq by (auto; try lia; try (apply of_Z_words; lia); apply of_Z_nonnil; lia).
  assert (0 <= Z.ldiff a (Z.lnot b)) by (apply Z.ldiff_nonneg; lia).
  rewrite add1_canon, neg_tail by lia. split; f_equal; unfold Z.lnot; lia.
Qed.

(** [and_not]: right except when both are negative, where the operands are
    swapped. *)
Lemma zint_and_not a b : ~ (a < 0 /\ b < 0) -> b_and_not (zint a) (zint b) = zint (Z.ldiff a b).
Proof.
  intros Hx. unfold b_and_not. rewrite !zint_nat, !zint_neg, ?trim_abs.
  destruct (Z.ltb_spec a 0), (Z.ltb_spec b 0); cbn [eqb]; try lia.
  - rewrite bitor_add1; [|lia|apply of_Z_words; lia|apply of_Z_nonnil; lia|].
    + rewrite abs_val, lnot_pred, (Z.abs_eq b) by lia.
      assert (0 <= Z.lor (Z.lnot a) b) by (apply lor_nonneg'; unfold Z.lnot; lia).
      rewrite neg_tail by lia. f_equal. rewrite Z.ldiff_land.
      rewrite <- (Z.lnot_involutive b) at 1. rewrite <- Z.lnot_land. unfold Z.lnot. lia.
    + intros HL. pose proof (canon_lower _ (abs_canon b) HL). lia.
  - destruct (sub1_spec (Z.abs b)) as (l & -> & Wl & Nl & Vl & Ll); [lia|].
    rewrite bitand_words, Vl, lnot_pred, abs_val, Z.abs_eq by (auto; try lia; try (apply of_Z_words; lia); apply of_Z_nonnil; lia).
    rewrite <- Z.ldiff_land. apply zint_intro; auto. apply Z.ldiff_nonneg. lia.
  - rewrite and_not_of_Z, !abs_val, !Z.abs_eq by (try apply abs_canon; lia).
    apply zint_intro; auto. apply Z.ldiff_nonneg. lia.
Qed.
Lemma zint_and_not_negs a b : a < 0 -> b < 0 -> b_and_not (zint a) (zint b) = zint (Z.ldiff b a).
Proof.
  intros Ha Hb. unfold b_and_not. rewrite !zint_nat, !zint_neg, ?trim_abs.
  destruct (Z.ltb_spec a 0), (Z.ltb_spec b 0); cbn [eqb]; try lia.
  destruct (sub1_spec (Z.abs a)) as (k & -> & Wk & Nk & Vk & Lk); [lia|].
  destruct (sub1_spec (Z.abs b)) as (l & -> & Wl & Nl & Vl & Ll); [lia|].
  rewrite and_not_words, Vk, Vl, !lnot_pred by (auto; lia).
  replace (Z.ldiff (Z.lnot a) (Z.lnot b)) with (Z.ldiff b a).
  - apply zint_intro; auto. apply Z.ldiff_nonneg. lia.
  - rewrite !Z.ldiff_land, Z.lnot_involutive. apply Z.land_comm.
Qed.

(** [Not]: value always right; canonical unless the argument is -2^(32k), k>0. *)
Lemma b_not_spec a : exists l s, b_not (zint a) = BI l s /\ words_ok l /\ l <> [] /\
  bvalue (BI l s) = Z.lnot a /\ (0 <= a -> BI l s = zint (Z.lnot a)).
Proof.
  unfold b_not. rewrite zint_not_nan, zint_nat, zint_neg, ?trim_abs.
  destruct (Z.ltb_spec a 0).
  - destruct (sub1_spec (Z.abs a)) as (l & -> & Wl & Nl & Vl & Ll); [lia|].
    exists l, false. unfold bvalue. cbn [bneg bnat]. rewrite Vl, lnot_pred by auto.
    repeat split; auto; try lia.
  - rewrite add1_canon by lia. rewrite Z.abs_eq by lia.
    assert (E : BI (of_Z (a + 1)) true = zint (Z.lnot a)) by (apply zint_intro; unfold Z.lnot; lia).
    exists (of_Z (a + 1)), true. split; [reflexivity|]. split; [apply of_Z_words; lia|].
    split; [apply of_Z_nonnil; lia|]. split; [|auto]. rewrite E. apply bvalue_zint.
Qed.
