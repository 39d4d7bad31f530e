(** Which numerator and denominator every Rat operation stores: property
    C126. *)
From Coq Require Import ZArith QArith List Lia Bool.
From Verif Require Import Words Spec WordsFacts NatModel NatFacts NatFacts2 BigInt SpecInt BigIntFacts BigIntFacts2 Rat SpecRat KaraFacts2 RatFacts Properties_Rat.
Import ListNotations.
Open Scope Z_scope.

(** ** C126
    [k / d] in lowest terms; a zero keeps the denominator it was computed with,
    sign included. *)
Definition reduced (k : Z) (t : bool) (d : Z) : rat :=
  if k =? 0 then mk false 0 t d else mk (k <? 0) (Z.abs k / Z.gcd k d) false (d / Z.gcd k d).
(** A sign and a magnitude as an integer. *)
Definition sg (s : bool) (m : Z) : Z := if s then - m else m.

Lemma norm_reduced k s t d : k <> 0 \/ s = false -> (k <> 0 -> s = (k <? 0)) -> 0 < d -> r_norm (mk s (Z.abs k) t d) = Ok (reduced k t d).
Proof.
  intros H S D. rewrite norm_mk by lia. unfold reduced. destruct (Z.eqb_spec k 0) as [->|N]; [reflexivity|].
  destruct (Z.eqb_spec (Z.abs k) 0); [lia|]. rewrite Z.gcd_abs_l, S by auto. reflexivity.
Qed.
(** Equal fractions reduce to the same. *)
Lemma reduced_same k d k' d' t : 0 < d -> 0 < d' -> k <> 0 -> k * d' = k' * d -> reduced k t d = reduced k' t d'.
Proof.
  intros D D' N E. assert (N' : k' <> 0) by nia. unfold reduced. destruct (Z.eqb_spec k 0); [lia|]. destruct (Z.eqb_spec k' 0); [lia|].
  assert (S : (k <? 0) = (k' <? 0)) by (destruct (Z.ltb_spec k 0), (Z.ltb_spec k' 0); try reflexivity; nia). rewrite S.
  destruct (gcd_div_ex k d D) as (a & b & Ea & Eb & _ & Db & G). destruct (gcd_div_ex k' d' D') as (a' & b' & Ea' & Eb' & _ & Db' & G').
  pose proof (gcd_pos k d D) as P. pose proof (gcd_pos k' d' D') as P'. rewrite Db, Db'. set (g := Z.gcd k d) in *. set (g' := Z.gcd k' d') in *. clearbody g g'.
  assert (X : a * b' = a' * b). { subst k d k' d'. apply (Z.mul_reg_r _ _ (g * g')); [nia|]. nia. }
  assert (B : 0 < b) by nia. assert (B' : 0 < b') by nia.
  assert (EB : b = b').
  { apply Z.divide_antisym_nonneg; [lia|lia| |].
    - apply (Z.gauss b a); [exists a'; lia|rewrite Z.gcd_comm; auto].
    - apply (Z.gauss b' a'); [exists a; lia|rewrite Z.gcd_comm; auto]. }
  subst b'. assert (a = a') by nia. subst a'.
  rewrite Ea, Ea', !Z.abs_mul, (Z.abs_eq g), (Z.abs_eq g'), !Z.div_mul by lia. congruence.
Qed.

Theorem C126_add_sub : forall s m t n s' m' t' n', 0 <= m -> 0 < n -> 0 <= m' -> 0 < n' ->
  r_add (mk s m t n) (mk s' m' t' n') = Ok (reduced (sg s m * n' + sg s' m' * n) false (n * n')) /\
  r_sub (mk s m t n) (mk s' m' t' n') = Ok (reduced (sg s m * n' - sg s' m' * n) false (n * n')).
Proof.
  intros s m t n s' m' t' n' M N M' N'. unfold r_add, r_sub. rewrite !op2_ok by (apply ok_mk; auto). unfold r_add_inner, r_sub_inner, mk at 1 2 3 4 5 6 7 8 9 10 11 12. cbn [rnum rden bnat bneg].
  rewrite !scale_mk, gen_add, gen_sub, mul_denom_mk by nia. rewrite !zint_mk by nia.
  assert (E : forall u v w, sgv u (v * w) = sg u v * w) by (intros u v w; unfold sgv, sg; destruct u; lia). rewrite !E.
  split; apply norm_reduced; try nia; auto; (match goal with |- ?k <> 0 \/ _ => destruct (Z.eq_dec k 0) as [K|K]; [right; rewrite K; reflexivity|auto] end).
Qed.
Theorem C126_mul : forall s m t n s' m' t' n', 0 <= m -> 0 < n -> 0 <= m' -> 0 < n' ->
  r_mul (mk s m t n) (mk s' m' t' n') =
    Ok (if (m =? 0) && (m' =? 0) && eqb s s' then mk false 0 false (n * n) else reduced (sg s m * sg s' m') false (n * n')).
Proof.
  intros s m t n s' m' t' n' M N M' N'. unfold r_mul. rewrite op2_ok by (apply ok_mk; auto). unfold r_mul_inner, r_eq. rewrite r_cmp_mk by auto.
  assert (MU : r_norm (RT (b_mul (rnum (mk s m t n)) (rnum (mk s' m' t' n')))
       (BI (mul_denom (bnat (rden (mk s m t n))) (bnat (rden (mk s' m' t' n')))) false)) = Ok (reduced (sg s m * sg s' m') false (n * n'))).
  { unfold mk. cbn [rnum rden bnat bneg]. rewrite gen_mul, mul_denom_mk by nia. change sgv with sg. rewrite zint_mk by nia. apply norm_reduced; [|auto|nia].
    match goal with |- ?k <> 0 \/ _ => destruct (Z.eq_dec k 0) as [K|K]; [right; rewrite K; reflexivity|auto] end. }
  assert (SQ : s = s' -> m * n' = m' * n ->
    (do a <- b_sqr (rnum (mk s m t n));
     do b <- (if nat_eq_u32 (bnat (rden (mk s m t n))) 0 then Ok (b_from_u32 1) else b_sqr (rden (mk s m t n)));
     r_norm (RT a b)) = Ok (if (m =? 0) && (m' =? 0) && eqb s s' then mk false 0 false (n * n) else reduced (sg s m * sg s' m') false (n * n'))).
  { intros <- E. unfold mk at 1 2 3, b_sqr. cbn [rnum rden bnat bneg]. rewrite of_Z_eq_u32 by lia.
    destruct (Z.eqb_spec n 0); [lia|]. rewrite !nat_sqr_of_Z, !of_Z_val by (try apply of_Z_canon; lia). cbn [bind]. rewrite eqb_reflx, andb_true_r.
    change (RT (BI (of_Z (m * m)) false) (BI (of_Z (n * n)) false)) with (mk false (m * m) false (n * n)).
    assert (A : m * m = Z.abs (m * m)) by nia. rewrite A. rewrite norm_reduced; [|auto|intros _; symmetry; apply Z.ltb_ge; nia|nia].
    destruct (Z.eqb_spec m 0) as [->|M0]; [|].
    - assert (m' = 0) by nia. subst m'. cbn [Z.eqb andb]. reflexivity.
    - cbn [andb]. f_equal. apply reduced_same; try nia. replace (sg s m * sg s m') with (m * m') by (unfold sg; destruct s; ring). nia. }
  assert (NE : m * n' <> m' * n -> ((m =? 0) && (m' =? 0)) = false).
  { intros H. destruct (Z.eqb_spec m 0) as [->|]; [|reflexivity]. destruct (Z.eqb_spec m' 0) as [->|]; [|reflexivity]. lia. }
  destruct s, s'; cbn [eqb] in *; rewrite ?andb_true_r, ?andb_false_r in *; [|exact MU|exact MU|].
  - destruct (Z.compare_spec (m' * n) (m * n')) as [E|E|E]; [apply SQ; auto| |]; rewrite NE by lia; exact MU.
  - destruct (Z.compare_spec (m * n') (m' * n)) as [E|E|E]; [apply SQ; auto| |]; rewrite NE by lia; exact MU.
Qed.
Theorem C126_div : forall s m t n s' m' t' n', 0 <= m -> 0 < n -> 0 <= m' -> 0 < n' ->
  r_div (mk s m t n) (mk s' m' t' n') = if m' =? 0 then Panic else Ok (reduced (sg s m * sg s' n') s' (m' * n)).
Proof.
  intros s m t n s' m' t' n' M N M' N'. unfold r_div. rewrite op2_ok by (apply ok_mk; auto). unfold r_div_inner, mk. cbn [rnum rden bnat bneg]. rewrite of_Z_eq_u32 by lia.
  destruct (Z.eqb_spec m' 0) as [->|K]; [reflexivity|]. rewrite !scale_mk by lia. cbn [bnat bneg].
  assert (A : m * n' = Z.abs (sg s m * sg s' n')) by (unfold sg; destruct s, s'; nia). rewrite A.
  change (RT (BI (of_Z ?a) ?u) (BI (of_Z ?b) ?v)) with (mk u a v b).
  destruct (Z.eq_dec m 0) as [->|M0].
  - replace (sg s 0 * sg s' n') with 0 by (unfold sg; destruct s; ring). rewrite norm_mk by nia. reflexivity.
  - apply norm_reduced; [left; unfold sg; destruct s, s'; nia| |nia]. intros _. unfold sg. destruct s, s'; cbn [eqb negb]; symmetry; (apply Z.ltb_lt || apply Z.ltb_ge); nia.
Qed.
Theorem C126_unary : forall s m t n, 0 <= m -> 0 < n ->
  r_neg (mk s m t n) = mk (negb s && negb (m =? 0)) m t n /\ r_abs (mk s m t n) = mk false m t n /\
  r_inv (mk s m t n) = (if m =? 0 then None else Some (mk s n false m)) /\
  r_is_integer (mk s m t n) = Some ((m =? 0) || negb t && (n =? 1)) /\
  r_signnum (mk s m t n) = Some (if s then -1 else if m =? 0 then 0 else 1).
Proof.
  intros s m t n M N. split; [|split; [reflexivity|split; [|split]]].
  - unfold r_neg. rewrite mk_nan by lia. unfold mk at 1 2. cbn [rnum rden]. unfold b_neg, b_is_nan, b_eq_u32. cbn [bnat bneg]. rewrite is_nan_of_Z, of_Z_eq_u32 by lia.
    destruct s; cbn [negb andb]; [reflexivity|]. destruct (m =? 0); reflexivity.
  - unfold r_inv. rewrite mk_nan by lia. unfold mk. cbn [rnum rden bnat bneg]. rewrite of_Z_eq_u32 by lia. destruct (m =? 0); reflexivity.
  - unfold r_is_integer. rewrite mk_nan by lia. unfold mk, b_eq_u32. cbn [rnum rden bnat bneg]. rewrite !of_Z_eq_u32 by lia. reflexivity.
  - unfold r_signnum, mk, b_signnum, b_is_nan, b_eq_u32. cbn [rnum bnat bneg]. rewrite is_nan_of_Z, of_Z_eq_u32 by lia. destruct s; cbn [negb andb]; [reflexivity|]. destruct (m =? 0); reflexivity.
Qed.
Theorem C126_fraction : forall x y a b, is_int x a -> is_int y b ->
  r_from_frac_bigint x y = Ok (if b =? 0 then None else Some (reduced (a * Z.sgn b) false (Z.abs b))).
Proof.
  intros x y a b Hx Hy. apply is_int_iff in Hx, Hy. subst x y. unfold r_from_frac_bigint. rewrite zint_clone, zint_nat, zint_neg, zint_abs, zint_opp, of_Z_eq_u32 by lia.
  destruct (Z.eqb_spec b 0) as [->|B]; [reflexivity|]. destruct (Z.eqb_spec (Z.abs b) 0); [lia|].
  assert (E : (if b <? 0 then zint (- a) else zint a) = zint (a * Z.sgn b)).
  { destruct (Z.ltb_spec b 0); [rewrite Z.sgn_neg by lia|rewrite Z.sgn_pos by lia]; f_equal; lia. }
  rewrite E. assert (D : zint (Z.abs b) = BI (of_Z (Z.abs b)) false) by (unfold zint; rewrite Z.abs_eq by lia; destruct (Z.ltb_spec (Z.abs b) 0); [lia|reflexivity]). rewrite D, zint_mk by lia.
  rewrite norm_reduced; [reflexivity| |auto|lia]. match goal with |- ?k <> 0 \/ _ => destruct (Z.eq_dec k 0) as [K|K]; [right; rewrite K; reflexivity|auto] end.
Qed.
Theorem C126_nan : forall x y, r_is_nan x = true \/ r_is_nan y = true ->
  r_add x y = Ok r_nan /\ r_sub x y = Ok r_nan /\ r_mul x y = Ok r_nan /\ r_div x y = Ok r_nan.
Proof. intros x y H. unfold r_add, r_sub, r_mul, r_div, r_op2. destruct H as [->| ->]; rewrite ?orb_true_r; auto. Qed.
Example C126_case : r_mul (mk false 0 false 4) (mk false 0 false 6) = Ok (mk false 0 false 16) /\ r_mul (mk false 0 false 4) (mk false 5 false 6) = Ok (mk false 0 false 24) /\
  r_div (mk false 0 false 4) (mk true 5 false 6) = Ok (mk false 0 true 20) /\ r_add (mk false 1 false 6) (mk true 5 true 3) = Ok (mk true 3 false 2) /\
  reduced (-27) false 18 = mk true 3 false 2.
Proof. vm_compute. auto 10. Qed.

Print Assumptions C126_add_sub.
Print Assumptions C126_mul.
Print Assumptions C126_div.
Print Assumptions C126_unary.
Print Assumptions C126_fraction.
Print Assumptions C126_nan.
