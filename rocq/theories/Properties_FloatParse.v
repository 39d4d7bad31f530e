(** C59: texts with a point and an exponent, and texts that end with 'e'. *)
From Coq Require Import ZArith QArith Qabs List Bool Lia String.
From Verif Require Import Words Spec WordsFacts NatModel NatFacts NatConv NatConvFacts BigInt SpecInt BigIntFacts BigIntFacts4
  Rat SpecRat RatFacts4 Properties_Rat Float SpecFloat FloatFacts FloatFacts6 FloatFacts7
  Properties_Float SpecDecimal Decimal DecimalFacts DecimalFacts2 DecimalFacts3 DecimalFacts4 Properties_FloatText.
Import ListNotations.
Open Scope Z_scope.
Open Scope list_scope.

Lemma find_char_e c u es : c = 101 \/ c = 69 -> ~ In 101 (u ++ es) -> ~ In 69 (u ++ es) ->
  (find_char 101 (u ++ c :: es) = Some (u, es) /\ find_char 69 (u ++ c :: es) = None) \/ (find_char 101 (u ++ c :: es) = None /\ find_char 69 (u ++ c :: es) = Some (u, es)).
Proof.
  intros HC NL NU. rewrite in_app_iff in NL, NU. destruct HC; subst c; [left|right]; split; try (apply find_char_app; tauto); apply find_char_none; rewrite in_app_iff; cbn [In]; intuition discriminate.
Qed.
(** The text [u . v e es]. *)
Lemma parse_point_exp s u v ds c es k : trimmed s ((u ++ 46 :: v) ++ c :: es) -> c = 101 \/ c = 69 -> ~ In 46 u -> ~ In 101 u -> ~ In 69 u ->
  digit_text 10 v ds -> ~ In 101 es -> ~ In 69 es -> es <> [] -> int_text es k -> min_exp <= k <= max_exp ->
  let e := k - Z.of_nat (List.length v) in
  fl_from_str s =
    match b_from_str (if e <? 0 then u ++ v else (u ++ v) ++ repeat 48 (Z.to_nat e)), b_from_str (if e <? 0 then 49 :: repeat 48 (Z.to_nat (- e)) else []) with
    | Some n, Some d => do r <- r_from_frac_bigint n d; match r with None => Ok None | Some r => do z <- fl_from_rat r; Ok (Some z) end
    | _, _ => Ok None
    end.
Proof.
  intros T HC N46 NL NU D EL EU NE I K e. unfold fl_from_str. rewrite (trim_ws_spec _ _ T).
  assert (XE := find_char_e c (u ++ 46 :: v) es HC). destruct XE as [XE|XE].
  1,2: intros H; repeat (rewrite in_app_iff in H || cbn [In] in H); destruct H as [[H|[H|H]]|H]; try discriminate; try contradiction; pose proof (digit10 _ _ _ D H); lia.
  1,2: assert (XD : find_char 46 ((u ++ 46 :: v) ++ c :: es) = Some (u, v ++ c :: es)) by (rewrite <- app_assoc; apply find_char_app; auto);
    assert (XV : find_char 46 (u ++ 46 :: v) = Some (u, v)) by (apply find_char_app; auto);
    assert (XS : split_exp ((u ++ 46 :: v) ++ c :: es) = Some (u ++ 46 :: v, k))
     by (unfold split_exp; destruct XE as (X1 & X2); rewrite X1, ?X2; destruct es as [|d es]; [congruence|]; rewrite (int_text_parse _ _ I); rewrite !from_i64_zint, !zint_lt by (unfold min_exp, max_exp; lia);
         destruct (Z.ltb_spec k min_exp); [lia|]; destruct (Z.ltb_spec max_exp k); [lia|]; rewrite exp_value_zint; [reflexivity|unfold min_exp, max_exp in *; lia]);
    destruct ((u ++ 46 :: v) ++ c :: es) eqn:EE; [destruct u; discriminate|]; rewrite <- EE in *; rewrite XS, XD, XV; destruct XE as (X1 & X2); rewrite X1, ?X2;
    rewrite (byte_len_digits v ds D); fold e; destruct (e <? 0); reflexivity.
Qed.
Theorem C59_parse_point_exp_partial : forall s u v ds c es k a, trimmed s ((u ++ 46 :: v) ++ c :: es) -> c = 101 \/ c = 69 -> ~ In 46 u -> ~ In 101 u -> ~ In 69 u ->
  digit_text 10 v ds -> ~ In 101 es -> ~ In 69 es -> es <> [] -> int_text es k -> min_exp <= k <= max_exp -> int_text (u ++ v) a -> a <> 0 ->
  let n := Z.of_nat (List.length v) - k in
  0 < n -> Z.abs a < 2 ^ max_exp -> 10 ^ n < 2 ^ max_exp ->
  (forall q, a = q * 10 ^ n -> exists z, fl_from_str s = Ok (Some z) /\ is_integer_float q z) /\
  (~ (10 ^ n | a) -> forall z, fl_from_str s = Ok (Some z) -> flform z = Finite -> (dy (2 ^ 29) 0 * Qabs (flvalue z) < Qabs (inject_Z a / inject_Z (10 ^ n)))%Q).
Proof.
  intros s u v ds c es k a T HC N1 N2 N3 D EL EU NE IE K IA A n P LA LK.
  rewrite (parse_point_exp s u v ds c es k) by auto. cbv zeta. destruct (Z.ltb_spec (k - Z.of_nat (List.length v)) 0); [|lia].
  rewrite (int_text_parse _ _ IA), ten_text, Z2Nat.id by lia. replace (- (k - Z.of_nat (List.length v))) with n by (unfold n; lia).
  pose proof (quotient_spec a n A P LA LK) as Q. unfold quotient_float in Q. exact Q.
Qed.
(** 1.5e1, 1.5e2: refused. *)
Theorem C59_parse_point_exp_refuted : forall s u v ds c es k, trimmed s ((u ++ 46 :: v) ++ c :: es) -> c = 101 \/ c = 69 -> ~ In 46 u -> ~ In 101 u -> ~ In 69 u ->
  digit_text 10 v ds -> ~ In 101 es -> ~ In 69 es -> es <> [] -> int_text es k -> Z.of_nat (List.length v) <= k <= max_exp -> fl_from_str s = Ok None.
Proof.
  intros s u v ds c es k T HC N1 N2 N3 D EL EU NE IE K. rewrite (parse_point_exp s u v ds c es k) by (auto; unfold min_exp, max_exp in *; lia). cbv zeta.
  destruct (Z.ltb_spec (k - Z.of_nat (List.length v)) 0); [lia|]. destruct (b_from_str _); reflexivity.
Qed.
(** A text that ends with 'e' and has no point is refused. *)
Theorem C59_parse_trailing_e : forall s u c, trimmed s (u ++ [c]) -> c = 101 \/ c = 69 -> ~ In 46 u -> ~ In 101 u -> ~ In 69 u -> fl_from_str s = Ok None.
Proof.
  intros s u c T HC N46 NL NU. unfold fl_from_str. rewrite (trim_ws_spec _ _ T).
  assert (XD : find_char 46 (u ++ [c]) = None) by (apply find_char_none; rewrite in_app_iff; cbn [In]; destruct HC; subst c; intuition discriminate).
  destruct (find_char_e c u [] HC) as [XE|XE]; [rewrite app_nil_r; auto|rewrite app_nil_r; auto| |];
    (assert (XS : split_exp (u ++ [c]) = Some (u ++ [c], 0)) by (unfold split_exp; destruct XE as (X1 & X2); rewrite X1, ?X2; reflexivity);
     destruct (u ++ [c]) eqn:EE; [destruct u; discriminate|]; rewrite <- EE in *; rewrite XS, XD; destruct XE as (X1 & X2); rewrite X1, ?X2; change (0 <? 0) with false; cbv iota zeta; destruct (b_from_str _); reflexivity).
Qed.
(** With a point the 'e' is the last digit of a hex number: "0x1.2e" is read
    as 0x12e / 100. *)
Theorem C59_parse_hex_point : forall s u v ds c a, trimmed s ((u ++ 46 :: v) ++ [c]) -> c = 101 \/ c = 69 -> ~ In 46 u -> ~ In 101 u -> ~ In 69 u ->
  digit_text 10 v ds -> int_text (u ++ v ++ [c]) a -> fl_from_str s = quotient_float a (Z.of_nat (List.length v) + 1).
Proof.
  intros s u v ds c a T HC N46 NL NU D I. unfold fl_from_str. rewrite (trim_ws_spec _ _ T).
  assert (BL : 0 - byte_len (v ++ [c]) = - (Z.of_nat (List.length v) + 1)).
  { assert (B : byte_len (v ++ [c]) = byte_len v + 1). { unfold byte_len. rewrite fold_right_app. cbn [fold_right]. replace (utf8_len c) with 1 by (destruct HC; subst c; reflexivity). clear. induction v as [|x v IH]; [reflexivity|]. cbn [fold_right]. rewrite IH. ring. }
    rewrite B, (byte_len_digits v ds D). ring. }
  assert (EQ : (u ++ 46 :: v) ++ [c] = u ++ 46 :: v ++ [c]) by (rewrite <- app_assoc; reflexivity).
  assert (XE := find_char_e c (u ++ 46 :: v) [] HC). rewrite app_nil_r in XE. destruct XE as [XE|XE].
  1,2: intros H; repeat (rewrite in_app_iff in H || cbn [In] in H); destruct H as [H|[H|H]]; try discriminate; try contradiction; pose proof (digit10 _ _ _ D H); lia.
  1,2: assert (XV : find_char 46 (u ++ 46 :: v ++ [c]) = Some (u, v ++ [c])) by (apply find_char_app; auto);
    assert (XS : split_exp ((u ++ 46 :: v) ++ [c]) = Some ((u ++ 46 :: v) ++ [c], 0)) by (unfold split_exp; destruct XE as (X1 & X2); rewrite X1, ?X2; reflexivity);
    rewrite EQ in *; destruct (u ++ 46 :: v ++ [c]) eqn:EE; [destruct u; discriminate|]; rewrite <- EE in *; rewrite XS, XV; destruct XE as (X1 & X2); rewrite X1, ?X2; rewrite BL;
    destruct (Z.ltb_spec (- (Z.of_nat (List.length v) + 1)) 0); [|lia]; rewrite (int_text_parse _ _ I), ten_text, Z.opp_involutive, Z2Nat.id by lia; reflexivity.
Qed.
Example C59_parse_point_case : match fl_from_str (str "-1.200e1") with Ok (Some z) => (flvalue z == -12)%Q | _ => False end /\ fl_from_str (str "1.5e1") = Ok None /\ fl_from_str (str "12e") = Ok None /\
  match fl_from_str (str "0x1.90E") with Ok (Some z) => flform z = Finite | _ => False end /\ quotient_float 6414 3 = fl_from_str (str "0x1.90E").
Proof. split; [|split; [|split; [|split]]]; vm_compute; reflexivity. Qed.
Print Assumptions C59_parse_point_exp_partial.
Print Assumptions C59_parse_point_exp_refuted.
Print Assumptions C59_parse_trailing_e.
Print Assumptions C59_parse_hex_point.
