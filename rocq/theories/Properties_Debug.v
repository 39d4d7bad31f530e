(** The [Debug] text of [Nat], [BigInt] and [Rat] (C104).

    Full claim: [{:?}] prints the hexadecimal numerals with the sign, [{:#?}]
    the same with the prefix 0x in front of each numeral, and the prefixed text
    reads back as the value.  False for [Rat]: '#' makes no difference, and the
    text without prefix is read as decimal. *)
From Coq Require Import ZArith String List Lia Bool.
From Verif Require Import Words Spec SpecText WordsFacts NatModel NatFacts NatFacts5 NatConv NatConvFacts Properties_NatConv BigInt SpecInt BigIntFacts Properties_BigInt Properties_Format.
From Verif Require Import Rat SpecRat RatFacts Properties_Rat DebugFmt.
Import ListNotations.
Open Scope Z_scope.
Open Scope list_scope.

Theorem C104_nat : forall a, canon a ->
  exists s, lower_numeral 16 s (nval a) /\ n_fmt_debug false a = s /\ n_fmt_debug true a = str "0x" ++ s /\
    nat_from_str (n_fmt_debug true a) = Some a.
Proof.
  intros a C. destruct (C13_format_hex false a C) as [(s & E & N) _]. destruct (C13_format_hex true a C) as [(t & F & _) _].
  destruct (C15_parse_prefixed a C) as (P & _). exists s. split; [exact N|]. split; [exact E|].
  change (n_fmt_debug true a) with (fmt_lower_hex true a). split; [|exact P].
  rewrite F. f_equal. revert E F. unfold fmt_lower_hex, nat_fmt. destruct (rev a); [discriminate|]. cbn [app]. intros <- X.
  apply app_inv_head in X. congruence.
Qed.
Theorem C104_bigint : forall x n, is_int x n ->
  exists s, lower_numeral 16 s (Z.abs n) /\ b_fmt_debug false x = sign_of n ++ s /\ b_fmt_debug true x = sign_of n ++ str "0x" ++ s /\
    b_from_str (b_fmt_debug true x) = Some x.
Proof.
  intros x n X. destruct (C45_parse_prefixed x n X) as (P & _). change (b_fmt_debug true x) with (b_fmt_lower_hex true x).
  pose proof X as X'. apply is_int_iff in X'. subst x. unfold b_fmt_debug, b_fmt_lower_hex in *. rewrite !sign_text, zint_nat in *.
  destruct (C104_nat (of_Z (Z.abs n)) (abs_canon n)) as (s & N & E & F & _). rewrite abs_val in N.
  change (fmt_lower_hex true (of_Z (Z.abs n))) with (n_fmt_debug true (of_Z (Z.abs n))) in *. rewrite F in *. exists s. rewrite E. auto.
Qed.
(** The numerals of the two parts, whatever the flag. *)
Theorem C104_rat_partial : forall alt x a b, is_int (rnum x) a -> is_int (rden x) b ->
  exists s t, lower_numeral 16 s (Z.abs a) /\ lower_numeral 16 t (Z.abs b) /\
    r_fmt_debug alt x = (sign_of a ++ s) ++ str "/" ++ sign_of b ++ t.
Proof.
  intros alt x a b A B. destruct (C104_bigint _ _ A) as (s & N & E & _). destruct (C104_bigint _ _ B) as (t & M & F & _).
  exists s, t. split; [exact N|]. split; [exact M|].
  assert (NA : r_is_nan x = false).
  { unfold r_is_nan. apply is_int_iff in A, B. rewrite A, B, !zint_not_nan. reflexivity. }
  destruct alt; unfold r_fmt_debug, r_text; rewrite NA, E, F; reflexivity.
Qed.
(** The flag is ignored, and the text of a rational may be that of another. *)
Theorem C104_rat_refuted : (forall x, r_fmt_debug true x = r_fmt_debug false x) /\
  forall pf, exists x y, lowest x /\ lowest y /\ r_from_str pf (r_fmt_debug true x) = Ok (Some y) /\ r_eq x y = false.
Proof.
  split; [reflexivity|]. intros pf. exists (mk false 16 false 1), (mk false 10 false 1).
  split; [apply lowest_mk; try lia; reflexivity|]. split; [apply lowest_mk; try lia; reflexivity|]. split; vm_compute; reflexivity.
Qed.
Theorem C104_nan : forall alt a x r, is_nan a = true -> b_is_nan x = true -> r_is_nan r = true ->
  n_fmt_debug alt a = str "NaN" /\ b_fmt_debug alt x = str "NaN" /\ r_fmt_debug alt r = str "NaN".
Proof.
  intros alt a x r A X R. assert (E : forall l, is_nan l = true -> n_fmt_debug alt l = str "NaN") by (intros [|? ?]; [reflexivity|discriminate]).
  split; [auto|]. split.
  - unfold b_fmt_debug, b_sign_text, b_is_negative. rewrite X. cbn [negb andb]. auto.
  - destruct alt; unfold r_fmt_debug, r_text; rewrite R; reflexivity.
Qed.
Example C104_case : n_fmt_debug true [0xdeadbeef; 1] = str "0x1deadbeef" /\ b_fmt_debug false (zint (-255)) = str "-ff" /\
  r_fmt_debug true (mk true 255 false 16) = str "-ff/10".
Proof. vm_compute. auto. Qed.
Print Assumptions C104_nat.
Print Assumptions C104_bigint.
Print Assumptions C104_rat_partial.
Print Assumptions C104_rat_refuted.
Print Assumptions C104_nan.
