(** The decimal text of a [Float]: property C59. *)
From Coq Require Import Ascii String ZArith QArith Qabs Qpower Lqa List Lia Bool.
From Verif Require Import Words Spec WordsFacts NatModel NatFacts NatConv NatConvFacts BigInt SpecInt BigIntFacts BigIntFacts4
  Rat SpecRat RatFacts4 Properties_Rat Float SpecFloat FloatFacts FloatFacts6 FloatFacts7
  Properties_Float SpecDecimal Decimal DecimalFacts DecimalFacts2 DecimalFacts3 DecimalFacts4.
Import ListNotations.
Open Scope Z_scope.
Open Scope list_scope.

(** ** C59
    Full claim: the text shows the value rounded to the requested number of
    digits; parsing a decimal literal gives the nearest Float.  Both are false.

    Writing holds for the [printable] Floats: what is missing are the values
    whose numerator has an inner zero digit or is a multiple of 2 ^ 32 in
    memory, and [{}] below 1/10 where arithmetic overflow is checked. *)
Theorem C59_exp_partial : forall up p x, ok_float x -> flform x = Finite -> printable x -> (match p with Some p => 0 <= p | None => True end) ->
  let q := match p with Some p => p | None => 7 end in
  exists t, fl_fmt_exp up p x = Ok t /\ exists r, sig_rounded (1 + q) (Qabs (flvalue x)) r /\
    signed_text x (fun u => sci_text q (if up then 69 else 101) u r) t.
Proof. exact fmt_exp_spec. Qed.
(** [{}] rounds twice: to prec + 1 digits, then to prec places. *)
Theorem C59_display_partial : forall checks x, ok_float x -> flform x = Finite -> flprec x < 2 ^ 61 -> printable x ->
  checks = false \/ ((1 # 10) <= Qabs (flvalue x))%Q ->
  exists t, fl_fmt_display checks x = Ok t /\ exists r1 r, sig_rounded (1 + flprec x) (Qabs (flvalue x)) r1 /\ place_rounded (flprec x) r1 r /\
    signed_text x (fun u => fix_text (flprec x) u r) t.
Proof. exact display_spec. Qed.
Theorem C59_display_integer_partial : forall checks x n, ok_float x -> flform x = Finite -> flprec x < 2 ^ 61 -> printable x ->
  (flvalue x == inject_Z n)%Q -> n <> 0 -> Z.abs n < 10 ^ (1 + flprec x) ->
  exists t, fl_fmt_display checks x = Ok t /\ signed_text x (fun u => fix_text (flprec x) u (inject_Z (Z.abs n))) t.
Proof.
  intros checks x n OX F PB PR V N0 B. set (p := flprec x) in *. destruct (ok_finite x OX F) as (P & _). fold p in P.
  assert (VA : (Qabs (flvalue x) == inject_Z (Z.abs n))%Q) by (rewrite V; unfold Qabs, inject_Z; reflexivity).
  assert (VD : forall k, k <= 0 -> (inject_Z (Z.abs n) == de (Z.abs n * 10 ^ (0 - k)) k)%Q).
  { intros k K. rewrite <- (de_to (Z.abs n) 0 k) by lia. unfold de. change (10 ^ 0)%Q with 1%Q. ring. }
  destruct (display_spec checks x OX F PB PR) as (t & E & r1 & r & (k & SB & S1) & S2 & u & TU & FT).
  { right. rewrite VA. apply Qle_trans with (inject_Z 1); [discriminate|]. rewrite <- Zle_Qle. lia. }
  fold p in SB, S2, FT. exists t. split; [auto|]. exists u. split; [auto|].
  assert (K : k <= 0).
  { destruct (Z.le_gt_cases k 0); [auto|exfalso]. destruct SB as [SB _]. rewrite VA in SB.
    assert (X : (de (10 ^ (1 + p - 1)) k <= de (Z.abs n) 0)%Q) by (eapply Qle_trans; [exact SB|]; unfold de; change (10 ^ 0)%Q with 1%Q; rewrite Qmult_1_r; apply Qle_refl).
    rewrite (de_to _ k 0) in X by lia. apply de_le in X. rewrite <- Z.pow_add_r in X by lia.
    pose proof (Z.pow_le_mono_r 10 (1 + p) (1 + p - 1 + (k - 0)) ltac:(lia) ltac:(lia)). lia. }
  assert (R1 : (r1 == inject_Z (Z.abs n))%Q).
  { rewrite <- VA. apply (half_even_exact k _ _ (Z.abs n * 10 ^ (0 - k)) S1). rewrite VA. apply VD. auto. }
  assert (R2 : (r == inject_Z (Z.abs n))%Q).
  { rewrite <- R1. apply (half_even_exact (- p) _ _ (Z.abs n * 10 ^ (0 - - p)) S2). rewrite R1. apply VD. lia. }
  destruct FT as (a & b & da & db & T1 & T2 & T3 & T4 & T5 & T6 & T7). exists a, b, da, db. rewrite <- R2. auto 10.
Qed.
Theorem C59_special : forall checks up p x,
  (flform x = Nan -> fl_fmt_display checks x = Ok (str "NaN") /\ fl_fmt_exp up p x = Ok (str "NaN")) /\
  (flform x = Zero -> fl_fmt_display checks x = Ok (str "0") /\ fl_fmt_exp up p x = Ok (str "0")) /\
  (flform x = Inf -> flneg x = false -> fl_fmt_display checks x = Ok (str "+Inf") /\ fl_fmt_exp up p x = Ok (str "+Inf")) /\
  (flform x = Inf -> flneg x = true -> fl_fmt_display checks x = Ok (str "-Inf") /\ fl_fmt_exp up p x = Ok (str "-Inf")).
Proof.
  intros checks up p x. unfold fl_fmt_display, fl_fmt_exp, fmt_inner.
  split; [intros ->; auto|]. split; [intros ->; auto|]. split; intros -> ->; auto.
Qed.
(** 101 is shown as 100.  *)
Theorem C59_inner_zero_refuted : (flvalue (fu 101) == 101)%Q /\ fl_fmt_display true (fu 101) = Ok (str "100." ++ repeat 48 64).
Proof. split; vm_compute; reflexivity. Qed.
(** 2 ^ 32 - 1 is shown as 0, and panics with an exponent. *)
Theorem C59_word_refuted : (flvalue (fu 4294967295) == 4294967295)%Q /\ fl_fmt_display true (fu 4294967295) = Ok (str "0." ++ repeat 48 64) /\
  fl_fmt_exp false None (fu 4294967295) = Panic.
Proof. split; [|split]; vm_compute; reflexivity. Qed.
(** 128 with a precision of one bit is shown as 130.0. *)
Theorem C59_two_roundings_refuted : (flvalue (fp 128 1) == 128)%Q /\ fl_fmt_display true (fp 128 1) = Ok (str "130.0").
Proof. split; vm_compute; reflexivity. Qed.
(** 0.046875 cannot be shown where arithmetic overflow is checked. *)
Theorem C59_small_refuted : exists x, ok_float x /\ flform x = Finite /\ (flvalue x == 3 # 64)%Q /\ printable x /\
  fl_fmt_display true x = Panic /\ fl_fmt_display false x = Ok (str "0.046875" ++ repeat 48 58).
Proof.
  exists (FL ToNearestEven Exact Finite false 64 (-4) [3221225472]).
  assert (V : (flvalue (FL ToNearestEven Exact Finite false 64 (-4)%Z [3221225472%Z]) == 3 # 64)%Q) by (vm_compute; reflexivity).
  split; [|split; [reflexivity|split; [exact V|split]]].
  - split; [cbn; lia|]. intros _. cbn [flprec flmant flexp]. split; [lia|]. split; [split; [apply (of_Z_canon 3221225472); lia|vm_compute; discriminate]|].
    split; [unfold min_exp, max_exp; lia|]. split; [|vm_compute; reflexivity]. exists 3, (-6). split; [lia|]. rewrite V. reflexivity.
  - exists 3, 6. split; [lia|]. split; [lia|]. split; [rewrite V; reflexivity|]. split; [auto|]. split; [|right; vm_compute; discriminate].
    exists [3], 0. split; [repeat constructor; lia|]. split; [intros [X|X]; [discriminate|contradiction]|]. split; [lia|reflexivity].
  - split; vm_compute; reflexivity.
Qed.

(** Reading.  Integers without 'e' are exact.  A literal with a point or an
    exponent is exact when its value is a non-zero integer and the exponent is
    negative after the point has been removed; otherwise it is wrong. *)
Theorem C59_parse_integer : forall s t a, trimmed s t -> t <> [] -> ~ In 46 t -> ~ In 69 t -> ~ In 101 t -> int_text t a -> Z.abs a < 2 ^ max_exp ->
  exists z, fl_from_str s = Ok (Some z) /\ is_integer_float a z.
Proof.
  intros s t a T NE N46 N69 N101 I B. unfold fl_from_str. rewrite (trim_ws_spec _ _ T), !find_char_none by auto.
  destruct t; [congruence|]. rewrite (int_text_parse _ _ I). destruct (from_zint a B) as (x & EX & IX). rewrite EX. cbn [bind]. eauto.
Qed.
Lemma digit10 c v ds : digit_text 10 v ds -> In c v -> 48 <= c <= 57.
Proof.
  unfold digit_text. induction 1 as [|d e v ds H _ IH]; [intros []|]. intros [<-|I]; [|auto]. revert H. unfold digit_value.
  repeat match goal with |- context [?a <=? ?b] => destruct (Z.leb_spec a b) end; cbn [andb];
    match goal with |- context [?a <? ?b] => destruct (Z.ltb_spec a b) end; intros HH; lia || discriminate HH.
Qed.
Definition quotient_float (a k : Z) : res (option float) :=
  do r <- r_from_frac_bigint (zint a) (zint (10 ^ k)); match r with None => Ok None | Some r => do z <- fl_from_rat r; Ok (Some z) end.
Lemma quotient_spec a k : a <> 0 -> 0 < k -> Z.abs a < 2 ^ max_exp -> 10 ^ k < 2 ^ max_exp ->
  (forall q, a = q * 10 ^ k -> exists z, quotient_float a k = Ok (Some z) /\ is_integer_float q z) /\
  (~ (10 ^ k | a) -> forall z, quotient_float a k = Ok (Some z) -> flform z = Finite -> (dy (2 ^ 29) 0 * Qabs (flvalue z) < Qabs (inject_Z a / inject_Z (10 ^ k)))%Q).
Proof.
  intros A K LA LK. assert (P : 0 < 10 ^ k) by (apply Z.pow_pos_nonneg; lia). unfold quotient_float.
  destruct (from_frac_float a (10 ^ k) A P LA LK) as (r & -> & [(q & z & EQ & E & I)|(ND & F)]); cbn [bind].
  - split; [|intros N; exfalso; apply N; exists q; auto]. intros q' EQ'. assert (q' = q) as -> by nia. rewrite E. cbn [bind]. eauto.
  - split; [intros q EQ; exfalso; apply ND; exists q; auto|]. intros _ y E FY. destruct (fl_from_rat r) as [w| |] eqn:EW; cbn [bind] in E; [|discriminate|discriminate].
    apply F; [congruence|auto].
Qed.
Lemma parse_point s u v ds a : trimmed s (u ++ 46 :: v) -> ~ In 46 u -> ~ In 69 u -> ~ In 101 u ->
  digit_text 10 v ds -> v <> [] -> int_text (u ++ v) a -> fl_from_str s = quotient_float a (Z.of_nat (length v)).
Proof.
  intros T N1 N2 N3 D NV I. assert (P : 0 < Z.of_nat (length v)) by (destruct v; [congruence|cbn [length]; lia]).
  assert (G : forall c, ~ In c u -> c = 69 \/ c = 101 -> ~ In c (u ++ v)).
  { intros c H1 H2 H. apply in_app_iff in H as [H|H]; [auto|]. pose proof (digit10 _ _ _ D H). lia. }
  rewrite (parse_dot s u v T) by auto.
  rewrite (byte_len_digits v ds D). destruct (Z.ltb_spec (- Z.of_nat (length v)) 0); [|lia].
  rewrite (int_text_parse _ _ I), ten_text, Z2Nat.id by lia. rewrite Z.opp_involutive. reflexivity.
Qed.
Theorem C59_parse_point_partial : forall s u v ds a q, trimmed s (u ++ 46 :: v) -> ~ In 46 u -> ~ In 69 u -> ~ In 101 u ->
  digit_text 10 v ds -> v <> [] -> int_text (u ++ v) a -> Z.abs a < 2 ^ max_exp -> 10 ^ Z.of_nat (length v) < 2 ^ max_exp ->
  a = q * 10 ^ Z.of_nat (length v) -> q <> 0 ->
  exists z, fl_from_str s = Ok (Some z) /\ is_integer_float q z.
Proof.
  intros s u v ds a q T N1 N2 N3 D NV I LA LK E Q. rewrite (parse_point s u v ds a) by auto.
  assert (P : 0 < Z.of_nat (length v)) by (destruct v; [congruence|cbn [length]; lia]).
  apply quotient_spec; [|auto|auto|auto|auto]. subst a. pose proof (Z.pow_pos_nonneg 10 (Z.of_nat (length v))). nia.
Qed.
(** If the value is not an integer, the Float is too small by a factor of more
    than 2 ^ 29. *)
Theorem C59_parse_point_refuted : forall s u v ds a z, trimmed s (u ++ 46 :: v) -> ~ In 46 u -> ~ In 69 u -> ~ In 101 u ->
  digit_text 10 v ds -> v <> [] -> int_text (u ++ v) a -> Z.abs a < 2 ^ max_exp -> 10 ^ Z.of_nat (length v) < 2 ^ max_exp ->
  ~ (10 ^ Z.of_nat (length v) | a) -> fl_from_str s = Ok (Some z) -> flform z = Finite ->
  (dy (2 ^ 29) 0 * Qabs (flvalue z) < Qabs (inject_Z a / inject_Z (10 ^ Z.of_nat (length v))))%Q.
Proof.
  intros s u v ds a z T N1 N2 N3 D NV I LA LK ND. rewrite (parse_point s u v ds a) by auto.
  assert (P : 0 < Z.of_nat (length v)) by (destruct v; [congruence|cbn [length]; lia]).
  apply quotient_spec; [|auto|auto|auto|auto]. intros ->. apply ND. exists 0. reflexivity.
Qed.
(** "0.5" is refused: the digits without the point start with a zero. *)
Theorem C59_parse_zero_refuted : fl_from_str (str "0.5") = Ok None.
Proof. vm_compute. reflexivity. Qed.
(** With an exponent. *)
Theorem C59_parse_exp_partial : forall s u c es k a, trimmed s (u ++ c :: es) -> c = 101 \/ c = 69 ->
  ~ In 46 (u ++ es) -> ~ In 101 (u ++ es) -> ~ In 69 (u ++ es) -> es <> [] ->
  int_text es (- k) -> int_text u a -> 0 < k < 2 ^ 31 -> a <> 0 -> Z.abs a < 2 ^ max_exp -> 10 ^ k < 2 ^ max_exp ->
  (forall q, a = q * 10 ^ k -> exists z, fl_from_str s = Ok (Some z) /\ is_integer_float q z) /\
  (~ (10 ^ k | a) -> forall z, fl_from_str s = Ok (Some z) -> flform z = Finite -> (dy (2 ^ 29) 0 * Qabs (flvalue z) < Qabs (inject_Z a / inject_Z (10 ^ k)))%Q).
Proof.
  intros s u c es k a T HC N1 N2 N3 NE IE IA K A LA LK.
  rewrite (parse_exp s u c es (- k)) by (auto; unfold min_exp, max_exp; lia). destruct (Z.ltb_spec (- k) 0); [|lia].
  rewrite (int_text_parse _ _ IA), ten_text, Z2Nat.id by lia. rewrite Z.opp_involutive. pose proof (quotient_spec a k A ltac:(lia) LA LK) as Q. unfold quotient_float in Q. exact Q.
Qed.
(** An exponent that is not negative is refused, whatever the digits. *)
Theorem C59_parse_exp_refuted : forall s u c es k, trimmed s (u ++ c :: es) -> c = 101 \/ c = 69 ->
  ~ In 46 (u ++ es) -> ~ In 101 (u ++ es) -> ~ In 69 (u ++ es) -> es <> [] -> int_text es k -> 0 <= k <= max_exp -> fl_from_str s = Ok None.
Proof.
  intros s u c es k T HC N1 N2 N3 NE IE K. rewrite (parse_exp s u c es k) by (auto; unfold min_exp, max_exp in *; lia).
  destruct (Z.ltb_spec k 0); [lia|]. destruct (b_from_str (u ++ repeat 48 (Z.to_nat k))); reflexivity.
Qed.
Example C59_case : fl_fmt_display true (fl_neg (fu 27)) = Ok (str "-27." ++ repeat 48 64) /\
  fl_fmt_exp false None (fu 4294967297) = Ok (str "4.2949673e09") /\ fl_fmt_exp true (Some 2) (fu 12345) = Ok (str "1.23E04") /\
  fl_fmt_exp false (Some 0) (fu 85) = Ok (str "8e01").
Proof. vm_compute. auto. Qed.
Example C59_parse_case : match fl_from_str (str "-12.00") with Ok (Some z) => (flvalue z == -12)%Q | _ => False end /\
  fl_from_str (str "120e1") = Ok None /\
  match fl_from_str (str "12.5") with Ok (Some z) => (flvalue z < 1 # 1000000000000000000)%Q | _ => False end.
Proof. split; [|split]; vm_compute; reflexivity. Qed.
Print Assumptions C59_exp_partial.
Print Assumptions C59_display_partial.
Print Assumptions C59_display_integer_partial.
Print Assumptions C59_special.
Print Assumptions C59_small_refuted.
Print Assumptions C59_parse_integer.
Print Assumptions C59_parse_point_partial.
Print Assumptions C59_parse_point_refuted.
Print Assumptions C59_parse_exp_partial.
Print Assumptions C59_parse_exp_refuted.

Print Assumptions C59_inner_zero_refuted.
Print Assumptions C59_word_refuted.
Print Assumptions C59_two_roundings_refuted.
Print Assumptions C59_parse_zero_refuted.
