(** The options of a format string: property C128.

    Full claim: width, fill, alignment, '+', '#', '0' act on Nat and BigInt as
    on the primitive integers, and the precision on Float as on the primitive
    floats.  False: only '#' is looked at, and the precision by [{:e}]. *)
From Coq Require Import ZArith String List Lia Bool.
From Verif Require Import Words Spec SpecText WordsFacts NatModel NatConv NatConvFacts Properties_NatConv BigInt SpecInt BigIntFacts Properties_BigInt Properties_Format.
From Verif Require Import Rat RatFacts Float Decimal DebugFmt Errors Formatter SpecFormat.
Import ListNotations.
Open Scope Z_scope.
Open Scope list_scope.

(** When the options not looked at make no difference: no '+' for a number that
    is not negative, and a text as long as the width. *)
Definition idle (o : options) (negative : bool) (text : list Z) : Prop :=
  (plus o = true -> negative = true) /\ (wanted o <= List.length text)%nat.

Lemma filled_length c a w b : List.length (filled c a w b) = Nat.max w (List.length b).
Proof.
  unfold filled. destruct a; rewrite ?app_length, ?repeat_length; try lia.
  pose proof (Nat.div_le_upper_bound (w - List.length b) 2 (w - List.length b) ltac:(lia) ltac:(lia)). lia.
Qed.
Lemma filled_long c a w b : (w <= List.length b)%nat -> filled c a w b = b.
Proof.
  intros L. unfold filled. replace (w - List.length b)%nat with 0%nat by lia.
  destruct a; cbn [repeat]; rewrite ?app_nil_r; reflexivity.
Qed.
Lemma as_integer o neg pre s :
  let text := (if neg : bool then str "-" else []) ++ (if alternate o then pre else []) ++ s in
  text = integer_text o neg pre s <-> idle o neg text.
Proof.
  set (p := if alternate o then pre else []). cbn zeta. unfold integer_text. fold p.
  set (sg := if neg then str "-" else if plus o then str "+" else []).
  split.
  - intros E. apply (f_equal (@List.length Z)) in E.
    assert (L : List.length ((if neg then str "-" else []) ++ p ++ s) = Nat.max (wanted o) (List.length (sg ++ p ++ s))).
    { rewrite E. destruct (zeros o); [|apply filled_length]. rewrite !app_length, repeat_length, ?app_length. lia. }
    clear E. unfold sg in L. split.
    + intros P. destruct neg; [reflexivity|]. rewrite P in L. rewrite !app_length in L. cbn [List.length str] in L. change (List.length (str "+")) with 1%nat in L. lia.
    + lia.
  - intros [P L].
    assert (S : (if neg then str "-" else []) = sg) by (unfold sg; destruct neg; [reflexivity|]; destruct (plus o); [discriminate (P eq_refl)|reflexivity]).
    rewrite S in *. destruct (zeros o); [|symmetry; apply filled_long; exact L].
    replace (wanted o - List.length (sg ++ p ++ s))%nat with 0%nat by lia. reflexivity.
Qed.

(** ** C128 *)
(** Decimal, hexadecimal, octal, binary: like a primitive integer exactly when
    the options are idle. *)
Theorem C128_nat_partial : forall o a, canon a ->
  (exists s t, lower_numeral 10 s (nval a) /\ nat_show o a = Ok t /\ (t = integer_text o false [] s <-> idle o false t)) /\
  (exists s, lower_numeral 16 s (nval a) /\ (nat_show_lower_hex o a = integer_text o false (str "0x") s <-> idle o false (nat_show_lower_hex o a))) /\
  (exists s, upper_numeral 16 s (nval a) /\ (nat_show_upper_hex o a = integer_text o false (str "0x") s <-> idle o false (nat_show_upper_hex o a))) /\
  (exists s, lower_numeral 8 s (nval a) /\ (nat_show_octal o a = integer_text o false (str "0o") s <-> idle o false (nat_show_octal o a))) /\
  (exists s, lower_numeral 2 s (nval a) /\ (nat_show_binary o a = integer_text o false (str "0b") s <-> idle o false (nat_show_binary o a))).
Proof.
  intros o a C. unfold nat_show, nat_show_lower_hex, nat_show_upper_hex, nat_show_octal, nat_show_binary, write_text.
  destruct (C13_format_decimal a C) as (s & E & N). destruct (C13_format_hex (alternate o) a C) as ((h & EH & NH) & (u & EU & NU)).
  destruct (C13_format_octal (alternate o) a C) as (q & EQ & NQ). destruct (C13_format_binary (alternate o) a C) as (b & EB & NB).
  split.
  { exists s, s. split; [exact N|]. split; [rewrite E; reflexivity|].
    pose proof (as_integer o false [] s) as A. cbn zeta in A. destruct (alternate o); exact A. }
  split; [exists h|split; [exists u|split; [exists q|exists b]]]; (split; [assumption|]).
  - rewrite EH. exact (as_integer o false (str "0x") h).
  - rewrite EU. exact (as_integer o false (str "0x") u).
  - rewrite EQ. exact (as_integer o false (str "0o") q).
  - rewrite EB. exact (as_integer o false (str "0b") b).
Qed.
Theorem C128_bigint_partial : forall o x n, is_int x n ->
  (exists s t, lower_numeral 10 s (Z.abs n) /\ int_show o x = Ok t /\ (t = integer_text o (n <? 0) [] s <-> idle o (n <? 0) t)) /\
  (exists s, lower_numeral 16 s (Z.abs n) /\ (int_show_lower_hex o x = integer_text o (n <? 0) (str "0x") s <-> idle o (n <? 0) (int_show_lower_hex o x))) /\
  (exists s, upper_numeral 16 s (Z.abs n) /\ (int_show_upper_hex o x = integer_text o (n <? 0) (str "0x") s <-> idle o (n <? 0) (int_show_upper_hex o x))) /\
  (exists s, lower_numeral 8 s (Z.abs n) /\ (int_show_octal o x = integer_text o (n <? 0) (str "0o") s <-> idle o (n <? 0) (int_show_octal o x))) /\
  (alternate o = true -> exists s, lower_numeral 2 s (Z.abs n) /\ (int_show_binary o x = integer_text o (n <? 0) (str "0b") s <-> idle o (n <? 0) (int_show_binary o x))).
Proof.
  intros o x n X. unfold int_show, int_show_lower_hex, int_show_upper_hex, int_show_octal, int_show_binary, write_text.
  destruct (C45_display x n X) as (s & t & E & T & N & _). destruct (C90_hex (alternate o) x n X) as ((h & EH & NH) & (u & EU & NU)).
  destruct (C90_octal (alternate o) x n X) as (q & EQ & NQ). destruct (C90_binary_partial x n X) as (b & EB & NB).
  unfold sign_of in *.
  split.
  { exists s, t. split; [exact N|]. split; [rewrite E; reflexivity|]. rewrite T.
    pose proof (as_integer o (n <? 0) [] s) as A. cbn zeta in A. destruct (alternate o); exact A. }
  split; [exists h|split; [exists u|split; [exists q|intros AL; exists b]]]; (split; [assumption|]).
  - rewrite EH. exact (as_integer o (n <? 0) (str "0x") h).
  - rewrite EU. exact (as_integer o (n <? 0) (str "0x") u).
  - rewrite EQ. exact (as_integer o (n <? 0) (str "0o") q).
  - rewrite AL, EB. pose proof (as_integer o (n <? 0) (str "0b") b) as A. rewrite AL in A. exact A.
Qed.
(** Two sets of options with the same '#' give the same text; for a Float also
    '#' is ignored, and [{}] ignores the precision. *)
Theorem C128_ignored_refuted : forall o o', alternate o = alternate o' ->
  (forall a, nat_show o a = nat_show o' a /\ nat_show_lower_hex o a = nat_show_lower_hex o' a /\ nat_show_upper_hex o a = nat_show_upper_hex o' a /\
     nat_show_octal o a = nat_show_octal o' a /\ nat_show_binary o a = nat_show_binary o' a /\ nat_show_debug o a = nat_show_debug o' a) /\
  (forall x, int_show o x = int_show o' x /\ int_show_lower_hex o x = int_show_lower_hex o' x /\ int_show_upper_hex o x = int_show_upper_hex o' x /\
     int_show_octal o x = int_show_octal o' x /\ int_show_binary o x = int_show_binary o' x /\ int_show_debug o x = int_show_debug o' x) /\
  (forall x, rat_show o x = rat_show o' x /\ rat_show_lower_hex o x = rat_show_lower_hex o' x /\ rat_show_upper_hex o x = rat_show_upper_hex o' x /\
     rat_show_octal o x = rat_show_octal o' x /\ rat_show_binary o x = rat_show_binary o' x /\ rat_show_debug o x = rat_show_debug o' x).
Proof.
  intros o o' E. repeat split; unfold nat_show_lower_hex, nat_show_upper_hex, nat_show_octal, nat_show_binary, nat_show_debug,
    int_show_lower_hex, int_show_upper_hex, int_show_octal, int_show_binary, int_show_debug,
    rat_show_lower_hex, rat_show_upper_hex, rat_show_octal, rat_show_binary, rat_show_debug; rewrite ?E; reflexivity.
Qed.
Theorem C128_float_refuted : forall o o' checks upper x, float_show checks o x = float_show checks o' x /\
  (precision o = precision o' -> float_show_exp upper o x = float_show_exp upper o' x).
Proof. intros o o' checks upper x. split; [reflexivity|]. intros E. unfold float_show_exp. rewrite E. reflexivity. Qed.
(** The texts of errors do follow the options, as strings do. *)
Theorem C128_errors : forall (K : Type) (dbg : K -> list Z) k m o, error_show o (as_report dbg (failed k (Plain m))) = string_text o m.
Proof.
  intros K dbg k m o. unfold as_report, failed. cbn [Errors.kind Errors.inner error_show]. unfold pad, string_text, filled, wanted.
  destruct (width o); destruct (align o) as [[]|]; reflexivity.
Qed.
Example C128_case : let o := Options 42 None true true true (Some 10%nat) None in
  int_show_lower_hex o (zint (-255)) = str "-0xff" /\ integer_text o true (str "0x") (str "ff") = str "-0x00000ff" /\
  int_show o (zint 7) = Ok (str "7") /\ integer_text (Options 42 (Some Center) true false false (Some 5%nat) None) false [] (str "7") = str "*+7**" /\
  nat_show_binary (Options 32 None false true false (Some 4%nat) None) [5] = integer_text (Options 32 None false true false (Some 4%nat) None) false (str "0b") (str "101") /\
  error_show (Options 46 (Some Right) false false false (Some 8%nat) (Some 5%nat)) (as_report parse_dbg (failed BeginWithIllegalChar (Plain (str "empty string")))) = str "...empty".
Proof. vm_compute. repeat split. Qed.
Print Assumptions C128_nat_partial.
Print Assumptions C128_bigint_partial.
Print Assumptions C128_ignored_refuted.
Print Assumptions C128_float_refuted.
Print Assumptions C128_errors.
