(** The options of a format string, continued (C128): the texts of Rat, of
    [{:?}] and of [{:e}] under any options. *)
From Coq Require Import ZArith String QArith Qabs List Lia Bool.
From Verif Require Import Words Spec SpecText WordsFacts NatModel NatConv NatConvFacts Properties_NatConv BigInt SpecInt BigIntFacts Properties_BigInt Properties_Format.
From Verif Require Import Rat RatFacts Properties_Rat Float SpecFloat Properties_Float SpecDecimal SpecLoose Decimal SpecDecimal2 DecimalFacts4 DecimalFacts5 Properties_FloatText Properties_FloatShow DebugFmt Properties_Debug Formatter SpecFormat Properties_Flags.
Import ListNotations.
Open Scope Z_scope.
Open Scope list_scope.

(** The sign, the prefix if [alt], the numeral of [n]. *)
Definition part (numeral : Z -> list Z -> Z -> Prop) (base : Z) (prefix : list Z) (alt : bool) (n : Z) (t : list Z) : Prop :=
  exists s, numeral base s (Z.abs n) /\ t = sign_of n ++ (if alt then prefix else []) ++ s.
(** Two parts with '/' between. *)
Definition parts (numeral : Z -> list Z -> Z -> Prop) (base : Z) (prefix : list Z) (alt : bool) (a b : Z) (t : list Z) : Prop :=
  exists u v, part numeral base prefix alt a u /\ part numeral base prefix alt b v /\ t = u ++ str "/" ++ v.

Lemma rat_not_nan x a b : is_int (rnum x) a -> is_int (rden x) b -> r_is_nan x = false.
Proof. intros A B. unfold r_is_nan. apply is_int_iff in A, B. rewrite A, B, !zint_not_nan. reflexivity. Qed.

(** A Rat: numerator, '/', denominator, also for the denominator 1; no option
    but '#' plays a role, and in binary the prefix is always there. *)
Theorem C128_rat_partial : forall o x a b, is_int (rnum x) a -> is_int (rden x) b ->
  (exists t, rat_show o x = Ok t /\ parts lower_numeral 10 [] false a b t) /\
  parts lower_numeral 16 (str "0x") (alternate o) a b (rat_show_lower_hex o x) /\
  parts upper_numeral 16 (str "0x") (alternate o) a b (rat_show_upper_hex o x) /\
  parts lower_numeral 8 (str "0o") (alternate o) a b (rat_show_octal o x) /\
  parts lower_numeral 2 (str "0b") true a b (rat_show_binary o x) /\
  parts lower_numeral 16 [] false a b (rat_show_debug o x).
Proof.
  intros o x a b A B. pose proof (rat_not_nan x a b A B) as N.
  unfold rat_show, rat_show_lower_hex, rat_show_upper_hex, rat_show_octal, rat_show_binary, rat_show_debug, write_text.
  unfold r_fmt_display, r_fmt_lower_hex, r_fmt_upper_hex, r_fmt_octal, r_fmt_binary, r_text. rewrite N.
  destruct (C45_display _ _ A) as (s & t & E & -> & S & _). destruct (C45_display _ _ B) as (s' & t' & E' & -> & S' & _).
  destruct (C90_hex (alternate o) _ _ A) as ((h & EH & NH) & (u & EU & NU)). destruct (C90_hex (alternate o) _ _ B) as ((h' & EH' & NH') & (u' & EU' & NU')).
  destruct (C90_octal (alternate o) _ _ A) as (q & EQ & NQ). destruct (C90_octal (alternate o) _ _ B) as (q' & EQ' & NQ').
  assert (BI : forall y, b_fmt_binary (alternate o) y = b_fmt_binary true y) by (intros y; destruct (alternate o); reflexivity).
  destruct (C90_binary_partial _ _ A) as (d & ED & ND). destruct (C90_binary_partial _ _ B) as (d' & ED' & ND').
  split; [|split; [|split; [|split; [|split]]]].
  - rewrite E, E'. cbn [bind]. eexists. split; [reflexivity|]. eexists _, _. split; [exists s; split; [exact S|reflexivity]|]. split; [exists s'; split; [exact S'|reflexivity]|reflexivity].
  - rewrite EH, EH'. eexists _, _. split; [exists h; split; [exact NH|reflexivity]|]. split; [exists h'; split; [exact NH'|reflexivity]|reflexivity].
  - rewrite EU, EU'. eexists _, _. split; [exists u; split; [exact NU|reflexivity]|]. split; [exists u'; split; [exact NU'|reflexivity]|reflexivity].
  - rewrite EQ, EQ'. eexists _, _. split; [exists q; split; [exact NQ|reflexivity]|]. split; [exists q'; split; [exact NQ'|reflexivity]|reflexivity].
  - rewrite !BI, ED, ED'. eexists _, _. split; [exists d; split; [exact ND|reflexivity]|]. split; [exists d'; split; [exact ND'|reflexivity]|reflexivity].
  - destruct (C104_rat_partial (alternate o) x a b A B) as (v & w & V & U & ->). eexists _, _. split; [exists v; split; [exact V|reflexivity]|]. split; [exists w; split; [exact U|reflexivity]|reflexivity].
Qed.
(** [{:?}] is [{:x}]. *)
Theorem C128_debug : forall o a x n, canon a -> is_int x n ->
  (exists s, lower_numeral 16 s (nval a) /\ nat_show_debug o a = (if alternate o then str "0x" else []) ++ s) /\
  part lower_numeral 16 (str "0x") (alternate o) n (int_show_debug o x).
Proof.
  intros o a x n A X. unfold nat_show_debug, int_show_debug, write_text.
  destruct (C104_nat a A) as (s & S & E & F & _). destruct (C104_bigint x n X) as (t & T & G & H & _).
  split; [exists s; split; [exact S|destruct (alternate o); [exact F|exact E]]|].
  exists t. split; [exact T|]. destruct (alternate o); [exact H|exact G].
Qed.
(** [{:e}] and [{:E}] follow the precision, 7 places without one, as far as C122
    goes; [{}] uses the precision of the number. *)
Theorem C128_float_partial : forall o checks upper x m s up, ok_float x -> flform x = Finite -> flprec x < 2 ^ 60 -> shown x m s up ->
  (m <> 0 -> let q := match precision o with Some p => Z.of_nat p | None => 7 end in
    exists t r, float_show_exp upper o x = Ok t /\ sig_rounded_by up (1 + q) (dy m (- s)) r /\ signed_text x (fun u => sci_text q (if upper then 69 else 101) u r) t) /\
  (exists r1 r, (if m =? 0 then (r1 == 0)%Q else sig_rounded_by up (1 + flprec x) (dy m (- s)) r1) /\ place_rounded (flprec x) r1 r /\
    shown_text checks x (flprec x) (float_show checks o x) r).
Proof.
  intros o checks upper x m s up O F P S. split.
  - intros M q. assert (Q : match option_map Z.of_nat (precision o) with Some p => 0 <= p | None => True end) by (destruct (precision o); cbn [option_map]; [lia|exact I]).
    pose proof (C122_exp upper (option_map Z.of_nat (precision o)) x m s up O F P Q S) as H. cbv zeta in H.
    destruct (Z.eqb_spec m 0) as [Z0|_]; [contradiction|]. destruct H as (t & r & E & R & T). exists t, r.
    unfold float_show_exp. rewrite E. cbn [bind]. unfold write_text. split; [reflexivity|]. unfold q. destruct (precision o); cbn [option_map] in *; auto.
  - destruct (C122_display checks x m s up O F P S) as (r1 & r & A & B & C). exists r1, r. split; [exact A|]. split; [exact B|].
    unfold float_show, write_text. replace (do s0 <- fl_fmt_display checks x; Ok s0) with (fl_fmt_display checks x) by (destruct (fl_fmt_display checks x); reflexivity). exact C.
Qed.
Example C128_texts_case : let o := Options 42 (Some Center) true true true (Some 30%nat) (Some 2%nat) in
  rat_show_upper_hex o (mk true 255 false 16) = str "-0xFF/0x10" /\ rat_show_debug o (mk true 255 false 16) = str "-ff/10" /\
  rat_show o (mk false 5 false 1) = Ok (str "5/1") /\ rat_show_binary (Options 32 None false false false None None) (mk false 5 false 1) = str "0b101/0b1" /\
  int_show_debug o (zint (-10)) = str "-0xa" /\
  float_show_exp true o (fu 12345) = Ok (str "1.23E04").
Proof. vm_compute. repeat split. Qed.
Print Assumptions C128_rat_partial.
Print Assumptions C128_debug.
Print Assumptions C128_float_partial.
