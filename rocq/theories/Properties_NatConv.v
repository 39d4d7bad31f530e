(** Final statements about conversions of [Nat]: C12-C15.

    [be_value]/[le_value]: value of a digit list; [is_numeral chr base s n]: [s]
    is the usual numeral of [n]; [numeral_text t base ds]: [t] is a documented
    number text with digits [ds] (all in Spec.v); [trimmed s t]: [t] is [s]
    without leading and trailing Unicode white space. *)
From Coq Require Import Ascii String ZArith List Lia Bool.
From Verif Require Import Words Spec SpecText WordsFacts NatModel NatFacts NatFacts5 NatConv NatConvFacts.
Import ListNotations.
Open Scope Z_scope.
Open Scope list_scope.

(* ------------------------------------------------------------------ *)
(** ** C12 *)
Theorem C12_bytes_roundtrip : forall a, canon a ->
  from_le_bytes (to_le_bytes a) = a /\ from_be_bytes (to_be_bytes a) = a.
Proof. intros a Ha. split; [exact (bytes_roundtrip_le a Ha)|exact (bytes_roundtrip_be a Ha)]. Qed.
Theorem C12_bytes_decode : forall bs, digits_ok 256 bs -> bs <> [] ->
  represents (from_le_bytes bs) (le_value 256 bs) /\
  represents (from_be_bytes bs) (be_value 256 bs) /\
  represents (from_u8_slice bs) (le_value 256 bs).
Proof.
  intros bs Hb Hn. split; [apply from_le_bytes_rep; auto|]. split; [apply from_be_bytes_rep; auto|].
  rewrite from_u8_slice_of_Z by auto. apply rep_of_Z. apply le_value_bound; auto; lia.
Qed.
Theorem C12_bytes_encode_minimal : forall a, canon a ->
  digits_ok 256 (to_le_bytes a) /\ le_value 256 (to_le_bytes a) = nval a /\
  to_le_bytes a <> [] /\ (length (to_le_bytes a) = 1%nat \/ last (to_le_bytes a) 0 <> 0) /\
  to_be_bytes a = rev (to_le_bytes a).
Proof.
  intros a Ha. destruct (to_le_bytes_spec a Ha) as [H1 [H2 [H3 H4]]].
  repeat (split; [assumption|]). apply to_be_bytes_rev, canon_words, Ha.
Qed.
Theorem C12_bytes_nan : from_le_bytes [] = nan /\ from_be_bytes [] = nan /\
  to_le_bytes nan = [] /\ to_be_bytes nan = [].
Proof. auto. Qed.
Theorem C12_from_machine_words : forall x,
  (0 <= x < 2 ^ 64 -> represents (from_u64 x) x) /\
  (0 <= x < 2 ^ 128 -> represents (from_u128 x) x) /\
  (0 <= x < 2 ^ 32 -> represents (from_u32 x) x).
Proof.
  intros x. split; [|split]; intros Hx.
  - rewrite from_u64_of_Z by auto. apply rep_of_Z; lia.
  - rewrite from_u128_of_Z by auto. apply rep_of_Z; lia.
  - split; [apply canon_single; exact Hx|unfold from_u32; cbn [nval]; lia].
Qed.
Example C12_case : to_le_bytes [67305985; 1541] = [1; 2; 3; 4; 5; 6] /\
  from_be_bytes [0; 0; 6; 5; 4; 3; 2; 1] = [67305985; 1541] /\ from_u64 18446744073709551615 = [4294967295; 4294967295].
Proof. vm_compute. auto. Qed.
Print Assumptions C12_bytes_roundtrip.
Print Assumptions C12_bytes_decode.
Print Assumptions C12_bytes_encode_minimal.
Print Assumptions C12_from_machine_words.

(* ------------------------------------------------------------------ *)
(** ** C13 *)
Lemma chars_16 (P : Z -> Prop) : Forall P [0; 1; 2; 3; 4; 5; 6; 7; 8; 9; 10; 11; 12; 13; 14; 15] -> forall d, 0 <= d < 16 -> P d.
Proof. rewrite Forall_forall. intros H d D. apply H. cbn [In]. lia. Qed.
Lemma numeral_ext f g base s n : base <= 16 -> Forall (fun d => f d = g d) [0; 1; 2; 3; 4; 5; 6; 7; 8; 9; 10; 11; 12; 13; 14; 15] ->
  is_numeral f base s n -> is_numeral g base s n.
Proof.
  intros B H (ds & -> & D & R). exists ds. split; [|split; [exact D|exact R]]. apply map_ext_in. intros d I. unfold digits_ok in D. rewrite Forall_forall in D.
  specialize (D d I). apply (chars_16 (fun d => f d = g d) H). lia.
Qed.
Lemma lower_numeral_of base s n : base <= 16 -> is_numeral lchar base s n -> lower_numeral base s n.
Proof. intros B. apply numeral_ext; [exact B|]. repeat constructor. Qed.
Lemma upper_numeral_of base s n : base <= 16 -> is_numeral uchar base s n -> upper_numeral base s n.
Proof. intros B. apply numeral_ext; [exact B|]. repeat constructor. Qed.
Lemma lower_numeral_to base s n : base <= 16 -> lower_numeral base s n -> is_numeral lchar base s n.
Proof. intros B. apply numeral_ext; [exact B|]. repeat constructor. Qed.
Lemma format_hex : forall alt a, canon a ->
  (exists s, fmt_lower_hex alt a = (if alt then str "0x" else []) ++ s /\ is_numeral lchar 16 s (nval a)) /\
  (exists s, fmt_upper_hex alt a = (if alt then str "0x" else []) ++ s /\ is_numeral uchar 16 s (nval a)).
Proof.
  intros alt a Ha. split; apply nat_fmt_spec; auto; try lia;
    [apply lchar_ok; lia|apply uchar_ok; lia].
Qed.
Lemma format_binary : forall alt a, canon a ->
  exists s, fmt_binary alt a = (if alt then str "0b" else []) ++ s /\ is_numeral lchar 2 s (nval a).
Proof. intros alt a Ha. apply nat_fmt_spec; auto; try lia. apply lchar_ok; lia. Qed.
Theorem C13_format_hex : forall alt a, canon a ->
  (exists s, fmt_lower_hex alt a = (if alt then str "0x" else []) ++ s /\ lower_numeral 16 s (nval a)) /\
  (exists s, fmt_upper_hex alt a = (if alt then str "0x" else []) ++ s /\ upper_numeral 16 s (nval a)).
Proof.
  intros alt a Ha. destruct (format_hex alt a Ha) as [(s & E & N) (t & F & M)].
  split; [exists s|exists t]; (split; [assumption|]); [apply lower_numeral_of|apply upper_numeral_of]; (lia || assumption).
Qed.
Theorem C13_format_binary : forall alt a, canon a ->
  exists s, fmt_binary alt a = (if alt then str "0b" else []) ++ s /\ lower_numeral 2 s (nval a).
Proof. intros alt a Ha. destruct (format_binary alt a Ha) as (s & E & N). exists s. split; [exact E|]. apply lower_numeral_of; [lia|exact N]. Qed.
Theorem C13_format_octal : forall alt a, canon a ->
  exists s, fmt_octal alt a = (if alt then str "0o" else []) ++ s /\ lower_numeral 8 s (nval a).
Proof. intros alt a Ha. destruct (fmt_octal_spec alt a Ha) as (s & E & N). exists s. split; [exact E|]. apply lower_numeral_of; [lia|exact N]. Qed.
Theorem C13_format_decimal : forall a, canon a ->
  exists s, fmt_display a = Ok s /\ lower_numeral 10 s (nval a).
Proof. intros a Ha. destruct (fmt_display_spec a Ha) as (s & E & N). exists s. split; [exact E|]. apply lower_numeral_of; [lia|exact N]. Qed.
Example C13_case : fmt_display [0; 0; 1] = Ok (str "18446744073709551616") /\
  fmt_lower_hex true [48879; 1] = str "0x10000beef" /\ fmt_upper_hex false [48879; 1] = str "10000BEEF" /\ fmt_octal false [0; 1] = str "40000000000" /\
  fmt_binary true [5] = str "0b101" /\ fmt_display [0] = Ok (str "0").
Proof. vm_compute. auto 10. Qed.
Print Assumptions C13_format_hex.
Print Assumptions C13_format_binary.
Print Assumptions C13_format_octal.
Print Assumptions C13_format_decimal.

(* ------------------------------------------------------------------ *)
(** ** C14

    Full claim: every digit string (with optional prefix) parses to its value,
    everything else is Err.  False in two corners: decimal numerals with a
    superfluous leading zero are Err, and a bare prefix ("0x") is Ok(NaN).
    The partial theorem is an exact description: the accepted texts are the
    [numeral_text]s, and each gives its value.  (Never panicking is part of
    the model's type: [option], with no [Panic].) *)
Theorem C14_leading_zero_refuted : exists s ds, digit_text 10 s ds /\ ds <> [] /\
  nat_from_str s = None.
Proof.
  exists (str "007"), [0; 0; 7]. split; [repeat constructor|]. split; [discriminate|reflexivity].
Qed.
Theorem C14_bare_prefix_refuted : nat_from_str (str "0x") = Some nan.
Proof. reflexivity. Qed.
Theorem C14_parse_value_partial : forall s t base ds, trimmed s t -> numeral_text t base ds -> ds <> [] ->
  exists v, nat_from_str s = Some v /\ represents v (be_value base ds).
Proof.
  intros s t base ds H1 H2 H3. exists (parsed base ds).
  split; [apply (nat_from_str_complete s t); auto|].
  destruct H2 as [pre s0 ds Hpre Htxt Hne Hld|pre c base s0 ds Hpre Hc Htxt].
  - apply parsed_rep; auto; [lia|]. eapply digit_text_ok; eauto. lia.
  - assert (0 < base) by (destruct Hc as [[-> _]|[[-> _]|[-> _]]]; lia).
    apply parsed_rep; auto. eapply digit_text_ok; eauto. lia.
Qed.
Theorem C14_parse_rejects_partial : forall s,
  (forall t base ds, trimmed s t -> ~ numeral_text t base ds) -> nat_from_str s = None.
Proof.
  intros s H. destruct (nat_from_str s) as [v|] eqn:E; [|reflexivity].
  destruct (nat_from_str_sound s v E) as [t [base [ds [H1 [H2 _]]]]]. exfalso. eapply H; eauto.
Qed.
Example C14_case : nat_from_str (str " ++18446744073709551621 ") = Some [5; 0; 1] /\
  nat_from_str (str "0XdeadBEEF0") = Some [3940282096; 13] /\ nat_from_str (str "0o17") = Some [15] /\
  nat_from_str (str "12a") = None /\ nat_from_str (str "0b102") = None /\ nat_from_str [] = None.
Proof. vm_compute. auto 10. Qed.
Example C14_hyps : trimmed (str " +12 ") (str "+12") /\ numeral_text (str "+12") 10 [1; 2].
Proof.
  split.
  - exists [32], [32]. split; [reflexivity|]. split; [repeat constructor|]. split; [repeat constructor|].
    right. split; reflexivity.
  - apply (nt_dec [43] (str "12") [1; 2]); [repeat constructor|repeat constructor|discriminate|].
    right. cbn. lia.
Qed.
Print Assumptions C14_leading_zero_refuted.
Print Assumptions C14_parse_value_partial.
Print Assumptions C14_parse_rejects_partial.

(* ------------------------------------------------------------------ *)
(** ** C15 *)
Theorem C15_parse_display : forall a, canon a ->
  exists s, fmt_display a = Ok s /\ nat_from_str s = Some a.
Proof.
  intros a Ha. destruct (fmt_display_spec a Ha) as [s [H1 H2]]. exists s. split; [auto|].
  apply roundtrip_dec; auto.
Qed.
Theorem C15_parse_prefixed : forall a, canon a ->
  nat_from_str (fmt_lower_hex true a) = Some a /\ nat_from_str (fmt_upper_hex true a) = Some a /\
  nat_from_str (fmt_binary true a) = Some a /\ nat_from_str (fmt_octal true a) = Some a.
Proof.
  intros a Ha. destruct (format_hex true a Ha) as [[s1 [-> N1]] [s2 [-> N2]]].
  destruct (format_binary true a Ha) as [s3 [-> N3]].
  destruct (fmt_octal_spec true a Ha) as [s4 [-> N4]].
  split; [|split; [|split]].
  - apply (roundtrip_prefix lchar 16 120); auto; try lia.
    + intros d Hd. apply lchar_digit; lia.
    + intros d Hd. apply lchar_range; lia.
    + left. auto.
  - apply (roundtrip_prefix uchar 16 120); auto; try lia.
    + intros d Hd. apply uchar_digit; lia.
    + intros d Hd. apply uchar_range; lia.
    + left. auto.
  - apply (roundtrip_prefix lchar 2 98); auto; try lia.
    + intros d Hd. apply lchar_digit; lia.
    + intros d Hd. apply lchar_range; lia.
    + right. left. auto.
  - apply (roundtrip_prefix lchar 8 111); auto; try lia.
    + intros d Hd. apply lchar_digit; lia.
    + intros d Hd. apply lchar_range; lia.
    + right. right. auto.
Qed.
Example C15_case : nat_from_str (fmt_octal true [0; 0; 1; 5]) = Some [0; 0; 1; 5] /\ canon [0; 0; 1; 5].
Proof. split; [reflexivity|]. split; [repeat constructor; lia|]. split; [discriminate|right; cbn; lia]. Qed.
Print Assumptions C15_parse_display.
Print Assumptions C15_parse_prefixed.

Print Assumptions C12_bytes_nan.
Print Assumptions C14_bare_prefix_refuted.
