(** Formatting of [BigInt] in the four bases (C90).

    Full claim: the text is a minus sign for negative numbers, the prefix when
    and only when '#' is given, and the numeral of the magnitude.  False for
    [Binary], which prints the prefix always. *)
From Coq Require Import Ascii String ZArith List Lia Bool.
From Verif Require Import Words Spec SpecText WordsFacts NatModel NatFacts NatFacts5 NatConv NatConvFacts Properties_NatConv BigInt SpecInt BigIntFacts Properties_BigInt.
Import ListNotations.
Open Scope Z_scope.
Open Scope list_scope.

Definition sign_of (n : Z) : list Z := if n <? 0 then str "-" else [].
Lemma sign_text n t : b_sign_text (zint n) t = sign_of n ++ t.
Proof. unfold b_sign_text, sign_of. rewrite zint_is_negative. destruct (n <? 0); reflexivity. Qed.
Theorem C90_hex : forall alt x n, is_int x n ->
  (exists s, b_fmt_lower_hex alt x = sign_of n ++ (if alt then str "0x" else []) ++ s /\ lower_numeral 16 s (Z.abs n)) /\
  (exists s, b_fmt_upper_hex alt x = sign_of n ++ (if alt then str "0x" else []) ++ s /\ upper_numeral 16 s (Z.abs n)).
Proof.
  intros alt x n Hx. apply is_int_iff in Hx. subst x. unfold b_fmt_lower_hex, b_fmt_upper_hex. rewrite !sign_text, zint_nat.
  destruct (C13_format_hex alt (of_Z (Z.abs n)) (abs_canon n)) as [(s & E & N) (t & F & M)]. rewrite abs_val in N, M.
  split; [exists s; rewrite E|exists t; rewrite F]; (split; [reflexivity|assumption]).
Qed.
Theorem C90_octal : forall alt x n, is_int x n ->
  exists s, b_fmt_octal alt x = sign_of n ++ (if alt then str "0o" else []) ++ s /\ lower_numeral 8 s (Z.abs n).
Proof.
  intros alt x n Hx. apply is_int_iff in Hx. subst x. unfold b_fmt_octal. rewrite sign_text, zint_nat.
  destruct (C13_format_octal alt (of_Z (Z.abs n)) (abs_canon n)) as (s & E & N). rewrite abs_val in N. exists s. rewrite E. split; [reflexivity|assumption].
Qed.
Theorem C90_binary_partial : forall x n, is_int x n ->
  exists s, b_fmt_binary true x = sign_of n ++ str "0b" ++ s /\ lower_numeral 2 s (Z.abs n).
Proof.
  intros x n Hx. apply is_int_iff in Hx. subst x. unfold b_fmt_binary. rewrite sign_text, zint_nat.
  destruct (C13_format_binary true (of_Z (Z.abs n)) (abs_canon n)) as (s & E & N). rewrite abs_val in N. exists s. rewrite E. split; [reflexivity|assumption].
Qed.
Theorem C90_binary_prefix_refuted : forall x n, is_int x n -> b_fmt_binary false x = b_fmt_binary true x /\
  ~ exists s, b_fmt_binary false x = sign_of n ++ s /\ lower_numeral 2 s (Z.abs n).
Proof.
  intros x n Hx. split; [reflexivity|]. destruct (C90_binary_partial x n Hx) as (s & E & _). change (b_fmt_binary false x) with (b_fmt_binary true x). rewrite E.
  intros (t & T & (ds & -> & D & _)). apply app_inv_head in T. change (str "0b") with [48; 98] in T. destruct ds as [|d0 [|d ds]]; cbn [map app] in T; try discriminate.
  assert (X : digit_in lower_digits d = 98) by congruence. apply Forall_inv_tail, Forall_inv in D. cbn beta in D. assert (C : d = 0 \/ d = 1) by lia. destruct C as [->| ->]; discriminate X.
Qed.
(** The text determines the number. *)
Theorem C90_display_injective : forall x y m n t, is_int x m -> is_int y n -> b_fmt_display x = Ok t -> b_fmt_display y = Ok t -> m = n.
Proof.
  intros x y m n t X Y EX EY. destruct (C45_display x m X) as (s & t1 & E1 & _ & _ & P1). destruct (C45_display y n Y) as (s' & t2 & E2 & _ & _ & P2).
  assert (t1 = t) as -> by congruence. assert (t2 = t) as -> by congruence. assert (x = y) as -> by congruence.
  destruct X as (_ & <-), Y as (_ & <-). reflexivity.
Qed.
Example C90_case : b_fmt_upper_hex true (zint (-48879)) = str "-0xBEEF" /\ b_fmt_octal false (zint (-8)) = str "-10" /\ b_fmt_binary false (zint 5) = str "0b101".
Proof. vm_compute. auto. Qed.
Print Assumptions C90_hex.
Print Assumptions C90_octal.
Print Assumptions C90_binary_partial.
Print Assumptions C90_binary_prefix_refuted.
Print Assumptions C90_display_injective.
