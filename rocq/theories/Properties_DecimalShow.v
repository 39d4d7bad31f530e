(** The [Display] of [Decimal]: property C127. *)
From Coq Require Import Ascii String ZArith QArith List Bool Lia.
From Verif Require Import Words Spec NatModel NatConv NatConvFacts BigInt SpecDecimal Decimal DecimalFacts DecimalShow.
Import ListNotations.
Open Scope Z_scope.
Open Scope list_scope.

(** ** C127
    [t] is decimal digits with at most one point, of value [v]. *)
Definition plain_text (t : list Z) (v : Q) : Prop :=
  exists a b xs ys, (t = a ++ 46 :: b \/ t = a /\ b = []) /\ digit_text 10 a xs /\ digit_text 10 b ys /\
    (v == de (be_value 10 (xs ++ ys)) (- Z.of_nat (List.length b)))%Q.
(** The value that decimal.rs:7-11 documents: 0.d1 d2 d3 ... times 10 ^ exp. *)
Definition documented (d : decimal) (v : Q) : Prop :=
  exists xs, digit_text 10 (dmant d) xs /\ (v == de (be_value 10 xs) (dexp d - Z.of_nat (List.length xs)))%Q.
(** Digits and exponents that fit into memory. *)
Definition sized (d : decimal) : Prop := Z.of_nat (List.length (dmant d)) < 2 ^ 61 /\ - 2 ^ 61 < dexp d < 2 ^ 61.

Lemma capacity_neg c d : sized d -> dexp d <= 0 -> exists k, show_capacity c d = Ok k.
Proof.
  intros (L & E) N. unfold show_capacity. rewrite Z.mod_small by lia. unfold usize_add. destruct (Z.leb_spec (2 ^ 64) (2 + - dexp d)); [lia|]. cbn [bind].
  destruct (Z.leb_spec (2 ^ 64) (2 + - dexp d + Z.of_nat (List.length (dmant d)))); [lia|]. cbn [bind]. destruct (Z.leb_spec (2 ^ 63) (2 + - dexp d + Z.of_nat (List.length (dmant d)))); [lia|]. eauto.
Qed.
Lemma capacity_pos d : sized d -> 0 < dexp d -> show_capacity true d = Panic /\
  (Z.of_nat (List.length (dmant d)) + 2 < dexp d -> show_capacity false d = Panic) /\
  (dexp d <= Z.of_nat (List.length (dmant d)) + 2 -> exists k, show_capacity false d = Ok k).
Proof.
  intros (L & E) N. unfold show_capacity. assert (M : (- dexp d) mod 2 ^ 64 = 2 ^ 64 - dexp d) by (symmetry; apply (Z.mod_unique_pos _ _ (-1)); lia). rewrite M. unfold usize_add.
  set (l := Z.of_nat (List.length (dmant d))) in *. assert (0 <= l) by lia. clearbody l.
  destruct (Z.leb_spec (2 ^ 64) (2 + (2 ^ 64 - dexp d))); cbn [bind].
  - split; [reflexivity|]. destruct (Z.leb_spec (2 ^ 64) (2 + (2 ^ 64 - dexp d) - 2 ^ 64 + l)); [lia|]. cbn [bind]. destruct (Z.leb_spec (2 ^ 63) (2 + (2 ^ 64 - dexp d) - 2 ^ 64 + l)); [lia|]. split; [lia|eauto].
  - destruct (Z.leb_spec (2 ^ 64) (2 + (2 ^ 64 - dexp d) + l)); cbn [bind].
    + split; [reflexivity|]. destruct (Z.leb_spec (2 ^ 63) (2 + (2 ^ 64 - dexp d) + l - 2 ^ 64)); [lia|]. split; [lia|eauto].
    + destruct (Z.leb_spec (2 ^ 63) (2 + (2 ^ 64 - dexp d) + l)); [|lia]. split; [reflexivity|]. split; [reflexivity|lia].
Qed.
Lemma text_len b a xs : digit_text b a xs -> List.length a = List.length xs.
Proof. intros H. induction H; cbn [List.length]; congruence. Qed.
Lemma be_zeros k ds : be_value 10 (repeat 0 k ++ ds) = be_value 10 ds.
Proof. induction k as [|k IH]; [reflexivity|]. cbn [repeat app]. rewrite be_value_cons, IH. lia. Qed.
Lemma zeros_text k : digit_text 10 (repeat 48 k) (repeat 0 k).
Proof. induction k; constructor; auto. Qed.

Lemma text_split n a xs : digit_text 10 a xs -> digit_text 10 (firstn n a) (firstn n xs) /\ digit_text 10 (skipn n a) (skipn n xs).
Proof.
  unfold digit_text. intros H. revert n. induction H as [|x y a xs E H IH]; intros [|n]; cbn [firstn skipn]; try (split; constructor; fail); [split; [constructor|constructor; auto]|].
  destruct (IH n) as (A & B). split; [constructor; auto|exact B].
Qed.

(** Numbers below one. *)
Theorem C127_small_partial : forall checks d v, sized d -> dmant d <> [] -> dexp d <= 0 -> documented d v ->
  exists t, dec_show checks d = Ok t /\ plain_text t v.
Proof.
  intros c d v SZ M E (xs & D & V). destruct (capacity_neg c d SZ E) as (k & K). unfold dec_show. rewrite K. cbn [bind]. destruct (dmant d) as [|x m] eqn:DM; [congruence|]. rewrite <- DM in *.
  destruct (Z.leb_spec (dexp d) 0); [|lia]. eexists. split; [reflexivity|]. exists [48], (repeat 48 (Z.to_nat (- dexp d)) ++ dmant d), [0], (repeat 0 (Z.to_nat (- dexp d)) ++ xs).
  split; [left; reflexivity|]. split; [repeat constructor|]. split; [apply Forall2_app; [apply zeros_text|exact D]|].
  cbn [app]. change (0 :: repeat 0 (Z.to_nat (- dexp d)) ++ xs) with (repeat 0 (S (Z.to_nat (- dexp d))) ++ xs). rewrite be_zeros, app_length, repeat_length, V.
  pose proof (text_len _ _ _ D) as L. rewrite <- L. replace (- Z.of_nat (Z.to_nat (- dexp d) + List.length (dmant d))) with (dexp d - Z.of_nat (List.length (dmant d))) by lia. reflexivity.
Qed.
(** Without overflow checks, at most as many places in front of the point as
    there are digits. *)
Theorem C127_point_partial : forall d v, sized d -> 0 < dexp d <= Z.of_nat (List.length (dmant d)) -> documented d v ->
  exists t, dec_show false d = Ok t /\ plain_text t v.
Proof.
  intros d v S E (xs & D & V). destruct (capacity_pos d S ltac:(lia)) as (_ & _ & K). destruct (K ltac:(lia)) as (k & K'). unfold dec_show. rewrite K'. cbn [bind].
  destruct (dmant d) as [|x m] eqn:DM; [cbn [List.length] in E; lia|]. rewrite <- DM in *. pose proof (text_len _ _ _ D) as L.
  destruct (Z.leb_spec (dexp d) 0); [lia|]. destruct (Z.ltb_spec (dexp d) (Z.of_nat (List.length (dmant d)))) as [LT|GE]; eexists; (split; [reflexivity|]).
  - set (n := Z.to_nat (dexp d)). exists (firstn n (dmant d)), (skipn n (dmant d)), (firstn n xs), (skipn n xs). split; [left; reflexivity|].
    destruct (text_split n (dmant d) xs D) as (D1 & D2). split; [exact D1|]. split; [exact D2|]. rewrite firstn_skipn, skipn_length, V. rewrite <- L.
    replace (- Z.of_nat (List.length (dmant d) - n)) with (dexp d - Z.of_nat (List.length (dmant d))) by (unfold n; lia). reflexivity.
  - replace (List.length (dmant d) - Z.to_nat (dexp d))%nat with 0%nat by lia. cbn [repeat]. rewrite app_nil_r. exists (dmant d), [], xs, []. split; [right; auto|]. split; [exact D|]. split; [constructor|].
    rewrite app_nil_r, V. rewrite <- L. cbn [List.length]. replace (dexp d - Z.of_nat (List.length (dmant d))) with (- Z.of_nat 0) by lia. reflexivity.
Qed.
(** Above that the zeros in front of the point are missing, or the capacity
    cannot be allocated. *)
Theorem C127_zeros_refuted : forall d v, sized d -> dmant d <> [] -> Z.of_nat (List.length (dmant d)) < dexp d -> documented d v ->
  if dexp d <=? Z.of_nat (List.length (dmant d)) + 2
  then exists t, dec_show false d = Ok t /\ plain_text t (v / de 1 (dexp d - Z.of_nat (List.length (dmant d))))
  else dec_show false d = Panic.
Proof.
  intros d v S M E (xs & D & V). destruct (capacity_pos d S ltac:(lia)) as (_ & P & K). destruct (Z.leb_spec (dexp d) (Z.of_nat (List.length (dmant d)) + 2)) as [LE|GT].
  - destruct (K LE) as (k & K'). unfold dec_show. rewrite K'. cbn [bind]. destruct (dmant d) as [|x m] eqn:DM; [congruence|]. rewrite <- DM in *. pose proof (text_len _ _ _ D) as L.
    destruct (Z.leb_spec (dexp d) 0); [lia|]. destruct (Z.ltb_spec (dexp d) (Z.of_nat (List.length (dmant d)))); [lia|]. eexists. split; [reflexivity|].
    replace (List.length (dmant d) - Z.to_nat (dexp d))%nat with 0%nat by lia. cbn [repeat]. rewrite app_nil_r. exists (dmant d), [], xs, []. split; [right; auto|]. split; [exact D|]. split; [constructor|].
    rewrite app_nil_r, V. rewrite <- L. cbn [List.length]. unfold de. change (- Z.of_nat 0) with 0. cbn [Qpower]. change (inject_Z 1) with 1%Q. field.
    apply Qpower.Qpower_not_0. discriminate.
  - unfold dec_show. rewrite (P GT). reflexivity.
Qed.
(** With overflow checks the capacity overflows for every exponent above zero;
    the documented zero shows as NaN. *)
Theorem C127_checked_refuted : forall d, sized d -> 0 < dexp d -> dec_show true d = Panic.
Proof. intros d S E. destruct (capacity_pos d S E) as (P & _). unfold dec_show. rewrite P. reflexivity. Qed.
Theorem C127_zero_refuted : forall checks m, nat_eq_u32 m 0 = true -> exists d, dec_new m 0 = Ok d /\ dec_show checks d = Ok (str "NaN").
Proof. intros c m M. exists (DC [] 0). split; [unfold dec_new; rewrite M, orb_true_r; reflexivity|destruct c; reflexivity]. Qed.
Example C127_case : dec_new [1250] (-3) = Ok (DC (str "15625") 3) /\ dec_show false (DC (str "15625") 3) = Ok (str "156.25") /\ dec_show true (DC (str "15625") 3) = Panic /\
  dec_show true (DC (str "25") (-1)) = Ok (str "0.025") /\ dec_show false (DC (str "3") 2) = Ok (str "3") /\ dec_show false (DC (str "3") 4) = Panic.
Proof. vm_compute. auto 10. Qed.

Print Assumptions C127_small_partial.
Print Assumptions C127_point_partial.
Print Assumptions C127_zeros_refuted.
Print Assumptions C127_checked_refuted.
Print Assumptions C127_zero_refuted.
