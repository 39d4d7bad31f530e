(** Lemmas about [Rat]: constructors and text. *)
From Coq Require Import ZArith QArith List Lia Bool.
From Verif Require Import Words Spec WordsFacts NatModel NatFacts NatFacts2 NatFacts3 NatFacts4 NatFacts5
  NatConv NatConvFacts NatPow BigInt SpecInt BigIntFacts BigIntFacts3 BigIntFacts4 Properties_NatConv Properties_BigInt
  Ieee Rat SpecRat RatFacts.
Import ListNotations.
Open Scope Z_scope.

(* ------------------------------------------------------------------ *)
(** * Constructors *)

Lemma q_div_pos a b : 0 < b -> (a # Z.to_pos b == inject_Z a / inject_Z b)%Q.
Proof.
  intros Hb. destruct b as [|p|p]; [lia| |lia]. unfold Qdiv, Qinv, inject_Z, Qeq, Qmult. cbn [Qnum Qden Z.to_pos].
  rewrite Pos.mul_1_l. ring.
Qed.
Lemma q_div_neg a b : 0 < b -> (- a # Z.to_pos b == inject_Z a / inject_Z (- b))%Q.
Proof.
  intros Hb. destruct b as [|p|p]; [lia| |lia]. unfold Qdiv, Qinv, inject_Z, Qeq, Qmult. cbn [Qnum Qden Z.to_pos Z.opp].
  rewrite Pos.mul_1_l. ring.
Qed.
Lemma q_div_zero a b : b <> 0 -> (inject_Z a / inject_Z b == 0)%Q -> a = 0.
Proof.
  intros Hb C. apply Qmult_integral in C. destruct C as [C|C].
  - unfold Qeq in C. cbn [inject_Z Qnum Qden] in C. lia.
  - exfalso. destruct b; [lia|discriminate|discriminate].
Qed.

(** A fraction of integers with positive denominator. *)
Lemma norm_int a b : 0 < b -> exists z, r_norm (RT (zint a) (zint b)) = Ok z /\
  denotes z (a # Z.to_pos b) /\ unsigned_zero z /\ (a <> 0 -> lowest z).
Proof.
  intros Hb. change (RT (zint a) (zint b)) with (mk (a <? 0) (Z.abs a) (b <? 0) (Z.abs b)).
  rewrite (Z.abs_eq b) by lia.
  destruct (norm_to (a <? 0) (Z.abs a) (b <? 0) b (a # Z.to_pos b)) as (z & A & B & C & D); [lia|lia| |].
  - rewrite sgv_zint. reflexivity.
  - exists z. split; [auto|]. split; [auto|]. split; [auto|]. intros N. apply D. unfold Qeq. cbn [Qnum Qden]. lia.
Qed.
Lemma from_frac_spec c n d : i64_range n -> i64_range d -> d <> 0 -> d <> - 2 ^ 63 -> (n <> - 2 ^ 63 \/ 0 < d) ->
  exists z, r_from_frac c n d = Ok (Some z) /\ denotes z (inject_Z n / inject_Z d) /\ unsigned_zero z /\ (n <> 0 -> lowest z).
Proof.
  intros [N1 N2] [D1 D2] D0 DM NM. unfold r_from_frac. rewrite (proj2 (Z.eqb_neq d 0)) by auto.
  assert (FI : forall x, - 2 ^ 63 <= x < 2 ^ 63 -> b_from_i64 x = zint x).
  { intros x Hx. apply from_signed_spec; [lia|apply from_u64_of_Z|auto]. }
  rewrite (i64_ok c (Z.abs d)) by (unfold i64_range; lia).
  destruct (Z.ltb_spec d 0) as [L|L].
  - rewrite i64_ok by (unfold i64_range; lia). cbn [bind]. rewrite !FI by lia.
    destruct (norm_int (- n) (Z.abs d)) as (z & A & B & C & D); [lia|]. rewrite A. cbn [bind]. exists z.
    split; [reflexivity|]. split; [|split; [auto|intros; apply D; lia]].
    apply (denotes_trans _ _ _ B). replace d with (- Z.abs d) at 2 by lia. apply q_div_neg. lia.
  - cbn [bind]. rewrite !FI by lia. rewrite Z.abs_eq by lia.
    destruct (norm_int n d) as (z & A & B & C & D); [lia|]. rewrite A. cbn [bind]. exists z.
    split; [reflexivity|]. split; [|split; [auto|intros; apply D; lia]].
    apply (denotes_trans _ _ _ B). apply q_div_pos. lia.
Qed.
Lemma from_frac_bigint_spec a b : b <> 0 ->
  exists z, r_from_frac_bigint (zint a) (zint b) = Ok (Some z) /\ denotes z (inject_Z a / inject_Z b) /\
    unsigned_zero z /\ (a <> 0 -> lowest z).
Proof.
  intros Hb. unfold r_from_frac_bigint. rewrite zint_clone, zint_nat, of_Z_eq_u32, zint_neg by lia.
  rewrite (proj2 (Z.eqb_neq _ _)) by lia. rewrite zint_opp, zint_abs.
  destruct (Z.ltb_spec b 0) as [L|L].
  - destruct (norm_int (- a) (Z.abs b)) as (z & A & B & C & D); [lia|]. rewrite A. cbn [bind]. exists z.
    split; [reflexivity|]. split; [|split; [auto|intros; apply D; lia]].
    apply (denotes_trans _ _ _ B). replace b with (- Z.abs b) at 2 by lia. apply q_div_neg. lia.
  - rewrite Z.abs_eq by lia. destruct (norm_int a b) as (z & A & B & C & D); [lia|]. rewrite A. cbn [bind]. exists z.
    split; [reflexivity|]. split; [|split; [auto|intros; apply D; lia]].
    apply (denotes_trans _ _ _ B). apply q_div_pos. lia.
Qed.

(* ------------------------------------------------------------------ *)
(** * Text *)

Lemma find_char_none c s : ~ In c s -> find_char c s = None.
Proof.
  induction s as [|d s IH]; intros H; [reflexivity|]. cbn [find_char]. destruct (Z.eqb_spec d c) as [->|N].
  - exfalso. apply H. left. reflexivity.
  - rewrite IH; [reflexivity|]. intros I. apply H. right. auto.
Qed.
Lemma find_char_app c u v : ~ In c u -> find_char c (u ++ c :: v) = Some (u, v).
Proof.
  induction u as [|d u IH]; intros H; cbn [app find_char].
  - rewrite Z.eqb_refl. reflexivity.
  - destruct (Z.eqb_spec d c) as [->|N]; [exfalso; apply H; left; reflexivity|].
    rewrite IH; [reflexivity|]. intros I. apply H. right. auto.
Qed.
Lemma find_char_some c s : In c s -> find_char c s <> None.
Proof.
  induction s as [|d s IH]; intros H; [contradiction|]. cbn [find_char]. destruct (Z.eqb_spec d c); [discriminate|].
  destruct H as [->|H]; [contradiction|]. destruct (find_char c s) as [[u v]|]; [discriminate|]. exfalso. apply IH; auto.
Qed.

(** What the parser accepts as an integer. *)
Lemma int_text_parse s n : int_text s n -> b_from_str s = Some (zint n).
Proof.
  intros (t & base & ds & Hn & Ht & [[H ->]|(u & Hs & Hu & ->)]).
  - destruct (C45_parse_value s t t base ds Hn Ht (trimmed_idem s t H)) as [P _].
    destruct (P H) as (v & E & I). apply is_int_iff in I. congruence.
  - destruct (C45_parse_value s t u base ds Hn Ht Hu) as [_ P].
    destruct (P Hs) as (v & E & I). apply is_int_iff in I. congruence.
Qed.
Lemma parse_int_text s x : b_from_str s = Some x -> b_is_nan x = true \/ exists n, int_text s n /\ x = zint n.
Proof.
  intros E. destruct (C32_parse_partial s x E) as [H|H]; [left; auto|].
  assert (NN : b_is_nan x = false) by (destruct H as [H _]; apply is_nan_canon; auto).
  right. assert (exists n, int_text s n) as [n I]; [|exists n; split; [auto|]; rewrite (int_text_parse s n I) in E; congruence].
  destruct (trimmed_exists s) as [t Ht]. assert (E' := E). rewrite (b_from_str_eq _ _ Ht) in E.
  destruct t as [|c u]; [discriminate|]. cbv zeta in E.
  destruct (nat_from_str (if c =? 45 then u else c :: u)) as [v|] eqn:F; [|discriminate].
  destruct (nat_from_str_sound _ _ F) as (t' & base & ds & T & N & ->).
  assert (D : ds <> []). { intros ->. injection E as <-. discriminate NN. }
  destruct (Z.eqb_spec c 45) as [->|N45].
  - exists (- be_value base ds), t', base, ds. split; [auto|]. split; [auto|]. right. exists u. auto.
  - exists (be_value base ds), t', base, ds. split; [auto|]. split; [auto|]. left. split; [|reflexivity].
    replace t' with (c :: u); [auto|]. rewrite <- (trim_ws_spec _ _ T). symmetry. apply trim_ws_spec, (trimmed_idem s). auto.
Qed.

(** The fraction that the parser builds. *)
Definition parsed_rat (a b : option bigint) : option rat :=
  match a, b with
  | Some a, Some b =>
      if b_is_nan a || b_is_nan b then None
      else if nat_eq_u32 (bnat b) 0 then None
      else Some (RT (BI (bnat a) (negb (eqb (bneg a) (bneg b)))) (BI (bnat b) false))
  | _, _ => None
  end.
Lemma parse_frac pf s u v : trimmed s (u ++ 47 :: v) -> ~ In 46 (u ++ 47 :: v) -> ~ In 47 u ->
  r_from_str pf s = Ok (parsed_rat (b_from_str u) (b_from_str v)).
Proof.
  intros T D S. unfold r_from_str. rewrite (trim_ws_spec _ _ T).
  rewrite find_char_none by auto. rewrite find_char_app by auto.
  destruct (u ++ 47 :: v) eqn:E; [destruct u; discriminate|]. unfold parsed_rat.
  destruct (b_from_str u) as [a|]; [|reflexivity]. destruct (b_from_str v) as [b|]; [|reflexivity].
  destruct (b_is_nan a || b_is_nan b); [reflexivity|]. destruct (nat_eq_u32 (bnat b) 0); reflexivity.
Qed.
Lemma parse_whole pf s t : trimmed s t -> t <> [] -> ~ In 46 t -> ~ In 47 t ->
  r_from_str pf s = Ok (parsed_rat (b_from_str t) (Some (zint 1))).
Proof.
  intros T N D S. unfold r_from_str. rewrite (trim_ws_spec _ _ T). rewrite !find_char_none by auto.
  destruct t as [|c t]; [congruence|]. change (b_from_u32 1) with (zint 1). unfold parsed_rat.
  destruct (b_from_str (c :: t)) as [a|]; [|reflexivity].
  destruct (b_is_nan a || b_is_nan (zint 1)); [reflexivity|]. destruct (nat_eq_u32 (bnat (zint 1)) 0); reflexivity.
Qed.
Lemma parse_decimal pf s t : trimmed s t -> In 46 t ->
  r_from_str pf s = match pf t with
                    | None => Ok None
                    | Some f => if f_is_nan 52 11 f then Ok None else do z <- r_from_f64 f; Ok (Some z)
                    end.
Proof.
  intros T D. unfold r_from_str. rewrite (trim_ws_spec _ _ T). destruct t as [|c t]; [contradiction|].
  pose proof (find_char_some 46 (c :: t) D) as F. destruct (find_char 46 (c :: t)) as [p|]; [reflexivity|congruence].
Qed.

Lemma parsed_value a b : b <> 0 -> parsed_rat (Some (zint a)) (Some (zint b)) =
  Some (mk (negb (eqb (a <? 0) (b <? 0))) (Z.abs a) false (Z.abs b)).
Proof.
  intros Hb. unfold parsed_rat. rewrite !zint_not_nan. cbn [orb]. rewrite !zint_nat, !zint_neg, of_Z_eq_u32 by lia.
  rewrite (proj2 (Z.eqb_neq _ _)) by lia. reflexivity.
Qed.
Lemma parsed_denotes a b : b <> 0 ->
  denotes (mk (negb (eqb (a <? 0) (b <? 0))) (Z.abs a) false (Z.abs b)) (inject_Z a / inject_Z b).
Proof.
  intros Hb. split; [apply ok_mk; lia|]. rewrite rvalue_mk by lia.
  destruct (Z.ltb_spec b 0) as [L|L].
  - assert (E : (sgv (negb (eqb (a <? 0) true)) (Z.abs a) # Z.to_pos (Z.abs b) == - a # Z.to_pos (Z.abs b))%Q).
    { unfold sgv. destruct (Z.ltb_spec a 0); cbn [eqb negb]; apply q_eq; nia. }
    rewrite E. replace b with (- Z.abs b) at 2 by lia. apply q_div_neg. lia.
  - assert (E : (sgv (negb (eqb (a <? 0) false)) (Z.abs a) # Z.to_pos (Z.abs b) == a # Z.to_pos (Z.abs b))%Q).
    { unfold sgv. destruct (Z.ltb_spec a 0); cbn [eqb negb]; apply q_eq; nia. }
    rewrite E. rewrite (Z.abs_eq b) by lia. apply q_div_pos. lia.
Qed.
Lemma parsed_zero a : parsed_rat a (Some (zint 0)) = None.
Proof. destruct a as [a|]; [|reflexivity]. unfold parsed_rat. destruct (b_is_nan a || b_is_nan (zint 0)); reflexivity. Qed.

(** Texts of integers as the formatters write them. *)
Definition clean (t : list Z) : Prop := Forall (fun c => c = 45 \/ 48 <= c <= 122) t.
Lemma clean_in t c : clean t -> In c t -> c = 45 \/ 48 <= c <= 122.
Proof. unfold clean. rewrite Forall_forall. auto. Qed.
Lemma is_ws_clean c : c = 45 \/ 48 <= c <= 122 -> is_ws c = false.
Proof. intros [->|H]; [reflexivity|apply is_ws_chr; auto]. Qed.
Lemma trimmed_clean u v : clean u -> clean v -> u <> [] -> v <> [] -> trimmed (u ++ 47 :: v) (u ++ 47 :: v).
Proof.
  intros U V NU NV. exists [], []. cbn [app]. rewrite app_nil_r. split; [reflexivity|].
  split; [constructor|]. split; [constructor|]. right. split.
  - rewrite hd_app_l by auto. destruct u as [|c u]; [congruence|]. inversion U; subst. apply is_ws_clean. auto.
  - replace (last (u ++ 47 :: v) 0) with (last v 0).
    + apply is_ws_clean. apply (Forall_last (fun c => c = 45 \/ 48 <= c <= 122)); auto.
    + destruct v as [|c v]; [congruence|]. clear. induction u as [|d u IH]; [reflexivity|].
      cbn [app]. rewrite IH. destruct u; reflexivity.
Qed.
Lemma roundtrip_texts pf u v a b : clean u -> clean v -> b <> 0 -> b_from_str u = Some (zint a) -> b_from_str v = Some (zint b) ->
  r_from_str pf (u ++ 47 :: v) = Ok (Some (mk (negb (eqb (a <? 0) (b <? 0))) (Z.abs a) false (Z.abs b))).
Proof.
  intros U V Hb EU EV.
  assert (NU : u <> []) by (intros ->; discriminate EU). assert (NV : v <> []) by (intros ->; discriminate EV).
  rewrite (parse_frac pf (u ++ 47 :: v) u v).
  - rewrite EU, EV, parsed_value by auto. reflexivity.
  - apply trimmed_clean; auto.
  - intros I. apply in_app_or in I. destruct I as [I|[I|I]]; [apply (clean_in u) in I; auto; lia|discriminate|].
    apply (clean_in v) in I; auto. lia.
  - intros I. apply (clean_in u) in I; auto. lia.
Qed.
Lemma clean_sign x t : Forall (fun c => 48 <= c <= 122) t -> clean (b_sign_text x t).
Proof.
  intros H. assert (clean t) by (apply (Forall_impl _ (P := fun c => 48 <= c <= 122)); [intros; lia|auto]).
  unfold b_sign_text. destruct (b_is_negative x); [constructor; [left; reflexivity|auto]|auto].
Qed.
Lemma display_clean n : exists t, b_fmt_display (zint n) = Ok t /\ clean t /\ b_from_str t = Some (zint n).
Proof.
  destruct (C45_display (zint n) n (is_int_zint n)) as (s & t & E & T & N & P). exists t.
  split; [auto|]. split; [|auto]. rewrite T. apply lower_numeral_to in N; [|lia]. destruct N as (ds & -> & Hok & _).
  apply Forall_app. split; [destruct (n <? 0); [repeat constructor; left; reflexivity|constructor]|].
  apply (Forall_impl _ (P := fun c => 48 <= c <= 122)); [intros; lia|].
  apply (chr_range lchar 10); auto. intros d H. apply lchar_range. lia.
Qed.
Lemma prefixed_clean n : let x := zint n in
  clean (b_fmt_lower_hex true x) /\ clean (b_fmt_upper_hex true x) /\ clean (b_fmt_octal true x) /\ clean (b_fmt_binary true x).
Proof.
  cbv zeta. unfold b_fmt_lower_hex, b_fmt_upper_hex, b_fmt_octal, b_fmt_binary. rewrite zint_nat.
  pose proof (abs_canon n) as C. set (a := of_Z (Z.abs n)) in *.
  destruct (format_hex true a C) as [(s1 & E1 & ds1 & -> & K1 & _) (s2 & E2 & ds2 & -> & K2 & _)].
  destruct (format_binary true a C) as (s3 & E3 & ds3 & -> & K3 & _).
  destruct (fmt_octal_spec true a C) as (s4 & E4 & ds4 & -> & K4 & _).
  assert (R : forall chr base ds p, (forall d, 0 <= d < base -> 48 <= chr d <= 122) -> digits_ok base ds ->
    Forall (fun c => 48 <= c <= 122) p -> Forall (fun c => 48 <= c <= 122) (p ++ map chr ds)).
  { intros. apply Forall_app. split; [auto|]. apply (chr_range chr base); auto. }
  assert (RL : forall base d, base <= 16 -> 0 <= d < base -> 48 <= lchar d <= 122) by (intros; apply lchar_range; lia).
  split; [|split; [|split]]; apply clean_sign.
  - rewrite E1. apply (R lchar 16); auto; [intros; apply (RL 16); lia|]. vm_compute; repeat constructor; discriminate.
  - rewrite E2. apply (R uchar 16); auto; [intros; apply uchar_range; lia|]. vm_compute; repeat constructor; discriminate.
  - rewrite E4. apply (R lchar 8); auto; [intros; apply (RL 8); lia|]. vm_compute; repeat constructor; discriminate.
  - rewrite E3. apply (R lchar 2); auto; [intros; apply (RL 2); lia|]. vm_compute; repeat constructor; discriminate.
Qed.
