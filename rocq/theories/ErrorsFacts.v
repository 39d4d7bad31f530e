(** Facts about the error values. *)
From Coq Require Import Ascii String ZArith List Bool Lia.
From Verif Require Import Words WordsFacts Spec NatModel NatFacts NatConv NatConvFacts BigInt SpecInt BigIntFacts Rat Float Decimal Rand Errors SpecErr.
Import ListNotations.
Open Scope Z_scope.
Open Scope list_scope.

Lemma stops_at_some dig s c : stops_at dig s = Some c <->
  exists u v, s = u ++ c :: v /\ Forall (fun x => dig x <> None) u /\ dig c = None.
Proof.
  induction s as [|x s IH]; cbn [stops_at].
  - split; [discriminate|]. intros (u & v & E & _). destruct u; discriminate.
  - destruct (dig x) as [d|] eqn:E.
    + rewrite IH. split.
      * intros (u & v & -> & F & N). exists (x :: u), v. split; [reflexivity|]. split; [constructor; congruence|auto].
      * intros (u & v & H & F & N). destruct u as [|y u]; injection H as -> H; [congruence|]. exists u, v. inversion F; subst. auto.
    + split.
      * intros H. injection H as <-. exists [], s. auto.
      * intros (u & v & H & F & N). destruct u as [|y u]; injection H as -> H; [reflexivity|]. inversion F; subst. congruence.
Qed.
Lemma stops_at_none dig s : stops_at dig s = None <-> collect dig s <> None.
Proof.
  induction s as [|x s IH]; cbn [stops_at collect]; [split; [discriminate|reflexivity]|].
  destruct (dig x); [|split; congruence]. rewrite IH. destruct (collect dig s); split; congruence.
Qed.
Lemma stops_at_ext d1 d2 s : (forall c, d1 c = d2 c) -> stops_at d1 s = stops_at d2 s.
Proof. intros H. induction s as [|c s IH]; cbn [stops_at]; [auto|]. rewrite H, IH. reflexivity. Qed.
Lemma collect_rev dig s : collect dig (rev s) = None <-> collect dig s = None.
Proof.
  assert (N : forall l, collect dig l = None <-> exists c, In c l /\ dig c = None).
  { induction l as [|x l IH]; cbn [collect In]; [split; [discriminate|intros (c & [] & _)]|].
    destruct (dig x) eqn:E.
    - destruct (collect dig l); split; intros H; try discriminate; try reflexivity.
      + destruct H as (c & [->|I] & N); [congruence|]. destruct IH as [_ IH]. discriminate IH. eauto.
      + destruct IH as [IH _]. destruct (IH eq_refl) as (c & I & M). eauto.
    - split; [eauto|reflexivity]. }
  rewrite !N. split; intros (c & I & D); exists c; (split; [|auto]); [apply in_rev; auto|apply in_rev in I; auto].
Qed.

Lemma trim0_stops s : stops_at dec_digit (trim_start0 s) = stops_at dec_digit s.
Proof.
  induction s as [|c s IH]; [reflexivity|]. cbn [trim_start0]. destruct (Z.eqb_spec c 48) as [->|N]; [|reflexivity].
  rewrite IH. reflexivity.
Qed.

(** The last one of a list from the first one of its reverse. *)
Lemma stops_back dig s c : stops_at dig (rev s) = Some c <->
  exists u v, s = u ++ c :: v /\ Forall (fun x => dig x <> None) v /\ dig c = None.
Proof.
  rewrite stops_at_some. split; intros (u & v & E & F & N).
  - exists (rev v), (rev u). split; [|split; [apply Forall_rev|]; auto].
    rewrite <- (rev_involutive s), E, rev_app_distr. cbn [rev]. rewrite <- app_assoc. reflexivity.
  - exists (rev v), (rev u). split; [|split; [apply Forall_rev|]; auto].
    rewrite E, rev_app_distr. cbn [rev]. rewrite <- app_assoc. reflexivity.
Qed.

Definition bases (b : Z) : Prop := b = 2 \/ b = 8 \/ b = 10 \/ b = 16.
Definition read (b : Z) (s : list Z) : list Z := if b =? 10 then s else rev s.
Lemma body_err_eq s b : bases b -> body_err s b = option_map illegal (stops_at (digit_value b) (read b s)).
Proof.
  intros [->|[->|[->| ->]]]; unfold body_err, read, pow2_err, dec_err; cbn [Z.eqb Pos.eqb]; cbv iota;
    [rewrite (stops_at_ext _ _ _ bin_digit_eq)|rewrite (stops_at_ext _ _ _ oct_digit_eq)|rewrite trim0_stops, (stops_at_ext _ _ _ dec_digit_eq)|rewrite (stops_at_ext _ _ _ hex_digit_eq)]; reflexivity.
Qed.
Lemma body_err_none s b : bases b -> body_err s b = None <-> body_parse (Some (s, b)) <> None.
Proof.
  intros B. rewrite body_err_eq, body_parse_spec by auto.
  assert (H : stops_at (digit_value b) (read b s) = None <-> collect (digit_value b) s <> None).
  { unfold read. destruct (b =? 10); rewrite stops_at_none; [reflexivity|]. rewrite collect_rev. reflexivity. }
  destruct (stops_at (digit_value b) (read b s)), (collect (digit_value b) s); cbn [option_map]; destruct H as [H1 H2]; split; intros; try congruence.
  - exfalso. assert (Some z = None) by (apply H2; congruence). congruence.
  - exfalso. apply H1; congruence.
Qed.
(** [check_base_err] only adds the reason. *)
Lemma check_base_err_ok whole s : check_base s = match check_base_err whole s with inl p => Some p | inr _ => None end.
Proof.
  induction s as [|c s IH]; [reflexivity|]. cbn [check_base check_base_err].
  destruct ((c =? 43) || (c =? 32)); [exact IH|]. destruct ((48 <=? c) && (c <=? 57)); [|reflexivity].
  destruct s as [|x u]; [reflexivity|]. destruct (c =? 48); [|reflexivity].
  destruct (x =? 111); [reflexivity|]. destruct ((x =? 98) || (x =? 66)); [reflexivity|]. destruct ((x =? 120) || (x =? 88)); reflexivity.
Qed.
Lemma check_base_base s t b : check_base s = Some (t, b) -> bases b.
Proof.
  unfold bases. induction s as [|c s IH]; [discriminate|]. cbn [check_base].
  destruct ((c =? 43) || (c =? 32)); [exact IH|]. destruct ((48 <=? c) && (c <=? 57)); [|discriminate].
  destruct s as [|x u]; [intros H; injection H as <- <-; auto|]. destruct (c =? 48); [|intros H; injection H as <- <-; auto].
  destruct (x =? 111); [intros H; injection H as <- <-; auto|]. destruct ((x =? 98) || (x =? 66)); [intros H; injection H as <- <-; auto|].
  destruct ((x =? 120) || (x =? 88)); [intros H; injection H as <- <-; auto|discriminate].
Qed.
Lemma nat_err_none s : nat_parse_err s = None <-> nat_from_str s <> None.
Proof.
  unfold nat_parse_err. change (nat_from_str s) with (body_parse (check_base (trim_ws s))).
  pose proof (check_base_err_ok (trim_ws s) (trim_ws s)) as E. pose proof (check_base_base (trim_ws s)) as B. rewrite E in *.
  destruct (check_base_err (trim_ws s) (trim_ws s)) as [[t b]|e]; [|split; cbn [body_parse]; congruence].
  apply body_err_none. eauto.
Qed.
Lemma int_err_none s : int_parse_err s = None <-> b_from_str s <> None.
Proof.
  unfold int_parse_err, b_from_str. destruct (trim_ws s) as [|c s']; [split; congruence|].
  destruct (c =? 45); cbv zeta iota; rewrite nat_err_none; [destruct (nat_from_str s')|destruct (nat_from_str (c :: s'))]; split; congruence.
Qed.

(* ------------------------------------------------------------------ *)
(** * What is wrong with the text *)

Lemma cbe_skip whole pre s : signs pre -> check_base_err whole (pre ++ s) = check_base_err whole s.
Proof.
  intros H. induction H as [|c pre Hc H IH]; [reflexivity|]. cbn [app check_base_err]. destruct Hc as [->| ->]; exact IH.
Qed.
Lemma digit10_iff c : is_digit 10 c <-> 48 <= c <= 57.
Proof.
  unfold is_digit. split; intros H.
  - destruct (digit_value 10 c) as [d|] eqn:E; [|congruence]. apply digit10_char in E. lia.
  - rewrite <- dec_digit_eq. unfold dec_digit. destruct (Z.leb_spec 48 c); [|lia]. destruct (Z.leb_spec c 57); [|lia]. discriminate.
Qed.
Lemma cbe_start whole c s : c <> 43 -> c <> 32 -> ~ is_digit 10 c -> check_base_err whole (c :: s) = inr (failed BeginWithIllegalChar (Plain (str "begin with illegal char " ++ [c]))).
Proof.
  intros A B D. rewrite digit10_iff in D. cbn [check_base_err]. destruct (Z.eqb_spec c 43); [lia|]. destruct (Z.eqb_spec c 32); [lia|]. cbn [orb].
  destruct (Z.leb_spec 48 c); [|reflexivity]. destruct (Z.leb_spec c 57); [|reflexivity]. lia.
Qed.
Lemma cbe_digit whole d s : is_digit 10 d -> d <> 48 -> check_base_err whole (d :: s) = inl (d :: s, 10).
Proof.
  intros D N. apply digit10_iff in D. cbn [check_base_err]. destruct (Z.eqb_spec d 43); [lia|]. destruct (Z.eqb_spec d 32); [lia|]. cbn [orb].
  destruct (Z.leb_spec 48 d); [|lia]. destruct (Z.leb_spec d 57); [|lia]. cbn [andb]. destruct s; [reflexivity|]. destruct (Z.eqb_spec d 48); [lia|reflexivity].
Qed.
Lemma cbe_prefix whole p base s : prefix_base p base -> check_base_err whole (48 :: p :: s) = inl (s, base).
Proof. intros [[-> [->| ->]]|[[-> [->| ->]]|[-> ->]]]; reflexivity. Qed.
Lemma cbe_zero whole c s : (forall base, ~ prefix_base c base) -> check_base_err whole (48 :: c :: s) = inr (failed BeginWithIllegalChar (Plain (str "begin with illegal char 0" ++ [c]))).
Proof.
  intros N. cbn [check_base_err]. change ((48 =? 43) || (48 =? 32)) with false. change ((48 <=? 48) && (48 <=? 57)) with true. change (48 =? 48) with true. cbv iota.
  unfold prefix_base in N.
  destruct (Z.eqb_spec c 111) as [->|]; [exfalso; apply (N 8); auto|].
  destruct (Z.eqb_spec c 98) as [->|]; [exfalso; apply (N 2); auto|]. destruct (Z.eqb_spec c 66) as [->|]; [exfalso; apply (N 2); auto|]. cbn [orb].
  destruct (Z.eqb_spec c 120) as [->|]; [exfalso; apply (N 16); auto|]. destruct (Z.eqb_spec c 88) as [->|]; [exfalso; apply (N 16); auto|]. reflexivity.
Qed.
Lemma prefix_bases p base : prefix_base p base -> bases base /\ base <> 10.
Proof. unfold bases. intros [[-> _]|[[-> _]|[-> _]]]; split; auto; lia. Qed.
Lemma prefix_dec c : (exists base, prefix_base c base) \/ (forall base, ~ prefix_base c base).
Proof.
  unfold prefix_base.
  destruct (Z.eq_dec c 120); [left; exists 16; auto|]. destruct (Z.eq_dec c 88); [left; exists 16; auto|].
  destruct (Z.eq_dec c 98); [left; exists 2; auto|]. destruct (Z.eq_dec c 66); [left; exists 2; auto|].
  destruct (Z.eq_dec c 111); [left; exists 8; auto|]. right. intros b. lia.
Qed.
Lemma signs_split t : exists pre s, t = pre ++ s /\ signs pre /\ (s = [] \/ exists c u, s = c :: u /\ c <> 43 /\ c <> 32).
Proof.
  induction t as [|c t (pre & s & -> & P & H)]; [exists [], []; repeat split; auto; constructor|].
  destruct (Z.eq_dec c 43) as [->|A]; [exists (43 :: pre), s; repeat split; auto; constructor; auto|].
  destruct (Z.eq_dec c 32) as [->|B]; [exists (32 :: pre), s; repeat split; auto; constructor; auto|].
  exists [], (c :: pre ++ s). repeat split; [constructor|]. right. exists c, (pre ++ s). auto.
Qed.

Definition text_err (t : list Z) : option (failure parse_kind) := match check_base_err t t with inr e => Some e | inl (s', b) => body_err s' b end.
Lemma none_digit b c : digit_value b c = None <-> ~ is_digit b c.
Proof. unfold is_digit. destruct (digit_value b c); split; intros H; try congruence. exfalso. apply H. discriminate. Qed.
Lemma text_err_fault t k m : fault t k m -> text_err t = Some (failed k (Plain m)).
Proof.
  intros F. unfold text_err. destruct F as [|pre P N|pre c s P A B D|pre c s P N|pre d u c v P D N U C|pre p base u c v P B C V].
  - reflexivity.
  - pose proof (cbe_skip pre pre [] P) as E. rewrite app_nil_r in E. rewrite E. cbn [check_base_err]. destruct pre; [congruence|reflexivity].
  - rewrite cbe_skip, cbe_start by auto. reflexivity.
  - rewrite cbe_skip, cbe_zero by auto. reflexivity.
  - rewrite cbe_skip, cbe_digit by auto. rewrite body_err_eq by (unfold bases; auto). unfold read. cbn [Z.eqb Pos.eqb]. cbv iota.
    assert (S : stops_at (digit_value 10) (d :: u ++ c :: v) = Some c); [|rewrite S; reflexivity].
    apply stops_at_some. exists (d :: u), v. split; [reflexivity|]. split; [constructor; auto|]. apply none_digit. auto.
  - rewrite cbe_skip, (cbe_prefix _ p base) by auto. destruct (prefix_bases p base B) as [B1 B2]. rewrite body_err_eq by auto. unfold read.
    destruct (Z.eqb_spec base 10); [lia|].
    assert (S : stops_at (digit_value base) (rev (u ++ c :: v)) = Some c); [|rewrite S; reflexivity].
    apply stops_back. exists u, v. split; [reflexivity|]. split; [auto|]. apply none_digit. auto.
Qed.
Lemma fault_text_err t e : text_err t = Some e -> exists k m, fault t k m /\ e = failed k (Plain m).
Proof.
  unfold text_err. destruct (signs_split t) as (pre & s & -> & P & [->|(c & u & -> & A & B)]).
  - intros H. assert (F : fault (pre ++ []) BeginWithIllegalChar (str (match (pre ++ [])%list with [] => "empty string" | _ => "all char is +" end))).
    { rewrite app_nil_r. destruct pre; [constructor|constructor; [auto|discriminate]]. }
    do 2 eexists. split; [exact F|]. apply text_err_fault in F. unfold text_err in F. congruence.
  - destruct (digit_value 10 c) as [d|] eqn:D.
    + assert (D' : is_digit 10 c) by (unfold is_digit; congruence).
      destruct (Z.eq_dec c 48) as [->|N].
      * destruct u as [|x u].
        { rewrite cbe_skip by auto. discriminate. }
        destruct (prefix_dec x) as [(base & X)|X].
        -- rewrite cbe_skip, (cbe_prefix _ x base) by auto. destruct (prefix_bases x base X) as [B1 B2]. rewrite body_err_eq by auto. unfold read.
           destruct (Z.eqb_spec base 10); [lia|]. destruct (stops_at (digit_value base) (rev u)) as [y|] eqn:S; [|discriminate].
           intros H. injection H as <-. apply stops_back in S. destruct S as (u' & v & -> & V & Y). exists IllegalCharEncounter, (str "illegal char " ++ [y]).
           split; [|reflexivity]. apply (fault_prefix pre x base); auto; apply none_digit; auto.
        -- rewrite cbe_skip, cbe_zero by auto. intros H. injection H as <-. do 2 eexists. split; [apply fault_zero; auto|reflexivity].
      * rewrite cbe_skip, cbe_digit by auto. rewrite body_err_eq by (unfold bases; auto). unfold read. cbn [Z.eqb Pos.eqb]. cbv iota.
        destruct (stops_at (digit_value 10) (c :: u)) as [y|] eqn:S; [|discriminate]. intros H. injection H as <-.
        apply stops_at_some in S. destruct S as (u' & v & E & V & Y). destruct u' as [|z u']; injection E as -> ->; [congruence|].
        exists IllegalCharEncounter, (str "illegal char " ++ [y]). split; [|reflexivity]. inversion V; subst. apply (fault_dec pre z u'); auto; apply none_digit; auto.
    + apply none_digit in D. rewrite cbe_skip, cbe_start by auto. intros H. injection H as <-. do 2 eexists. split; [apply fault_start; auto|reflexivity].
Qed.
Lemma nat_err_fault s t e : trimmed s t -> nat_parse_err s = Some e <-> exists k m, fault t k m /\ e = failed k (Plain m).
Proof.
  intros T. unfold nat_parse_err. rewrite (trim_ws_spec _ _ T). change (text_err t = Some e <-> exists k m, fault t k m /\ e = failed k (Plain m)).
  split; [apply fault_text_err|]. intros (k & m & F & ->). apply text_err_fault; auto.
Qed.
Lemma int_err_fault s t e : trimmed s t -> int_parse_err s = Some e <-> exists k m, int_fault t k m /\ e = failed k (Plain m).
Proof.
  intros T. unfold int_parse_err. rewrite (trim_ws_spec _ _ T). destruct t as [|c t].
  - split.
    + intros H. injection H as <-. do 2 eexists. split; [apply int_fault_plain; [discriminate|constructor]|reflexivity].
    + intros (k & m & F & ->). inversion F as [t' k' m' H1 H2|]; subst. apply text_err_fault in H2. exact H2.
  - destruct (Z.eqb_spec c 45) as [->|N].
    + destruct (trimmed_exists t) as [u U]. rewrite (nat_err_fault t u e U). split.
      * intros (k & m & F & E). exists k, m. split; [|exact E]. eapply int_fault_minus; eauto.
      * intros (k & m & F & E). exists k, m. split; [|exact E]. inversion F as [t' k' m' H1 H2|s' t' k' m' H1 H2]; subst; [cbn [hd] in H1; congruence|].
        rewrite <- (trim_ws_spec _ _ U), (trim_ws_spec _ _ H1). exact H2.
    + assert (TT : trimmed (c :: t) (c :: t)).
      { destruct T as (w1 & w2 & E & W1 & W2 & H). exists [], []. rewrite app_nil_r. repeat split; auto. }
      rewrite (nat_err_fault _ _ e TT). split.
      * intros (k & m & F & E). exists k, m. split; [|exact E]. apply int_fault_plain; auto.
      * intros (k & m & F & E). exists k, m. split; [|exact E]. inversion F; subst; [auto|congruence].
Qed.
