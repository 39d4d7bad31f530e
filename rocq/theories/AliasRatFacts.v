(** Facts about the heap model of [Rat] handles: cells belong to families, and
    a step writes only to cells of the family it touches. *)
From Coq Require Import ZArith List Lia Bool.
From Verif Require Import Words NatModel BigInt Rat AliasInt AliasRat SpecAliasRat.
Import ListNotations.
Open Scope Z_scope.

Lemma upd_length {A} (l : list A) : forall i v, length (upd l i v) = length l.
Proof. induction l; intros [|i] v; cbn [upd length]; auto. Qed.
Lemma upd_same {A} (l : list A) : forall i v, (i < length l)%nat -> nth_error (upd l i v) i = Some v.
Proof. induction l; intros [|i] v H; cbn [upd length nth_error] in *; try lia; auto. apply IHl. lia. Qed.
Lemma upd_other {A} (l : list A) : forall i j v, i <> j -> nth_error (upd l i v) j = nth_error l j.
Proof. induction l; intros [|i] [|j] v H; cbn [upd nth_error]; auto; congruence. Qed.
Lemma nth_upd {A} (l : list A) i j v w : nth_error (upd l i v) j = Some w -> (i = j /\ w = v) \/ (i <> j /\ nth_error l j = Some w).
Proof.
  intros H. destruct (Nat.eq_dec i j) as [->|N].
  - left. split; auto. assert (j < length l)%nat. { rewrite <- (upd_length l j v). apply nth_error_Some. congruence. } rewrite upd_same in H by auto. congruence.
  - right. split; auto. rewrite upd_other in H by auto. exact H.
Qed.
Lemma nth_snoc {A} (l : list A) v j w : nth_error (l ++ [v]) j = Some w -> (j = length l /\ w = v) \/ ((j < length l)%nat /\ nth_error l j = Some w).
Proof.
  intros H. destruct (Nat.lt_ge_cases j (length l)) as [L|L].
  - right. rewrite nth_error_app1 in H by auto. auto.
  - left. rewrite nth_error_app2 in H by auto. destruct (j - length l)%nat as [|k] eqn:E; cbn [nth_error] in H; [split; [lia|congruence]|destruct k; discriminate H].
Qed.
Lemma nth_nth {A} (l : list A) i d v : nth_error l i = Some v -> nth i l d = v.
Proof. intros H. exact (nth_error_nth _ _ d H). Qed.

(** Every cell in use belongs to the family of the handles that use it. *)
Definition uses (own : nat -> nat) (s : rstate) (f : nat) (h : ihead) : Prop := own (snd h) = f /\ (snd h < length (rheap s))%nat.
Definition rinv (s : rstate) (fs : fams) : Prop :=
  length (rats s) = length (fst fs) /\ length (ints s) = length (snd fs) /\
  exists own, (forall x a b, nth_error (rats s) x = Some (a, b) -> exists f, nth_error (fst fs) x = Some f /\ uses own s f a /\ uses own s f b) /\
              (forall n h, nth_error (ints s) n = Some h -> exists f, nth_error (snd fs) n = Some f /\ uses own s f h).

Lemma rinv_empty : rinv rempty ([], []).
Proof. split; [reflexivity|]. split; [reflexivity|]. exists (fun k => k). split; intros [|x]; discriminate. Qed.

Definition own_new (own : nat -> nat) (n f : nat) (k : nat) : nat := if (k <? n)%nat then own k else f.
Lemma uses_new own s s' f g h v w : uses own s f h -> rheap s' = rheap s ++ [v; w] -> uses (own_new own (length (rheap s)) g) s' f h.
Proof. intros (U & L) E. split; [unfold own_new; rewrite (proj2 (Nat.ltb_lt _ _)) by exact L; exact U|]. rewrite E, app_length. lia. Qed.
Lemma uses_pair own s s' g v : rheap s' = rheap s ++ [bnat (rnum v); bnat (rden v)] ->
  uses (own_new own (length (rheap s)) g) s' g (fst (new_pair s v)) /\ uses (own_new own (length (rheap s)) g) s' g (snd (new_pair s v)).
Proof.
  intros E. unfold uses, new_pair, own_new. cbn [fst snd]. rewrite E, app_length. cbn [length].
  rewrite !(proj2 (Nat.ltb_ge _ _)) by lia. repeat split; lia.
Qed.

Lemma rinv_alloc s rf jf v : rinv s (rf, jf) -> rinv (ralloc s v) (rf ++ [length rf], jf).
Proof.
  intros (L1 & L2 & own & R & J). cbn [fst snd] in *. split; [cbn [ralloc rats fst]; rewrite !app_length, L1; reflexivity|]. split; [exact L2|].
  exists (own_new own (length (rheap s)) (length rf)). split.
  - intros x a b H. cbn [ralloc rats] in H. apply nth_snoc in H. destruct H as [(-> & H)|(L & H)].
    + exists (length rf). cbn [fst]. rewrite L1, nth_error_app2, Nat.sub_diag by lia. split; [reflexivity|].
      destruct (uses_pair own s (ralloc s v) (length rf) v eq_refl) as (A & B). rewrite <- H in A, B. auto.
    + destruct (R x a b H) as (f & F & A & B). exists f. cbn [fst]. rewrite nth_error_app1 by (rewrite <- L1; exact L). split; [exact F|]. split; eapply uses_new; eauto; reflexivity.
  - intros n h H. destruct (J n h H) as (f & F & A). exists f. split; [exact F|]. eapply uses_new; eauto; reflexivity.
Qed.
Lemma rinv_point s rf jf x v : rinv s (rf, jf) -> rinv (rpoint s x v) (rf, jf).
Proof.
  intros (L1 & L2 & own & R & J). cbn [fst snd] in *. split; [cbn [rpoint rats fst]; rewrite upd_length; exact L1|]. split; [exact L2|].
  exists (own_new own (length (rheap s)) (nth x rf 0%nat)). split.
  - intros y a b H. pose proof H as H0. cbn [rpoint rats] in H. apply nth_upd in H. destruct H as [(<- & H)|(N & H)].
    + assert (x < length rf)%nat as L. { rewrite <- L1, <- (upd_length (rats s) x (new_pair s v)). apply nth_error_Some. cbn [rpoint rats] in H0. congruence. }
      exists (nth x rf 0%nat). split; [apply nth_error_nth'; exact L|].
      destruct (uses_pair own s (rpoint s x v) (nth x rf 0%nat) v eq_refl) as (A & B). rewrite <- H in A, B. auto.
    + destruct (R y a b H) as (f & F & A & B). exists f. split; [exact F|]. split; eapply uses_new; eauto; reflexivity.
  - intros n h H. destruct (J n h H) as (f & F & A). exists f. split; [exact F|]. eapply uses_new; eauto; reflexivity.
Qed.

Lemma rhead_ok s x h : rhead s x = Ok h -> nth_error (rats s) x = Some h.
Proof. unfold rhead. destruct (nth_error (rats s) x); congruence. Qed.
Lemma int_head_ok s x h : int_head s x = Ok h -> nth_error (ints s) x = Some h.
Proof. unfold int_head. destruct (nth_error (ints s) x); congruence. Qed.

Ltac rok H := match type of H with
  | bind ?m _ = Ok _ => let E := fresh "E" in destruct m eqn:E; cbn [bind] in H; try discriminate H
  end.

Lemma rstep_inv s c s' fs : rinv s fs -> rstep s c = Ok s' -> rinv s' (radd_family fs c).
Proof.
  destruct fs as (rf, jf). intros I H. destruct c; cbn [rstep radd_family] in *.
  - injection H as <-. apply rinv_alloc. exact I.
  - rok H. injection H as <-. apply rhead_ok in E. destruct I as (L1 & L2 & own & R & J). cbn [fst snd] in *. destruct a as (a, b). destruct (R x a b E) as (f & F & A & B).
    split; [cbn [rats fst]; rewrite !app_length, L1; reflexivity|]. split; [exact L2|]. exists own. cbn [fst snd rats ints]. split; [|exact J].
    intros y a' b' H. apply nth_snoc in H. destruct H as [(-> & H)|(L & H)].
    + exists f. rewrite L1, nth_error_app2, Nat.sub_diag by lia. cbn [nth_error]. rewrite (nth_nth _ _ _ _ F). injection H as -> ->. auto.
    + destruct (R y a' b' H) as (g & G & C). exists g. rewrite nth_error_app1 by lia. auto.
  - rok H. injection H as <-. apply rinv_alloc. exact I.
  - do 3 rok H. injection H as <-. apply rinv_alloc. exact I.
  - rok H. injection H as <-. apply rinv_alloc. exact I.
  - do 2 rok H. destruct (clears o a a0).
    + rok H. destruct a1 as (a1, b1). injection H as <-. destruct I as (L1 & L2 & own & R & J). split; [exact L1|]. split; [exact L2|]. exists own. unfold uses in *. cbn [rats ints rheap fst snd] in *. rewrite upd_length. auto.
    + rok H. injection H as <-. apply rinv_point. exact I.
  - rok H. destruct a as (a, b). injection H as <-. apply rhead_ok in E. destruct I as (L1 & L2 & own & R & J). cbn [fst snd] in *. destruct (R x a b E) as (f & F & A & B).
    split; [exact L1|]. split; [cbn [ints snd]; rewrite !app_length, L2; reflexivity|]. exists own. cbn [fst snd rats ints]. split; [exact R|].
    intros n h H. apply nth_snoc in H. destruct H as [(-> & ->)|(L & H)].
    + exists f. rewrite L2, nth_error_app2, Nat.sub_diag by lia. cbn [nth_error]. rewrite (nth_nth _ _ _ _ F). auto.
    + destruct (J n h H) as (g & G & C). exists g. rewrite nth_error_app1 by lia. auto.
  - rok H. destruct a as (a, b). injection H as <-. apply rhead_ok in E. destruct I as (L1 & L2 & own & R & J). cbn [fst snd] in *. destruct (R x a b E) as (f & F & A & B).
    split; [exact L1|]. split; [cbn [ints snd]; rewrite !app_length, L2; reflexivity|]. exists own. cbn [fst snd rats ints]. split; [exact R|].
    intros n h H. apply nth_snoc in H. destruct H as [(-> & ->)|(L & H)].
    + exists f. rewrite L2, nth_error_app2, Nat.sub_diag by lia. cbn [nth_error]. rewrite (nth_nth _ _ _ _ F). auto.
    + destruct (J n h H) as (g & G & C). exists g. rewrite nth_error_app1 by lia. auto.
  - do 3 rok H. injection H as <-. apply int_head_ok in E. destruct I as (L1 & L2 & own & R & J). cbn [fst snd] in *.
    split; [exact L1|]. split; [cbn [ints snd]; rewrite upd_length; exact L2|]. exists own. unfold uses in *. cbn [rats ints rheap fst snd]. rewrite upd_length. split; [exact R|].
    intros m h H. apply nth_upd in H. destruct H as [(<- & ->)|(N & H)]; [exact (J n a E)|exact (J m h H)].
  - do 2 rok H. injection H as <-. apply int_head_ok in E. destruct I as (L1 & L2 & own & R & J). cbn [fst snd] in *.
    split; [exact L1|]. split; [cbn [ints snd]; rewrite upd_length; exact L2|]. exists own. unfold uses in *. cbn [rats ints rheap fst snd]. split; [exact R|].
    intros m h H. apply nth_upd in H. destruct H as [(<- & ->)|(N & H)]; [exact (J n a E)|exact (J m h H)].
Qed.
Lemma rrun_inv : forall cs s s' fs, rinv s fs -> rrun s cs = Ok s' -> rinv s' (rfamilies fs cs).
Proof.
  induction cs as [|c cs IH]; intros s s' fs I H; cbn [rrun] in H; [injection H as <-; exact I|]. rok H. exact (IH _ _ _ (rstep_inv _ _ _ _ I E) H).
Qed.
Lemma rfamilies_app f cs ds : rfamilies f (cs ++ ds) = rfamilies (rfamilies f cs) ds.
Proof. apply fold_left_app. Qed.

(* ------------------------------------------------------------------ *)
(** * Frames *)
Lemma rlook_iff s x v : rlook s x = Some v <-> exists a b p q, nth_error (rats s) x = Some (a, b) /\ nth_error (rheap s) (snd a) = Some p /\ nth_error (rheap s) (snd b) = Some q /\ v = RT (BI p (fst a)) (BI q (fst b)).
Proof.
  unfold rlook, rread, rhead, iread. split.
  - destruct (nth_error (rats s) x) as [(a, b)|]; cbn [bind]; [|discriminate]. destruct (nth_error (rheap s) (snd a)) as [p|] eqn:P; cbn [bind]; [|discriminate].
    destruct (nth_error (rheap s) (snd b)) as [q|] eqn:Q; cbn [bind]; [|discriminate]. intros [= <-]. exists a, b, p, q. auto.
  - intros (a & b & p & q & -> & P & Q & ->). cbn [bind]. rewrite P. cbn [bind]. rewrite Q. reflexivity.
Qed.
Lemma rread_iff s x v : rread s x = Ok v <-> rlook s x = Some v.
Proof. unfold rlook. destruct (rread s x); split; congruence. Qed.

(** Old cells keep their contents when the heap only grows. *)
Lemma rlook_grow s s' x v hs : rlook s x = Some v -> rheap s' = rheap s ++ hs -> nth_error (rats s') x = nth_error (rats s) x -> rlook s' x = Some v.
Proof.
  intros L H N. apply rlook_iff in L. destruct L as (a & b & p & q & X & P & Q & ->). apply rlook_iff. exists a, b, p, q. rewrite N, H.
  rewrite !nth_error_app1 by (apply nth_error_Some; congruence). auto.
Qed.
Lemma rlook_same_heap s s' x v : rlook s x = Some v -> rheap s' = rheap s -> nth_error (rats s') x = nth_error (rats s) x -> rlook s' x = Some v.
Proof. intros L H N. eapply rlook_grow; eauto. rewrite app_nil_r. exact H. Qed.
(** A cell of another family is written. *)
Lemma rlook_write s s' (fs : fams) x v own f h k m :
  (forall x a b, nth_error (rats s) x = Some (a, b) -> exists f, nth_error (fst fs) x = Some f /\ uses own s f a /\ uses own s f b) ->
  rlook s x = Some v -> uses own s f h -> k = snd h -> nth_error (fst fs) x <> Some f -> rheap s' = upd (rheap s) k m -> rats s' = rats s -> rlook s' x = Some v.
Proof.
  intros R L (U & _) -> D H E. apply rlook_iff in L. destruct L as (a & b & p & q & X & P & Q & ->). destruct (R x a b X) as (g & G & (A & _) & (B & _)).
  apply rlook_iff. exists a, b, p, q. rewrite E, H, !upd_other; [auto| |]; congruence.
Qed.

Lemma rlook_app_rat s h x : (exists v, rlook s x = Some v) -> nth_error (rats s ++ [h]) x = nth_error (rats s) x.
Proof. intros (v & L). apply rlook_iff in L. destruct L as (a & b & p & q & X & _). apply nth_error_app1, nth_error_Some. congruence. Qed.

Lemma rstep_frame s c s' fs x v : rinv s fs -> rstep s c = Ok s' -> rlook s x = Some v -> ~ touches fs c (nth_error (fst fs) x) -> rlook s' x = Some v.
Proof.
  destruct fs as (rf, jf). intros (L1 & L2 & own & R & J) H L T. cbn [fst snd] in *. pose proof (ex_intro (fun w => rlook s x = Some w) v L) as LE.
  destruct c; cbn [rstep touches fst snd] in *.
  - injection H as <-. eapply rlook_grow; [exact L|reflexivity|apply rlook_app_rat; auto].
  - rok H. injection H as <-. eapply rlook_same_heap; [exact L|reflexivity|apply rlook_app_rat; auto].
  - rok H. injection H as <-. eapply rlook_grow; [exact L|reflexivity|apply rlook_app_rat; auto].
  - do 3 rok H. injection H as <-. eapply rlook_grow; [exact L|reflexivity|apply rlook_app_rat; auto].
  - rok H. injection H as <-. eapply rlook_grow; [exact L|reflexivity|apply rlook_app_rat; auto].
  - do 2 rok H. destruct (clears o a a0).
    + rok H. destruct a1 as (a1, b1). injection H as <-. apply rhead_ok in E1. destruct (R _ _ _ E1) as (f & F & A & B). apply (rlook_write s _ (rf, jf) x v own f a1 (snd a1) nan); auto; cbn [fst]; congruence.
    + rok H. injection H as <-. eapply rlook_grow; [exact L|reflexivity|]. cbn [rpoint rats]. apply upd_other. intros ->. apply T. reflexivity.
  - rok H. destruct a as (a, b). injection H as <-. eapply rlook_same_heap; eauto.
  - rok H. destruct a as (a, b). injection H as <-. eapply rlook_same_heap; eauto.
  - do 3 rok H. injection H as <-. apply int_head_ok in E. destruct (J _ _ E) as (f & F & A). apply (rlook_write s _ (rf, jf) x v own f a (snd a) (bnat a1)); auto; cbn [fst]; congruence.
  - do 2 rok H. injection H as <-. eapply rlook_same_heap; eauto.
Qed.
Lemma nth_family_mono (fs : fams) c x f : nth_error (fst fs) x = Some f -> nth_error (fst (radd_family fs c)) x = Some f.
Proof.
  destruct fs as (rf, jf). intros H. assert (x < length rf)%nat by (apply nth_error_Some; cbn [fst] in H; congruence).
  destruct c; cbn [radd_family fst] in *; auto; rewrite nth_error_app1 by auto; auto.
Qed.
Lemma nth_ifamily_mono (fs : fams) c x f : nth_error (snd fs) x = Some f -> nth_error (snd (radd_family fs c)) x = Some f.
Proof.
  destruct fs as (rf, jf). intros H. assert (x < length jf)%nat by (apply nth_error_Some; cbn [snd] in H; congruence).
  destruct c; cbn [radd_family snd] in *; auto; rewrite nth_error_app1 by auto; auto.
Qed.
Lemma fam_mono_run : forall ds (fs : fams) x f, nth_error (fst fs) x = Some f -> nth_error (fst (rfamilies fs ds)) x = Some f.
Proof. induction ds as [|c ds IH]; intros fs x f H; [exact H|]. apply IH, nth_family_mono, H. Qed.
Lemma ifam_mono_run : forall ds (fs : fams) x f, nth_error (snd fs) x = Some f -> nth_error (snd (rfamilies fs ds)) x = Some f.
Proof. induction ds as [|c ds IH]; intros fs x f H; [exact H|]. apply IH, nth_ifamily_mono, H. Qed.

Lemma rlook_fam s (fs : fams) x v : rinv s fs -> rlook s x = Some v -> exists f, nth_error (fst fs) x = Some f.
Proof. intros (_ & _ & own & R & _) L. apply rlook_iff in L. destruct L as (a & b & p & q & X & _). destruct (R x a b X) as (f & F & _). eauto. Qed.

Lemma touch_known s c s' fs f : rinv s fs -> rstep s c = Ok s' -> touches fs c (Some f) ->
  forall ds, touches (rfamilies (radd_family fs c) ds) c (Some f).
Proof.
  intros I H T ds. destruct c; cbn [touches] in *; try solve [destruct T]; [apply (fam_mono_run (RAssign o x y :: ds))|apply (ifam_mono_run (IAssign o n w :: ds))]; exact T.
Qed.
Lemma rrun_frame : forall ds s s' fs x v, rinv s fs -> rrun s ds = Ok s' -> rlook s x = Some v ->
  (forall c, In c ds -> ~ touches (rfamilies fs ds) c (nth_error (fst (rfamilies fs ds)) x)) -> rlook s' x = Some v.
Proof.
  induction ds as [|c ds IH]; intros s s' fs x v I H L T; cbn [rrun] in H; [injection H as <-; exact L|]. rok H.
  change (rfamilies fs (c :: ds)) with (rfamilies (radd_family fs c) ds) in T. destruct (rlook_fam _ _ _ _ I L) as (f & F).
  apply (IH a s' (radd_family fs c)); auto.
  - eapply rstep_inv; eauto.
  - eapply rstep_frame; eauto. rewrite F. intros D. apply (T c (or_introl eq_refl)).
    rewrite (fam_mono_run ds _ x f (nth_family_mono fs c x f F)). exact (touch_known _ _ _ _ _ I E D ds).
  - intros d Id. apply T. right. exact Id.
Qed.
(** What the new variable shows, and the target of an assignment. *)
Lemma ralloc_look s v : rlook (ralloc s v) (length (rats s)) = Some v.
Proof.
  apply rlook_iff. exists (fst (new_pair s v)), (snd (new_pair s v)), (bnat (rnum v)), (bnat (rden v)). cbn [ralloc rats rheap]. rewrite nth_error_app2, Nat.sub_diag by lia.
  unfold new_pair. cbn [fst snd]. rewrite !nth_error_app2 by lia. rewrite Nat.sub_diag. replace (S (length (rheap s)) - length (rheap s))%nat with 1%nat by lia. destruct v as [[? ?] [? ?]]. auto.
Qed.
Lemma rpoint_look s x v w : rlook s x = Some w -> rlook (rpoint s x v) x = Some v.
Proof.
  intros L. apply rlook_iff in L. destruct L as (a & b & p & q & X & _).
  apply rlook_iff. exists (fst (new_pair s v)), (snd (new_pair s v)), (bnat (rnum v)), (bnat (rden v)). cbn [rpoint rats rheap]. rewrite upd_same by (apply nth_error_Some; congruence).
  unfold new_pair. cbn [fst snd]. rewrite !nth_error_app2 by lia. rewrite Nat.sub_diag. replace (S (length (rheap s)) - length (rheap s))%nat with 1%nat by lia. destruct v as [[? ?] [? ?]]. auto.
Qed.
