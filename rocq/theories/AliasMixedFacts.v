(** Proofs about storage shared between [Nat] and [BigInt]. *)
From Coq Require Import ZArith List Lia Bool.
From Verif Require Import Words WordsFacts NatModel NatFacts BigInt Alias SpecAlias AliasFacts AliasInt SpecAliasInt AliasIntFacts AliasMixed SpecAliasMixed.
Import ListNotations.
Open Scope Z_scope.

Lemma set_sign_id l : forall i b, nth_error l i = Some b -> set_sign l i b = l.
Proof. induction l as [|h t IH]; intros [|i] b H; cbn in *; try discriminate; [congruence|]. f_equal. auto. Qed.

(** The four shapes of a step. *)
Lemma mstep_shape fuel s c s' fs : binv s fs -> mstep fuel s c = Ok s' ->
  (exists v, s' = balloc s v /\ mtarget c = None /\ madd_family fs c = fs ++ [length fs]) \/
  (exists x k b, nth_error (env (mem s)) x = Some k /\ s' = BSt (St (env (mem s) ++ [k]) (heap (mem s))) (signs s ++ [b]) /\
     mtarget c = None /\ madd_family fs c = fs ++ [nth x fs (length fs)]) \/
  (exists x k v, mtarget c = Some x /\ madd_family fs c = fs /\ nth_error (env (mem s)) x = Some k /\ s' = bset s x k v /\
     (forall d, c = MNat d -> nth_error (signs s) x = Some (bneg v))) \/
  (exists x b, mtarget c = Some x /\ madd_family fs c = fs /\ s' = BSt (mem s) (set_sign (signs s) x b) /\ exists d, c = MInt d).
Proof.
  intros [I L] H. destruct c as [c|c|x|x]; cbn [mstep mtarget madd_family] in *.
  - bok H. rename a into m. injection H as <-. destruct (step_shape _ _ _ _ E) as [(v & -> & N1 & N2)|[(x & k & -> & Ex & ->)|(x & k & v & T & N & Ex & ->)]].
    + left. exists (BI v false). cbn [alloc env]. rewrite app_length. cbn [length]. replace (_ + 1 - _)%nat with 1%nat by lia.
      split; [reflexivity|]. split; [destruct c; cbn in *; congruence|apply add_family_fresh; auto].
    + right; left. exists x, k, false. cbn [env]. rewrite app_length. cbn [length]. replace (_ + 1 - _)%nat with 1%nat by lia. auto.
    + right; right; left. assert (Lx : (x < length (signs s))%nat) by (rewrite L, <- (inv_len _ _ I); apply nth_error_Some; congruence).
      destruct (nth_error (signs s) x) as [b|] eqn:Eb; [|apply nth_error_None in Eb; lia].
      exists x, k, (BI v b). split; [auto|]. split; [apply add_family_assign; auto|]. split; [auto|]. split; [|intros d _; exact Eb].
      cbn [env]. rewrite Nat.sub_diag. cbn [repeat]. rewrite app_nil_r. unfold bset. cbn [bnat bneg]. rewrite set_sign_id by auto. reflexivity.
  - destruct (bstep_shape _ _ _ _ H) as [(v & -> & N1 & N2)|[(x & k & b & -> & Ex & Eb & ->)|[(x & k & v & T & N & Ex & ->)|(x & b & T & N & ->)]]].
    + left. exists v. split; [auto|]. split; [destruct c; cbn in *; congruence|apply badd_family_fresh; auto].
    + right; left. exists x, k, b. auto.
    + right; right; left. exists x, k, v. split; [auto|]. split; [apply badd_family_assign; auto|]. split; [auto|]. split; [auto|discriminate].
    + right; right; right. exists x, b. split; [auto|]. split; [apply badd_family_assign; auto|]. split; [auto|]. eauto.
  - bok H. injection H as <-. apply cell_of_some in E. right; left. eexists x, _, false. eauto.
  - bok H. injection H as <-. left. eexists. auto.
Qed.

Lemma mstep_inv fuel s c s' fs : binv s fs -> mstep fuel s c = Ok s' -> binv s' (madd_family fs c).
Proof.
  intros B H. pose proof B as [I L]. destruct (mstep_shape _ _ _ _ _ B H) as [(v & -> & _ & ->)|[(x & k & b & E & -> & _ & ->)|[(x & k & v & T & -> & E & -> & _)|(x & b & T & -> & -> & _)]]].
  - split; cbn [balloc mem signs]; [apply inv_alloc; auto|rewrite !app_length; cbn; lia].
  - split; cbn [mem signs]; [apply inv_clone; auto|rewrite !app_length; cbn; lia].
  - split; cbn [bset mem signs]; [apply inv_set; auto|rewrite set_sign_length; auto].
  - split; cbn [mem signs]; [auto|rewrite set_sign_length; auto].
Qed.
Lemma mrun_inv fuel cs : forall s fs s', binv s fs -> mrun fuel s cs = Ok s' -> binv s' (mfamilies fs cs).
Proof.
  induction cs as [|c cs IH]; intros s fs s' I H; cbn [mrun] in H.
  - injection H as <-. exact I.
  - bok H. cbn [mfamilies fold_left]. eapply IH; eauto using mstep_inv.
Qed.
Lemma madd_family_prefix fs c x f : nth_error fs x = Some f -> nth_error (madd_family fs c) x = Some f.
Proof.
  intros H. assert (x < length fs)%nat by (apply nth_error_Some; congruence).
  destruct c; cbn [madd_family]; auto using add_family_prefix, badd_family_prefix; rewrite nth_error_app1; auto.
Qed.
Lemma mfamilies_prefix cs : forall fs x f, nth_error fs x = Some f -> nth_error (mfamilies fs cs) x = Some f.
Proof. induction cs as [|c cs IH]; intros fs x f H; [auto|]. cbn [mfamilies fold_left]. apply IH. apply madd_family_prefix. auto. Qed.

Lemma old_look s fs x a ks hs bs : binv s fs -> blook s x = Some a ->
  blook (BSt (St (env (mem s) ++ ks) (heap (mem s) ++ hs)) (signs s ++ bs)) x = Some a.
Proof.
  intros B A. pose proof (blook_dom s fs x a B A) as Lx. destruct (blook_env s fs x B Lx) as (k & m & b & E1 & E2 & E3 & E4). rewrite E4 in A. injection A as <-.
  pose proof B as [I L]. unfold blook, look. cbn [mem signs env heap].
  rewrite nth_error_app1 by (rewrite (inv_len _ _ I); auto). rewrite E1. rewrite nth_error_app1 by (apply nth_error_Some; congruence). rewrite E2.
  rewrite nth_error_app1 by lia. rewrite E3. reflexivity.
Qed.

Lemma mstep_frame fuel s c s' fs x a : binv s fs -> mstep fuel s c = Ok s' -> blook s x = Some a ->
  exists a', blook s' x = Some a' /\
    ((forall t, mtarget c = Some t -> nth_error fs t <> nth_error fs x) -> a' = a) /\
    ((forall t d, c = MInt d -> mtarget c = Some t -> t <> x) -> bneg a' = bneg a).
Proof.
  intros B H A. pose proof (blook_dom s fs x a B A) as Lx.
  destruct (mstep_shape _ _ _ _ _ B H) as [(v & -> & _ & _)|[(y & k & b & E & -> & _ & _)|[(y & k & v & T & _ & E & -> & S0)|(y & b & T & _ & -> & d & ->)]]].
  - exists a. split; [|auto]. unfold balloc, alloc. eapply old_look; eauto.
  - exists a. split; [|auto]. rewrite <- (app_nil_r (heap (mem s))). eapply old_look; eauto.
  - destruct (bset_look s fs y k v B E) as (P1 & P2 & P3). destruct (Nat.eq_dec x y) as [->|NE].
    + exists v. split; [exact P1|]. split; [intros Q; destruct (Q y T); reflexivity|]. intros Q. destruct c as [c|c|z|z]; try discriminate T.
      * specialize (S0 c eq_refl). unfold blook in A. rewrite S0 in A. destruct (look (mem s) y); [|discriminate]. injection A as <-. reflexivity.
      * destruct (Q y c eq_refl T). reflexivity.
    + assert (Ly : (y < length fs)%nat) by (destruct B as [I L]; rewrite <- (inv_len _ _ I); apply nth_error_Some; congruence).
      destruct (Nat.eq_dec (nth x fs 0%nat) (nth y fs 0%nat)) as [F|F].
      * assert (FF : nth_error fs x = nth_error fs y) by (rewrite (nth_error_nth' fs 0%nat Lx), (nth_error_nth' fs 0%nat Ly); congruence).
        exists (BI (bnat v) (bneg a)). split; [exact (P2 x a NE A FF)|]. split; [intros Q; destruct (Q y T); auto|auto].
      * exists a. split; [|auto]. rewrite P3; [exact A|]. intros FF. apply F.
        rewrite (nth_error_nth' fs 0%nat Lx), (nth_error_nth' fs 0%nat Ly) in FF. congruence.
  - destruct (blook_env s fs x B Lx) as (k & m & b0 & E1 & E2 & E3 & E4). rewrite E4 in A. injection A as <-. pose proof B as [I L]. destruct (Nat.eq_dec x y) as [->|NE].
    + exists (BI m b). split; [|split; [intros Q; destruct (Q y T); reflexivity|intros Q; destruct (Q y d eq_refl T); reflexivity]].
      unfold blook, look. cbn [mem signs]. rewrite E1, E2, set_sign_same by lia. reflexivity.
    + exists (BI m b0). split; [|auto]. unfold blook, look. cbn [mem signs]. rewrite E1, E2, set_sign_other by auto. rewrite E3. reflexivity.
Qed.

Lemma mrun_frame fuel ds : forall s s' fs x a, binv s fs -> mrun fuel s ds = Ok s' -> blook s x = Some a ->
  exists a', blook s' x = Some a' /\
    ((forall c t, In c ds -> mtarget c = Some t -> nth_error (mfamilies fs ds) t <> nth_error (mfamilies fs ds) x) -> a' = a) /\
    ((forall c t, In (MInt c) ds -> btarget c = Some t -> t <> x) -> bneg a' = bneg a).
Proof.
  induction ds as [|c ds IH]; intros s s' fs x a I H A; cbn [mrun] in H.
  - injection H as <-. exists a. auto.
  - bok H. rename a0 into s1. pose proof (mstep_inv _ _ _ _ _ I E) as I'. destruct (mstep_frame _ _ _ _ _ _ _ I E A) as (a1 & A1 & P1 & Q1).
    destruct (IH s1 s' _ x a1 I' H A1) as (a2 & A2 & P2 & Q2). exists a2. split; [auto|]. cbn [mfamilies fold_left]. fold (mfamilies (madd_family fs c) ds). split.
    + intros T. rewrite P2 by (intros c0 t Hc; apply T; right; auto). apply P1. intros t Ht Eq. apply (T c t (or_introl eq_refl) Ht).
      pose proof (blook_dom _ _ _ _ I A) as Lx. destruct (nth_error fs x) as [f|] eqn:Fx; [|apply nth_error_None in Fx; lia].
      rewrite (mfamilies_prefix _ _ _ f) by (apply madd_family_prefix; auto). rewrite (mfamilies_prefix _ _ _ f) by (apply madd_family_prefix; auto). reflexivity.
    + intros T. rewrite Q2 by (intros c0 t Hc; apply T; right; auto). apply Q1. intros t d -> Ht. apply (T d t (or_introl eq_refl) Ht).
Qed.

(** A [Nat] assignment seen from every handle of the family. *)
Lemma look_cell s fs x a : binv s fs -> blook s x = Some a -> exists k, nth_error (env (mem s)) x = Some k /\ nth_error (heap (mem s)) k = Some (bnat a) /\ nth_error (signs s) x = Some (bneg a).
Proof.
  intros B A. destruct (blook_env s fs x B (blook_dom s fs x a B A)) as (k & m & b & E1 & E2 & E3 & E4). rewrite E4 in A. injection A as <-. eauto.
Qed.
Lemma nat_assign fuel s fs o x y a b : binv s fs -> blook s x = Some a -> blook s y = Some b -> is_nan (bnat a) = false -> is_nan (bnat b) = false ->
  nth_error fs x <> nth_error fs y ->
  exists k, nth_error (env (mem s)) x = Some k /\
  mstep fuel s (MNat (CAssign o x y)) = (do r <- inner2 o (bnat a) (bnat b); Ok (bset s x k (BI r (bneg a)))).
Proof.
  intros B A A2 Na Nb F. destruct (look_cell s fs x a B A) as (k & E1 & E2 & E3). destruct (look_cell s fs y b B A2) as (l & F1 & F2 & F3).
  exists k. split; [auto|]. cbn [mstep step]. unfold cell_of, rd_cell. rewrite E1, F1. cbn [bind]. rewrite E2, F2. cbn [bind]. rewrite Na, Nb. cbn [orb].
  assert (K : Nat.eqb k l = false) by (apply Nat.eqb_neq; rewrite (same_cell s fs x y k l B E1 F1); auto). rewrite K.
  destruct (inner2 o (bnat a) (bnat b)) as [r| |]; cbn [bind]; try reflexivity. cbn [env]. rewrite Nat.sub_diag. cbn [repeat]. rewrite app_nil_r.
  unfold bset. cbn [bnat bneg]. rewrite set_sign_id by auto. reflexivity.
Qed.
