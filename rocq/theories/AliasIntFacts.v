(** Proofs about the heap model of [BigInt]. *)
From Coq Require Import ZArith List Lia Bool.
From Verif Require Import Words WordsFacts Spec SpecInt NatModel NatFacts NatFacts2 NatFacts3 NatFacts4 NatFacts5 BigInt BigIntFacts Alias SpecAlias AliasFacts AliasInt SpecAliasInt.
Import ListNotations.
Open Scope Z_scope.

(* ------------------------------------------------------------------ *)
(** * One routine, both operands one cell *)

Lemma nat_alias_eq fuel o m : canon m -> o <> ORem -> nat_alias fuel o m = inner2 o m m.
Proof. intros C N. unfold nat_alias. rewrite is_nan_canon by auto. apply alias2_eq; auto. Qed.
Lemma and_not_alias_eq m : and_not_alias m = and_not m m.
Proof. unfold and_not_alias, and_not. rewrite zip_with_same. reflexivity. Qed.

Lemma nat_lt_same m : canon m -> nat_lt m m = false.
Proof. intros C. rewrite nat_lt_spec by auto. apply Z.ltb_irrefl. Qed.

Lemma nat_add_same m : canon m -> nat_add m m = add_inner m m.
Proof. intros C. unfold nat_add, op2. rewrite is_nan_canon by auto. reflexivity. Qed.
Lemma nat_sub_same m : canon m -> nat_sub m m = sub_inner m m.
Proof. intros C. unfold nat_sub, op2. rewrite is_nan_canon by auto. reflexivity. Qed.
Lemma nat_mul_same m : canon m -> nat_mul m m = mul_inner m m.
Proof. intros C. unfold nat_mul, op2. rewrite is_nan_canon by auto. reflexivity. Qed.
Lemma nat_div_same m : canon m -> nat_div m m = div_inner m m.
Proof. intros C. unfold nat_div, op2r. rewrite is_nan_canon by auto. reflexivity. Qed.
Lemma nat_bits_same m : canon m -> nat_bitand m m = bitand_inner m m /\ nat_bitor m m = bitor_inner m m /\ nat_bitxor m m = bitxor_inner m m.
Proof. intros C. unfold nat_bitand, nat_bitor, nat_bitxor, op2. rewrite is_nan_canon by auto. auto. Qed.

(** Arithmetic operators do not mind; the others do not mind when the target
    is not negative. *)
Definition alias_safe (o : bop) (sx : bool) : bool :=
  match o with IAdd | ISub | IMul | IDiv => true | IRem => false | _ => negb sx end.

Lemma b_alias_eq fuel o m sx sy : canon m -> alias_safe o sx = true -> b_alias fuel o m sx sy = b_op o (BI m sx) (BI m sy).
Proof.
  intros C S0. pose proof (nat_bits_same m C) as (Ba & Bo & Bx).
  destruct o; cbn [alias_safe] in S0; try discriminate S0; cbn [b_alias b_op];
    try (destruct sx; [discriminate S0|]);
    unfold b_add, b_sub, b_mul_assign, b_div, b_and, b_or, b_xor, b_and_not; cbn [bnat bneg];
    rewrite ?nat_alias_eq by (auto; discriminate); cbn [inner2 bind];
    rewrite ?mul_assign_canon, ?nat_mul_assign_canon by auto; cbn [bind];
    rewrite ?nat_add_same, ?nat_sub_same, ?nat_mul_same, ?nat_div_same, ?Ba, ?Bo, ?Bx, ?and_not_alias_eq by auto;
    repeat match goal with |- context [eqb ?a ?b] => destruct (eqb a b) end; cbn [negb]; try reflexivity;
    destruct (nat_eq_u32 m 0); reflexivity.
Qed.

(** A negative target with a non-negative clone: the clone is emptied before
    it is read. *)
Lemma b_alias_mixed fuel o m : o = IAnd \/ o = IOr \/ o = IXor -> b_alias fuel o m true false = Ok (BI [] false).
Proof.
  intros [->|[->| ->]]; cbn [b_alias eqb].
  - reflexivity.
  - reflexivity.
  - reflexivity.
Qed.
Lemma b_alias_rem fuel m sx sy : canon m -> (2 <= fuel)%nat -> b_alias fuel IRem m sx sy = (if nval m =? 1 then Fuel else Panic).
Proof.
  intros C F. cbn [b_alias]. rewrite nat_eq_u32_spec by (auto; lia). destruct (Z.eqb_spec (nval m) 0) as [E|E]; [rewrite E; reflexivity|].
  unfold nat_alias. rewrite is_nan_canon by auto. cbn [alias2]. rewrite rem_alias_bad by auto. destruct (Nat.leb_spec fuel 1); [lia|]. rewrite orb_false_r. destruct (nval m =? 1); reflexivity.
Qed.
(* ------------------------------------------------------------------ *)
(** * The state *)

Definition binv (s : bstate) (fs : list nat) : Prop := inv (mem s) fs /\ length (signs s) = length fs.
Lemma binv_empty : binv bempty []. Proof. split; [apply inv_empty|reflexivity]. Qed.

Lemma set_sign_length l : forall i v, length (set_sign l i v) = length l.
Proof. induction l as [|h t IH]; intros [|i] v; cbn [set_sign length]; auto. Qed.
Lemma set_sign_same l : forall i v, (i < length l)%nat -> nth_error (set_sign l i v) i = Some v.
Proof. induction l as [|h t IH]; intros [|i] v L; cbn in *; try lia; auto. apply IH. lia. Qed.
Lemma set_sign_other l : forall i j v, i <> j -> nth_error (set_sign l i v) j = nth_error l j.
Proof. induction l as [|h t IH]; intros [|i] [|j] v N; cbn; auto; congruence. Qed.

Lemma sign_of_some s x b : sign_of s x = Ok b <-> nth_error (signs s) x = Some b.
Proof. unfold sign_of. destruct (nth_error (signs s) x); split; intros [=]; subst; auto. Qed.

Lemma bstep_shape fuel s c s' : bstep fuel s c = Ok s' ->
  (exists v, s' = balloc s v /\ bcreates c = true /\ forall x, c <> BClone x) \/
  (exists x k b, c = BClone x /\ nth_error (env (mem s)) x = Some k /\ nth_error (signs s) x = Some b /\
     s' = BSt (St (env (mem s) ++ [k]) (heap (mem s))) (signs s ++ [b])) \/
  (exists x k v, btarget c = Some x /\ bcreates c = false /\ nth_error (env (mem s)) x = Some k /\ s' = bset s x k v) \/
  (exists x b, btarget c = Some x /\ bcreates c = false /\ s' = BSt (mem s) (set_sign (signs s) x b)).
Proof.
  intros H. destruct c; cbn [bstep] in H; bok H; injection H as <-;
    repeat match goal with H : cell_of _ _ = Ok _ |- _ => apply cell_of_some in H | H : sign_of _ _ = Ok _ |- _ => apply sign_of_some in H end;
    solve [ left; eexists; split; [reflexivity|split; [reflexivity|discriminate]]
          | right; left; do 3 eexists; eauto
          | right; right; left; do 3 eexists; split; [reflexivity|split; [reflexivity|split; eauto]]
          | right; right; right; do 2 eexists; split; [reflexivity|split; reflexivity] ].
Qed.

Lemma badd_family_fresh fs c : bcreates c = true -> (forall x, c <> BClone x) -> badd_family fs c = fs ++ [length fs].
Proof. destruct c; cbn; intros H1 H2; try discriminate; auto. exfalso. eapply H2. reflexivity. Qed.
Lemma badd_family_assign fs c : bcreates c = false -> badd_family fs c = fs.
Proof. destruct c; cbn; intros H; try discriminate; auto. Qed.

Lemma bstep_inv fuel s c s' fs : binv s fs -> bstep fuel s c = Ok s' -> binv s' (badd_family fs c).
Proof.
  intros [I L] H. destruct (bstep_shape _ _ _ _ H) as [(v & -> & N1 & N2)|[(x & k & b & -> & E & Eb & ->)|[(x & k & v & T & N & E & ->)|(x & b & T & N & ->)]]].
  - rewrite badd_family_fresh by auto. split; cbn [balloc mem signs]; [apply inv_alloc; auto|rewrite !app_length; cbn; lia].
  - split; cbn [mem signs badd_family]; [apply inv_clone; auto|rewrite !app_length; cbn; lia].
  - rewrite badd_family_assign by auto. split; cbn [bset mem signs]; [apply inv_set; auto|rewrite set_sign_length; auto].
  - rewrite badd_family_assign by auto. split; cbn [mem signs]; [auto|rewrite set_sign_length; auto].
Qed.
Lemma brun_inv fuel cs : forall s fs s', binv s fs -> brun fuel s cs = Ok s' -> binv s' (bfamilies fs cs).
Proof.
  induction cs as [|c cs IH]; intros s fs s' I H; cbn [brun] in H.
  - injection H as <-. exact I.
  - bok H. cbn [bfamilies fold_left]. eapply IH; eauto using bstep_inv.
Qed.
Lemma brun_app fuel cs : forall ds s, brun fuel s (cs ++ ds) = do s' <- brun fuel s cs; brun fuel s' ds.
Proof. induction cs as [|c cs IH]; intros ds s; [reflexivity|]. cbn [app brun]. destruct (bstep fuel s c); cbn [bind]; auto. Qed.
Lemma bfamilies_app fs cs ds : bfamilies fs (cs ++ ds) = bfamilies (bfamilies fs cs) ds.
Proof. apply fold_left_app. Qed.
Lemma badd_family_prefix fs c x f : nth_error fs x = Some f -> nth_error (badd_family fs c) x = Some f.
Proof.
  intros H. assert (x < length fs)%nat by (apply nth_error_Some; congruence). destruct c; cbn [badd_family]; auto; rewrite nth_error_app1; auto.
Qed.
Lemma bfamilies_prefix cs : forall fs x f, nth_error fs x = Some f -> nth_error (bfamilies fs cs) x = Some f.
Proof. induction cs as [|c cs IH]; intros fs x f H; [auto|]. cbn [bfamilies fold_left]. apply IH. apply badd_family_prefix. auto. Qed.

Lemma blook_env s fs x : binv s fs -> (x < length fs)%nat -> exists k m b, nth_error (env (mem s)) x = Some k /\ nth_error (heap (mem s)) k = Some m /\ nth_error (signs s) x = Some b /\ blook s x = Some (BI m b).
Proof.
  intros [I L] X. destruct (nth_error (env (mem s)) x) as [k|] eqn:E; [|apply nth_error_None in E; rewrite (inv_len _ _ I) in E; lia].
  pose proof (inv_cell _ _ I _ _ E) as Ck. destruct (nth_error (heap (mem s)) k) as [m|] eqn:Em; [|apply nth_error_None in Em; lia].
  destruct (nth_error (signs s) x) as [b|] eqn:Eb; [|apply nth_error_None in Eb; lia].
  exists k, m, b. split; [auto|]. split; [auto|]. split; [auto|]. unfold blook, look. rewrite E, Em, Eb. reflexivity.
Qed.
Lemma blook_dom s fs x a : binv s fs -> blook s x = Some a -> (x < length fs)%nat.
Proof.
  intros [I L] H. unfold blook, look in H. rewrite <- (inv_len _ _ I). apply nth_error_Some. destruct (nth_error (env (mem s)) x); congruence.
Qed.
Lemma same_cell s fs x y k l : binv s fs -> nth_error (env (mem s)) x = Some k -> nth_error (env (mem s)) y = Some l -> (k = l <-> nth_error fs x = nth_error fs y).
Proof.
  intros [I L] X Y. assert (Lx : (x < length fs)%nat) by (rewrite <- (inv_len _ _ I); apply nth_error_Some; congruence).
  assert (Ly : (y < length fs)%nat) by (rewrite <- (inv_len _ _ I); apply nth_error_Some; congruence).
  destruct (nth_error fs x) as [f|] eqn:Fx; [|apply nth_error_None in Fx; lia]. destruct (nth_error fs y) as [g|] eqn:Fy; [|apply nth_error_None in Fy; lia].
  rewrite (inv_same _ _ I x y k l f g) by auto. split; congruence.
Qed.

(** The effect of writing through a handle. *)
Lemma bset_look s fs x k v : binv s fs -> nth_error (env (mem s)) x = Some k ->
  blook (bset s x k v) x = Some v /\
  (forall z a, z <> x -> blook s z = Some a -> nth_error fs z = nth_error fs x -> blook (bset s x k v) z = Some (BI (bnat v) (bneg a))) /\
  (forall z, nth_error fs z <> nth_error fs x -> blook (bset s x k v) z = blook s z).
Proof.
  intros B E. assert (Lx : (x < length fs)%nat) by (destruct B as [I L]; rewrite <- (inv_len _ _ I); apply nth_error_Some; congruence).
  assert (Ck : (k < length (heap (mem s)))%nat) by (destruct B as [I L]; eapply inv_cell; eauto).
  split; [|split].
  - unfold blook, look, bset. cbn [mem signs env heap]. rewrite E, set_nth_same by auto. rewrite set_sign_same by (destruct B as [_ L]; lia). destruct v; reflexivity.
  - intros z a N A F. destruct (blook_env s fs z B (blook_dom s fs z a B A)) as (k2 & m & b & E1 & E2 & E3 & E4). rewrite E4 in A. injection A as <-. cbn [bneg].
    assert (k2 = k) by (apply (same_cell s fs z x k2 k B E1 E); auto). subst k2.
    unfold blook, look, bset. cbn [mem signs env heap]. rewrite E1, set_nth_same by auto. rewrite set_sign_other by auto. rewrite E3. reflexivity.
  - intros z F. unfold blook, look, bset. cbn [mem signs env heap]. destruct (Nat.eq_dec x z) as [->|N]; [congruence|]. rewrite set_sign_other by auto.
    destruct (nth_error (env (mem s)) z) as [k2|] eqn:E1; [|reflexivity]. rewrite set_nth_other; [reflexivity|]. intros ->. apply F. apply (same_cell s fs z x k2 k2 B E1 E). reflexivity.
Qed.

(** An assignment through a handle. *)
Lemma bassign fuel s fs o x y a b : binv s fs -> blook s x = Some a -> blook s y = Some b ->
  exists k, nth_error (env (mem s)) x = Some k /\
  bstep fuel s (BAssign o x y) =
  (do r <- (if Nat.eqb (nth x fs 0%nat) (nth y fs 0%nat) then b_alias fuel o (bnat a) (bneg a) (bneg b) else b_op o a b); Ok (bset s x k r)) /\
  (nth x fs 0%nat = nth y fs 0%nat -> bnat a = bnat b).
Proof.
  intros B A A2. pose proof (blook_dom s fs x a B A) as Lx. pose proof (blook_dom s fs y b B A2) as Ly.
  destruct (blook_env s fs x B Lx) as (k & m & sx & E1 & E2 & E3 & E4). destruct (blook_env s fs y B Ly) as (l & n & sy & F1 & F2 & F3 & F4).
  rewrite E4 in A. injection A as <-. rewrite F4 in A2. injection A2 as <-. exists k. split; [auto|]. cbn [bstep bnat bneg].
  unfold cell_of, sign_of, rd_cell. rewrite E1. cbn [bind]. rewrite E3. cbn [bind]. rewrite E2. cbn [bind]. rewrite F1. cbn [bind]. rewrite F3. cbn [bind]. rewrite F2.
  cbn [bind]. assert (Q : k = l <-> nth x fs 0%nat = nth y fs 0%nat).
  { rewrite (same_cell s fs x y k l B E1 F1). rewrite (nth_error_nth' fs 0%nat Lx), (nth_error_nth' fs 0%nat Ly). split; congruence. }
  split.
  - replace (Nat.eqb k l) with (Nat.eqb (nth x fs 0%nat) (nth y fs 0%nat)); [reflexivity|]. destruct (Nat.eqb_spec k l) as [K|K]; [apply Nat.eqb_eq; tauto|apply Nat.eqb_neq; tauto].
  - intros K. apply Q in K. subst l. congruence.
Qed.

(** By value. *)
Lemma bby_value fuel s fs o x y a b : binv s fs -> blook s x = Some a -> blook s y = Some b -> canon (bnat a) ->
  bstep fuel s (BBin o x y) = (do r <- b_op o a b; Ok (balloc s r)).
Proof.
  intros B A A2 C. pose proof (blook_dom s fs x a B A) as Lx. pose proof (blook_dom s fs y b B A2) as Ly.
  destruct (blook_env s fs x B Lx) as (k & m & sx & E1 & E2 & E3 & E4). destruct (blook_env s fs y B Ly) as (l & n & sy & F1 & F2 & F3 & F4).
  rewrite E4 in A. injection A as <-. rewrite F4 in A2. injection A2 as <-. cbn [bstep bnat bneg] in *.
  unfold cell_of, sign_of, rd_cell. rewrite E1. cbn [bind]. rewrite E3. cbn [bind]. rewrite E2. cbn [bind]. rewrite F1. cbn [bind]. rewrite F3. cbn [bind]. rewrite F2.
  cbn [bind]. rewrite trim_canon_id by auto. reflexivity.
Qed.
Lemma balloc_look s fs v : binv s fs -> blook (balloc s v) (length fs) = Some v.
Proof.
  intros [I L]. unfold blook, look, balloc, alloc. cbn [mem signs env heap]. rewrite <- (inv_len _ _ I), nth_error_app2, Nat.sub_diag by lia. cbn [nth_error].
  rewrite nth_error_app2, Nat.sub_diag by lia. cbn [nth_error]. rewrite (inv_len _ _ I), <- L, nth_error_app2, Nat.sub_diag by lia. cbn [nth_error]. destruct v; reflexivity.
Qed.

(* ------------------------------------------------------------------ *)
(** * Frames *)

(** One step: magnitudes change only within the target's family, signs only at
    the target. *)
Lemma bstep_frame fuel s c s' fs x a : binv s fs -> bstep fuel s c = Ok s' -> blook s x = Some a ->
  exists a', blook s' x = Some a' /\
    ((forall t, btarget c = Some t -> nth_error fs t <> nth_error fs x) -> a' = a) /\
    ((forall t, btarget c = Some t -> t <> x) -> bneg a' = bneg a).
Proof.
  intros B H A. pose proof (blook_dom s fs x a B A) as Lx. destruct (blook_env s fs x B Lx) as (k & m & b & E1 & E2 & E3 & E4). rewrite E4 in A. injection A as <-.
  pose proof B as [I L].
  destruct (bstep_shape _ _ _ _ H) as [(v & -> & N1 & N2)|[(y & l & d & -> & E & Eb & ->)|[(y & l & v & T & N & E & ->)|(y & d & T & N & ->)]]].
  - exists (BI m b). split; [|auto]. unfold blook, look, balloc, alloc. cbn [mem signs env heap].
    rewrite nth_error_app1 by (rewrite (inv_len _ _ I); auto). rewrite E1. rewrite nth_error_app1 by (apply nth_error_Some; congruence). rewrite E2. rewrite nth_error_app1 by lia. rewrite E3. reflexivity.
  - exists (BI m b). split; [|auto]. unfold blook, look. cbn [mem signs env heap].
    rewrite nth_error_app1 by (rewrite (inv_len _ _ I); auto). rewrite E1, E2. rewrite nth_error_app1 by lia. rewrite E3. reflexivity.
  - destruct (bset_look s fs y l v B E) as (P1 & P2 & P3). destruct (Nat.eq_dec x y) as [->|NE].
    + exists v. split; [exact P1|]. split; [intros Q; destruct (Q y T); reflexivity|intros Q; destruct (Q y T); reflexivity].
    + destruct (Nat.eq_dec (nth x fs 0%nat) (nth y fs 0%nat)) as [F|F].
      * assert (Ly : (y < length fs)%nat) by (rewrite <- (inv_len _ _ I); apply nth_error_Some; congruence).
        assert (FF : nth_error fs x = nth_error fs y) by (rewrite (nth_error_nth' fs 0%nat Lx), (nth_error_nth' fs 0%nat Ly); congruence).
        exists (BI (bnat v) b). split; [exact (P2 x (BI m b) NE E4 FF)|]. split; [intros Q; destruct (Q y T); auto|auto].
      * exists (BI m b). split; [|auto]. rewrite P3; [exact E4|]. intros FF. apply F. assert (Ly : (y < length fs)%nat) by (rewrite <- (inv_len _ _ I); apply nth_error_Some; congruence).
        rewrite (nth_error_nth' fs 0%nat Lx), (nth_error_nth' fs 0%nat Ly) in FF. congruence.
  - destruct (Nat.eq_dec x y) as [->|NE].
    + exists (BI m d). split; [|split; [intros Q; destruct (Q y T); reflexivity|intros Q; destruct (Q y T); reflexivity]].
      unfold blook, look. cbn [mem signs]. rewrite E1, E2, set_sign_same by lia. reflexivity.
    + exists (BI m b). split; [|auto]. unfold blook, look. cbn [mem signs]. rewrite E1, E2, set_sign_other by auto. rewrite E3. reflexivity.
Qed.

Lemma brun_frame fuel ds : forall s s' fs x a, binv s fs -> brun fuel s ds = Ok s' -> blook s x = Some a ->
  exists a', blook s' x = Some a' /\
    ((forall c t, In c ds -> btarget c = Some t -> nth_error (bfamilies fs ds) t <> nth_error (bfamilies fs ds) x) -> a' = a) /\
    ((forall c t, In c ds -> btarget c = Some t -> t <> x) -> bneg a' = bneg a).
Proof.
  induction ds as [|c ds IH]; intros s s' fs x a I H A; cbn [brun] in H.
  - injection H as <-. exists a. auto.
  - bok H. rename a0 into s1. pose proof (bstep_inv _ _ _ _ _ I E) as I'. destruct (bstep_frame _ _ _ _ _ _ _ I E A) as (a1 & A1 & P1 & Q1).
    destruct (IH s1 s' _ x a1 I' H A1) as (a2 & A2 & P2 & Q2). exists a2. split; [auto|]. cbn [bfamilies fold_left]. fold (bfamilies (badd_family fs c) ds). split.
    + intros T. rewrite P2 by (intros c0 t Hc; apply T; right; auto). apply P1. intros t Ht Eq. apply (T c t (or_introl eq_refl) Ht).
      pose proof (blook_dom _ _ _ _ I A) as Lx. destruct (nth_error fs x) as [f|] eqn:Fx; [|apply nth_error_None in Fx; lia].
      rewrite (bfamilies_prefix _ _ _ f) by (apply badd_family_prefix; auto). rewrite (bfamilies_prefix _ _ _ f) by (apply badd_family_prefix; auto). reflexivity.
    + intros T. rewrite Q2 by (intros c0 t Hc; apply T; right; auto). apply Q1. intros t Ht. apply (T c t (or_introl eq_refl) Ht).
Qed.

(** Same family, same magnitude. *)
Lemma same_magnitude s fs x y a b : binv s fs -> blook s x = Some a -> blook s y = Some b -> nth_error fs x = nth_error fs y -> bnat a = bnat b.
Proof.
  intros B A A2 F. pose proof (blook_dom s fs x a B A) as Lx. pose proof (blook_dom s fs y b B A2) as Ly.
  destruct (blook_env s fs x B Lx) as (k & m & sx & E1 & E2 & E3 & E4). destruct (blook_env s fs y B Ly) as (l & n & sy & F1 & F2 & F3 & F4).
  rewrite E4 in A. injection A as <-. rewrite F4 in A2. injection A2 as <-. cbn [bnat]. assert (k = l) by (apply (same_cell s fs x y k l B E1 F1); auto). subst l. congruence.
Qed.

Lemma b_mul_assign_zint a b : b_mul_assign (zint a) (zint b) = Ok (zint (a * b)).
Proof. unfold b_mul_assign. rewrite nat_mul_assign_canon by apply of_Z_canon, Z.abs_nonneg. cbn [bind]. rewrite <- zint_mul. reflexivity. Qed.
(** The by-value operator returns the integer of [ziop]. *)
Lemma b_op_ziop o a b v : ziop o a b = Some v -> b_op o (zint a) (zint b) = Ok (zint v).
Proof.
  destruct o; cbn [ziop b_op]; intros V; try (injection V as <-; rewrite ?zint_add, ?zint_sub, ?b_mul_assign_zint, ?zint_and, ?zint_xor; reflexivity).
  - destruct (Z.eqb_spec b 0); [discriminate V|]. cbn [orb] in V.
    destruct (Z.eqb_spec (a ÷ b) 0) as [Q|Q]; cbn [andb] in V; [|injection V as <-; apply zint_div; auto].
    destruct (Z.eqb_spec a 0); cbn [negb andb] in V; [injection V as <-; apply zint_div; auto|].
    destruct (Z.ltb_spec a 0); [discriminate V|]. destruct (Z.ltb_spec b 0); [discriminate V|]. injection V as <-. apply zint_div; [auto|]. right. left. lia.
  - destruct (Z.eqb_spec b 0); [discriminate V|]. cbn [orb] in V.
    destruct (Z.eqb_spec (Z.rem a b) 0) as [Q|Q]; cbn [andb] in V; [|injection V as <-; apply zint_rem; auto].
    destruct (Z.ltb_spec a 0); [discriminate V|]. injection V as <-. apply zint_rem; auto.
  - destruct (eqb (a <? 0) (b <? 0)) eqn:E; [|discriminate V]. injection V as <-. rewrite zint_or_same by auto. reflexivity.
  - destruct ((a <? 0) && (b <? 0)) eqn:E; [discriminate V|]. injection V as <-. rewrite zint_and_not; [reflexivity|].
    intros [X Y]. apply Z.ltb_lt in X, Y. rewrite X, Y in E. discriminate E.
Qed.
