(** Proofs about the heap model of [Float]. *)
From Coq Require Import ZArith List Lia Bool.
From Verif Require Import Words WordsFacts Spec NatModel NatFacts NatFacts2 NatFacts3 Float SpecFloat Alias SpecAlias AliasFacts AliasInt AliasIntFacts AliasFloat SpecAliasFloat.
Import ListNotations.
Open Scope Z_scope.

(* ------------------------------------------------------------------ *)
(** * One routine, both mantissas one cell *)

Lemma set_mant_same x : set_mant x (flmant x) = x. Proof. destruct x; reflexivity. Qed.
Lemma default_prec_fields x y : flform (default_prec x y) = flform x /\ flneg (default_prec x y) = flneg x /\ flexp (default_prec x y) = flexp x /\ flmant (default_prec x y) = flmant x /\ flmode (default_prec x y) = flmode x.
Proof. unfold default_prec. destruct (flprec x =? 0); auto 10. Qed.

Lemma uadd_alias_eq x y : canon (flmant x) -> flmant y = flmant x -> flexp x <= flexp y -> uadd_alias x y = uadd x y.
Proof.
  intros C M E. unfold uadd_alias, uadd. rewrite M. destruct (Z.ltb_spec (flexp x - mbits (flmant x)) (flexp y - mbits (flmant x))) as [|G]; [reflexivity|].
  destruct (Z.ltb_spec (flexp y - mbits (flmant x)) (flexp x - mbits (flmant x))) as [|_]; [lia|]. rewrite nat_alias_eq by (auto; discriminate). cbn [inner2 bind].
  rewrite nat_add_same by auto. reflexivity.
Qed.
Lemma ucmp_words_same l : ucmp_words l l = 0.
Proof. induction l as [|a l IH]; [reflexivity|]. cbn [ucmp_words]. rewrite Z.ltb_irrefl. exact IH. Qed.
Lemma ucmp_same x y : flmant y = flmant x -> flexp x <= flexp y -> (0 <? ucmp x y) = false.
Proof.
  intros M E. unfold ucmp. rewrite M. destruct (Z.ltb_spec (flexp x) (flexp y)); [reflexivity|]. destruct (Z.ltb_spec (flexp y) (flexp x)); [lia|]. rewrite ucmp_words_same. reflexivity.
Qed.
Lemma add_finite_alias_eq b x y : canon (flmant x) -> flmant y = flmant x -> flexp x <= flexp y -> add_finite_alias b x y = add_finite b x y.
Proof.
  intros C M E. unfold add_finite_alias, add_finite. rewrite uadd_alias_eq by auto. rewrite ucmp_same by auto. reflexivity.
Qed.
Lemma set_float_not_finite x y m : flform y <> Finite -> set_float x (set_mant y m) = set_float x y.
Proof. intros N. unfold set_float. cbn [set_mant flform flneg flexp flmant flprec]. destruct (flform y); try reflexivity. congruence. Qed.

Lemma f_alias_eq o x y : (flform x = Finite -> canon (flmant x)) -> flmant y = flmant x -> shared_ok o x y -> flform x <> Nan -> f_alias o x y = f_inner o x y.
Proof.
  intros C M S0 NN. destruct (default_prec_fields x y) as (D1 & D2 & D3 & D4 & D5).
  destruct o; cbn [f_alias f_inner shared_ok] in *; [| | |reflexivity].
  - destruct S0 as [S1 S2]. unfold fl_add_alias, fl_add_inner. rewrite D1, D2.
    destruct (flform x) eqn:Fx; destruct (flform y) eqn:Fy; cbn [is_finite is_infinite is_zero andb orb negb]; try reflexivity; try congruence; try (destruct (S2 eq_refl); reflexivity);
      try (apply set_float_not_finite; congruence); try (destruct (eqb (flneg x) (flneg y)); cbn [negb]; try reflexivity; apply set_float_not_finite; congruence).
    apply add_finite_alias_eq; rewrite ?D4, ?D3; auto.
  - destruct S0 as [S1 S2]. unfold fl_sub_alias, fl_sub_inner. rewrite D1, D2.
    destruct (flform x) eqn:Fx; destruct (flform y) eqn:Fy; cbn [is_finite is_infinite is_zero andb orb negb]; try reflexivity; try congruence; try (destruct (S2 eq_refl); reflexivity);
      try (apply set_float_not_finite; congruence).
    apply add_finite_alias_eq; rewrite ?D4, ?D3; auto.
  - unfold fl_mul_alias, fl_mul_inner. cbn [set_neg flform flneg]. rewrite D1, D2. destruct (flform x) eqn:Fx; destruct (flform y) eqn:Fy; try reflexivity.
    cbn [is_finite andb]. unfold umul. cbn [set_neg flmant flexp]. rewrite D4, D3, M. rewrite nat_alias_eq by (auto; discriminate). cbn [inner2]. rewrite mul_assign_canon by auto. cbn [bind]. rewrite nat_mul_same by auto. reflexivity.
Qed.

(** The deep clone does not matter. *)
Lemma same_refl a : same_float a a. Proof. right. auto. Qed.
Definition same_res (a b : res float) : Prop :=
  match a, b with Ok x, Ok y => same_float x y | Panic, Panic => True | Fuel, Fuel => True | _, _ => False end.
Lemma same_res_refl a : same_res a a. Proof. destruct a; cbn; auto using same_refl. Qed.
Lemma fl_round_not_finite x k : flform x <> Finite -> fl_round x k = Ok (set_acc x Exact).
Proof. intros N. unfold fl_round. cbn [set_acc flform]. destruct (flform x); try reflexivity. congruence. Qed.
Lemma set_float_mant x y m : flform y = Finite -> set_float (set_mant x m) y = set_float x y.
Proof. intros F. unfold set_float. cbn [set_mant flmode flprec flexp flmant]. rewrite F. reflexivity. Qed.
Lemma set_float_mant_inf x y m : flform y = Inf -> same_res (set_float (set_mant x m) y) (set_float x y).
Proof.
  intros F. unfold set_float. cbn [set_mant flmode flprec flexp flmant]. rewrite F. cbn [is_finite].
  destruct (flprec x =? 0); [right; split; [reflexivity|discriminate]|]. destruct (flprec x <? flprec y); [|right; split; [reflexivity|discriminate]].
  rewrite !fl_round_not_finite by discriminate. right. split; [reflexivity|discriminate].
Qed.
Lemma f_inner_mant o x y m : flform x <> Finite -> flform x <> Nan -> flform y <> Nan -> same_res (f_inner o (set_mant x m) y) (f_inner o x y).
Proof.
  intros NF NX NY.
  assert (DP : default_prec (set_mant x m) y = set_mant (default_prec x y) m) by (unfold default_prec; cbn [set_mant flprec]; destruct (flprec x =? 0); reflexivity).
  destruct (default_prec_fields x y) as (D1 & D2 & D3 & D4 & D5).
  destruct o; cbn [f_inner]; unfold fl_add_inner, fl_sub_inner, fl_mul_inner, fl_div_inner; rewrite DP; cbn [set_mant set_neg set_acc set_form flform flneg]; rewrite ?D1, ?D2;
    destruct (flform x) eqn:Fx; destruct (flform y) eqn:Fy; cbn [is_finite is_infinite is_zero andb orb negb]; try congruence;
    try (right; split; [reflexivity|cbn [set_mant set_neg set_acc set_form flform]; congruence]);
    try (left; split; reflexivity);
    try (rewrite set_float_mant by auto; apply same_res_refl);
    try (apply set_float_mant_inf; auto);
    try (destruct (eqb (flneg x) (flneg y)); cbn [negb]; solve [left; split; reflexivity|right; split; [reflexivity|cbn [set_mant set_neg set_acc set_form flform]; congruence]]).
Qed.
Lemma form_eq x : flform x = Finite \/ flform x <> Finite. Proof. destruct (flform x); auto; right; discriminate. Qed.
Lemma deep_sound x : sound x -> flform x = Finite -> deep x = x.
Proof. intros H F. unfold deep. rewrite trim_canon_id by (apply (H F)). apply set_mant_same. Qed.
Lemma by_value_same o x y : sound x -> flform x <> Nan -> flform y <> Nan -> same_res (fl_op2 (f_inner o) (deep x) y) (f_inner o x y).
Proof.
  intros S0 NX NY. unfold fl_op2. change (flform (deep x)) with (flform x).
  replace (is_fnan (flform x) || is_fnan (flform y)) with false by (destruct (flform x); destruct (flform y); congruence || reflexivity).
  destruct (form_eq x) as [F|F].
  - rewrite deep_sound by auto. apply same_res_refl.
  - apply f_inner_mant; auto.
Qed.

(* ------------------------------------------------------------------ *)
(** * The state *)

Record finv (s : fstate) (fs : list nat) : Prop := {
  finv_len : length (heads s) = length fs;
  finv_cell : forall x h c, nth_error (heads s) x = Some (h, c) -> (c < length (fheap s))%nat;
  finv_same : forall x y h g c, nth_error (heads s) x = Some (h, c) -> nth_error (heads s) y = Some (g, c) -> nth_error fs x = nth_error fs y }.
Lemma finv_empty : finv fempty []. Proof. split; [reflexivity| |]; intros [|x]; discriminate. Qed.

Lemma set_head_length l : forall i v, length (set_head l i v) = length l.
Proof. induction l as [|h t IH]; intros [|i] v; cbn [set_head length]; auto. Qed.
Lemma set_head_same l : forall i v, (i < length l)%nat -> nth_error (set_head l i v) i = Some v.
Proof. induction l as [|h t IH]; intros [|i] v L; cbn in *; try lia; auto. apply IH. lia. Qed.
Lemma set_head_other l : forall i j v, i <> j -> nth_error (set_head l i v) j = nth_error l j.
Proof. induction l as [|h t IH]; intros [|i] [|j] v N; cbn; auto; congruence. Qed.

Lemma head_of_some s x h : head_of s x = Ok h <-> nth_error (heads s) x = Some h.
Proof. unfold head_of. destruct (nth_error (heads s) x); split; intros [=]; subst; auto. Qed.
Lemma fread_some s x v c : fread s x = Ok (v, c) -> flook s x = Some v /\ exists h, nth_error (heads s) x = Some (h, c).
Proof.
  unfold fread, head_of, flook. destruct (nth_error (heads s) x) as [[h k]|]; cbn [bind]; [|discriminate]. destruct (nth_error (fheap s) k); [|discriminate].
  intros [= <- <-]. split; [reflexivity|]. exists h. reflexivity.
Qed.
Lemma flook_fread s x v : flook s x = Some v -> exists h c, fread s x = Ok (v, c) /\ nth_error (heads s) x = Some (h, c).
Proof.
  unfold fread, head_of, flook. destruct (nth_error (heads s) x) as [[h k]|]; cbn [bind]; [|discriminate]. destruct (nth_error (fheap s) k); [|discriminate].
  intros [= <-]. exists h, k. split; reflexivity.
Qed.

Lemma fstep_shape s c s' : fstep s c = Ok s' ->
  (exists v, s' = falloc s v /\ ftarget c = None /\ forall fs, fadd_family fs c = fs ++ [length fs]) \/
  (exists x h, c = FClone x /\ nth_error (heads s) x = Some h /\ s' = FSt (heads s ++ [h]) (fheap s)) \/
  (exists x h k v, ftarget c = Some x /\ (forall fs, fadd_family fs c = fs) /\ nth_error (heads s) x = Some (h, k) /\ (s' = fwrite s x k v \/ s' = fpoint s x v)).
Proof.
  intros H. destruct c; cbn [fstep] in H.
  - injection H as <-. left. eexists. repeat split.
  - bok H. injection H as <-. apply head_of_some in E. right; left. eauto.
  - bok H. destruct a as [a k]. injection H as <-. left. eexists. repeat split.
  - bok H. destruct a as [a k]. injection H as <-. left. eexists. repeat split.
  - bok H. destruct a as [a k]. injection H as <-. left. eexists. repeat split.
  - destruct (fread s x) as [[v k]| |] eqn:E1; cbn [bind] in H; try discriminate H. destruct (fread s y) as [[w l]| |] eqn:E2; cbn [bind] in H; try discriminate H.
    destruct (fl_op2 (f_inner o) (deep v) w) as [r| |]; cbn [bind] in H; try discriminate H. injection H as <-. left. eexists. repeat split.
  - destruct (fread s x) as [[v k]| |] eqn:E1; cbn [bind] in H; try discriminate H. destruct (fl_set_precision v p) as [r| |]; cbn [bind] in H; try discriminate H. injection H as <-.
    apply fread_some in E1. destruct E1 as (_ & h & E1). right; right. exists x, h, k, r. repeat split; auto.
  - destruct (fread s x) as [[v k]| |] eqn:E1; cbn [bind] in H; try discriminate H. injection H as <-.
    apply fread_some in E1. destruct E1 as (_ & h & E1). right; right. eexists x, h, k, _. repeat split; eauto.
  - destruct (fread s x) as [[v k]| |] eqn:E1; cbn [bind] in H; try discriminate H. destruct (fread s y) as [[w l]| |] eqn:E2; cbn [bind] in H; try discriminate H.
    destruct (if Nat.eqb k l then set_mant_exp_shared w e else set_mant_exp w e) as [r| |]; cbn [bind] in H; try discriminate H. injection H as <-.
    apply fread_some in E1. destruct E1 as (_ & h & E1). right; right. exists x, h, k, r. repeat split; auto.
  - destruct (fread s x) as [[v k]| |] eqn:E1; cbn [bind] in H; try discriminate H. destruct (fread s y) as [[w l]| |] eqn:E2; cbn [bind] in H; try discriminate H.
    apply fread_some in E1. destruct E1 as (_ & h & E1).
    destruct (is_fnan (flform v) || is_fnan (flform w)); [injection H as <-; right; right; eexists x, h, k, _; repeat split; eauto|].
    destruct (if Nat.eqb k l then f_alias o v w else f_inner o v w) as [r| |]; cbn [bind] in H; try discriminate H. injection H as <-.
    right; right. exists x, h, k, r. repeat split; auto. destruct (repoints o v w); auto.
Qed.

Lemma nth_error_snoc {A} (l : list A) a i b : nth_error (l ++ [a]) i = Some b -> (nth_error l i = Some b /\ (i < length l)%nat) \/ (i = length l /\ b = a).
Proof.
  intros H. destruct (Nat.lt_ge_cases i (length l)) as [L|L].
  - rewrite nth_error_app1 in H by auto. auto.
  - rewrite nth_error_app2 in H by auto. destruct (i - length l)%nat as [|k] eqn:K; cbn in H; [injection H as <-; right; split; [lia|auto]|destruct k; discriminate H].
Qed.
Lemma finv_falloc s fs v : finv s fs -> finv (falloc s v) (fs ++ [length fs]).
Proof.
  intros [L C S0]. split; cbn [falloc heads fheap].
  - rewrite !app_length. cbn. lia.
  - intros x h c H. rewrite app_length. cbn. apply nth_error_snoc in H. destruct H as [[H _]|[_ [= -> ->]]]; [apply C in H; lia|lia].
  - intros x y h g c X Y. apply nth_error_snoc in X, Y. destruct X as [[X LX]|[-> X]]; destruct Y as [[Y LY]|[-> Y]].
    + rewrite !nth_error_app1 by lia. eapply S0; eauto.
    + injection Y as -> ->. apply C in X. lia.
    + injection X as -> ->. apply C in Y. lia.
    + reflexivity.
Qed.
Lemma finv_clone s fs x h : finv s fs -> nth_error (heads s) x = Some h -> finv (FSt (heads s ++ [h]) (fheap s)) (fs ++ [nth x fs (length fs)]).
Proof.
  intros [L C S0] E. assert (LX : (x < length fs)%nat) by (rewrite <- L; apply nth_error_Some; congruence).
  assert (NX : nth_error fs x = Some (nth x fs (length fs))) by (apply nth_error_nth'; auto).
  split; cbn [heads fheap].
  - rewrite !app_length. cbn. lia.
  - intros y g c H. apply nth_error_snoc in H. destruct H as [[H _]|[_ <-]]; [eapply C; eauto|eapply C; eauto].
  - assert (K : forall y g c h', nth_error (heads s) y = Some (g, c) -> h = (h', c) -> nth_error fs y = Some (nth x fs (length fs))).
    { intros y g c h' Y ->. rewrite <- NX. eapply S0; eauto. }
    intros y z g g' c X Y. apply nth_error_snoc in X, Y. destruct X as [[X LX2]|[-> X]]; destruct Y as [[Y LY]|[-> Y]].
    + rewrite !nth_error_app1 by lia. eapply S0; eauto.
    + rewrite nth_error_app1 by lia. rewrite L, nth_error_app2, Nat.sub_diag by lia. cbn [nth_error]. eapply K; eauto.
    + rewrite (nth_error_app1 fs (nth x fs (length fs) :: nil) (n := z)) by lia. rewrite L, nth_error_app2, Nat.sub_diag by lia. cbn [nth_error]. symmetry. eapply K; eauto.
    + reflexivity.
Qed.
Lemma set_nth_len l : forall i v, length (set_nth l i v) = length l.
Proof. induction l as [|h t IH]; intros [|i] v; cbn [set_nth length]; auto. Qed.
Lemma finv_fwrite s fs x h k v : finv s fs -> nth_error (heads s) x = Some (h, k) -> finv (fwrite s x k v) fs.
Proof.
  intros [L C S0] E. assert (LX : (x < length (heads s))%nat) by (apply nth_error_Some; congruence).
  assert (K : forall y g c, nth_error (set_head (heads s) x (v, k)) y = Some (g, c) -> exists g', nth_error (heads s) y = Some (g', c)).
  { intros y g c H. destruct (Nat.eq_dec x y) as [<-|N]; [rewrite set_head_same in H by auto; injection H as <- <-; eauto|rewrite set_head_other in H by auto; eauto]. }
  split; cbn [fwrite heads fheap].
  - rewrite set_head_length. exact L.
  - intros y g c H. rewrite set_nth_len. apply K in H. destruct H as (g' & H). eapply C; eauto.
  - intros y z g g' c X Y. apply K in X, Y. destruct X as (a & X), Y as (b & Y). eapply S0; eauto.
Qed.
Lemma finv_fpoint s fs x v : finv s fs -> (x < length (heads s))%nat -> finv (fpoint s x v) fs.
Proof.
  intros [L C S0] LX.
  assert (K : forall y g c, nth_error (set_head (heads s) x (v, length (fheap s))) y = Some (g, c) -> (y = x /\ c = length (fheap s)) \/ (nth_error (heads s) y = Some (g, c))).
  { intros y g c H. destruct (Nat.eq_dec x y) as [<-|N]; [rewrite set_head_same in H by auto; injection H as <- <-; auto|rewrite set_head_other in H by auto; eauto]. }
  split; cbn [fpoint heads fheap].
  - rewrite set_head_length. exact L.
  - intros y g c H. rewrite app_length. cbn. apply K in H. destruct H as [[_ ->]|H]; [lia|apply C in H; lia].
  - intros y z g g' c X Y. apply K in X, Y. destruct X as [[-> X]|X]; destruct Y as [[-> Y]|Y]; auto.
    + apply C in Y. lia.
    + apply C in X. lia.
    + eapply S0; eauto.
Qed.
Lemma fstep_inv s c s' fs : finv s fs -> fstep s c = Ok s' -> finv s' (fadd_family fs c).
Proof.
  intros I H. destruct (fstep_shape _ _ _ H) as [(v & -> & T & F)|[(x & h & -> & E & ->)|(x & h & k & v & T & F & E & [->| ->])]].
  - rewrite F. apply finv_falloc. auto.
  - cbn [fadd_family]. apply finv_clone; auto.
  - rewrite F. eapply finv_fwrite; eauto.
  - rewrite F. apply finv_fpoint; auto. apply nth_error_Some. congruence.
Qed.
Lemma frun_inv cs : forall s fs s', finv s fs -> frun s cs = Ok s' -> finv s' (ffamilies fs cs).
Proof.
  induction cs as [|c cs IH]; intros s fs s' I H; cbn [frun] in H.
  - injection H as <-. exact I.
  - bok H. cbn [ffamilies fold_left]. eapply IH; eauto using fstep_inv.
Qed.
Lemma fadd_family_prefix fs c x f : nth_error fs x = Some f -> nth_error (fadd_family fs c) x = Some f.
Proof. intros H. assert (x < length fs)%nat by (apply nth_error_Some; congruence). destruct c; cbn [fadd_family]; auto; rewrite nth_error_app1; auto. Qed.
Lemma ffamilies_prefix cs : forall fs x f, nth_error fs x = Some f -> nth_error (ffamilies fs cs) x = Some f.
Proof. induction cs as [|c cs IH]; intros fs x f H; [auto|]. cbn [ffamilies fold_left]. apply IH. apply fadd_family_prefix. auto. Qed.
Lemma ffamilies_app fs cs ds : ffamilies fs (cs ++ ds) = ffamilies (ffamilies fs cs) ds.
Proof. apply fold_left_app. Qed.
Lemma flook_dom s fs x a : finv s fs -> flook s x = Some a -> (x < length fs)%nat.
Proof. intros I H. rewrite <- (finv_len _ _ I). apply nth_error_Some. unfold flook in H. destruct (nth_error (heads s) x); congruence. Qed.

Lemma falloc_look s fs v : finv s fs -> flook (falloc s v) (length fs) = Some v.
Proof.
  intros I. unfold flook, falloc. cbn [heads fheap]. rewrite <- (finv_len _ _ I), nth_error_app2, Nat.sub_diag by lia. cbn [nth_error].
  rewrite nth_error_app2, Nat.sub_diag by lia. cbn [nth_error]. rewrite set_mant_same. reflexivity.
Qed.
Lemma falloc_old s x v a : flook s x = Some a -> flook (falloc s v) x = Some a.
Proof.
  unfold flook, falloc. cbn [heads fheap]. destruct (nth_error (heads s) x) as [[h c]|] eqn:E; [|discriminate]. rewrite nth_error_app1 by (apply nth_error_Some; congruence). rewrite E.
  destruct (nth_error (fheap s) c) as [m|] eqn:M; [|discriminate]. rewrite nth_error_app1 by (apply nth_error_Some; congruence). rewrite M. auto.
Qed.
Lemma clone_old s x h a : flook s x = Some a -> flook (FSt (heads s ++ [h]) (fheap s)) x = Some a.
Proof.
  unfold flook. cbn [heads fheap]. destruct (nth_error (heads s) x) as [[g c]|] eqn:E; [|discriminate]. rewrite nth_error_app1 by (apply nth_error_Some; congruence). rewrite E. auto.
Qed.
Lemma fwrite_look s fs x h k v : finv s fs -> nth_error (heads s) x = Some (h, k) -> flook (fwrite s x k v) x = Some v.
Proof.
  intros I E. unfold flook, fwrite. cbn [heads fheap]. rewrite set_head_same by (apply nth_error_Some; congruence). rewrite set_nth_same by (eapply finv_cell; eauto). rewrite set_mant_same. reflexivity.
Qed.
Lemma fpoint_look s x h k v : nth_error (heads s) x = Some (h, k) -> flook (fpoint s x v) x = Some v.
Proof.
  intros E. unfold flook, fpoint. cbn [heads fheap]. rewrite set_head_same by (apply nth_error_Some; congruence). rewrite nth_error_app2, Nat.sub_diag by lia. cbn [nth_error]. rewrite set_mant_same. reflexivity.
Qed.
Lemma fwrite_other s fs x h k v z a : finv s fs -> nth_error (heads s) x = Some (h, k) -> z <> x -> flook s z = Some a ->
  exists a', flook (fwrite s x k v) z = Some a' /\ fields a' = fields a /\ (nth_error fs z <> nth_error fs x -> a' = a).
Proof.
  intros I E N A. unfold flook, fwrite in *. cbn [heads fheap]. rewrite set_head_other by auto. destruct (nth_error (heads s) z) as [[g c]|] eqn:E2; [|discriminate].
  destruct (nth_error (fheap s) c) as [m|] eqn:M; [|discriminate]. injection A as <-. destruct (Nat.eq_dec c k) as [->|NC].
  - rewrite set_nth_same by (eapply finv_cell; eauto). eexists. split; [reflexivity|]. split; [reflexivity|]. intros F. destruct F. eapply finv_same; eauto.
  - rewrite set_nth_other by auto. rewrite M. eexists. split; [reflexivity|]. split; [reflexivity|auto].
Qed.
Lemma fpoint_other s x v z a : z <> x -> flook s z = Some a -> flook (fpoint s x v) z = Some a.
Proof.
  intros N. unfold flook, fpoint. cbn [heads fheap]. rewrite set_head_other by auto. destruct (nth_error (heads s) z) as [[h c]|]; [|discriminate].
  destruct (nth_error (fheap s) c) as [m|] eqn:M; [|discriminate]. rewrite nth_error_app1 by (apply nth_error_Some; congruence). rewrite M. auto.
Qed.

(** One step: mantissas change only within the target's family, the other
    fields only at the target. *)
Lemma fstep_frame s c s' fs x a : finv s fs -> fstep s c = Ok s' -> flook s x = Some a ->
  exists a', flook s' x = Some a' /\
    ((forall t, ftarget c = Some t -> nth_error fs t <> nth_error fs x) -> a' = a) /\
    ((forall t, ftarget c = Some t -> t <> x) -> fields a' = fields a).
Proof.
  intros I H A. destruct (fstep_shape _ _ _ H) as [(v & -> & T & F)|[(y & h & -> & E & ->)|(y & h & k & v & T & F & E & K)]].
  - exists a. split; [apply falloc_old; auto|auto].
  - exists a. split; [apply clone_old; auto|auto].
  - destruct (Nat.eq_dec x y) as [->|N].
    + exists v. split; [destruct K as [->| ->]; [eapply fwrite_look; eauto|eapply fpoint_look; eauto]|]. split; intros Q; destruct (Q y T); reflexivity.
    + destruct K as [->| ->].
      * destruct (fwrite_other s fs y h k v x a I E N A) as (a' & A' & P & Q). exists a'. split; [auto|]. split; [|auto]. intros G. apply Q. intros G2. apply (G y T). auto.
      * exists a. split; [apply fpoint_other; auto|auto].
Qed.
Lemma frun_frame ds : forall s s' fs x a, finv s fs -> frun s ds = Ok s' -> flook s x = Some a ->
  exists a', flook s' x = Some a' /\
    ((forall c t, In c ds -> ftarget c = Some t -> nth_error (ffamilies fs ds) t <> nth_error (ffamilies fs ds) x) -> a' = a) /\
    ((forall c t, In c ds -> ftarget c = Some t -> t <> x) -> fields a' = fields a).
Proof.
  induction ds as [|c ds IH]; intros s s' fs x a I H A; cbn [frun] in H.
  - injection H as <-. exists a. auto.
  - bok H. rename a0 into s1. pose proof (fstep_inv _ _ _ _ I E) as I'. destruct (fstep_frame _ _ _ _ _ _ I E A) as (a1 & A1 & P1 & Q1).
    destruct (IH s1 s' _ x a1 I' H A1) as (a2 & A2 & P2 & Q2). exists a2. split; [auto|]. cbn [ffamilies fold_left]. fold (ffamilies (fadd_family fs c) ds). split.
    + intros T. rewrite P2 by (intros c0 t Hc; apply T; right; auto). apply P1. intros t Ht Eq. apply (T c t (or_introl eq_refl) Ht).
      pose proof (flook_dom _ _ _ _ I A) as Lx. destruct (nth_error fs x) as [f|] eqn:Fx; [|apply nth_error_None in Fx; lia].
      rewrite (ffamilies_prefix _ _ _ f) by (apply fadd_family_prefix; auto). rewrite (ffamilies_prefix _ _ _ f) by (apply fadd_family_prefix; auto). reflexivity.
    + intros T. rewrite Q2 by (intros c0 t Hc; apply T; right; auto). apply Q1. intros t Ht. apply (T c t (or_introl eq_refl) Ht).
Qed.

(** By value and in place. *)
Lemma fassign s fs o x y a b : finv s fs -> flook s x = Some a -> flook s y = Some b -> flform a <> Nan -> flform b <> Nan -> sound a ->
  nth_error fs x <> nth_error fs y \/ shared_ok o a b ->
  match fstep s (FBin o x y), fstep s (FAssign o x y) with
  | Ok s1, Ok s2 => exists r1 r2, flook s1 (length fs) = Some r1 /\ flook s2 x = Some r2 /\ same_float r1 r2
  | Panic, Panic => True
  | Fuel, Fuel => True
  | _, _ => False
  end.
Proof.
  intros I A B NA NB SA D. destruct (flook_fread s x a A) as (h & k & E1 & E2). destruct (flook_fread s y b B) as (g & l & F1 & F2).
  cbn [fstep]. rewrite E1. cbn [bind]. rewrite F1. cbn [bind].
  replace (is_fnan (flform a) || is_fnan (flform b)) with false by (destruct (flform a); destruct (flform b); congruence || reflexivity).
  assert (Q : (if Nat.eqb k l then f_alias o a b else f_inner o a b) = f_inner o a b).
  { destruct (Nat.eqb_spec k l) as [<-|]; [|reflexivity]. destruct D as [D|D]; [destruct D; eapply finv_same; eauto|].
    apply f_alias_eq; auto; [intros F; apply (SA F)|]. unfold flook in A, B. rewrite E2 in A. rewrite F2 in B. destruct (nth_error (fheap s) k) as [m|]; [|discriminate].
    injection A as <-. injection B as <-. reflexivity. }
  rewrite Q. pose proof (by_value_same o a b SA NA NB) as V. destruct (fl_op2 (f_inner o) (deep a) b) as [r1| |]; destruct (f_inner o a b) as [r2| |]; cbn [same_res bind] in *; auto.
  exists r1, r2. split; [apply falloc_look; auto|]. split; [|auto]. destruct (repoints o a b); [eapply fpoint_look; eauto|eapply fwrite_look; eauto].
Qed.
