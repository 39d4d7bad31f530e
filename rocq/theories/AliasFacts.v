(** Proofs about the heap model. *)
From Coq Require Import ZArith List Lia Bool.
From Verif Require Import Words WordsFacts Spec NatModel NatFacts NatFacts2 NatFacts3 NatFacts4 NatFacts5
  Alias SpecAlias.
Import ListNotations.
Open Scope Z_scope.

(* ------------------------------------------------------------------ *)
(** * Inner routines on one cell *)

Lemma add_alias_eq a : forall c, add_alias c a = add_loop c a a.
Proof.
  induction a as [|x a IH]; intros c; [reflexivity|].
  cbn [add_alias add_loop]. destruct (adc c x x). rewrite IH. reflexivity.
Qed.

Lemma sub_alias_zip ge a : forall c, sub_alias_loop ge c a = fst (sub_zip ge c a a).
Proof.
  induction a as [|x a IH]; intros c; [reflexivity|].
  cbn [sub_alias_loop sub_zip].
  assert (E : (if ge then sbb c x x else sbb c x x) = sbb c x x) by (destruct ge; auto).
  rewrite E. destruct (sbb c x x) as [c' s]. rewrite IH. destruct (sub_zip ge c' a a); reflexivity.
Qed.

Lemma sub_alias_eq a : sub_alias a = sub_inner a a.
Proof.
  unfold sub_alias, sub_inner, sub_inner_with_sign. rewrite sub_alias_zip.
  assert (E : (if nat_ge a a then a else resize a (length a) 0) = a).
  { destruct (nat_ge a a); auto. unfold resize. rewrite firstn_all, Nat.sub_diag. apply app_nil_r. }
  rewrite E. destruct (sub_zip (nat_ge a a) 0 a a) as [lo c]. cbn [fst].
  rewrite skipn_all. destruct (nat_ge a a && (c >? 0)); cbn [sub_tail]; rewrite app_nil_r; reflexivity.
Qed.

Lemma zip_with_same f a : zip_with f a a = map (fun x => f x x) a.
Proof. induction a as [|x a IH]; [reflexivity|]. cbn [zip_with map]. rewrite IH. reflexivity. Qed.

Lemma bits_alias_eq a :
  and_alias a = bitand_inner a a /\ or_alias a = bitor_inner a a /\ xor_alias a = bitxor_inner a a.
Proof.
  unfold and_alias, or_alias, xor_alias, bitand_inner, bitor_inner, bitxor_inner.
  rewrite !zip_with_same, skipn_all, !app_nil_r, map_length. auto.
Qed.

Lemma mul_alias_eq a : mul_alias a = mul_inner a a.
Proof.
  unfold mul_alias, mul_inner, mul_with. rewrite orb_diag.
  destruct (nat_eq_u32 a 0); auto. destruct (nat_eq_u32 a 1); auto.
Qed.

Lemma div_alias_eq a : canon a -> div_alias a = div_inner a a.
Proof.
  intros Ha. pose proof (canon_nonneg a Ha).
  unfold div_alias. rewrite nat_eq_u32_spec by (auto; lia).
  destruct (Z.eqb_spec (nval a) 0).
  - rewrite div_inner_zero; auto.
  - rewrite div_inner_of_Z by (auto; lia). rewrite Z.div_same by lia. reflexivity.
Qed.

(** [a *= b] has room unless [a] has leading zero words. *)
Lemma mul_room_trimmed a b : trim a = a -> a <> [] -> b <> [] -> mul_room a b = true.
Proof.
  intros T A B. unfold mul_room. rewrite T. unfold min_max, pad4.
  assert (LA : (length a <> 0)%nat) by (destruct a; [congruence|discriminate]). assert (LB : (length b <> 0)%nat) by (destruct b; [congruence|discriminate]).
  destruct (nat_lt a b); apply Nat.leb_le; rewrite app_length; lia.
Qed.
Lemma mul_assign_trimmed a b : trim a = a -> a <> [] -> b <> [] -> mul_assign_inner a b = Ok (mul_inner a b).
Proof. intros T A B. unfold mul_assign_inner. rewrite mul_room_trimmed, orb_true_r by auto. reflexivity. Qed.
Lemma mul_assign_canon a b : canon a -> canon b -> mul_assign_inner a b = Ok (mul_inner a b).
Proof. intros A B. apply mul_assign_trimmed; [apply trim_canon_id; auto|apply A|apply B]. Qed.
Lemma nat_mul_assign_canon a b : canon a -> canon b -> nat_mul_assign a b = Ok (nat_mul a b).
Proof.
  intros A B. unfold nat_mul_assign, nat_mul, op2r, op2. destruct (is_nan a || is_nan b); [reflexivity|]. apply mul_assign_canon; auto.
Qed.

Lemma alias2_eq fuel o a : canon a -> o <> ORem -> alias2 fuel o a = inner2 o a a.
Proof.
  intros Ha Ho. destruct o; cbn [alias2 inner2].
  - unfold add_inner. rewrite add_alias_eq. reflexivity.
  - rewrite sub_alias_eq. reflexivity.
  - rewrite mul_alias_eq, mul_assign_canon by auto. reflexivity.
  - apply div_alias_eq; auto.
  - congruence.
  - destruct (bits_alias_eq a) as (-> & _ & _). reflexivity.
  - destruct (bits_alias_eq a) as (_ & -> & _). reflexivity.
  - destruct (bits_alias_eq a) as (_ & _ & ->). reflexivity.
Qed.

(** [a %= a.clone()]: never a result. *)
Lemma rem_alias_zero_loop fuel : rem_alias_loop fuel [0] 1 = Fuel.
Proof. induction fuel as [|f IH]; [reflexivity|]. exact IH. Qed.

Lemma rem_alias_bad fuel a : canon a ->
  rem_alias fuel a = if (nval a =? 1) || (fuel <=? 1)%nat && negb (nval a =? 0) then Fuel else Panic.
Proof.
  intros Ha. pose proof (canon_nonneg a Ha). unfold rem_alias. rewrite nat_eq_u32_spec by (auto; lia).
  destruct (Z.eqb_spec (nval a) 0) as [E0|E0].
  { rewrite E0, andb_false_r. reflexivity. }
  rewrite cmp_inner_spec, Z.compare_refl by auto.
  destruct fuel as [|f].
  { cbn [rem_alias_loop]. rewrite cmp_inner_spec, Z.compare_refl by auto.
    cbn [bind]. destruct (nval a =? 1); reflexivity. }
  cbn [rem_alias_loop]. rewrite cmp_inner_spec, Z.compare_refl by auto.
  rewrite Z.sub_diag. change (0 <? 0) with false. cbv iota.
  assert (S0 : shl_inner a 0 = a).
  { rewrite shl_inner_of_Z by (auto; lia). rewrite Z.mul_1_r. apply of_Z_nval; auto. }
  rewrite S0, cmp_inner_spec, Z.compare_refl by auto.
  rewrite sub_inner_of_Z, Z.sub_diag by auto. change (of_Z (Z.abs 0)) with [0].
  destruct (Z.eqb_spec (nval a) 1) as [E1|E1].
  - assert (B : bits_len a = 1) by (rewrite bits_len_spec, E1 by auto; reflexivity).
    rewrite B, rem_alias_zero_loop. reflexivity.
  - assert (B : 1 < bits_len a).
    { rewrite bits_len_spec by auto. destruct (Z.eqb_spec (nval a) 0); [lia|].
      assert (1 <= Z.log2 (nval a)); [|lia].
      change 1 with (Z.log2 2). apply Z.log2_le_mono. lia. }
    destruct f as [|f]; [reflexivity|].
    cbn [rem_alias_loop]. change (cmp_inner [0] [0]) with Eq. cbv iota.
    change (bits_len [0]) with 1. destruct (Z.ltb_spec (1 - bits_len a) 0); [|lia]. reflexivity.
Qed.

(* ------------------------------------------------------------------ *)
(** * Families and cells *)

Lemma set_nth_length h : forall i v, length (set_nth h i v) = length h.
Proof. induction h as [|x h IH]; intros [|i] v; cbn; auto. Qed.
Lemma set_nth_same h : forall i v, (i < length h)%nat -> nth_error (set_nth h i v) i = Some v.
Proof. induction h as [|x h IH]; intros [|i] v H; cbn in *; try lia; auto. apply IH; lia. Qed.
Lemma set_nth_other h : forall i j v, i <> j -> nth_error (set_nth h i v) j = nth_error h j.
Proof. induction h as [|x h IH]; intros [|i] [|j] v H; cbn; auto; try congruence. Qed.

Lemma nth_snoc {A} (l : list A) x i :
  nth_error (l ++ [x]) i = if Nat.eqb i (length l) then Some x else nth_error l i.
Proof.
  destruct (Nat.eqb_spec i (length l)) as [->|H].
  - rewrite nth_error_app2, Nat.sub_diag by lia. reflexivity.
  - destruct (Nat.lt_ge_cases i (length l)).
    + apply nth_error_app1; auto.
    + rewrite nth_error_app2 by lia. rewrite (proj2 (nth_error_None l i)) by lia.
      apply nth_error_None. cbn. lia.
Qed.

(** Every variable has a cell of the heap, and two variables have the same
    cell exactly when they are of one family. *)
Record inv (s : state) (fs : list nat) : Prop := Inv {
  inv_len : length (env s) = length fs;
  inv_cell : forall x c, nth_error (env s) x = Some c -> (c < length (heap s))%nat;
  inv_fam : forall x f, nth_error fs x = Some f -> (f < length fs)%nat;
  inv_same : forall x y c d f g, nth_error (env s) x = Some c -> nth_error (env s) y = Some d ->
     nth_error fs x = Some f -> nth_error fs y = Some g -> (c = d <-> f = g) }.

Lemma inv_empty : inv empty_state [].
Proof. split; cbn; auto; intros [|x]; discriminate. Qed.

Lemma inv_alloc s fs v : inv s fs -> inv (alloc s v) (fs ++ [length fs]).
Proof.
  intros [L C F S]. split; cbn [alloc env heap].
  - rewrite !app_length. cbn. lia.
  - intros x c. rewrite nth_snoc, app_length. cbn [length].
    destruct (Nat.eqb x (length (env s))); [intros [= <-]; lia|].
    intros H. apply C in H. lia.
  - intros x f. rewrite nth_snoc, app_length. cbn [length].
    destruct (Nat.eqb x (length fs)); [intros [= <-]; lia|]. intros H. apply F in H. lia.
  - intros x y c d f g. rewrite !nth_snoc, L.
    destruct (Nat.eqb x (length fs)), (Nat.eqb y (length fs)).
    + intros [= <-] [= <-] [= <-] [= <-]. tauto.
    + intros [= <-] Hy [= <-] Gy. apply C in Hy. apply F in Gy. lia.
    + intros Hx [= <-] Gx [= <-]. apply C in Hx. apply F in Gx. lia.
    + apply S.
Qed.

Lemma inv_clone s fs x c : inv s fs -> nth_error (env s) x = Some c ->
  inv (St (env s ++ [c]) (heap s)) (fs ++ [nth x fs (length fs)]).
Proof.
  intros [L C F S] Hx.
  assert (Lx : (x < length fs)%nat) by (rewrite <- L; apply nth_error_Some; congruence).
  assert (Fx : nth_error fs x = Some (nth x fs (length fs))) by (apply nth_error_nth'; auto).
  split; cbn [env heap].
  - rewrite !app_length. cbn. lia.
  - intros y d. rewrite nth_snoc. destruct (Nat.eqb y _); [intros [= <-]; eapply C; eauto|apply C].
  - intros y f. rewrite nth_snoc, app_length. cbn [length].
    destruct (Nat.eqb y _); [intros [= <-]|]; [apply F in Fx; lia|]. intros H. apply F in H. lia.
  - intros y z a b f g. rewrite !nth_snoc, L.
    destruct (Nat.eqb y (length fs)), (Nat.eqb z (length fs)); intros Hy Hz Gy Gz;
      repeat match goal with H : Some _ = Some _ |- _ => injection H as <- end;
      eauto using S; tauto.
Qed.

Lemma inv_set s fs c v : inv s fs -> inv (St (env s) (set_nth (heap s) c v)) fs.
Proof.
  intros [L C F S]. split; cbn [env heap]; auto.
  intros x d H. rewrite set_nth_length. eauto.
Qed.

Ltac bok H :=
  repeat match type of H with
  | bind ?e _ = Ok _ => let E := fresh "E" in destruct e eqn:E; cbn [bind] in H; try discriminate H
  | (if ?b then _ else _) = Ok _ => let E := fresh "E" in destruct b eqn:E
  end.

Lemma cell_of_some s x c : cell_of s x = Ok c <-> nth_error (env s) x = Some c.
Proof. unfold cell_of. destruct (nth_error (env s) x); split; intros [=]; subst; auto. Qed.
Lemma rd_cell_some s x c : rd_cell s x = Ok c <-> nth_error (heap s) x = Some c.
Proof. unfold rd_cell. destruct (nth_error (heap s) x); split; intros [=]; subst; auto. Qed.

(** Shape of one step: a fresh cell, a clone, or a write through the target. *)
Lemma step_shape fuel s c s' : step fuel s c = Ok s' ->
  (exists v, s' = alloc s v /\ creates c = true /\ forall x, c <> CClone x) \/
  (exists x k, c = CClone x /\ nth_error (env s) x = Some k /\ s' = St (env s ++ [k]) (heap s)) \/
  (exists x k v, target c = Some x /\ creates c = false /\ nth_error (env s) x = Some k /\
     s' = St (env s) (set_nth (heap s) k v)).
Proof.
  intros H. destruct c; cbn [step] in H; bok H; injection H as <-;
    repeat match goal with H : cell_of _ _ = Ok _ |- _ => apply cell_of_some in H end;
    solve [ left; eexists; split; [reflexivity|split; [reflexivity|discriminate]]
          | right; left; do 2 eexists; eauto
          | right; right; do 3 eexists; split; [reflexivity|split; [reflexivity|split; eauto]] ].
Qed.

Lemma add_family_fresh fs c : creates c = true -> (forall x, c <> CClone x) -> add_family fs c = fs ++ [length fs].
Proof. destruct c; cbn; intros H1 H2; try discriminate; auto. exfalso. eapply H2. reflexivity. Qed.
Lemma add_family_assign fs c : creates c = false -> add_family fs c = fs.
Proof. destruct c; cbn; intros H; try discriminate; auto. Qed.

Lemma step_inv fuel s c s' fs : inv s fs -> step fuel s c = Ok s' -> inv s' (add_family fs c).
Proof.
  intros I H. destruct (step_shape _ _ _ _ H) as [(v & -> & N1 & N2)|[(x & k & -> & E & ->)|(x & k & v & T & N & E & ->)]].
  - rewrite add_family_fresh by auto. apply inv_alloc; auto.
  - apply inv_clone; auto.
  - rewrite add_family_assign by auto. apply inv_set; auto.
Qed.

Lemma run_inv fuel cs : forall s fs s', inv s fs -> run fuel s cs = Ok s' -> inv s' (families fs cs).
Proof.
  induction cs as [|c cs IH]; intros s fs s' I H; cbn [run] in H.
  - injection H as <-. exact I.
  - bok H. cbn [families fold_left]. eapply IH; eauto using step_inv.
Qed.

Lemma run_app fuel cs : forall ds s, run fuel s (cs ++ ds) = do s' <- run fuel s cs; run fuel s' ds.
Proof.
  induction cs as [|c cs IH]; intros ds s; [reflexivity|].
  cbn [app run]. destruct (step fuel s c); cbn [bind]; auto.
Qed.

Lemma families_app fs cs ds : families fs (cs ++ ds) = families (families fs cs) ds.
Proof. apply fold_left_app. Qed.

Lemma add_family_prefix fs c x f : nth_error fs x = Some f -> nth_error (add_family fs c) x = Some f.
Proof.
  intros H. assert (x < length fs)%nat by (apply nth_error_Some; congruence).
  destruct c; cbn [add_family]; auto; rewrite nth_error_app1; auto.
Qed.
Lemma families_prefix cs : forall fs x f, nth_error fs x = Some f -> nth_error (families fs cs) x = Some f.
Proof.
  induction cs as [|c cs IH]; intros fs x f H; [exact H|].
  cbn [families fold_left]. apply IH. apply add_family_prefix; auto.
Qed.

(** Handles of one family show the same vector. *)
Lemma same_family_same_look fuel cs s x y f : run fuel empty_state cs = Ok s ->
  family cs x = Some f -> family cs y = Some f -> look s x = look s y /\ look s x <> None.
Proof.
  intros H Fx Fy. pose proof (run_inv _ _ _ _ _ inv_empty H) as I. unfold family in *.
  assert (X : exists c, nth_error (env s) x = Some c).
  { destruct (nth_error (env s) x) eqn:E; eauto. apply nth_error_None in E. rewrite (inv_len _ _ I) in E.
    apply nth_error_None in E. congruence. }
  assert (Y : exists c, nth_error (env s) y = Some c).
  { destruct (nth_error (env s) y) eqn:E; eauto. apply nth_error_None in E. rewrite (inv_len _ _ I) in E.
    apply nth_error_None in E. congruence. }
  destruct X as [c X], Y as [d Y].
  assert (c = d) by (eapply (inv_same _ _ I); eauto). subst d.
  unfold look. rewrite X, Y. split; auto.
  apply nth_error_Some. eapply inv_cell; eauto.
Qed.

(** A step leaves every variable alone that is not in the family it assigns to. *)
Lemma step_frame fuel s c s' fs x : inv s fs -> step fuel s c = Ok s' -> (x < length fs)%nat ->
  (forall t, target c = Some t -> nth_error fs t <> nth_error fs x) -> look s' x = look s x.
Proof.
  intros I H Lx T.
  assert (EX : exists k, nth_error (env s) x = Some k).
  { destruct (nth_error (env s) x) eqn:E; eauto. apply nth_error_None in E. rewrite (inv_len _ _ I) in E. lia. }
  destruct EX as [kx EX]. pose proof (inv_cell _ _ I _ _ EX) as Ck.
  destruct (step_shape _ _ _ _ H) as [(v & -> & N1 & N2)|[(y & k & -> & E & ->)|(y & k & v & T' & N & E & ->)]];
    unfold look; cbn [alloc env heap].
  - rewrite nth_error_app1 by (rewrite (inv_len _ _ I); auto). rewrite EX.
    rewrite nth_error_app1 by auto. reflexivity.
  - rewrite nth_error_app1 by (rewrite (inv_len _ _ I); auto). reflexivity.
  - rewrite EX. apply set_nth_other. intros <-.
    apply (T y T').
    destruct (nth_error fs y) as [f|] eqn:Fy.
    2:{ apply nth_error_None in Fy. assert (y < length (env s))%nat by (apply nth_error_Some; congruence).
        rewrite (inv_len _ _ I) in H0. lia. }
    destruct (nth_error fs x) as [g|] eqn:Fx.
    2:{ apply nth_error_None in Fx. lia. }
    f_equal. apply (inv_same _ _ I y x k k f g); auto.
Qed.

Lemma add_family_length fs c : (length fs <= length (add_family fs c))%nat.
Proof. destruct c; cbn [add_family]; rewrite ?app_length; lia. Qed.

Lemma run_frame fuel ds : forall s s' fs x, inv s fs -> run fuel s ds = Ok s' -> (x < length fs)%nat ->
  (forall c t, In c ds -> target c = Some t -> nth_error (families fs ds) t <> nth_error (families fs ds) x) ->
  look s' x = look s x.
Proof.
  induction ds as [|c ds IH]; intros s s' fs x I H Lx T; cbn [run] in H.
  - injection H as <-. reflexivity.
  - bok H. pose proof (step_inv _ _ _ _ _ I E) as I'.
    cbn [families fold_left] in T. fold (families (add_family fs c) ds) in T.
    pose proof (add_family_length fs c).
    transitivity (look a x).
    + eapply IH; eauto; [lia|]. intros c0 t Hc. apply T. right; auto.
    + eapply step_frame; eauto. intros t Ht Eq.
      apply (T c t (or_introl eq_refl) Ht).
      destruct (nth_error fs x) as [f|] eqn:Fx; [|apply nth_error_None in Fx; lia].
      rewrite (families_prefix _ _ _ f) by (apply add_family_prefix; auto).
      rewrite (families_prefix _ _ _ f) by (apply add_family_prefix; auto). reflexivity.
Qed.

Lemma isolation fuel cs ds s s' x : run fuel empty_state cs = Ok s -> run fuel s ds = Ok s' ->
  look s x <> None ->
  (forall c t, In c ds -> target c = Some t -> family (cs ++ ds) t <> family (cs ++ ds) x) ->
  look s' x = look s x.
Proof.
  intros H H' Lx T. pose proof (run_inv _ _ _ _ _ inv_empty H) as I.
  eapply run_frame; eauto.
  - rewrite <- (inv_len _ _ I). unfold look in Lx. apply nth_error_Some. destruct (nth_error (env s) x); congruence.
  - intros c t Hc Ht. specialize (T c t Hc Ht). unfold family in T. rewrite !families_app in T. exact T.
Qed.

(* ------------------------------------------------------------------ *)
(** * Refinement of the heap-free specification *)

Definition zv (l : list Z) : option Z := match l with [] => None | _ => Some (nval l) end.

Lemma zv_canon l : canon l -> zv l = Some (nval l).
Proof. destruct l; [intros (_ & H & _); congruence|reflexivity]. Qed.
Lemma zv_of_Z n : 0 <= n -> zv (of_Z n) = Some n.
Proof. intros. rewrite zv_canon by (apply of_Z_canon; auto). rewrite of_Z_val; auto. Qed.
Lemma is_nan_zv l : is_nan l = match zv l with None => true | _ => false end.
Proof. destruct l; reflexivity. Qed.

(** outcome of an inner routine against its integer meaning *)
Definition agrees (r : res (list Z)) (z : option Z) : Prop :=
  match r, z with
  | Ok l, Some n => canon l /\ nval l = n
  | Panic, None => True
  | _, _ => False
  end.

Lemma agrees_of_Z n : 0 <= n -> agrees (Ok (of_Z n)) (Some n).
Proof. intros H. split; [apply of_Z_canon|apply of_Z_val]; auto. Qed.

Lemma inner2_agrees o a b : canon a -> canon b -> agrees (inner2 o a b) (zop o (nval a) (nval b)).
Proof.
  intros Ha Hb. pose proof (canon_nonneg a Ha). pose proof (canon_nonneg b Hb).
  destruct o; cbn [inner2 zop].
  - rewrite add_inner_of_Z by auto. apply agrees_of_Z; lia.
  - rewrite sub_inner_of_Z by auto. apply agrees_of_Z; lia.
  - rewrite mul_assign_canon, mul_inner_of_Z by auto. apply agrees_of_Z; nia.
  - destruct (Z.eqb_spec (nval b) 0).
    + rewrite div_inner_zero by auto. exact I.
    + rewrite div_inner_of_Z by (auto; lia). apply agrees_of_Z. apply Z.div_pos; lia.
  - destruct (Z.eqb_spec (nval b) 0).
    + rewrite rem_inner_zero by auto. exact I.
    + rewrite rem_inner_of_Z by (auto; lia). apply agrees_of_Z. apply Z.mod_pos_bound; lia.
  - rewrite bitand_of_Z by auto. apply agrees_of_Z. apply Z.land_nonneg; auto.
  - rewrite bitor_of_Z by auto. apply agrees_of_Z. apply Z.lor_nonneg; auto.
  - rewrite bitxor_of_Z by auto. apply agrees_of_Z. apply Z.lxor_nonneg. tauto.
Qed.

Lemma innerw_agrees o a w : canon a -> match o with WAdd | WDiv | WRem => 0 <= w < 2 ^ 32 | _ => False end ->
  agrees (innerw o a w) (zopw o (nval a) w).
Proof.
  intros Ha Hw. pose proof (canon_nonneg a Ha).
  destruct o; cbn [innerw zopw]; try contradiction; change (2 ^ 32) with W in Hw.
  - rewrite add_basic_of_Z by auto. apply agrees_of_Z; lia.
  - destruct (Z.eqb_spec w 0).
    + subst w. exact I.
    + rewrite div_basic_of_Z by (auto; lia). apply agrees_of_Z. apply Z.div_pos; lia.
  - destruct (Z.eqb_spec w 0).
    + subst w. exact I.
    + rewrite rem_basic_of_Z by (auto; lia). apply agrees_of_Z. apply Z.mod_pos_bound; lia.
Qed.

(** The heap state [s] shows the spec state [ss]. *)
Record sim (s : state) (ss : sstate) : Prop := Sim {
  sim_inv : inv s (map fst ss);
  sim_val : forall c l, nth_error (heap s) c = Some l -> l = [] \/ canon l;
  sim_look : forall x c, nth_error (env s) x = Some c ->
     exists l f, nth_error (heap s) c = Some l /\ nth_error ss x = Some (f, zv l) }.

Lemma sim_empty : sim empty_state [].
Proof.
  split; [exact inv_empty| |]; cbn.
  - intros [|c] l; discriminate.
  - intros [|x] c; discriminate.
Qed.

Lemma sim_get s ss x : sim s ss ->
  match nth_error ss x with
  | Some (f, v) => exists c l, cell_of s x = Ok c /\ rd_cell s c = Ok l /\ zv l = v /\ (l = [] \/ canon l)
  | None => cell_of s x = Panic
  end.
Proof.
  intros [I V L]. pose proof (inv_len _ _ I) as Len. rewrite map_length in Len.
  unfold cell_of, rd_cell. destruct (nth_error (env s) x) as [c|] eqn:E.
  - destruct (L x c E) as (l & f & H1 & H2). rewrite H2. exists c, l. rewrite H1.
    split; auto. split; auto. split; auto. eapply V; eauto.
  - apply nth_error_None in E. rewrite (proj2 (nth_error_None ss x)) by lia. reflexivity.
Qed.

Lemma sim_alloc s ss v : sim s ss -> (v = [] \/ canon v) -> sim (alloc s v) (ss ++ [(length ss, zv v)]).
Proof.
  intros [I V L] Hv. pose proof (inv_len _ _ I) as Len. rewrite map_length in Len. split.
  - rewrite map_app. cbn [map fst]. rewrite <- (map_length fst ss). apply inv_alloc; auto.
  - intros c l. cbn [alloc heap]. rewrite nth_snoc. destruct (Nat.eqb c _); [intros [= <-]; auto|apply V].
  - intros x c. cbn [alloc env heap]. rewrite !nth_snoc, Len.
    destruct (Nat.eqb_spec x (length ss)).
    + intros [= <-]. exists v, (length ss). rewrite Nat.eqb_refl. auto.
    + intros H. destruct (L x c H) as (l & f & H1 & H2).
      assert (c < length (heap s))%nat by (apply nth_error_Some; congruence).
      destruct (Nat.eqb_spec c (length (heap s))); [lia|]. eauto.
Qed.

Lemma sim_clone s ss x c p : sim s ss -> nth_error (env s) x = Some c -> nth_error ss x = Some p ->
  sim (St (env s ++ [c]) (heap s)) (ss ++ [p]).
Proof.
  intros [I V L] Hx Hp. pose proof (inv_len _ _ I) as Len. rewrite map_length in Len. split.
  - rewrite map_app. cbn [map]. replace (fst p) with (nth x (map fst ss) (length (map fst ss))).
    + apply inv_clone; auto.
    + apply nth_error_nth. rewrite nth_error_map, Hp. reflexivity.
  - exact V.
  - intros y d. cbn [env heap]. rewrite !nth_snoc, Len. destruct (Nat.eqb y (length ss)).
    + intros [= <-]. destruct (L x c Hx) as (l & f & H1 & H2). rewrite Hp in H2. injection H2 as ->. eauto.
    + apply L.
Qed.

Lemma sim_set s ss x c v f u : sim s ss -> nth_error (env s) x = Some c -> nth_error ss x = Some (f, u) ->
  (v = [] \/ canon v) -> sim (St (env s) (set_nth (heap s) c v)) (assign ss f (zv v)).
Proof.
  intros [I V L] Hx Hp Hv. unfold assign.
  assert (M : map fst (map (fun p => if Nat.eqb (fst p) f then (fst p, zv v) else p) ss) = map fst ss).
  { rewrite map_map. apply map_ext. intros [g w]. cbn [fst]. destruct (Nat.eqb g f); reflexivity. }
  pose proof (inv_cell _ _ I _ _ Hx) as Cx.
  split.
  - rewrite M. apply inv_set; auto.
  - intros d l. cbn [heap]. destruct (Nat.eq_dec c d) as [<-|N].
    + rewrite set_nth_same by auto. intros [= <-]. auto.
    + rewrite set_nth_other by auto. apply V.
  - intros y d. cbn [env heap]. intros Hy.
    destruct (L y d Hy) as (l & g & H1 & H2).
    rewrite nth_error_map, H2. cbn [option_map fst].
    assert (FX : nth_error (map fst ss) x = Some f) by (rewrite nth_error_map, Hp; reflexivity).
    assert (FY : nth_error (map fst ss) y = Some g) by (rewrite nth_error_map, H2; reflexivity).
    pose proof (inv_same _ _ I y x d c g f Hy Hx FY FX) as Q.
    destruct (Nat.eqb_spec g f) as [->|N].
    + rewrite (proj2 Q eq_refl), set_nth_same by auto. eauto.
    + rewrite set_nth_other by (intros ->; apply N, Q; auto). eauto.
Qed.

Definition okcmd (fs : list nat) (c : cmd) : Prop := exact_cmd c /\ ~ self_rem fs c.

(** One step of the heap against one step of the specification. *)
Lemma step_sim fuel s ss c : sim s ss -> okcmd (map fst ss) c ->
  match step fuel s c, sstep ss c with
  | Ok s', Some ss' => sim s' ss' /\ map fst ss' = add_family (map fst ss) c
  | Panic, None => True
  | _, _ => False
  end.
Proof.
  intros S [EX NR]. destruct c as [l|x|x|o x y|o x w|x|o x y|o x w]; cbn [step sstep add_family].
  - (* new *)
    cbn [exact_cmd] in EX.
    assert (H : sim (alloc s (trim l)) (ss ++ [(length ss, zv (trim l))])).
    { apply sim_alloc; auto. destruct l; [left; reflexivity|right; apply trim_canon; auto; discriminate]. }
    destruct l as [|a l].
    + split; [exact H|]. rewrite map_app, map_length. reflexivity.
    + assert (zv (trim (a :: l)) = Some (nval (a :: l))).
      { rewrite zv_canon by (apply trim_canon; auto; discriminate). rewrite trim_val. reflexivity. }
      rewrite H0 in H. split; [exact H|]. rewrite map_app, map_length. reflexivity.
  - (* clone *)
    pose proof (sim_get s ss x S) as G. destruct (nth_error ss x) as [[f v]|] eqn:Ex.
    + destruct G as (c & l & G1 & G2 & _). rewrite G1. cbn [bind]. apply cell_of_some in G1.
      split; [eapply sim_clone; eauto|]. rewrite map_app. f_equal. cbn [map]. f_equal.
      symmetry. apply nth_error_nth. rewrite nth_error_map, Ex. reflexivity.
    + rewrite G. exact I.
  - (* deep clone *)
    pose proof (sim_get s ss x S) as G. destruct (nth_error ss x) as [[f v]|] eqn:Ex.
    + destruct G as (c & l & G1 & G2 & G3 & G4). rewrite G1. cbn [bind]. rewrite G2. cbn [bind snd].
      assert (T : trim l = l) by (destruct G4 as [->|C]; [reflexivity|apply trim_canon_id; auto]).
      rewrite T, <- G3. split; [apply sim_alloc; auto|]. rewrite map_app, map_length. reflexivity.
    + rewrite G. exact I.
  - (* binary *)
    pose proof (sim_get s ss x S) as G. destruct (nth_error ss x) as [[f v]|] eqn:Ex.
    2:{ rewrite G. exact I. }
    destruct G as (c & l & G1 & G2 & G3 & G4). rewrite G1. cbn [bind].
    pose proof (sim_get s ss y S) as K. destruct (nth_error ss y) as [[g u]|] eqn:Ey.
    2:{ rewrite K. exact I. }
    destruct K as (d & m & K1 & K2 & K3 & K4). rewrite K1. cbn [bind]. rewrite G2. cbn [bind].
    rewrite K2. cbn [bind snd]. rewrite !is_nan_zv, G3, K3.
    destruct v as [v|]; cbn [lift2 orb option_map].
    2:{ split; [apply sim_alloc with (v := nan); auto; left; auto|]. rewrite map_app, map_length. reflexivity. }
    destruct u as [u|]; cbn [lift2 orb option_map].
    2:{ split; [apply sim_alloc with (v := nan); auto; left; auto|]. rewrite map_app, map_length. reflexivity. }
    destruct G4 as [->|Cl]; [discriminate|]. destruct K4 as [->|Cm]; [discriminate|].
    rewrite zv_canon in G3, K3 by auto. injection G3 as <-. injection K3 as <-.
    rewrite trim_canon_id by auto.
    pose proof (inner2_agrees o l m Cl Cm) as A.
    destruct (inner2 o l m) as [r| |], (zop o (nval l) (nval m)) as [n|]; cbn [agrees] in A; try contradiction; cbn [bind option_map].
    + destruct A as [A1 <-]. rewrite <- zv_canon by auto. split; [apply sim_alloc; auto|].
      rewrite map_app, map_length. reflexivity.
    + exact I.
  - (* word operand *)
    pose proof (sim_get s ss x S) as G. destruct (nth_error ss x) as [[f v]|] eqn:Ex.
    2:{ rewrite G. exact I. }
    destruct G as (c & l & G1 & G2 & G3 & G4). rewrite G1. cbn [bind]. rewrite G2. cbn [bind snd].
    rewrite is_nan_zv, G3. destruct v as [v|]; cbn [lift1 option_map].
    2:{ split; [apply sim_alloc with (v := nan); auto; left; auto|]. rewrite map_app, map_length. reflexivity. }
    destruct G4 as [->|Cl]; [discriminate|]. rewrite zv_canon in G3 by auto. injection G3 as <-.
    rewrite trim_canon_id by auto.
    pose proof (innerw_agrees o l w Cl EX) as A.
    destruct (innerw o l w) as [r| |], (zopw o (nval l) w) as [n|]; cbn [agrees] in A; try contradiction; cbn [bind option_map].
    + destruct A as [A1 <-]. rewrite <- zv_canon by auto. split; [apply sim_alloc; auto|].
      rewrite map_app, map_length. reflexivity.
    + exact I.
  - (* not *)
    pose proof (sim_get s ss x S) as G. destruct (nth_error ss x) as [[f v]|] eqn:Ex.
    2:{ rewrite G. exact I. }
    destruct G as (c & l & G1 & G2 & G3 & G4). rewrite G1. cbn [bind]. rewrite G2. cbn [bind snd].
    destruct v as [v|]; cbn [lift1 option_map].
    + destruct G4 as [->|Cl]; [discriminate|]. rewrite zv_canon in G3 by auto. injection G3 as <-.
      destruct (nat_not_rep l Cl) as [N1 N2].
      rewrite bits_len_spec in N2 by auto. unfold zbits. rewrite <- N2, <- zv_canon by auto.
      split; [apply sim_alloc; auto|]. rewrite map_app, map_length. reflexivity.
    + destruct l; [|discriminate]. cbn [nat_not is_nan].
      split; [apply sim_alloc with (v := nan); auto; left; auto|]. rewrite map_app, map_length. reflexivity.
  - (* assign *)
    pose proof (sim_get s ss x S) as G. destruct (nth_error ss x) as [[f v]|] eqn:Ex.
    2:{ rewrite G. exact I. }
    destruct G as (c & l & G1 & G2 & G3 & G4). rewrite G1. cbn [bind].
    pose proof (sim_get s ss y S) as K. destruct (nth_error ss y) as [[g u]|] eqn:Ey.
    2:{ rewrite K. exact I. }
    destruct K as (d & m & K1 & K2 & K3 & K4). rewrite K1. cbn [bind]. rewrite G2. cbn [bind].
    rewrite K2. cbn [bind fst snd]. rewrite !is_nan_zv, G3, K3.
    assert (MF : forall a, map fst (assign ss f a) = map fst ss).
    { intros a. unfold assign. rewrite map_map. apply map_ext. intros [h w]. cbn [fst]. destruct (Nat.eqb h f); reflexivity. }
    pose proof (proj1 (cell_of_some _ _ _) G1) as Ec. pose proof (proj1 (cell_of_some _ _ _) K1) as Ed.
    destruct v as [v|]; cbn [lift2 orb option_map].
    2:{ split; [|apply MF]. eapply (sim_set s ss x c nan); eauto; left; auto. }
    destruct u as [u|]; cbn [lift2 orb option_map].
    2:{ split; [|apply MF]. eapply (sim_set s ss x c nan); eauto; left; auto. }
    destruct G4 as [->|Cl]; [discriminate|]. destruct K4 as [->|Cm]; [discriminate|].
    rewrite zv_canon in G3, K3 by auto. injection G3 as <-. injection K3 as <-.
    assert (EQ : (if Nat.eqb c d then alias2 fuel o l else inner2 o l m) = inner2 o l m).
    { destruct (Nat.eqb_spec c d) as [<-|]; auto.
      assert (m = l) by congruence. subst m. apply alias2_eq; auto. intros ->.
      apply NR. cbn [self_rem].
      assert (FX : nth_error (map fst ss) x = Some f) by (rewrite nth_error_map, Ex; reflexivity).
      assert (FY : nth_error (map fst ss) y = Some g) by (rewrite nth_error_map, Ey; reflexivity).
      rewrite FX, FY. split; [|discriminate]. f_equal.
      apply (inv_same _ _ (sim_inv _ _ S) x y c c f g); auto. }
    rewrite EQ. pose proof (inner2_agrees o l m Cl Cm) as A.
    destruct (inner2 o l m) as [r| |], (zop o (nval l) (nval m)) as [n|]; cbn [agrees] in A; try contradiction; cbn [bind option_map].
    + destruct A as [A1 <-]. rewrite <- zv_canon by auto. split; [|apply MF]. eapply sim_set; eauto.
    + exact I.
  - (* assign word *)
    pose proof (sim_get s ss x S) as G. destruct (nth_error ss x) as [[f v]|] eqn:Ex.
    2:{ rewrite G. exact I. }
    destruct G as (c & l & G1 & G2 & G3 & G4). rewrite G1. cbn [bind]. rewrite G2. cbn [bind fst snd].
    assert (MF : forall a, map fst (assign ss f a) = map fst ss).
    { intros a. unfold assign. rewrite map_map. apply map_ext. intros [h q]. cbn [fst]. destruct (Nat.eqb h f); reflexivity. }
    pose proof (proj1 (cell_of_some _ _ _) G1) as Ec.
    rewrite is_nan_zv, G3. destruct v as [v|]; cbn [lift1 option_map].
    2:{ split; [|apply MF]. eapply (sim_set s ss x c nan); eauto; left; auto. }
    destruct G4 as [->|Cl]; [discriminate|]. rewrite zv_canon in G3 by auto. injection G3 as <-.
    pose proof (innerw_agrees o l w Cl EX) as A.
    destruct (innerw o l w) as [r| |], (zopw o (nval l) w) as [n|]; cbn [agrees] in A; try contradiction; cbn [bind option_map].
    + destruct A as [A1 <-]. rewrite <- zv_canon by auto. split; [|apply MF]. eapply sim_set; eauto.
    + exact I.
Qed.

Lemma run_sim fuel cs : forall s ss, sim s ss -> Forall exact_cmd cs -> no_self_rem (map fst ss) cs ->
  match run fuel s cs, srun ss cs with
  | Ok s', Some ss' => sim s' ss'
  | Panic, None => True
  | _, _ => False
  end.
Proof.
  induction cs as [|c cs IH]; intros s ss S E N; cbn [run srun].
  - exact S.
  - inversion E as [|? ? E1 E2]; subst. destruct N as [N1 N2].
    pose proof (step_sim fuel s ss c S (conj E1 N1)) as H.
    destruct (step fuel s c) as [s'| |], (sstep ss c) as [ss'|]; try contradiction; cbn [bind]; auto.
    destruct H as [H1 H2]. apply IH; auto. rewrite H2. exact N2.
Qed.

(** Observable form: same panics, and every variable shows its spec number. *)
Lemma run_refines fuel cs : Forall exact_cmd cs -> no_self_rem [] cs ->
  match run fuel empty_state cs, srun [] cs with
  | Ok s, Some ss => length (env s) = length ss /\
      forall x, match look s x, nth_error ss x with
                | Some l, Some (_, Some n) => represents l n
                | Some l, Some (_, None) => l = []
                | None, None => True
                | _, _ => False
                end
  | Panic, None => True
  | _, _ => False
  end.
Proof.
  intros E N. pose proof (run_sim fuel cs empty_state [] sim_empty E N) as R.
  destruct (run fuel empty_state cs) as [s| |], (srun [] cs) as [ss|]; auto.
  split; [pose proof (inv_len _ _ (sim_inv _ _ R)) as L; rewrite map_length in L; exact L|].
  intros x. pose proof (sim_get s ss x R) as G. unfold look.
  destruct (nth_error ss x) as [[f v]|].
  - destruct G as (c & l & G1 & G2 & G3 & G4). apply cell_of_some in G1. apply rd_cell_some in G2.
    rewrite G1, G2. destruct v as [n|].
    + destruct G4 as [->|C]; [discriminate|]. rewrite zv_canon in G3 by auto. injection G3 as <-. split; auto.
    + destruct l; [reflexivity|discriminate].
  - unfold cell_of in G. destruct (nth_error (env s) x); [discriminate|exact I].
Qed.
