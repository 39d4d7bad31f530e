(** C79, C80: shared storage of [BigInt].
    [brun fuel bempty cs = Ok s]: [s] is reached by the history [cs];
    [blook s x]: the sign and magnitude that handle [x] shows;
    [bfamily cs x]: the clone family of [x] (SpecAliasInt.v). *)
From Coq Require Import ZArith List Lia Bool.
From Verif Require Import KaraFacts2 Words WordsFacts Spec SpecInt NatModel NatFacts NatFacts2 NatFacts3 NatFacts4 NatFacts5 BigInt BigIntFacts Alias SpecAlias AliasFacts AliasInt SpecAliasInt AliasIntFacts.
Import ListNotations.
Open Scope Z_scope.

Lemma self_ok_safe o b : self_ok o b -> alias_safe o b = true.
Proof. destruct o; cbn; intros H; subst; auto; destruct H. Qed.
Lemma family_nth cs x y f g : bfamily cs x = Some f -> bfamily cs y = Some g -> Nat.eqb (nth x (bfamilies [] cs) 0%nat) (nth y (bfamilies [] cs) 0%nat) = Nat.eqb f g.
Proof. unfold bfamily. intros X Y. rewrite (nth_error_nth _ _ 0%nat X), (nth_error_nth _ _ 0%nat Y). reflexivity. Qed.
Lemma look_family fuel cs s x a : brun fuel bempty cs = Ok s -> blook s x = Some a -> exists f, bfamily cs x = Some f.
Proof.
  intros R A. pose proof (blook_dom _ _ _ _ (brun_inv _ _ _ _ _ binv_empty R) A) as L. unfold bfamily. destruct (nth_error (bfamilies [] cs) x) as [f|] eqn:E; [eauto|]. apply nth_error_None in E. lia.
Qed.

(* ------------------------------------------------------------------ *)
(** * C79: [x op= y] gives [x] what [x op y] gives *)

(** Full claim: for every operator and all handles.  Proved unless [x] and [y]
    are clones of each other and the operator is one that [self_ok] excludes. *)
Theorem C79_assign_partial : forall fuel cs s o x y a b, brun fuel bempty cs = Ok s ->
  blook s x = Some a -> blook s y = Some b -> canon (bnat a) ->
  bfamily cs x <> bfamily cs y \/ self_ok o (bneg a) ->
  match bstep fuel s (BBin o x y), bstep fuel s (BAssign o x y) with
  | Ok s1, Ok s2 => blook s2 x = blook s1 (length (bfamilies [] cs)) /\ blook s2 x <> None
  | Panic, Panic => True
  | Fuel, Fuel => True
  | _, _ => False
  end.
Proof.
  intros fuel cs s o x y a b R A A2 C H. pose proof (brun_inv _ _ _ _ _ binv_empty R) as B.
  destruct (look_family _ _ _ _ _ R A) as (f & F). destruct (look_family _ _ _ _ _ R A2) as (g & G).
  destruct (bassign fuel s _ o x y a b B A A2) as (k & E & S0 & M). rewrite (family_nth cs x y f g F G) in S0.
  rewrite (bby_value fuel s _ o x y a b B A A2 C), S0.
  replace (if Nat.eqb f g then b_alias fuel o (bnat a) (bneg a) (bneg b) else b_op o a b) with (b_op o a b).
  - destruct (b_op o a b) as [r| |]; cbn [bind]; auto. destruct (bset_look s _ x k r B E) as (P & _). rewrite P, (balloc_look s _ r B). split; [reflexivity|discriminate].
  - destruct (Nat.eqb_spec f g) as [->|N]; [|reflexivity]. destruct H as [H|H]; [congruence|]. rewrite b_alias_eq by (auto using self_ok_safe).
    assert (bnat a = bnat b) as EQ. { apply M. unfold bfamily in F, G. rewrite (nth_error_nth _ _ 0%nat F), (nth_error_nth _ _ 0%nat G). reflexivity. }
    destruct a as [ma sa], b as [mb sb]. cbn [bnat bneg] in *. subst mb. reflexivity.
Qed.

(** The same with integers, and what happens to the other handles: those of
    other families keep their value, the clones of [x] get its magnitude under
    their own sign. *)
Theorem C79_values_partial : forall fuel cs s o x y a b m n v, brun fuel bempty cs = Ok s ->
  blook s x = Some a -> blook s y = Some b -> is_int a m -> is_int b n ->
  bfamily cs x <> bfamily cs y \/ self_ok o (m <? 0) -> ziop o m n = Some v ->
  exists s' r, bstep fuel s (BAssign o x y) = Ok s' /\ blook s' x = Some r /\ is_int r v /\
    (forall z, bfamily cs z <> bfamily cs x -> blook s' z = blook s z) /\
    (forall z c, z <> x -> bfamily cs z = bfamily cs x -> blook s z = Some c -> blook s' z = Some (BI (bnat r) (bneg c))).
Proof.
  intros fuel cs s o x y a b m n v R A A2 Im In0 H V. pose proof (brun_inv _ _ _ _ _ binv_empty R) as B.
  apply is_int_iff in Im. apply is_int_iff in In0. subst a b.
  destruct (look_family _ _ _ _ _ R A) as (f & F). destruct (look_family _ _ _ _ _ R A2) as (g & G).
  destruct (bassign fuel s _ o x y _ _ B A A2) as (k & E & S0 & M). rewrite (family_nth cs x y f g F G) in S0.
  assert (OP : b_op o (zint m) (zint n) = Ok (zint v)).
  { apply b_op_ziop. exact V. }
  assert (Q : (if Nat.eqb f g then b_alias fuel o (bnat (zint m)) (bneg (zint m)) (bneg (zint n)) else b_op o (zint m) (zint n)) = Ok (zint v)).
  { destruct (Nat.eqb_spec f g) as [->|N]; [|exact OP]. destruct H as [H|H]; [congruence|]. rewrite b_alias_eq by (auto using self_ok_safe; apply of_Z_canon; lia).
    assert (EQ : bnat (zint m) = bnat (zint n)). { apply M. unfold bfamily in F, G. rewrite (nth_error_nth _ _ 0%nat F), (nth_error_nth _ _ 0%nat G). reflexivity. }
    rewrite EQ at 2. exact OP. }
  rewrite Q in S0. cbn [bind] in S0. destruct (bset_look s _ x k (zint v) B E) as (P1 & P2 & P3).
  exists (bset s x k (zint v)), (zint v). split; [exact S0|]. split; [exact P1|]. split; [apply is_int_zint|]. split.
  - intros z Z0. apply P3. exact Z0.
  - intros z c NZ FZ L. apply (P2 z c NZ L FZ).
Qed.

(** [x %= x.clone()] never returns. *)
Theorem C79_self_rem_refuted : exists cs s, Forall (fun c => bcreates c = true) cs /\ (forall fuel, brun fuel bempty cs = Ok s) /\
  (forall fuel s', bstep fuel s (BAssign IRem 0 1) <> Ok s') /\ exists s1, bstep 0 s (BBin IRem 0 1) = Ok s1 /\ blook s1 2 = Some (zint 0).
Proof.
  exists [BNew [7] false; BClone 0]. eexists. split; [repeat constructor|]. split; [intros fuel; reflexivity|]. split.
  - intros fuel s'. cbn [bstep cell_of sign_of rd_cell nth_error env mem signs heap bind balloc alloc app length empty_state bempty bnat bneg Nat.eqb b_alias nat_eq_u32].
    unfold nat_alias. cbn [is_nan alias2 b_signed bnat trim drop_zeros].
    destruct fuel as [|[|fuel]]; vm_compute; discriminate.
  - eexists. split; reflexivity.
Qed.
(** The bit operators read the clone after it has been decremented or
    emptied. *)
Theorem C79_self_bits_refuted :
  (exists cs s s1 s2, (forall fuel, brun fuel bempty cs = Ok s) /\ bstep 0 s (BBin IAnd 0 1) = Ok s1 /\ bstep 0 s (BAssign IAnd 0 1) = Ok s2 /\
     blook s1 2 = Some (zint (-3)) /\ blook s2 0 = Some (zint (-4))) /\
  (exists cs s s1 s2, (forall fuel, brun fuel bempty cs = Ok s) /\ bstep 0 s (BBin IAndNot 0 1) = Ok s1 /\ bstep 0 s (BAssign IAndNot 0 1) = Ok s2 /\
     blook s1 2 = Some (zint (-4)) /\ blook s2 0 = Some (zint (-3))).
Proof.
  split.
  - exists [BNew [3] true; BClone 0]. do 3 eexists. split; [intros fuel; reflexivity|]. repeat split; reflexivity.
  - exists [BNew [3] true; BClone 0; BSign 1 false]. do 3 eexists. split; [intros fuel; reflexivity|]. repeat split; reflexivity.
Qed.
(** A negative [x] whose clone shows a natural number: always NaN. *)
Theorem C79_self_mixed_refuted : forall fuel cs s o x y a b, brun fuel bempty cs = Ok s ->
  blook s x = Some a -> blook s y = Some b -> bfamily cs x = bfamily cs y -> bneg a = true -> bneg b = false -> o = IAnd \/ o = IOr \/ o = IXor ->
  exists s', bstep fuel s (BAssign o x y) = Ok s' /\ blook s' x = Some b_nan.
Proof.
  intros fuel cs s o x y a b R A A2 FE NA NB O. pose proof (brun_inv _ _ _ _ _ binv_empty R) as B.
  destruct (look_family _ _ _ _ _ R A) as (f & F). assert (G : bfamily cs y = Some f) by congruence.
  destruct (bassign fuel s _ o x y a b B A A2) as (k & E & S0 & M). rewrite (family_nth cs x y f f F G), Nat.eqb_refl, NA, NB, b_alias_mixed in S0 by auto. cbn [bind] in S0.
  destruct (bset_look s _ x k (BI [] false) B E) as (P1 & _). eexists. split; [exact S0|exact P1].
Qed.
(** A negative target with a negative clone: the clone has been decremented
    once when it is read. *)
Lemma sub1_again n : 0 < n -> exists l k, nat_sub_u32 (of_Z n) 1 = l /\ nat_sub_u32 (trim l) 1 = k /\ words_ok l /\ words_ok k /\ l <> [] /\ k <> [] /\
  nval l = n - 1 /\ nval k = Z.abs (n - 2) /\ length l = length (of_Z n) /\ (length k <= length (of_Z n))%nat.
Proof.
  intros N. destruct (sub1_spec n N) as (l & E & Wl & Nl & Vl & Ll). exists l, (nat_sub_u32 (trim l) 1). split; [exact E|]. split; [reflexivity|].
  pose proof (KaraFacts2.trim_len l) as TL. rewrite (trim_of_Z l Wl Nl), Vl in *. destruct (Z.eq_dec (n - 1) 0) as [Z0|Z0].
  - rewrite Z0 in *. change (nat_sub_u32 (of_Z 0) 1) with [1]. split; [auto|]. split; [constructor; [split; [lia|reflexivity]|constructor]|]. split; [auto|]. split; [discriminate|].
    split; [auto|]. split; [replace n with 1 by lia; reflexivity|]. split; [auto|]. rewrite <- Ll. destruct l; [congruence|cbn [length]; lia].
  - destruct (sub1_spec (n - 1) ltac:(lia)) as (k & -> & Wk & Nk & Vk & Lk). split; [auto|]. split; [auto|]. split; [auto|]. split; [auto|]. split; [auto|]. split; [lia|]. split; [auto|]. lia.
Qed.
Definition shared_bits (o : bop) (n : Z) : Z :=
  match o with
  | IAnd => - (Z.lor (n - 1) (Z.abs (n - 2)) + 1)
  | IOr => - (Z.land (n - 1) (Z.abs (n - 2)) + 1)
  | IXor => Z.lxor (n - 1) (Z.abs (n - 2))
  | _ => Z.ldiff (n - 1) (Z.abs (n - 2))
  end.
Lemma b_alias_negative fuel o n : 0 < n -> o = IAnd \/ o = IOr \/ o = IXor \/ o = IAndNot ->
  b_alias fuel o (of_Z n) true true = Ok (zint (shared_bits o n)).
Proof.
  intros N O. destruct (sub1_again n N) as (l & k & E1 & E2 & Wl & Wk & Nl & Nk & Vl & Vk & Ll & Lk).
  assert (C : canon (of_Z n)) by (apply of_Z_canon; lia).
  destruct O as [->|[->|[->| ->]]]; cbn [b_alias eqb shared_bits]; cbv zeta; rewrite E1, E2.
  - destruct (bitor_words l k Wl Wk Nl Nk) as (r & -> & Wr & Nr & Vr & Lr). rewrite Vl, Vk in Vr.
    pose proof (lor_ge_l (n - 1) (Z.abs (n - 2)) ltac:(lia) ltac:(lia)).
    rewrite add1_of_Z; [|auto|auto|].
    + rewrite Vr, neg_tail by lia. reflexivity.
    + rewrite Vr, Lr, Ll, (Nat.max_l _ _ Lk). intros HL. pose proof (canon_lower _ C HL) as CL. rewrite of_Z_val in CL by lia. lia.
  - rewrite bitand_words by auto. rewrite Vl, Vk. assert (0 <= Z.land (n - 1) (Z.abs (n - 2))) by (apply Z.land_nonneg; lia).
    rewrite add1_canon, neg_tail by lia. reflexivity.
  - rewrite bitxor_words by auto. rewrite Vl, Vk. f_equal. apply zint_intro; auto. apply Z.lxor_nonneg. lia.
  - rewrite and_not_words by auto. rewrite Vl, Vk. f_equal. apply zint_intro; auto. apply Z.ldiff_nonneg. lia.
Qed.
Lemma b_alias_andnot_mixed fuel n : 0 < n -> b_alias fuel IAndNot (of_Z n) true false = Ok (zint (- n)).
Proof.
  intros N. destruct (sub1_spec n N) as (l & E & Wl & Nl & Vl & Ll). cbn [b_alias eqb]. cbv zeta. rewrite E.
  unfold nat_alias. assert (is_nan l = false) as -> by (destruct l; [congruence|reflexivity]). cbn [alias2 bind].
  assert (O : or_alias l = l). { unfold or_alias. clear. induction l as [|x l IH]; [reflexivity|]. cbn [map]. rewrite IH, Z.lor_diag. reflexivity. }
  rewrite O. assert (C : canon (of_Z n)) by (apply of_Z_canon; lia). rewrite add1_of_Z; [|auto|auto|].
  - rewrite Vl. replace (n - 1 + 1) with n by lia. rewrite neg_tail by lia. reflexivity.
  - rewrite Vl, Ll. intros HL. pose proof (canon_lower _ C HL) as CL. rewrite of_Z_val in CL by lia. lia.
Qed.
(** A negative [x] whose clone is the same number: the clone has lost 1 when
    it is read.  [shared_bits] is what comes out; with a clone that shows the
    absolute value [and_not] changes nothing. *)
Theorem C79_self_negative_partial : forall fuel cs s o x y a b n, brun fuel bempty cs = Ok s ->
  blook s x = Some a -> blook s y = Some b -> bfamily cs x = bfamily cs y -> 0 < n -> is_int a (- n) ->
  (is_int b (- n) -> o = IAnd \/ o = IOr \/ o = IXor \/ o = IAndNot ->
     exists s' r, bstep fuel s (BAssign o x y) = Ok s' /\ blook s' x = Some r /\ is_int r (shared_bits o n)) /\
  (is_int b n -> o = IAndNot -> exists s' r, bstep fuel s (BAssign o x y) = Ok s' /\ blook s' x = Some r /\ is_int r (- n)).
Proof.
  intros fuel cs s o x y a b n R A A2 FE N IA. pose proof (brun_inv _ _ _ _ _ binv_empty R) as B. apply is_int_iff in IA. subst a.
  destruct (look_family _ _ _ _ _ R A) as (f & F). assert (G : bfamily cs y = Some f) by congruence.
  destruct (bassign fuel s _ o x y _ _ B A A2) as (k & E & S0 & M). rewrite (family_nth cs x y f f F G), Nat.eqb_refl, zint_nat, zint_neg in S0.
  rewrite Z.abs_neq, Z.opp_involutive in S0 by lia. destruct (Z.ltb_spec (- n) 0); [|lia]. split.
  - intros IB O. apply is_int_iff in IB. subst b. rewrite zint_neg in S0. destruct (Z.ltb_spec (- n) 0); [|lia]. rewrite b_alias_negative in S0 by auto. cbn [bind] in S0.
    destruct (bset_look s _ x k (zint (shared_bits o n)) B E) as (P1 & _). do 2 eexists. split; [exact S0|]. split; [exact P1|apply is_int_zint].
  - intros IB ->. apply is_int_iff in IB. subst b. rewrite zint_neg in S0. destruct (Z.ltb_spec n 0); [lia|]. rewrite b_alias_andnot_mixed in S0 by auto. cbn [bind] in S0.
    destruct (bset_look s _ x k (zint (- n)) B E) as (P1 & _). do 2 eexists. split; [exact S0|]. split; [exact P1|apply is_int_zint].
Qed.
Print Assumptions C79_self_negative_partial.
(** -6 with itself. *)
Example C79_negative_case : map (fun o => shared_bits o 6) [IAnd; IOr; IXor; IAndNot] = [-6; -5; 1; 1] /\
  exists s s', brun 0 bempty [BNew [6] true; BClone 0] = Ok s /\ bstep 0 s (BAssign IOr 0 1) = Ok s' /\ blook s' 0 = Some (zint (-5)).
Proof. split; [reflexivity|]. do 2 eexists. repeat split; reflexivity. Qed.
Example C79_case : exists s, brun 5 bempty [BNew [3] false; BClone 0; BNew [5] true; BAssign IMul 0 2; BAssign IAdd 1 2; BBin ISub 0 2] = Ok s /\
  map (blook s) [0; 1; 2; 3; 4]%nat = [Some (zint (-10)); Some (zint 10); Some (zint (-5)); Some (zint (-5)); None].
Proof. eexists. split; reflexivity. Qed.
(** -17 %= 5 and -17 /= 5 with operands in different cells, 17 /= 17 in one. *)
Example C79_division_case : ziop IRem (-17) 5 = Some (-2) /\ ziop IDiv (-17) 5 = Some (-3) /\ ziop IDiv (-3) 5 = None /\
  match brun 5 bempty [BNew [17] true; BDeep 0; BNew [5] false; BNew [17] false; BClone 3; BAssign IRem 0 2; BAssign IDiv 1 2; BAssign IDiv 3 4] with
  | Ok s => map (blook s) [0; 1; 2; 3; 4]%nat = [Some (zint (-2)); Some (zint (-3)); Some (zint 5); Some (zint 1); Some (zint 1)]
  | _ => False
  end.
Proof. vm_compute. split; [reflexivity|]. split; [reflexivity|]. split; reflexivity. Qed.
Example C79_mixed_case : exists s s', brun 5 bempty [BNew [3] false; BClone 0; BNew [5] false; BAssign ISub 0 2] = Ok s /\
  map (blook s) [0; 1]%nat = [Some (zint (-2)); Some (zint 2)] /\ bstep 5 s (BAssign IOr 0 1) = Ok s' /\ blook s' 0 = Some b_nan.
Proof. do 2 eexists. repeat split; reflexivity. Qed.

(* ------------------------------------------------------------------ *)
(** * C80: clones denote the same number *)

(** Full claim: handles of one family always show the same BigInt.  Only the
    magnitude is shared. *)
Theorem C80_magnitude_partial : forall fuel cs s x y f, brun fuel bempty cs = Ok s -> bfamily cs x = Some f -> bfamily cs y = Some f ->
  exists a b, blook s x = Some a /\ blook s y = Some b /\ bnat a = bnat b.
Proof.
  intros fuel cs s x y f R X Y. pose proof (brun_inv _ _ _ _ _ binv_empty R) as B. unfold bfamily in X, Y.
  destruct (blook_env s _ x B) as (k & m & sx & _ & _ & _ & E); [apply nth_error_Some; congruence|]. destruct (blook_env s _ y B) as (l & n & sy & _ & _ & _ & F); [apply nth_error_Some; congruence|].
  exists (BI m sx), (BI n sy). split; [auto|]. split; [auto|]. apply (same_magnitude s _ x y _ _ B E F). congruence.
Qed.
(** Two clones that agree keep agreeing as long as neither is the target of an
    assignment, whatever happens to other members of the family. *)
Theorem C80_untouched_partial : forall fuel cs ds s s' x y f, brun fuel bempty cs = Ok s -> brun fuel s ds = Ok s' ->
  bfamily cs x = Some f -> bfamily cs y = Some f -> blook s x = blook s y ->
  (forall c, In c ds -> btarget c <> Some x /\ btarget c <> Some y) -> blook s' x = blook s' y /\ blook s' x <> None.
Proof.
  intros fuel cs ds s s' x y f R R' X Y E T. destruct (C80_magnitude_partial _ _ _ _ _ _ R X Y) as (a & b & A & A2 & M). rewrite A, A2 in E. injection E as <-.
  pose proof (brun_inv _ _ _ _ _ binv_empty R) as B.
  destruct (brun_frame _ _ _ _ _ _ _ B R' A) as (a1 & B1 & _ & S1). destruct (brun_frame _ _ _ _ _ _ _ B R' A2) as (a2 & B2 & _ & S2).
  assert (RR : brun fuel bempty (cs ++ ds) = Ok s') by (rewrite brun_app, R; exact R').
  assert (X' : bfamily (cs ++ ds) x = Some f) by (unfold bfamily; rewrite bfamilies_app; apply bfamilies_prefix; exact X).
  assert (Y' : bfamily (cs ++ ds) y = Some f) by (unfold bfamily; rewrite bfamilies_app; apply bfamilies_prefix; exact Y).
  destruct (C80_magnitude_partial _ _ _ _ _ _ RR X' Y') as (c1 & c2 & C1 & C2 & M'). rewrite B1 in C1. injection C1 as <-. rewrite B2 in C2. injection C2 as <-.
  assert (bneg a1 = bneg a2).
  { rewrite S1, S2; [reflexivity| |]; intros c t Ic Tc ->; destruct (T c Ic); congruence. }
  rewrite B1, B2. destruct a1 as [m1 n1], a2 as [m2 n2]. simpl in *. subst. split; [reflexivity|discriminate].
Qed.
(** A handle keeps its number as long as nobody assigns to its family. *)
Theorem C80_isolation : forall fuel cs ds s s' x, brun fuel bempty cs = Ok s -> brun fuel s ds = Ok s' -> blook s x <> None ->
  (forall c t, In c ds -> btarget c = Some t -> bfamily (cs ++ ds) t <> bfamily (cs ++ ds) x) -> blook s' x = blook s x.
Proof.
  intros fuel cs ds s s' x R R' N T. destruct (blook s x) as [a|] eqn:A; [|congruence]. destruct (brun_frame _ _ _ _ _ _ _ (brun_inv _ _ _ _ _ binv_empty R) R' A) as (a1 & B1 & P & _).
  rewrite B1, P; [reflexivity|]. intros c t Ic Tc. specialize (T c t Ic Tc). unfold bfamily in T. rewrite bfamilies_app in T. exact T.
Qed.
(** x = 3; y = x.clone(); x -= 5: now x = -2 and y = 2. *)
Theorem C80_clones_agree_refuted : exists cs s x y f, (forall fuel, brun fuel bempty cs = Ok s) /\ bfamily cs x = Some f /\ bfamily cs y = Some f /\
  blook s x = Some (zint (-2)) /\ blook s y = Some (zint 2).
Proof. exists [BNew [3] false; BClone 0; BNew [5] false; BAssign ISub 0 2]. eexists. exists 0%nat, 1%nat, 0%nat. split; [intros fuel; reflexivity|]. repeat split; reflexivity. Qed.
(** x = -3; y = x.clone(); x -= x.clone(): y is now a negative zero. *)
Theorem C80_negative_zero_refuted : exists cs s, (forall fuel, brun fuel bempty cs = Ok s) /\ blook s 0 = Some (zint 0) /\ blook s 1 = Some (BI [0] true) /\ bfamily cs 0 = bfamily cs 1.
Proof. exists [BNew [3] true; BClone 0; BAssign ISub 0 0]. eexists. split; [intros fuel; reflexivity|]. repeat split; reflexivity. Qed.
Example C80_case : exists s, brun 5 bempty [BNew [3] true; BClone 0; BDeep 0; BNew [4] false; BAssign IAdd 0 3; BNeg 1; BAbs 0] = Ok s /\
  map (blook s) [0; 1; 2; 3; 4; 5]%nat = [Some (zint 1); Some (zint (-1)); Some (zint (-3)); Some (zint 4); Some (zint 1); Some (zint 1)].
Proof. eexists. split; reflexivity. Qed.
Print Assumptions C79_assign_partial.
Print Assumptions C79_values_partial.
Print Assumptions C79_self_rem_refuted.
Print Assumptions C79_self_bits_refuted.
Print Assumptions C79_self_mixed_refuted.
Print Assumptions C80_magnitude_partial.
Print Assumptions C80_untouched_partial.
Print Assumptions C80_isolation.
Print Assumptions C80_clones_agree_refuted.
Print Assumptions C80_negative_zero_refuted.
