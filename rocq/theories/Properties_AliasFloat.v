(** Shared storage of [Float] handles: C82, C83. *)
From Coq Require Import ZArith QArith Qabs List Lia Bool.
From Verif Require Import Words WordsFacts Spec NatModel NatFacts NatFacts2 BigIntFacts AliasFacts AliasInt AliasIntFacts Float SpecFloat FloatFacts FloatFacts2 FloatFacts3 FloatFacts4 FloatFacts5 FloatFacts6 Alias AliasFloat SpecAliasFloat AliasFloatFacts.
Import ListNotations.
Open Scope Z_scope.

(** 1.75 as it comes from an f64. *)
Definition f_1_75 : float := FL ToNearestEven Exact Finite false 53 1 [0; 0xE0000000].
Definition value_of (s : fstate) (x : nat) : option Q := match flook s x with Some v => Some (Qred (flvalue v)) | None => None end.

(* ------------------------------------------------------------------ *)
(** * C82: writing through one handle *)

(** A handle keeps its value as long as nobody writes through a handle of its
    family of clones. *)
Theorem C82_isolation_partial : forall cs ds s s' x, frun fempty cs = Ok s -> frun s ds = Ok s' -> flook s x <> None ->
  (forall c t, In c ds -> ftarget c = Some t -> ffamily (cs ++ ds) t <> ffamily (cs ++ ds) x) -> flook s' x = flook s x.
Proof.
  intros cs ds s s' x R R' N T. destruct (flook s x) as [a|] eqn:A; [|congruence]. destruct (frun_frame _ _ _ _ _ _ (frun_inv _ _ _ _ finv_empty R) R' A) as (a1 & B1 & P & _).
  rewrite B1, P; [reflexivity|]. intros c t Ic Tc. specialize (T c t Ic Tc). unfold ffamily in T. rewrite ffamilies_app in T. exact T.
Qed.
(** Writing through a clone can change the mantissa, nothing else. *)
Theorem C82_fields : forall cs ds s s' x a, frun fempty cs = Ok s -> frun s ds = Ok s' -> flook s x = Some a ->
  (forall c, In c ds -> ftarget c <> Some x) -> exists a', flook s' x = Some a' /\ fields a' = fields a.
Proof.
  intros cs ds s s' x a R R' A T. destruct (frun_frame _ _ _ _ _ _ (frun_inv _ _ _ _ finv_empty R) R' A) as (a1 & B1 & _ & P). exists a1. split; [auto|]. apply P. intros c t Ic Tc ->. exact (T c Ic Tc).
Qed.
(** Creating variables changes no existing one: the operators, [deep_clone],
    [neg], [abs] and [clone] itself. *)
Theorem C82_by_value_pure : forall cs s c s' x, frun fempty cs = Ok s -> fstep s c = Ok s' -> ftarget c = None -> flook s x <> None -> flook s' x = flook s x.
Proof.
  intros cs s c s' x R H T N. apply (C82_isolation_partial cs [c] s s' x R); auto; [cbn [frun]; rewrite H; reflexivity|]. intros d t [<-|[]] E. congruence.
Qed.
(** What the new variable shows. *)
Theorem C82_copies : forall cs s x a, frun fempty cs = Ok s -> flook s x = Some a ->
  (exists s', fstep s (FClone x) = Ok s' /\ flook s' (length (ffamilies [] cs)) = Some a) /\
  (exists s', fstep s (FDeep x) = Ok s' /\ flook s' (length (ffamilies [] cs)) = Some (deep a)) /\ (sound a -> same_float (deep a) a).
Proof.
  intros cs s x a R A. pose proof (frun_inv _ _ _ _ finv_empty R) as I. destruct (flook_fread s x a A) as (h & k & E1 & E2). split; [|split].
  - cbn [fstep]. unfold head_of. rewrite E2. cbn [bind]. eexists. split; [reflexivity|]. unfold flook in *. cbn [heads fheap]. rewrite E2 in A.
    rewrite <- (finv_len _ _ I), nth_error_app2, Nat.sub_diag by lia. cbn [nth_error]. exact A.
  - cbn [fstep]. rewrite E1. cbn [bind]. eexists. split; [reflexivity|]. apply falloc_look. exact I.
  - intros S0. destruct (form_eq a) as [F|F]; [rewrite deep_sound by auto; apply same_refl|]. right. split; [reflexivity|]. intros G. destruct (F G).
Qed.
(** x = 1.75; y = x.clone(); y.set_precision(1): now y = 2 and x = 1. *)
Theorem C82_clone_changes_refuted : exists cs c s s', frun fempty cs = Ok s /\ fstep s c = Ok s' /\ ftarget c = Some 1%nat /\ value_of s 0 = Some (7 # 4)%Q /\ value_of s' 0 = Some 1%Q.
Proof. exists [FNew f_1_75; FClone 0], (FPrec 1 1). do 2 eexists. split; [reflexivity|]. split; [vm_compute; reflexivity|]. repeat split; vm_compute; reflexivity. Qed.
(** y.set_mant_exp(x.clone(), 3) after y = x.clone() empties both mantissas:
    finite numbers without one. *)
Theorem C82_set_mant_exp_refuted : exists cs c s s' a b, frun fempty cs = Ok s /\ fstep s c = Ok s' /\ ftarget c = Some 1%nat /\
  flook s' 0 = Some a /\ flook s' 1 = Some b /\ flform a = Finite /\ flmant a = [] /\ flform b = Finite /\ flmant b = [] /\ ~ ok_float a.
Proof.
  exists [FNew f_1_75; FClone 0], (FMantExp 1 0 3). do 4 eexists. split; [reflexivity|]. split; [vm_compute; reflexivity|]. split; [reflexivity|]. split; [vm_compute; reflexivity|]. split; [vm_compute; reflexivity|].
  split; [reflexivity|]. split; [reflexivity|]. split; [reflexivity|]. split; [reflexivity|]. intros (_ & H). destruct (H eq_refl) as (_ & (C & _) & _). apply (proj1 (proj2 C)). reflexivity.
Qed.
Example C82_case : exists s, frun fempty [FNew f_1_75; FClone 0; FDeep 0; FBin FMul 0 0; FAssign FSub 0 3; FAssign FMul 1 1; FPrec 3 2] = Ok s /\
  map (value_of s) [0; 1; 2; 3]%nat = [Some (- 21 # 16)%Q; Some (49 # 16)%Q; Some (7 # 4)%Q; Some 3%Q].
Proof. eexists. split; vm_compute; reflexivity. Qed.

(* ------------------------------------------------------------------ *)
(** * C83: compound assignment *)
Theorem C83_assign_partial : forall cs s o x y a b, frun fempty cs = Ok s -> flook s x = Some a -> flook s y = Some b -> sound a ->
  ffamily cs x <> ffamily cs y \/ shared_ok o a b ->
  match fstep s (FBin o x y), fstep s (FAssign o x y) with
  | Ok s1, Ok s2 => exists r1 r2, flook s1 (length (ffamilies [] cs)) = Some r1 /\ flook s2 x = Some r2 /\ same_float r1 r2
  | Panic, Panic => True
  | Fuel, Fuel => True
  | _, _ => False
  end.
Proof.
  intros cs s o x y a b R A B SA D. pose proof (frun_inv _ _ _ _ finv_empty R) as I.
  destruct (is_fnan (flform a) || is_fnan (flform b)) eqn:N.
  - destruct (flook_fread s x a A) as (h & k & E1 & E2). destruct (flook_fread s y b B) as (g & l & F1 & F2).
    cbn [fstep]. rewrite E1. cbn [bind]. rewrite F1. cbn [bind]. unfold fl_op2. change (flform (deep a)) with (flform a). rewrite N. cbn [bind].
    do 2 eexists. split; [apply falloc_look; exact I|]. split; [eapply fwrite_look; eauto|]. left. split; reflexivity.
  - apply (fassign s (ffamilies [] cs) o x y a b); auto; intros F; rewrite F in N; [discriminate N|rewrite orb_true_r in N; discriminate N].
Qed.
(** In particular with a clone of itself. *)
Theorem C83_self : forall cs s o x a, frun fempty cs = Ok s -> flook s x = Some a -> sound a ->
  match fstep s (FBin o x x), fstep s (FAssign o x x) with
  | Ok s1, Ok s2 => exists r1 r2, flook s1 (length (ffamilies [] cs)) = Some r1 /\ flook s2 x = Some r2 /\ same_float r1 r2
  | Panic, Panic => True
  | Fuel, Fuel => True
  | _, _ => False
  end.
Proof.
  intros cs s o x a R A SA. apply (C83_assign_partial cs s o x x a a); auto. right. destruct o; cbn [shared_ok]; auto; split; auto; (lia || congruence).
Qed.
(** A clone whose exponent went up by rounding: 2 - 1 gives 1 by value and 0
    in place, and for 1 the mantissa is destroyed. *)
Theorem C83_shared_refuted : exists cs s s1 s2, frun fempty cs = Ok s /\ value_of s 1 = Some 2%Q /\ value_of s 0 = Some 1%Q /\
  fstep s (FBin FSub 1 0) = Ok s1 /\ value_of s1 2 = Some 1%Q /\ fstep s (FAssign FSub 1 0) = Ok s2 /\ value_of s2 1 = Some 0%Q /\
  exists a, flook s2 0 = Some a /\ flform a = Finite /\ flmant a = [0].
Proof.
  exists [FNew f_1_75; FClone 0; FPrec 1 1]. do 3 eexists. split; [vm_compute; reflexivity|]. split; [vm_compute; reflexivity|]. split; [vm_compute; reflexivity|].
  split; [vm_compute; reflexivity|]. split; [vm_compute; reflexivity|]. split; [vm_compute; reflexivity|]. split; [vm_compute; reflexivity|].
  eexists. split; [vm_compute; reflexivity|]. split; reflexivity.
Qed.
(** This happens to every such pair: if x has the larger exponent on the same
    mantissa, x -= y is a zero and y is left without a mantissa. *)
Lemma usub_alias_gt a b : canon (flmant a) -> 0 < nval (flmant a) -> flexp b < flexp a ->
  exists r, usub_alias a b = Ok r /\ flform r = Zero /\ flneg r = false /\ flacc r = Exact /\ flmode r = flmode a /\ flmant r = [0].
Proof.
  intros C P E. unfold usub_alias. destruct (Z.ltb_spec (flexp a - mbits (flmant a)) (flexp b - mbits (flmant a))) as [|_]; [lia|].
  destruct (Z.ltb_spec (flexp b - mbits (flmant a)) (flexp a - mbits (flmant a))) as [_|]; [|lia].
  set (k := flexp a - mbits (flmant a) - (flexp b - mbits (flmant a))).
  assert (CS : canon (nat_shl (flmant a) k)) by (rewrite nat_shl_spec by (auto; lia); apply of_Z_canon; apply Z.mul_nonneg_nonneg; [lia|apply Z.pow_nonneg; lia]).
  rewrite nat_alias_eq by (auto; discriminate). cbn [inner2 bind]. rewrite <- nat_sub_same by auto.
  assert (Z0 : nat_sub (nat_shl (flmant a) k) (nat_shl (flmant a) k) = [0]).
  { rewrite nat_shl_spec by (auto; lia). rewrite nat_sub_of_Z by (apply Z.mul_nonneg_nonneg; [lia|apply Z.pow_nonneg; lia]). rewrite Z.sub_diag. reflexivity. }
  rewrite Z0. replace (nat_eq_u32 [0] 0) with true by reflexivity. eexists. split; [reflexivity|]. repeat split.
Qed.
(** The operation takes the magnitude of y from that of x. *)
Definition takes_away (o : fop) (sx sy : bool) : Prop := match o with FAdd => sx = negb sy | FSub => sx = sy | _ => False end.
Theorem C83_shared_difference : forall cs s o x y a b h g c, takes_away o (flneg a) (flneg b) -> frun fempty cs = Ok s -> nth_error (heads s) x = Some (h, c) -> nth_error (heads s) y = Some (g, c) -> x <> y ->
  flook s x = Some a -> flook s y = Some b -> sound a -> flform a = Finite -> flform b = Finite -> flexp b < flexp a ->
  exists s2 r, fstep s (FAssign o x y) = Ok s2 /\ flook s2 x = Some r /\ flform r = Zero /\ flneg r = is_to_negative_inf (flmode a) /\ flook s2 y = Some (set_mant b [0]).
Proof.
  intros cs s o x y a b h g c Sg R X Y D A B SA Fa Fb E. pose proof (frun_inv _ _ _ _ finv_empty R) as I.
  destruct (flook_fread s x a A) as (h' & k & E1 & E2). destruct (flook_fread s y b B) as (g' & l & F1 & F2).
  rewrite X in E2. rewrite Y in F2. injection E2 as <- <-. injection F2 as <- <-.
  destruct (SA Fa) as [C N].
  assert (P : 0 < nval (flmant a)) by (eapply Z.lt_le_trans; [|exact N]; apply Z.pow_pos_nonneg; [lia|]; destruct C as (_ & C & _); unfold mbits; destruct (flmant a); [congruence|cbn [length]; lia]).
  cbn [fstep]. rewrite E1. cbn [bind]. rewrite F1. cbn [bind]. rewrite Fa, Fb. cbn [is_fnan orb]. rewrite Nat.eqb_refl. 
  destruct (default_prec_fields a b) as (D1 & D2 & D3 & D4 & D5). 
  assert (FA : f_alias o a b = add_finite_alias false (default_prec a b) b).
  { destruct o; cbn [takes_away] in Sg; try contradiction; cbn [f_alias]; unfold fl_add_alias, fl_sub_alias; rewrite D1, D2, Fa, Fb, Sg; cbn [is_finite andb]; destruct (flneg b); reflexivity. }
  rewrite FA. unfold add_finite_alias, ucmp. rewrite D3.
  assert (G1 : (flexp a <? flexp b) = false) by (apply Z.ltb_ge; lia). assert (G2 : (flexp b <? flexp a) = true) by (apply Z.ltb_lt; lia).
  rewrite G1, G2. change (0 <? 1) with true. cbv iota.
  destruct (usub_alias_gt (default_prec a b) b) as (r & U & V1 & V2 & V3 & V4 & V5); rewrite ?D4, ?D3; auto.
  rewrite U. cbn [bind]. rewrite V1, V3, V4, D5. cbn [is_zero andb].
  replace (repoints o a b) with false by (unfold repoints, ucmp; rewrite Fa, Fb, G1, G2; cbn [is_finite andb negb]; rewrite andb_false_r; reflexivity).
  do 2 eexists. split; [reflexivity|]. split; [eapply fwrite_look; eauto|]. rewrite andb_true_r.
  split. { destruct (is_to_negative_inf (flmode a)); exact V1. }
  split. { destruct (is_to_negative_inf (flmode a)); [reflexivity|exact V2]. }
  unfold flook, fwrite. cbn [heads fheap]. rewrite set_head_other by congruence. rewrite Y. rewrite set_nth_same by (eapply finv_cell; eauto).
  unfold flook in B. rewrite Y in B. destruct (nth_error (fheap s) c); [|discriminate]. injection B as <-.
  f_equal. destruct (is_to_negative_inf (flmode a)); cbn [set_neg flmant]; rewrite V5; destruct g; reflexivity.
Qed.
(** On the other side x += y with a smaller exponent of y is x + x: the shift
    of the mantissa of x shifts that of y. *)
Lemma uadd_alias_gt a b : 0 < flprec a -> normal_mant (flmant a) -> flexp b < flexp a ->
  exists z, uadd_alias a b = Ok z /\ result_for (flmode a) (flprec a) (sq (flneg a) (mag a + mag a)) z.
Proof.
  intros HP HN E. pose proof (normal_nz _ HN) as P. destruct HN as (C & _). unfold uadd_alias. destruct (Z.ltb_spec (flexp a - mbits (flmant a)) (flexp b - mbits (flmant a))) as [|_]; [lia|].
  destruct (Z.ltb_spec (flexp b - mbits (flmant a)) (flexp a - mbits (flmant a))) as [_|]; [|lia].
  set (k := flexp a - mbits (flmant a) - (flexp b - mbits (flmant a))). assert (K : 0 <= k) by lia. pose proof (pow2_pos k K) as PK.
  rewrite nat_shl_spec by (auto; lia). set (A := nval (flmant a) * 2 ^ k). assert (PA : 0 < A) by (unfold A; nia).
  rewrite nat_alias_eq by (try apply of_Z_canon; try lia; discriminate). cbn [inner2 bind]. rewrite <- nat_add_same by (apply of_Z_canon; lia). rewrite nat_add_of_Z by lia.
  destruct (norm_round_spec a (of_Z (A + A)) (flexp b - mbits (flmant a)) HP (of_Z_canon (A + A) ltac:(lia))) as (z & Z1 & Z2); [rewrite of_Z_val; lia|].
  exists z. split; [exact Z1|]. eapply result_wd; [|exact Z2]. apply sq_wd. rewrite of_Z_val by lia. unfold mag.
  rewrite (dy_to (nval (flmant a)) (flexp a - mbits (flmant a)) (flexp b - mbits (flmant a))) by lia. symmetry. apply dy_add.
Qed.
Theorem C83_shared_sum : forall cs s o x y a b h g c, takes_away o (flneg a) (negb (flneg b)) -> frun fempty cs = Ok s -> nth_error (heads s) x = Some (h, c) -> nth_error (heads s) y = Some (g, c) ->
  flook s x = Some a -> flook s y = Some b -> ok_float a -> flform a = Finite -> flform b = Finite -> flexp b < flexp a ->
  exists s2 r, fstep s (FAssign o x y) = Ok s2 /\ flook s2 x = Some r /\ result_for (flmode a) (flprec a) (2 * flvalue a) r.
Proof.
  intros cs s o x y a b h g c Sg R X Y A B OA Fa Fb E. pose proof (frun_inv _ _ _ _ finv_empty R) as I.
  destruct (flook_fread s x a A) as (h' & k & E1 & E2). destruct (flook_fread s y b B) as (g' & l & F1 & F2).
  rewrite X in E2. rewrite Y in F2. injection E2 as <- <-. injection F2 as <- <-. destruct (ok_finite a OA Fa) as (HP & HN).
  cbn [fstep]. rewrite E1. cbn [bind]. rewrite F1. cbn [bind]. rewrite Fa, Fb. cbn [is_fnan orb]. rewrite Nat.eqb_refl. 
  assert (FA : f_alias o a b = add_finite_alias true a b).
  { destruct o; cbn [takes_away] in Sg; try contradiction; cbn [f_alias]; unfold fl_add_alias, fl_sub_alias; rewrite default_prec_ok by auto; rewrite Fa, Fb, Sg; cbn [is_finite andb]; destruct (flneg b); reflexivity. }
  rewrite FA. unfold add_finite_alias.
  destruct (uadd_alias_gt a b HP HN E) as (z & -> & RZ). cbn [bind]. pose proof (adjust_result _ _ _ _ RZ) as AZ. unfold adjust in AZ. rewrite AZ.
  replace (repoints o a b) with false by (unfold repoints; destruct o; cbn [takes_away] in Sg; try contradiction; rewrite Fa, Fb, Sg; destruct (flneg b); reflexivity).
  do 2 eexists. split; [reflexivity|]. split; [eapply fwrite_look; eauto|]. eapply result_wd; [|exact RZ].
  rewrite finite_val by auto. destruct (flneg a); cbn [sq]; ring.
Qed.
(** A zero plus a clone that is not zero leaves both without a mantissa. *)
Theorem C83_shared_zero : forall cs s o x y a b h g c, o = FAdd \/ o = FSub -> frun fempty cs = Ok s -> nth_error (heads s) x = Some (h, c) -> nth_error (heads s) y = Some (g, c) -> x <> y ->
  flook s x = Some a -> flook s y = Some b -> 0 <= flprec a -> 0 <= flprec b -> flform a = Zero -> flform b = Finite ->
  exists s2 r, fstep s (FAssign o x y) = Ok s2 /\ flook s2 x = Some r /\ flform r = Finite /\ flmant r = [] /\ flook s2 y = Some (set_mant b []).
Proof.
  intros cs s o x y a b h g c O R X Y D A B HP HQ Fa Fb. pose proof (frun_inv _ _ _ _ finv_empty R) as I.
  destruct (flook_fread s x a A) as (h' & k & E1 & E2). destruct (flook_fread s y b B) as (g' & l & F1 & F2).
  rewrite X in E2. rewrite Y in F2. injection E2 as <- <-. injection F2 as <- <-.
  cbn [fstep]. rewrite E1. cbn [bind]. rewrite F1. cbn [bind]. rewrite Fa, Fb. cbn [is_fnan orb]. rewrite Nat.eqb_refl.
  assert (S : exists r, f_alias o a b = Ok r /\ flform r = Finite /\ flmant r = []).
  { destruct (default_prec_fields a b) as (D1 & D2 & D3 & D4 & D5).
    assert (Q : exists r, set_float (default_prec a b) (set_mant b []) = Ok r /\ flform r = Finite /\ flmant r = []).
    { unfold set_float. cbn [set_mant flform flmant flneg flexp flprec]. rewrite Fb. cbn [is_finite]. assert (PD : 0 <= flprec (default_prec a b)) by (unfold default_prec; destruct (Z.eqb_spec (flprec a) 0); cbn [set_prec flprec]; lia).
      destruct (flprec (default_prec a b) =? 0) eqn:P0; [eexists; split; [reflexivity|]; split; reflexivity|]. destruct (flprec (default_prec a b) <? flprec b); [|eexists; split; [reflexivity|]; split; reflexivity].
      unfold fl_round. cbn [set_acc flform flmant flprec is_finite negb]. assert ((mbits [] <=? flprec (default_prec a b)) = true) as -> by (apply Z.leb_le; exact PD). eexists. split; [reflexivity|]. split; reflexivity. }
    destruct O as [-> | ->]; cbn [f_alias]; unfold fl_add_alias, fl_sub_alias; rewrite D1, Fa, Fb; cbn [is_finite is_infinite is_zero andb orb]; exact Q. }
  destruct S as (r & -> & S1 & S2). cbn [bind]. replace (repoints o a b) with false by (unfold repoints; rewrite Fa; reflexivity).
  do 2 eexists. split; [reflexivity|]. split; [eapply fwrite_look; eauto|]. split; [auto|]. split; [auto|].
  unfold flook, fwrite. cbn [heads fheap]. rewrite set_head_other by congruence. rewrite Y. rewrite set_nth_same by (eapply finv_cell; eauto).
  unfold flook in B. rewrite Y in B. destruct (nth_error (fheap s) c); [|discriminate]. injection B as <-. rewrite S2. destruct g; reflexivity.
Qed.
(** z = x.clone(); z.set_precision(0); z += x.clone(): 0 + 1.75 is a finite
    number without mantissa, and so is x. *)
Theorem C83_zero_refuted : exists cs s s1 s2, frun fempty cs = Ok s /\ value_of s 1 = Some 0%Q /\ value_of s 0 = Some (7 # 4)%Q /\
  fstep s (FBin FAdd 1 0) = Ok s1 /\ value_of s1 2 = Some (7 # 4)%Q /\ fstep s (FAssign FAdd 1 0) = Ok s2 /\
  exists a b, flook s2 0 = Some a /\ flook s2 1 = Some b /\ flform a = Finite /\ flmant a = [] /\ flform b = Finite /\ flmant b = [].
Proof.
  exists [FNew f_1_75; FClone 0; FPrec 1 0]. do 3 eexists. split; [vm_compute; reflexivity|]. split; [vm_compute; reflexivity|]. split; [vm_compute; reflexivity|].
  split; [vm_compute; reflexivity|]. split; [vm_compute; reflexivity|]. split; [vm_compute; reflexivity|].
  do 2 eexists. split; [vm_compute; reflexivity|]. split; [vm_compute; reflexivity|]. repeat split.
Qed.
Example C83_case : exists s s1 s2, frun fempty [FNew f_1_75; FClone 0] = Ok s /\ fstep s (FAssign FAdd 0 1) = Ok s1 /\ value_of s1 0 = Some (7 # 2)%Q /\ value_of s1 1 = Some (7 # 4)%Q /\
  fstep s (FAssign FMul 0 1) = Ok s2 /\ value_of s2 0 = Some (49 # 16)%Q /\ value_of s2 1 = Some (49 # 32)%Q.
Proof. do 3 eexists. split; [reflexivity|]. split; [vm_compute; reflexivity|]. split; [vm_compute; reflexivity|]. split; [vm_compute; reflexivity|]. split; [vm_compute; reflexivity|]. split; vm_compute; reflexivity. Qed.
Print Assumptions C82_isolation_partial.
Print Assumptions C82_fields.
Print Assumptions C82_by_value_pure.
Print Assumptions C82_copies.
Print Assumptions C82_clone_changes_refuted.
Print Assumptions C82_set_mant_exp_refuted.
Print Assumptions C83_assign_partial.
Print Assumptions C83_self.
Print Assumptions C83_shared_refuted.
Print Assumptions C83_zero_refuted.
Print Assumptions C83_shared_difference.
Print Assumptions C83_shared_sum.
Print Assumptions C83_shared_zero.
