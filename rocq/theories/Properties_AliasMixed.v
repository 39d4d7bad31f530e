(** C98: a [Nat] taken out of a [BigInt] by [as_ref().clone()] shares its storage.
    [mrun fuel bempty cs = Ok s]: [s] is reached by the history [cs] of commands
    on [Nat] and [BigInt] handles; [blook s x]: sign and magnitude of [BigInt]
    handle [x]; [nlook s x]: what [Nat] handle [x] shows; [mfamily cs x]: its
    family (SpecAliasMixed.v). *)
From Coq Require Import ZArith List Lia Bool.
From Verif Require Import Words WordsFacts Spec SpecInt NatModel NatFacts NatFacts2 NatFacts5 BigInt BigIntFacts Alias SpecAlias AliasFacts AliasInt SpecAliasInt AliasIntFacts AliasMixed SpecAliasMixed AliasMixedFacts.
Import ListNotations.
Open Scope Z_scope.

(** Full claim: a number changes only through its own handle.  Proved: it
    changes only through handles of its own family, its sign only through its
    own handle. *)
Theorem C98_isolation_partial : forall fuel cs ds s s' x a, mrun fuel bempty cs = Ok s -> mrun fuel s ds = Ok s' -> blook s x = Some a ->
  exists a', blook s' x = Some a' /\
    ((forall c t, In c ds -> mtarget c = Some t -> mfamily (cs ++ ds) t <> mfamily (cs ++ ds) x) -> a' = a) /\
    ((forall c t, In (MInt c) ds -> btarget c = Some t -> t <> x) -> bneg a' = bneg a).
Proof.
  intros fuel cs ds s s' x a R R2 A. pose proof (mrun_inv _ _ _ _ _ binv_empty R) as B. unfold mfamily.
  assert (E : mfamilies [] (cs ++ ds) = mfamilies (mfamilies [] cs) ds) by apply fold_left_app. rewrite E.
  exact (mrun_frame fuel ds s s' _ x a B R2 A).
Qed.

(** The [Nat] out of [x] shows the magnitude of [x] and is of its family. *)
Theorem C98_as_nat : forall fuel cs s x a, mrun fuel bempty cs = Ok s -> blook s x = Some a ->
  exists s', mstep fuel s (MAsNat x) = Ok s' /\ nlook s' (length (mfamilies [] cs)) = Some (bnat a) /\
    mfamily (cs ++ [MAsNat x]) (length (mfamilies [] cs)) = mfamily cs x.
Proof.
  intros fuel cs s x a R A. pose proof (mrun_inv _ _ _ _ _ binv_empty R) as B. destruct (look_cell s _ x a B A) as (k & E1 & E2 & E3).
  pose proof (blook_dom _ _ _ _ B A) as Lx.
  eexists. split; [cbn [mstep]; unfold cell_of; rewrite E1; reflexivity|]. pose proof B as [I L]. split.
  - unfold nlook, look. cbn [mem env heap]. rewrite <- (inv_len _ _ I), nth_error_app2, Nat.sub_diag by lia. cbn [nth_error]. exact E2.
  - unfold mfamily, mfamilies. rewrite fold_left_app. cbn [fold_left madd_family]. fold (mfamilies [] cs).
    rewrite nth_error_app2, Nat.sub_diag by lia. cbn [nth_error]. symmetry. apply nth_error_nth'. exact Lx.
Qed.

(** [n op= m] on a [Nat] gives every [BigInt] of the family of [n] the new
    magnitude under its own sign, and changes no other family. *)
Theorem C98_nat_write : forall fuel cs s o n m a b v, mrun fuel bempty cs = Ok s ->
  nlook s n = Some a -> nlook s m = Some b -> canon a -> canon b -> mfamily cs n <> mfamily cs m -> zop o (nval a) (nval b) = Some v ->
  exists s' r, mstep fuel s (MNat (CAssign o n m)) = Ok s' /\ represents r v /\
    (forall z c, mfamily cs z = mfamily cs n -> blook s z = Some c -> nlook s' z = Some r /\ blook s' z = Some (BI r (bneg c))) /\
    (forall z, mfamily cs z <> mfamily cs n -> blook s' z = blook s z).
Proof.
  intros fuel cs s o n m a b v R A A2 Ca Cb F V. pose proof (mrun_inv _ _ _ _ _ binv_empty R) as B. pose proof B as [I L].
  assert (X : forall z l, nlook s z = Some l -> exists c, blook s z = Some (BI l c)).
  { intros z l H. unfold blook. unfold nlook in H. rewrite H. destruct (nth_error (signs s) z) eqn:Ez; [eauto|]. apply nth_error_None in Ez.
    unfold look in H. destruct (nth_error (env (mem s)) z) eqn:Y; [|discriminate]. assert (z < length (env (mem s)))%nat by (apply nth_error_Some; congruence).
    rewrite (inv_len _ _ I) in *. lia. }
  destruct (X n a A) as (sa & A'). destruct (X m b A2) as (sb & B').
  destruct (nat_assign fuel s _ o n m _ _ B A' B' (is_nan_canon a Ca) (is_nan_canon b Cb) F) as (k & E & S0). cbn [bnat bneg] in S0.
  pose proof (inner2_agrees o a b Ca Cb) as G. rewrite V in G. unfold agrees in G. destruct (inner2 o a b) as [r| |]; try contradiction. cbn [bind] in S0.
  destruct (bset_look s _ n k (BI r sa) B E) as (P1 & P2 & P3). exists (bset s n k (BI r sa)), r. split; [exact S0|]. split; [exact G|]. split.
  - intros z c Fz Cz. assert (Q : blook (bset s n k (BI r sa)) z = Some (BI r (bneg c))).
    { destruct (Nat.eq_dec z n) as [->|N]; [|exact (P2 z c N Cz Fz)]. rewrite A' in Cz. injection Cz as <-. exact P1. }
    split; [|exact Q]. unfold nlook. unfold blook in Q. destruct (look (mem (bset s n k (BI r sa))) z); [|discriminate]. destruct (nth_error _ z); congruence.
  - intros z Fz. apply P3. exact Fz.
Qed.

(** The other way round: [x op= y] on a [BigInt] changes the [Nat]s taken out
    of [x] to the new magnitude. *)
Theorem C98_int_write : forall fuel cs s o x y a b p q v, mrun fuel bempty cs = Ok s ->
  blook s x = Some a -> blook s y = Some b -> is_int a p -> is_int b q -> mfamily cs x <> mfamily cs y -> ziop o p q = Some v ->
  exists s' r, mstep fuel s (MInt (BAssign o x y)) = Ok s' /\ blook s' x = Some r /\ is_int r v /\
    (forall z l, mfamily cs z = mfamily cs x -> nlook s z = Some l -> exists l', nlook s' z = Some l' /\ represents l' (Z.abs v)) /\
    (forall z, mfamily cs z <> mfamily cs x -> blook s' z = blook s z).
Proof.
  intros fuel cs s o x y a b p q v R A A2 Ia Ib F V. pose proof (mrun_inv _ _ _ _ _ binv_empty R) as B. pose proof B as [I L].
  apply is_int_iff in Ia. apply is_int_iff in Ib. subst a b. pose proof (blook_dom _ _ _ _ B A) as Lx. pose proof (blook_dom _ _ _ _ B A2) as Ly.
  destruct (bassign fuel s _ o x y _ _ B A A2) as (k & E & S0 & M).
  assert (N : Nat.eqb (nth x (mfamilies [] cs) 0%nat) (nth y (mfamilies [] cs) 0%nat) = false).
  { apply Nat.eqb_neq. intros N. apply F. unfold mfamily. rewrite (nth_error_nth' _ 0%nat Lx), (nth_error_nth' _ 0%nat Ly). congruence. }
  rewrite N in S0.
  assert (OP : b_op o (zint p) (zint q) = Ok (zint v)).
  { apply b_op_ziop. exact V. }
  rewrite OP in S0. cbn [bind] in S0. destruct (bset_look s _ x k (zint v) B E) as (P1 & P2 & P3).
  exists (bset s x k (zint v)), (zint v). split; [exact S0|]. split; [exact P1|]. split; [apply is_int_zint|]. split; [|intros z Fz; apply P3; exact Fz].
  intros z l Fz Lz. exists (bnat (zint v)). split.
  - unfold nlook, look, bset. cbn [mem env heap]. unfold nlook, look in Lz. destruct (nth_error (env (mem s)) z) as [k2|] eqn:Ez; [|discriminate].
    assert (k2 = k) by (apply (same_cell s _ z x k2 k B Ez E); exact Fz). subst k2. apply set_nth_same. eapply inv_cell; eauto.
  - rewrite zint_nat. split; [apply of_Z_canon; lia|apply of_Z_val; lia].
Qed.

(** [BigInt::from(n)] copies: a new family, the number of [n], without the
    leading zero words that [n] may have. *)
Theorem C98_of_nat : forall fuel cs s n a, mrun fuel bempty cs = Ok s -> nlook s n = Some a -> words_ok a -> a <> [] ->
  exists s', mstep fuel s (MOfNat n) = Ok s' /\
    exists r, blook s' (length (mfamilies [] cs)) = Some r /\ is_int r (nval a) /\
    forall z, (z < length (mfamilies [] cs))%nat -> mfamily (cs ++ [MOfNat n]) z <> mfamily (cs ++ [MOfNat n]) (length (mfamilies [] cs)).
Proof.
  intros fuel cs s n a R A Wa Na. pose proof (mrun_inv _ _ _ _ _ binv_empty R) as B. pose proof B as [I L].
  unfold nlook, look in A. destruct (nth_error (env (mem s)) n) as [k|] eqn:Ek; [|discriminate].
  eexists. split; [cbn [mstep]; unfold cell_of, rd_cell; rewrite Ek; cbn [bind]; rewrite A; reflexivity|].
  exists (BI (trim a) false). split; [exact (balloc_look s _ (BI (trim a) false) B)|]. rewrite trim_of_Z by auto. split.
  - apply is_int_iff. unfold zint. pose proof (nval_nonneg a Wa). rewrite Z.abs_eq by lia. f_equal. symmetry. apply Z.ltb_ge. lia.
  - intros z Lz. unfold mfamily, mfamilies. rewrite fold_left_app. cbn [fold_left madd_family]. fold (mfamilies [] cs).
    rewrite nth_error_app1 by auto. rewrite nth_error_app2, Nat.sub_diag by lia. cbn [nth_error]. intros Q. apply (inv_fam _ _ I) in Q. lia.
Qed.

(** A [Nat] command may leave leading zero words in the storage of a [BigInt].
    Whatever is computed from it by value is computed from the number: a deep
    clone, [-x], [abs] and [x op y]. *)
Theorem C98_by_value : forall fuel cs s x a, mrun fuel bempty cs = Ok s -> blook s x = Some a -> words_ok (bnat a) -> bnat a <> [] ->
  let n := length (mfamilies [] cs) in let v := nval (bnat a) in
  (exists s', mstep fuel s (MInt (BDeep x)) = Ok s' /\ blook s' n = Some (BI (of_Z v) (bneg a))) /\
  (exists s', mstep fuel s (MInt (BNeg x)) = Ok s' /\ blook s' n = Some (BI (of_Z v) (negb (bneg a) && negb (v =? 0)))) /\
  (exists s', mstep fuel s (MInt (BAbs x)) = Ok s' /\ blook s' n = Some (BI (of_Z v) false)) /\
  (forall o y b r, blook s y = Some b -> b_op o (BI (of_Z v) (bneg a)) b = Ok r ->
    exists s', mstep fuel s (MInt (BBin o x y)) = Ok s' /\ blook s' n = Some r).
Proof.
  intros fuel cs s x a R A Wa Na. cbv zeta. pose proof (mrun_inv _ _ _ _ _ binv_empty R) as B. pose proof (nval_nonneg _ Wa) as P.
  destruct (blook_env s _ x B (blook_dom s _ x a B A)) as (k & m & sx & E1 & E2 & E3 & E4). rewrite E4 in A. injection A as <-. cbn [bnat bneg] in *.
  cbn [mstep bstep]. unfold cell_of, sign_of, rd_cell. rewrite E1. cbn [bind]. rewrite E3. cbn [bind]. rewrite E2. cbn [bind]. rewrite trim_of_Z by auto.
  split; [eexists; split; [reflexivity|apply balloc_look, B]|]. split; [eexists; split; [reflexivity|rewrite (balloc_look s _ _ B)]|].
  { unfold b_neg, b_is_nan, b_eq_u32. cbn [bnat bneg]. rewrite is_nan_of_Z, of_Z_eq_u32 by (lia). destruct sx, (nval m =? 0); reflexivity. }
  split; [eexists; split; [reflexivity|rewrite (balloc_look s _ _ B)]|].
  { unfold b_abs. cbn [bnat]. rewrite trim_canon_id by (apply of_Z_canon; exact P). reflexivity. }
  intros o y b r Y Q. destruct (blook_env s _ y B (blook_dom s _ y b B Y)) as (l & n & sy & F1 & F2 & F3 & F4). rewrite F4 in Y. injection Y as <-.
  rewrite F1. cbn [bind]. rewrite F3. cbn [bind]. rewrite F2. cbn [bind]. rewrite Q. cbn [bind]. eexists. split; [reflexivity|apply balloc_look, B].
Qed.
(** x = -5; n = x.as_ref().clone(); n *= 3: x is shown with two words, its deep clone with one. *)
Example C98_by_value_case : match mrun 5 bempty [MInt (BNew [5] true); MAsNat 0; MNat (CAssignW WMul 1 3); MInt (BDeep 0); MInt (BNeg 0)] with
  | Ok s => blook s 0 = Some (BI [15; 0] true) /\ blook s 2 = Some (zint (-15)) /\ blook s 3 = Some (zint 15)
  | _ => False end.
Proof. vm_compute. auto. Qed.

(** The claim without families is false: subtracting from the [Nat] changes
    the [BigInt] it was taken from, and leaves it as a negative zero. *)
Theorem C98_shared_refuted : exists cs s s' r,
  cs = [MInt (BNew [3] true); MAsNat 0; MNat (CNew [3])] /\
  (forall fuel, mrun fuel bempty cs = Ok s /\ mstep fuel s (MNat (CAssign OSub 1 2)) = Ok s') /\
  blook s 0 = Some (zint (-3)) /\ blook s' 0 = Some r /\
  b_eq r (zint 0) = false /\ b_cmp r (zint 0) <> Some Eq /\ (forall v, ~ is_int r v).
Proof.
  do 3 eexists. exists (BI [0] true). split; [reflexivity|]. split; [intros fuel; split; reflexivity|]. split; [reflexivity|]. split; [reflexivity|]. split; [reflexivity|]. split; [discriminate|].
  intros v V. apply is_int_iff in V. unfold zint in V. injection V as V1 V2. symmetry in V2. apply Z.ltb_lt in V2.
  assert (Q : nval [0] = Z.abs v) by (rewrite V1; apply of_Z_val; lia). cbn in Q. lia.
Qed.

Example C98_case : exists s, mrun 5 bempty [MInt (BNew [7; 1] true); MAsNat 0; MNat (CNew [2]); MNat (CAssign OMul 1 2); MOfNat 1; MInt (BAssign ISub 0 3)] = Ok s /\
  blook s 0 = Some (zint (-(3 * (2 * (7 + 2 ^ 32))) + 2 * (7 + 2 ^ 32))) /\ nlook s 1 = Some (of_Z (4 * (7 + 2 ^ 32))) /\ blook s 3 = Some (zint (2 * (7 + 2 ^ 32))).
Proof. eexists. split; [vm_compute; reflexivity|]. repeat split; vm_compute; reflexivity. Qed.

Print Assumptions C98_isolation_partial.
Print Assumptions C98_as_nat.
Print Assumptions C98_nat_write.
Print Assumptions C98_int_write.
Print Assumptions C98_of_nat.
Print Assumptions C98_by_value.
Print Assumptions C98_shared_refuted.
