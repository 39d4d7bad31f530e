(** Shared storage of [Rat] handles: C84. *)
From Coq Require Import ZArith List Lia Bool.
From Verif Require Import Words WordsFacts NatModel Spec SpecInt BigInt BigIntFacts Rat SpecRat AliasInt AliasRat SpecAliasRat AliasRatFacts.
Import ListNotations.
Open Scope Z_scope.

(** A Rat keeps its value as long as nobody assigns to a Rat of its family of
    clones or to a BigInt taken from it. *)
Theorem C84_isolation_partial : forall cs ds s s' x, rrun rempty cs = Ok s -> rrun s ds = Ok s' -> rlook s x <> None ->
  (forall c, In c ds -> ~ touches (rfamilies ([], []) (cs ++ ds)) c (rat_family (cs ++ ds) x)) -> rlook s' x = rlook s x.
Proof.
  intros cs ds s s' x R R' N T. destruct (rlook s x) as [v|] eqn:L; [|congruence]. unfold rat_family in T. rewrite rfamilies_app in T.
  exact (rrun_frame ds s s' _ x v (rrun_inv _ _ _ _ rinv_empty R) R' L T).
Qed.
(** Assigning to one Rat does not change its clones, when no operand is NaN. *)
Theorem C84_clones_partial : forall cs s s' o t y x a b, rrun rempty cs = Ok s -> rstep s (RAssign o t y) = Ok s' ->
  rlook s t = Some a -> rlook s y = Some b -> r_is_nan a = false -> r_is_nan b = false -> x <> t -> rlook s x <> None -> rlook s' x = rlook s x.
Proof.
  intros cs s s' o t y x a b R H A B NA NB D N. destruct (rlook s x) as [v|] eqn:L; [|congruence]. cbn [rstep] in H.
  rewrite (proj2 (rread_iff s t a) A), (proj2 (rread_iff s y b) B) in H. cbn [bind] in H. replace (clears o a b) with false in H by (destruct o; cbn [clears]; rewrite ?NA, ?NB; reflexivity).
  rok H. injection H as <-. eapply rlook_grow; [exact L|reflexivity|]. cbn [rpoint rats]. apply upd_other. auto.
Qed.
(** [x op= y] gives what [x op y] gives, however x and y share their storage. *)
Theorem C84_assign : forall cs s o x y a b, rrun rempty cs = Ok s -> rlook s x = Some a -> rlook s y = Some b -> r_is_nan a = false -> r_is_nan b = false ->
  match rstep s (RBin o x y), rstep s (RAssign o x y) with
  | Ok s1, Ok s2 => exists r, r_op o a b = Ok r /\ rlook s1 (length (fst (rfamilies ([], []) cs))) = Some r /\ rlook s2 x = Some r
  | Panic, Panic => True
  | Fuel, Fuel => True
  | _, _ => False
  end.
Proof.
  intros cs s o x y a b R A B NA NB. destruct (rrun_inv _ _ _ _ rinv_empty R) as (L1 & _). rewrite <- L1.
  cbn [rstep]. rewrite (proj2 (rread_iff s x a) A), (proj2 (rread_iff s y b) B). cbn [bind]. replace (clears o a b) with false by (destruct o; cbn [clears]; rewrite ?NA, ?NB; reflexivity).
  assert (E : r_op o a b = r_inner o a b). { destruct o; cbn [r_op r_inner]; unfold r_add, r_sub, r_mul, r_div, r_op2; rewrite NA, NB; reflexivity. }
  rewrite E. destruct (r_inner o a b) as [r| |]; cbn [bind]; auto. exists r. split; [reflexivity|]. split; [apply ralloc_look|eapply rpoint_look; eauto].
Qed.
(** With a NaN operand x becomes NaN; [*=] with a number on the left and a NaN
    on the right is C75_mul_assign. *)
Theorem C84_assign_nan : forall cs s o x y a b, rrun rempty cs = Ok s -> rlook s x = Some a -> rlook s y = Some b -> r_is_nan a = true \/ o <> RMul /\ r_is_nan b = true ->
  exists s' r, rstep s (RAssign o x y) = Ok s' /\ rlook s' x = Some r /\ r_is_nan r = true.
Proof.
  intros cs s o x y a b R A B N. cbn [rstep]. rewrite (proj2 (rread_iff s x a) A), (proj2 (rread_iff s y b) B). cbn [bind].
  replace (clears o a b) with true by (destruct N as [N|(D & N)]; destruct o; cbn [clears]; try congruence; rewrite N, ?orb_true_r; reflexivity).
  apply rlook_iff in A. destruct A as (h & k & p & q & X & P & Q & ->). unfold rhead. rewrite X. cbn [bind]. eexists. 
  assert (L : (snd h < length (rheap s))%nat) by (apply nth_error_Some; congruence).
  destruct (Nat.eq_dec (snd h) (snd k)) as [E|E].
  - exists (RT (BI nan (fst h)) (BI nan (fst k))). split; [reflexivity|]. split; [|reflexivity]. apply rlook_iff. exists h, k, nan, nan. cbn [rats rheap]. rewrite <- E, upd_same by exact L. auto.
  - exists (RT (BI nan (fst h)) (BI q (fst k))). split; [reflexivity|]. split; [|reflexivity]. apply rlook_iff. exists h, k, nan, q. cbn [rats rheap]. rewrite upd_same, upd_other by auto. auto.
Qed.
(** What a deep clone and [-x] show: the same numbers in their shortest form,
    whatever leading zero words the storage of x had. *)
Theorem C84_deep : forall cs s x a, rrun rempty cs = Ok s -> rlook s x = Some a ->
  words_ok (bnat (rnum a)) -> bnat (rnum a) <> [] -> words_ok (bnat (rden a)) -> bnat (rden a) <> [] ->
  let n := length (fst (rfamilies ([], []) cs)) in let p := nval (bnat (rnum a)) in let q := nval (bnat (rden a)) in
  (exists s', rstep s (RDeep x) = Ok s' /\ rlook s' n = Some (RT (BI (of_Z p) (bneg (rnum a))) (BI (of_Z q) (bneg (rden a))))) /\
  (exists s', rstep s (RNeg x) = Ok s' /\ rlook s' n = Some (RT (BI (of_Z p) (negb (bneg (rnum a)) && negb (p =? 0))) (BI (of_Z q) (bneg (rden a))))).
Proof.
  intros cs s x a R A Wp Np Wq Nq. cbv zeta. destruct (rrun_inv _ _ _ _ rinv_empty R) as (L1 & _). rewrite <- L1.
  cbn [rstep]. rewrite (proj2 (rread_iff s x a) A). cbn [bind]. unfold r_deep. rewrite !trim_of_Z by auto. pose proof (nval_nonneg _ Wp). pose proof (nval_nonneg _ Wq).
  split; (eexists; split; [reflexivity|rewrite ralloc_look]); [reflexivity|].
  unfold r_neg, r_is_nan, b_neg, b_is_nan, b_eq_u32. cbn [rnum rden bnat bneg]. rewrite !is_nan_of_Z, of_Z_eq_u32 by lia. cbn [orb].
  destruct (bneg (rnum a)), (nval (bnat (rnum a)) =? 0); reflexivity.
Qed.
Example C84_deep_case : match rrun rempty [RNew (RT (BI [3; 0] true) (BI [7; 0; 0] false)); RDeep 0; RNeg 0] with
  | Ok s => map (rlook s) [1; 2]%nat = [Some (RT (zint (-3)) (zint 7)); Some (RT (zint 3) (zint 7))]
  | _ => False end.
Proof. vm_compute. reflexivity. Qed.
(** What a new handle shows. *)
Theorem C84_copies : forall cs s x a, rrun rempty cs = Ok s -> rlook s x = Some a ->
  (exists s', rstep s (RClone x) = Ok s' /\ rlook s' (length (fst (rfamilies ([], []) cs))) = Some a) /\
  (exists s', rstep s (RNumer x) = Ok s' /\ ilook s' (length (snd (rfamilies ([], []) cs))) = Some (rnum a)) /\
  (exists s', rstep s (RDenom x) = Ok s' /\ ilook s' (length (snd (rfamilies ([], []) cs))) = Some (rden a)).
Proof.
  intros cs s x a R A. destruct (rrun_inv _ _ _ _ rinv_empty R) as (L1 & L2 & _). rewrite <- L1, <- L2. apply rlook_iff in A. destruct A as (h & k & p & q & X & P & Q & ->).
  cbn [rstep]. unfold rhead. rewrite X. cbn [bind rnum rden]. split; [|split]; (eexists; split; [reflexivity|]).
  - apply rlook_iff. exists h, k, p, q. cbn [rats rheap]. rewrite nth_error_app2, Nat.sub_diag by lia. auto.
  - unfold ilook. cbn [ints]. rewrite nth_error_app2, Nat.sub_diag by lia. cbn [nth_error]. unfold iread. cbn [rheap]. rewrite P. reflexivity.
  - unfold ilook. cbn [ints]. rewrite nth_error_app2, Nat.sub_diag by lia. cbn [nth_error]. unfold iread. cbn [rheap]. rewrite Q. reflexivity.
Qed.

Definition r_half : rat := RT (zint 1) (zint 2).
(** x = 1/2; y = x.clone(); x += NaN: now y is NaN. *)
Theorem C84_nan_refuted : exists cs c s s' v, rrun rempty cs = Ok s /\ c = RAssign RAdd 0 2 /\ rstep s c = Ok s' /\ rlook s 1 = Some r_half /\ rlook s' 1 = Some v /\ r_is_nan v = true.
Proof. exists [RNew r_half; RClone 0; RNew r_nan], (RAssign RAdd 0 2). do 3 eexists. split; [reflexivity|]. split; [reflexivity|]. split; [reflexivity|]. split; [reflexivity|]. split; reflexivity. Qed.
(** n = x.numerator().clone(); n += 3: now x is 4/2, not in lowest terms. *)
Theorem C84_numerator_refuted : exists cs c s s', rrun rempty cs = Ok s /\ c = IAssign IAdd 0 (zint 3) /\ rstep s c = Ok s' /\ rlook s 0 = Some r_half /\ rlook s' 0 = Some (RT (zint 4) (zint 2)).
Proof. exists [RNew r_half; RNumer 0], (IAssign IAdd 0 (zint 3)). do 2 eexists. split; [reflexivity|]. split; [reflexivity|]. split; [reflexivity|]. split; reflexivity. Qed.
(** d = x.denominator().clone(); d -= 2: now x has denominator 0. *)
Theorem C84_denominator_refuted : exists cs c s s', rrun rempty cs = Ok s /\ c = IAssign ISub 0 (zint 2) /\ rstep s c = Ok s' /\ rlook s 0 = Some r_half /\ rlook s' 0 = Some (RT (zint 1) (zint 0)).
Proof. exists [RNew r_half; RDenom 0], (IAssign ISub 0 (zint 2)). do 2 eexists. split; [reflexivity|]. split; [reflexivity|]. split; [reflexivity|]. split; reflexivity. Qed.
Example C84_case : exists s, rrun rempty [RNew r_half; RClone 0; RDeep 0; RBin RAdd 0 1; RAssign RMul 0 1; RAssign RSub 1 1; RNumer 2; ISign 0 true; RNeg 0] = Ok s /\
  map (rlook s) [0; 1; 2; 3; 4]%nat = [Some (RT (zint 1) (zint 4)); Some (RT (zint 0) (zint 4)); Some r_half; Some (RT (zint 1) (zint 1)); Some (RT (zint (-1)) (zint 4))] /\ ilook s 0 = Some (zint (-1)).
Proof. eexists. split; [vm_compute; reflexivity|]. split; vm_compute; reflexivity. Qed.
Print Assumptions C84_isolation_partial.
Print Assumptions C84_clones_partial.
Print Assumptions C84_assign.
Print Assumptions C84_assign_nan.
Print Assumptions C84_copies.
Print Assumptions C84_deep.
Print Assumptions C84_nan_refuted.
Print Assumptions C84_numerator_refuted.
Print Assumptions C84_denominator_refuted.
