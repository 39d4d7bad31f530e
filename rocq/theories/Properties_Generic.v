(** C28: the portable back end (nat_generic.rs) against the x86-64 one. *)
From Coq Require Import ZArith List Lia Bool.
From Verif Require Import Words WordsFacts Spec NatModel NatFacts NatFacts5 NatGeneric NatGenericFacts.
Import ListNotations.
Open Scope Z_scope.

(** Full claim: for equal canonical inputs all routines of the two back ends
    return identical word lists.  It fails for [x - u32] only: the x86-64
    routine leaves a high zero word. *)
Theorem C28_backends_differ_refuted : exists a w, canon a /\ 0 <= w < 2 ^ 32 /\
  op1 gsub_basic a w <> nat_sub_u32 a w.
Proof.
  exists [0; 1], 1. split; [split; [repeat constructor; lia|split; [discriminate|right; cbn; lia]]|].
  split; [lia|]. vm_compute. discriminate.
Qed.

(** Everything else is identical word for word; [x - u32] has the same value
    and differs exactly by the missing trim. *)
Theorem C28_backends_agree_partial : forall a b w, canon a -> canon b -> 0 <= w < 2 ^ 32 ->
  op2 gadd_inner a b = nat_add a b /\
  op2 gsub_inner a b = nat_sub a b /\
  gsub_with_sign a b = sub_inner_with_sign a b /\
  op2 gmul_inner a b = nat_mul a b /\
  op1 gadd_basic a w = nat_add_u32 a w /\
  op1 gsub_basic a w = trim (nat_sub_u32 a w) /\
  nval (op1 gsub_basic a w) = nval (nat_sub_u32 a w).
Proof.
  intros a b w Ha Hb Hw. change (2 ^ 32) with W in Hw.
  unfold nat_add, nat_sub, nat_mul, nat_add_u32, nat_sub_u32.
  rewrite !op2_canon, !op1_canon by auto.
  split; [apply gadd_inner_eq; auto|].
  split; [unfold gsub_inner, sub_inner; rewrite gsub_with_sign_eq; auto|].
  split; [apply gsub_with_sign_eq; auto|].
  split; [apply gmul_inner_eq; auto|].
  split; [apply gadd_basic_eq; auto using canon_words; lia|].
  rewrite gsub_basic_trim by auto. split; [reflexivity|apply trim_val].
Qed.

(** Independently of the other back end: the portable routines are exact. *)
Theorem C28_generic_exact : forall a b w, canon a -> canon b -> 0 <= w < 2 ^ 32 ->
  represents (op2 gadd_inner a b) (nval a + nval b) /\
  represents (op2 gsub_inner a b) (Z.abs (nval a - nval b)) /\
  (snd (gsub_with_sign a b) = true <-> nval b <= nval a) /\
  represents (op2 gmul_inner a b) (nval a * nval b) /\
  represents (op1 gadd_basic a w) (nval a + w) /\
  represents (op1 gsub_basic a w) (Z.abs (nval a - w)).
Proof.
  intros a b w Ha Hb Hw.
  destruct (C28_backends_agree_partial a b w Ha Hb Hw) as (E1 & E2 & E3 & E4 & E5 & E6 & _).
  rewrite E1, E2, E3, E4, E5, E6.
  split; [apply nat_add_rep; auto|]. split; [apply nat_sub_rep; auto|].
  split; [apply sub_inner_with_sign_spec with (a := a) (b := b) in Ha as (_ & _ & ->); auto; apply Z.leb_le|].
  split; [apply nat_mul_rep; auto|].
  destruct (u32_ops_rep a w Ha Hw) as (U1 & U2 & _). split; [exact U1|].
  destruct U2 as [U2 U3]. split; [|rewrite trim_val; auto].
  apply trim_canon; auto. intros E. rewrite E in U3.
  unfold nat_sub_u32 in E. rewrite op1_canon in E by auto.
  destruct (sub_basic_spec a w Ha Hw) as (_ & _ & L). rewrite E in L.
  pose proof (canon_len_pos a Ha). cbn in L. lia.
Qed.
Example C28_case :
  op2 gmul_inner [4294967295; 4294967295; 4294967295] [4294967295; 4294967295; 4294967295]
    = [1; 0; 0; 4294967294; 4294967295; 4294967295] /\
  op2 gsub_inner [5] [0; 0; 1] = [4294967291; 4294967295] /\
  op2 gadd_inner [4294967295; 4294967295] [1] = [0; 0; 1] /\
  op1 gsub_basic [0; 1] 1 = [4294967295] /\ nat_sub_u32 [0; 1] 1 = [4294967295; 0].
Proof. vm_compute. auto 10. Qed.
Print Assumptions C28_backends_differ_refuted.
Print Assumptions C28_backends_agree_partial.
Print Assumptions C28_generic_exact.
