(** The Rat made of integers with leading zero words: property C134. *)
From Coq Require Import ZArith QArith List Lia Bool.
From Verif Require Import Words WordsFacts NatModel NatFacts NatFacts2 SpecLoose SpecLooseInt LooseFacts
  BigInt SpecInt BigIntFacts Rat SpecRat RatFacts RatFacts4 Properties_Rat.
Import ListNotations.
Open Scope Z_scope.

(** ** C134 *)
Lemma clone_stored x l a : stored_int x l a -> b_clone x = zint a.
Proof. intros (A & S). unfold b_clone. rewrite (trim_stored _ _ _ A), S. reflexivity. Qed.
Lemma abs_stored x l a : stored_int x l a -> b_abs x = zint (Z.abs a).
Proof. intros (A & S). unfold b_abs. rewrite (trim_stored _ _ _ A). unfold zint. rewrite Z.abs_involutive. destruct (Z.ltb_spec (Z.abs a) 0); [lia|reflexivity]. Qed.

Theorem C134_integer : forall x l a, stored_int x l a -> r_from_bigint x = r_from_bigint (zint a) /\
  denotes (r_from_bigint x) (inject_Z a) /\ lowest (r_from_bigint x).
Proof.
  intros x l a S. assert (E : r_from_bigint x = r_from_bigint (zint a)) by (unfold r_from_bigint; rewrite (clone_stored x l a S), zint_clone; reflexivity).
  split; [exact E|]. rewrite E. apply C72_from_integer. apply is_int_iff. reflexivity.
Qed.
Theorem C134_natural : forall x l a, stored x l a -> r_from_bigint (b_from_nat x) = r_from_bigint (zint a).
Proof.
  intros x l a S. assert (0 <= a) by (destruct S as (H & _ & _ & <-); apply nval_nonneg; auto).
  unfold r_from_bigint. rewrite zint_clone. unfold b_clone, b_from_nat. cbn [bnat bneg]. rewrite (trim_stored _ _ _ S), trim_canon_id by (apply of_Z_canon; lia). unfold zint. rewrite Z.abs_eq by lia. destruct (Z.ltb_spec a 0); [lia|reflexivity].
Qed.
(** A fraction depends on the two numbers only ... *)
Theorem C134_fraction_partial : forall x l a y k b, stored_int x l a -> stored_int y k b -> b <> 0 \/ k = 1 ->
  r_from_frac_bigint x y = r_from_frac_bigint (zint a) (zint b).
Proof.
  intros x l a y k b SX SY NZ. unfold r_from_frac_bigint. rewrite (clone_stored x l a SX), zint_clone, (abs_stored y k b SY), zint_abs.
  destruct SY as (A & SB). rewrite SB, zint_neg.
  assert (nat_eq_u32 (bnat y) 0 = nat_eq_u32 (bnat (zint b)) 0) as ->; [|reflexivity].
  rewrite zint_nat, of_Z_eq_u32 by lia. destruct A as (H & L & _ & V). unfold nat_eq_u32, nat_eq, from_u32. destruct (bnat y) as [|w [|w2 u]]; cbn [is_nan list_eqb].
  - cbn in L. destruct NZ; [|lia]. lia.
  - rewrite nval_cons in V. cbn [nval] in V. rewrite andb_true_r. destruct (Z.eqb_spec w 0), (Z.eqb_spec (Z.abs b) 0); lia.
  - rewrite andb_false_r. destruct (Z.eqb_spec (Z.abs b) 0); [|reflexivity]. cbn [length] in L. destruct NZ; lia.
Qed.
(** ... unless the denominator is a zero of several words: the error is missed,
    and the denominator becomes 1. *)
Theorem C134_zero_refuted : forall x l a y k, stored_int x l a -> stored_int y k 0 -> 1 < k ->
  r_from_frac_bigint x y = Ok (Some (r_from_bigint (zint a))) /\ r_from_frac_bigint x (zint 0) = Ok None.
Proof.
  intros x l a y k SX SY K. split; [|reflexivity]. unfold r_from_frac_bigint. rewrite (clone_stored x l a SX), (abs_stored y k 0 SY).
  destruct SY as (A & SB). rewrite SB. change (0 <? 0) with false.
  assert (nat_eq_u32 (bnat y) 0 = false) as ->.
  { destruct A as (H & L & _ & V). unfold nat_eq_u32, nat_eq, from_u32. destruct (bnat y) as [|w [|w2 u]]; cbn [is_nan list_eqb]; [reflexivity|cbn in L; lia|apply andb_false_r]. }
  unfold r_norm. cbn [rnum rden]. change (nat_eq_u32 (bnat (zint (Z.abs 0))) 0) with true. rewrite orb_true_r, orb_true_r. cbn [bind].
  unfold r_from_bigint. rewrite zint_clone. do 3 f_equal. rewrite zint_not_nan, zint_nat, of_Z_eq_u32 by lia. destruct (Z.eqb_spec (Z.abs a) 0); [|reflexivity].
  replace a with 0 by lia. reflexivity.
Qed.
(** [Rat::from_frac_bigint(&5, &(BigInt::from(0u32) << 32))] is 5. *)
Example C134_case : r_from_frac_bigint (zint 5) (b_shl (zint 0) 32) = Ok (Some (mk false 5 false 1)) /\
  r_from_frac_bigint (BI [6; 0] true) (BI [4; 0; 0] true) = Ok (Some (mk false 3 false 2)).
Proof. vm_compute. auto. Qed.

Print Assumptions C134_integer.
Print Assumptions C134_natural.
Print Assumptions C134_fraction_partial.
Print Assumptions C134_zero_refuted.
