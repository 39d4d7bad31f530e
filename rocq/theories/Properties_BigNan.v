(** Final statements about the NaN of [BigInt]: C95.

    A [BigInt] is NaN when its magnitude has no words; the sign field is then
    meaningless, but it is there, and [-3 % NaN] leaves it negative.  So the
    statements are about both NaN values. *)
From Coq Require Import ZArith Lia String List Bool.
From Verif Require Import Words NatModel NatConv NatPow VecPrims Karatsuba NatExp BigInt NumBig.
Import ListNotations.
Open Scope Z_scope.

(* ------------------------------------------------------------------ *)
(** ** C95 *)

Lemma sub_u32_nan w : nat_sub_u32 [] w = [].
Proof. reflexivity. Qed.
Lemma add_u32_nan w : nat_add_u32 [] w = [].
Proof. reflexivity. Qed.
Lemma or_nan a : nat_bitor [] a = [] /\ nat_bitor a [] = [].
Proof. destruct a; split; reflexivity. Qed.
Lemma and_nan a : nat_bitand [] a = [] /\ nat_bitand a [] = [].
Proof. destruct a; split; reflexivity. Qed.
Lemma xor_nan a : nat_bitxor [] a = [] /\ nat_bitxor a [] = [].
Proof. destruct a; split; reflexivity. Qed.
Lemma andnot_nan a : and_not [] a = [].
Proof. destruct a; reflexivity. Qed.

(** The full claim is false: [and_not] with NaN on the right gives the left
    operand back, and [&] and [|] with a NaN that carries a minus sign give
    numbers. *)
Definition nan_contagious : Prop := forall x y, b_is_nan x = true \/ b_is_nan y = true ->
  forall op, In op [b_add; b_sub; b_mul; b_xor; b_and; b_or; b_and_not] -> b_is_nan (op x y) = true.

Theorem C95_contagious_refuted : ~ nan_contagious /\
  (forall a, a <> [] -> words_ok a -> and_not a nan = trim a) /\
  (exists m, b_rem (BI [3] true) b_nan = Ok m /\ b_is_nan m = true /\
     b_and (BI [5] false) m = BI [5] false /\ b_or m (BI [5] false) = BI [6] true) /\
  b_and_not (BI [5] false) b_nan = BI [5] false.
Proof.
  split.
  { intros H. specialize (H (BI [5] false) b_nan (or_intror eq_refl) b_and_not ltac:(cbn [In]; tauto)). discriminate H. }
  split. { intros [|x a] N _; [contradiction|reflexivity]. }
  split; [|reflexivity].
  exists (BI [] true). repeat split; reflexivity.
Qed.

(** What holds.  [+], [-], [*] give the NaN with no sign, [^] gives NaN. *)
Theorem C95_arith_partial : forall x y, b_is_nan x = true \/ b_is_nan y = true ->
  b_add x y = b_nan /\ b_sub x y = b_nan /\ b_mul x y = b_nan /\ b_is_nan (b_xor x y) = true.
Proof.
  intros [a s] [b t] H. unfold b_is_nan in H. cbn [bnat] in H.
  assert (F : forall n s, n = [] -> b_signed n s = b_nan) by (intros n u ->; reflexivity).
  assert (E : (a = [] /\ True) \/ b = []).
  { destruct H as [H|H]; [left|right]; [destruct a|destruct b]; try discriminate; auto. }
  clear H. unfold b_add, b_sub, b_mul, b_xor. cbn [bnat bneg].
  assert (A : nat_add a b = [] /\ nat_sub a b = [] /\ nat_mul a b = []).
  { destruct E as [[-> _]| ->]; [|destruct a]; repeat split; reflexivity. }
  destruct A as (A & B & C). rewrite A, B, C. split; [|split; [|split]].
  - destruct (eqb s t); apply F; reflexivity.
  - destruct (eqb s t); apply F; reflexivity.
  - apply F; reflexivity.
  - destruct E as [[-> _]| ->]; destruct s, t; cbn [eqb]; rewrite ?sub_u32_nan;
      rewrite ?(proj1 (xor_nan _)), ?(proj2 (xor_nan _)); reflexivity.
Qed.

(** [&] and [|]: NaN, as long as no NaN operand carries a minus sign. *)
Theorem C95_and_or_partial : forall x y, b_is_nan x = true \/ b_is_nan y = true ->
  (b_is_nan x = true -> bneg x = false) -> (b_is_nan y = true -> bneg y = false) ->
  b_is_nan (b_and x y) = true /\ b_is_nan (b_or x y) = true.
Proof.
  intros [a s] [b t] H X Y. unfold b_is_nan in *. cbn [bnat bneg] in *.
  destruct H as [H|H].
  - specialize (X H). subst s. destruct a; [clear H|discriminate H]. unfold b_and, b_or. cbn [bnat bneg].
    destruct t; cbn [eqb]; rewrite ?andnot_nan, ?(proj1 (and_nan _)), ?(proj1 (or_nan _)); split; reflexivity.
  - specialize (Y H). subst t. destruct b; [clear H|discriminate H]. unfold b_and, b_or. cbn [bnat bneg].
    destruct s; cbn [eqb]; rewrite ?andnot_nan, ?(proj2 (and_nan _)), ?(proj2 (or_nan _)); split; reflexivity.
Qed.

(** [and_not]: NaN on the left always; on the right when the left operand is
    negative. *)
Theorem C95_and_not_partial : forall x y,
  (b_is_nan x = true -> b_is_nan (b_and_not x y) = true) /\
  (b_is_nan y = true -> bneg x = true -> bneg y = false -> b_is_nan (b_and_not x y) = true).
Proof.
  intros [a s] [b t]. unfold b_is_nan, b_and_not. cbn [bnat bneg]. split.
  - intros H. destruct a; [clear H|discriminate H].
    destruct s, t; cbn [eqb]; rewrite ?sub_u32_nan, ?andnot_nan, ?(proj1 (and_nan _)), ?(proj1 (or_nan _)); reflexivity.
  - intros H -> ->. destruct b; [clear H|discriminate H]. cbn [eqb]. rewrite (proj2 (or_nan _)). reflexivity.
Qed.

(** Division by NaN, and of NaN by anything but zero; zero panics. *)
Theorem C95_division : forall x y, b_is_nan x = true \/ b_is_nan y = true ->
  forall op, In op [b_div; b_rem; b_rem_euclid; b_div_euclid] ->
  if nat_eq_u32 (bnat y) 0 then op x y = Panic
  else exists z, op x y = Ok z /\ b_is_nan z = true.
Proof.
  intros [a s] [b t] H op I. unfold b_is_nan in H. cbn [bnat] in *.
  assert (D : nat_eq_u32 b 0 = false -> nat_div a b = Ok [] /\ nat_rem a b = Ok []).
  { destruct H as [H|H]; [destruct a; [|discriminate H]|destruct b; [|discriminate H]; destruct a]; split; reflexivity. }
  destruct (nat_eq_u32 b 0) eqn:Z.
  - cbn [In] in I. repeat destruct I as [<-|I]; try contradiction;
      unfold b_div_euclid, b_rem_euclid, b_rem, b_div; cbn [bnat]; rewrite Z; reflexivity.
  - destruct (D eq_refl) as [D1 D2]. cbn [In] in I. repeat destruct I as [<-|I]; try contradiction;
      unfold b_div_euclid, b_rem_euclid, b_rem, b_div; cbn [bnat bneg]; rewrite Z, ?D1, ?D2; cbn [bind];
      rewrite ?Z, ?D1; cbn [bind]; (eexists; split; [reflexivity|reflexivity]).
Qed.

(** The operations on one value. *)
Theorem C95_unary : forall x k, b_is_nan x = true -> 0 <= k ->
  b_neg x = x /\ b_abs x = b_nan /\ b_not x = b_nan /\
  b_is_nan (b_shl x k) = true /\ b_is_nan (b_shr x k) = true /\
  b_sqr x = Ok b_nan /\ b_sqrt x = Ok b_nan /\
  b_signnum x = None /\ b_is_set_bit x k = Ok None /\ b_bits_len x = 0 /\
  b_is_negative x = false /\ b_is_positive x = false /\ b_is_natural x = false /\
  b_set_natural x = x /\ b_set_negative x = x /\
  b_fmt_display x = Ok [78; 97; 78] /\ b_to_le_bytes x = [] /\ b_to_be_bytes x = [].
Proof.
  intros [a s] k H K. unfold b_is_nan in H. cbn [bnat] in H. destruct a; [clear H|discriminate H].
  assert (B : b_is_set_bit (BI [] s) k = Ok None).
  { unfold b_is_set_bit, is_set_bit. cbn [bnat bneg]. rewrite sub_u32_nan. change (bits_len []) with 0.
    assert (L : (0 <=? k) = true) by (apply Z.leb_le; lia). rewrite L. destruct s; reflexivity. }
  destruct s; repeat split; try exact B; reflexivity.
Qed.

(** Number theory: NaN (or "no answer") as soon as one argument is NaN. *)
Theorem C95_numeric : forall x y z fuel checks,
  (b_is_nan x = true \/ b_is_nan y = true ->
     b_gcd x y = Ok (b_nan, b_nan, b_nan) /\ b_mod_inverse x y = Ok b_nan /\
     b_jacobi x y = Ok None /\ b_mod_sqrt fuel checks x y = Ok None) /\
  (b_is_nan x = true \/ b_is_nan y = true \/ b_is_nan z = true ->
     b_exp checks x y z = Ok b_nan /\ b_solve x y z = Ok None).
Proof.
  intros x y z fuel checks. split.
  - intros H. assert (E : b_is_nan x || b_is_nan y = true) by (apply orb_true_iff; exact H).
    assert (J : b_jacobi x y = Ok None) by (unfold b_jacobi; rewrite E; reflexivity).
    repeat split; [unfold b_gcd|unfold b_mod_inverse|exact J|unfold b_mod_sqrt; rewrite J]; rewrite ?E; reflexivity.
  - intros H. assert (E : b_is_nan x || b_is_nan y || b_is_nan z = true).
    { destruct H as [->|[->| ->]]; rewrite ?orb_true_r; reflexivity. }
    split; [unfold b_exp|unfold b_solve]; rewrite E; reflexivity.
Qed.

Example C95_case :
  b_add (BI [5] false) (BI [] true) = b_nan /\ b_rem (BI [5] true) b_nan = Ok (BI [] true) /\
  b_div b_nan (BI [0] false) = Panic /\ b_mod_inverse (BI [3] false) b_nan = Ok b_nan /\
  b_and (BI [5] true) b_nan = b_nan.
Proof. repeat split; reflexivity. Qed.
Print Assumptions C95_contagious_refuted.
Print Assumptions C95_arith_partial.
Print Assumptions C95_and_or_partial.
Print Assumptions C95_and_not_partial.
Print Assumptions C95_division.
Print Assumptions C95_unary.
Print Assumptions C95_numeric.
