(** Jacobi symbols and linear congruences of numbers with leading zero words:
    property C137. *)
From Coq Require Import ZArith List Lia Bool.
From Verif Require Import Words Spec WordsFacts NatModel NatFacts NatFacts2 NatFacts5 SpecLoose LooseFacts SpecShift
  BigInt SpecInt BigIntFacts BigIntFacts3 SpecLooseInt NumBig Properties_Loose3.
Import ListNotations.
Open Scope Z_scope.

(** ** C137
    [jacobi] depends on the two numbers only ... *)
Theorem C137_jacobi_partial : forall x l a y k b, stored_int x l a -> stored_int y k b -> b <> 0 \/ k = 1 ->
  b_jacobi x y = b_jacobi (zint a) (zint b).
Proof.
  intros x l a y k b SX SY NZ. unfold b_jacobi.
  rewrite (int_nan _ _ _ SX), (int_nan _ _ _ SY), (int_neg _ _ _ SX), (int_neg _ _ _ SY), (int_zero _ _ _ SY), (clone_int _ _ _ SX), (clone_int _ _ _ SY).
  rewrite !zint_clone, !zint_not_nan, !zint_is_negative, zint_eq_u32 by lia. cbn [orb].
  assert ((k =? 1) && (b =? 0) = (b =? 0)) as -> by (destruct (Z.eqb_spec k 1), (Z.eqb_spec b 0); cbn; auto; lia).
  destruct SY as (A & _). rewrite (trim_stored _ _ _ A), zint_nat, trim_canon_id by apply abs_canon. reflexivity.
Qed.
(** ... except for a second argument that is a zero of several words. *)
Theorem C137_jacobi_zero_refuted : forall x l a y k, stored_int x l a -> stored_int y k 0 -> 1 < k ->
  b_jacobi x y = (if a =? 0 then Ok (Some 0) else Panic) /\ b_jacobi x (zint 0) = Ok None.
Proof.
  intros x l a y k SX SY K. unfold b_jacobi.
  rewrite (int_nan _ _ _ SX), (int_nan _ _ _ SY), (int_neg _ _ _ SY), (int_zero _ _ _ SY), (clone_int _ _ _ SX), (clone_int _ _ _ SY).
  split; [|reflexivity]. destruct (Z.eqb_spec k 1); [lia|]. cbn [orb andb]. change (0 <? 0) with false. cbv iota.
  unfold jacobi_fuel. cbn [Nat.add jacobi_loop]. change (b_eq_u32 (zint 0) 1) with false. cbv iota. rewrite zint_nat, of_Z_eq_u32 by lia.
  destruct (Z.eqb_spec a 0) as [->|N]; [reflexivity|]. destruct (Z.eqb_spec (Z.abs a) 0); [lia|]. unfold b_rem_euclid. rewrite b_rem_zero. reflexivity.
Qed.
(** The solutions of a congruence depend on the two numbers only, for a modulus
    without leading zero words. *)
Theorem C137_solve_partial : forall x l a y k b z n, stored_int x l a -> stored_int y k b -> is_int z n ->
  b_solve x y z = b_solve (zint a) (zint b) (zint n).
Proof.
  intros x l a y k b z n SX SY SZ. apply is_int_iff in SZ. subst z. unfold b_solve.
  rewrite (int_nan _ _ _ SX), (int_nan _ _ _ SY), (int_neg _ _ _ SX), (clone_int _ _ _ SX), (clone_int _ _ _ SY).
  rewrite !zint_clone, !zint_not_nan, !zint_is_negative, zint_abs. cbn [orb].
  assert (EN : (if n <? 0 then zint (Z.abs n) else zint n) = zint (Z.abs n)) by (destruct (Z.ltb_spec n 0); f_equal; lia). rewrite EN.
  set (m := Z.abs n).
  assert (TAIL : forall v d u w, v = Ok (zint d, zint u, zint w) ->
    (do '(d, x, _) <- v; if b_gt d (b_from_u32 0) then
      do divisible <- (if b_eq y (b_from_u32 0) then Ok true else do r <- b_rem (zint b) d; Ok (b_eq_u32 r 0));
      if divisible : bool then
        do q <- b_div (zint b) d; do x0 <- b_rem_euclid (b_clone (b_mul x q)) (zint m); do nd <- b_div (b_clone (zint m)) d;
        do l <- solve_loop (Z.to_nat (nval (bnat d))) (b_from_u32 0) d x0 nd (zint m); Ok (Some l)
      else Ok None else Ok None) =
    (do '(d, x, _) <- v; if b_gt d (b_from_u32 0) then
      do divisible <- (if b_eq (zint b) (b_from_u32 0) then Ok true else do r <- b_rem (zint b) d; Ok (b_eq_u32 r 0));
      if divisible : bool then
        do q <- b_div (zint b) d; do x0 <- b_rem_euclid (b_clone (b_mul x q)) (zint m); do nd <- b_div (b_clone (zint m)) d;
        do l <- solve_loop (Z.to_nat (nval (bnat d))) (b_from_u32 0) d x0 nd (zint m); Ok (Some l)
      else Ok None else Ok None)).
  { intros v d u w ->. cbn [bind]. rewrite zint_u32, zint_gt, zint_eq by lia. destruct (Z.gtb_spec d 0) as [D|D]; [|reflexivity].
    assert (EQ : (if b_eq y (zint 0) then Ok true else do r <- b_rem (zint b) (zint d); Ok (b_eq_u32 r 0)) = (if b =? 0 then Ok true else do r <- b_rem (zint b) (zint d); Ok (b_eq_u32 r 0))).
    { assert (b_eq y (zint 0) = (k =? 1) && (b =? 0)) as ->.
      { destruct SY as (A & SB). unfold b_eq. rewrite SB, zint_neg, zint_nat. change (of_Z (Z.abs 0)) with [0]. rewrite (eqb_stored _ _ _ [0] 1 0 A) by (apply single_stored; lia).
        destruct (Z.ltb_spec b 0), (k =? 1), (Z.eqb_spec (Z.abs b) 0), (Z.eqb_spec b 0); cbn; try reflexivity; lia. }
      destruct (Z.eqb_spec b 0) as [->|]; [|rewrite andb_false_r; reflexivity]. destruct (k =? 1); [reflexivity|]. cbn [andb]. rewrite zint_rem, Z.rem_0_l by lia. reflexivity. }
    rewrite EQ. reflexivity. }
  destruct (a <? 0) eqn:EA.
  - destruct (b_rem_euclid (zint a) (zint m)) as [g| |] eqn:EG; cbn [bind]; [|reflexivity..]. assert (G : exists c, g = zint c).
    { destruct (Z.eq_dec m 0) as [M0|M0]; [rewrite M0 in EG; unfold b_rem_euclid in EG; rewrite b_rem_zero in EG; discriminate|]. rewrite zint_rem_euclid in EG by lia. injection EG as <-. eauto. }
    destruct G as (c & ->). destruct (b_gcd_spec c m) as (u & v & E & _). exact (TAIL _ _ _ _ E).
  - cbn [bind]. destruct (C135_gcd x l a (zint m) (words m) m SX) as (E & u & v & E0 & _).
    { split; [rewrite zint_nat; replace (Z.abs m) with m by (unfold m; lia); apply of_Z_stored; unfold m; lia|apply zint_neg]. }
    rewrite (TAIL _ _ _ _ E0). destruct (Z.eq_dec a 0) as [->|]; [destruct (Z.eq_dec m 0) as [M0|]|]; [|rewrite E by auto; reflexivity..].
    rewrite E0, M0. reflexivity.
Qed.
(** x = 20 modulo 3 * 5u32 has the solution 20. *)
Theorem C137_solve_refuted : exists n, n = nat_mul_u32 [3] 5 /\ nval n = 15 /\
  b_solve (zint 1) (zint 20) (BI n false) = Ok (Some [zint 20]) /\ b_solve (zint 1) (zint 20) (zint 15) = Ok (Some [zint 5]).
Proof. eexists. split; [reflexivity|]. vm_compute. auto. Qed.
Example C137_case : b_jacobi (BI [7; 0] true) (BI [15; 0; 0] false) = Ok (Some 1) /\ b_jacobi (zint 5) (b_shl (zint 0) 32) = Panic /\
  b_solve (BI [6; 0] false) (BI [0; 0] false) (zint 9) = Ok (Some [zint 0; zint 3; zint 6]).
Proof. vm_compute. auto. Qed.

Print Assumptions C137_jacobi_partial.
Print Assumptions C137_jacobi_zero_refuted.
Print Assumptions C137_solve_partial.
Print Assumptions C137_solve_refuted.
