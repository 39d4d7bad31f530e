(** Final statements about the powers and the square root of [Nat]: C16, C17,
    C19. *)
From Coq Require Import ZArith List Lia Bool.
From Verif Require Import Words Spec WordsFacts NatModel NatFacts5 NatPow NatPowFacts.
Import ListNotations.
Open Scope Z_scope.

(** ** C16 *)
Theorem C16_nat_pow : forall a b, canon a -> canon b ->
  exists r, nat_pow a b = Ok r /\ represents r (nval a ^ nval b).
Proof.
  intros a b Ha Hb. exists (of_Z (nval a ^ nval b)). pose proof (canon_nonneg a Ha). split.
  - unfold nat_pow. rewrite !NatFacts.is_nan_canon, trim_canon_id by auto. apply pow_inner_of_Z; auto.
  - apply rep_of_Z, Z.pow_nonneg. auto.
Qed.
Theorem C16_nat_pow_nan : forall a b, a = nan \/ b = nan -> nat_pow a b = Ok nan.
Proof. intros a b [-> | ->]; [reflexivity|]. destruct a; reflexivity. Qed.
Example C16_case : nat_pow [0; 1] [3] = Ok [0; 0; 0; 1] /\ nat_pow [3] [21] = Ok [1870418611; 2]
  /\ nat_pow [0] [0] = Ok [1] /\ nat_pow [0] [5] = Ok [0] /\ 3 ^ 21 = 1870418611 + 2 * 2 ^ 32.
Proof. vm_compute. repeat split. Qed.
Print Assumptions C16_nat_pow.
Print Assumptions C16_nat_pow_nan.

(** ** C17 *)
Theorem C17_nat_pow_mod : forall a b n, canon a -> canon b -> canon n -> 0 < nval n ->
  exists r, nat_pow_mod a b n = Ok r /\ represents r (nval a ^ nval b mod nval n).
Proof.
  intros a b n Ha Hb Hn Hp. exists (of_Z (nval a ^ nval b mod nval n)). split.
  - unfold nat_pow_mod. rewrite !NatFacts.is_nan_canon, trim_canon_id by auto. apply pow_mod_inner_of_Z; auto.
  - apply rep_of_Z, Z.mod_pos_bound. lia.
Qed.
Theorem C17_nat_pow_mod_zero : forall a b n, canon a -> canon b -> canon n -> nval n = 0 ->
  exists r, nat_pow_mod a b n = Ok r /\ represents r (nval a ^ nval b).
Proof.
  intros a b n Ha Hb Hn Hp. exists (of_Z (nval a ^ nval b)). pose proof (canon_nonneg a Ha). split.
  - unfold nat_pow_mod. rewrite !NatFacts.is_nan_canon, trim_canon_id by auto. unfold pow_mod_inner.
    rewrite NatFacts.nat_eq_u32_spec by (auto; lia). rewrite Hp. apply pow_inner_of_Z; auto.
  - apply rep_of_Z, Z.pow_nonneg. auto.
Qed.
Example C17_case : nat_pow_mod [7; 3] [5; 1] [11; 9] = Ok (of_Z 14730744250)
  /\ nat_pow_mod [5] [0] [1] = Ok [0].
Proof. vm_compute. repeat split. Qed.
Print Assumptions C17_nat_pow_mod.
Print Assumptions C17_nat_pow_mod_zero.

(** ** C19 *)
Theorem C19_nat_sqrt_floor : forall x, canon x ->
  exists r, nat_sqrt x = Ok r /\ canon r /\ nval r * nval r <= nval x < (nval r + 1) * (nval r + 1).
Proof.
  intros x Hx. pose proof (canon_nonneg x Hx). exists (of_Z (Z.sqrt (nval x))).
  pose proof (Z.sqrt_nonneg (nval x)). split; [apply nat_sqrt_of_Z; auto|].
  split; [apply of_Z_canon; auto|]. rewrite of_Z_val by auto. apply Z.sqrt_spec. auto.
Qed.
Example C19_case : nat_sqrt [0; 0; 1] = Ok [0; 1] /\ nat_sqrt [4294967295; 4294967295] = Ok [4294967295]
  /\ nat_sqrt [99] = Ok [9].
Proof. vm_compute. repeat split. Qed.
Print Assumptions C19_nat_sqrt_floor.
