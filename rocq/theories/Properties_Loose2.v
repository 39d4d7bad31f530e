(** C106: [/=] and [%=] by a number that has leading zero words; [/] and [%]
    are these on a dividend without any (C106_by_value).  Such divisors come out of [x * w] and [x - w] (C06).  The code's loop has no bound, so
    the theorems are about [div_with] and [rem_with], which are the code with
    any number of rounds allowed. *)
From Coq Require Import ZArith List Lia Bool.
From Verif Require Import Words WordsFacts Spec NatModel NatFacts NatFacts2 NatFacts5 SpecLoose LooseFacts LooseFacts2.
Import ListNotations.
Open Scope Z_scope.

(** The operators are these, with 32 rounds for each word of the dividend. *)
Theorem C106_rounds : forall a l m b k n, stored a l m -> stored b k n ->
  nat_div a b = div_with (S (32 * length (trim a))) a b /\ nat_rem a b = rem_with (S (32 * length a)) a b.
Proof. intros a l m b k n A B. unfold nat_div, nat_rem, op2r. rewrite (stored_nan _ _ _ A), (stored_nan _ _ _ B). split; reflexivity. Qed.
Theorem C106_div_padded : forall a l m b k n, stored a l m -> stored b k n -> 1 < k -> 0 < n < 2 ^ (32 * (k - 1)) ->
  forall fuel, m < Z.of_nat fuel -> (exists q, div_with fuel a b = Ok q /\ represents q ((m - padded_rem k m n) / n)) /\
    (represents a m -> exists r, rem_with fuel a b = Ok r /\ represents r (padded_rem k m n)).
Proof.
  intros a l m b k n A B K N fuel F. pose proof (stored_bound _ _ _ A) as M. pose proof (rem_bound k n K ltac:(lia) m ltac:(lia) ltac:(lia)) as R.
  destruct (pad_div b k n B K ltac:(lia) (of_Z m) m ltac:(apply rep_of_Z; lia) ltac:(lia) fuel F) as (D & D2). split.
  - rewrite (div_with_trim b a l m A), D. eexists. split; [reflexivity|]. apply rep_of_Z, Z.div_pos; lia.
  - intros (C & V). rewrite (of_Z_unique a m C V), D2. eexists. split; [reflexivity|]. apply rep_of_Z. lia.
Qed.
(** That remainder has the right class and is below 2^(32(k-1)), but it is at
    least n whenever the dividend has k words or more and 3n fits in k-1. *)
Theorem C106_padded_rem : forall k m n, 1 < k -> 0 < n < 2 ^ (32 * (k - 1)) -> 0 <= m ->
  padded_rem k m n mod n = m mod n /\ 0 <= padded_rem k m n < 2 ^ (32 * (k - 1)) /\
  (2 ^ (32 * (k - 1)) <= m -> 3 * n <= 2 ^ (32 * (k - 1)) -> n <= padded_rem k m n /\ (m - padded_rem k m n) / n < m / n).
Proof.
  intros k m n K N M. pose proof (rem_bound k n K ltac:(lia) m ltac:(lia) M) as R. assert (C : (m - padded_rem k m n) mod n = 0) by (apply rem_class; lia). split; [|split; [lia|]].
  - apply Z.mod_divide in C; [|lia]. destruct C as (t & C). replace m with (padded_rem k m n + t * n) at 2 by lia. rewrite Z.mod_add by lia. reflexivity.
  - intros D D3. assert (G : n <= padded_rem k m n).
    { unfold padded_rem. destruct (Z.ltb_spec m (2 ^ (32 * (k - 1)))); [lia|]. destruct (Z.leb_spec (2 * n) (2 ^ (32 * (k - 1)))); [|lia]. pose proof (Z.mod_pos_bound (m - 2 ^ (32 * (k - 1))) (2 * n) ltac:(lia)). lia. }
    split; [exact G|]. apply Z.lt_le_trans with ((m - padded_rem k m n) / n + 1); [lia|]. rewrite <- Z.div_add by lia. apply Z.div_le_mono; lia.
Qed.
(** A divisor zero in several words: every dividend of at least as many words
    is divided for ever, every shorter one gives 0. *)
Theorem C106_div_padded_zero : forall a l m b k, stored a l m -> stored b k 0 -> 1 < k ->
  (2 ^ (32 * (k - 1)) <= m -> forall fuel, div_with fuel a b = Fuel /\ (represents a m -> rem_with fuel a b = Fuel)) /\
  (m < 2 ^ (32 * (k - 1)) -> forall fuel, div_with fuel a b = Ok [0] /\ (represents a m -> rem_with fuel a b = Ok a)).
Proof.
  intros a l m b k A B K. pose proof (stored_bound _ _ _ A) as M. assert (R : represents (of_Z m) m) by (apply rep_of_Z; lia). pose proof (pow2_pos (32 * (k - 1)) ltac:(lia)).
  assert (EA : represents a m -> a = of_Z m) by (intros (C & V); apply of_Z_unique; auto). split; intros D fuel; rewrite (div_with_trim b a l m A).
  - destruct (pad_zero b k 0 B K ltac:(lia) (of_Z m) m R eq_refl D fuel) as (D1 & D2). split; [exact D1|]. intros X. rewrite (EA X). exact D2.
  - assert (X : div_with fuel (of_Z m) b = Ok [0] /\ rem_with fuel (of_Z m) b = Ok (of_Z m)).
    { unfold div_with, rem_with. rewrite (trim_canon_id (of_Z m)) by apply R. rewrite (pad_eq0 b k 0 B K). rewrite (below_stops b k 0 B K) by lia. auto. }
    destruct X as (X1 & X2). split; [exact X1|]. intros X. rewrite (EA X). exact X2.
Qed.
(** [%=] where both operands have leading zero words. *)
Theorem C106_rem_both_padded : forall a l m b k n, stored a l m -> stored b k n -> 1 < k -> 0 < n < 2 ^ (32 * (k - 1)) -> 1 < l -> m < 2 ^ (32 * (l - 1)) ->
  (l < k \/ (l = k /\ m < n) -> forall fuel, (0 < fuel)%nat -> rem_with fuel a b = Ok a) /\
  (l = k -> n <= m -> forall fuel, (0 < fuel)%nat -> exists r, rem_with fuel a b = Ok r /\ represents r (m - n)) /\
  (k < l -> exists N, forall fuel, (N <= fuel)%nat -> exists r, rem_with fuel a b = Ok r /\ represents r (padded_rem k (first_round l m k n) n)).
Proof.
  intros a l m b k n A B K N L M. split; [|split].
  - intros D fuel F. destruct (pad_short b k n B K ltac:(lia) a l m A ltac:(lia) ltac:(auto) fuel ltac:(lia)) as (D2 & _). apply D2. lia.
  - intros E G fuel F. destruct (pad_short b k n B K ltac:(lia) a l m A ltac:(lia) ltac:(auto) fuel ltac:(lia)) as (_ & D3). rewrite D3 by auto.
    eexists. split; [reflexivity|]. apply rep_of_Z. lia.
  - intros G. set (c := first_round l m k n). exists (S (Z.to_nat (c + 1))). intros fuel F. destruct fuel as [|f]; [lia|].
    pose proof (stored_bound _ _ _ A) as BA. assert (C : 0 <= c).
    { unfold c, first_round. cbv zeta. destruct (Z.leb_spec (n * 2 ^ (32 * (l - k))) m); [lia|]. apply Z.mod_pos_bound. apply pow2_pos. lia. }
    rewrite (pad_both b k n B K ltac:(lia) a l m A G M ltac:(lia) f) by (fold c; lia). fold c. pose proof (rem_bound k n K ltac:(lia) c ltac:(lia) ltac:(lia)) as R.
    eexists. split; [reflexivity|]. apply rep_of_Z. lia.
Qed.
(** 2^33 divided by 3 * 5u32 is half of the quotient. *)
Theorem C106_padded_divisor_refuted : exists b, b = nat_mul_u32 [3] 5 /\ nval b = 15 /\ 2 ^ 33 / 15 = 572662306 /\
  forall fuel, 2 ^ 33 < Z.of_nat fuel -> exists q r, div_with fuel (of_Z (2 ^ 33)) b = Ok q /\ nval q = 286331154 /\ rem_with fuel (of_Z (2 ^ 33)) b = Ok r /\ nval r = 4294967282.
Proof.
  exists (nat_mul_u32 [3] 5). split; [reflexivity|]. split; [reflexivity|]. split; [reflexivity|]. intros fuel F.
  assert (B : stored (nat_mul_u32 [3] 5) 2 15). { change (nat_mul_u32 [3] 5) with [15; 0]. split; [repeat constructor; lia|split; [reflexivity|split; [lia|reflexivity]]]. }
  destruct (C106_div_padded (of_Z (2 ^ 33)) _ (2 ^ 33) _ 2 15 ltac:(apply of_Z_stored; lia) B ltac:(lia) ltac:(cbn; lia) fuel F) as ((q & D & (_ & Q)) & R0).
  destruct R0 as (r & R & (_ & V)); [apply rep_of_Z; lia|].
  exists q, r. split; [exact D|]. split; [rewrite Q; reflexivity|]. split; [exact R|]. rewrite V. reflexivity.
Qed.
Example C106_padded_case : div_with 9 (of_Z (2 ^ 40 + 5)) [3 * 2 ^ 30; 0] = Ok [341] /\ padded_rem 2 (2 ^ 40 + 5) (3 * 2 ^ 30) = 2 ^ 30 + 5 /\ (2 ^ 40 + 5) / (3 * 2 ^ 30) = 341 /\
  padded_rem 2 (2 ^ 33) (3 * 2 ^ 29) = 2 ^ 33 mod (3 * 2 ^ 30) /\ 3 * 2 ^ 29 <= padded_rem 2 (7 * 2 ^ 31) (3 * 2 ^ 29) /\
  div_with 9 (of_Z (7 * 2 ^ 31)) [3 * 2 ^ 29; 0] = Ok [8] /\ (7 * 2 ^ 31) / (3 * 2 ^ 29) = 9.
Proof. vm_compute. repeat split. discriminate. Qed.
Print Assumptions C106_rounds.
Print Assumptions C106_div_padded.
Print Assumptions C106_padded_rem.
Print Assumptions C106_div_padded_zero.
Print Assumptions C106_rem_both_padded.
Print Assumptions C106_padded_divisor_refuted.
