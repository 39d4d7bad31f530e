(** The exact value of [shr_inner]. *)
From Coq Require Import ZArith List Lia Bool.
From Verif Require Import Words WordsFacts NatModel NatFacts NatFacts2 NatFacts5 Spec SpecInt SpecShift BigInt BigIntFacts BigIntFacts2.
Import ListNotations.
Open Scope Z_scope.

Lemma nth_word l i : words_ok l -> nth i l 0 = word_at (nval l) (Z.of_nat i).
Proof.
  intros Wl. unfold word_at. rewrite <- Wp_pow2, <- nval_skipn by auto. change (2 ^ 32) with W. assert (0 < W) by reflexivity. destruct (Nat.lt_ge_cases i (length l)) as [L|L].
  - rewrite (skipn_cons_nth i l L), nval_cons. rewrite Z.mul_comm, Z.mod_add by lia. symmetry. apply Z.mod_small. apply words_ok_nth. auto.
  - rewrite nth_overflow, skipn_all2 by lia. reflexivity.
Qed.
Lemma last_nth (l : list Z) : last l 0 = nth (length l - 1) l 0.
Proof.
  destruct l as [|x l] using rev_ind; [reflexivity|]. rewrite last_last, app_length. cbn [length]. rewrite app_nth2 by lia. replace (length l + 1 - 1 - length l)%nat with 0%nat by lia. reflexivity.
Qed.
Lemma shr_inner_value v k : words_ok v -> v <> [] -> 0 <= k -> nval (shr_inner v k) = shift_result (Z.of_nat (length v)) (nval v) k /\ words_ok (shr_inner v k) /\ shr_inner v k <> [].
Proof.
  intros Wv Nv Hk. unfold shift_result. cbv zeta. assert (J0 : 0 <= k / 32) by (apply Z.div_pos; lia). pose proof (Z.mod_pos_bound k 32 ltac:(lia)) as SB.
  assert (LP : (1 <= length v)%nat) by (destruct v; [congruence|cbn [length]; lia]).
  destruct (Z.leb_spec (Z.of_nat (length v)) (k / 32)) as [LE|LT].
  { unfold shr_inner. destruct (Nat.leb_spec (length v) (Z.to_nat (k / 32))); [|lia]. split; [reflexivity|]. split; [repeat constructor; lia|discriminate]. }
  destruct (Z.eqb_spec (k mod 32) 0) as [S0|S0].
  { assert (KL : k < 32 * Z.of_nat (length v)) by (pose proof (Z.div_mod k 32 ltac:(lia)); lia). rewrite shr_inner_wordmul by auto. rewrite Wp_pow2. split; [f_equal; f_equal; lia|].
    unfold shr_inner. rewrite S0. cbn [Z.gtb Z.compare andb]. destruct (Nat.leb_spec (length v) (Z.to_nat (k / 32))); [lia|]. split; [apply words_ok_firstn; auto|]. intros E. apply (f_equal (@length Z)) in E. rewrite firstn_length in E. cbn [length] in E. lia. }
  destruct (shr_inner_shape v k Wv Hk) as (ws & p & I1 & I2 & I3 & I4 & I5 & I6); [lia|auto|]. set (num := Z.to_nat (k / 32)) in *. rewrite I6.
  assert (Wn : forall x, 0 <= x < W -> words_ok (ws ++ [x])) by (intros x X; apply words_ok_app; split; [auto|repeat constructor; lia]).
  assert (TL : word_at (nval v) (Z.of_nat (length v) - 1) = last v 0). { rewrite last_nth, nth_word by auto. f_equal. lia. } rewrite TL.
  assert (PP : (p >? 0) = (2 ^ (k mod 32) <=? last v 0)).
  { rewrite Z.gtb_ltb, I3. pose proof (pow2_pos (k mod 32) ltac:(lia)) as P2. pose proof (words_ok_last v Wv). destruct (Z.leb_spec (2 ^ (k mod 32)) (last v 0)) as [H1|H1].
    - apply Z.ltb_lt. assert (1 <= last v 0 / 2 ^ (k mod 32)) by (apply Z.div_le_lower_bound; lia). lia.
    - apply Z.ltb_ge. rewrite Z.div_small by lia. lia. }
  rewrite PP. assert (NN : forall x, ws ++ [x] <> []) by (intros x; destruct ws; discriminate).
  assert (EJ : (k / 32 =? 0) = (num =? 0)%nat). { unfold num. destruct (Z.eqb_spec (k / 32) 0), (Nat.eqb_spec (Z.to_nat (k / 32)) 0); try reflexivity; lia. } rewrite EJ.
  destruct (2 ^ (k mod 32) <=? last v 0) eqn:T.
  { rewrite orb_true_r. auto. }
  rewrite orb_false_r. assert (P0 : p = 0) by (rewrite Z.gtb_ltb in PP; apply Z.ltb_ge in PP; lia). rewrite P0 in I5. rewrite nval_app in I5. cbn [nval] in I5. rewrite !Z.mul_0_r, Z.add_0_r in I5.
  destruct (num =? 0)%nat.
  { rewrite <- I5. destruct ws; [split; [reflexivity|split; [repeat constructor; lia|discriminate]]|]. split; [ring|]. split; [auto|discriminate]. }
  split; [|split; [apply Wn, words_ok_nth; auto|auto]]. rewrite nval_app. cbn [nval]. rewrite <- I5, I2, nth_word by auto. rewrite Wp_pow2.
  replace (Z.of_nat (length v) - k / 32 - 1) with (Z.of_nat (length v - num - 1)) by lia. ring.
Qed.
Lemma len_words a : canon a -> Z.of_nat (length a) = words (nval a).
Proof.
  intros C. pose proof (canon_nonneg a C). destruct (Z.eq_dec (nval a) 0) as [E|E].
  - rewrite (of_Z_unique a 0 C E). reflexivity.
  - rewrite <- (of_Z_nval a C) at 1. apply len_of_Z. lia.
Qed.
Lemma nat_shr_value a n k : represents a n -> 0 <= k -> has_value (nat_shr a k) (shift_result (words n) n k).
Proof.
  intros (C & <-) K. unfold nat_shr. rewrite op1_canon by auto. destruct (shr_inner_value a k (canon_words a C) (canon_nonnil a C) K) as (V & Wv & _). split; [auto|]. rewrite V, len_words by auto. reflexivity.
Qed.
Lemma b_shr_value x n k : is_int x n -> 0 <= k -> int_value (b_shr x k) (if n <? 0 then - (shift_result (words (- n)) (- n - 1) k + 1) else shift_result (words n) n k).
Proof.
  intros H K. apply is_int_iff in H. subst x. unfold b_shr. rewrite zint_neg, zint_nat. destruct (Z.ltb_spec n 0) as [N|N].
  - rewrite Z.abs_neq by lia. destruct (sub1_spec (- n) ltac:(lia)) as (l & -> & Wl & Nl & Vl & Ll).
    assert (NS : forall z, z <> [] -> is_nan z = false) by (intros z Hz; destruct z; [congruence|reflexivity]).
    assert (E : nat_shr l k = shr_inner l k) by (unfold nat_shr, op1; rewrite NS by auto; reflexivity). rewrite E.
    destruct (shr_inner_value l k Wl Nl K) as (V & Ws & Ns). set (s := shr_inner l k) in *.
    assert (A : nat_add_u32 s 1 = add_inner s [1]). { unfold nat_add_u32, op1. rewrite NS by auto. apply add_basic_as_add. auto. } rewrite A.
    assert (W1 : words_ok [1]) by (repeat constructor; lia). assert (AN : add_inner s [1] <> []). { pose proof (add_inner_val s [1] Ws W1) as AV. intros X. rewrite X in AV. cbn [nval] in AV. pose proof (nval_nonneg s Ws). lia. }
    rewrite NS by auto. cbn [negb]. split; [apply add_inner_words; auto|]. split; [auto|]. unfold bvalue. cbn [bneg bnat]. rewrite add_inner_val by auto. rewrite V, Vl, Ll, len_words, of_Z_val by (try apply of_Z_canon; lia). cbn [nval]. lia.
  - rewrite Z.abs_eq by lia. assert (C : canon (of_Z n)) by (apply of_Z_canon; auto). unfold nat_shr. rewrite op1_canon by auto.
    destruct (shr_inner_value (of_Z n) k (canon_words _ C) (canon_nonnil _ C) K) as (V & Ws & Ns). split; [auto|]. split; [auto|]. unfold bvalue. cbn [bneg bnat]. rewrite V, len_words, of_Z_val by auto. reflexivity.
Qed.

(** When that is the quotient. *)
Lemma result_right l n k : 0 < l -> 0 <= n < 2 ^ (32 * l) -> 0 <= k ->
  (shift_result l n k = n / 2 ^ k <-> k < 32 \/ l <= k / 32 \/ k mod 32 <> 0 /\ (2 ^ (k mod 32) <= word_at n (l - 1) \/ word_at n (l - k / 32 - 1) = 0) \/ k mod 32 = 0 /\ n mod 2 ^ (32 * (l - k / 32)) = n / 2 ^ k).
Proof.
  intros L N K. unfold shift_result. cbv zeta. assert (J0 : 0 <= k / 32) by (apply Z.div_pos; lia). pose proof (Z.mod_pos_bound k 32 ltac:(lia)) as SB. pose proof (Z.div_mod k 32 ltac:(lia)) as D.
  destruct (Z.leb_spec l (k / 32)) as [LE|LT].
  { split; [intros _; right; left; lia|intros _]. symmetry. apply Z.div_small. split; [lia|]. assert (2 ^ (32 * l) <= 2 ^ k) by (apply Z.pow_le_mono_r; lia). lia. }
  assert (KJ : k < 32 <-> k / 32 = 0) by lia.
  destruct (Z.eqb_spec (k mod 32) 0) as [S0|S0].
  { split; [intros E; right; right; right; auto|]. intros [H|[H|[(H & _)|(_ & H)]]]; [|lia|lia|auto]. assert (k = 0) by lia. subst k. change (0 / 32) with 0. rewrite Z.sub_0_r, Z.pow_0_r, Z.div_1_r. apply Z.mod_small. auto. }
  destruct (Z.eqb_spec (k / 32) 0) as [J|J]; cbn [orb]; [split; [intros _; left; lia|auto]|].
  destruct (Z.leb_spec (2 ^ (k mod 32)) (word_at n (l - 1))) as [T|T]; [split; [intros _; right; right; left; auto|auto]|].
  pose proof (Z.pow_pos_nonneg 2 (32 * (l - k / 32 - 1)) ltac:(lia) ltac:(lia)) as P. split.
  - intros E. right. right. left. split; [auto|]. right. nia.
  - intros [H|[H|[(_ & [H|H])|(H & _)]]]; try lia.
Qed.
