(** C106: exponents with leading zero words, as [x * w] and [x - w] leave them
    (C06), in [Nat::exp]. *)
From Coq Require Import ZArith List Lia Bool.
From Verif Require Import Words WordsFacts Spec SpecLoose NatModel NatFacts NatFacts2 NatFacts3 NatFacts5 LooseFacts VecPrims Karatsuba KaraFacts2 NatExp NatExpFacts NatExpFacts2.
Import ListNotations.
Open Scope Z_scope.

Lemma stored_hd a l m : stored a l m -> l = 1 -> a = [m].
Proof.
  intros (Wa & La & _ & Va) ->. destruct a as [|x [|y a]]; cbn [length] in La; try lia. cbn [nval] in Va. f_equal. lia.
Qed.
Lemma one_word_test b k e w : stored b k e -> 1 < k -> (length b =? 1)%nat && (hd 0 b =? w) = false.
Proof. intros (_ & L & _) K. replace (length b =? 1)%nat with false; [reflexivity|]. symmetry. apply Nat.eqb_neq. lia. Qed.
Lemma stored_some b k e : stored b k e -> is_nan b = false /\ b <> [] /\ words_ok b.
Proof. intros (Wb & L & K & _). destruct b; [cbn in L; lia|]. split; [reflexivity|]. split; [discriminate|auto]. Qed.
Lemma big_base a l m : stored a l m -> ((1 <? length a)%nat || (1 <? hd 0 a)) = (1 <? l) || (1 <? m).
Proof.
  intros A. pose proof A as (Wa & L & P & V). destruct a as [|x [|y a]]; cbn [length] in L; [lia| |].
  - cbn [length hd nval] in *. replace (1 <? l) with false by (symmetry; apply Z.ltb_ge; lia). cbn [Nat.ltb Nat.leb orb]. f_equal. lia.
  - cbn [length]. replace (1 <? S (S (length a)))%nat with true by (symmetry; apply Nat.ltb_lt; lia).
    replace (1 <? l) with true by (symmetry; apply Z.ltb_lt; lia). reflexivity.
Qed.
Lemma top_zero b k e : stored b k e -> e < 2 ^ (32 * (k - 1)) -> last b 0 = 0.
Proof.
  intros (Wb & L & K & V) B. assert (NB : b <> []) by (intros ->; cbn in L; lia). destruct (exists_last NB) as (bl & v & ->).
  rewrite last_last. rewrite app_length in L. cbn [length] in L. rewrite nval_app in V. cbn [nval] in V.
  apply words_ok_app in Wb as (W1 & W2). apply words_ok_cons in W2 as (Bv & _). pose proof (nval_nonneg bl W1) as P.
  rewrite Wp_pow2 in V. replace (32 * Z.of_nat (length bl)) with (32 * (k - 1)) in V by lia.
  assert (0 < 2 ^ (32 * (k - 1))) by (apply Z.pow_pos_nonneg; lia). nia.
Qed.
Lemma rem_word w n : 0 <= w <= 1 -> canon n -> 1 < nval n -> nat_rem [w] n = Ok [w].
Proof.
  intros HW Cn N1. assert (E : [w] = of_Z w) by (apply of_Z_unique; [apply canon_single; lia|cbn [nval]; lia]).
  rewrite E. rewrite nat_rem_of_Z by (auto; try lia; apply of_Z_canon; lia). rewrite of_Z_val, Z.mod_small by lia. reflexivity.
Qed.
Lemma bits_word w n : 0 <= w <= 1 -> canon n -> 1 < nval n -> forall cnt v, exp_bits cnt v [w] [w] n = Ok [w].
Proof.
  intros HW Cn N1. assert (S : sqr_vec [w] = Ok [w]) by (assert (w = 0 \/ w = 1) as [-> | ->] by lia; reflexivity).
  assert (M : mul_vec [w] [w] = Ok [w]) by (assert (w = 0 \/ w = 1) as [-> | ->] by lia; reflexivity).
  assert (T : trim [w] = [w]) by (apply trim_canon_id, canon_single; lia).
  induction cnt as [|c IH]; intros v; [reflexivity|]. cbn [exp_bits]. rewrite S. cbn [bind]. rewrite is_zero_test by auto.
  rewrite (proj2 (Z.eqb_neq (nval n) 0)) by lia. destruct (Z.testbit v 31); [rewrite M|]; cbn [bind]; rewrite T, rem_word by auto; cbn [bind]; apply IH.
Qed.
Lemma words_word w n : 0 <= w <= 1 -> canon n -> 1 < nval n -> forall ys, exp_words ys [w] [w] n = Ok [w].
Proof.
  intros HW Cn N1. induction ys as [|y ys IH]; [reflexivity|]. cbn [exp_words]. rewrite bits_word by auto. cbn [bind]. exact IH.
Qed.

(** A base above 1 (or with leading zero words) and a modulus above 1: the
    leading zero words of the exponent do not matter. *)
Theorem C106_exponent : forall checks a l m b k e c n, stored a l m -> stored b k e -> represents c n -> 1 < n -> 1 < k -> 1 < l \/ 1 < m ->
  nat_exp checks a b c = Ok (of_Z (m ^ e mod n)).
Proof.
  intros checks a l m b k e c n A B (Cn & <-) N1 K X. destruct (stored_some _ _ _ A) as (NA & A0 & WA). destruct (stored_some _ _ _ B) as (NB & B0 & WB).
  unfold nat_exp. rewrite NA, NB, (is_nan_canon c) by auto. cbn [orb]. rewrite (is_word_test c 1) by (auto; lia).
  rewrite (proj2 (Z.eqb_neq (nval c) 1)) by lia. rewrite !(one_word_test b k e) by auto. rewrite (big_base a l m A).
  replace ((1 <? l) || (1 <? m)) with true by (symmetry; apply orb_true_iff; rewrite !Z.ltb_lt; lia).
  replace (1 <? length b)%nat with true by (symmetry; apply Nat.ltb_lt; destruct B; lia).
  replace ((1 <? length c)%nat || (0 <? hd 0 c)) with true.
  2:{ symmetry. destruct c as [|w [|w2 c]]; [apply canon_nonnil in Cn; congruence| |reflexivity]. cbn [nval] in N1. cbn [length hd]. apply orb_true_iff. right. apply Z.ltb_lt. lia. }
  cbn [andb]. destruct A as (_ & _ & _ & <-). destruct B as (_ & _ & _ & <-). rewrite hd_odd by auto using canon_words, canon_nonnil.
  destruct (Z.odd (nval c)) eqn:O; [apply exp_montgomery_words|apply exp_windowed_of_Z]; auto.
Qed.
(** The base 0 or 1: with overflow checks the exponent's leading zero word
    panics; without them 0 and 1 come out, so that 0^0 is 0 and not 1. *)
Theorem C106_exponent_refuted : forall a m b k e c n, represents a m -> m <= 1 -> stored b k e -> 1 < k -> e < 2 ^ (32 * (k - 1)) -> represents c n -> 1 < n ->
  nat_exp true a b c = Panic /\ nat_exp false a b c = Ok a.
Proof.
  intros a m b k e c n (Ca & <-) M B K T (Cn & <-) N1. pose proof (canon_nonneg a Ca) as M0. destruct (stored_some _ _ _ B) as (NB & B0 & WB).
  assert (Ea : a = [nval a]) by (rewrite (of_Z_unique a (nval a)) at 1 by auto; assert (nval a = 0 \/ nval a = 1) as [-> | ->] by lia; reflexivity).
  generalize dependent (nval a). intros m Ea M M0. subst a. assert (TW : trim [m] = [m]) by (apply trim_canon_id; auto).
  unfold nat_exp. rewrite NB, (is_nan_canon c) by auto. cbn [is_nan orb]. rewrite (is_word_test c 1) by (auto; lia).
  rewrite (proj2 (Z.eqb_neq (nval c) 1)) by lia. rewrite !(one_word_test b k e) by auto. cbn [length hd]. change (1 <? 1)%nat with false.
  rewrite (proj2 (Z.ltb_ge 1 m)) by lia. cbn [orb andb]. rewrite (top_zero b k e B T).
  change (leading_zeros 0 + 1) with 33. change (32 <=? 33) with true. cbn [andb]. split; [reflexivity|].
  rewrite bits_word by (auto; lia). cbn [bind]. rewrite words_word by (auto; lia). cbn [bind]. rewrite TW. reflexivity.
Qed.
Example C106_exponent_case :
  stored [3; 0] 2 3 /\ nat_exp true [5] [3; 0] [1000] = Ok [125] /\ nat_exp true [1] [3; 0] [7] = Panic /\ nat_exp true [1] [3] [7] = Ok [1] /\ nat_exp true [0] [0] [7] = Ok [1].
Proof. split; [split; [constructor; [lia|constructor; [lia|constructor]]|vm_compute; auto]|]. vm_compute. auto. Qed.
Print Assumptions C106_exponent.
Print Assumptions C106_exponent_refuted.
