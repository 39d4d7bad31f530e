(** The two back ends of the word-vector primitives: property C97. *)
From Coq Require Import ZArith List Lia Bool.
From Verif Require Import Words Spec WordsFacts NatModel VecPrims VecFacts ArithAmd64.
Import ListNotations.
Open Scope Z_scope.

Lemma adc_ovf c a b : 0 <= c <= 1 -> 0 <= a < W -> 0 <= b < W ->
  adc c a b = (bit_of (snd (ovf_add a b) || snd (ovf_add (fst (ovf_add a b)) c)), fst (ovf_add (fst (ovf_add a b)) c)).
Proof.
  intros Hc Ha Hb. destruct (ovf_add_spec a b Ha Hb) as (E & R). destruct (ovf_add_spec (fst (ovf_add a b)) c R ltac:(lia)) as (E2 & R2).
  set (t := fst (ovf_add (fst (ovf_add a b)) c)) in *. set (k1 := snd (ovf_add (fst (ovf_add a b)) c)) in *. set (k0 := snd (ovf_add a b)) in *.
  assert (K : bit_of (k0 || k1) = bit_of k0 + bit_of k1) by (destruct k0, k1; cbn [bit_of orb] in *; lia).
  unfold adc. replace (a + b + c) with ((bit_of k0 + bit_of k1) * W + t) by lia. rewrite K. f_equal.
  - rewrite Z.div_add_l, (Z.div_small t) by lia. lia.
  - rewrite Z.add_comm, Z.mod_add, Z.mod_small by lia. reflexivity.
Qed.
Lemma sbb_ovf c a b : 0 <= c <= 1 -> 0 <= a < W -> 0 <= b < W ->
  sbb c a b = (bit_of (snd (ovf_sub a b) || snd (ovf_sub (fst (ovf_sub a b)) c)), fst (ovf_sub (fst (ovf_sub a b)) c)).
Proof.
  intros Hc Ha Hb. destruct (ovf_sub_spec a b Ha Hb) as (E & R). destruct (ovf_sub_spec (fst (ovf_sub a b)) c R ltac:(lia)) as (E2 & R2).
  set (t := fst (ovf_sub (fst (ovf_sub a b)) c)) in *. set (k1 := snd (ovf_sub (fst (ovf_sub a b)) c)) in *. set (k0 := snd (ovf_sub a b)) in *.
  unfold sbb. replace (a - b - c) with (t + (- (bit_of k0 + bit_of k1)) * W) by lia. f_equal.
  - destruct k0, k1; cbn [bit_of orb] in *; destruct (Z.ltb_spec (t + - (1 + 1) * W) 0); destruct (Z.ltb_spec (t + - (1 + 0) * W) 0); destruct (Z.ltb_spec (t + - (0 + 1) * W) 0);
      destruct (Z.ltb_spec (t + - (0 + 0) * W) 0); lia.
  - rewrite Z.mod_add, Z.mod_small by lia. reflexivity.
Qed.

Lemma add_loop_eq x : forall y c, words_ok x -> words_ok y -> 0 <= c <= 1 -> sse_add_vv_loop c x y = add_vv_loop c x y.
Proof.
  induction x as [|a x IH]; intros [|b y] c Hx Hy C; cbn [sse_add_vv_loop add_vv_loop]; auto. inversion Hx as [|? ? A Hx']; inversion Hy as [|? ? B Hy']; subst.
  rewrite adc_ovf by auto. destruct (ovf_add a b) as [t0 c0]. cbn [fst snd]. destruct (ovf_add t0 c) as [t c1]. cbn [fst snd].
  rewrite IH by (auto using bit_of_bound). reflexivity.
Qed.
Lemma sub_loop_eq x : forall y c, words_ok x -> words_ok y -> 0 <= c <= 1 -> sse_sub_vv_loop c x y = sub_vv_loop c x y.
Proof.
  induction x as [|a x IH]; intros [|b y] c Hx Hy C; cbn [sse_sub_vv_loop sub_vv_loop]; auto. inversion Hx as [|? ? A Hx']; inversion Hy as [|? ? B Hy']; subst.
  rewrite sbb_ovf by auto. destruct (ovf_sub a b) as [t0 c0]. cbn [fst snd]. destruct (ovf_sub t0 c) as [t c1]. cbn [fst snd].
  rewrite IH by (auto using bit_of_bound). reflexivity.
Qed.
Lemma adc_0 c a : 0 <= a < W -> adc c a 0 = adc 0 a c.
Proof. intros H. unfold adc. f_equal; f_equal; lia. Qed.
Lemma sbb_0 c a : 0 <= a < W -> sbb c a 0 = sbb 0 a c.
Proof. intros H. unfold sbb. replace (a - 0 - c) with (a - c - 0) by lia. reflexivity. Qed.
Lemma adc_word a y : 0 <= a < W -> 0 <= y < W -> adc 0 a y = (bit_of (snd (ovf_add a y)), fst (ovf_add a y)).
Proof.
  intros A Y. rewrite adc_ovf by (auto; lia). destruct (ovf_add_spec a y A Y) as (_ & R). rewrite (ovf_add_0 _ R). cbn [fst snd]. rewrite orb_false_r. reflexivity.
Qed.
Lemma sbb_word a y : 0 <= a < W -> 0 <= y < W -> sbb 0 a y = (bit_of (snd (ovf_sub a y)), fst (ovf_sub a y)).
Proof.
  intros A Y. rewrite sbb_ovf by (auto; lia). destruct (ovf_sub_spec a y A Y) as (_ & R). rewrite (ovf_sub_0 _ R). cbn [fst snd]. rewrite orb_false_r. reflexivity.
Qed.
Lemma add_vw_rest x : forall c, words_ok x -> 0 <= c <= 1 -> sse_add_vw_loop c 0 x = add_vw x c.
Proof.
  induction x as [|a x IH]; intros c Hx C; cbn [sse_add_vw_loop add_vw]; auto. inversion Hx as [|? ? A Hx']; subst.
  rewrite adc_0, adc_word by (auto; lia). destruct (ovf_add a c) as [t k]. cbn [fst snd]. rewrite IH by (auto using bit_of_bound). reflexivity.
Qed.
Lemma sub_vw_rest x : forall c, words_ok x -> 0 <= c <= 1 -> sse_sub_vw_loop c 0 x = sub_vw x c.
Proof.
  induction x as [|a x IH]; intros c Hx C; cbn [sse_sub_vw_loop sub_vw]; auto. inversion Hx as [|? ? A Hx']; subst.
  rewrite sbb_0, sbb_word by (auto; lia). destruct (ovf_sub a c) as [t k]. cbn [fst snd]. rewrite IH by (auto using bit_of_bound). reflexivity.
Qed.
Lemma add_large_rest x : forall c, words_ok x -> 0 <= c <= 1 -> sse_large_rest adc c x = add_vw_large x c.
Proof.
  induction x as [|a x IH]; intros c Hx C; cbn [sse_large_rest add_vw_large]; auto. inversion Hx as [|? ? A Hx']; subst.
  destruct (Z.eqb_spec c 0) as [->|N]; cbn [negb]; [rewrite IH by (auto; lia); reflexivity|].
  rewrite adc_0, adc_word by (auto; lia). destruct (ovf_add a c) as [t k]. cbn [fst snd]. rewrite IH by (auto using bit_of_bound). reflexivity.
Qed.
Lemma sub_large_rest x : forall c, words_ok x -> 0 <= c <= 1 -> sse_large_rest sbb c x = sub_vw_large x c.
Proof.
  induction x as [|a x IH]; intros c Hx C; cbn [sse_large_rest sub_vw_large]; auto. inversion Hx as [|? ? A Hx']; subst.
  destruct (Z.eqb_spec c 0) as [->|N]; cbn [negb]; [rewrite IH by (auto; lia); reflexivity|].
  rewrite sbb_0, sbb_word by (auto; lia). destruct (ovf_sub a c) as [t k]. cbn [fst snd]. rewrite IH by (auto using bit_of_bound). reflexivity.
Qed.

(** ** C97
    Full claim: every primitive gives the same words and the same outgoing word
    with either back end.  False for the fused multiply-add and what is built
    on it, and for a word added to an empty vector. *)
Theorem C97_add_sub_partial : forall x y, words_ok x -> words_ok y ->
  sse_add_vv x y = add_vv x y /\ sse_sub_vv x y = sub_vv x y.
Proof. intros x y Hx Hy. split; [apply add_loop_eq|apply sub_loop_eq]; auto; lia. Qed.
Theorem C97_word_partial : forall x y, words_ok x -> 0 <= y < W -> x <> [] ->
  sse_add_vw x y = add_vw x y /\ sse_sub_vw x y = sub_vw x y /\
  sse_add_vw_large x y = add_vw_large x y /\ sse_sub_vw_large x y = sub_vw_large x y.
Proof.
  intros [|a x] y Hx Y N; [congruence|]. inversion Hx as [|? ? A Hx']; subst.
  rewrite add_vw_large_eq, sub_vw_large_eq by auto.
  unfold sse_add_vw, sse_sub_vw, sse_add_vw_large, sse_sub_vw_large, sse_large. cbn [sse_add_vw_loop sse_sub_vw_loop add_vw sub_vw].
  rewrite adc_word, sbb_word by auto. destruct (ovf_add a y) as [t k]. destruct (ovf_sub a y) as [t' k']. cbn [fst snd].
  rewrite add_vw_rest, sub_vw_rest, add_large_rest, sub_large_rest by (auto using bit_of_bound).
  rewrite add_vw_large_eq, sub_vw_large_eq by auto. auto.
Qed.
Theorem C97_mul_ww : forall x y, sse_mul_ww x y = mul_ww x y.
Proof. reflexivity. Qed.
(** The whole [add_vw] family on an empty vector loses the word. *)
Theorem C97_empty_refuted : forall y, 0 < y < W ->
  add_vw [] y = ([], y) /\ sse_add_vw [] y = ([], 0) /\ sse_sub_vw [] y = ([], 0) /\ sse_add_vw_large [] y = ([], 0) /\ sse_add_vw [] y <> add_vw [] y.
Proof. intros y Y. do 4 (split; [reflexivity|]). cbn. intros E. injection E. lia. Qed.
(** x * y + c comes out as c in both words; right only by accident. *)
Theorem C97_mul_add_refuted : forall x y c, 0 <= x < W -> 0 <= y < W -> 0 <= c < W ->
  sse_mul_add_www x y c = (c, c) /\ (sse_mul_add_www x y c = mul_add_www x y c <-> x * y = c * W).
Proof.
  intros x y c X Y C. split; [reflexivity|]. unfold mul_add_www, sse_mul_add_www, mm_set1. split.
  - intros E. injection E as E1 E2. pose proof (Z.div_mod (x * y + c) W ltac:(lia)) as D. lia.
  - intros E. rewrite E. rewrite Z.div_add_l, (Z.div_small c), Z.add_0_r by lia. rewrite (Z.add_comm (c * W)), Z.mod_add, Z.mod_small by lia. reflexivity.
Qed.
(** The vector forms do not look at the multiplicands: [mul_add_vww] fills the
    vector with the summand, [add_mul_vvw] leaves zeros zero, so a product
    accumulated with it from zero is 0. *)
Theorem C97_mul_add_vector_refuted : forall x y r, sse_mul_add_vww x y r = (repeat r (length x), r).
Proof.
  intros x y r. induction x as [|a x IH]; [reflexivity|]. cbn [sse_mul_add_vww length repeat]. unfold sse_mul_add_www, mm_set1. rewrite IH. reflexivity.
Qed.
Theorem C97_product_refuted : forall x y n, (n <= length x)%nat -> sse_add_mul_vvw (repeat 0 n) x y = (repeat 0 n, 0).
Proof.
  intros x y n. unfold sse_add_mul_vvw. revert n. induction x as [|a x IH]; intros [|n] L; cbn [length] in L; try lia; [reflexivity|reflexivity|].
  cbn [repeat sse_add_mul_loop]. unfold sse_mul_add_www, mm_set1. change (adc 0 0 0) with (0, 0). cbv iota beta. change ((0 + 0) mod W) with 0. rewrite IH by lia. reflexivity.
Qed.
(** What is computed instead: the old content times W + 1, whatever the
    factors are (as long as no word is all ones). *)
Theorem C97_product_value_refuted : forall z x y, Forall (fun w => 0 <= w < W - 1) z -> (length z <= length x)%nat ->
  let '(r, c) := sse_add_mul_vvw z x y in
  words_ok r /\ length r = length z /\ nval r + W ^ Z.of_nat (length z) * c = nval z * (W + 1).
Proof.
  intros z x y. unfold sse_add_mul_vvw.
  enough (G : forall c, 0 <= c < W -> Forall (fun w => 0 <= w < W - 1) z -> (length z <= length x)%nat ->
    let '(r, k) := sse_add_mul_loop c z x y in
    words_ok r /\ length r = length z /\ nval r + W ^ Z.of_nat (length z) * k = nval z * (W + 1) + c).
  { intros Hz L. specialize (G 0 ltac:(lia) Hz L). destruct (sse_add_mul_loop 0 z x y). intuition lia. }
  revert x. induction z as [|a z IH]; intros x c C Hz L.
  - destruct x; cbn [sse_add_mul_loop]; split; [constructor| |constructor|]; (split; [reflexivity|]); cbn [nval length Z.of_nat]; rewrite Z.pow_0_r; lia.
  - destruct x as [|b x]; [cbn [length] in L; lia|]. inversion Hz as [|? ? A Hz']; subst. cbn [length] in L.
    cbn [sse_add_mul_loop]. unfold sse_mul_add_www, mm_set1, adc.
    assert (K : 0 <= (a + c + 0) / W <= 1).
    { split; [apply Z.div_pos; lia|]. apply Z.lt_succ_r, Z.div_lt_upper_bound; lia. }
    pose proof (Z.div_mod (a + c + 0) W ltac:(lia)) as D. pose proof (Z.mod_pos_bound (a + c + 0) W ltac:(lia)) as M.
    rewrite (Z.mod_small (a + _)) by lia.
    specialize (IH x (a + (a + c + 0) / W) ltac:(lia) Hz' ltac:(lia)).
    destruct (sse_add_mul_loop _ z x y) as [r k]. destruct IH as (R & E & V).
    split; [constructor; auto|]. cbn [length]. split; [lia|]. rewrite Nat2Z.inj_succ, Z.pow_succ_r by lia. cbn [nval]. nia.
Qed.
(** With any content, words of all ones included, the factors do not matter. *)
Theorem C97_factors_ignored_refuted : forall z x x' y y', length x = length x' -> sse_add_mul_vvw z x y = sse_add_mul_vvw z x' y'.
Proof.
  intros z x x' y y'. unfold sse_add_mul_vvw. generalize 0 as c. revert x x'.
  induction z as [|a z IH]; intros [|b x] [|b' x'] c L; try discriminate L; try reflexivity.
  cbn [sse_add_mul_loop]. unfold sse_mul_add_www, mm_set1. destruct (adc 0 a c) as [cc lo].
  injection L as L. rewrite (IH x x' _ L). reflexivity.
Qed.
Example C97_case : sse_add_vv [4294967295; 1] [1; 2] = ([0; 4], 0) /\ sse_sub_vw [0; 5] 1 = ([4294967295; 4], 0) /\
  sse_add_vw_large [4294967295; 7] 3 = ([2; 8], 0) /\ sse_mul_add_www 3 5 7 = (7, 7) /\ mul_add_www 3 5 7 = (0, 22) /\
  sse_add_mul_vvw [0; 0] [3; 4] 5 = ([0; 0], 0) /\ sse_add_mul_vvw [2; 4294967294] [3; 4] 5 = ([2; 0], 4294967295) /\ add_mul_vvw [0; 0] [3; 4] 5 = ([15; 20], 0).
Proof. repeat split. Qed.
Print Assumptions C97_add_sub_partial.
Print Assumptions C97_word_partial.
Print Assumptions C97_mul_ww.
Print Assumptions C97_empty_refuted.
Print Assumptions C97_mul_add_refuted.
Print Assumptions C97_mul_add_vector_refuted.
Print Assumptions C97_product_refuted.
Print Assumptions C97_product_value_refuted.
Print Assumptions C97_factors_ignored_refuted.
