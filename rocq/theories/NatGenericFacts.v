(** The portable back end computes the same word lists as the x86-64 one. *)
From Coq Require Import ZArith List Lia Bool.
From Verif Require Import Words WordsFacts NatModel NatFacts NatFacts2 NatFacts3 NatGeneric.
Import ListNotations.
Open Scope Z_scope.

Lemma gadc_eq c a b : 0 <= c <= 1 -> 0 <= a < W -> 0 <= b < W -> gadc c a b = adc c a b.
Proof.
  intros Hc Ha Hb. unfold gadc, adc, ovf_add.
  assert (E : a + b < W /\ (a + b) mod W = a + b \/ W <= a + b /\ (a + b) mod W = a + b - W).
  { destruct (Z.lt_ge_cases (a + b) W); [left|right]; split; auto.
    - apply Z.mod_small; lia.
    - replace (a + b) with ((a + b - W) + 1 * W) at 1 by ring. rewrite Z.mod_add, Z.mod_small; lia. }
  f_equal.
  - destruct E as [[E1 E]|[E1 E]]; rewrite E.
    + rewrite (proj2 (Z.leb_gt _ _)) by lia. cbn [orb].
      destruct (Z.leb_spec W (a + b + c)).
      * apply Z.div_unique with (a + b + c - W); lia.
      * symmetry. apply Z.div_small; lia.
    + rewrite (proj2 (Z.leb_le _ _)) by lia. cbn [orb].
      apply Z.div_unique with (a + b + c - W); lia.
  - rewrite Z.add_mod_idemp_l by lia. reflexivity.
Qed.

Lemma gsbb_eq c a b : 0 <= c <= 1 -> 0 <= a < W -> 0 <= b < W -> gsbb c a b = sbb c a b.
Proof.
  intros Hc Ha Hb. unfold gsbb, sbb, ovf_sub.
  assert (E : b <= a /\ (a - b) mod W = a - b \/ a < b /\ (a - b) mod W = a - b + W).
  { destruct (Z.le_gt_cases b a); [left|right]; split; auto.
    - apply Z.mod_small; lia.
    - replace (a - b) with ((a - b + W) + (-1) * W) at 1 by ring. rewrite Z.mod_add, Z.mod_small; lia. }
  f_equal.
  - destruct E as [[E1 E]|[E1 E]]; rewrite E.
    + rewrite (proj2 (Z.ltb_ge a b)) by lia. rewrite orb_false_r.
      destruct (Z.ltb_spec (a - b) c), (Z.ltb_spec (a - b - c) 0); lia || reflexivity.
    + rewrite (proj2 (Z.ltb_lt a b)) by lia. rewrite orb_true_r.
      rewrite (proj2 (Z.ltb_lt (a - b - c) 0)) by lia. reflexivity.
  - rewrite Zminus_mod_idemp_l. reflexivity.
Qed.

(** one-operand steps *)
Lemma ovf_add_adc x c : 0 <= c <= 1 -> 0 <= x < W ->
  ((if snd (ovf_add x c) then 1 else 0), fst (ovf_add x c)) = adc c x 0.
Proof.
  intros Hc Hx. unfold ovf_add, adc. cbn [fst snd]. rewrite Z.add_0_r. f_equal.
  destruct (Z.leb_spec W (x + c)).
  - apply Z.div_unique with (x + c - W); lia.
  - symmetry; apply Z.div_small; lia.
Qed.

Lemma ovf_sub_sbb x c : 0 <= c <= 1 -> 0 <= x < W ->
  ((if snd (ovf_sub x c) then 1 else 0), fst (ovf_sub x c)) = sbb c x 0.
Proof.
  intros Hc Hx. unfold ovf_sub, sbb. cbn [fst snd]. rewrite Z.sub_0_r. f_equal.
  destruct (Z.ltb_spec x c), (Z.ltb_spec (x - c) 0); lia || reflexivity.
Qed.

Lemma sbb_range c a b : 0 <= fst (sbb c a b) <= 1.
Proof. unfold sbb. cbn [fst]. destruct (_ <? _); lia. Qed.

Lemma gadd_tail_eq l : forall c, words_ok l -> 0 <= c <= 1 -> gadd_tail c l = carry_loop c l.
Proof.
  induction l as [|x l IH]; intros c Hl Hc; [reflexivity|].
  apply words_ok_cons in Hl as [Hx Hl]. cbn [gadd_tail carry_loop].
  pose proof (ovf_add_adc x c Hc Hx) as E. pose proof (adc_carry c x 0 Hc Hx ltac:(lia)) as R.
  destruct (ovf_add x c) as [s cx]. cbn [fst snd] in E. rewrite <- E in *. cbn [fst snd] in R.
  f_equal. apply IH; auto.
Qed.

Lemma gadd_zip_eq a : forall c b, words_ok a -> words_ok b -> 0 <= c <= 1 ->
  (length b <= length a)%nat ->
  fst (gadd_zip c a b) ++ gadd_tail (snd (gadd_zip c a b)) (skipn (length b) a) = add_loop c a b.
Proof.
  induction a as [|x a IH]; intros c b Ha Hb Hc Hl.
  - destruct b; [|cbn in Hl; lia]. reflexivity.
  - destruct b as [|y b].
    + cbn [gadd_zip fst snd app skipn length add_loop]. apply gadd_tail_eq; auto.
    + apply words_ok_cons in Ha as [Hx Ha]. apply words_ok_cons in Hb as [Hy Hb].
      cbn [gadd_zip add_loop length skipn]. rewrite gadc_eq by auto.
      pose proof (adc_carry c x y Hc Hx Hy) as R.
      destruct (adc c x y) as [c' s]. cbn [fst] in R.
      specialize (IH c' b Ha Hb R ltac:(cbn in Hl; lia)).
      destruct (gadd_zip c' a b) as [r c'']. cbn [fst snd app] in *. f_equal. exact IH.
Qed.

(** the padded left operand gives the same words *)
Lemma add_loop_pad a : forall b c, words_ok a -> words_ok b -> 0 <= c <= 1 -> (length a <= length b)%nat ->
  add_loop c (a ++ repeat 0 (length b - length a)) b = add_loop c a b.
Proof.
  induction a as [|x a IH]; intros b c Ha Hb Hc Hl.
  - cbn [app length]. rewrite Nat.sub_0_r. cbn [add_loop]. clear Hl Ha.
    revert c Hc. induction b as [|y b IHb]; intros c Hc; [reflexivity|].
    apply words_ok_cons in Hb as [Hy Hb].
    cbn [length repeat add_loop carry_loop].
    pose proof (adc_carry c y 0 Hc Hy ltac:(lia)).
    assert (E : adc c 0 y = adc c y 0) by (unfold adc; rewrite Z.add_comm, (Z.add_comm 0 y), Z.add_comm; reflexivity).
    rewrite E. destruct (adc c y 0) as [c' s]. cbn [fst] in *. f_equal. apply IHb; auto.
  - destruct b as [|y b]; [cbn in Hl; lia|].
    apply words_ok_cons in Ha as [Hx Ha]. apply words_ok_cons in Hb as [Hy Hb].
    cbn [app length Nat.sub add_loop]. pose proof (adc_carry c x y Hc Hx Hy).
    destruct (adc c x y) as [c' s]. cbn [fst] in *. f_equal. apply IH; auto. cbn in Hl; lia.
Qed.

Lemma ge_lengths a b : canon a -> canon b ->
  if nat_ge a b then (length b <= length a)%nat else (length a <= length b)%nat.
Proof.
  intros Ha Hb. rewrite nat_ge_spec by auto. destruct (Z.leb_spec (nval b) (nval a)).
  - destruct (Nat.le_gt_cases (length b) (length a)); auto. pose proof (canon_len_lt a b Ha Hb). lia.
  - destruct (Nat.le_gt_cases (length a) (length b)); auto. pose proof (canon_len_lt b a Hb Ha). lia.
Qed.

Lemma gadd_inner_eq a b : canon a -> canon b -> gadd_inner a b = add_inner a b.
Proof.
  intros Ha Hb. unfold gadd_inner, add_inner.
  pose proof (canon_words a Ha) as Wa. pose proof (canon_words b Hb) as Wb.
  pose proof (ge_lengths a b Ha Hb) as G. destruct (nat_ge a b).
  - rewrite <- (gadd_zip_eq a 0 b) by (auto; lia). destruct (gadd_zip 0 a b). reflexivity.
  - rewrite resize_grow by lia. set (a1 := a ++ repeat 0 (length b - length a)).
    assert (Wa1 : words_ok a1) by (apply words_ok_app; auto using words_ok_repeat0).
    assert (La1 : length a1 = length b) by (unfold a1; rewrite app_length, repeat_length; lia).
    rewrite <- (add_loop_pad a b 0) by (auto; lia). fold a1.
    rewrite <- (gadd_zip_eq a1 0 b) by (auto; lia). destruct (gadd_zip 0 a1 b). reflexivity.
Qed.

Lemma gsub_zip_eq ge a : forall c b, words_ok a -> words_ok b -> 0 <= c <= 1 ->
  gsub_zip ge c a b = sub_zip ge c a b.
Proof.
  induction a as [|x a IH]; intros c b Ha Hb Hc; [reflexivity|].
  destruct b as [|y b]; [reflexivity|].
  apply words_ok_cons in Ha as [Hx Ha]. apply words_ok_cons in Hb as [Hy Hb].
  cbn [gsub_zip sub_zip].
  assert (E : (if ge then gsbb c x y else gsbb c y x) = (if ge then sbb c x y else sbb c y x))
    by (destruct ge; apply gsbb_eq; auto).
  rewrite E.
  assert (R : 0 <= fst (if ge then sbb c x y else sbb c y x) <= 1) by (destruct ge; apply sbb_range).
  destruct (if ge then sbb c x y else sbb c y x) as [c' s]. cbn [fst] in R.
  rewrite IH by auto. reflexivity.
Qed.

Lemma gsub_tail_0 l : words_ok l -> gsub_tail 0 l = l.
Proof.
  induction l as [|x l IH]; intros Hl; [reflexivity|].
  apply words_ok_cons in Hl as [Hx Hl]. cbn [gsub_tail]. unfold ovf_sub.
  rewrite Z.sub_0_r, Z.mod_small by lia. rewrite (proj2 (Z.ltb_ge x 0)) by lia.
  f_equal. auto.
Qed.

Lemma gsub_tail_eq l : forall c, words_ok l -> 0 <= c <= 1 -> gsub_tail c l = sub_tail c l.
Proof.
  induction l as [|x l IH]; intros c Hl Hc; [reflexivity|].
  apply words_ok_cons in Hl as [Hx Hl]. cbn [gsub_tail sub_tail].
  pose proof (ovf_sub_sbb x c Hc Hx) as E. pose proof (sbb_range c x 0) as R.
  destruct (ovf_sub x c) as [s cx]. cbn [fst snd] in E. rewrite <- E in *. cbn [fst] in R.
  destruct (Z.eqb_spec (if cx then 1 else 0) 0) as [E0|E0].
  - rewrite E0, gsub_tail_0 by auto. reflexivity.
  - f_equal. apply IH; auto.
Qed.

Lemma gsub_with_sign_eq a b : canon a -> canon b -> gsub_with_sign a b = sub_inner_with_sign a b.
Proof.
  intros Ha Hb. unfold gsub_with_sign, sub_inner_with_sign.
  pose proof (canon_words a Ha) as Wa. pose proof (canon_words b Hb) as Wb.
  set (a1 := if nat_ge a b then a else resize a (length b) 0).
  assert (Wa1 : words_ok a1).
  { unfold a1. pose proof (ge_lengths a b Ha Hb). destruct (nat_ge a b); auto.
    rewrite resize_grow by lia. apply words_ok_app; auto using words_ok_repeat0. }
  rewrite gsub_zip_eq by (auto; lia).
  pose proof (sub_zip_spec (nat_ge a b) a1 0 b Wa1 Wb ltac:(lia)) as S. cbv zeta in S.
  destruct (sub_zip (nat_ge a b) 0 a1 b) as [lo c]. cbn [fst snd] in S.
  rewrite gsub_tail_eq by (auto using words_ok_skipn; lia). reflexivity.
Qed.

Lemma gadd_basic_eq a : forall c w, words_ok a -> 0 <= w < W -> 0 <= c <= 1 ->
  gadd_basic_loop c a w = add_basic_loop c a w.
Proof.
  induction a as [|x a IH]; intros c w Ha Hw Hc; [reflexivity|].
  apply words_ok_cons in Ha as [Hx Ha]. cbn [gadd_basic_loop add_basic_loop].
  rewrite gadc_eq by auto. pose proof (adc_carry c x w Hc Hx Hw).
  destruct (adc c x w) as [c' s]. cbn [fst] in *. f_equal. apply IH; auto; lia.
Qed.

Lemma gsub_basic_loop_eq a : forall c w, words_ok a -> 0 <= w < W -> 0 <= c <= 1 ->
  gsub_basic_loop c a w = sub_basic_loop c a w.
Proof.
  induction a as [|x a IH]; intros c w Ha Hw Hc; [reflexivity|].
  apply words_ok_cons in Ha as [Hx Ha]. cbn [gsub_basic_loop sub_basic_loop].
  rewrite Z.gtb_ltb. destruct (Z.ltb_spec 0 w).
  - rewrite gsbb_eq by auto. pose proof (sbb_range c x w).
    destruct (sbb c x w) as [c' s]. cbn [fst] in *. f_equal. apply IH; auto; lia.
  - assert (w = 0) by lia. subst w.
    pose proof (ovf_sub_sbb x c Hc Hx) as E. pose proof (sbb_range c x 0) as R.
    destruct (ovf_sub x c) as [s cx]. cbn [fst snd] in E. rewrite <- E in *. cbn [fst] in R.
    f_equal. apply IH; auto; lia.
Qed.

Lemma gsub_basic_trim a w : canon a -> 0 <= w < W -> gsub_basic a w = trim (sub_inner_basic a w).
Proof.
  intros Ha Hw. pose proof (canon_words a Ha) as Wa.
  unfold gsub_basic, sub_inner_basic. destruct a as [|x [|y l]]; [reflexivity|reflexivity|].
  rewrite gsub_basic_loop_eq by (auto; lia). reflexivity.
Qed.

(* ------------------------------------------------------------------ *)
(** * Multiplication *)

(** A row: [out] finished words, one pending carry word. *)
Lemma gmul_row_spec a mx : 0 <= a < W -> words_ok mx -> forall out c,
  words_ok out -> 0 <= c < W ->
  words_ok (gmul_row (out ++ [c]) a mx) /\
  nval (gmul_row (out ++ [c]) a mx) = nval out + Wp (length out) * (c + a * nval mx).
Proof.
  intros Ha. induction mx as [|b mx IH]; intros Hm out c Ho Hc.
  - cbn [gmul_row]. split.
    + apply words_ok_app. split; auto. apply canon_single; auto.
    + rewrite nval_app. cbn [nval]. ring.
  - apply words_ok_cons in Hm as [Hb Hm]. cbn [gmul_row].
    rewrite last_last, removelast_last.
    assert (B : 0 <= a * b + c < 18446744073709551616) by nia.
    rewrite (proj2 (Z.leb_gt _ _)) by lia. rewrite (Z.mod_small (a * b + c)) by lia. rewrite app_nil_r.
    set (s := a * b + c) in *.
    change [s mod W; s / W] with ([s mod W] ++ [s / W]). rewrite app_assoc.
    assert (Hs : 0 <= s mod W < W) by (apply Z.mod_pos_bound; lia).
    assert (Hq : 0 <= s / W < W).
    { split; [apply Z.div_pos; lia|apply Z.div_lt_upper_bound; lia]. }
    destruct (IH Hm (out ++ [s mod W]) (s / W)) as [I1 I2]; auto.
    { apply words_ok_app. split; auto. apply canon_single; auto. }
    split; [exact I1|]. rewrite I2, nval_app, app_length. cbn [length nval].
    rewrite Wp_add. change (Wp 1) with W.
    pose proof (Z.div_mod s W ltac:(lia)). rewrite Z.mul_0_r, Z.add_0_r.
    transitivity (nval out + Wp (length out) * (W * (s / W) + s mod W + a * (W * nval mx))); [ring|].
    rewrite <- H. unfold s. ring.
Qed.

Lemma gmul_row_zeros a mx i : 0 <= a < W -> words_ok mx ->
  words_ok (gmul_row (repeat 0 (i + 1)) a mx) /\
  nval (gmul_row (repeat 0 (i + 1)) a mx) = Wp i * (a * nval mx) /\
  gmul_row (repeat 0 (i + 1)) a mx <> [].
Proof.
  intros Ha Hm. replace (repeat 0 (i + 1)) with (repeat 0 i ++ [0]) by (rewrite repeat_app; reflexivity).
  destruct (gmul_row_spec a mx Ha Hm (repeat 0 i) 0) as [I1 I2]; [apply words_ok_repeat0|lia|].
  split; [auto|]. split.
  - rewrite I2, nval_repeat0, repeat_length. ring.
  - clear. assert (H : forall out c, gmul_row (out ++ [c]) a mx <> []).
    { induction mx as [|b mx IH]; intros out c; cbn [gmul_row].
      - destruct out; discriminate.
      - rewrite last_last, removelast_last. cbv zeta.
        destruct (_ <=? _).
        + change [(a * b + c) mod 18446744073709551616 mod W; (a * b + c) mod 18446744073709551616 / W]
          with ([(a * b + c) mod 18446744073709551616 mod W] ++ [(a * b + c) mod 18446744073709551616 / W]).
          rewrite !app_assoc. apply IH.
        + rewrite app_nil_r. change [(a * b + c) mod 18446744073709551616 mod W; (a * b + c) mod 18446744073709551616 / W]
          with ([(a * b + c) mod 18446744073709551616 mod W] ++ [(a * b + c) mod 18446744073709551616 / W]).
          rewrite !app_assoc. apply IH. }
    apply H.
Qed.

Lemma gmul_rows_spec mx : words_ok mx -> forall mn acc i, words_ok mn -> canon acc ->
  canon (gmul_rows acc i mn mx) /\
  nval (gmul_rows acc i mn mx) = nval acc + Wp i * (nval mn * nval mx).
Proof.
  intros Hm. induction mn as [|a mn IH]; intros acc i Hn Hacc.
  - cbn [gmul_rows nval]. split; auto. ring.
  - apply words_ok_cons in Hn as [Ha Hn]. cbn [gmul_rows].
    destruct (gmul_row_zeros a mx i Ha Hm) as (R1 & R2 & R3).
    pose proof (trim_canon _ R1 R3) as Ct.
    rewrite gadd_inner_eq by auto.
    destruct (IH (add_inner acc (trim (gmul_row (repeat 0 (i + 1)) a mx))) (S i) Hn) as [I1 I2].
    { apply add_inner_canon; auto. }
    split; auto. rewrite I2, add_inner_val by auto using canon_words.
    rewrite trim_val, R2, Wp_S, nval_cons. ring.
Qed.

Lemma gmul_inner_of_Z a b : canon a -> canon b -> gmul_inner a b = of_Z (nval a * nval b).
Proof.
  intros Ha Hb. unfold gmul_inner.
  destruct (min_max_cases a b Ha Hb) as (mn & mx & E & Hmn & Hmx & V & _). rewrite E.
  destruct (gmul_rows_spec mx (canon_words _ Hmx) mn [0] 0 (canon_words _ Hmn)) as [G1 G2].
  { apply canon_single. lia. }
  rewrite trim_canon_id by auto. apply of_Z_unique; auto. rewrite G2.
  change (Wp 0) with 1. cbn [nval]. nia.
Qed.

Lemma gmul_inner_eq a b : canon a -> canon b -> gmul_inner a b = mul_inner a b.
Proof. intros. rewrite gmul_inner_of_Z, mul_inner_of_Z; auto. Qed.
