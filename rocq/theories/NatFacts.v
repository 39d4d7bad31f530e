(** Proofs about comparison, addition, subtraction (NatModel.v). *)
From Coq Require Import ZArith List Lia Bool.
From Verif Require Import Words WordsFacts NatModel.
Import ListNotations.
Open Scope Z_scope.

Ltac ok := solve [assumption | auto | lia | auto with zarith].

(* ------------------------------------------------------------------ *)
(** * Comparison *)

Fixpoint bval (l : list Z) : Z :=
  match l with
  | [] => 0
  | x :: l' => x * W ^ Z.of_nat (length l') + bval l'
  end.

Lemma nval_rev_bval l : nval (rev l) = bval l.
Proof.
  induction l as [|x l IH]; [reflexivity|].
  cbn [rev bval]. rewrite nval_app, rev_length, IH. cbn [nval]. ring.
Qed.

Lemma bval_bound l : words_ok l -> 0 <= bval l < Wp (length l).
Proof.
  intros H. rewrite <- nval_rev_bval, <- rev_length. apply nval_bound, words_ok_rev, H.
Qed.

Lemma cmp_words_spec a b : words_ok a -> words_ok b -> length a = length b ->
  cmp_words a b = (bval a ?= bval b).
Proof.
  revert b. induction a as [|x a IH]; intros [|y b] Ha Hb Hl; try discriminate; auto.
  apply words_ok_cons in Ha as [Hx Ha]. apply words_ok_cons in Hb as [Hy Hb].
  injection Hl as Hl. cbn [cmp_words bval].
  pose proof (bval_bound a Ha) as B1. pose proof (bval_bound b Hb) as B2.
  rewrite Hl in *.
  destruct (Z.ltb_spec x y).
  - symmetry. apply Z.compare_lt_iff. nia.
  - destruct (Z.ltb_spec y x).
    + symmetry. apply Z.compare_gt_iff. nia.
    + assert (x = y) by lia. subst. rewrite IH by auto.
      destruct (Z.compare_spec (bval a) (bval b)); symmetry;
      [apply Z.compare_eq_iff|apply Z.compare_lt_iff|apply Z.compare_gt_iff]; lia.
Qed.

Lemma cmp_inner_words a b : words_ok a -> words_ok b -> length a = length b ->
  cmp_inner a b = (nval a ?= nval b).
Proof.
  intros Ha Hb Hl. unfold cmp_inner. rewrite Hl, Nat.ltb_irrefl.
  rewrite cmp_words_spec by (auto using words_ok_rev; rewrite !rev_length; auto).
  rewrite <- !nval_rev_bval, !rev_involutive. reflexivity.
Qed.

Lemma cmp_inner_spec a b : canon a -> canon b -> cmp_inner a b = (nval a ?= nval b).
Proof.
  intros Ha Hb. destruct (Nat.lt_trichotomy (length a) (length b)) as [H|[H|H]].
  - unfold cmp_inner. apply Nat.ltb_lt in H as E. rewrite E.
    symmetry. apply Z.compare_lt_iff. apply canon_len_lt; auto.
  - apply cmp_inner_words; auto using canon_words.
  - unfold cmp_inner. assert ((length a <? length b)%nat = false) as -> by (apply Nat.ltb_ge; lia).
    apply Nat.ltb_lt in H as E. rewrite E.
    symmetry. apply Z.compare_gt_iff. apply canon_len_lt; auto.
Qed.

Lemma is_nan_canon a : canon a -> is_nan a = false.
Proof. intros H. destruct a; auto. destruct H as (_ & H & _). congruence. Qed.

Lemma partial_cmp_spec a b : canon a -> canon b -> partial_cmp a b = Some (nval a ?= nval b).
Proof.
  intros Ha Hb. unfold partial_cmp. rewrite !is_nan_canon by auto.
  cbn. rewrite cmp_inner_spec by auto. reflexivity.
Qed.

Lemma nat_ge_spec a b : canon a -> canon b -> nat_ge a b = (nval b <=? nval a).
Proof.
  intros Ha Hb. unfold nat_ge. rewrite partial_cmp_spec by auto.
  destruct (Z.compare_spec (nval a) (nval b)); symmetry;
  [apply Z.leb_le|apply Z.leb_gt|apply Z.leb_le]; lia.
Qed.

Lemma nat_lt_spec a b : canon a -> canon b -> nat_lt a b = (nval a <? nval b).
Proof.
  intros Ha Hb. unfold nat_lt. rewrite partial_cmp_spec by auto.
  destruct (Z.compare_spec (nval a) (nval b)); symmetry;
  [apply Z.ltb_ge|apply Z.ltb_lt|apply Z.ltb_ge]; lia.
Qed.

Lemma list_eqb_spec a b : list_eqb a b = true <-> a = b.
Proof.
  revert b. induction a as [|x a IH]; intros [|y b]; cbn [list_eqb]; split; intros H;
  try discriminate; auto.
  - apply andb_prop in H as [H1 H2]. apply Z.eqb_eq in H1. apply IH in H2. congruence.
  - injection H as -> ->. rewrite Z.eqb_refl. apply IH. auto.
Qed.

Lemma nat_eq_spec a b : canon a -> canon b -> nat_eq a b = (nval a =? nval b).
Proof.
  intros Ha Hb. unfold nat_eq. rewrite is_nan_canon by auto.
  destruct (list_eqb a b) eqn:E.
  - apply list_eqb_spec in E. subst. rewrite Z.eqb_refl. auto.
  - symmetry. apply Z.eqb_neq. intros Hv. apply canon_inj in Hv; auto.
    apply list_eqb_spec in Hv. congruence.
Qed.

Lemma nat_eq_u32_spec a w : canon a -> 0 <= w < W -> nat_eq_u32 a w = (nval a =? w).
Proof.
  intros Ha Hw. unfold nat_eq_u32, from_u32. rewrite nat_eq_spec by auto using canon_single.
  cbn [nval]. f_equal. lia.
Qed.

(* ------------------------------------------------------------------ *)
(** * Addition *)

Lemma adc_spec c a b : fst (adc c a b) * W + snd (adc c a b) = a + b + c /\
   0 <= snd (adc c a b) < W.
Proof.
  unfold adc. cbn [fst snd]. pose proof (Z.div_mod (a + b + c) W).
  pose proof (Z.mod_pos_bound (a + b + c) W). lia.
Qed.

Lemma adc_carry c a b : 0 <= c <= 1 -> 0 <= a < W -> 0 <= b < W ->
  0 <= fst (adc c a b) <= 1.
Proof.
  intros. pose proof (adc_spec c a b). lia.
Qed.

Lemma carry_loop_spec l : forall c, words_ok l -> 0 <= c <= 1 ->
  nval (carry_loop c l) = nval l + c /\ words_ok (carry_loop c l).
Proof.
  induction l as [|x l IH]; intros c Hl Hc; cbn [carry_loop].
  - rewrite Z.gtb_ltb. destruct (Z.ltb_spec 0 c); cbn [nval]; (split; [lia|]); repeat constructor; lia.
  - apply words_ok_cons in Hl as [Hx Hl].
    pose proof (adc_spec c x 0). pose proof (adc_carry c x 0).
    destruct (adc c x 0) as [c' s]. cbn [fst snd] in *.
    destruct (IH c') as [E1 E2]; [ok..|].
    split; [rewrite !nval_cons, E1; lia|]. apply words_ok_cons; split; auto; lia.
Qed.

Lemma add_loop_spec a : forall c b, words_ok a -> words_ok b -> 0 <= c <= 1 ->
  nval (add_loop c a b) = nval a + nval b + c /\ words_ok (add_loop c a b).
Proof.
  induction a as [|x a IH]; intros c b Ha Hb Hc.
  - cbn [add_loop]. destruct (carry_loop_spec b c) as [E1 E2]; [auto..|]. split; [rewrite E1; cbn [nval]; lia|auto].
  - destruct b as [|y b].
    + cbn [add_loop]. destruct (carry_loop_spec (x :: a) c) as [E1 E2]; [auto..|]. split; [rewrite E1; cbn [nval]; lia|auto].
    + cbn [add_loop]. apply words_ok_cons in Ha as [Hx Ha]. apply words_ok_cons in Hb as [Hy Hb].
      pose proof (adc_spec c x y). pose proof (adc_carry c x y).
      destruct (adc c x y) as [c' s]. cbn [fst snd] in *.
      destruct (IH c' b) as [E1 E2]; [ok..|].
      split; [rewrite !nval_cons, E1; lia|]. apply words_ok_cons; split; auto; lia.
Qed.

(** canonical by value: enough to know the last word is positive or length 1 *)
Lemma canon_intro l : words_ok l -> l <> [] ->
  ((1 < length l)%nat -> Wp (length l - 1) <= nval l) -> canon l.
Proof.
  intros Hw Hn H. split; [auto|split; [auto|]].
  destruct (Nat.eq_dec (length l) 1); [left; auto|right].
  assert (1 < length l)%nat. { destruct l; [congruence|]. simpl in *. lia. }
  specialize (H H0). rewrite nval_last in H by auto.
  pose proof (nval_bound _ (words_ok_removelast l Hw)) as B.
  rewrite removelast_len in B. intros E. rewrite E in H. lia.
Qed.

Lemma carry_loop_len l : forall c, words_ok l -> 0 <= c <= 1 ->
  length (carry_loop c l) = length l \/
  (length (carry_loop c l) = S (length l) /\ Wp (length l) <= nval l + c).
Proof.
  induction l as [|x l IH]; intros c Hl Hc; cbn [carry_loop].
  - rewrite Z.gtb_ltb. destruct (Z.ltb_spec 0 c); cbn [length nval]; [right|left; auto].
    split; auto. cbn. lia.
  - apply words_ok_cons in Hl as [Hx Hl].
    pose proof (adc_spec c x 0). pose proof (adc_carry c x 0).
    destruct (adc c x 0) as [c' s]. cbn [fst snd] in *.
    destruct (IH c') as [E|[E1 E2]]; [ok..| |].
    + left. cbn [length]. lia.
    + right. cbn [length]. split; [lia|]. rewrite Wp_S, nval_cons. nia.
Qed.

Lemma add_loop_len a : forall c b, words_ok a -> words_ok b -> 0 <= c <= 1 ->
  let m := Nat.max (length a) (length b) in
  length (add_loop c a b) = m \/
  (length (add_loop c a b) = S m /\ Wp m <= nval a + nval b + c).
Proof.
  induction a as [|x a IH]; intros c b Ha Hb Hc m; subst m.
  - cbn [add_loop length nval Nat.max]. destruct (carry_loop_len b c) as [E|[E1 E2]]; auto.
  - destruct b as [|y b].
    + cbn [add_loop]. destruct (carry_loop_len (x :: a) c) as [E|[E1 E2]]; [ok..|left; exact E|].
      right. cbn [length Nat.max nval] in *. split; auto. lia.
    + cbn [add_loop]. apply words_ok_cons in Ha as [Hx Ha]. apply words_ok_cons in Hb as [Hy Hb].
      pose proof (adc_spec c x y). pose proof (adc_carry c x y).
      destruct (adc c x y) as [c' s]. cbn [fst snd] in *.
      destruct (IH c' b) as [E|[E1 E2]]; [ok..| |]; cbn [length Nat.max].
      * left. lia.
      * right. split; [lia|]. rewrite Wp_S, !nval_cons. nia.
Qed.

Lemma add_inner_val a b : words_ok a -> words_ok b -> nval (add_inner a b) = nval a + nval b.
Proof. intros Ha Hb. unfold add_inner. destruct (add_loop_spec a 0 b); auto; lia. Qed.

Lemma add_inner_words a b : words_ok a -> words_ok b -> words_ok (add_inner a b).
Proof. intros Ha Hb. unfold add_inner. destruct (add_loop_spec a 0 b); auto; lia. Qed.

Lemma canon_len_pos l : canon l -> (1 <= length l)%nat.
Proof. intros (_ & H & _). destruct l; [congruence|]. simpl. lia. Qed.

Lemma add_inner_canon a b : canon a -> canon b -> canon (add_inner a b).
Proof.
  intros Ha Hb.
  pose proof (canon_words a Ha) as Wa. pose proof (canon_words b Hb) as Wb.
  pose proof (add_inner_val a b Wa Wb) as V. pose proof (add_inner_words a b Wa Wb) as Wr.
  pose proof (canon_len_pos a Ha). pose proof (canon_len_pos b Hb).
  pose proof (nval_nonneg a Wa). pose proof (nval_nonneg b Wb).
  unfold add_inner in *. destruct (add_loop_len a 0 b) as [E|[E1 E2]]; auto; try lia.
  - apply canon_intro; auto.
    + intros N. rewrite N in E. cbn in E. lia.
    + rewrite E, V. intros L.
      destruct (Nat.max_spec (length a) (length b)) as [[M1 M2]|[M1 M2]]; rewrite M2 in *.
      * pose proof (canon_lower b Hb). lia.
      * pose proof (canon_lower a Ha). lia.
  - apply canon_intro; auto.
    + intros N. rewrite N in E1. cbn in E1. lia.
    + rewrite E1, V. intros L. replace (S (Nat.max (length a) (length b)) - 1)%nat with (Nat.max (length a) (length b)) by lia. lia.
Qed.

Lemma add_inner_of_Z a b : canon a -> canon b -> add_inner a b = of_Z (nval a + nval b).
Proof. intros. apply of_Z_unique; auto using add_inner_canon, add_inner_val, canon_words. Qed.

(** word operand *)
Lemma add_basic_eq a : forall c w, add_basic_loop c a w =
  match a with [] => carry_loop c [] | x :: a' => let '(c', s) := adc c x w in s :: carry_loop c' a' end.
Proof.
  assert (H : forall a c, add_basic_loop c a 0 = carry_loop c a).
  { clear a. induction a as [|x a IH]; intros c; [reflexivity|].
    cbn [add_basic_loop carry_loop]. destruct (adc c x 0). rewrite IH. reflexivity. }
  intros c w. destruct a as [|x a]; [reflexivity|]. cbn [add_basic_loop].
  destruct (adc c x w). rewrite H. reflexivity.
Qed.

Lemma add_basic_as_add a w : a <> [] -> add_inner_basic a w = add_inner a [w].
Proof.
  intros Hn. unfold add_inner_basic, add_inner. rewrite add_basic_eq.
  destruct a as [|x a]; [congruence|]. cbn [add_loop].
  destruct (adc 0 x w). f_equal. destruct a; reflexivity.
Qed.

Lemma add_basic_of_Z a w : canon a -> 0 <= w < W -> add_inner_basic a w = of_Z (nval a + w).
Proof.
  intros Ha Hw. rewrite add_basic_as_add by auto using canon_nonnil.
  rewrite add_inner_of_Z by auto using canon_single. cbn [nval]. f_equal. lia.
Qed.

(* ------------------------------------------------------------------ *)
(** * Subtraction *)

Lemma sbb_spec c a b : 0 <= c <= 1 -> 0 <= a < W -> 0 <= b < W ->
  snd (sbb c a b) = a - b - c + W * fst (sbb c a b) /\ 0 <= snd (sbb c a b) < W /\
  0 <= fst (sbb c a b) <= 1.
Proof.
  intros Hc Ha Hb. unfold sbb. cbn [fst snd].
  pose proof (Z.mod_pos_bound (a - b - c) W).
  destruct (Z.ltb_spec (a - b - c) 0); (split; [|lia]).
  - replace (a - b - c) with ((a - b - c + W) + (-1) * W) by ring.
    rewrite Z.mod_add by lia. rewrite Z.mod_small; lia.
  - rewrite Z.mod_small; lia.
Qed.

Lemma sub_zip_spec ge a : forall c b, words_ok a -> words_ok b -> 0 <= c <= 1 ->
  let k := Nat.min (length a) (length b) in
  let r := fst (sub_zip ge c a b) in
  let c' := snd (sub_zip ge c a b) in
  words_ok r /\ length r = k /\ 0 <= c' <= 1 /\
  nval r = (if ge then nval (firstn k a) - nval (firstn k b) else nval (firstn k b) - nval (firstn k a))
           - c + Wp k * c'.
Proof.
  induction a as [|x a IH]; intros c b Ha Hb Hc k r c'; subst k r c'.
  - cbn [sub_zip fst snd length Nat.min firstn nval]. change (Wp 0) with 1.
    split; [constructor|]. destruct ge; lia.
  - destruct b as [|y b].
    + cbn [sub_zip fst snd length Nat.min firstn nval]. change (Wp 0) with 1.
      split; [constructor|]. destruct ge; lia.
    + apply words_ok_cons in Ha as [Hx Ha]. apply words_ok_cons in Hb as [Hy Hb].
      cbn [sub_zip].
      set (q := if ge then sbb c x y else sbb c y x).
      assert (Q : snd q = (if ge then x - y else y - x) - c + W * fst q /\ 0 <= snd q < W /\ 0 <= fst q <= 1).
      { subst q. destruct ge; apply sbb_spec; auto. }
      destruct q as [c1 s]. cbn [fst snd] in Q.
      specialize (IH c1 b Ha Hb ltac:(lia)). cbv zeta in IH.
      destruct (sub_zip ge c1 a b) as [r c2]. cbn [fst snd] in *.
      destruct IH as (I1 & I2 & I3 & I4).
      cbn [length Nat.min]. split; [apply words_ok_cons; split; auto; lia|].
      split; [lia|]. split; [lia|].
      cbn [firstn]. rewrite !nval_cons, Wp_S, I4. destruct ge; lia.
Qed.

Lemma sub_tail_spec a : forall c, words_ok a -> 0 <= c <= 1 -> c <= nval a ->
  nval (sub_tail c a) = nval a - c /\ words_ok (sub_tail c a) /\ length (sub_tail c a) = length a.
Proof.
  induction a as [|x a IH]; intros c Ha Hc Hle.
  - cbn in *. split; [lia|]. split; [constructor|auto].
  - apply words_ok_cons in Ha as [Hx Ha]. cbn [sub_tail].
    pose proof (sbb_spec c x 0 Hc Hx ltac:(lia)) as S.
    destruct (sbb c x 0) as [c' s]. cbn [fst snd] in S.
    pose proof (nval_nonneg a Ha).
    rewrite nval_cons in *.
    destruct (Z.eqb_spec c' 0).
    + subst. rewrite nval_cons. split; [lia|]. split; [apply words_ok_cons; split; auto; lia|auto].
    + assert (c' = 1) by lia. subst c'.
      destruct (IH 1) as (I1 & I2 & I3); [ok..|].
      rewrite nval_cons, I1. split; [lia|]. split; [apply words_ok_cons; split; auto; lia|].
      cbn [length]. lia.
Qed.

Lemma resize_grow l n : (length l <= n)%nat -> resize l n 0 = l ++ repeat 0 (n - length l).
Proof. intros H. unfold resize. rewrite firstn_all2 by lia. reflexivity. Qed.

(** the subtraction proper, for any two word lists such that [ge] tells the
    order and the length of the subtrahend does not exceed *)
Lemma sub_inner_with_sign_spec a b : canon a -> canon b ->
  nval (fst (sub_inner_with_sign a b)) = Z.abs (nval a - nval b) /\
  canon (fst (sub_inner_with_sign a b)) /\
  snd (sub_inner_with_sign a b) = (nval b <=? nval a).
Proof.
  intros Ha Hb. unfold sub_inner_with_sign.
  pose proof (nat_ge_spec a b Ha Hb) as G.
  pose proof (canon_words a Ha) as Wa. pose proof (canon_words b Hb) as Wb.
  pose proof (canon_len_pos a Ha). pose proof (canon_len_pos b Hb).
  destruct (Z.leb_spec (nval b) (nval a)) as [Hge|Hlt]; rewrite G.
  - (* a >= b *)
    assert (Lab : (length b <= length a)%nat).
    { destruct (Nat.le_gt_cases (length b) (length a)); auto.
      pose proof (canon_len_lt a b Ha Hb). lia. }
    pose proof (sub_zip_spec true a 0 b Wa Wb ltac:(lia)) as S. cbv zeta in S.
    destruct (sub_zip true 0 a b) as [lo c]. cbn [fst snd] in S.
    rewrite Nat.min_r in S by lia. destruct S as (S1 & S2 & S3 & S4).
    rewrite (firstn_all b) in S4.
    pose proof (nval_split (length b) a Wa) as SP.
    pose proof (words_ok_skipn (length b) a Wa) as Wh.
    pose proof (nval_nonneg _ Wh). pose proof (nval_bound _ (words_ok_firstn (length b) a Wa)) as B1.
    pose proof (nval_bound _ Wb). pose proof (Wp_pos (length b)).
    pose proof (nval_bound lo S1) as B2. rewrite S2 in B2.
    set (hi := skipn (length b) a) in *.
    set (hi' := if true && (c >? 0) then sub_tail c hi else hi).
    assert (T : nval hi' = nval hi - c /\ words_ok hi' ).
    { subst hi'. cbn [andb]. rewrite Z.gtb_ltb. destruct (Z.ltb_spec 0 c).
      - assert (c = 1) by lia. subst c.
        destruct (sub_tail_spec hi 1) as (T1 & T2 & T3); [ok|lia|nia|auto].
      - assert (c = 0) by lia. split; auto; lia. }
    destruct T as [T1 T2]. cbn [fst snd].
    assert (Wl : words_ok (lo ++ hi')) by (apply words_ok_app; auto).
    rewrite trim_val, nval_app, S2, S4, T1. split; [|split; auto].
    + rewrite Z.abs_eq by lia. rewrite SP. ring.
    + apply trim_canon; auto. destruct lo; [|discriminate]. cbn in S2. lia.
  - (* a < b *)
    assert (Lab : (length a <= length b)%nat).
    { destruct (Nat.le_gt_cases (length a) (length b)); auto.
      pose proof (canon_len_lt b a Hb Ha). lia. }
    rewrite resize_grow by lia.
    set (a1 := a ++ repeat 0 (length b - length a)).
    assert (Wa1 : words_ok a1) by (apply words_ok_app; auto using words_ok_repeat0).
    assert (La1 : length a1 = length b) by (unfold a1; rewrite app_length, repeat_length; lia).
    assert (Va1 : nval a1 = nval a) by (unfold a1; rewrite nval_app, nval_repeat0; lia).
    pose proof (sub_zip_spec false a1 0 b Wa1 Wb ltac:(lia)) as S. cbv zeta in S.
    destruct (sub_zip false 0 a1 b) as [lo c]. cbn [fst snd] in S.
    rewrite La1, Nat.min_id in S. destruct S as (S1 & S2 & S3 & S4).
    rewrite <- La1 in S4 at 2. rewrite (firstn_all b), (firstn_all a1) in S4.
    cbn [andb]. rewrite skipn_all2 by lia. rewrite app_nil_r. cbn [fst snd].
    pose proof (nval_bound lo S1) as B2. rewrite S2 in B2.
    pose proof (nval_bound b Wb). pose proof (nval_nonneg a Wa). pose proof (Wp_pos (length b)).
    assert (c = 0) by nia. subst c.
    rewrite trim_val. split; [|split; auto].
    + rewrite S4, Va1. lia.
    + apply trim_canon; auto. destruct lo; [|discriminate]. cbn in S2. lia.
Qed.

Lemma sub_inner_of_Z a b : canon a -> canon b -> sub_inner a b = of_Z (Z.abs (nval a - nval b)).
Proof.
  intros Ha Hb. destruct (sub_inner_with_sign_spec a b Ha Hb) as (V & C & _).
  apply of_Z_unique; auto.
Qed.

Lemma sub_with_sign_of_Z a b : canon a -> canon b ->
  sub_inner_with_sign a b = (of_Z (Z.abs (nval a - nval b)), nval b <=? nval a).
Proof.
  intros Ha Hb. destruct (sub_inner_with_sign_spec a b Ha Hb) as (V & C & S).
  rewrite (surjective_pairing (sub_inner_with_sign a b)). f_equal; auto.
  apply of_Z_unique; auto.
Qed.

(** word operand *)
Lemma sub_basic_loop_spec a : forall c w, words_ok a -> 0 <= w < W -> 0 <= c <= 1 ->
  words_ok (sub_basic_loop c a w) /\ length (sub_basic_loop c a w) = length a /\
  (w + c <= nval a -> nval (sub_basic_loop c a w) = nval a - w - c).
Proof.
  induction a as [|x a IH]; intros c w Ha Hw Hc.
  - cbn. split; [constructor|]. split; [auto|lia].
  - apply words_ok_cons in Ha as [Hx Ha]. cbn [sub_basic_loop].
    pose proof (sbb_spec c x w Hc Hx Hw) as S.
    destruct (sbb c x w) as [c' s]. cbn [fst snd] in S.
    destruct (IH c' 0) as (I1 & I2 & I3); [ok..|].
    split; [apply words_ok_cons; split; auto; lia|]. split; [cbn [length]; lia|].
    rewrite !nval_cons. intros Hle. pose proof (nval_nonneg a Ha).
    rewrite I3 by lia. lia.
Qed.

Lemma sub_basic_spec a w : canon a -> 0 <= w < W ->
  nval (sub_inner_basic a w) = Z.abs (nval a - w) /\ words_ok (sub_inner_basic a w) /\
  length (sub_inner_basic a w) = length a.
Proof.
  intros Ha Hw. unfold sub_inner_basic. destruct a as [|x [|y l]].
  - destruct Ha as (_ & H & _). congruence.
  - pose proof (canon_words _ Ha) as Wx. apply words_ok_cons in Wx as [Hx _].
    cbn [nval]. destruct (Z.ltb_spec x w); (split; [lia|]); (split; [|auto]);
    repeat constructor; lia.
  - set (a := x :: y :: l) in *.
    pose proof (canon_lower a Ha ltac:(cbn; lia)).
    assert (W <= Wp (length a - 1)).
    { change W with (W ^ 1) at 1. apply Z.pow_le_mono_r; [lia|]. unfold a. cbn [length]. lia. }
    destruct (sub_basic_loop_spec a 0 w) as (S1 & S2 & S3); [auto using canon_words|lia|lia|].
    rewrite S3 by lia. split; [lia|]. auto.
Qed.
