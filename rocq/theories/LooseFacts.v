(** Numbers with leading zero words as operands. *)
From Coq Require Import ZArith List Bool Lia.
From Verif Require Import Words WordsFacts Spec NatModel NatFacts NatFacts2 NatFacts3 NatFacts4 NatFacts5 NatConv NatConvFacts SpecShift ShiftFacts SpecLoose.
Import ListNotations.
Open Scope Z_scope.

Lemma stored_nan a l n : stored a l n -> is_nan a = false.
Proof. intros (_ & L & P & _). destruct a; [cbn in L; lia|reflexivity]. Qed.
Lemma stored_nonnil a l n : stored a l n -> a <> [].
Proof. intros (_ & L & P & _) ->. cbn in L. lia. Qed.
Lemma stored_bound a l n : stored a l n -> 0 <= n < 2 ^ (32 * l).
Proof. intros (H & <- & _ & <-). rewrite <- Wp_pow2. apply nval_bound. exact H. Qed.
Lemma cmp_stored a l m b k n : stored a l m -> stored b k n -> cmp_inner a b = stored_compare l m k n.
Proof.
  intros (Wa & La & _ & Va) (Wb & Lb & _ & Vb). unfold stored_compare. destruct (Z.ltb_spec l k); [unfold cmp_inner; assert ((length a <? length b)%nat = true) as -> by (apply Nat.ltb_lt; lia); reflexivity|].
  destruct (Z.ltb_spec k l).
  - unfold cmp_inner. assert ((length a <? length b)%nat = false) as -> by (apply Nat.ltb_ge; lia). assert ((length b <? length a)%nat = true) as -> by (apply Nat.ltb_lt; lia). reflexivity.
  - rewrite cmp_inner_words by (auto; lia). rewrite Va, Vb. reflexivity.
Qed.
Lemma ge_stored a l m b k n : stored a l m -> stored b k n -> nat_ge a b = match stored_compare l m k n with Lt => false | _ => true end.
Proof.
  intros A B. unfold nat_ge, partial_cmp. rewrite (stored_nan a l m A), (stored_nan b k n B). cbn [orb]. rewrite (cmp_stored a l m b k n) by auto. destruct (stored_compare l m k n); reflexivity.
Qed.

Lemma sub_tail_mod a : forall c, words_ok a -> 0 <= c <= 1 ->
  nval (sub_tail c a) = (nval a - c) mod Wp (length a) /\ words_ok (sub_tail c a) /\ length (sub_tail c a) = length a.
Proof.
  intros c Wa Hc. pose proof (nval_bound a Wa) as B. destruct (Z.le_gt_cases c (nval a)) as [L|L].
  - destruct (sub_tail_spec a c Wa Hc L) as (T1 & T2 & T3). split; [|auto]. rewrite T1. symmetry. apply Z.mod_small. lia.
  - assert (c = 1) by lia. subst c. assert (nval a = 0) as V0 by lia. clear L B. rewrite V0. clear Hc.
    induction a as [|x a IH]; [split; [reflexivity|split; [exact Wa|reflexivity]]|].
    apply words_ok_cons in Wa as [Hx Wa]. rewrite nval_cons in V0. pose proof (nval_nonneg a Wa). assert (W0 : 0 < W) by reflexivity.
    assert (x = 0) by nia. assert (nval a = 0) by nia. subst x.
    destruct (IH Wa ltac:(auto)) as (I1 & I2 & I3). cbn [sub_tail].
    change (sbb 1 0 0) with (1, W - 1). cbv iota beta. change (1 =? 0) with false. cbv iota.
    pose proof (Wp_pos (length a)). rewrite nval_cons, I1. cbn [length]. rewrite Wp_S.
    split; [|split; [apply words_ok_cons; split; [lia|auto]|lia]].
    rewrite <- (Z.mod_unique (0 - 1) (Wp (length a)) (-1) (Wp (length a) - 1)) by lia.
    replace ((0 - 1) mod (W * Wp (length a))) with (W * Wp (length a) - 1) by (apply (Z.mod_unique _ _ (-1)); nia). lia.
Qed.

Lemma sub_stored a l m b k n : stored a l m -> stored b k n -> sub_inner a b = of_Z (stored_difference l m k n).
Proof.
  intros A B. pose proof (ge_stored a l m b k n A B) as G. pose proof (stored_bound _ _ _ A) as Bm. pose proof (stored_bound _ _ _ B) as Bn.
  pose proof (cmp_stored a l m b k n A B) as CM. destruct A as (Wa & La & Pa & Va). destruct B as (Wb & Lb & Pb & Vb).
  unfold sub_inner, sub_inner_with_sign, stored_difference. rewrite G. destruct (stored_compare l m k n) eqn:SC.
  1,3: assert (Lab : (length b <= length a)%nat) by (unfold stored_compare in SC; destruct (Z.ltb_spec l k); [discriminate|lia]);
    pose proof (sub_zip_spec true a 0 b Wa Wb ltac:(lia)) as S; cbv zeta in S;
    destruct (sub_zip true 0 a b) as [lo c]; cbn [fst snd] in S;
    rewrite Nat.min_r in S by lia; destruct S as (S1 & S2 & S3 & S4); rewrite (firstn_all b) in S4;
    pose proof (nval_split (length b) a Wa) as SP; pose proof (words_ok_skipn (length b) a Wa) as Wh;
    set (hi := skipn (length b) a) in *; set (hi' := if true && (c >? 0) then sub_tail c hi else hi);
    assert (T : nval hi' = (nval hi - c) mod Wp (length hi) /\ words_ok hi' /\ length hi' = length hi);
    [subst hi'; cbn [andb]; rewrite Z.gtb_ltb; destruct (Z.ltb_spec 0 c); [apply sub_tail_mod; auto|];
     assert (c = 0) as -> by lia; pose proof (nval_bound hi Wh); rewrite Z.sub_0_r, Z.mod_small by lia; auto|];
    destruct T as (T1 & T2 & T3); cbn [fst snd];
    assert (Wl : words_ok (lo ++ hi')) by (apply words_ok_app; auto);
    (apply of_Z_unique; [apply trim_canon; auto; destruct lo; [cbn in S2; lia|discriminate]|]);
    rewrite trim_val, nval_app, S2, S4, T1;
    assert (LH : length hi = (length a - length b)%nat) by (unfold hi; rewrite skipn_length; lia);
    pose proof (Wp_pos (length hi)) as PH; pose proof (Z.div_mod (nval hi - c) (Wp (length hi)) ltac:(lia)) as DM;
    assert (WL : 2 ^ (32 * l) = Wp (length b) * Wp (length hi)) by (rewrite <- La, <- Wp_pow2, <- Wp_add; f_equal; lia);
    rewrite WL;
    apply (Z.mod_unique _ _ ((nval hi - c) / Wp (length hi)));
    [left; pose proof (nval_bound (lo ++ hi') Wl) as BB; rewrite app_length, S2, T3, Wp_add, nval_app, S2, S4, T1 in BB; exact BB
    |rewrite <- Va, <- Vb; rewrite SP at 1; fold hi; replace (nval hi) with (c + (nval hi - c)) at 1 by ring; rewrite DM at 1; ring].
  assert (Lab : (length a <= length b)%nat) by (unfold stored_compare in SC; destruct (Z.ltb_spec l k); [lia|destruct (Z.ltb_spec k l); [discriminate|lia]]).
  rewrite resize_grow by lia.
  set (a1 := a ++ repeat 0 (length b - length a)).
  assert (Wa1 : words_ok a1) by (apply words_ok_app; auto using words_ok_repeat0).
  assert (La1 : length a1 = length b) by (unfold a1; rewrite app_length, repeat_length; lia).
  assert (Va1 : nval a1 = nval a) by (unfold a1; rewrite nval_app, nval_repeat0; lia).
  pose proof (sub_zip_spec false a1 0 b Wa1 Wb ltac:(lia)) as S. cbv zeta in S.
  destruct (sub_zip false 0 a1 b) as [lo c]. cbn [fst snd] in S.
  rewrite La1, Nat.min_id in S. destruct S as (S1 & S2 & S3 & S4).
  rewrite <- La1 in S4 at 2. rewrite (firstn_all b), (firstn_all a1) in S4.
  cbn [andb]. rewrite skipn_all2 by lia. rewrite app_nil_r. cbn [fst snd].
  pose proof (nval_bound lo S1) as B2. rewrite S2 in B2.
  apply of_Z_unique; [apply trim_canon; auto; destruct lo; [cbn in S2; lia|discriminate]|].
  rewrite trim_val. rewrite <- Lb, <- Wp_pow2. apply (Z.mod_unique _ _ (- c)); [left; exact B2|]. rewrite S4, Va1, Va, Vb. ring.
Qed.

Lemma sub_basic_mod a : forall c w, words_ok a -> 0 <= w < W -> 0 <= c <= 1 -> nval (sub_basic_loop c a w) = (nval a - (if is_nan a then 0 else w + c)) mod Wp (length a).
Proof.
  induction a as [|x a IH]; intros c w Wa Hw Hc; [reflexivity|]. apply words_ok_cons in Wa as [Hx Wa]. cbn [sub_basic_loop is_nan length]. rewrite Wp_S.
  pose proof (sbb_spec c x w Hc Hx Hw) as S. destruct (sbb c x w) as [c' s]. cbn [fst snd] in S. rewrite !nval_cons, (IH c' 0) by (auto; lia).
  pose proof (Wp_pos (length a)) as P. set (M := Wp (length a)) in *. assert (W0 : 0 < W) by reflexivity.
  assert (E : (nval a - (if is_nan a then 0 else 0 + c')) mod M = (nval a - c') mod M).
  { destruct a; cbn [is_nan]; [subst M; cbn [length]; change (Wp 0) with 1; rewrite !Z.mod_1_r; reflexivity|f_equal; lia]. }
  rewrite E. pose proof (Z.mod_pos_bound (nval a - c') M P) as B. pose proof (Z.div_mod (nval a - c') M ltac:(lia)) as D.
  apply (Z.mod_unique _ _ ((nval a - c') / M)); [left; nia|]. replace (nval a) with (c' + (nval a - c')) at 1 by ring. rewrite D at 1. destruct S as (S & _). rewrite S. ring.
Qed.

Lemma stored_top a l m : stored a l m -> exists t, t = last a 0 /\ 0 <= t < W /\ 2 ^ (32 * (l - 1)) * t <= m < 2 ^ (32 * (l - 1)) * (t + 1).
Proof.
  intros S. pose proof (stored_nonnil _ _ _ S) as N. destruct S as (Wa & La & P & V). exists (last a 0). split; [reflexivity|]. split; [apply words_ok_last; auto|].
  rewrite (nval_last a N) in V. pose proof (nval_bound _ (words_ok_removelast a Wa)) as B. rewrite removelast_len in B. rewrite Wp_pow2 in B, V. replace (Z.of_nat (length a - 1)) with (l - 1) in * by lia. lia.
Qed.
Lemma stored_canon a l m : stored a l m -> l = 1 \/ 2 ^ (32 * (l - 1)) <= m -> canon a.
Proof.
  intros S D. pose proof (stored_nonnil _ _ _ S) as N. destruct (stored_top a l m S) as (t & -> & Ht & B). destruct S as (Wa & La & P & V).
  split; [auto|]. split; [auto|]. destruct D as [D|D]; [left; lia|]. right. intros E. rewrite E in B. lia.
Qed.
Lemma canon_stored a n : represents a n -> stored a (words n) n.
Proof. intros (C & V). split; [apply canon_words; auto|]. pose proof (canon_len_pos a C). rewrite <- V, <- len_words by auto. split; [reflexivity|]. split; [lia|reflexivity]. Qed.
Lemma bits_len_stored a l m : stored a l m -> bits_len a = if m <? 2 ^ (32 * (l - 1)) then Z.max 1 (32 * (l - 1)) else bit_length m.
Proof.
  intros S. destruct (Z.ltb_spec m (2 ^ (32 * (l - 1)))) as [L|L].
  - pose proof (stored_nonnil _ _ _ S) as N. destruct (stored_top a l m S) as (t & E & Ht & B). pose proof (stored_bound _ _ _ S). destruct S as (Wa & La & P & V).
    assert (t = 0) by nia. rewrite bits_len_nonnil by auto. rewrite <- E. subst t. rewrite H0, Z.eqb_refl. destruct (Nat.eqb_spec (length a) 1); lia.
  - pose proof (stored_canon a l m S ltac:(auto)) as C. rewrite bits_len_spec by auto. destruct S as (Wa & La & P & V). rewrite V.
    pose proof (pow2_pos (32 * (l - 1)) ltac:(lia)). destruct (Z.eqb_spec m 0); [lia|reflexivity].
Qed.

Lemma eqb_stored a l m b k n : stored a l m -> stored b k n -> nat_eq a b = (l =? k) && (m =? n).
Proof.
  intros A B. unfold nat_eq. rewrite (stored_nan a l m A). destruct A as (Wa & La & Pa & Va). destruct B as (Wb & Lb & Pb & Vb).
  destruct (list_eqb a b) eqn:E.
  - apply list_eqb_spec in E. subst b. replace k with l by lia. replace n with m by lia. rewrite !Z.eqb_refl. reflexivity.
  - symmetry. apply not_true_iff_false. intros T. apply andb_prop in T. destruct T as (T1 & T2). apply Z.eqb_eq in T1. apply Z.eqb_eq in T2.
    assert (a = b). { apply nval_inj; auto; lia. } subst b. assert (list_eqb a a = true) by (apply list_eqb_spec; reflexivity). congruence.
Qed.

Lemma of_Z_stored n : 0 <= n -> stored (of_Z n) (words n) n.
Proof. intros H. apply canon_stored. split; [apply of_Z_canon; auto|apply of_Z_val; auto]. Qed.
Lemma trim_stored a l m : stored a l m -> trim a = of_Z m.
Proof. intros A. pose proof (stored_nonnil a l m A) as N. destruct A as (Wa & _ & _ & <-). apply trim_of_Z; auto. Qed.
Lemma mul_avx2_stored a l m b k n : stored a l m -> stored b k n -> mul_avx2 shl_exact a b = of_Z (m * n).
Proof.
  intros A0 B. unfold mul_avx2. assert (A : stored (trim a) (words m) m) by (rewrite (trim_stored a l m A0); apply of_Z_stored; apply (stored_bound a l m A0)). clear A0. revert A. generalize (trim a) (words m). clear a l. intros a l A.
  assert (X : exists mn mx, min_max a b = (mn, mx) /\ words_ok mn /\ words_ok mx /\ (0 < length mn)%nat /\ (0 < length mx)%nat /\ nval mn * nval mx = m * n).
  { destruct A as (Wa & La & Pa & Va). destruct B as (Wb & Lb & Pb & Vb). unfold min_max. destruct (nat_lt a b); do 2 eexists; (split; [reflexivity|]);
      (split; [auto|]); (split; [auto|]); (split; [lia|]); (split; [lia|]); rewrite Va, Vb; ring. }
  destruct X as (mn & mx & E & Wn & Wx & L1 & L2 & V). rewrite E, <- V.
  destruct (pad4_spec mx Wx) as (P1 & P2 & P3).
  set (m4 := pad4 mx) in *. set (vlen := (length mn + length m4 - 1)%nat).
  destruct (mul_rows_spec vlen m4 P1 mn 0 Wn ltac:(lia)) as (R1 & R2 & R3 & R4).
  change (Wp 0) with 1 in R4. rewrite Z.mul_1_l in R4.
  destruct (mul_cols_spec vlen 0 0 (mul_rows vlen 0 mn m4)) as (M1 & M2 & M3);
    [|exact R1|exact R2|lia| |].
  { intros N. rewrite N in R3. cbn in R3. lia. }
  { rewrite R4. replace (S vlen) with (length mn + length m4)%nat by lia. rewrite Wp_add.
    pose proof (nval_bound mn Wn). pose proof (nval_bound m4 P1). nia. }
  rewrite trim_of_Z; auto.
  - rewrite M1, R4, P2. f_equal.
  - intros N. rewrite N in M3. cbn in M3. lia.
Qed.
Lemma single_stored w : 0 <= w < W -> stored [w] 1 w.
Proof. intros H. split; [repeat constructor; lia|]. split; [reflexivity|]. split; [lia|]. cbn [nval]. lia. Qed.
Lemma mul_stored a l m b k n : stored a l m -> stored b k n -> exists j, stored (nat_mul a b) j (m * n).
Proof.
  intros A B. unfold nat_mul, op2. rewrite (stored_nan a l m A), (stored_nan b k n B). cbn [orb]. unfold mul_inner, mul_with, nat_eq_u32, from_u32.
  assert (W1 : 0 <= 1 < W) by (split; [lia|reflexivity]). assert (W0 : 0 <= 0 < W) by (split; [lia|reflexivity]).
  rewrite (eqb_stored a l m [0] 1 0), (eqb_stored b k n [0] 1 0), (eqb_stored a l m [1] 1 1), (eqb_stored b k n [1] 1 1) by auto using single_stored.
  destruct (Z.eqb_spec l 1), (Z.eqb_spec m 0), (Z.eqb_spec k 1), (Z.eqb_spec n 0), (Z.eqb_spec m 1), (Z.eqb_spec n 1); cbn [andb orb]; try lia; subst;
    try (exists 1; rewrite ?Z.mul_0_r, ?Z.mul_0_l; apply single_stored; auto; fail);
    try (rewrite ?Z.mul_1_r, ?Z.mul_1_l; eauto; fail);
    rewrite (mul_avx2_stored _ _ _ _ _ _ A B); eexists; apply of_Z_stored; pose proof (stored_bound _ _ _ A); pose proof (stored_bound _ _ _ B); nia.
Qed.

(* ------------------------------------------------------------------ *)
(** * Division by a canonical number *)

Lemma bit_length_bounds n : 0 < n -> 1 <= bit_length n /\ 2 ^ (bit_length n - 1) <= n < 2 ^ bit_length n.
Proof. intros P. unfold bit_length. pose proof (Z.log2_nonneg n). pose proof (Z.log2_spec n P). rewrite Z.add_simpl_r. unfold Z.succ in *. lia. Qed.
Lemma words_bit n l : 0 < n -> (words n < l <-> 0 <= 32 * (l - 1) - bit_length n).
Proof. intros P. unfold words, bit_length. pose proof (Z.log2_nonneg n). pose proof (Z.div_mod (Z.log2 n) 32 ltac:(lia)). pose proof (Z.mod_pos_bound (Z.log2 n) 32 ltac:(lia)). lia. Qed.
Lemma long_divisor n l : 0 < n -> 0 < l -> l <= words n -> l = 1 \/ 2 ^ (32 * (l - 1)) <= n.
Proof.
  intros P PL L. destruct (Z.eq_dec l 1); [auto|]. right. assert (~ words n < l) as N by lia. rewrite words_bit in N by auto. destruct (bit_length_bounds n P) as (_ & B & _).
  eapply Z.le_trans; [|exact B]. apply Z.pow_le_mono_r; lia.
Qed.
Lemma dividend_canon l m n : 0 < n -> 0 <= m -> l = 1 \/ 2 ^ (32 * (l - 1)) <= m -> dividend l m n = m.
Proof.
  intros P M D. unfold dividend. destruct (Z.ltb_spec m (2 ^ (32 * (l - 1)))) as [L|L]; [|reflexivity]. destruct D as [->|D]; [|lia].
  destruct (bit_length_bounds n P) as (B & _). change (32 * (1 - 1)) with 0.
  destruct (Z.leb_spec 0 (0 - bit_length n)); [lia|]. reflexivity.
Qed.
(** The first step on a dividend whose top word is zero. *)
Lemma first_step l m n : 0 < n -> 1 < l -> 0 <= m < 2 ^ (32 * (l - 1)) -> 0 <= 32 * (l - 1) - bit_length n ->
  let s := 32 * (l - 1) - bit_length n in
  0 < n * 2 ^ s < 2 ^ (32 * (l - 1)) /\ words (n * 2 ^ s) < l /\
  stored_difference l m (words (n * 2 ^ s)) (n * 2 ^ s) = dividend l m n - n * 2 ^ s /\ 0 <= dividend l m n - n * 2 ^ s < 2 ^ (32 * l).
Proof.
  intros P L M S s. destruct (bit_length_bounds n P) as (B1 & B2 & B3). pose proof (pow2_pos s S) as PS.
  assert (D : n * 2 ^ s < 2 ^ (32 * (l - 1))).
  { replace (32 * (l - 1)) with (bit_length n + s) by lia. rewrite Z.pow_add_r by lia. nia. }
  assert (LP : 0 < n * 2 ^ s) by nia.
  assert (WD : words (n * 2 ^ s) < l).
  { apply words_bit; [auto|]. unfold bit_length. apply Z.log2_lt_pow2 in D; [|auto]. lia. }
  split; [auto|]. split; [auto|]. unfold stored_difference, stored_compare, dividend. fold s.
  destruct (Z.ltb_spec l (words (n * 2 ^ s))); [lia|]. destruct (Z.ltb_spec (words (n * 2 ^ s)) l); [|lia].
  destruct (Z.ltb_spec m (2 ^ (32 * (l - 1)))); [|lia]. destruct (Z.leb_spec 0 s); [|lia]. cbn [andb].
  assert (PL : 2 ^ (32 * (l - 1)) < 2 ^ (32 * l)) by (apply Z.pow_lt_mono_r; lia).
  destruct (Z.ltb_spec m (n * 2 ^ s)).
  - split; [|lia]. symmetry. apply (Z.mod_unique _ _ (-1)); lia.
  - split; [|lia]. apply Z.mod_small. lia.
Qed.
Lemma nat_eq_zero b n : represents b n -> 0 < n -> nat_eq_u32 b 0 = false.
Proof. intros (C & V) P. rewrite nat_eq_u32_spec by (auto; lia). rewrite V. apply Z.eqb_neq. lia. Qed.
Lemma fuel_pow l a : stored a l (nval a) -> 2 ^ (32 * l) = 2 ^ Z.of_nat (32 * length a).
Proof. intros (_ & L & _). f_equal. lia. Qed.

Lemma div_stored a l m b n : stored a l m -> represents b n -> 0 < n -> nat_div a b = Ok (of_Z (m / n)).
Proof.
  intros A B P. pose proof (canon_stored b n B) as SB. unfold nat_div, op2r. rewrite (stored_nan a l m A), (stored_nan _ _ _ SB). cbn [orb].
  pose proof (stored_bound a l m A) as BM. pose proof B as (Cb & Vb).
  assert (E : div_inner a b = div_inner (of_Z m) b) by (unfold div_inner; rewrite (trim_stored a l m A), (trim_canon_id (of_Z m)) by (apply of_Z_canon; lia); reflexivity).
  rewrite E, div_inner_of_Z by (auto; try lia; apply of_Z_canon; lia). rewrite of_Z_val, Vb by lia. reflexivity.
Qed.
Lemma rem_stored a l m b n : stored a l m -> represents b n -> 0 < n -> exists r k, nat_rem a b = Ok r /\ stored r k (dividend l m n mod n) /\ (words n < l -> represents r (dividend l m n mod n)).
Proof.
  intros A B P. pose proof (canon_stored b n B) as SB. unfold nat_rem, op2r. rewrite (stored_nan a l m A), (stored_nan _ _ _ SB). cbn [orb].
  pose proof (stored_bound a l m A) as BM. pose proof A as (Wa & La & Pl & Va). pose proof B as (Cb & Vb).
  assert (OUT : forall v, 0 <= v -> exists r k, Ok (of_Z (v mod n)) = Ok r /\ stored r k (v mod n) /\ (words n < l -> represents r (v mod n))).
  { intros v V. pose proof (Z.mod_pos_bound v n P). do 2 eexists. split; [reflexivity|]. split; [apply of_Z_stored; lia|]. intros _. apply rep_of_Z. lia. }
  destruct (Z.eq_dec l 1) as [E1|N1].
  { rewrite (dividend_canon l m n P ltac:(lia) ltac:(auto)). rewrite rem_inner_of_Z by (auto; try lia; apply (stored_canon a l m); auto). rewrite Va, Vb. apply OUT. lia. }
  destruct (Z.le_gt_cases (2 ^ (32 * (l - 1))) m) as [G|G].
  { rewrite (dividend_canon l m n P ltac:(lia) ltac:(auto)). rewrite rem_inner_of_Z by (auto; try lia; apply (stored_canon a l m); auto). rewrite Va, Vb. apply OUT. lia. }
  unfold rem_inner. rewrite (nat_eq_zero b n) by auto. rewrite (cmp_stored a l m b (words n) n) by auto. unfold stored_compare.
  destruct (Z.le_gt_cases l (words n)) as [LW|LW].
  - destruct (long_divisor n l P Pl LW) as [|GN]; [lia|]. assert (~ words n < l) as NW by lia. rewrite words_bit in NW by auto.
    assert (X : (if l <? words n then Lt else if words n <? l then Gt else m ?= n) = Lt).
    { destruct (Z.ltb_spec l (words n)); [reflexivity|]. destruct (Z.ltb_spec (words n) l); [lia|]. apply Z.compare_lt_iff. lia. }
    rewrite X. unfold dividend. destruct (Z.leb_spec 0 (32 * (l - 1) - bit_length n)); [lia|]. rewrite andb_false_r. cbn [andb].
    rewrite Z.mod_small by lia. exists a, l. split; [reflexivity|]. split; [auto|lia].
  - destruct (Z.ltb_spec l (words n)); [lia|]. destruct (Z.ltb_spec (words n) l); [|lia].
    assert (BL : bits_len b = bit_length n) by (rewrite bits_len_spec by auto; rewrite Vb; destruct (Z.eqb_spec n 0); [lia|reflexivity]).
    pose proof (proj1 (words_bit n l P) LW) as S0. set (s := 32 * (l - 1) - bit_length n) in *.
    destruct (first_step l m n P ltac:(lia) ltac:(lia) S0) as (F1 & F2 & F3 & F4). fold s in F1, F2, F3, F4.
    cbn [rem_loop]. rewrite (cmp_stored a l m b (words n) n) by auto. unfold stored_compare at 1. destruct (Z.ltb_spec l (words n)); [lia|]. destruct (Z.ltb_spec (words n) l); [|lia].
    rewrite (bits_len_stored a l m A). destruct (Z.ltb_spec m (2 ^ (32 * (l - 1)))); [|lia]. rewrite Z.max_r, BL by lia. fold s.
    destruct (Z.ltb_spec s 0); [lia|].
    rewrite shl_inner_of_Z by (auto; lia). rewrite Vb. set (D := n * 2 ^ s) in *.
    rewrite (cmp_stored a l m (of_Z D) (words D) D) by (auto using of_Z_stored with zarith). unfold stored_compare at 1. destruct (Z.ltb_spec l (words D)); [lia|]. destruct (Z.ltb_spec (words D) l); [|lia].
    rewrite (sub_stored a l m (of_Z D) (words D) D) by (auto; apply of_Z_stored; lia). rewrite F3.
    rewrite <- BL. assert (E : b = of_Z n) by (apply of_Z_unique; auto). rewrite E. pose proof (pow2_pos s S0) as PS.
    rewrite rem_loop_spec by (try lia; rewrite <- (fuel_pow l) by (rewrite Va; auto); nia). cbn [bind].
    replace (dividend l m n - D) with (dividend l m n + (- 2 ^ s) * n) by (unfold D; ring). rewrite Z.mod_add by lia.
    rewrite trim_canon_id by (apply of_Z_canon; apply Z.mod_pos_bound; lia). apply OUT. unfold dividend. pose proof (Z.pow_nonneg 2 (32 * l) ltac:(lia)). destruct (_ && _); lia.
Qed.

(* ------------------------------------------------------------------ *)
(** * Text *)

Lemma display_stored a l m : stored a l m -> exists s, fmt_display a = Ok s /\ is_numeral lchar 10 s m.
Proof. intros A. pose proof (stored_nonnil a l m A) as N. destruct A as (Wa & _ & _ & <-). apply fmt_display_words; auto. Qed.
Lemma fmt_stored chr base width prefix alt a l m : 1 < base -> base ^ Z.of_nat width = W -> chr_ok chr base -> chr 0 = 48 -> stored a l m -> 1 < l -> m < 2 ^ (32 * (l - 1)) ->
  exists ds, nat_fmt chr base width prefix alt a = (if alt then prefix else []) ++ map chr ds /\ digits_ok base ds /\ be_value base ds = m /\ Z.of_nat (length ds) = Z.of_nat width * (l - 1).
Proof.
  intros Hb HW Hc H0 A L1 T. destruct (stored_top a l m A) as (t & Et & Ht & B). pose proof (stored_bound a l m A) as BM. destruct A as (Wa & La & Pl & Va).
  assert (t = 0) by nia. subst t. unfold nat_fmt. destruct (rev a) as [|x rest] eqn:E; [apply (f_equal (@length Z)) in E; rewrite rev_length in E; cbn in E; lia|].
  assert (Ea : a = rev rest ++ [x]) by (rewrite <- (rev_involutive a), E; reflexivity). rewrite Ea, last_last in H. subst x.
  pose proof (words_ok_rev a Wa) as Wr. rewrite E in Wr. apply words_ok_cons in Wr. destruct Wr as (_ & Wr).
  destruct (word_digits_spec base width rest Hb HW Wr) as (D1 & D2 & D3).
  assert (LR : length rest = (length a - 1)%nat) by (apply (f_equal (@length Z)) in E; rewrite rev_length in E; cbn in E; lia).
  assert (Y : trim_start0 (map chr (fixed_digits base width 0)) = []).
  { destruct (fixed_digits_spec base width Hb 0) as (K1 & K2 & K3); [rewrite HW; lia|]. rewrite (trim_start0_map chr base) by auto.
    assert (Z0 : forall k, fixed_digits base k 0 = repeat 0 k).
    { induction k as [|k IH]; [reflexivity|]. cbn [fixed_digits]. rewrite Z.div_0_l, Z.mod_0_l by lia. rewrite IH. clear. induction k; [reflexivity|]. cbn [repeat app]. f_equal. exact IHk. }
    rewrite Z0. clear. induction width; [reflexivity|]. cbn [repeat dropz]. exact IHwidth. }
  rewrite Y. exists (word_digits base width rest). split.
  { destruct rest; [cbn in LR; lia|]. cbn [app]. rewrite flat_map_chr. reflexivity. }
  split; [auto|]. split; [rewrite D2; rewrite Ea, nval_app in Va; cbn [nval] in Va; lia|]. rewrite D3, LR. lia.
Qed.

(* ------------------------------------------------------------------ *)
(** * The rest *)

Lemma not_stored a l m : stored a l m -> 1 < l -> m < 2 ^ (32 * (l - 1)) -> nat_not a = of_Z (2 ^ (32 * l) - 1 - m).
Proof.
  intros A L T. unfold nat_not. rewrite (stored_nan a l m A). unfold not_inner. rewrite (bits_len_stored a l m A). destruct (Z.ltb_spec m (2 ^ (32 * (l - 1)))); [|lia].
  rewrite Z.max_r by lia. replace (32 * (l - 1)) with ((l - 1) * 32) by ring. rewrite Z.mod_mul by lia. change (0 >? 0) with false. cbv iota.
  pose proof (stored_nonnil a l m A) as N. destruct A as (Wa & La & Pl & Va). assert (NM : map wnot a <> []) by (destruct a; [congruence|discriminate]). rewrite trim_of_Z by (auto using words_map_wnot).
  rewrite nval_map_wnot, Wp_pow2, La, Va. reflexivity.
Qed.
Lemma sub_u32_stored a l m w : stored a l m -> 0 <= w < W -> stored (nat_sub_u32 a w) l (if l =? 1 then Z.abs (m - w) else (m - w) mod 2 ^ (32 * l)).
Proof.
  intros A Hw. unfold nat_sub_u32, op1. rewrite (stored_nan a l m A). pose proof (stored_bound a l m A) as B. destruct A as (Wa & La & Pl & Va). unfold sub_inner_basic.
  destruct a as [|x [|y a]].
  - cbn in La. lia.
  - cbn in La. subst l. cbn [nval] in Va. rewrite Z.mul_0_r, Z.add_0_r in Va. subst x. apply words_ok_cons in Wa. change (1 =? 1) with true. cbv iota.
    destruct (Z.ltb_spec m w); (replace (Z.abs (m - w)) with (Z.max m w - Z.min m w) by lia); [rewrite Z.max_r, Z.min_l by lia|rewrite Z.max_l, Z.min_r by lia]; apply single_stored; lia.
  - destruct (Z.eqb_spec l 1); [cbn [length] in La; lia|]. destruct (sub_basic_loop_spec (x :: y :: a) 0 w Wa Hw ltac:(lia)) as (S1 & S2 & _).
    split; [auto|]. split; [rewrite S2; auto|]. split; [auto|]. rewrite sub_basic_mod by (auto; lia). cbn [is_nan]. rewrite Z.add_0_r, Va, Wp_pow2, La. reflexivity.
Qed.
