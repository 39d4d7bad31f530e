(** Shifts, bit queries, gcd and congruences of [BigInt]. *)
From Coq Require Import ZArith List Lia Bool Znumtheory.
From Verif Require Import Words Spec WordsFacts NatModel NatFacts NatFacts2 NatFacts3 NatFacts4 NatFacts5
  NatConv NatPow NatPowFacts BigInt SpecInt BigIntFacts.
Import ListNotations.
Open Scope Z_scope.

(* ------------------------------------------------------------------ *)
(** * Shifts *)

Lemma len_of_Z n : 0 < n -> Z.of_nat (length (of_Z n)) = Z.log2 n / 32 + 1.
Proof.
  intros Hn. assert (C : canon (of_Z n)) by (apply of_Z_canon; lia).
  pose proof (canon_len_pos _ C) as LP.
  pose proof (nval_bound _ (canon_words _ C)) as UB. rewrite of_Z_val, Wp_pow2 in UB by lia.
  assert (LB : Wp (length (of_Z n) - 1) <= n).
  { destruct (Nat.eq_dec (length (of_Z n)) 1) as [E|E]; [rewrite E; change (Wp (1 - 1)) with 1; lia|].
    rewrite <- (of_Z_val n) at 2 by lia. apply canon_lower; [auto|lia]. }
  rewrite Wp_pow2 in LB. set (L := length (of_Z n)) in *.
  assert (32 * (Z.of_nat L - 1) <= Z.log2 n < 32 * Z.of_nat L).
  { split; [apply Z.log2_le_pow2; [lia|]; replace (32 * (Z.of_nat L - 1)) with (32 * Z.of_nat (L - 1)) by lia; auto
           |apply Z.log2_lt_pow2; lia]. }
  assert (Z.log2 n / 32 = Z.of_nat L - 1); [|lia].
  symmetry. apply Z.div_unique with (r := Z.log2 n - 32 * (Z.of_nat L - 1)); lia.
Qed.

(** [b <= last word] from a lower bound on the value. *)
Lemma last_ge l b : words_ok l -> l <> [] -> Wp (length l - 1) * b <= nval l -> b <= last l 0.
Proof.
  intros Wl Nl H. rewrite (last_split l Nl) in H. rewrite app_length, removelast_len in H. cbn [length] in H.
  rewrite nval_app, removelast_len in H.
  pose proof (nval_bound _ (words_ok_removelast l Wl)) as B. rewrite removelast_len in B.
  replace (length l - 1 + 1 - 1)%nat with (length l - 1)%nat in H by lia.
  cbn [nval] in H. pose proof (Wp_pos (length l - 1)).
  destruct (Z.le_gt_cases b (last l 0)); auto. nia.
Qed.

Lemma shr_exact_good n k : 0 <= n -> 0 <= k -> shr_exact n k -> shr_good (of_Z n) k.
Proof.
  intros Hn Hk [H|[H|[H1 H2]]].
  - left; auto.
  - destruct (Z.eq_dec n 0) as [->|N0].
    + destruct (Z.lt_ge_cases k 32); [left; auto|]. right; left. rewrite of_Z_small by lia. cbn [length]. lia.
    + right; left. rewrite len_of_Z by lia.
      assert (0 <= k / 32) by (apply Z.div_pos; lia).
      apply Z.log2_lt_pow2 in H; [|lia]. pose proof (Z.div_mod k 32). pose proof (Z.mod_pos_bound k 32).
      pose proof (Z.div_lt_upper_bound (Z.log2 n) 32 (k / 32) ltac:(lia) H). lia.
  - right; right. split; auto.
    assert (0 < n). { pose proof (pow2_pos (32 * (Z.log2 n / 32) + k mod 32)).
      pose proof (Z.mod_pos_bound k 32). pose proof (Z.log2_nonneg n). pose proof (Z.div_pos (Z.log2 n) 32). lia. }
    apply last_ge; [apply of_Z_words; lia|apply of_Z_nonnil; lia|].
    rewrite of_Z_val by lia. rewrite Wp_pow2.
    pose proof (len_of_Z n ltac:(lia)) as L.
    assert (0 <= Z.log2 n / 32) by (apply Z.div_pos; [apply Z.log2_nonneg|lia]).
    pose proof (Z.mod_pos_bound k 32).
    replace (32 * Z.of_nat (length (of_Z n) - 1)) with (32 * (Z.log2 n / 32)) by lia.
    rewrite <- Z.pow_add_r by lia. auto.
Qed.

Lemma zint_shr_nonneg n k : 0 <= n -> 0 <= k -> shr_exact n k -> b_shr (zint n) k = zint (n / 2 ^ k).
Proof.
  intros Hn Hk Hs. unfold b_shr. rewrite zint_neg, zint_nat. destruct (Z.ltb_spec n 0); [lia|].
  rewrite Z.abs_eq by lia. assert (C : canon (of_Z n)) by (apply of_Z_canon; lia).
  unfold nat_shr. rewrite op1_canon, shr_inner_good, of_Z_val by (auto; apply shr_exact_good; auto).
  pose proof (pow2_pos k Hk). apply zint_intro; auto. apply Z.div_pos; lia.
Qed.

Lemma lnot_div n d : 0 < d -> (- 1 - n) / d = - 1 - n / d.
Proof.
  intros. symmetry. apply Z.div_unique with (r := d - 1 - n mod d).
  - left. pose proof (Z.mod_pos_bound n d). lia.
  - pose proof (Z.div_mod n d). nia.
Qed.

Lemma shr_sub1 n k : 0 < n -> 0 <= k -> shr_exact_neg n k ->
  nat_add_u32 (nat_shr (nat_sub_u32 (of_Z n) 1) k) 1 = of_Z ((n - 1) / 2 ^ k + 1).
Proof.
  intros Hn Hk Hs. destruct (sub1_spec n Hn) as (l & -> & Wl & Nl & Vl & Ll).
  assert (C : canon (of_Z n)) by (apply of_Z_canon; lia).
  pose proof (canon_len_pos _ C) as LP. rewrite <- Ll in LP.
  pose proof (pow2_pos k Hk) as P2.
  assert (LB : (1 < length l)%nat -> Wp (length l - 1) <= n).
  { rewrite Ll. intros HL. pose proof (canon_lower _ C HL) as CL. rewrite of_Z_val in CL by lia. auto. }
  unfold nat_shr, op1. assert (is_nan l = false) as -> by (destruct l; [congruence|reflexivity]).
  assert (Fin : forall v, shr_inner l k = of_Z v -> 0 <= v -> v = (n - 1) / 2 ^ k ->
     nat_add_u32 (shr_inner l k) 1 = of_Z ((n - 1) / 2 ^ k + 1)).
  { intros v -> Hv ->. apply add1_canon; auto. }
  assert (Q0 : 0 <= (n - 1) / 2 ^ k) by (apply Z.div_pos; lia).
  destruct Hs as [Hs|[Hs|[H1 H2]]].
  - (* less than a word *)
    destruct (Z.eq_dec k 0) as [->|Nk].
    + assert (shr_inner l 0 = l) as ->.
      { unfold shr_inner. change (0 / 32) with 0. change (0 mod 32) with 0. change (Z.to_nat 0) with O.
        destruct (Nat.leb_spec (length l) 0); [lia|]. cbn [Z.gtb Z.compare andb].
        rewrite Nat.sub_0_r. apply firstn_all. }
      change (2 ^ 0) with 1. rewrite Z.div_1_r. rewrite add1_of_Z; auto; [f_equal; lia|]. intros HL. specialize (LB HL). lia.
    + assert (D0 : k / 32 = 0) by (apply Z.div_small; lia).
      assert (M0 : k mod 32 = k) by (apply Z.mod_small; lia).
      destruct (shr_inner_shape l k Wl Hk) as (ws & p & Wws & Lw & Ep & Bp & Vw & ->);
        [rewrite D0; cbn; lia|lia|].
      rewrite D0 in *. change (Z.to_nat 0) with O in *. rewrite Nat.eqb_refl. rewrite Nat.sub_0_r in Lw.
      rewrite Vl in Vw. destruct (Z.gtb_spec p 0) as [Gp|Gp].
      * assert (words_ok (ws ++ [p])) by (apply words_ok_app; split; [auto|repeat constructor; lia]).
        rewrite add1_of_Z; [congruence|auto|destruct ws; discriminate|].
        rewrite app_length, nval_app. cbn [length nval]. intros HL.
        replace (length ws + 1 - 1)%nat with (length ws) by lia.
        pose proof (nval_nonneg ws Wws). pose proof (Wp_pos (length ws)). nia.
      * assert (Hp0 : p = 0) by lia. clear Ep. rewrite Hp0 in Vw. rewrite nval_app in Vw. cbn [nval] in Vw.
        replace (nval ws + Wp (length ws) * (0 + W * 0)) with (nval ws) in Vw by lia.
        destruct ws as [|w ws0] eqn:Ew.
        { cbn [nval] in Vw. change [0] with (from_u32 0). rewrite <- Vw. reflexivity. }
        rewrite <- Ew in *. assert (ws <> []) by (rewrite Ew; discriminate). clear Ew.
        rewrite add1_of_Z; [congruence|auto|auto|]. intros HL. rewrite Vw.
        assert (B1 : Wp (length l - 1) <= n) by (apply LB; lia).
        rewrite <- Lw in B1. destruct (length ws) as [|L] eqn:EL; [lia|]. rewrite Wp_S in B1.
        replace (S L - 1)%nat with L by lia.
        assert (2 ^ k <= W) by (change W with (2 ^ 32); apply Z.pow_le_mono_r; lia).
        pose proof (Wp_pos L).
        assert (Wp L - 1 <= (n - 1) / 2 ^ k); [|lia].
        apply Z.div_le_lower_bound; nia.
  - apply (Fin ((n - 1) / 2 ^ k)); auto.
    assert (Hl : 32 * Z.of_nat (length l) <= k).
    { rewrite Ll, len_of_Z by auto. assert (0 <= k / 32) by (apply Z.div_pos; lia).
      apply Z.log2_lt_pow2 in Hs; [|lia]. pose proof (Z.div_mod k 32). pose proof (Z.mod_pos_bound k 32).
      pose proof (Z.div_lt_upper_bound (Z.log2 n) 32 (k / 32) ltac:(lia) Hs). lia. }
    rewrite shr_inner_all, Vl by auto. reflexivity.
  - apply (Fin ((n - 1) / 2 ^ k)); auto.
    destruct (Z.le_gt_cases (32 * Z.of_nat (length l)) k) as [Hl|Hl].
    { rewrite shr_inner_all, Vl by auto. reflexivity. }
    rewrite shr_inner_high, Vl; auto. apply last_ge; auto. rewrite Vl, Wp_pow2.
    assert (0 <= Z.log2 n / 32) by (apply Z.div_pos; [apply Z.log2_nonneg|lia]).
    pose proof (len_of_Z n Hn) as L. rewrite <- Ll in L. pose proof (Z.mod_pos_bound k 32).
    replace (32 * Z.of_nat (length l - 1)) with (32 * (Z.log2 n / 32)) by lia.
    rewrite <- Z.pow_add_r by lia. lia.
Qed.

Lemma zint_shr_neg n k : n < 0 -> 0 <= k -> shr_exact_neg (- n) k -> b_shr (zint n) k = zint (n / 2 ^ k).
Proof.
  intros Hn Hk Hs. unfold b_shr. rewrite zint_neg, zint_nat. destruct (Z.ltb_spec n 0); [|lia].
  rewrite Z.abs_neq by lia. rewrite shr_sub1 by (auto; lia).
  pose proof (pow2_pos k Hk). assert (0 <= (- n - 1) / 2 ^ k) by (apply Z.div_pos; lia).
  rewrite neg_tail by lia. f_equal. replace n with (- 1 - (- n - 1)) at 2 by lia. rewrite lnot_div by lia. lia.
Qed.

Lemma b_shl_zint n k : n <> 0 -> 0 <= k -> b_shl (zint n) k = zint (n * 2 ^ k).
Proof.
  intros Hn Hk. unfold b_shl. rewrite zint_neg, zint_nat.
  assert (C : canon (of_Z (Z.abs n))) by apply abs_canon.
  unfold nat_shl. rewrite op1_canon, shl_of_Z by (auto; lia). pose proof (pow2_pos k Hk).
  apply zint_intro; [nia| |nia]. destruct (Z.ltb_spec n 0); nia.
Qed.
Lemma b_shl_value n k : 0 <= k -> int_value (b_shl (zint n) k) (n * 2 ^ k).
Proof.
  intros Hk. destruct (Z.eq_dec n 0) as [->|N].
  - unfold b_shl, nat_shl. rewrite zint_nat, zint_neg, op1_canon by apply abs_canon.
    change (Z.abs 0) with 0. destruct (shl_inner_spec (of_Z 0) k) as [V Wd]; [apply of_Z_words; lia|auto|].
    rewrite of_Z_val in V by lia. split; [auto|]. split.
    + cbn [bnat]. unfold shl_inner. intros E. apply app_eq_nil in E as [_ E].
      revert E. rewrite of_Z_small by lia. destruct (k mod 32 >? 0); cbn [shl_bits]; discriminate.
    + unfold bvalue. cbn [bneg bnat]. change (0 <? 0) with false. auto.
  - rewrite b_shl_zint by auto. split; [apply of_Z_words; lia|]. split; [apply of_Z_nonnil; lia|apply bvalue_zint].
Qed.

(* ------------------------------------------------------------------ *)
(** * Bit queries *)

(** bits of words with a possibly zero top word *)
Lemma bits_len_words l : words_ok l -> l <> [] -> bits_len l <= 32 * Z.of_nat (length l).
Proof.
  intros Wl Nl. rewrite bits_len_nonnil by auto. pose proof (words_ok_last l Wl) as B.
  assert (1 <= length l)%nat by (destruct l; [congruence|cbn; lia]).
  destruct (Z.eqb_spec (last l 0) 0).
  - destruct (Nat.eqb_spec (length l) 1); lia.
  - unfold leading_zeros. destruct (Z.eqb_spec (last l 0) 0); [lia|].
    assert (Z.log2 (last l 0) < 32) by (apply Z.log2_lt_pow2; lia).
    pose proof (Z.log2_nonneg (last l 0)). lia.
Qed.
Lemma is_set_bit_words l i : words_ok l -> l <> [] -> 0 <= i ->
  is_set_bit l i = Ok (if bits_len l <=? i then None else Some (Z.testbit (nval l) i)).
Proof.
  intros Wl Nl Hi. unfold is_set_bit. destruct (Z.leb_spec (bits_len l) i); [reflexivity|].
  pose proof (bits_len_words l Wl Nl). rewrite is_set_bit__spec by (auto; lia). reflexivity.
Qed.
(** [bits_len] of the words of [n - 1] left by the subtraction. *)
Lemma bits_len_sub1 n : 0 < n -> bits_len (nat_sub_u32 (of_Z n) 1) = Z.max 1 (Z.log2 (n - 1) + 1).
Proof.
  intros Hn. destruct (sub1_spec n Hn) as (l & -> & Wl & Nl & Vl & Ll).
  assert (C : canon (of_Z n)) by (apply of_Z_canon; lia).
  destruct (Z.eq_dec (last l 0) 0) as [E|E].
  - rewrite bits_len_nonnil by auto. rewrite E. cbn [Z.eqb].
    pose proof (nval_bound _ (words_ok_removelast l Wl)) as B.
    assert (V : nval l = nval (removelast l)).
    { rewrite (last_split l Nl) at 1. rewrite nval_app, E. cbn [nval]. lia. }
    rewrite removelast_len in B. rewrite <- V, Vl, Wp_pow2 in B.
    destruct (Nat.eqb_spec (length l) 1) as [E1|E1].
    + rewrite E1 in B. change (2 ^ (32 * Z.of_nat (1 - 1))) with 1 in B. replace (n - 1) with 0 by lia. reflexivity.
    + assert (HL : (1 < length (of_Z n))%nat) by (rewrite <- Ll; destruct l; [congruence|cbn in *; lia]).
      pose proof (canon_lower _ C HL) as CL. rewrite of_Z_val, <- Ll, Wp_pow2 in CL by lia.
      rewrite <- Ll in HL.
      assert (EN : n = 2 ^ (32 * Z.of_nat (length l - 1))) by lia.
      rewrite EN. replace (2 ^ (32 * Z.of_nat (length l - 1)) - 1) with (Z.pred (2 ^ (32 * Z.of_nat (length l - 1)))) by lia.
      rewrite Z.log2_pred_pow2 by lia. lia.
  - assert (Cl : canon l) by (split; [auto|split; [auto|right; auto]]).
    rewrite bits_len_spec, Vl by auto. destruct (Z.eqb_spec (n - 1) 0) as [E0|E0].
    + rewrite E0. reflexivity.
    + pose proof (Z.log2_nonneg (n - 1)). lia.
Qed.

Lemma b_is_set_bit_spec n i : 0 <= i ->
  b_is_set_bit (zint n) i =
  Ok (if (if n <? 0 then Z.max 1 (Z.log2 (- n - 1) + 1) else if n =? 0 then 1 else Z.log2 n + 1) <=? i then None
      else Some (Z.testbit n i)).
Proof.
  intros Hi. unfold b_is_set_bit. rewrite zint_nat, zint_neg, trim_abs. destruct (Z.ltb_spec n 0).
  - rewrite Z.abs_neq by lia. pose proof (bits_len_sub1 (- n) ltac:(lia)) as BL.
    destruct (sub1_spec (- n)) as (l & El & Wl & Nl & Vl & Ll); [lia|]. rewrite El in *.
    rewrite is_set_bit_words, BL by auto. cbn [bind].
    destruct (Z.leb_spec (Z.max 1 (Z.log2 (- n - 1) + 1)) i); [reflexivity|]. cbn [option_map].
    rewrite Vl. replace (- n - 1) with (Z.lnot n) by (unfold Z.lnot; lia).
    rewrite Z.lnot_spec, negb_involutive by lia. reflexivity.
  - rewrite is_set_bit_spec, bits_len_spec, abs_val, Z.abs_eq by (auto; try apply abs_canon; lia). reflexivity.
Qed.
