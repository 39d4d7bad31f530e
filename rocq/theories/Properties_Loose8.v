(** Powers and square roots modulo a number, of numbers with leading zero
    words: property C140. *)
From Coq Require Import ZArith List Lia Bool Znumtheory.
From Verif Require Import Words Spec WordsFacts NatModel NatFacts NatFacts2 NatFacts5 SpecLoose LooseFacts SpecShift NatExp NatExpFacts2
  BigInt SpecInt BigIntFacts BigIntFacts3 SpecNum SpecLooseInt NumBig BigIntFacts2 NumTheory NumTheory2 NumBigFacts NumBigFacts2 Properties_NumBig Properties_LooseInt Properties_Loose3 Properties_Loose5.
Import ListNotations.
Open Scope Z_scope.

(** ** C140
    The power of a natural number modulo another depends on the base only,
    not on the words it is stored in; no check fails for a base of several
    words. *)
Theorem C140_nat_exp : forall checks a l m b B n N, stored a l m -> represents b B -> represents n N -> checks = false \/ (1 < l /\ N <> 0) ->
  nat_exp checks a b n = Ok (of_Z (m ^ B mod N)).
Proof.
  intros checks a l m b B n N S (CB & VB) (CN & VN) C. pose proof (stored_nonnil _ _ _ S) as NN. destruct S as (Wa & La & _ & Va).
  destruct (nat_exp_words checks a b n Wa NN CB CN) as [E|(C1 & _ & _ & D)]; [rewrite E, Va, VB, VN; reflexivity|].
  exfalso. destruct C as [->|(L & N0)]; [discriminate|]. destruct D; lia.
Qed.
Lemma rep_abs n : represents (of_Z (Z.abs n)) (Z.abs n).
Proof. apply rep_of_Z. lia. Qed.
Lemma int_stored n : stored_int (zint n) (words (Z.abs n)) n.
Proof. split; [rewrite zint_nat; apply of_Z_stored; lia|apply zint_neg]. Qed.

(** The same of integers, in a release build ... *)
Theorem C140_exp : forall x l a b n, stored_int x l a -> b_exp false x (zint b) (zint n) = b_exp false (zint a) (zint b) (zint n).
Proof.
  intros x l a b n S. unfold b_exp. rewrite (int_nan _ _ _ S), !(int_neg _ _ _ S), !zint_not_nan, !zint_is_negative. destruct (Z.ltb_spec b 0) as [B|B].
  - rewrite (zint_eq_u32 n 0) by lia. destruct (Z.eqb_spec n 0) as [->|N]; [reflexivity|]. rewrite (C135_mod_inverse x l a _ _ n S (int_stored n)) by auto. reflexivity.
  - cbn [andb bind]. destruct S as (A & _). rewrite !zint_nat.
    rewrite (C140_nat_exp false _ _ _ _ _ _ _ A (rep_abs b) (rep_abs n)) by auto. rewrite (C140_nat_exp false _ _ _ _ _ _ _ (of_Z_stored (Z.abs a) ltac:(lia)) (rep_abs b) (rep_abs n)) by auto. reflexivity.
Qed.
(** ... and in a debug build, where a base of several words avoids the failed
    checks. *)
Theorem C140_exp_checked : forall x l a b n, stored_int x l a -> 1 < l -> 0 <= b -> n <> 0 ->
  b_exp true x (zint b) (zint n) = b_exp false (zint a) (zint b) (zint n).
Proof.
  intros x l a b n S L B N. rewrite <- (C140_exp x l a b n S). unfold b_exp. rewrite (zint_is_negative b). destruct (Z.ltb_spec b 0); [lia|]. cbn [andb bind]. destruct S as (A & _). rewrite !zint_nat.
  rewrite !(C140_nat_exp _ _ _ _ _ _ _ _ A (rep_abs b) (rep_abs n)) by (auto; right; lia). reflexivity.
Qed.
Theorem C140_exp_refuted : stored_int (BI [1; 0] false) 2 1 /\
  b_exp true (BI [1; 0] false) (zint (2 ^ 32)) (zint 5) = Ok (zint 1) /\ b_exp true (zint 1) (zint (2 ^ 32)) (zint 5) = Panic.
Proof.
  assert (S : stored_int (BI [1; 0] false) 2 1).
  { split; [|reflexivity]. split; [repeat (constructor; [split; [lia|reflexivity]|]); constructor|]. split; [reflexivity|]. split; [lia|reflexivity]. }
  split; [exact S|]. split; [|vm_compute; reflexivity].
  rewrite (C140_exp_checked _ _ _ _ _ S) by (try lia; discriminate). rewrite b_exp_any by (auto; lia). rewrite Z.pow_1_l by lia. reflexivity.
Qed.

Lemma exp_nat x l a e n : stored_int x l a -> 0 <= e -> b_exp false x (BI (of_Z e) false) (zint n) = b_exp false (zint a) (BI (of_Z e) false) (zint n).
Proof. intros S E. rewrite zint_of_Z by auto. apply (C140_exp x l a e n S). Qed.

Lemma one_word x a : stored_int x 1 a -> x = zint a.
Proof.
  intros S. rewrite <- (clone_int _ _ _ S). destruct S as ((_ & L & _) & _). unfold b_clone. destruct x as [n s]. cbn [bnat bneg] in *. f_equal.
  destruct n as [|w [|v n]]; cbn [length] in L; try lia. reflexivity.
Qed.
Lemma mul_nat_int c y k b : 0 <= c -> c <> 1 -> stored y k b -> nat_mul (of_Z c) y = of_Z (c * b).
Proof.
  intros C N B. pose proof (of_Z_stored c C) as A. unfold nat_mul, op2. rewrite (stored_nan _ _ _ A), (stored_nan _ _ _ B). cbn [orb]. unfold mul_inner, mul_with, nat_eq_u32, from_u32.
  assert (W1 : 0 <= 1 < W) by (split; [lia|reflexivity]). assert (W0 : 0 <= 0 < W) by (split; [lia|reflexivity]).
  rewrite (eqb_stored _ _ _ [0] 1 0 A), (eqb_stored y k b [0] 1 0), (eqb_stored _ _ _ [1] 1 1 A), (eqb_stored y k b [1] 1 1) by auto using single_stored.
  destruct (Z.eqb_spec c 1); [lia|]. rewrite (mul_avx2_stored _ _ _ _ _ _ A B), !andb_false_r.
  destruct (Z.eqb_spec c 0) as [->|]; [destruct (words 0 =? 1); [reflexivity|]|rewrite andb_false_r]; cbn [andb orb].
  all: destruct (Z.eqb_spec b 0) as [->|]; [destruct (k =? 1); cbn [andb]; rewrite ?Z.mul_0_r; reflexivity|]; rewrite ?andb_false_r; destruct (Z.eqb_spec b 1) as [->|]; rewrite ?andb_false_r; auto; rewrite Z.mul_1_r; destruct (k =? 1); reflexivity.
Qed.
Lemma mul_int c y k b : stored_int y k b -> Z.abs c <> 1 -> b_mul (zint c) y = zint (c * b).
Proof.
  intros (B & SB) C. rewrite <- zint_mul. unfold b_mul. rewrite SB, zint_neg, !zint_nat. rewrite (mul_nat_int _ _ _ _ (Z.abs_nonneg c) C B), nat_mul_of_Z by lia. rewrite zint_neg. reflexivity.
Qed.
Lemma sqrt5_int x l a p : stored_int x l a -> prime p -> p mod 8 = 5 -> 0 < a < p -> l <= words p -> mod_sqrt_5mod8 false x (zint p) = mod_sqrt_5mod8 false (zint a) (zint p).
Proof.
  intros S PP M X LW. destruct (Z.eq_dec l 1) as [->|L1]; [rewrite (one_word _ _ S); reflexivity|].
  assert (P5 : p <> 5) by (intros ->; pose proof S as ((_ & _ & L0 & _) & _); change (words 5) with 1 in LW; lia).
  pose proof (Z.div_mod p 8 ltac:(lia)) as DM. rewrite M in DM. assert (K0 : 0 <= p / 8) by (apply Z.div_pos; lia). assert (PB : 5 < p) by lia.
  unfold mod_sqrt_5mod8. rewrite (clone_int _ _ _ S), !zint_clone. set (k := p / 8) in *.
  assert (E3 : b_shr (zint p) 3 = zint k) by (rewrite zint_shr_nonneg by (try lia; left; lia); reflexivity). rewrite E3.
  rewrite b_shl_zint by lia. change (2 ^ 1) with 2. rewrite b_exp_any by lia. cbn [bind]. rewrite (Z.abs_eq p) by lia. set (al := (a * 2) ^ k mod p). assert (AL : 0 <= al < p) by (apply Z.mod_pos_bound; lia).
  rewrite sqr_zint by lia. cbn [bind]. rewrite zint_of_Z, rem_pos by nia. cbn [bind]. set (b1 := (al * al) mod p). assert (B1 : 0 <= b1 < p) by (apply Z.mod_pos_bound; lia).
  rewrite zint_mul, rem_pos by nia. cbn [bind]. set (b2 := (b1 * (a * 2)) mod p). assert (B2 : 0 <= b2 < p) by (apply Z.mod_pos_bound; lia).
  change (b_from_u32 1) with (zint 1). rewrite zint_sub, (mul_int _ _ _ _ S), zint_mul; [reflexivity|].
  assert (Ea : eqm p al ((a * 2) ^ k)) by (apply eqm_mod; lia).
  assert (Eb : eqm p b2 ((a * 2) ^ (2 * k + 1))).
  { unfold b2, b1. rewrite !eqm_mod by lia. rewrite Ea. replace (2 * k + 1) with (k + k + 1) by lia. rewrite !Z.pow_add_r, Z.pow_1_r by lia. reflexivity. }
  assert (P2 : p <> 2) by lia. destruct (odd_prime_half p PP P2) as (Ep & Hh). assert (HK : (p - 1) / 2 = (2 * k + 1) + (2 * k + 1)) by lia.
  destruct (ls_spec (a * 2) p PP P2) as (T & LE). rewrite HK, Z.pow_add_r, <- Eb in LE by lia.
  intros B3. assert (BC : b2 = 2 \/ b2 = 0) by lia. destruct BC as [BC|BC]; rewrite BC in LE.
  - change (2 * 2) with 4 in LE. apply eqm_minus, eqm_div, Z.divide_opp_r in LE. destruct T as [T|[T|T]]; rewrite T in LE; (apply Z.divide_pos_le in LE; [lia|lia]).
  - rewrite BC in Eb. symmetry in Eb. apply eqm_div in Eb. revert Eb. apply prime_pow_ndiv; [auto|lia|]. intros D. apply prime_mult in D; auto. destruct D as [D|D]; apply Z.divide_pos_le in D; lia.
Qed.

(** The square root modulo p depends on the number only, where p = 3 modulo 4,
    where p is a prime and 5 modulo 8, and where p = 1 modulo 8 and the shift
    of p - 1 in the algorithm of Tonelli and Shanks is right. *)
Theorem C140_mod_sqrt_partial : forall fuel x l a p, stored_int x l a -> 0 < p ->
  p mod 4 = 3 \/ (p mod 8 = 5 /\ prime p) \/ (p mod 8 = 1 /\ exists s e, p - 1 = s * 2 ^ e /\ 0 <= e /\ Z.odd s = true /\ shr_exact (p - 1) e) ->
  b_mod_sqrt fuel false x (zint p) = b_mod_sqrt fuel false (zint a) (zint p).
Proof.
  intros fuel x l a p S P H. unfold b_mod_sqrt. rewrite (C137_jacobi_partial x l a _ _ p S (int_stored p)) by lia.
  destruct (b_jacobi (zint a) (zint p)) as [[[|[q|q|]|]|]| |] eqn:EJ; cbn [bind]; try reflexivity.
  destruct (negb (Z.land (low (zint p)) 1 =? 1)); [reflexivity|].
  assert (L4 : low (zint p) mod 4 = p mod 4).
  { rewrite low_zint, Z.abs_eq by lia. rewrite <- (land_mod4 p). change 3 with (Z.ones 2). rewrite Z.land_ones by lia. reflexivity. }
  assert (L8 : low (zint p) mod 8 = p mod 8).
  { rewrite low_zint, Z.abs_eq by lia. rewrite <- (land_mod8 p). change 7 with (Z.ones 3). rewrite Z.land_ones by lia. reflexivity. }
  rewrite L4, L8, (clone_int _ _ _ S), zint_clone, (int_neg _ _ _ S), zint_is_negative.
  set (K := fun y => if p mod 4 =? 3 then mod_sqrt_3mod4 false y (zint p) else if p mod 8 =? 5 then mod_sqrt_5mod8 false y (zint p) else mod_sqrt_tonelli fuel false y (zint p)).
  assert (G : 0 <= a < p -> l <= words p -> K x = K (zint a)).
  { intros A LW. unfold K. destruct (Z.eqb_spec (p mod 4) 3) as [M|M].
    - unfold mod_sqrt_3mod4. rewrite zint_nat, trim_abs, Z.abs_eq, add1_canon, shr_small by lia. apply (exp_nat x l a); [exact S|]. apply Z.div_pos; lia.
    - destruct H as [H|[(M8 & PP)|(M8 & s & e & E & E0 & O & X)]]; [contradiction| |]; rewrite M8.
      + change (5 =? 5) with true. cbv iota. destruct (Z.eq_dec a 0) as [->|A0]; [|apply (sqrt5_int x l); auto; lia].
        exfalso. pose proof (prime_ge_2 p PP). unfold b_jacobi in EJ. rewrite !zint_not_nan, zint_eq_u32, !zint_clone, zint_is_negative in EJ by lia. cbn [orb] in EJ.
        destruct (Z.eqb_spec p 0); [lia|]. destruct (Z.ltb_spec p 0); [lia|]. unfold jacobi_fuel in EJ. cbn [Nat.add] in EJ. rewrite jacobi_loop_zero in EJ by (try lia; apply Z.mod_0_l; lia). discriminate EJ.
      + change (1 =? 5) with false. cbv iota.
      assert (PO : Z.odd p = true) by (pose proof (Z.div_mod p 8 ltac:(lia)); replace p with (1 + 2 * (4 * (p / 8))) by lia; rewrite Z.odd_add_mul_2; reflexivity).
      assert (S0 : 0 < s). { pose proof (Z.pow_pos_nonneg 2 e ltac:(lia) E0). destruct (Z.eq_dec s 0) as [->|]; [discriminate|]. nia. }
      unfold mod_sqrt_tonelli. rewrite zint_nat, trim_abs, Z.abs_eq, sub1_odd by (auto; lia). assert (TZ : trailling_zeros (of_Z (p - 1)) = e) by (rewrite E; apply tz_of_Z; auto). rewrite TZ.
      assert (SS : shr_inner (of_Z (p - 1)) e = of_Z s).
      { rewrite shr_inner_good; [|apply of_Z_canon; lia|auto|apply shr_exact_good; auto; lia]. rewrite of_Z_val, E, Z.div_mul by lia. reflexivity. }
      rewrite SS. cbn [bnat]. rewrite (trim_canon_id (of_Z s)) by (apply of_Z_canon; lia). rewrite add1_canon, shr_small by lia. rewrite !(exp_nat x l a) by (auto; try apply Z.div_pos; lia). reflexivity. }
  change ((do y <- (if (a <? 0) || b_ge x (zint p) then b_rem_euclid (zint a) (zint p) else Ok x); do r <- K y; Ok (Some r)) =
    (do y <- (if (a <? 0) || b_ge (zint a) (zint p) then b_rem_euclid (zint a) (zint p) else Ok (zint a)); do r <- K y; Ok (Some r))).
  rewrite zint_ge. destruct (Z.ltb_spec a 0) as [A|A]; cbn [orb]; [reflexivity|].
  assert (BG : b_ge x (zint p) = match stored_compare l a (words p) p with Lt => false | _ => true end).
  { unfold b_ge. rewrite (C132_order _ _ _ _ _ _ S (int_stored p)). unfold stored_int_compare. destruct (Z.ltb_spec p 0); [lia|]. destruct (Z.ltb_spec a 0); [lia|]. rewrite (Z.abs_eq p) by lia.
    destruct (stored_compare l a (words p) p); reflexivity. }
  rewrite BG. unfold stored_compare. destruct S as (A1 & S1). pose proof A1 as A2. rewrite (Z.abs_eq a) in A2 by lia. pose proof (stored_bound _ _ _ A2) as BA.
  destruct (Z.geb_spec a p) as [PA|PA].
  - assert (WL : words p <= l).
    { destruct (Z.le_gt_cases (words p) l) as [|L]; [auto|exfalso]. assert (0 < words p) by (unfold words; pose proof (Z.div_pos (Z.log2 p) 32 (Z.log2_nonneg p) ltac:(lia)); lia). assert (0 < l) by apply A1.
      destruct (long_divisor p (words p) P ltac:(lia) ltac:(lia)) as [W1|W1]; [lia|].
      assert (2 ^ (32 * l) <= 2 ^ (32 * (words p - 1))) by (apply Z.pow_le_mono_r; lia). lia. }
    destruct (Z.ltb_spec l (words p)); [lia|]. destruct (Z.ltb_spec (words p) l); [reflexivity|]. destruct (Z.compare_spec a p); [reflexivity|lia|reflexivity].
  - assert (R : b_rem_euclid (zint a) (zint p) = Ok (zint a)) by (rewrite rem_pos, Z.mod_small by lia; reflexivity). rewrite R.
    destruct (Z.ltb_spec l (words p)) as [L|L]; [cbn [bind]; rewrite G by lia; reflexivity|]. destruct (Z.ltb_spec (words p) l) as [L'|L']; [reflexivity|].
    destruct (Z.compare_spec a p); [reflexivity| |reflexivity]. cbn [bind]. rewrite G by lia. reflexivity.
Qed.
(** So a number with leading zero words has the right square root modulo every
    odd prime of one word. *)
Theorem C140_mod_sqrt_word : forall p, prime p -> p <> 2 -> p < 2 ^ 32 ->
  exists N, forall fuel, (N <= fuel)%nat -> forall x l a, stored_int x l a -> sqrt_result p a (b_mod_sqrt fuel false x (zint p)).
Proof.
  intros p P P2 B. pose proof (prime_ge_2 p P) as P3. destruct (C43_mod_sqrt_word p P P2 B) as (N & H). exists N. intros fuel F x l a S.
  assert (OD : Z.odd p = true) by (apply odd_prime_odd; split; auto).
  rewrite (C140_mod_sqrt_partial fuel x l a p S ltac:(lia)); [apply H; auto; apply is_int_iff; reflexivity|].
  destruct (odd_mod8 p OD) as [M|[M|[M|M]]].
  - right; right. split; [auto|]. destruct (trailling_zeros_spec (of_Z (p - 1))) as (q & T0 & Q & E); [apply of_Z_words; lia|rewrite of_Z_val by lia; lia|].
    rewrite of_Z_val in E by lia. set (e := trailling_zeros (of_Z (p - 1))) in *. exists (2 * q + 1), e. split; [auto|]. split; [auto|]. split; [rewrite Z.add_comm, Z.odd_add_mul_2; reflexivity|].
    left. apply (Z.pow_lt_mono_r_iff 2); [lia|lia|]. assert (0 < 2 ^ e) by (apply Z.pow_pos_nonneg; lia). assert (2 ^ e <= p - 1) by nia. lia.
  - left. rewrite (Z.div_mod p 8) by lia. rewrite M. replace (8 * (p / 8) + 3) with (3 + (2 * (p / 8)) * 4) by ring. rewrite Z_mod_plus_full. reflexivity.
  - right; left. auto.
  - left. rewrite (Z.div_mod p 8) by lia. rewrite M. replace (8 * (p / 8) + 7) with (3 + (2 * (p / 8) + 1) * 4) by ring. rewrite Z_mod_plus_full. reflexivity.
Qed.
(** The Jacobi symbol likewise is right for every odd second argument of one
    word, whatever the number of words of the first. *)
Theorem C137_jacobi_word : forall x l a b, stored_int x l a -> Z.odd b = true -> 0 < b < 2 ^ 32 ->
  exists v, b_jacobi x (zint b) = Ok (Some v) /\ forall w, jacobi_symbol a b w <-> v = w.
Proof.
  intros x l a b S O B. rewrite (C137_jacobi_partial x l a _ _ b S (int_stored b)) by lia.
  apply C42_jacobi_word; auto; apply is_int_iff; reflexivity.
Qed.
Example C137_jacobi_word_case : b_jacobi (BI [1001; 0; 0] false) (zint 9907) = Ok (Some (-1)).
Proof. vm_compute. reflexivity. Qed.
(** 4 modulo 7, 2 modulo 17 and 9 modulo 2^64 + 13, stored in two words. *)
Example C140_case : b_exp true (BI [3; 0] true) (zint 5) (zint 7) = Ok (zint 2) /\
  stored_int (BI [4; 0] false) 2 4 /\ b_mod_sqrt 10 false (BI [4; 0] false) (zint 7) = Ok (Some (zint 2)) /\
  b_mod_sqrt 10 false (BI [2; 0] false) (zint 17) = Ok (Some (zint 6)) /\
  b_mod_sqrt 10 false (BI [9; 0] false) (zint (2 ^ 64 + 13)) = Ok (Some (zint (2 ^ 64 + 10))) /\ (6 * 6) mod 17 = 2 /\ (7 mod 4) = 3.
Proof.
  split; [vm_compute; reflexivity|]. split; [|vm_compute; auto].
  split; [|reflexivity]. split; [repeat (constructor; [split; [lia|reflexivity]|]); constructor|]. split; [reflexivity|]. split; [lia|reflexivity].
Qed.
Print Assumptions C140_nat_exp.
Print Assumptions C140_exp.
Print Assumptions C140_exp_checked.
Print Assumptions C140_exp_refuted.
Print Assumptions C140_mod_sqrt_partial.
Print Assumptions C140_mod_sqrt_word.
Print Assumptions C137_jacobi_word.
