(** Further theorems, each added because an edit of the model passed all the
    others. *)
From Coq Require Import ZArith QArith Qabs List Lia Bool.
From Verif Require Import Words WordsFacts Spec NatModel NatFacts NatFacts2 BigInt SpecInt BigIntFacts Rand SpecRand RandFacts RandFacts2 Properties_Rand
  Float SpecFloat FloatFacts4 FloatFacts6 Alias AliasFloat SpecAliasFloat AliasFloatFacts Properties_AliasFloat SpecText NatConv NatConvFacts Properties_NatConv Properties_Nat.
Import ListNotations.
Open Scope Z_scope.

(** ** C63: the constants of MT19937 and its 64-bit form, spelled out.
    Missing for C63: the tempering. *)
Theorem C63_constants_partial : forall seed g, 
  (0 <= seed < 2 ^ 32 -> mt_new 32 (ROk seed) mt19937_par = ROk g ->
   exists x, mt_seeded 32 1812433253 seed 624 x /\ mt_recurrence 31 0x9908B0DF 624 397 x /\
     forall k, exists g', mt_draws 32 k g = Ok (map (fun i => right_temper 11 0xFFFFFFFF 7 0x9D2C5680 15 0xEFC60000 18 (x (624 + i)%nat)) (seq 0 k), g')) /\
  (0 <= seed < 2 ^ 64 -> mt_new 64 (ROk seed) mt19937_64_par = ROk g ->
   exists x, mt_seeded 64 6364136223846793005 seed 312 x /\ mt_recurrence 31 0xB5026F5AA96619E9 312 156 x /\
     forall k, exists g', mt_draws 64 k g = Ok (map (fun i => right_temper 29 0x5555555555555555 17 0x71D67FFFEDA60000 37 0xFFF7EEE000000000 43 (x (312 + i)%nat)) (seq 0 k), g')).
Proof.
  intros seed g. split; intros HS E.
  - exact (C63_state_words_partial 32 mt19937_par seed g (or_introl (conj eq_refl eq_refl)) HS E).
  - exact (C63_state_words_partial 64 mt19937_64_par seed g (or_intror (conj eq_refl eq_refl)) HS E).
Qed.
Print Assumptions C63_constants_partial.

(** ** C36: [set_natural] and [set_negative] *)
Theorem C36_set_sign : forall x a, is_int x a -> is_int (b_set_natural x) (Z.abs a) /\ is_int (b_set_negative x) (- Z.abs a).
Proof.
  intros x a H. apply is_int_iff in H. subst x. rewrite !is_int_iff. unfold b_set_natural, b_set_negative. rewrite zint_not_nan. cbn [negb andb].
  unfold zint. cbn [bnat bneg]. rewrite of_Z_eq_u32 by lia. split.
  - rewrite Z.abs_involutive. f_equal. destruct (Z.ltb_spec (Z.abs a) 0); [lia|reflexivity].
  - rewrite Z.abs_opp, Z.abs_involutive. destruct (Z.eqb_spec (Z.abs a) 0) as [E|E]; cbn [negb].
    + assert (a = 0) by lia. subst a. reflexivity.
    + f_equal. destruct (Z.ltb_spec (- Z.abs a) 0); [reflexivity|lia].
Qed.
Example C36_set_sign_case : b_set_negative (zint 7) = zint (-7) /\ b_set_negative (zint 0) = zint 0 /\ b_set_natural (zint (-7)) = zint 7.
Proof. repeat split. Qed.
Print Assumptions C36_set_sign.

(** ** C82: the assignments that give the handle new storage *)

(** The sum of numbers of opposite sign (the difference of numbers of the same
    sign), the left one not larger: no other handle changes. *)
Theorem C82_new_storage_partial : forall cs s o x y a b s' z, frun fempty cs = Ok s -> flook s x = Some a -> flook s y = Some b ->
  flform a = Finite -> flform b = Finite -> normal_mant (flmant a) -> normal_mant (flmant b) ->
  (o = FAdd /\ flneg a <> flneg b) \/ (o = FSub /\ flneg a = flneg b) -> (Qabs (flvalue a) <= Qabs (flvalue b))%Q ->
  fstep s (FAssign o x y) = Ok s' -> z <> x -> flook s z <> None -> flook s' z = flook s z.
Proof.
  intros cs s o x y a b s' z R A B FA FB NA NB O L H N Z. destruct (flook_fread s x a A) as (h & k & E1 & E2). destruct (flook_fread s y b B) as (g & l & F1 & F2).
  cbn [fstep] in H. rewrite E1 in H. cbn [bind] in H. rewrite F1 in H. cbn [bind] in H. rewrite FA, FB in H. cbn [is_fnan orb] in H.
  assert (RP : repoints o a b = true).
  { rewrite (finite_abs a FA NA), (finite_abs b FB NB) in L. unfold repoints. rewrite FA, FB, (ucmp_spec a b NA NB). cbn [is_finite andb].
    assert ((0 <? cmpz (mag a ?= mag b)%Q) = false) as ->.
    { destruct (Qcompare_spec (mag a) (mag b)) as [Q|Q|Q]; [reflexivity|reflexivity|]. exfalso. exact (Qlt_not_le _ _ Q L). }
    destruct O as [(-> & O)|(-> & O)]; destruct (flneg a), (flneg b); try congruence; reflexivity. }
  rewrite RP in H. destruct (if Nat.eqb k l then f_alias o a b else f_inner o a b) as [r| |]; cbn [bind] in H; try discriminate H. injection H as <-.
  unfold flook, fpoint in *. cbn [heads fheap]. rewrite set_head_other by congruence. destruct (nth_error (heads s) z) as [[u c]|] eqn:EZ; [|reflexivity].
  destruct (nth_error (fheap s) c) as [m|] eqn:EC; [|congruence]. rewrite nth_error_app1 by (apply nth_error_Some; congruence). rewrite EC. reflexivity.
Qed.
Print Assumptions C82_new_storage_partial.

(** The other sums and differences write to the storage that the clones show:
    x = 1.75; y = x.clone(); y += 1.75 (or y -= -1.75, y += -1, y -= 1) changes x. *)
Definition f_m1_75 : float := FL ToNearestEven Exact Finite true 53 1 [0; 0xE0000000].
Definition f_1 : float := FL ToNearestEven Exact Finite false 53 1 [0; 0x80000000].
Definition f_m1 : float := FL ToNearestEven Exact Finite true 53 1 [0; 0x80000000].
Definition f_3 : float := FL ToNearestEven Exact Finite false 53 2 [0; 0xC0000000].
Definition after (v w : float) (o : fop) : option (list (option Q)) :=
  match frun fempty [FNew v; FClone 0; FNew w; FAssign o 1 2] with Ok s => Some (map (value_of s) [0; 1; 2]%nat) | _ => None end.
Theorem C82_sum_changes_refuted :
  after f_1_75 f_1 FAdd = Some [Some (11 # 8)%Q; Some (11 # 4)%Q; Some 1%Q] /\
  after f_1_75 f_m1 FSub = Some [Some (11 # 8)%Q; Some (11 # 4)%Q; Some (-1 # 1)%Q] /\
  after f_1_75 f_m1 FAdd = Some [Some (3 # 2)%Q; Some (3 # 4)%Q; Some (-1 # 1)%Q] /\
  after f_1_75 f_1 FSub = Some [Some (3 # 2)%Q; Some (3 # 4)%Q; Some 1%Q].
Proof. repeat split; vm_compute; reflexivity. Qed.
Print Assumptions C82_sum_changes_refuted.
Example C82_new_storage_case :
  after f_1_75 f_m1_75 FAdd = Some [Some (7 # 4)%Q; Some 0%Q; Some (-7 # 4)%Q] /\
  after f_1_75 f_3 FSub = Some [Some (7 # 4)%Q; Some (-5 # 4)%Q; Some 3%Q].
Proof. repeat split; vm_compute; reflexivity. Qed.

(** ** C02: NaN on either side *)
Theorem C02_nan : forall a b, is_nan a = true \/ is_nan b = true -> is_nan (fst (sub_with_sign a b)) = true /\ snd (sub_with_sign a b) = false.
Proof. intros a b H. unfold sub_with_sign, sub_assign_with_sign. assert (is_nan (trim a) = is_nan a) as -> by (destruct (is_nan a) eqn:N; [destruct a; [reflexivity|discriminate N]|unfold is_nan in *; destruct (trim a) eqn:T; [apply trim_nil in T; subst a; discriminate N|reflexivity]]). assert (is_nan a || is_nan b = true) as -> by (destruct H as [-> | ->]; [reflexivity|apply orb_true_r]). split; reflexivity. Qed.
Print Assumptions C02_nan.
Example C02_nan_case : sub_with_sign nan [7] = (nan, false) /\ sub_with_sign [7] nan = (nan, false).
Proof. split; reflexivity. Qed.

(** ** C60: [mant_exp] of zeros, infinities and NaN *)
Theorem C60_mant_exp_special : forall x, flform x <> Finite -> mant_exp x = (x, 0).
Proof. intros x H. unfold mant_exp. destruct (flform x); try reflexivity. congruence. Qed.
Print Assumptions C60_mant_exp_special.

(** ** C99: [DefaultRand] of the portable build hands a uniform seed on: for
    every state each number is the output for exactly one seed value. *)
Theorem C99_default : forall w state v, 0 <= w -> 0 <= state < 2 ^ w -> 0 <= v < 2 ^ w ->
  exists seed, 0 <= seed < 2 ^ w /\ default_gen state seed = (v, v) /\ forall seed', fst (default_gen state seed') = v -> seed' = seed.
Proof.
  intros w state v H S0 V0. exists (Z.lxor state v).
  assert (B : forall a b, 0 <= a < 2 ^ w -> 0 <= b < 2 ^ w -> 0 <= Z.lxor a b < 2 ^ w).
  { intros a b A B. assert (L : 0 <= Z.lxor a b) by (apply Z.lxor_nonneg; lia). split; [exact L|]. destruct (Z.eq_dec (Z.lxor a b) 0) as [E|E]; [lia|].
    apply Z.log2_lt_pow2; [lia|]. pose proof (Z.log2_lxor a b ltac:(lia) ltac:(lia)) as M. destruct (Z.eq_dec w 0) as [->|W0]; [change (2 ^ 0) with 1 in *; replace a with 0 in * by lia; replace b with 0 in * by lia; destruct E; reflexivity|].
    assert (LG : forall c, 0 <= c < 2 ^ w -> Z.log2 c < w). { intros c C. destruct (Z.eq_dec c 0) as [->|C0]; [cbn; lia|]. apply Z.log2_lt_pow2; lia. }
    pose proof (LG a A). pose proof (LG b B). lia. }
  assert (X : forall a b, Z.lxor a (Z.lxor a b) = b) by (intros a b; rewrite <- Z.lxor_assoc, Z.lxor_nilpotent, Z.lxor_0_l; reflexivity).
  split; [apply B; auto|]. unfold default_gen. cbn [fst]. rewrite X. split; [reflexivity|]. intros s' <-. rewrite X. reflexivity.
Qed.
Print Assumptions C99_default.
Example C99_default_case : default_gen 0xF0F0F0F0 0x12345678 = (0xE2C4A688, 0xE2C4A688).
Proof. reflexivity. Qed.

(** ** C45: the bytes of a BigInt are those of its magnitude *)
Theorem C45_bytes : forall x n, is_int x n ->
  digits_ok 256 (b_to_le_bytes x) /\ le_value 256 (b_to_le_bytes x) = Z.abs n /\
  (length (b_to_le_bytes x) = 1%nat \/ last (b_to_le_bytes x) 0 <> 0) /\ b_to_be_bytes x = rev (b_to_le_bytes x) /\
  is_int (b_from_le_bytes (b_to_le_bytes x)) (Z.abs n) /\ is_int (b_from_be_bytes (b_to_be_bytes x)) (Z.abs n).
Proof.
  intros x n ((C & S) & V). unfold b_to_le_bytes, b_to_be_bytes, b_from_le_bytes, b_from_be_bytes. destruct (C12_bytes_encode_minimal (bnat x) C) as (A1 & A2 & _ & A4 & A5). destruct (C12_bytes_roundtrip (bnat x) C) as (R1 & R2). rewrite R1, R2.
  assert (E : nval (bnat x) = Z.abs n). { pose proof (nval_nonneg _ (canon_words _ C)). unfold bvalue in V. destruct (bneg x); lia. }
  split; [exact A1|]. split; [congruence|]. split; [exact A4|]. split; [exact A5|].
  assert (G : is_int (BI (bnat x) false) (Z.abs n)) by (split; [split; [exact C|reflexivity]|exact E]). split; exact G.
Qed.
Theorem C45_bytes_decode : forall bs, digits_ok 256 bs -> bs <> [] ->
  is_int (b_from_le_bytes bs) (le_value 256 bs) /\ is_int (b_from_be_bytes bs) (be_value 256 bs).
Proof.
  intros bs D N. destruct (C12_bytes_decode bs D N) as ((C1 & V1) & (C2 & V2) & _). split; (split; [split; [assumption|reflexivity]|assumption]).
Qed.
Print Assumptions C45_bytes.
Print Assumptions C45_bytes_decode.
Example C45_bytes_case : b_to_be_bytes (BI [0x01020304; 5] true) = [5; 1; 2; 3; 4] /\ b_from_be_bytes [0; 5; 1; 2; 3; 4] = BI [0x01020304; 5] false /\
  b_from_le_bytes [4; 3; 2; 1; 5; 0; 0; 0; 0] = BI [0x01020304; 5] false.
Proof. repeat split; vm_compute; reflexivity. Qed.

(** ** C46: the bit length of a BigInt is that of its magnitude *)
Theorem C46_bits_len : forall x n, is_int x n -> b_bits_len x = if n =? 0 then 1 else Z.log2 (Z.abs n) + 1.
Proof.
  intros x n ((C & S) & V). unfold b_bits_len. rewrite (C27_bits_len (bnat x) C). assert (E : nval (bnat x) = Z.abs n). { pose proof (nval_nonneg _ (canon_words _ C)). unfold bvalue in V. destruct (bneg x); lia. }
  rewrite E. destruct (Z.eqb_spec n 0) as [->|N]; [reflexivity|]. destruct (Z.eqb_spec (Z.abs n) 0); [lia|reflexivity].
Qed.
Print Assumptions C46_bits_len.
Example C46_bits_len_case : b_bits_len (BI [0; 256] true) = 41 /\ b_bits_len (BI [0] false) = 1.
Proof. split; reflexivity. Qed.

(** ** C27: without a set bit, 32 for every word; so 32 for zero and 0 for NaN *)
Theorem C27_trailling_zeros_zero : forall a, words_ok a -> nval a = 0 -> trailling_zeros a = 32 * Z.of_nat (length a).
Proof.
  induction a as [|x a IH]; intros Wa V; [reflexivity|]. apply words_ok_cons in Wa. destruct Wa as (Wx & Wa). rewrite nval_cons in V. pose proof (nval_nonneg a Wa). assert (W0 : 0 < W) by reflexivity. assert (x = 0) as -> by nia. assert (nval a = 0) by nia.
  cbn [trailling_zeros length]. rewrite Z.eqb_refl, IH by auto. lia.
Qed.
Print Assumptions C27_trailling_zeros_zero.
Example C27_trailling_zeros_zero_case : trailling_zeros [0] = 32 /\ trailling_zeros [] = 0 /\ trailling_zeros [0; 0; 8] = 67.
Proof. repeat split. Qed.
