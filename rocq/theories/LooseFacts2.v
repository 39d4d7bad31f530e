(** Division by a number with leading zero words. *)
From Coq Require Import ZArith List Bool Lia.
From Verif Require Import Words WordsFacts Spec NatModel NatFacts NatFacts2 NatFacts3 NatFacts4 NatFacts5 NatConv NatConvFacts SpecShift ShiftFacts SpecLoose LooseFacts.
Import ListNotations.
Open Scope Z_scope.

(** nat.rs:511-581 as [div_inner] and [rem_inner], with any number of rounds. *)
Definition div_with (fuel : nat) (a b : list Z) : res (list Z) :=
  let sc := trim a in
  if nat_eq_u32 b 0 then Panic
  else match cmp_inner sc b with
       | Lt => Ok [0]
       | _ => if bits_len sc =? bits_len b then Ok [1] else div_loop fuel [0] sc b (bits_len b)
       end.
Definition rem_with (fuel : nat) (a b : list Z) : res (list Z) :=
  if nat_eq_u32 b 0 then Panic
  else match cmp_inner a b with
       | Lt => Ok a
       | _ => do r <- rem_loop fuel a b (bits_len b); Ok (trim r)
       end.
Lemma div_with_inner a b : div_inner a b = div_with (S (32 * length (trim a))) a b.
Proof. reflexivity. Qed.
Lemma rem_with_inner a b : rem_inner a b = rem_with (S (32 * length a)) a b.
Proof. reflexivity. Qed.

Section pad.
Variables (b : list Z) (k n : Z).
Hypothesis (SB : stored b k n) (K : 1 < k) (N : 0 <= n < 2 ^ (32 * (k - 1))).
Let d := 2 ^ (32 * (k - 1)).

Lemma pad_len : bits_len b = 32 * (k - 1).
Proof. rewrite (bits_len_stored b k n SB). destruct (Z.ltb_spec n (2 ^ (32 * (k - 1)))); lia. Qed.
Lemma pad_shl s : 0 <= s -> stored (shl_inner b s) (k + s / 32) (n * 2 ^ s).
Proof.
  intros S. destruct SB as (Wb & Lb & _ & Vb). destruct (shl_inner_spec b s Wb S) as (V & Ws).
  pose proof (Z.div_pos s 32 S ltac:(lia)) as D. pose proof (Z.mod_pos_bound s 32 ltac:(lia)) as M.
  split; [auto|]. split; [|split; [lia|rewrite V, Vb; reflexivity]].
  unfold shl_inner. rewrite app_length, repeat_length. rewrite Z.gtb_ltb. destruct (Z.ltb_spec 0 (s mod 32)); [|lia].
  pose proof (shl_bits_len (s mod 32) b ltac:(lia) 0 Wb) as L. destruct L as [L|(L & G)]; [split; [lia|apply pow2_pos; lia]|rewrite L; lia|].
  exfalso. rewrite Wp_pow2, Vb, Lb in G. replace (32 * k) with (32 * (k - 1) + 32) in G by lia. rewrite Z.pow_add_r in G by lia.
  assert (2 ^ (s mod 32) <= 2 ^ 32) by (apply Z.pow_le_mono_r; lia). pose proof (pow2_pos (s mod 32) ltac:(lia)). nia.
Qed.
Lemma stored_half x l v : stored x l v -> 1 < l -> exists j, stored (shr_inner x 1) j (v / 2) /\ j <= l /\ (v < 2 ^ (32 * (l - 1)) -> j = l - 1).
Proof.
  intros S L. pose proof (stored_nonnil _ _ _ S) as NN. destruct (stored_top x l v S) as (t & ET & Ht & B). destruct S as (Wx & Lx & P & V).
  destruct (shr_inner_shape x 1 Wx ltac:(lia)) as (ws & p & Ww & Lw & Ep & Bp & Vp & E); [change (Z.to_nat (1 / 32)) with 0%nat; destruct x; [congruence|cbn; lia]|discriminate|].
  change (Z.to_nat (1 / 32)) with 0%nat in *. change (1 mod 32) with 1 in *. change (2 ^ 1) with 2 in *. rewrite V, <- ET in *. rewrite E, Z.gtb_ltb. destruct (Z.ltb_spec 0 p).
  - exists l. split; [|split; [lia|]].
    + split; [apply words_ok_app; split; [auto|]; constructor; [lia|constructor]|]. split; [rewrite app_length; cbn [length]; lia|]. split; [lia|exact Vp].
    + intros Q. assert (t = 0) by nia. subst p t. rewrite H0 in H. cbn in H. lia.
  - cbn [Nat.eqb]. exists (l - 1). destruct ws as [|w ws]; [cbn in Lw; lia|]. split; [|split; [lia|reflexivity]].
    split; [auto|]. split; [lia|]. split; [lia|]. rewrite <- Vp, nval_app. cbn [nval]. assert (p = 0) by lia. subst p. rewrite H0. lia.
Qed.

(** One round on a canonical value c of at least d. *)
Definition round_shift (c : Z) : Z :=
  let s := bit_length c - 32 * (k - 1) in
  if (bit_length c mod 32 =? 0) || (c <? n * 2 ^ s) then s - 1 else s.

Lemma round_spec c : d <= c -> let s := bit_length c - 32 * (k - 1) in let sh := round_shift c in
  1 <= s /\ 0 <= sh /\ 0 <= n * 2 ^ sh <= c /\ cmp_inner (of_Z c) b = Gt /\
  exists den, div_adjust (S (Z.to_nat s)) (shl_inner b s) (of_Z c) s = Ok (den, sh) /\
    match cmp_inner (of_Z c) (shl_inner b s) with Lt => shr_inner (shl_inner b s) 1 | _ => shl_inner b s end = den /\
    sub_inner (of_Z c) den = of_Z (c - n * 2 ^ sh).
Proof.
  intros Hc s sh. assert (D1 : 2 ^ 32 <= d) by (apply Z.pow_le_mono_r; lia). assert (c0 : 0 < c) by lia.
  destruct (bit_length_bounds c c0) as (B1 & B2 & B3). set (L := bit_length c) in *.
  assert (LD : 32 * (k - 1) < L). { apply (Z.pow_lt_mono_r_iff 2); fold d; lia. }
  assert (S1 : 1 <= s) by lia.
  assert (WC : words c = (L - 1) / 32 + 1) by (unfold words, L, bit_length; do 2 f_equal; lia).
  pose proof (of_Z_stored c ltac:(lia)) as SC. pose proof (pad_shl s ltac:(lia)) as S0.
  assert (Q1 : k + s / 32 = L / 32 + 1). { unfold s. replace (L - 32 * (k - 1)) with (L + (- (k - 1)) * 32) by ring. rewrite Z.div_add by lia. lia. }
  rewrite Q1 in S0. pose proof (Z.div_mod L 32 ltac:(lia)) as DM. pose proof (Z.mod_pos_bound L 32 ltac:(lia)) as MB.
  assert (PW : n * 2 ^ (s - 1) < 2 ^ (L - 1)).
  { replace (L - 1) with (32 * (k - 1) + (s - 1)) by lia. rewrite Z.pow_add_r by lia. fold d. pose proof (pow2_pos (s - 1) ltac:(lia)). nia. }
  assert (TW : n * 2 ^ s = 2 * (n * 2 ^ (s - 1))). { replace s with (1 + (s - 1)) at 1 by lia. rewrite Z.pow_add_r by lia. ring. }
  assert (NN : 0 <= n * 2 ^ (s - 1)) by (pose proof (pow2_pos (s - 1) ltac:(lia)); nia).
  assert (W1 : L / 32 = (L - 1) / 32 \/ (L mod 32 = 0 /\ L / 32 = (L - 1) / 32 + 1)).
  { destruct (Z.eq_dec (L mod 32) 0) as [E|E]; [right; split; [auto|]|left].
    - replace (L - 1) with (31 + (L / 32 - 1) * 32) by lia. rewrite Z.div_add by lia. change (31 / 32) with 0. lia.
    - apply (Z.div_unique _ _ _ (L mod 32 - 1)); lia. }
  assert (W2 : 1 <= L / 32) by (apply Z.div_le_lower_bound; lia).
  split; [auto|]. unfold sh, round_shift. fold L s.
  assert (KW : k <= words c).
  { rewrite WC. assert (k - 1 <= (L - 1) / 32) by (apply Z.div_le_lower_bound; lia). lia. }
  assert (CG : cmp_inner (of_Z c) b = Gt).
  { rewrite (cmp_stored _ _ _ _ _ _ SC SB). unfold stored_compare. destruct (Z.ltb_spec (words c) k); [lia|]. destruct (Z.ltb_spec k (words c)); [reflexivity|]. apply Z.compare_gt_iff. lia. }
  destruct (Z.eqb_spec (L mod 32) 0) as [E0|E0]; cbn [orb].
  - (* one word too many *)
    destruct W1 as [W1|(_ & W1)]; [exfalso|].
    { pose proof (Z.div_mod (L - 1) 32 ltac:(lia)). pose proof (Z.mod_pos_bound (L - 1) 32 ltac:(lia)). lia. }
    split; [lia|]. split; [lia|]. split; [auto|].
    destruct (stored_half _ _ _ S0 ltac:(lia)) as (j & S2 & J & JE). rewrite TW in S2 at 1. rewrite Z.mul_comm, Z.div_mul in S2 by lia.
    assert (J2 : j = words c).
    { rewrite JE; [lia|]. rewrite TW. replace (32 * (L / 32 + 1 - 1)) with L by lia. replace L with (1 + (L - 1)) at 1 by lia. rewrite (Z.pow_add_r 2 1) by lia. lia. }
    exists (shr_inner (shl_inner b s) 1). cbn [div_adjust].
    assert (X : cmp_inner (shl_inner b s) (of_Z c) = Gt).
    { rewrite (cmp_stored _ _ _ _ _ _ S0 SC). unfold stored_compare. destruct (Z.ltb_spec (L / 32 + 1) (words c)); [lia|]. destruct (Z.ltb_spec (words c) (L / 32 + 1)); [reflexivity|lia]. }
    assert (Y : cmp_inner (of_Z c) (shl_inner b s) = Lt).
    { rewrite (cmp_stored _ _ _ _ _ _ SC S0). unfold stored_compare. destruct (Z.ltb_spec (words c) (L / 32 + 1)); [reflexivity|lia]. }
    assert (V : stored_compare j (n * 2 ^ (s - 1)) (words c) c = Lt).
    { unfold stored_compare. rewrite J2, Z.ltb_irrefl. apply Z.compare_lt_iff. lia. }
    rewrite X, Y. destruct (Z.leb_spec s 0); [lia|]. split.
    { destruct (Z.to_nat s); cbn [div_adjust]; rewrite (cmp_stored _ _ _ _ _ _ S2 SC), V; reflexivity. }
    split; [reflexivity|]. rewrite (sub_stored _ _ _ _ _ _ SC S2). f_equal. unfold stored_difference, stored_compare. rewrite J2, Z.ltb_irrefl.
    destruct (Z.compare_spec c (n * 2 ^ (s - 1))); try lia; apply Z.mod_small; pose proof (stored_bound _ _ _ SC); lia.
  - destruct W1 as [W1|(W1 & _)]; [|lia]. assert (WE : words c = L / 32 + 1) by lia. rewrite WE in SC.
    destruct (Z.ltb_spec c (n * 2 ^ s)) as [G|G].
    + split; [lia|]. split; [lia|]. split; [auto|]. destruct (stored_half _ _ _ S0 ltac:(lia)) as (j & S2 & J & _). rewrite TW in S2 at 1. rewrite Z.mul_comm, Z.div_mul in S2 by lia.
      exists (shr_inner (shl_inner b s) 1). cbn [div_adjust].
      assert (X : cmp_inner (shl_inner b s) (of_Z c) = Gt).
      { rewrite (cmp_stored _ _ _ _ _ _ S0 SC). unfold stored_compare. rewrite !Z.ltb_irrefl. apply Z.compare_gt_iff. lia. }
      assert (Y : cmp_inner (of_Z c) (shl_inner b s) = Lt).
      { rewrite (cmp_stored _ _ _ _ _ _ SC S0). unfold stored_compare. rewrite !Z.ltb_irrefl. apply Z.compare_lt_iff. lia. }
      assert (V : stored_compare j (n * 2 ^ (s - 1)) (L / 32 + 1) c = Lt).
      { unfold stored_compare. destruct (Z.ltb_spec j (L / 32 + 1)); [reflexivity|]. destruct (Z.ltb_spec (L / 32 + 1) j); [lia|]. apply Z.compare_lt_iff. lia. }
      rewrite X, Y. destruct (Z.leb_spec s 0); [lia|]. split.
      { destruct (Z.to_nat s); cbn [div_adjust]; rewrite (cmp_stored _ _ _ _ _ _ S2 SC), V; reflexivity. }
      split; [reflexivity|]. rewrite (sub_stored _ _ _ _ _ _ SC S2). f_equal. unfold stored_difference, stored_compare. pose proof (stored_bound _ _ _ SC).
      destruct (Z.ltb_spec (L / 32 + 1) j); [lia|]. destruct (Z.ltb_spec j (L / 32 + 1)); [apply Z.mod_small; lia|].
      destruct (Z.compare_spec c (n * 2 ^ (s - 1))); try lia; apply Z.mod_small; lia.
    + split; [lia|]. split; [lia|]. split; [auto|]. exists (shl_inner b s). cbn [div_adjust].
      assert (X : cmp_inner (shl_inner b s) (of_Z c) <> Gt).
      { rewrite (cmp_stored _ _ _ _ _ _ S0 SC). unfold stored_compare. rewrite !Z.ltb_irrefl. apply Z.compare_le_iff. lia. }
      assert (Y : cmp_inner (of_Z c) (shl_inner b s) <> Lt).
      { rewrite (cmp_stored _ _ _ _ _ _ SC S0). unfold stored_compare. rewrite !Z.ltb_irrefl. apply Z.compare_ge_iff. lia. }
      split; [destruct (cmp_inner (shl_inner b s) (of_Z c)); congruence|]. split; [destruct (cmp_inner (of_Z c) (shl_inner b s)); congruence|].
      rewrite (sub_stored _ _ _ _ _ _ SC S0). f_equal. unfold stored_difference, stored_compare. pose proof (stored_bound _ _ _ SC). rewrite !Z.ltb_irrefl.
      destruct (Z.compare_spec c (n * 2 ^ s)); try lia; apply Z.mod_small; lia.
Qed.

Lemma below_stops c : 0 <= c < d -> cmp_inner (of_Z c) b = Lt.
Proof.
  intros C. pose proof (of_Z_stored c ltac:(lia)) as SC. rewrite (cmp_stored _ _ _ _ _ _ SC SB). unfold stored_compare.
  assert (words c < k); [|destruct (Z.ltb_spec (words c) k); [reflexivity|lia]].
  destruct (Z.eq_dec c 0) as [->|]; [change (words 0) with 1; lia|]. apply words_bit; [lia|]. unfold bit_length. destruct C as (C & D). apply Z.log2_lt_pow2 in D; lia.
Qed.
(** A round does not change what is left in the end. *)
Lemma round_rem c : 0 < n -> d <= c -> padded_rem k (c - n * 2 ^ round_shift c) n = padded_rem k c n.
Proof.
  intros N0 Hc. destruct (round_spec c Hc) as (S1 & SH & B & _). unfold round_shift in *. set (s := bit_length c - 32 * (k - 1)) in *.
  assert (D1 : 2 ^ 32 <= d) by (apply Z.pow_le_mono_r; lia). destruct (bit_length_bounds c ltac:(lia)) as (B1 & B2 & B3). set (L := bit_length c) in *.
  assert (LP : 2 ^ (L - 1) = d * 2 ^ (s - 1)). { unfold d. rewrite <- Z.pow_add_r by lia. f_equal. lia. }
  unfold padded_rem. fold d. destruct (Z.ltb_spec c d); [lia|].
  assert (TW : forall t, 1 <= t -> n * 2 ^ t = 2 ^ (t - 1) * (2 * n)). { intros t T. replace t with (1 + (t - 1)) at 1 by lia. rewrite Z.pow_add_r by lia. ring. }
  assert (MS : forall t z, 1 <= t -> (z - n * 2 ^ t) mod (2 * n) = z mod (2 * n)).
  { intros t z T. rewrite TW by auto. replace (z - 2 ^ (t - 1) * (2 * n)) with (z + (- 2 ^ (t - 1)) * (2 * n)) by ring. apply Z.mod_add. lia. }
  pose proof (pow2_pos (s - 1) ltac:(lia)) as PS.
  destruct (Z.leb_spec (2 * n) d) as [H2|H2].
  - set (sh := if _ || _ then s - 1 else s) in *.
    assert (T : 1 <= sh /\ sh <= s).
    { unfold sh. destruct (Z.eqb_spec (L mod 32) 0) as [E|E]; cbn [orb].
      - assert (s mod 32 = 0). { unfold s. replace (L - 32 * (k - 1)) with (L + (- (k - 1)) * 32) by ring. rewrite Z.mod_add by lia. auto. }
        pose proof (Z.div_mod s 32 ltac:(lia)). lia.
      - rewrite TW by lia. destruct (Z.ltb_spec c (2 ^ (s - 1) * (2 * n))); [nia|lia]. }
    set (c' := c - n * 2 ^ sh) in *.
    assert (LO : d - 2 * n <= c').
    { assert (n * 2 ^ sh <= n * 2 ^ s) by (apply Z.mul_le_mono_nonneg_l; [lia|apply Z.pow_le_mono_r; lia]). rewrite (TW s) in H0 by lia. unfold c'. nia. }
    destruct (Z.ltb_spec c' d).
    + assert (Q : (c - d) mod (2 * n) = (c' - d) mod (2 * n)). { unfold c'. replace (c - n * 2 ^ sh - d) with (c - d - n * 2 ^ sh) by ring. symmetry. apply MS. lia. }
      rewrite Q. replace (c' - d) with (c' - (d - 2 * n) + (-1) * (2 * n)) by ring. rewrite Z.mod_add by lia. rewrite Z.mod_small by lia. lia.
    + f_equal. unfold c'. replace (c - n * 2 ^ sh - d) with (c - d - n * 2 ^ sh) by ring. apply MS. lia.
  - set (sh := if _ || _ then s - 1 else s) in *. destruct (Z.le_gt_cases 1 sh) as [T|T].
    + rewrite MS by auto. set (c' := c - n * 2 ^ sh) in *. destruct (Z.ltb_spec c' d); [|reflexivity].
      assert (Q : c mod (2 * n) = c'). { rewrite <- (MS sh c T). fold c'. apply Z.mod_small. lia. } rewrite Q. destruct (Z.ltb_spec c' d); lia.
    + (* s = 1 and 2n > c *)
      assert (Z0 : sh = 0) by lia. assert (E : s = 1 /\ c < 2 * n).
      { unfold sh in Z0. destruct (Z.eqb_spec (L mod 32) 0) as [E|E]; cbn [orb] in Z0.
        - assert (s mod 32 = 0). { unfold s. replace (L - 32 * (k - 1)) with (L + (- (k - 1)) * 32) by ring. rewrite Z.mod_add by lia. auto. }
          pose proof (Z.div_mod s 32 ltac:(lia)). lia.
        - destruct (Z.ltb_spec c (n * 2 ^ s)); [|lia]. assert (s = 1) by lia. rewrite H1 in H0. change (2 ^ 1) with 2 in H0. lia. }
      destruct E as (E1 & E2). rewrite Z0. change (2 ^ 0) with 1. rewrite Z.mul_1_r. rewrite (Z.mod_small c) by lia. destruct (Z.ltb_spec (c - n) d); [|lia]. destruct (Z.ltb_spec c d); lia.
Qed.

Lemma pad_div_loop : 0 < n -> forall fuel c q, 0 <= c -> 0 <= q -> c < Z.of_nat fuel ->
  div_loop fuel (of_Z q) (of_Z c) b (bits_len b) = Ok (of_Z (q + (c - padded_rem k c n) / n)) /\
  rem_loop fuel (of_Z c) b (bits_len b) = Ok (of_Z (padded_rem k c n)).
Proof.
  intros N0. induction fuel as [|f IH]; intros c q C Q F; [lia|]. cbn [div_loop rem_loop].
  destruct (Z.lt_ge_cases c d) as [Hc|Hc].
  { rewrite below_stops by lia. unfold padded_rem. fold d. destruct (Z.ltb_spec c d); [|lia]. rewrite Z.sub_diag, Z.div_0_l, Z.add_0_r by lia. auto. }
  destruct (round_spec c Hc) as (S1 & SH & B & CG & den & DA & RA & SU). rewrite CG, pad_len.
  assert (BL : bits_len (of_Z c) = bit_length c).
  { rewrite bits_len_spec by (apply of_Z_canon; lia). rewrite of_Z_val by lia. assert (0 < d) by (apply pow2_pos; lia). destruct (Z.eqb_spec c 0); [lia|reflexivity]. }
  rewrite BL. destruct (Z.ltb_spec (bit_length c - 32 * (k - 1)) 0); [lia|]. rewrite DA, RA. cbn [bind].
  pose proof (pow2_pos (round_shift c) SH) as PS.
  rewrite u32_shl_of_Z, add_of_Z, SU by lia. rewrite <- pad_len.
  destruct (IH (c - n * 2 ^ round_shift c) (q + 2 ^ round_shift c)) as (I1 & I2); [lia|lia|nia|]. rewrite I1, I2, round_rem by auto. split; [|reflexivity].
  do 2 f_equal. replace (c - n * 2 ^ round_shift c - padded_rem k c n) with (c - padded_rem k c n + (- 2 ^ round_shift c) * n) by ring. rewrite Z.div_add by lia. ring.
Qed.
Lemma pad_zero_loop : n = 0 -> forall fuel c q, d <= c -> 0 <= q ->
  div_loop fuel (of_Z q) (of_Z c) b (bits_len b) = Fuel /\ rem_loop fuel (of_Z c) b (bits_len b) = Fuel.
Proof.
  intros N0. induction fuel as [|f IH]; intros c q Hc Q; cbn [div_loop rem_loop]; destruct (round_spec c Hc) as (S1 & SH & B & CG & den & DA & RA & SU); rewrite CG; [auto|].
  assert (BL : bits_len (of_Z c) = bit_length c).
  { assert (0 < d) by (apply pow2_pos; lia). rewrite bits_len_spec by (apply of_Z_canon; lia). rewrite of_Z_val by lia. destruct (Z.eqb_spec c 0); [lia|reflexivity]. }
  rewrite pad_len, BL. destruct (Z.ltb_spec (bit_length c - 32 * (k - 1)) 0); [lia|]. rewrite DA, RA. cbn [bind].
  pose proof (pow2_pos (round_shift c) SH) as PS. rewrite u32_shl_of_Z, add_of_Z, SU by lia. rewrite <- pad_len. rewrite N0, Z.mul_0_l, Z.sub_0_r. apply IH; lia.
Qed.
Lemma pad_eq0 : nat_eq_u32 b 0 = false.
Proof.
  unfold nat_eq_u32, from_u32. assert (Z1 : stored [0] 1 0) by (apply single_stored; split; reflexivity || lia). rewrite (eqb_stored b k n [0] 1 0) by auto. destruct (Z.eqb_spec k 1); [lia|reflexivity].
Qed.
Lemma d_pos : 0 < d.
Proof. apply pow2_pos. lia. Qed.
Lemma rem_bound m : 0 < n -> 0 <= m -> 0 <= padded_rem k m n < d /\ padded_rem k m n <= m.
Proof.
  intros N0 M. pose proof d_pos. unfold padded_rem. fold d. destruct (Z.ltb_spec m d); [lia|]. destruct (Z.leb_spec (2 * n) d).
  - pose proof (Z.mod_pos_bound (m - d) (2 * n) ltac:(lia)). pose proof (Z.mod_le (m - d) (2 * n) ltac:(lia) ltac:(lia)). lia.
  - pose proof (Z.mod_pos_bound m (2 * n) ltac:(lia)). pose proof (Z.mod_le m (2 * n) ltac:(lia) ltac:(lia)). destruct (Z.ltb_spec (m mod (2 * n)) d); fold d in N; lia.
Qed.
Lemma rem_class m : 0 < n -> (m - padded_rem k m n) mod n = 0.
Proof.
  intros N0. assert (M2 : forall z, (z - z mod (2 * n)) mod n = 0).
  { intros z. pose proof (Z.div_mod z (2 * n) ltac:(lia)). replace (z - z mod (2 * n)) with ((2 * (z / (2 * n))) * n) by lia. apply Z.mod_mul. lia. }
  unfold padded_rem. fold d. destruct (Z.ltb_spec m d); [rewrite Z.sub_diag; apply Z.mod_0_l; lia|]. destruct (Z.leb_spec (2 * n) d).
  - replace (m - (d - 2 * n + (m - d) mod (2 * n))) with (m - d - (m - d) mod (2 * n) + 2 * n) by ring. rewrite Z.mod_add by lia. apply M2.
  - destruct (Z.ltb_spec (m mod (2 * n)) d); [apply M2|]. replace (m - (m mod (2 * n) - n)) with (m - m mod (2 * n) + 1 * n) by ring. rewrite Z.mod_add by lia. apply M2.
Qed.
Lemma div_with_trim a l m : stored a l m -> forall fuel, div_with fuel a b = div_with fuel (of_Z m) b.
Proof. intros A fuel. unfold div_with. rewrite (trim_stored a l m A), (trim_canon_id (of_Z m)) by (apply of_Z_canon; apply (stored_bound a l m A)). reflexivity. Qed.
Lemma pad_div a m : represents a m -> 0 < n -> forall fuel, m < Z.of_nat fuel ->
  div_with fuel a b = Ok (of_Z ((m - padded_rem k m n) / n)) /\ rem_with fuel a b = Ok (of_Z (padded_rem k m n)).
Proof.
  intros (C & V) N0 fuel F. assert (M : 0 <= m) by (rewrite <- V; apply canon_nonneg; auto). assert (E : a = of_Z m) by (apply of_Z_unique; auto). subst a. unfold div_with, rem_with. rewrite (trim_canon_id (of_Z m)) by auto. rewrite pad_eq0.
  destruct (Z.lt_ge_cases m d) as [L|L].
  { rewrite below_stops by auto. unfold padded_rem. fold d. destruct (Z.ltb_spec m d); [|lia]. rewrite Z.sub_diag, Z.div_0_l by lia. auto. }
  destruct (round_spec m L) as (S1 & SH & B & CG & _). pose proof d_pos. rewrite CG.
  destruct (pad_div_loop N0 fuel m 0 M ltac:(lia) F) as (D & R). change (of_Z 0) with [0] in D. rewrite D, R. cbn [bind]. rewrite trim_canon_id by (apply of_Z_canon; apply rem_bound; auto).
  assert (BL : bits_len (of_Z m) = bit_length m). { rewrite bits_len_spec by auto. rewrite V. destruct (Z.eqb_spec m 0); [lia|reflexivity]. }
  rewrite BL, pad_len. destruct (Z.eqb_spec (bit_length m) (32 * (k - 1))); [lia|]. auto.
Qed.
Lemma pad_zero a m : represents a m -> n = 0 -> d <= m -> forall fuel, div_with fuel a b = Fuel /\ rem_with fuel a b = Fuel.
Proof.
  intros (C & V) N0 L fuel. pose proof d_pos. assert (E : a = of_Z m) by (apply of_Z_unique; auto). subst a. unfold div_with, rem_with. rewrite (trim_canon_id (of_Z m)) by auto. rewrite pad_eq0.
  destruct (round_spec m L) as (S1 & SH & B & CG & _). rewrite CG. destruct (pad_zero_loop N0 fuel m 0 L ltac:(lia)) as (D & R). change (of_Z 0) with [0] in D. rewrite D, R.
  assert (BL : bits_len (of_Z m) = bit_length m). { rewrite bits_len_spec by auto. rewrite V. destruct (Z.eqb_spec m 0); [lia|reflexivity]. }
  rewrite BL, pad_len. destruct (Z.eqb_spec (bit_length m) (32 * (k - 1))); [lia|]. auto.
Qed.
Lemma pad_both a l m : stored a l m -> k < l -> m < 2 ^ (32 * (l - 1)) -> 0 < n -> forall fuel, first_round l m k n < Z.of_nat fuel ->
  rem_with (S fuel) a b = Ok (of_Z (padded_rem k (first_round l m k n) n)).
Proof.
  intros A L M N0 fuel F. pose proof (stored_bound _ _ _ A) as BM. set (s := 32 * (l - k)). unfold first_round in *. fold s in F |- *. cbv zeta in F |- *. unfold rem_with. rewrite pad_eq0.
  assert (CG : cmp_inner a b = Gt). { rewrite (cmp_stored _ _ _ _ _ _ A SB). unfold stored_compare. destruct (Z.ltb_spec l k); [lia|]. destruct (Z.ltb_spec k l); [reflexivity|lia]. }
  rewrite CG. assert (BA : bits_len a = 32 * (l - 1)). { rewrite (bits_len_stored a l m A). destruct (Z.ltb_spec m (2 ^ (32 * (l - 1)))); lia. }
  rewrite pad_len. cbn [rem_loop]. rewrite CG, BA.
  replace (32 * (l - 1) - 32 * (k - 1)) with s by lia. destruct (Z.ltb_spec s 0); [lia|].
  pose proof (pad_shl s ltac:(lia)) as S0. assert (Q : k + s / 32 = l). { unfold s. replace (32 * (l - k)) with ((l - k) * 32) by ring. rewrite Z.div_mul by lia. lia. } rewrite Q in S0.
  assert (TW : n * 2 ^ s = 2 * (n * 2 ^ (s - 1))). { replace s with (1 + (s - 1)) at 1 by lia. rewrite Z.pow_add_r by lia. ring. }
  pose proof (pow2_pos (s - 1) ltac:(lia)) as P1. assert (NN : 0 <= n * 2 ^ (s - 1)) by nia.
  assert (DD : n * 2 ^ s < 2 ^ (32 * (l - 1))). { replace (32 * (l - 1)) with (32 * (k - 1) + s) by lia. rewrite Z.pow_add_r by lia. fold d in N |- *. pose proof (pow2_pos s ltac:(lia)). nia. }
  assert (OUT : forall z, 0 <= z < Z.of_nat fuel -> (do r <- rem_loop fuel (of_Z z) b (32 * (k - 1)); Ok (trim r)) = Ok (of_Z (padded_rem k z n))).
  { intros z Z0. rewrite <- pad_len. destruct (pad_div_loop N0 fuel z 0) as (_ & R); [lia|lia|lia|]. rewrite R. cbn [bind]. rewrite trim_canon_id by (apply of_Z_canon; apply rem_bound; lia). auto. }
  pose proof (pow2_pos (32 * l) ltac:(lia)) as PL.
  destruct (Z.leb_spec (n * 2 ^ s) m) as [G|G].
  -    assert (Y : cmp_inner a (shl_inner b s) <> Lt). { rewrite (cmp_stored _ _ _ _ _ _ A S0). unfold stored_compare. rewrite !Z.ltb_irrefl. apply Z.compare_ge_iff. lia. }
    assert (RA : match cmp_inner a (shl_inner b s) with Lt => shr_inner (shl_inner b s) 1 | _ => shl_inner b s end = shl_inner b s) by (destruct (cmp_inner a (shl_inner b s)); congruence). rewrite RA.
    assert (SU : sub_inner a (shl_inner b s) = of_Z (m - n * 2 ^ s)).
    { rewrite (sub_stored _ _ _ _ _ _ A S0). f_equal. unfold stored_difference, stored_compare. rewrite !Z.ltb_irrefl. destruct (Z.compare_spec m (n * 2 ^ s)); try lia; apply Z.mod_small; lia. }
    rewrite SU. apply OUT; lia.
  - destruct (stored_half _ _ _ S0 ltac:(lia)) as (j & S2 & J & JE). rewrite TW in S2 at 1. rewrite Z.mul_comm, Z.div_mul in S2 by lia. specialize (JE DD). subst j.
    assert (Y : cmp_inner a (shl_inner b s) = Lt). { rewrite (cmp_stored _ _ _ _ _ _ A S0). unfold stored_compare. rewrite !Z.ltb_irrefl. apply Z.compare_lt_iff. lia. }
    rewrite Y.
    assert (SU : sub_inner a (shr_inner (shl_inner b s) 1) = of_Z ((m - n * 2 ^ (s - 1)) mod 2 ^ (32 * l))).
    { rewrite (sub_stored _ _ _ _ _ _ A S2). f_equal. unfold stored_difference, stored_compare. destruct (Z.ltb_spec l (l - 1)); [lia|]. destruct (Z.ltb_spec (l - 1) l); [reflexivity|lia]. }
    rewrite SU. pose proof (Z.mod_pos_bound (m - n * 2 ^ (s - 1)) (2 ^ (32 * l)) PL). apply OUT; lia.
Qed.
(** No longer than the divisor. *)
Lemma pad_short a l m : stored a l m -> l <= k -> m < 2 ^ (32 * (l - 1)) \/ l < k -> forall fuel, fuel <> O ->
  (l < k \/ m < n -> rem_with fuel a b = Ok a) /\ (l = k -> n <= m -> rem_with fuel a b = Ok (of_Z (m - n))).
Proof.
  intros A L M fuel F. pose proof (stored_bound _ _ _ A) as BM. unfold rem_with. rewrite pad_eq0. rewrite (cmp_stored _ _ _ _ _ _ A SB). unfold stored_compare.
  destruct (Z.ltb_spec l k); [split; auto; lia|]. assert (l = k) by lia. subst l. destruct M as [M|M]; [|lia]. rewrite Z.ltb_irrefl.
  assert (BA : bits_len a = 32 * (k - 1)). { rewrite (bits_len_stored a k m A). destruct (Z.ltb_spec m (2 ^ (32 * (k - 1)))); lia. }
  rewrite pad_len. destruct (Z.leb_spec n m) as [G|G].
  - split; [lia|]. intros _ _.
    assert (R : forall f, rem_loop (S f) a b (32 * (k - 1)) = Ok (of_Z (m - n))).
    { intros f. cbn [rem_loop]. pose proof (cmp_stored _ _ _ _ _ _ A SB) as CM. unfold stored_compare in CM. rewrite Z.ltb_irrefl in CM. rewrite CM, BA, Z.sub_diag. change (0 <? 0) with false. cbv iota.
      assert (SH0 : shl_inner b 0 = b) by reflexivity. rewrite SH0, CM.
      assert (SU : sub_inner a b = of_Z (m - n)).
      { rewrite (sub_stored _ _ _ _ _ _ A SB). f_equal. unfold stored_difference, stored_compare. rewrite Z.ltb_irrefl. destruct (Z.compare_spec m n); try lia; apply Z.mod_small; lia. }
      assert (ST : rem_loop f (of_Z (m - n)) b (32 * (k - 1)) = Ok (of_Z (m - n))) by (destruct f; cbn [rem_loop]; rewrite below_stops by (unfold d; lia); reflexivity).
      destruct (Z.compare_spec m n); try lia; rewrite SU; exact ST. }
    destruct fuel as [|f]; [congruence|]. rewrite R. cbn [bind]. rewrite trim_canon_id by (apply of_Z_canon; lia). destruct (Z.compare_spec m n); try lia; reflexivity.
  - destruct (Z.compare_spec m n); try lia. split; auto; lia.
Qed.
End pad.
