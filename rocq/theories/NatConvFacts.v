(** Proofs about NatConv.v. *)
From Coq Require Import Ascii String ZArith List Lia Bool.
From Verif Require Import Words Spec WordsFacts NatModel NatFacts NatFacts2 NatFacts3 NatFacts4 NatFacts5 NatConv.
Import ListNotations.
Open Scope Z_scope.
Open Scope list_scope.

(* ------------------------------------------------------------------ *)
(** * Digit lists *)

Lemma be_value_snoc base ds d : be_value base (ds ++ [d]) = be_value base ds * base + d.
Proof. unfold be_value. rewrite fold_left_app. reflexivity. Qed.

Lemma be_value_rev base ds : be_value base (rev ds) = le_value base ds.
Proof.
  induction ds as [|d ds IH]; [reflexivity|]. cbn [rev]. rewrite be_value_snoc, IH.
  cbn [le_value fold_right]. fold (le_value base ds). ring.
Qed.
Lemma be_value_le base ds : be_value base ds = le_value base (rev ds).
Proof. rewrite <- be_value_rev, rev_involutive. reflexivity. Qed.

Lemma le_value_cons base d ds : le_value base (d :: ds) = d + base * le_value base ds.
Proof. reflexivity. Qed.

Lemma le_value_app base a b : le_value base (a ++ b) = le_value base a + base ^ Z.of_nat (length a) * le_value base b.
Proof.
  induction a as [|d a IH].
  - cbn [app length le_value fold_right]. rewrite Z.pow_0_r. unfold le_value. lia.
  - cbn [app]. rewrite !le_value_cons, IH. cbn [length]. rewrite Nat2Z.inj_succ, Z.pow_succ_r by lia. ring.
Qed.

Lemma be_value_app base a b : be_value base (a ++ b) = be_value base a * base ^ Z.of_nat (length b) + be_value base b.
Proof. rewrite !be_value_le, rev_app_distr, le_value_app, rev_length. ring. Qed.

Lemma be_value_cons base d ds : be_value base (d :: ds) = d * base ^ Z.of_nat (length ds) + be_value base ds.
Proof.
  change (d :: ds) with ([d] ++ ds). rewrite be_value_app.
  replace (be_value base [d]) with d by (unfold be_value; cbn [fold_left]; lia). reflexivity.
Qed.

Lemma le_value_bound base ds : 0 < base -> digits_ok base ds ->
  0 <= le_value base ds < base ^ Z.of_nat (length ds).
Proof.
  intros Hb H. induction H as [|d ds Hd H IH].
  - cbn. lia.
  - rewrite le_value_cons. cbn [length]. rewrite Nat2Z.inj_succ, Z.pow_succ_r by lia. nia.
Qed.
Lemma be_value_bound base ds : 0 < base -> digits_ok base ds ->
  0 <= be_value base ds < base ^ Z.of_nat (length ds).
Proof.
  intros Hb H. rewrite be_value_le. rewrite <- (rev_length ds).
  apply le_value_bound; auto. apply Forall_rev; auto.
Qed.

(* ------------------------------------------------------------------ *)
(** * Bytes *)

Lemma lor_add_byte val e j : 0 <= j -> 0 <= val < 2 ^ (8 * j) -> 
  Z.lor val (e * 2 ^ (8 * j)) = val + e * 2 ^ (8 * j).
Proof. intros Hj Hv. rewrite Z.lor_comm, lor_shift_add by lia. lia. Qed.

Lemma bytes_loop_spec bs : forall j val, digits_ok 256 bs -> 0 <= j <= 3 -> 0 <= val < 2 ^ (8 * j) ->
  nval (bytes_loop j val bs) = val + 2 ^ (8 * j) * le_value 256 bs /\ words_ok (bytes_loop j val bs).
Proof.
  induction bs as [|e bs IH]; intros j val Hb Hj Hv; cbn [bytes_loop].
  - assert (2 ^ (8 * j) <= 2 ^ 24) by (apply Z.pow_le_mono_r; lia).
    change (2 ^ 24) with 16777216 in *. cbn [le_value fold_right]. destruct (val >? 0) eqn:E.
    + cbn [nval]. split; [lia|]. repeat constructor; lia.
    + rewrite Z.gtb_ltb in E. apply Z.ltb_ge in E. split; [cbn [nval]; lia|constructor].
  - inversion Hb as [|? ? He Hb']; subst. rewrite lor_add_byte by lia.
    pose proof (pow2_pos (8 * j) ltac:(lia)) as Hp. destruct (j =? 3) eqn:E.
    + apply Z.eqb_eq in E. subst j. destruct (IH 0 0) as [H1 H2]; auto; try lia.
      change (2 ^ (8 * 3)) with 16777216 in *. change (2 ^ (8 * 0)) with 1 in *.
      rewrite nval_cons, H1, le_value_cons. split; [lia|].
      apply words_ok_cons. split; [nia|auto].
    + apply Z.eqb_neq in E. assert (HS : 2 ^ (8 * (j + 1)) = 2 ^ (8 * j) * 256).
      { replace (8 * (j + 1)) with (8 * j + 8) by lia. rewrite Z.pow_add_r by lia. reflexivity. }
      destruct (IH (j + 1) (val + e * 2 ^ (8 * j))) as [H1 H2]; auto; try lia.
      { rewrite HS. nia. }
      split; auto. rewrite H1, HS, le_value_cons. ring.
Qed.

Lemma from_bytes_iter_of_Z bs : digits_ok 256 bs -> bs <> [] ->
  from_bytes_iter bs = of_Z (le_value 256 bs).
Proof.
  intros Hb Hn. unfold from_bytes_iter.
  destruct (bytes_loop_spec bs 0 0 Hb) as [H1 H2]; [lia|cbn; lia|].
  change (2 ^ (8 * 0)) with 1 in H1. rewrite Z.mul_1_l, Z.add_0_l in H1.
  destruct (bytes_loop 0 0 bs) as [|x l] eqn:E.
  - cbn [nval] in H1. rewrite <- H1. reflexivity.
  - rewrite trim_of_Z; [rewrite H1; reflexivity|auto|discriminate].
Qed.

Lemma from_le_bytes_rep bs : digits_ok 256 bs -> bs <> [] ->
  represents (from_le_bytes bs) (le_value 256 bs).
Proof.
  intros Hb Hn. unfold from_le_bytes. destruct bs as [|b bs]; [contradiction|].
  rewrite from_bytes_iter_of_Z by auto. apply rep_of_Z. apply le_value_bound; auto; lia.
Qed.
Lemma digits_ok_rev base ds : digits_ok base ds -> digits_ok base (rev ds).
Proof. apply Forall_rev. Qed.
Lemma from_be_bytes_rep bs : digits_ok 256 bs -> bs <> [] ->
  represents (from_be_bytes bs) (be_value 256 bs).
Proof.
  intros Hb Hn. unfold from_be_bytes. destruct bs as [|b bs]; [contradiction|].
  rewrite be_value_le. rewrite from_bytes_iter_of_Z.
  - apply rep_of_Z. apply le_value_bound; [lia|]. apply digits_ok_rev; auto.
  - apply digits_ok_rev; auto.
  - intros H. apply (f_equal (@length Z)) in H. rewrite rev_length in H. discriminate.
Qed.

Lemma bytes_loop2_spec bs : forall j val, digits_ok 256 bs -> 0 <= j <= 3 -> 0 <= val < 2 ^ (8 * j) ->
  let '(v, t) := bytes_loop2 j val bs in
  nval (v ++ [t]) = val + 2 ^ (8 * j) * le_value 256 bs /\ words_ok (v ++ [t]).
Proof.
  induction bs as [|e bs IH]; intros j val Hb Hj Hv; cbn [bytes_loop2].
  - assert (2 ^ (8 * j) <= 2 ^ 24) by (apply Z.pow_le_mono_r; lia).
    change (2 ^ 24) with 16777216 in *. cbn [le_value fold_right app nval].
    split; [lia|]. repeat constructor; lia.
  - inversion Hb as [|? ? He Hb']; subst.
    pose proof (pow2_pos (8 * j) ltac:(lia)) as Hp. destruct (j =? 3) eqn:E.
    + apply Z.eqb_eq in E. subst j. specialize (IH 0 0 Hb').
      destruct (bytes_loop2 0 0 bs) as [v t]. destruct IH as [H1 H2]; try lia.
      change (2 ^ (8 * 3)) with 16777216 in *. change (2 ^ (8 * 0)) with 1 in *.
      cbn [app]. rewrite nval_cons, H1, le_value_cons. split; [lia|].
      apply words_ok_cons. split; [nia|auto].
    + apply Z.eqb_neq in E. assert (HS : 2 ^ (8 * (j + 1)) = 2 ^ (8 * j) * 256).
      { replace (8 * (j + 1)) with (8 * j + 8) by lia. rewrite Z.pow_add_r by lia. reflexivity. }
      specialize (IH (j + 1) (val + e * 2 ^ (8 * j)) Hb').
      destruct (bytes_loop2 (j + 1) (val + e * 2 ^ (8 * j)) bs) as [v t].
      destruct IH as [H1 H2]; try lia.
      { rewrite HS. nia. }
      split; auto. rewrite H1, HS, le_value_cons. ring.
Qed.

Lemma from_u8_slice_of_Z bs : digits_ok 256 bs -> bs <> [] ->
  from_u8_slice bs = of_Z (le_value 256 bs).
Proof.
  intros Hb Hn. unfold from_u8_slice. pose proof (bytes_loop2_spec bs 0 0 Hb) as H.
  destruct (bytes_loop2 0 0 bs) as [v t]. destruct H as [H1 H2]; [lia|cbn; lia|].
  change (2 ^ (8 * 0)) with 1 in H1. rewrite Z.mul_1_l, Z.add_0_l in H1.
  assert (He : (if t >? 0 then v ++ [t] else match bs with [] => v | _ => v ++ [t] end) = v ++ [t]).
  { destruct (t >? 0); auto. destruct bs; [contradiction|auto]. }
  rewrite He. rewrite trim_of_Z; [rewrite H1; reflexivity|auto|].
  destruct v; discriminate.
Qed.

Lemma le_bytes_spec n : forall x, 0 <= x < 256 ^ Z.of_nat n ->
  digits_ok 256 (le_bytes n x) /\ le_value 256 (le_bytes n x) = x /\ length (le_bytes n x) = n.
Proof.
  induction n as [|n IH]; intros x Hx.
  - cbn in *. split; [constructor|]. lia.
  - rewrite Nat2Z.inj_succ, Z.pow_succ_r in Hx by lia. cbn [le_bytes].
    destruct (IH (x / 256)) as [H1 [H2 H3]].
    { split; [apply Z.div_pos; lia|]. apply Z.div_lt_upper_bound; lia. }
    split. { constructor; [apply Z.mod_pos_bound; lia|auto]. }
    rewrite le_value_cons, H2. split; [|cbn [length]; lia].
    pose proof (Z.div_mod x 256). lia.
Qed.

Lemma from_u64_of_Z x : 0 <= x < 2 ^ 64 -> from_u64 x = of_Z x.
Proof.
  intros Hx. unfold from_u64. destruct (le_bytes_spec 8 x) as [H1 [H2 H3]]; [exact Hx|].
  rewrite from_u8_slice_of_Z; [rewrite H2; auto|auto|discriminate].
Qed.
Lemma from_u128_of_Z x : 0 <= x < 2 ^ 128 -> from_u128 x = of_Z x.
Proof.
  intros Hx. unfold from_u128. destruct (le_bytes_spec 16 x) as [H1 [H2 H3]]; [exact Hx|].
  rewrite from_u8_slice_of_Z; [rewrite H2; auto|auto|discriminate].
Qed.

Lemma u32_le_eq x : u32_le x = le_bytes 4 x.
Proof.
  unfold u32_le. cbn [le_bytes]. rewrite !Z.div_div by lia. reflexivity.
Qed.
Lemma u32_le_spec x : 0 <= x < W ->
  digits_ok 256 (u32_le x) /\ le_value 256 (u32_le x) = x /\ length (u32_le x) = 4%nat.
Proof. intros H. rewrite u32_le_eq. apply le_bytes_spec. exact H. Qed.

Lemma flat_u32_le l : words_ok l ->
  digits_ok 256 (flat_map u32_le l) /\ le_value 256 (flat_map u32_le l) = nval l /\
  length (flat_map u32_le l) = (4 * length l)%nat.
Proof.
  induction l as [|x l IH]; intros Hw.
  - cbn. split; [constructor|]. auto.
  - apply words_ok_cons in Hw. destruct Hw as [Hx Hw]. destruct (IH Hw) as [H1 [H2 H3]].
    destruct (u32_le_spec x Hx) as [K1 [K2 K3]]. cbn [flat_map].
    split. { apply Forall_app; auto. }
    rewrite le_value_app, K2, H2, K3, nval_cons, app_length, K3, H3.
    split; [reflexivity|cbn [length]; lia].
Qed.

Lemma le_bytes_firstn k : forall n x, (k <= n)%nat -> firstn k (le_bytes n x) = le_bytes k x.
Proof.
  induction k as [|k IH]; intros n x H; [reflexivity|].
  destruct n as [|n]; [lia|]. cbn [le_bytes firstn]. rewrite IH by lia. reflexivity.
Qed.

Lemma top_bytes_spec x : 0 <= x < W ->
  let k := top_bytes x in (1 <= k <= 4)%nat /\ 0 <= x < 256 ^ Z.of_nat k /\
    (x <> 0 -> 256 ^ (Z.of_nat k - 1) <= x) /\ (x = 0 -> k = 1%nat).
Proof.
  intros Hx. unfold top_bytes.
  destruct (x >? 16777215) eqn:E1; [rewrite Z.gtb_ltb in E1; apply Z.ltb_lt in E1; cbn; lia|].
  destruct (x >? 65535) eqn:E2; [rewrite Z.gtb_ltb in E1, E2; apply Z.ltb_ge in E1; apply Z.ltb_lt in E2; cbn; lia|].
  destruct (x >? 255) eqn:E3; [rewrite Z.gtb_ltb in E1, E2, E3; apply Z.ltb_ge in E1, E2; apply Z.ltb_lt in E3; cbn; lia|].
  rewrite Z.gtb_ltb in E3. apply Z.ltb_ge in E3. cbn. lia.
Qed.

Lemma le_bytes_last k x : (1 <= k)%nat -> 256 ^ (Z.of_nat k - 1) <= x < 256 ^ Z.of_nat k ->
  last (le_bytes k x) 0 <> 0.
Proof.
  revert x. induction k as [|k IH]; intros x Hk Hx; [lia|].
  rewrite Nat2Z.inj_succ in Hx. cbn [le_bytes]. destruct k as [|k].
  - cbn in Hx. cbn [le_bytes last]. rewrite Z.mod_small by lia. lia.
  - specialize (IH (x / 256) ltac:(lia)). cbn [le_bytes] in IH |- *.
    change (last (x mod 256 :: ?l) 0) with (last l 0) .
    apply IH. rewrite Z.pow_succ_r in Hx by lia.
    replace (Z.succ (Z.of_nat (S k)) - 1) with (Z.succ (Z.of_nat (S k) - 1)) in Hx by lia.
    rewrite Z.pow_succ_r in Hx by lia.
    split; [apply Z.div_le_lower_bound; lia|apply Z.div_lt_upper_bound; lia].
Qed.

Lemma last_app_nonnil (a b : list Z) d : b <> [] -> last (a ++ b) d = last b d.
Proof.
  intros Hb. destruct (exists_last Hb) as [l [x ->]]. rewrite app_assoc, !last_last. reflexivity.
Qed.

Lemma firstn_len1_removelast (a : list Z) : firstn (length a - 1) a = removelast a.
Proof.
  destruct a as [|x a] using rev_ind; [reflexivity|].
  rewrite app_length, removelast_last. cbn [length].
  replace (length a + 1 - 1)%nat with (length a + 0)%nat by lia. rewrite firstn_app_2. cbn. apply app_nil_r.
Qed.

Lemma to_le_bytes_spec a : canon a ->
  digits_ok 256 (to_le_bytes a) /\ le_value 256 (to_le_bytes a) = nval a /\
  to_le_bytes a <> [] /\ (length (to_le_bytes a) = 1%nat \/ last (to_le_bytes a) 0 <> 0).
Proof.
  intros Ha. pose proof (canon_words a Ha) as Hw. pose proof (canon_nonnil a Ha) as Hn.
  unfold to_le_bytes. destruct a as [|x0 a0]; [contradiction|]. set (a := x0 :: a0) in *.
  rewrite firstn_len1_removelast. pose proof (words_ok_last a Hw) as Hl.
  destruct (flat_u32_le (removelast a)) as [H1 [H2 H3]]; [apply words_ok_removelast; auto|].
  destruct (top_bytes_spec (last a 0) Hl) as [K1 [K2 [K3 K4]]].
  rewrite u32_le_eq, le_bytes_firstn by lia. set (k := top_bytes (last a 0)) in *.
  destruct (le_bytes_spec k (last a 0) K2) as [L1 [L2 L3]].
  split; [apply Forall_app; auto|]. split.
  { rewrite le_value_app, H2, L2, H3. rewrite (nval_last a Hn), removelast_len.
    f_equal. f_equal. change 256 with (2 ^ 8). rewrite <- Z.pow_mul_r by lia.
    rewrite Wp_pow2. f_equal. lia. }
  assert (Hk : le_bytes k (last a 0) <> []). { intros E. rewrite E in L3. cbn in L3. lia. }
  split. { intros E. apply app_eq_nil in E. tauto. }
  destruct (Z.eq_dec (last a 0) 0) as [E|E].
  - left. rewrite app_length, L3, H3, removelast_len. destruct Ha as [_ [_ [Hc|Hc]]]; [|contradiction].
    rewrite (K4 E). lia.
  - right. rewrite last_app_nonnil by auto. apply le_bytes_last; [lia|]. split; [apply K3; auto|lia].
Qed.

Lemma flat_map_rev_u32 l : flat_map (fun x => rev (u32_le x)) (rev l) = rev (flat_map u32_le l).
Proof.
  induction l as [|x l IH]; [reflexivity|].
  cbn [rev flat_map]. rewrite flat_map_app, IH, rev_app_distr. cbn [flat_map]. rewrite app_nil_r. reflexivity.
Qed.

Lemma skipn_rev_firstn (l : list Z) k : (k <= length l)%nat ->
  skipn (length l - k) (rev l) = rev (firstn k l).
Proof.
  intros H. rewrite <- (firstn_skipn k l) at 2. rewrite rev_app_distr, skipn_app.
  rewrite skipn_all2 by (rewrite rev_length, skipn_length; lia).
  rewrite rev_length, skipn_length. cbn [app].
  replace (length l - k - (length l - k))%nat with 0%nat by lia. reflexivity.
Qed.

Lemma skipn1_rev (a : list Z) : skipn 1 (rev a) = rev (removelast a).
Proof.
  destruct a as [|x a] using rev_ind; [reflexivity|].
  rewrite rev_app_distr, removelast_last. reflexivity.
Qed.

Lemma to_be_bytes_rev a : words_ok a -> to_be_bytes a = rev (to_le_bytes a).
Proof.
  intros Hw. unfold to_be_bytes, to_le_bytes. destruct a as [|x0 a0]; [reflexivity|].
  set (a := x0 :: a0) in *. rewrite rev_app_distr. f_equal.
  - pose proof (words_ok_last a Hw) as Hl. destruct (top_bytes_spec (last a 0) Hl) as [K1 _].
    apply (skipn_rev_firstn (u32_le (last a 0))). exact (proj2 K1).
  - rewrite firstn_len1_removelast, skipn1_rev, flat_map_rev_u32. reflexivity.
Qed.

Lemma bytes_roundtrip_le a : canon a -> from_le_bytes (to_le_bytes a) = a.
Proof.
  intros Ha. destruct (to_le_bytes_spec a Ha) as [H1 [H2 [H3 _]]].
  destruct (from_le_bytes_rep (to_le_bytes a) H1 H3) as [K1 K2].
  apply canon_inj; auto. congruence.
Qed.
Lemma bytes_roundtrip_be a : canon a -> from_be_bytes (to_be_bytes a) = a.
Proof.
  intros Ha. destruct (to_le_bytes_spec a Ha) as [H1 [H2 [H3 _]]].
  rewrite to_be_bytes_rev by (apply canon_words; auto).
  destruct (from_be_bytes_rep (rev (to_le_bytes a))) as [K1 K2].
  - apply digits_ok_rev; auto.
  - intros E. apply H3. rewrite <- (rev_involutive (to_le_bytes a)), E. reflexivity.
  - apply canon_inj; auto. rewrite K2, be_value_rev. auto.
Qed.

(* ------------------------------------------------------------------ *)
(** * Formatting *)

Lemma fixed_digits_spec base k : 1 < base -> forall x, 0 <= x < base ^ Z.of_nat k ->
  digits_ok base (fixed_digits base k x) /\ be_value base (fixed_digits base k x) = x /\
  length (fixed_digits base k x) = k.
Proof.
  intros Hb. induction k as [|k IH]; intros x Hx.
  - cbn in *. split; [constructor|]. unfold be_value. cbn. lia.
  - rewrite Nat2Z.inj_succ, Z.pow_succ_r in Hx by lia. cbn [fixed_digits].
    destruct (IH (x / base)) as [H1 [H2 H3]].
    { split; [apply Z.div_pos; lia|]. apply Z.div_lt_upper_bound; lia. }
    split. { apply Forall_app. split; auto. constructor; [apply Z.mod_pos_bound; lia|constructor]. }
    rewrite be_value_snoc, H2, app_length, H3. split; [|cbn [length]; lia].
    pose proof (Z.div_mod x base). lia.
Qed.

Fixpoint dropz (l : list Z) : list Z :=
  match l with [] => [] | d :: l' => if d =? 0 then dropz l' else l end.

Definition chr_ok (chr : Z -> Z) (base : Z) : Prop := forall d, 0 <= d < base -> (chr d =? 48) = (d =? 0).

Lemma trim_start0_map chr base ds : chr_ok chr base -> digits_ok base ds ->
  trim_start0 (map chr ds) = map chr (dropz ds).
Proof.
  intros Hc H. induction H as [|d ds Hd H IH]; [reflexivity|].
  cbn [map trim_start0 dropz]. rewrite (Hc d Hd). destruct (d =? 0); auto.
Qed.

Lemma dropz_ok base ds : digits_ok base ds -> digits_ok base (dropz ds).
Proof.
  intros H. induction H as [|d ds Hd H IH]; [constructor|]. cbn [dropz].
  destruct (d =? 0); auto. constructor; auto.
Qed.
Lemma dropz_value base ds : be_value base (dropz ds) = be_value base ds.
Proof.
  induction ds as [|d ds IH]; [reflexivity|]. cbn [dropz]. destruct (d =? 0) eqn:E; auto.
  apply Z.eqb_eq in E. subst d. rewrite IH, be_value_cons. lia.
Qed.
Lemma dropz_hd ds : dropz ds <> [] -> hd 0 (dropz ds) <> 0.
Proof.
  induction ds as [|d ds IH]; [intros H; contradiction H; reflexivity|]. cbn [dropz]. destruct (d =? 0) eqn:E; auto.
  intros _. cbn [hd]. apply Z.eqb_neq in E. auto.
Qed.

Lemma numeral_trim chr base ds : 1 < base -> chr_ok chr base -> chr 0 = 48 -> digits_ok base ds ->
  is_numeral chr base (match trim_start0 (map chr ds) with [] => [48] | s => s end) (be_value base ds).
Proof.
  intros Hb Hc H0 Hd. rewrite (trim_start0_map chr base) by auto.
  rewrite <- (dropz_value base ds). pose proof (dropz_ok base ds Hd). pose proof (dropz_hd ds).
  destruct (dropz ds) as [|d ds'] eqn:E.
  - cbn [map]. exists [0]. rewrite <- H0. split; [reflexivity|].
    split; [repeat constructor; lia|]. split; [reflexivity|]. split; [discriminate|left; reflexivity].
  - cbn [map]. exists (d :: ds'). split; [reflexivity|]. split; [auto|]. split; [reflexivity|].
    split; [discriminate|right; apply H1; discriminate].
Qed.

(** Concatenated digits of the words, most significant word first. *)
Definition word_digits (base : Z) (width : nat) (l : list Z) : list Z :=
  flat_map (fixed_digits base width) l.

Lemma word_digits_spec base width l : 1 < base -> base ^ Z.of_nat width = W -> words_ok l ->
  digits_ok base (word_digits base width l) /\
  be_value base (word_digits base width l) = nval (rev l) /\
  length (word_digits base width l) = (width * length l)%nat.
Proof.
  intros Hb HW. induction l as [|x l IH]; intros Hw.
  - split; [constructor|]. split; [reflexivity|cbn; lia].
  - apply words_ok_cons in Hw. destruct Hw as [Hx Hw]. destruct (IH Hw) as [H1 [H2 H3]].
    destruct (fixed_digits_spec base width Hb x) as [K1 [K2 K3]]; [rewrite HW; auto|].
    unfold word_digits in *. cbn [flat_map]. split; [apply Forall_app; auto|].
    rewrite be_value_app, K2, H2, H3, app_length, K3, H3. cbn [rev length].
    rewrite nval_app, rev_length. cbn [nval]. split; [|lia].
    replace (Z.of_nat (width * length l)) with (Z.of_nat width * Z.of_nat (length l)) by lia.
    rewrite Z.pow_mul_r by lia. rewrite HW. ring.
Qed.

Lemma flat_map_chr (chr : Z -> Z) base width l :
  flat_map (fun w => map chr (fixed_digits base width w)) l = map chr (word_digits base width l).
Proof.
  unfold word_digits. induction l as [|x l IH]; [reflexivity|]. cbn [flat_map]. rewrite map_app, IH. reflexivity.
Qed.

Lemma trim_start0_app s t : trim_start0 s <> [] -> trim_start0 (s ++ t) = trim_start0 s ++ t.
Proof.
  induction s as [|c s IH]; [intros H; contradiction H; reflexivity|]. cbn [trim_start0 app].
  destruct (c =? 48); auto.
Qed.

Lemma dropz_nil base ds : dropz ds = [] -> be_value base ds = 0.
Proof. intros H. rewrite <- dropz_value, H. reflexivity. Qed.

Lemma nat_fmt_spec chr base width prefix alt a : 1 < base -> base ^ Z.of_nat width = W ->
  chr_ok chr base -> chr 0 = 48 -> canon a ->
  exists s, nat_fmt chr base width prefix alt a = (if alt then prefix else []) ++ s /\
    is_numeral chr base s (nval a).
Proof.
  intros Hb HW Hc H0 Ha. unfold nat_fmt.
  pose proof (canon_words a Ha) as Hw. pose proof (words_ok_rev a Hw) as Hwr.
  assert (Hne : rev a <> []).
  { intros E. apply (canon_nonnil a Ha). rewrite <- (rev_involutive a), E. reflexivity. }
  destruct (rev a) as [|x rest] eqn:E; [contradiction|].
  assert (Ea : a = rev (x :: rest)) by (rewrite <- E, rev_involutive; auto).
  destruct (word_digits_spec base width (x :: rest) Hb HW Hwr) as [D1 [D2 D3]].
  rewrite <- Ea in D2.
  apply words_ok_cons in Hwr. destruct Hwr as [Hx Hwr].
  destruct (fixed_digits_spec base width Hb x) as [K1 [K2 K3]]; [rewrite HW; auto|].
  eexists. split; [reflexivity|].
  pose proof (numeral_trim chr base _ Hb Hc H0 D1) as HN. rewrite D2 in HN.
  rewrite flat_map_chr.
  unfold word_digits in HN. cbn [flat_map] in HN. rewrite map_app in HN. fold (word_digits base width rest) in HN.
  destruct (trim_start0 (map chr (fixed_digits base width x))) as [|c y] eqn:Ey.
  - destruct rest as [|x2 rest].
    + cbn [word_digits flat_map map app] in HN |- *. rewrite app_nil_r, Ey in HN. exact HN.
    + exfalso. rewrite (trim_start0_map chr base) in Ey by auto. apply map_eq_nil in Ey.
      apply (dropz_nil base) in Ey. rewrite K2 in Ey. subst x.
      destruct Ha as [_ [_ [Hl|Hl]]].
      * rewrite Ea, rev_length in Hl. cbn in Hl. lia.
      * rewrite Ea in Hl. cbn [rev] in Hl. rewrite last_last in Hl. contradiction.
  - assert (Hnn : trim_start0 (map chr (fixed_digits base width x)) <> []) by (rewrite Ey; discriminate).
    rewrite trim_start0_app in HN by auto. rewrite Ey in HN. cbn [app] in HN |- *. exact HN.
Qed.

Lemma lchar_ok base : base <= 16 -> chr_ok lchar base.
Proof.
  intros Hb d Hd. unfold lchar. destruct (d <? 10) eqn:E.
  - destruct (Z.eqb_spec (48 + d) 48), (Z.eqb_spec d 0); lia.
  - apply Z.ltb_ge in E. destruct (Z.eqb_spec (87 + d) 48), (Z.eqb_spec d 0); lia.
Qed.
Lemma uchar_ok base : base <= 16 -> chr_ok uchar base.
Proof.
  intros Hb d Hd. unfold uchar. destruct (d <? 10) eqn:E.
  - destruct (Z.eqb_spec (48 + d) 48), (Z.eqb_spec d 0); lia.
  - apply Z.ltb_ge in E. destruct (Z.eqb_spec (55 + d) 48), (Z.eqb_spec d 0); lia.
Qed.

(** Octal *)
Lemma oct10_spec n : forall x, 0 <= x ->
  exists ds, oct10 n x = map lchar ds /\ digits_ok 8 ds /\ length ds = n /\
    le_value 8 ds = x mod 8 ^ Z.of_nat n.
Proof.
  induction n as [|n IH]; intros x Hx.
  - exists []. split; [reflexivity|]. split; [constructor|]. split; [reflexivity|].
    cbn. rewrite Z.mod_1_r. reflexivity.
  - destruct (IH (x / 8)) as [ds [H1 [H2 [H3 H4]]]]; [apply Z.div_pos; lia|].
    pose proof (Z.mod_pos_bound x 8 ltac:(lia)).
    exists (x mod 8 :: ds). cbn [oct10]. change 7 with (Z.ones 3). rewrite Z.land_ones by lia.
    change (2 ^ 3) with 8. split.
    { cbn [map]. rewrite H1. f_equal. unfold lchar. destruct (x mod 8 <? 10) eqn:E; [lia|apply Z.ltb_ge in E; lia]. }
    split; [constructor; auto|]. split; [cbn [length]; lia|].
    rewrite le_value_cons, H4, Nat2Z.inj_succ, Z.pow_succ_r by lia.
    rewrite Z.rem_mul_r by lia. reflexivity.
Qed.

Lemma lor_low_add y n p : 0 <= n -> 0 <= p < 2 ^ n -> Z.lor (y * 2 ^ n) p = y * 2 ^ n + p.
Proof. apply lor_shift_add. Qed.

Lemma oct_loop_spec a : forall i pre, words_ok a ->
  ((i = 0 /\ pre = 0) \/ (i = 1 /\ 0 <= pre < 4) \/ (i = 2 /\ 0 <= pre < 2)) ->
  exists ds p, oct_loop i pre a = (map lchar ds, p) /\ digits_ok 8 ds /\ 0 <= p < 4 /\
    le_value 8 ds + 8 ^ Z.of_nat (length ds) * p =
    pre + (if i =? 0 then 1 else if i =? 1 then 4 else 2) * nval a.
Proof.
  induction a as [|e a IH]; intros i pre Hw Hi.
  - exists [], pre. cbn [oct_loop map]. split; [reflexivity|]. split; [constructor|].
    split; [lia|]. cbn [nval le_value fold_right length]. rewrite Z.pow_0_r. lia.
  - apply words_ok_cons in Hw. destruct Hw as [He Hw]. cbn [oct_loop].
    destruct Hi as [[-> ->]|[[-> Hp]|[-> Hp]]].
    + change (0 =? 0) with true. cbv iota.
      assert (Hq : 0 <= e / 2 ^ 30 < 4).
      { split; [apply Z.div_pos; lia|apply Z.div_lt_upper_bound; lia]. }
      destruct (IH 1 (e / 2 ^ 30) Hw) as [ds [p [H1 [H2 [H3 H4]]]]]; [lia|].
      destruct (oct10_spec 10 e) as [ds1 [K1 [K2 [K3 K4]]]]; [lia|].
      rewrite H1, K1. exists (ds1 ++ ds), p. rewrite map_app. split; [reflexivity|].
      split; [apply Forall_app; auto|]. split; [auto|].
      rewrite le_value_app, app_length, Nat2Z.inj_add, Z.pow_add_r, K3, K4 by lia.
      change (1 =? 0) with false in H4. change (1 =? 1) with true in H4. cbv iota in H4.
      change (8 ^ Z.of_nat 10) with 1073741824 in *. change (2 ^ 30) with 1073741824 in *.
      rewrite nval_cons. pose proof (Z.div_mod e 1073741824 ltac:(lia)) as Hd.
      rewrite <- Z.mul_assoc. nia.
    + change (1 =? 0) with false. change (1 =? 1) with true. cbv iota.
      assert (Hq : 0 <= e / 2 ^ 31 < 2).
      { split; [apply Z.div_pos; lia|apply Z.div_lt_upper_bound; lia]. }
      destruct (IH 2 (e / 2 ^ 31) Hw) as [ds [p [H1 [H2 [H3 H4]]]]]; [lia|].
      destruct (oct10_spec 10 (e / 2)) as [ds1 [K1 [K2 [K3 K4]]]]; [apply Z.div_pos; lia|].
      rewrite H1, K1. change (Z.land e 1) with (Z.land e (Z.ones 1)). rewrite Z.land_ones by lia.
      change (2 ^ 1) with 2.
      pose proof (lor_shift_add (e mod 2) 2 pre ltac:(lia) ltac:(cbn; lia)) as Hlor.
      change (2 ^ 2) with 4 in Hlor. rewrite Hlor.
      pose proof (Z.mod_pos_bound e 2 ltac:(lia)) as Hm.
      set (d0 := e mod 2 * 4 + pre) in *.
      exists (d0 :: ds1 ++ ds), p. cbn [map]. rewrite map_app. split.
      { f_equal. f_equal. unfold lchar. destruct (d0 <? 10) eqn:E; [lia|apply Z.ltb_ge in E; lia]. }
      split; [constructor; [lia|apply Forall_app; auto]|]. split; [auto|].
      cbn [length]. rewrite le_value_cons, le_value_app, app_length, Nat2Z.inj_succ, Z.pow_succ_r,
         Nat2Z.inj_add, Z.pow_add_r, K3, K4 by lia.
      change (2 =? 0) with false in H4. change (2 =? 1) with false in H4. cbv iota in H4.
      change (8 ^ Z.of_nat 10) with 1073741824 in *. change (2 ^ 31) with 2147483648 in *.
      rewrite nval_cons. pose proof (Z.div_mod e 2 ltac:(lia)) as Hd.
      pose proof (Z.div_mod (e / 2) 1073741824 ltac:(lia)) as Hd2.
      rewrite Z.div_div in Hd2 by lia. change (2 * 1073741824) with 2147483648 in Hd2.
      subst d0. rewrite <- Z.mul_assoc. nia.
    + change (2 =? 0) with false. change (2 =? 1) with false. cbv iota.
      destruct (IH 0 0 Hw) as [ds [p [H1 [H2 [H3 H4]]]]]; [lia|].
      destruct (oct10_spec 10 (e / 4)) as [ds1 [K1 [K2 [K3 K4]]]]; [apply Z.div_pos; lia|].
      rewrite H1, K1. change (Z.land e 3) with (Z.land e (Z.ones 2)). rewrite Z.land_ones by lia.
      change (2 ^ 2) with 4.
      pose proof (lor_shift_add (e mod 4) 1 pre ltac:(lia) ltac:(cbn; lia)) as Hlor.
      change (2 ^ 1) with 2 in Hlor. rewrite Hlor.
      pose proof (Z.mod_pos_bound e 4 ltac:(lia)) as Hm.
      set (d0 := e mod 4 * 2 + pre) in *.
      exists (d0 :: ds1 ++ ds), p. cbn [map]. rewrite map_app. split.
      { f_equal. f_equal. unfold lchar. destruct (d0 <? 10) eqn:E; [lia|apply Z.ltb_ge in E; lia]. }
      split; [constructor; [lia|apply Forall_app; auto]|]. split; [auto|].
      cbn [length]. rewrite le_value_cons, le_value_app, app_length, Nat2Z.inj_succ, Z.pow_succ_r,
         Nat2Z.inj_add, Z.pow_add_r, K3, K4 by lia.
      change (0 =? 0) with true in H4. cbv iota in H4.
      change (8 ^ Z.of_nat 10) with 1073741824 in *.
      rewrite nval_cons. pose proof (Z.div_mod e 4 ltac:(lia)) as Hd.
      assert (Hs : 0 <= e / 4 < 1073741824).
      { split; [apply Z.div_pos; lia|apply Z.div_lt_upper_bound; lia]. }
      rewrite Z.mod_small by lia.
      subst d0. rewrite <- Z.mul_assoc. nia.
Qed.

Lemma fmt_octal_words alt a : words_ok a -> a <> [] ->
  exists s, fmt_octal alt a = (if alt then str "0o" else []) ++ s /\ is_numeral lchar 8 s (nval a).
Proof.
  intros Wa Hn. unfold fmt_octal.
  destruct a as [|x0 a0]; [contradiction|]. set (a := x0 :: a0) in *.
  destruct (oct_loop_spec a 0 0 Wa) as [ds [p [H1 [H2 [H3 H4]]]]]; [auto|].
  change (0 =? 0) with true in H4. cbv iota in H4. rewrite H1.
  set (ds' := if p >? 0 then ds ++ [p] else ds).
  assert (E1 : (if p >? 0 then map lchar ds ++ [p + 48] else map lchar ds) = map lchar ds').
  { unfold ds'. destruct (p >? 0) eqn:E; auto. rewrite map_app. cbn [map]. f_equal. f_equal.
    unfold lchar. destruct (p <? 10) eqn:E2; [lia|apply Z.ltb_ge in E2; lia]. }
  assert (E2 : le_value 8 ds' = nval a).
  { unfold ds'. destruct (p >? 0) eqn:E.
    - rewrite le_value_app. cbn [le_value fold_right]. lia.
    - rewrite Z.gtb_ltb in E. apply Z.ltb_ge in E. assert (p = 0) by lia. subst p. lia. }
  assert (E3 : digits_ok 8 ds').
  { unfold ds'. destruct (p >? 0); auto. apply Forall_app. split; auto. constructor; [lia|constructor]. }
  rewrite E1, <- map_rev.
  eexists. split; [reflexivity|].
  rewrite <- E2, <- be_value_rev.
  pose proof (numeral_trim lchar 8 (rev ds') ltac:(lia) (lchar_ok 8 ltac:(lia)) eq_refl (digits_ok_rev 8 ds' E3)) as HN.
  destruct (trim_start0 (map lchar (rev ds'))); exact HN.
Qed.
Lemma fmt_octal_spec alt a : canon a ->
  exists s, fmt_octal alt a = (if alt then str "0o" else []) ++ s /\ is_numeral lchar 8 s (nval a).
Proof. intros Ha. apply fmt_octal_words; auto using canon_words, canon_nonnil. Qed.

(** Decimal *)
Lemma nat_rem_of_Z m n : 0 <= m -> 0 < n -> nat_rem (of_Z m) (of_Z n) = Ok (of_Z (m mod n)).
Proof.
  intros Hm Hn. unfold nat_rem. rewrite op2r_canon by (apply of_Z_canon; lia). apply rem_of_Z; lia.
Qed.
Lemma nat_div_of_Z m n : 0 <= m -> 0 < n -> nat_div (of_Z m) (of_Z n) = Ok (of_Z (m / n)).
Proof.
  intros Hm Hn. unfold nat_div. rewrite op2r_canon by (apply of_Z_canon; lia). apply div_of_Z; lia.
Qed.

Lemma dec_loop_spec fuel : forall n, 0 <= n < 2 ^ Z.of_nat fuel ->
  exists ds, dec_loop fuel (of_Z n) = Ok (map lchar ds) /\ digits_ok 10 ds /\
    le_value 10 ds = n /\ (ds = [] <-> n = 0) /\ (ds <> [] -> last ds 0 <> 0).
Proof.
  induction fuel as [|f IH]; intros n Hn.
  - cbn in Hn. assert (n = 0) by lia. subst n. exists []. cbn [dec_loop].
    split; [reflexivity|]. split; [constructor|]. split; [reflexivity|]. split; [tauto|congruence].
  - rewrite Nat2Z.inj_succ, Z.pow_succ_r in Hn by lia.
    assert (Heq : nat_eq (of_Z n) [0] = (n =? 0)).
    { rewrite nat_eq_spec; [|apply of_Z_canon; lia|apply canon_single; lia].
      rewrite of_Z_val by lia. cbn [nval]. reflexivity. }
    cbn [dec_loop]. rewrite Heq. destruct (n =? 0) eqn:E.
    + apply Z.eqb_eq in E. exists []. split; [reflexivity|]. split; [constructor|].
      subst n. split; [reflexivity|]. split; [tauto|congruence].
    + apply Z.eqb_neq in E. change [10] with (of_Z 10).
      rewrite nat_rem_of_Z, nat_div_of_Z by lia. cbn [bind].
      pose proof (Z.mod_pos_bound n 10 ltac:(lia)) as Hm.
      rewrite of_Z_small by lia.
      destruct (IH (n / 10)) as [ds [H1 [H2 [H3 [H4 H5]]]]].
      { split; [apply Z.div_pos; lia|apply Z.div_lt_upper_bound; lia]. }
      rewrite H1. cbn [bind]. exists (n mod 10 :: ds). split.
      { cbn [map]. f_equal. f_equal. unfold lchar.
        destruct (n mod 10 <? 10) eqn:E2; [lia|apply Z.ltb_ge in E2; lia]. }
      split; [constructor; auto|]. split.
      { rewrite le_value_cons, H3. pose proof (Z.div_mod n 10 ltac:(lia)). lia. }
      split; [split; [discriminate|intros; lia]|]. intros _.
      destruct ds as [|d ds].
      * cbn [last]. assert (n / 10 = 0) by (apply H4; reflexivity).
        pose proof (Z.div_mod n 10 ltac:(lia)). lia.
      * change (last (n mod 10 :: d :: ds) 0) with (last (d :: ds) 0). apply H5. discriminate.
Qed.

Lemma hd_rev_last (l : list Z) : hd 0 (rev l) = last l 0.
Proof.
  destruct l as [|x l] using rev_ind; [reflexivity|]. rewrite rev_app_distr, last_last. reflexivity.
Qed.

Lemma fmt_display_spec a : canon a -> exists s, fmt_display a = Ok s /\ is_numeral lchar 10 s (nval a).
Proof.
  intros Ha. unfold fmt_display. pose proof (canon_nonnil a Ha) as Hn.
  pose proof (canon_nonneg a Ha) as H0.
  destruct (dec_loop_spec (S (32 * length a)) (nval a)) as [ds [H1 [H2 [H3 [H4 H5]]]]].
  { pose proof (fuel_words a 1 (canon_words a Ha) ltac:(lia)). lia. }
  rewrite of_Z_nval in H1 by auto. pose proof (trim_canon_id a Ha) as T.
  destruct a as [|x0 a0]; [contradiction|]. set (a := x0 :: a0) in *.
  rewrite T. cbv zeta. rewrite H1. cbn [bind]. eexists. split; [reflexivity|].
  destruct ds as [|d ds].
  - exists [0]. split; [reflexivity|]. split; [repeat constructor; lia|].
    split; [|split; [discriminate|left; reflexivity]].
    assert (nval a = 0) by (apply H4; reflexivity). change (be_value 10 [0]) with 0. lia.
  - exists (rev (d :: ds)). rewrite map_rev. split; [reflexivity|].
    split; [apply digits_ok_rev; auto|]. rewrite be_value_rev. split; [auto|].
    split. { intros E. apply (f_equal (@length Z)) in E. rewrite rev_length in E. discriminate. }
    right. rewrite hd_rev_last. apply H5. discriminate.
Qed.

Lemma fmt_display_words a : words_ok a -> a <> [] -> exists s, fmt_display a = Ok s /\ is_numeral lchar 10 s (nval a).
Proof.
  intros Wa Na. pose proof (trim_canon a Wa Na) as C. destruct (fmt_display_spec _ C) as (s & E & N). rewrite trim_val in N. exists s. split; [|exact N].
  rewrite <- E. unfold fmt_display. rewrite (trim_canon_id _ C). destruct a; [congruence|]. destruct (trim _) eqn:T; [apply trim_nil in T; discriminate|reflexivity].
Qed.

(* ------------------------------------------------------------------ *)
(** * Parsing *)

Lemma collect_app dig a b : collect dig (a ++ b) =
  match collect dig a, collect dig b with Some x, Some y => Some (x ++ y) | _, _ => None end.
Proof.
  induction a as [|c a IH]; cbn [app collect].
  - destruct (collect dig b); reflexivity.
  - destruct (dig c); [|reflexivity]. rewrite IH. destruct (collect dig a); [|reflexivity].
    destruct (collect dig b); reflexivity.
Qed.
Lemma collect_rev dig a : collect dig (rev a) = option_map (@rev Z) (collect dig a).
Proof.
  induction a as [|c a IH]; [reflexivity|]. cbn [rev collect]. rewrite collect_app, IH. cbn [collect].
  destruct (collect dig a); cbn [option_map]; destruct (dig c); reflexivity.
Qed.
Lemma collect_text dig s ds : collect dig s = Some ds <-> Forall2 (fun c d => dig c = Some d) s ds.
Proof.
  revert ds. induction s as [|c s IH]; intros ds; cbn [collect].
  - split; intros H; [injection H as <-; constructor|inversion H; reflexivity].
  - split; intros H.
    + destruct (dig c) as [d|] eqn:E; [|discriminate]. destruct (collect dig s) as [l|]; [|discriminate].
      injection H as <-. constructor; auto. apply IH. reflexivity.
    + inversion H as [|? d ? l H1 H2]; subst. rewrite H1. apply IH in H2. rewrite H2. reflexivity.
Qed.
Lemma collect_ext d1 d2 s : (forall c, d1 c = d2 c) -> collect d1 s = collect d2 s.
Proof. intros H. induction s as [|c s IH]; cbn [collect]; [auto|]. rewrite H, IH. reflexivity. Qed.

Ltac boolcases :=
  repeat (match goal with |- context [?a <=? ?b] => destruct (Z.leb_spec a b) end;
          cbn [andb orb]; cbv iota; try (exfalso; lia));
  repeat (match goal with |- context [?a =? ?b] => destruct (Z.eqb_spec a b) end;
          cbn [andb orb]; cbv iota; try (exfalso; lia));
  repeat (match goal with |- context [?a <? ?b] => destruct (Z.ltb_spec a b) end;
          cbn [andb orb]; cbv iota; try (exfalso; lia));
  try reflexivity; try lia; try (f_equal; lia); try discriminate.

Lemma dec_digit_eq c : dec_digit c = digit_value 10 c.
Proof. unfold dec_digit, digit_value. boolcases. Qed.
Lemma bin_digit_eq c : bin_digit c = digit_value 2 c.
Proof. unfold bin_digit, digit_value. boolcases. Qed.
Lemma oct_digit_eq c : oct_digit c = digit_value 8 c.
Proof. unfold oct_digit, digit_value. boolcases. Qed.
Lemma hex_digit_eq c : hex_digit c = digit_value 16 c.
Proof. unfold hex_digit, digit_value. boolcases. Qed.

Lemma digit_value_range base c d : 0 <= base -> digit_value base c = Some d -> 0 <= d < base.
Proof.
  intros Hb. unfold digit_value. boolcases; intros H'; injection H' as <-; lia.
Qed.
Lemma digit_text_ok base s ds : 0 <= base -> digit_text base s ds -> digits_ok base ds.
Proof.
  intros Hb H. induction H as [|c d s ds H1 H2 IH]; constructor; auto. eapply digit_value_range; eauto.
Qed.
Lemma Forall2_length {A B} (R : A -> B -> Prop) l l' : Forall2 R l l' -> length l = length l'.
Proof. intros H. induction H; cbn; auto. Qed.
Lemma digit_text_length base s ds : digit_text base s ds -> length s = length ds.
Proof. apply Forall2_length. Qed.

Lemma pow2_loop_spec dig bpd s : (forall c d, dig c = Some d -> 0 <= d < 2 ^ bpd) ->
  0 < bpd -> bpd <= 32 -> 32 mod bpd = 0 -> forall sh tmp,
  0 <= sh <= 32 - bpd -> sh mod bpd = 0 -> 0 <= tmp < 2 ^ sh ->
  match collect dig s with
  | None => pow2_loop dig bpd sh tmp s = None
  | Some ds => exists v t, pow2_loop dig bpd sh tmp s = Some (v, t) /\ words_ok (v ++ [t]) /\
      nval (v ++ [t]) = tmp + 2 ^ sh * le_value (2 ^ bpd) ds
  end.
Proof.
  intros Hdig Hb0 Hb32 Hdiv. induction s as [|c s IH]; intros sh tmp Hsh Hm Ht; cbn [collect pow2_loop].
  - exists [], tmp. split; [reflexivity|]. cbn [app nval le_value fold_right].
    assert (2 ^ sh <= 2 ^ 32) by (apply Z.pow_le_mono_r; lia). change (2 ^ 32) with W in *.
    split; [repeat constructor; lia|lia].
  - destruct (dig c) as [d|] eqn:E; [|reflexivity]. specialize (Hdig c d E).
    pose proof (pow2_pos sh ltac:(lia)) as Hp. pose proof (pow2_pos bpd ltac:(lia)) as Hpb.
    destruct (sh =? 32 - bpd) eqn:Es.
    + apply Z.eqb_eq in Es. specialize (IH 0 0). rewrite Z.mod_0_l in IH by lia.
      specialize (IH ltac:(lia) eq_refl ltac:(cbn; lia)).
      destruct (collect dig s) as [ds|].
      * destruct IH as [v [t [H1 [H2 H3]]]]. rewrite H1. exists ((tmp + d * 2 ^ sh) :: v), t.
        split; [reflexivity|]. cbn [app].
        assert (HW : 2 ^ sh * 2 ^ bpd = W). { rewrite <- Z.pow_add_r by lia. subst sh. replace (32 - bpd + bpd) with 32 by lia. reflexivity. }
        split. { apply words_ok_cons. split; [nia|auto]. }
        rewrite nval_cons, H3, le_value_cons, Z.pow_0_r, <- HW. ring.
      * rewrite IH. reflexivity.
    + apply Z.eqb_neq in Es.
      assert (HS : 2 ^ (sh + bpd) = 2 ^ sh * 2 ^ bpd) by (apply Z.pow_add_r; lia).
      specialize (IH (sh + bpd) (tmp + d * 2 ^ sh)).
      assert (Hsh2 : 0 <= sh + bpd <= 32 - bpd).
      { apply Z.mod_divide in Hm; [|lia]. apply Z.mod_divide in Hdiv; [|lia].
        destruct Hm as [q1 ->]. destruct Hdiv as [q2 Hq2]. rewrite Hq2 in *. split; [lia|].
        assert (q1 < q2 - 1) by nia. nia. }
      specialize (IH Hsh2).
      assert (Hm2 : (sh + bpd) mod bpd = 0).
      { rewrite Z.add_mod, Hm, Z.mod_same by lia. rewrite Z.mod_0_l; lia. }
      specialize (IH Hm2). rewrite HS in IH. specialize (IH ltac:(nia)).
      destruct (collect dig s) as [ds|]; [|exact IH].
      destruct IH as [v [t [H1 [H2 H3]]]]. exists v, t. split; [exact H1|]. split; [exact H2|].
      rewrite H3, le_value_cons. ring.
Qed.

Lemma oct_parse_loop_spec s : forall i tmp, 0 <= i < 32 -> 0 <= tmp < 2 ^ i ->
  match collect oct_digit s with
  | None => oct_parse_loop i tmp s = None
  | Some ds => exists v t, oct_parse_loop i tmp s = Some (v, t) /\ words_ok (v ++ [t]) /\
      nval (v ++ [t]) = tmp + 2 ^ i * le_value 8 ds
  end.
Proof.
  induction s as [|c s IH]; intros i tmp Hi Ht; cbn [collect oct_parse_loop].
  - exists [], tmp. split; [reflexivity|]. cbn [app nval le_value fold_right].
    assert (2 ^ i <= 2 ^ 32) by (apply Z.pow_le_mono_r; lia). change (2 ^ 32) with W in *.
    split; [repeat constructor; lia|lia].
  - destruct (oct_digit c) as [d|] eqn:E; [|reflexivity].
    rewrite oct_digit_eq in E. apply digit_value_range in E; [|lia].
    pose proof (pow2_pos i ltac:(lia)) as Hp.
    destruct (32 <=? i + 3) eqn:Es.
    + apply Z.leb_le in Es.
      pose proof (pow2_pos (32 - i) ltac:(lia)) as Hp2.
      pose proof (Z.mod_pos_bound d (2 ^ (32 - i)) ltac:(lia)) as Hmb.
      pose proof (Z.div_mod d (2 ^ (32 - i)) ltac:(lia)) as Hdm.
      assert (HW : 2 ^ i * 2 ^ (32 - i) = W). { rewrite <- Z.pow_add_r by lia. replace (i + (32 - i)) with 32 by lia. reflexivity. }
      assert (H8 : 2 ^ (i + 3 - 32) * 2 ^ (32 - i) = 8). { rewrite <- Z.pow_add_r by lia. replace (i + 3 - 32 + (32 - i)) with 3 by lia. reflexivity. }
      replace (2 ^ (32 - i) - 1) with (Z.ones (32 - i)) by (rewrite Z.ones_equiv; lia).
      rewrite Z.land_comm, Z.land_ones by lia.
      assert (Hdb : 0 <= d / 2 ^ (32 - i) < 2 ^ (i + 3 - 32)).
      { split; [apply Z.div_pos; lia|]. apply Z.div_lt_upper_bound; nia. }
      specialize (IH (i + 3 - 32) (d / 2 ^ (32 - i)) ltac:(lia) Hdb).
      destruct (collect oct_digit s) as [ds|]; [|rewrite IH; reflexivity].
      destruct IH as [v [t [H1 [H2 H3]]]]. rewrite H1.
      eexists _, t. split; [reflexivity|]. cbn [app].
      split. { apply words_ok_cons. split; [nia|auto]. }
      rewrite nval_cons, H3, le_value_cons.
      rewrite <- HW. rewrite Hdm at 3.
      replace (2 ^ i * (2 ^ (32 - i) * (d / 2 ^ (32 - i)) + d mod 2 ^ (32 - i) + 8 * le_value 8 ds))
        with (2 ^ i * (2 ^ (32 - i) * (d / 2 ^ (32 - i)) + d mod 2 ^ (32 - i) + (2 ^ (i + 3 - 32) * 2 ^ (32 - i)) * le_value 8 ds))
        by (rewrite H8; reflexivity).
      ring.
    + apply Z.leb_gt in Es.
      assert (HS : 2 ^ (i + 3) = 2 ^ i * 8) by (rewrite Z.pow_add_r by lia; reflexivity).
      specialize (IH (i + 3) (tmp + d * 2 ^ i) ltac:(lia)). rewrite HS in IH. specialize (IH ltac:(nia)).
      destruct (collect oct_digit s) as [ds|]; [|exact IH].
      destruct IH as [v [t [H1 [H2 H3]]]]. exists v, t. split; [exact H1|]. split; [exact H2|].
      rewrite H3, le_value_cons. ring.
Qed.

Definition parsed (base : Z) (ds : list Z) : list Z :=
  match ds with [] => nan | _ => of_Z (be_value base ds) end.

Lemma finish_spec base s ds v t : collect (digit_value base) s = Some ds ->
  words_ok (v ++ [t]) -> nval (v ++ [t]) = le_value base (rev ds) -> (s = [] -> v = [] /\ t = 0) ->
  finish s (Some (v, t)) = Some (parsed base ds).
Proof.
  intros Hc Hw Hv Hs. unfold finish. f_equal.
  assert (Hl : length s = length ds) by (apply collect_text in Hc; eapply digit_text_length; eauto).
  destruct s as [|c s].
  - destruct (Hs eq_refl) as [-> ->]. destruct ds; [|discriminate Hl]. reflexivity.
  - assert (He : (if t >? 0 then v ++ [t] else v ++ [t]) = v ++ [t]) by (destruct (t >? 0); auto).
    rewrite He. destruct ds as [|d ds]; [discriminate Hl|]. unfold parsed.
    rewrite be_value_le, <- Hv. apply trim_of_Z; auto. destruct v; discriminate.
Qed.

Lemma from_pow2_spec dig base bpd s : base = 2 ^ bpd -> (forall c, dig c = digit_value base c) ->
  0 < bpd -> bpd <= 32 -> 32 mod bpd = 0 ->
  finish s (pow2_loop dig bpd 0 0 (rev s)) =
  option_map (parsed base) (collect (digit_value base) s).
Proof.
  intros Hbase Hd H1 H2 H3.
  pose proof (pow2_loop_spec dig bpd (rev s)) as H.
  assert (Hdig : forall c d, dig c = Some d -> 0 <= d < 2 ^ bpd).
  { intros c d E. rewrite Hd in E. rewrite <- Hbase. eapply digit_value_range; eauto.
    rewrite Hbase. pose proof (pow2_pos bpd). lia. }
  specialize (H Hdig H1 H2 H3 0 0 ltac:(lia) ltac:(apply Z.mod_0_l; lia) ltac:(cbn; lia)).
  rewrite (collect_ext _ _ _ Hd) in H. rewrite collect_rev in H.
  destruct (collect (digit_value base) s) as [ds|] eqn:E; cbn [option_map] in *.
  - destruct H as [v [t [K1 [K2 K3]]]]. rewrite K1. apply finish_spec; auto.
    + rewrite K3, Z.pow_0_r, <- Hbase. lia.
    + intros ->. cbn in K1. injection K1 as <- <-. auto.
  - rewrite H. reflexivity.
Qed.

Lemma from_oct_spec s : from_oct_str s = option_map (parsed 8) (collect (digit_value 8) s).
Proof.
  unfold from_oct_str. pose proof (oct_parse_loop_spec (rev s) 0 0 ltac:(lia) ltac:(cbn; lia)) as H.
  rewrite (collect_ext _ _ _ oct_digit_eq) in H. rewrite collect_rev in H.
  destruct (collect (digit_value 8) s) as [ds|] eqn:E; cbn [option_map] in *.
  - destruct H as [v [t [K1 [K2 K3]]]]. rewrite K1. apply finish_spec; auto.
    + rewrite K3, Z.pow_0_r. lia.
    + intros ->. cbn in K1. injection K1 as <- <-. auto.
  - rewrite H. reflexivity.
Qed.

Lemma dec_step_of_Z n d : 0 <= n -> 0 <= d < W -> dec_step (of_Z n) d = of_Z (10 * n + d).
Proof.
  intros Hn Hd. unfold dec_step, from_u32.
  assert (Hs : forall k, 0 <= k < 32 -> nat_shl (of_Z n) k = of_Z (n * 2 ^ k)).
  { intros k Hk. unfold nat_shl. rewrite op1_canon by (apply of_Z_canon; auto).
    destruct (Z.eq_dec n 0) as [->|E].
    - unfold shl_inner. rewrite (Z.div_small k 32), (Z.mod_small k 32) by lia.
      change (of_Z 0) with [0]. destruct (k >? 0) eqn:Ek; [|reflexivity].
      cbn [shl_bits]. rewrite Z.div_0_l by (pose proof (pow2_pos (32 - k) ltac:(lia)); lia). reflexivity.
    - apply shl_of_Z; lia. }
  rewrite !Hs by lia. change (2 ^ 3) with 8. change (2 ^ 1) with 2.
  unfold nat_add. rewrite <- (of_Z_small d) by lia.
  rewrite (op2_canon _ (of_Z (n * 8))) by (apply of_Z_canon; lia). rewrite add_of_Z by lia.
  rewrite op2_canon by (apply of_Z_canon; lia). rewrite add_of_Z by lia. f_equal. lia.
Qed.

Lemma dec_fold ds : digits_ok 10 ds -> forall n, 0 <= n ->
  fold_left dec_step ds (of_Z n) = of_Z (fold_left (fun acc d => acc * 10 + d) ds n).
Proof.
  intros H. induction H as [|d ds Hd H IH]; intros n Hn; [reflexivity|].
  cbn [fold_left]. rewrite dec_step_of_Z by lia. rewrite IH by lia. f_equal. f_equal. lia.
Qed.

Lemma collect_trim0 s : 
  match collect (digit_value 10) s with
  | None => collect (digit_value 10) (trim_start0 s) = None
  | Some ds => exists ds', collect (digit_value 10) (trim_start0 s) = Some ds' /\
                 be_value 10 ds' = be_value 10 ds
  end.
Proof.
  induction s as [|c s IH]; cbn [trim_start0].
  - exists []. auto.
  - destruct (Z.eqb_spec c 48) as [->|E].
    + cbn [collect]. change (digit_value 10 48) with (Some 0).
      destruct (collect (digit_value 10) s) as [ds|]; [|exact IH].
      destruct IH as [ds' [H1 H2]]. exists ds'. split; [auto|]. rewrite H2, be_value_cons. lia.
    + destruct (collect (digit_value 10) (c :: s)) as [ds|]; [|reflexivity]. exists ds. auto.
Qed.

Lemma from_dec_spec s : from_dec_str s = option_map (parsed 10) (collect (digit_value 10) s).
Proof.
  unfold from_dec_str. destruct s as [|c s]; [reflexivity|].
  pose proof (collect_trim0 (c :: s)) as H.
  destruct (collect (digit_value 10) (c :: s)) as [ds|] eqn:E.
  - destruct H as [ds' [H1 H2]]. cbn [option_map].
    assert (Hne : ds <> []).
    { apply collect_text, Forall2_length in E. destruct ds; [discriminate|discriminate]. }
    assert (Hp : parsed 10 ds = of_Z (be_value 10 ds)) by (destruct ds; [contradiction|reflexivity]).
    rewrite Hp. destruct (trim_start0 (c :: s)) as [|c' s'] eqn:Et.
    + cbn in H1. injection H1 as <-. rewrite <- H2. reflexivity.
    + rewrite (collect_ext _ _ _ dec_digit_eq), H1. f_equal.
      change (from_u32 0) with (of_Z 0). rewrite dec_fold; [|eapply digit_text_ok; [lia|apply collect_text; eauto]|lia].
      f_equal. exact H2.
  - cbn [option_map]. destruct (trim_start0 (c :: s)) as [|c' s']; [discriminate H|].
    rewrite (collect_ext _ _ _ dec_digit_eq), H. reflexivity.
Qed.

(** The string part of check_base. *)
Definition body_parse (r : option (list Z * Z)) : option (list Z) :=
  match r with
  | None => None
  | Some (s', b) =>
      if b =? 2 then from_bin_str s'
      else if b =? 8 then from_oct_str s'
      else if b =? 10 then from_dec_str s'
      else from_hex_str s'
  end.

Lemma body_parse_spec s b : b = 2 \/ b = 8 \/ b = 10 \/ b = 16 ->
  body_parse (Some (s, b)) = option_map (parsed b) (collect (digit_value b) s).
Proof.
  intros [->|[->|[->| ->]]]; unfold body_parse; cbn [Z.eqb Pos.eqb]; cbv iota.
  - unfold from_bin_str. apply from_pow2_spec; try lia; try reflexivity. exact bin_digit_eq.
  - apply from_oct_spec.
  - apply from_dec_spec.
  - unfold from_hex_str. apply from_pow2_spec; try lia; try reflexivity. exact hex_digit_eq.
Qed.

Lemma check_base_skip pre s : Forall (fun c => c = 43 \/ c = 32) pre ->
  check_base (pre ++ s) = check_base s.
Proof.
  intros H. induction H as [|c pre Hc H IH]; [reflexivity|]. cbn [app check_base].
  destruct Hc as [->| ->]; cbn; exact IH.
Qed.

Lemma digit10_char c d : digit_value 10 c = Some d -> 48 <= c <= 57 /\ d = c - 48.
Proof.
  unfold digit_value. boolcases; intros H'; injection H' as <-; lia.
Qed.

(** Completeness: documented texts parse to their value. *)
Lemma parse_complete t base ds : numeral_text t base ds ->
  body_parse (check_base t) = Some (parsed base ds).
Proof.
  intros H. destruct H as [pre s ds Hpre Htxt Hne Hld|pre c base s ds Hpre Hc Htxt].
  - rewrite check_base_skip by auto.
    destruct Htxt as [|c d s ds Hcd Htxt]; [contradiction|].
    destruct (digit10_char c d Hcd) as [Hc Hd].
    assert (Hcb : check_base (c :: s) = Some (c :: s, 10)).
    { cbn [check_base].
      destruct (Z.eqb_spec c 43); [lia|]. destruct (Z.eqb_spec c 32); [lia|]. cbn [orb].
      destruct (Z.leb_spec 48 c); [|lia]. destruct (Z.leb_spec c 57); [|lia]. cbn [andb].
      destruct s as [|x u]; [reflexivity|]. destruct (Z.eqb_spec c 48) as [E|E]; [|reflexivity].
      exfalso. destruct Hld as [Hl|Hl].
      - inversion Htxt; subst. cbn in Hl. lia.
      - cbn [hd] in Hl. lia. }
    rewrite Hcb, body_parse_spec by auto.
    assert (Hcol : collect (digit_value 10) (c :: s) = Some (d :: ds)) by (apply collect_text; constructor; auto).
    rewrite Hcol. reflexivity.
  - rewrite check_base_skip by auto.
    assert (Hcb : check_base (48 :: c :: s) = Some (s, base)).
    { destruct Hc as [[-> [->| ->]]|[[-> [->| ->]]|[-> ->]]]; reflexivity. }
    rewrite Hcb, body_parse_spec.
    + apply collect_text in Htxt. rewrite Htxt. reflexivity.
    + destruct Hc as [[-> _]|[[-> _]|[-> _]]]; auto.
Qed.

(** Soundness: everything that parses is a documented text. *)
Lemma parse_sound t v : body_parse (check_base t) = Some v ->
  exists base ds, numeral_text t base ds /\ v = parsed base ds.
Proof.
  induction t as [|c t IH]; [discriminate|]. cbn [check_base].
  destruct ((c =? 43) || (c =? 32)) eqn:E1.
  - intros H. destruct (IH H) as [base [ds [Hn Hv]]]. exists base, ds. split; [|auto].
    assert (Hc : c = 43 \/ c = 32) by (apply orb_true_iff in E1; destruct E1 as [E|E]; apply Z.eqb_eq in E; auto).
    destruct Hn as [pre s ds Hpre Htxt Hne Hld|pre c2 base s ds Hpre Hc2 Htxt].
    + change (c :: pre ++ s) with ((c :: pre) ++ s). constructor; auto.
    + change (c :: pre ++ 48 :: c2 :: s) with ((c :: pre) ++ 48 :: c2 :: s). constructor; auto.
  - destruct ((48 <=? c) && (c <=? 57)) eqn:E2; [|discriminate].
    apply andb_true_iff in E2. destruct E2 as [Ha Hb]. apply Z.leb_le in Ha, Hb.
    assert (Hdec : forall s, body_parse (Some (s, 10)) = Some v -> s <> [] ->
       (length s = 1%nat \/ hd 0 s <> 48) ->
       exists base ds, numeral_text s base ds /\ v = parsed base ds).
    { intros s H Hs Hld. rewrite body_parse_spec in H by auto.
      destruct (collect (digit_value 10) s) as [ds|] eqn:E; [|discriminate]. injection H as <-.
      exists 10, ds. split; [|reflexivity]. apply collect_text in E.
      apply (nt_dec [] s ds); [constructor|exact E| |].
      - apply Forall2_length in E. intros ->. destruct s; [contradiction|discriminate].
      - destruct Hld as [Hl|Hl]; [left; rewrite <- (Forall2_length _ _ _ E); auto|right].
        destruct E as [|c0 d0 s0 ds0 Hcd E]; [contradiction|]. cbn [hd] in *.
        apply digit10_char in Hcd. lia. }
    destruct t as [|x u].
    + intros H. apply Hdec; auto; discriminate.
    + destruct (Z.eqb_spec c 48) as [->|Ec].
      * assert (Hpre : forall b, (b = 16 /\ (x = 120 \/ x = 88)) \/ (b = 2 /\ (x = 98 \/ x = 66)) \/ (b = 8 /\ x = 111) ->
          body_parse (Some (u, b)) = Some v -> exists base ds, numeral_text (48 :: x :: u) base ds /\ v = parsed base ds).
        { intros b Hb2 H. rewrite body_parse_spec in H by (destruct Hb2 as [[-> _]|[[-> _]|[-> _]]]; auto).
          destruct (collect (digit_value b) u) as [ds|] eqn:E; [|discriminate]. injection H as <-.
          exists b, ds. split; [|reflexivity]. apply (nt_prefix [] x b u ds); [constructor|exact Hb2|].
          apply collect_text; auto. }
        destruct (Z.eqb_spec x 111) as [->|?]; [intros H; apply (Hpre 8); auto|].
        destruct ((x =? 98) || (x =? 66)) eqn:Ex.
        { intros H. apply (Hpre 2); auto. right; left. split; auto.
          apply orb_true_iff in Ex. destruct Ex as [Ex|Ex]; apply Z.eqb_eq in Ex; auto. }
        destruct ((x =? 120) || (x =? 88)) eqn:Ex2.
        { intros H. apply (Hpre 16); auto. left. split; auto.
          apply orb_true_iff in Ex2. destruct Ex2 as [Ex2|Ex2]; apply Z.eqb_eq in Ex2; auto. }
        discriminate.
      * intros H. apply Hdec; auto. discriminate.
Qed.

(** Trimming of white space. *)
Definition trimmed (s t : list Z) : Prop :=
  exists w1 w2, s = w1 ++ t ++ w2 /\ Forall (fun c => is_ws c = true) w1 /\
    Forall (fun c => is_ws c = true) w2 /\
    (t = [] \/ (is_ws (hd 0 t) = false /\ is_ws (last t 0) = false)).

Lemma trim_start_ws_app w t : Forall (fun c => is_ws c = true) w ->
  trim_start_ws (w ++ t) = trim_start_ws t.
Proof. intros H. induction H as [|c w Hc H IH]; [reflexivity|]. cbn [app trim_start_ws]. rewrite Hc. auto. Qed.
Lemma trim_start_ws_id t : is_ws (hd 0 t) = false -> trim_start_ws t = t.
Proof. destruct t as [|c t]; [reflexivity|]. cbn [hd trim_start_ws]. intros ->. reflexivity. Qed.

Lemma hd_app_l (t w : list Z) : t <> [] -> hd 0 (t ++ w) = hd 0 t.
Proof. destruct t; [congruence|reflexivity]. Qed.

Lemma trim_ws_spec s t : trimmed s t -> trim_ws s = t.
Proof.
  intros [w1 [w2 [-> [H1 [H2 Ht]]]]]. unfold trim_ws. rewrite trim_start_ws_app by auto.
  destruct Ht as [->|[Ha Hb]].
  - cbn [app]. rewrite <- (app_nil_r w2), trim_start_ws_app by auto. reflexivity.
  - destruct t as [|c t]; [cbn [app]; rewrite <- (app_nil_r w2), trim_start_ws_app by auto; reflexivity|].
    rewrite (trim_start_ws_id ((c :: t) ++ w2)) by exact Ha.
    rewrite rev_app_distr, trim_start_ws_app by (apply Forall_rev; auto).
    rewrite trim_start_ws_id by (rewrite hd_rev_last; auto). apply rev_involutive.
Qed.

Lemma trim_start_ws_split s : exists w, s = w ++ trim_start_ws s /\ Forall (fun c => is_ws c = true) w /\
  (trim_start_ws s = [] \/ is_ws (hd 0 (trim_start_ws s)) = false).
Proof.
  induction s as [|c s [w [H1 [H2 H3]]]].
  - exists []. auto.
  - cbn [trim_start_ws]. destruct (is_ws c) eqn:E.
    + exists (c :: w). cbn [app]. rewrite <- H1. auto.
    + exists []. cbn [app hd]. auto.
Qed.

Lemma trimmed_exists s : exists t, trimmed s t.
Proof.
  destruct (trim_start_ws_split s) as [w [H1 [H2 H3]]]. set (u := trim_start_ws s) in *.
  destruct (trim_start_ws_split (rev u)) as [w' [K1 [K2 K3]]]. set (x := trim_start_ws (rev u)) in *.
  exists (rev x), w, (rev w').
  assert (Hu : u = rev x ++ rev w') by (rewrite <- rev_app_distr, <- K1, rev_involutive; auto).
  split; [rewrite H1 at 1; rewrite Hu at 1; reflexivity|]. split; [auto|].
  split; [apply Forall_rev; auto|].
  destruct x as [|c x]; [left; reflexivity|right].
  destruct K3 as [K3|K3]; [discriminate|]. cbn [hd] in K3.
  destruct H3 as [H3|H3].
  - rewrite H3 in Hu. symmetry in Hu. apply app_eq_nil in Hu. destruct Hu as [Hu _].
    apply (f_equal (@length Z)) in Hu. rewrite rev_length in Hu. discriminate.
  - split.
    + rewrite Hu, hd_app_l in H3; auto.
      intros E. apply (f_equal (@length Z)) in E. rewrite rev_length in E. discriminate.
    + rewrite <- hd_rev_last, rev_involutive. auto.
Qed.

Lemma nat_from_str_body s t : trimmed s t -> nat_from_str s = body_parse (check_base t).
Proof. intros H. unfold nat_from_str. rewrite (trim_ws_spec s t H). reflexivity. Qed.

Lemma nat_from_str_complete s t base ds : trimmed s t -> numeral_text t base ds ->
  nat_from_str s = Some (parsed base ds).
Proof. intros H1 H2. rewrite (nat_from_str_body s t H1). apply parse_complete; auto. Qed.
Lemma nat_from_str_sound s v : nat_from_str s = Some v ->
  exists t base ds, trimmed s t /\ numeral_text t base ds /\ v = parsed base ds.
Proof.
  intros H. destruct (trimmed_exists s) as [t Ht]. rewrite (nat_from_str_body s t Ht) in H.
  destruct (parse_sound t v H) as [base [ds [H1 H2]]]. exists t, base, ds. auto.
Qed.

Lemma parsed_rep base ds : 0 < base -> digits_ok base ds -> ds <> [] ->
  represents (parsed base ds) (be_value base ds).
Proof.
  intros Hb Hd Hn. destruct ds as [|d ds]; [contradiction|]. unfold parsed. apply rep_of_Z.
  apply be_value_bound; auto.
Qed.

(* ------------------------------------------------------------------ *)
(** * Round trip *)

Lemma chars_digit_text (chr : Z -> Z) base ds :
  (forall d, 0 <= d < base -> digit_value base (chr d) = Some d) ->
  digits_ok base ds -> digit_text base (map chr ds) ds.
Proof. intros Hc H. induction H; constructor; auto. Qed.

Lemma lchar_digit base d : base <= 16 -> 0 <= d < base -> digit_value base (lchar d) = Some d.
Proof.
  intros Hb Hd. unfold lchar. destruct (Z.ltb_spec d 10); unfold digit_value; boolcases.
Qed.
Lemma uchar_digit base d : base <= 16 -> 0 <= d < base -> digit_value base (uchar d) = Some d.
Proof.
  intros Hb Hd. unfold uchar. destruct (Z.ltb_spec d 10); unfold digit_value; boolcases.
Qed.

Lemma is_ws_chr c : 48 <= c <= 122 -> is_ws c = false.
Proof.
  intros Hc. unfold is_ws. boolcases.
Qed.

Lemma Forall_last (P : Z -> Prop) l : Forall P l -> l <> [] -> P (last l 0).
Proof.
  intros H Hn. destruct (exists_last Hn) as [l' [x ->]]. rewrite last_last.
  apply Forall_app in H. destruct H as [_ H]. inversion H; auto.
Qed.

Lemma trimmed_self t : Forall (fun c => 48 <= c <= 122) t -> trimmed t t.
Proof.
  intros H. exists [], []. cbn [app]. rewrite app_nil_r. split; [auto|].
  split; [constructor|]. split; [constructor|].
  destruct t as [|c t]; [auto|right]. split.
  - inversion H; subst. apply is_ws_chr; auto.
  - apply is_ws_chr. apply (Forall_last (fun c => 48 <= c <= 122)); auto. discriminate.
Qed.

Lemma chr_range chr base ds : (forall d, 0 <= d < base -> 48 <= chr d <= 122) -> digits_ok base ds ->
  Forall (fun c => 48 <= c <= 122) (map chr ds).
Proof. intros Hc H. induction H; constructor; auto. Qed.

Lemma lchar_range d : 0 <= d < 16 -> 48 <= lchar d <= 122.
Proof. intros H. unfold lchar. destruct (Z.ltb_spec d 10); lia. Qed.
Lemma uchar_range d : 0 <= d < 16 -> 48 <= uchar d <= 122.
Proof. intros H. unfold uchar. destruct (Z.ltb_spec d 10); lia. Qed.

Lemma parsed_canon base ds a : canon a -> ds <> [] -> be_value base ds = nval a -> parsed base ds = a.
Proof.
  intros Ha Hn Hv. destruct ds; [contradiction|]. unfold parsed. rewrite Hv. apply of_Z_nval; auto.
Qed.

Lemma roundtrip_prefix chr base c s a : canon a -> 1 < base <= 16 ->
  (forall d, 0 <= d < base -> digit_value base (chr d) = Some d) ->
  (forall d, 0 <= d < base -> 48 <= chr d <= 122) ->
  prefix_base c base -> 48 <= c <= 122 ->
  is_numeral chr base s (nval a) -> nat_from_str (48 :: c :: s) = Some a.
Proof.
  intros Ha Hb Hd Hr Hc Hcr [ds [-> [Hok [Hv [Hn Hld]]]]].
  rewrite (nat_from_str_complete _ (48 :: c :: map chr ds) base ds).
  - f_equal. apply parsed_canon; auto.
  - apply trimmed_self. constructor; [lia|]. constructor; [lia|]. apply (chr_range chr base); auto.
  - apply (nt_prefix [] c base (map chr ds) ds); [constructor|auto|]. apply chars_digit_text; auto.
Qed.

Lemma roundtrip_dec s a : canon a -> is_numeral lchar 10 s (nval a) -> nat_from_str s = Some a.
Proof.
  intros Ha [ds [-> [Hok [Hv [Hn Hld]]]]].
  rewrite (nat_from_str_complete _ (map lchar ds) 10 ds).
  - f_equal. apply parsed_canon; auto.
  - apply trimmed_self. apply (chr_range lchar 10); auto. intros d H. apply lchar_range. lia.
  - apply (nt_dec [] (map lchar ds) ds); [constructor| |auto|auto].
    apply chars_digit_text; auto. intros d H. apply lchar_digit; lia.
Qed.
