(** [mul_by_karatsuba], [sqr_v] and their helpers compute the product. *)
From Coq Require Import ZArith List Lia Bool PeanoNat.
From Verif Require Import Words WordsFacts NatModel NatFacts NatFacts2 VecPrims VecFacts Karatsuba KaraFacts.
Import ListNotations.
Open Scope Z_scope.

Lemma karatsuba_len_loop_spec th N : (1 <= th)%nat -> forall f n i, (0 < n)%nat -> (n * 2 ^ i <= N)%nat ->
  (0 < karatsuba_len_loop f n i th <= N)%nat.
Proof.
  intros Ht. induction f as [|f IH]; intros n i Hn Hi; cbn [karatsuba_len_loop].
  - pose proof (Nat.pow_nonzero 2 i ltac:(lia)). split; [|auto]. apply Nat.mul_pos_pos; lia.
  - destruct (Nat.ltb_spec th n) as [L|L].
    + assert (D : (n / 2 * 2 <= n)%nat) by (pose proof (Nat.mul_div_le n 2 ltac:(lia)); lia).
      apply IH; [apply Nat.div_str_pos; lia|].
      replace (n / 2 * 2 ^ S i)%nat with (n / 2 * 2 * 2 ^ i)%nat by (cbn [Nat.pow]; lia).
      eapply Nat.le_trans; [|exact Hi]. apply Nat.mul_le_mono_r. auto.
    + pose proof (Nat.pow_nonzero 2 i ltac:(lia)). split; [|auto]. apply Nat.mul_pos_pos; lia.
Qed.
Lemma karatsuba_len_spec n th : (1 <= th)%nat -> (0 < n)%nat -> (0 < karatsuba_len n th <= n)%nat.
Proof. intros. apply karatsuba_len_loop_spec; auto. cbn [Nat.pow]. lia. Qed.

Lemma add_at_spec z x i : words_ok z -> words_ok x -> (i + length x <= length z)%nat ->
  exists r, add_at z x i = Ok r /\ words_ok r /\ length r = length z /\
    nval r = (nval z + Wp i * nval x) mod Wp (length z).
Proof.
  intros Wz Wx Hl. destruct x as [|x0 xs] eqn:Ex.
  { exists z. cbn [nval]. split; [reflexivity|]. split; [auto|]. split; [auto|].
    rewrite Z.mul_0_r, Z.add_0_r. symmetry. apply Z.mod_small, nval_bound. auto. }
  unfold add_at. rewrite <- Ex in *. assert (Hx : (0 < length x)%nat) by (rewrite Ex; cbn; lia). clear x0 xs Ex.
  destruct (split_len z i) as (a & z' & -> & La); [lia|]. rewrite app_length in *.
  destruct (split_len z' (length x)) as (b & c & -> & Lb); [lia|]. rewrite app_length in *.
  apply words_ok_app in Wz as [Wa Wz]. apply words_ok_app in Wz as [Wb Wc].
  rewrite rd_app by lia. cbn [bind].
  pose proof (add_vv_spec b x Wb Wx ltac:(lia)) as (E1 & E2 & E3 & E4).
  destruct (add_vv b x) as [s cy]. cbn [fst snd] in *.
  rewrite wr_app by lia. cbn [bind]. rewrite !nval_app, La.
  destruct (Z.eqb_spec cy 0) as [->|N].
  - exists (a ++ s ++ c). split; [auto|]. split; [repeat apply words_app; auto|].
    split; [rewrite !app_length; lia|].
    replace (nval a + Wp i * (nval b + Wp (length b) * nval c) + Wp i * nval x)
      with (nval (a ++ s ++ c)) by (rewrite !nval_app, E3, La; nia).
    symmetry. apply Z.mod_small.
    pose proof (nval_bound (a ++ s ++ c) ltac:(repeat apply words_app; auto)) as B.
    rewrite !app_length, E3, La in B. exact B.
  - assert (cy = 1) as -> by lia. rewrite !app_length.
    destruct (Nat.ltb_spec (i + length x) (length a + (length s + length c))) as [J|J].
    + replace (length a + (length s + length c) - (i + length x))%nat with (length c) by lia.
      replace (a ++ s ++ c) with ((a ++ s) ++ c ++ []) by (rewrite app_nil_r, <- app_assoc; auto).
      rewrite rd_app by (rewrite ?app_length; lia). cbn [bind].
      pose proof (add_vw_spec c 1 Wc ltac:(lia)) as (F1 & F2 & F3 & F4 & F5).
      destruct (add_vw c 1) as [s2 c2]. cbn [fst snd] in *.
      rewrite wr_app by (rewrite ?app_length; lia).
      exists ((a ++ s) ++ s2 ++ []). rewrite app_nil_r, <- app_assoc.
      split; [auto|]. split; [repeat apply words_app; auto|].
      split; [rewrite !app_length; lia|].
      pose proof (nval_bound (a ++ s ++ s2) ltac:(repeat apply words_app; auto)) as B.
      rewrite !app_length, La, E3, F3 in B.
      apply (Z.mod_unique_pos _ _ c2); [exact B|]. rewrite !nval_app, La, E3, !Wp_add. nia.
    + assert (c = []) as -> by (destruct c; [auto|cbn [length] in *; lia]).
      exists (a ++ s ++ []). rewrite app_nil_r.
      split; [auto|]. split; [repeat apply words_app; auto|]. cbn [length]. split; [rewrite !app_length; lia|].
      pose proof (nval_bound (a ++ s) ltac:(repeat apply words_app; auto)) as B.
      rewrite !app_length, La, E3 in B. rewrite Nat.add_0_r.
      apply (Z.mod_unique_pos _ _ 1); [exact B|]. rewrite !nval_app, La, !Wp_add. cbn [nval]. nia.
Qed.

Lemma drop_zeros_len l : (length (drop_zeros l) <= length l)%nat.
Proof.
  induction l as [|x l IH]; [auto|]. cbn [drop_zeros]. destruct (drop_zeros l) eqn:E.
  - destruct (x =? 0); cbn [length] in *; lia.
  - cbn [length] in *. lia.
Qed.
Lemma trim_len l : (length (trim l) <= length l)%nat.
Proof. destruct l as [|x l]; [auto|]. cbn [trim length]. pose proof (drop_zeros_len l). lia. Qed.

(** What [mul_by_karatsuba] promises for operands of total length at most F. *)
Definition mul_ok (mk : list Z -> list Z -> res (list Z)) (F : nat) : Prop :=
  forall a b, words_ok a -> words_ok b -> (length a + length b <= F)%nat ->
  exists r, mk a b = Ok r /\ words_ok r /\ nval r = nval a * nval b /\ (length r <= length a + length b)%nat /\
    (a <> [] -> b <> [] -> canon r).

Lemma kchunks_spec mk F k y0 y1 : mul_ok mk F -> (0 < k)%nat -> (length y0 <= k)%nat ->
  (k + length y1 <= F)%nat -> (2 * k <= F)%nat -> words_ok y0 -> words_ok y1 ->
  forall fuel xs i z, (length xs <= fuel)%nat -> words_ok xs -> words_ok z ->
  ((0 < length xs)%nat -> (i + length xs + k + length y1 <= length z)%nat) ->
  exists r, kchunks mk fuel k i xs y0 y1 z = Ok r /\ words_ok r /\ length r = length z /\
    nval r = (nval z + Wp i * nval xs * (nval y0 + Wp k * nval y1)) mod Wp (length z).
Proof.
  intros Hmk Hk Hy0 HF HF2 Wy0 Wy1. induction fuel as [|fuel IH]; intros xs i z Hf Wxs Wz Hl.
  - assert (xs = []) as -> by (destruct xs; [auto|cbn [length] in *; lia]). cbn [kchunks].
    exists z. split; [auto|]. split; [auto|]. split; [auto|]. cbn [nval].
    rewrite Z.mul_0_r, Z.mul_0_l, Z.add_0_r. symmetry. apply Z.mod_small, nval_bound. auto.
  - destruct xs as [|w ws] eqn:Exs.
    { exists z. split; [auto|]. split; [auto|]. split; [auto|]. cbn [nval].
      rewrite Z.mul_0_r, Z.mul_0_l, Z.add_0_r. symmetry. apply Z.mod_small, nval_bound. auto. }
    cbn [kchunks]. rewrite <- Exs in *.
    assert (Hx : (0 < length xs)%nat) by (rewrite Exs; cbn; lia). clear w ws Exs. specialize (Hl Hx).
    pose proof (drop_zeros_len (firstn k xs)) as DL. rewrite firstn_length in DL.
    set (xi := drop_zeros (firstn k xs)) in *.
    assert (Wxi : words_ok xi) by (apply drop_zeros_words, words_ok_firstn; auto).
    assert (Vxi : nval xi = nval (firstn k xs)) by apply drop_zeros_val.
    destruct (Hmk xi y0 Wxi Wy0 ltac:(lia)) as (t1 & A1 & A2 & A3 & A4 & _). rewrite A1. cbn [bind].
    destruct (add_at_spec z t1 i Wz A2 ltac:(lia)) as (z1 & B1 & B2 & B3 & B4). rewrite B1. cbn [bind].
    destruct (Hmk xi y1 Wxi Wy1 ltac:(lia)) as (t2 & C1 & C2 & C3 & C4 & _). rewrite C1. cbn [bind].
    destruct (add_at_spec z1 t2 (i + k) B2 C2 ltac:(lia)) as (z2 & D1 & D2 & D3 & D4). rewrite D1. cbn [bind].
    destruct (IH (skipn k xs) (i + k)%nat z2) as (r & E1 & E2 & E3 & E4); auto using words_ok_skipn.
    { rewrite skipn_length. lia. }
    { rewrite skipn_length. lia. }
    exists r. split; [auto|]. split; [auto|]. split; [lia|].
    rewrite E4, D4, D3, B4, B3, Zplus_mod_idemp_l, <- Z.add_assoc, Zplus_mod_idemp_l.
    f_equal. rewrite A3, C3, Vxi, (nval_split k xs Wxs), Wp_add. ring.
Qed.

Lemma mul_add_ww_spec x d : words_ok x -> x <> [] -> 0 <= d < W ->
  canon (mul_add_ww x d 0) /\ nval (mul_add_ww x d 0) = nval x * d /\
  (length (mul_add_ww x d 0) <= length x + 1)%nat.
Proof.
  intros Wx Nx Hd. unfold mul_add_ww. destruct x as [|a x0] eqn:Ex; [congruence|].
  rewrite <- Ex in *. assert (is_nan x = false) as -> by (rewrite Ex; reflexivity). clear Ex.
  cbn [orb]. destruct (Z.eqb_spec d 0) as [->|N].
  - cbn [nval]. split; [apply canon_single; lia|]. split; [lia|]. cbn. lia.
  - pose proof (mul_add_vww_spec x d 0 Wx Hd ltac:(lia)) as (E1 & E2 & E3 & E4).
    destruct (mul_add_vww x d 0) as [l c]. cbn [fst snd] in *.
    assert (Wl : words_ok (l ++ [c])) by (apply words_app; auto; repeat constructor; lia).
    split; [apply trim_canon; auto; destruct l; discriminate|].
    rewrite trim_val, nval_app, E3. cbn [nval]. split; [nia|].
    pose proof (trim_len (l ++ [c])) as T. rewrite app_length in T. cbn [length] in T. lia.
Qed.

Lemma clean_spec z len k2 : words_ok z -> (k2 <= len)%nat -> (k2 <= length z)%nat ->
  words_ok (clean z len k2) /\ length (clean z len k2) = len /\ nval (clean z len k2) = nval (firstn k2 z).
Proof.
  intros Wz H1 H2. unfold clean. split; [apply words_app; auto using words_ok_firstn, words_ok_repeat0|].
  split; [rewrite app_length, firstn_length_le, repeat_length by lia; lia|].
  rewrite nval_app, nval_repeat0. lia.
Qed.

Lemma nonnil_len (l : list Z) : l <> [] <-> (0 < length l)%nat.
Proof. destruct l; cbn; split; intros; try congruence; lia. Qed.

Lemma mul_sorted_spec f x y : mul_ok (mul_by_karatsuba f) f ->
  words_ok x -> words_ok y -> (length y <= length x)%nat -> (length x + length y <= S f)%nat ->
  exists r, mul_by_karatsuba (S f) x y = Ok r /\ words_ok r /\ nval r = nval x * nval y /\
    (length r <= length x + length y)%nat /\ (x <> [] -> y <> [] -> canon r).
Proof.
  intros IH Wx Wy Hxy Hf. cbn [mul_by_karatsuba].
  assert ((length x <? length y)%nat = false) as -> by (apply Nat.ltb_ge; auto).
  destruct y as [|d y'] eqn:Ey.
  { exists []. split; [auto|]. split; [constructor|]. split; [cbn [nval]; lia|]. cbn. split; [lia|congruence]. }
  destruct y' as [|d2 y''].
  { apply words_ok_cons in Wy as [Hd _]. cbn [length] in *.
    assert (Nx : x <> []) by (apply nonnil_len; lia).
    destruct (mul_add_ww_spec x d Wx Nx Hd) as (A1 & A2 & A3).
    exists (mul_add_ww x d 0). split; [auto|]. split; [apply canon_words; auto|]. split; [rewrite A2; cbn [nval]; ring|].
    split; [lia|auto]. }
  rewrite <- Ey in *. assert (Hn : (2 <= length y)%nat) by (rewrite Ey; cbn; lia).
  assert (Ny : y <> []) by (apply nonnil_len; lia). assert (Nx : x <> []) by (apply nonnil_len; lia).
  set (m := length x) in *. set (n := length y) in *.
  assert (Fin : forall z, words_ok z -> length z = (m + n)%nat -> nval z = nval x * nval y ->
    exists r, Ok (trim z) = Ok r /\ words_ok r /\ nval r = nval x * nval y /\ (length r <= m + n)%nat /\
      (x <> [] -> y <> [] -> canon r)).
  { intros z Wz Lz Vz. exists (trim z). split; [auto|]. split; [apply trim_words; auto|].
    split; [rewrite trim_val; auto|]. pose proof (trim_len z). split; [lia|]. intros _ _.
    apply trim_canon; auto. apply nonnil_len. lia. }
  destruct (Nat.ltb_spec n KARATSUBA_THRESHOLD) as [T|T].
  { destruct (basic_mul_spec (repeat 0 (m + n)) x y Wx Wy) as (p & P1 & P2 & P3 & P4).
    { rewrite repeat_length. fold m n. lia. }
    fold m n in P1, P3. rewrite P1. cbn [bind].
    rewrite skipn_all2 in * by (rewrite repeat_length; lia). rewrite app_nil_r in *. apply Fin; auto. }
  pose proof (karatsuba_len_spec n KARATSUBA_THRESHOLD ltac:(unfold KARATSUBA_THRESHOLD; lia) ltac:(lia)) as Hk.
  set (k := karatsuba_len n KARATSUBA_THRESHOLD) in *.
  assert (Lx0 : length (firstn k x) = k) by (apply firstn_length_le; lia).
  assert (Ly0 : length (firstn k y) = k) by (apply firstn_length_le; lia).
  destruct (karatsuba_spec k (repeat 0 (Nat.max (6 * k) (m + n))) (firstn k x) (firstn k y)) as (z0 & K1 & K2 & K3 & K4);
    auto using words_ok_firstn, words_ok_repeat0; try lia.
  { rewrite repeat_length. lia. }
  rewrite K1. cbn [bind]. rewrite Ly0 in K4. rewrite repeat_length in K3.
  destruct (clean_spec z0 (m + n) (2 * k) K2 ltac:(lia) ltac:(lia)) as (C1 & C2 & C3).
  set (z1 := clean z0 (m + n) (2 * k)) in *. rewrite K4 in C3.
  destruct ((k <? n)%nat || negb (m =? n)%nat) eqn:Ec.
  - assert (Hkn : (2 * k <= f)%nat).
    { apply orb_true_iff in Ec as [Ec|Ec]; [apply Nat.ltb_lt in Ec; lia|].
      apply negb_true_iff, Nat.eqb_neq in Ec. lia. }
    pose proof (drop_zeros_len (firstn k x)) as DL. pose proof (drop_zeros_len (firstn k y)) as DL2.
    assert (Wx0 : words_ok (drop_zeros (firstn k x))) by (apply drop_zeros_words, words_ok_firstn; auto).
    assert (Wy0 : words_ok (drop_zeros (firstn k y))) by (apply drop_zeros_words, words_ok_firstn; auto).
    assert (Wy1 : words_ok (skipn k y)) by (apply words_ok_skipn; auto).
    assert (Ly1 : length (skipn k y) = (n - k)%nat) by apply skipn_length.
    destruct (IH (drop_zeros (firstn k x)) (skipn k y) Wx0 Wy1 ltac:(lia)) as (t & T1 & T2 & T3 & T4 & _).
    rewrite T1. cbn [bind].
    destruct (add_at_spec z1 t k C1 T2 ltac:(lia)) as (z2 & A1 & A2 & A3 & A4). rewrite A1. cbn [bind].
    destruct (kchunks_spec (mul_by_karatsuba f) f k (drop_zeros (firstn k y)) (skipn k y) IH ltac:(lia) ltac:(lia) ltac:(lia) Hkn Wy0 Wy1
      m (skipn k x) k z2) as (z3 & B1 & B2 & B3 & B4); auto using words_ok_skipn.
    { rewrite skipn_length. fold m. lia. }
    { rewrite skipn_length. fold m. lia. }
    rewrite B1. cbn [bind]. apply Fin; [auto|lia|].
    rewrite B4, A4, A3, C2, Zplus_mod_idemp_l, C3, T3, !drop_zeros_val.
    pose proof (nval_split k x Wx) as PX. pose proof (nval_split k y Wy) as PY.
    match goal with |- ?e mod _ = ?r => replace e with r by (rewrite PX, PY; ring) end.
    apply Z.mod_small.
    pose proof (nval_bound x Wx) as BX. pose proof (nval_bound y Wy) as BY. rewrite Wp_add. fold m in BX. fold n in BY. nia.
  - apply orb_false_elim in Ec as [E1 E2]. apply Nat.ltb_ge in E1. apply negb_false_iff, Nat.eqb_eq in E2.
    cbn [bind]. apply Fin; auto. rewrite C3. rewrite !firstn_all2 by (fold m n; lia). reflexivity.
Qed.

Lemma mul_by_karatsuba_swap f x y : (length x < length y)%nat -> mul_by_karatsuba f x y = mul_by_karatsuba f y x.
Proof.
  intros H. destruct f; cbn [mul_by_karatsuba];
  (assert ((length x <? length y)%nat = true) as -> by (apply Nat.ltb_lt; auto));
  (assert ((length y <? length x)%nat = false) as -> by (apply Nat.ltb_ge; lia)); reflexivity.
Qed.

Lemma mul_by_karatsuba_spec : forall f, mul_ok (mul_by_karatsuba f) f.
Proof.
  induction f as [|f IH].
  - intros a b Wa Wb Hl. destruct a, b; cbn [length] in Hl; try lia. exists [].
    split; [reflexivity|]. split; [constructor|]. split; [reflexivity|]. split; [auto|congruence].
  - intros a b Wa Wb Hl. destruct (Nat.le_gt_cases (length b) (length a)) as [H|H].
    + apply mul_sorted_spec; auto.
    + rewrite mul_by_karatsuba_swap by auto.
      destruct (mul_sorted_spec f b a IH Wb Wa ltac:(lia) ltac:(lia)) as (r & R1 & R2 & R3 & R4 & R5).
      exists r. split; [auto|]. split; [auto|]. split; [lia|]. split; [lia|auto].
Qed.

Lemma mul_karatsuba_of_Z a b : canon a -> canon b -> mul_karatsuba a b = Ok (of_Z (nval a * nval b)).
Proof.
  intros Ha Hb. unfold mul_karatsuba.
  destruct (mul_by_karatsuba_spec (length a + length b) a b (canon_words a Ha) (canon_words b Hb) ltac:(lia))
    as (r & R1 & R2 & R3 & R4 & R5).
  rewrite R1. cbn [bind]. specialize (R5 (canon_nonnil a Ha) (canon_nonnil b Hb)).
  rewrite trim_canon_id by auto. f_equal. apply of_Z_unique; auto.
Qed.

(* ------------------------------------------------------------------ *)
(** * Squaring *)
Lemma mul_ww_spec d : 0 <= d < W ->
  fst (mul_ww d d) * W + snd (mul_ww d d) = d * d /\ 0 <= fst (mul_ww d d) < W /\ 0 <= snd (mul_ww d d) < W.
Proof.
  intros Hd. unfold mul_ww. cbn [fst snd].
  pose proof (Z.div_mod (d * d) W ltac:(lia)). pose proof (Z.mod_pos_bound (d * d) W ltac:(lia)).
  split; [lia|]. split; [split; [apply Z.div_pos; nia|apply Z.div_lt_upper_bound; nia]|auto].
Qed.
Lemma square_words_cons d ds : square_words (d :: ds) = [snd (mul_ww d d); fst (mul_ww d d)] ++ square_words ds.
Proof. unfold square_words. cbn [flat_map]. destruct (mul_ww d d). reflexivity. Qed.
Lemma square_words_spec x : words_ok x -> words_ok (square_words x) /\ length (square_words x) = (2 * length x)%nat.
Proof.
  induction x as [|d x IH]; intros Wx; [split; [constructor|auto]|].
  apply words_ok_cons in Wx as [Hd Wx]. specialize (IH Wx). rewrite square_words_cons.
  destruct (mul_ww_spec d Hd) as (E1 & E2 & E3). destruct IH as [I1 I2]. split.
  - apply words_app; [repeat constructor; lia|auto].
  - rewrite app_length, I2. cbn [length]. lia.
Qed.

Lemma sqr_rows_spec rest : forall ds xs i u, words_ok xs -> words_ok ds -> words_ok u ->
  length xs = i -> (1 <= i)%nat -> length u = (2 * i - 1)%nat -> hd 0 u = 0 ->
  exists u', sqr_rows (u ++ repeat 0 (2 * length ds) ++ rest) (xs ++ ds) i ds = Ok (u' ++ rest) /\ words_ok u' /\
    length u' = (length u + 2 * length ds)%nat /\ hd 0 u' = 0 /\
    2 * (nval u' - nval u) = nval (xs ++ ds) * nval (xs ++ ds) - nval xs * nval xs - Wp (2 * i) * nval (square_words ds).
Proof.
  induction ds as [|d ds IH]; intros xs i u Wxs Wds Wu Li Hi Lu Hu; cbn [sqr_rows].
  - exists u. cbn [length Nat.mul repeat app]. rewrite app_nil_r. cbn [square_words flat_map nval].
    split; [auto|]. split; [auto|]. split; [lia|]. split; [auto|]. ring.
  - apply words_ok_cons in Wds as [Hd Wds].
    replace (2 * length (d :: ds))%nat with (S (S (2 * length ds))) by (cbn [length]; lia). cbn [repeat].
    destruct (split_len u i) as (u1 & u2 & -> & L1); [lia|]. rewrite app_length in Lu.
    apply words_ok_app in Wu as [Wu1 Wu2].
    set (zs := repeat 0 (2 * length ds)).
    change ((0 :: 0 :: zs) ++ rest) with ([0] ++ [0] ++ zs ++ rest).
    replace ((u1 ++ u2) ++ [0] ++ [0] ++ zs ++ rest) with (u1 ++ (u2 ++ [0]) ++ ([0] ++ zs ++ rest))
      by (rewrite <- !app_assoc; reflexivity).
    rewrite rd_app by (rewrite ?app_length; cbn [length]; lia). cbn [bind].
    assert (FX : firstn i (xs ++ d :: ds) = xs).
    { rewrite firstn_app, <- Li, firstn_all, Nat.sub_diag. cbn [firstn]. apply app_nil_r. }
    rewrite FX.
    assert (W20 : words_ok (u2 ++ [0])) by (apply words_app; auto; repeat constructor; lia).
    pose proof (add_mul_vvw_spec (u2 ++ [0]) xs d W20 Wxs ltac:(rewrite app_length; cbn [length]; lia) Hd) as (E1 & E2 & E3 & E4).
    destruct (add_mul_vvw (u2 ++ [0]) xs d) as [s c]. cbn [fst snd] in *.
    rewrite wr_app by (rewrite ?app_length; cbn [length]; lia). cbn [bind].
    replace (u1 ++ s ++ [0] ++ zs ++ rest) with ((u1 ++ s) ++ [0] ++ (zs ++ rest)) by (rewrite <- !app_assoc; reflexivity).
    rewrite wr_app by (rewrite ?app_length; cbn [length]; lia). cbn [bind].
    replace ((u1 ++ s) ++ [c] ++ zs ++ rest) with ((u1 ++ s ++ [c]) ++ zs ++ rest) by (rewrite <- !app_assoc; reflexivity).
    replace (xs ++ d :: ds) with ((xs ++ [d]) ++ ds) by (rewrite <- app_assoc; reflexivity).
    destruct (IH (xs ++ [d]) (S i) (u1 ++ s ++ [c])) as (u' & P1 & P2 & P3 & P4 & P5); auto.
    { apply words_app; auto. repeat constructor; lia. }
    { repeat apply words_app; auto. repeat constructor; lia. }
    { rewrite app_length. cbn [length]. lia. }
    { rewrite !app_length. cbn [length]. lia. }
    { destruct u1; [cbn in L1; lia|]. exact Hu. }
    exists u'. split; [exact P1|]. split; [auto|]. rewrite !app_length in P3. cbn [length] in P3.
    rewrite app_length. split; [cbn [length]; lia|]. split; [auto|].
    rewrite square_words_cons. destruct (mul_ww_spec d Hd) as (Q1 & Q2 & Q3).
    set (q := nval ((xs ++ [d]) ++ ds)) in *.
    rewrite !nval_app in *. cbn [nval app length] in *. rewrite ?app_length in *. rewrite L1, ?E3, Li in *.
    rewrite Nat.mul_succ_r, Wp_add in P5. change (Wp 2) with (W * W) in P5 || idtac.
    replace (Wp (2 * i)) with (Wp i * Wp i) in * by (rewrite <- Wp_add; do 2 f_equal; lia).
    replace (W ^ Z.of_nat 2) with (W * W) in P5 by reflexivity.
    set (B := Wp i) in *. set (S1 := nval (square_words ds)) in *.
    nia.
Qed.

Lemma basic_sqr_spec z x : words_ok x -> x <> [] -> (2 * length x <= length z)%nat ->
  exists p, basic_sqr z x = Ok (p ++ skipn (2 * length x) z) /\ words_ok p /\ length p = (2 * length x)%nat /\
    nval p = nval x * nval x.
Proof.
  intros Wx Nx Hz. destruct x as [|d ds] eqn:Ex; [congruence|]. unfold basic_sqr. rewrite <- Ex in *.
  assert (Ln : length x = S (length ds)) by (rewrite Ex; reflexivity).
  destruct (square_words_spec x Wx) as [S1 S2].
  destruct (split_len z (2 * length x)) as (z1 & z2 & -> & Lz1); [auto|].
  assert (E0 : wr (z1 ++ z2) 0 (square_words x) = Ok (square_words x ++ z2)).
  { apply (wr_app 0 (square_words x) [] z1 z2); [reflexivity|lia]. }
  rewrite E0. cbn [bind].
  assert (Wxx := Wx). rewrite Ex in Wxx. apply words_ok_cons in Wxx as [Hd Wds].
  destruct (sqr_rows_spec [0] ds [d] 1 [0]) as (u & U1 & U2 & U3 & U4 & U5); auto; try (repeat constructor; lia).
  assert (ER : repeat 0 (2 * length x) = [0] ++ repeat 0 (2 * length ds) ++ [0]).
  { rewrite Ln. replace (2 * S (length ds))%nat with (1 + (2 * length ds + 1))%nat by lia.
    rewrite !repeat_app. reflexivity. }
  rewrite ER. replace ([d] ++ ds) with x in * by (rewrite Ex; reflexivity). rewrite U1. cbn [bind].
  cbn [length] in U3. destruct u as [|u0 mid]; [cbn in U3; lia|]. cbn [hd] in U4. subst u0. cbn [length] in U3.
  change ((0 :: mid) ++ [0]) with ([0] ++ mid ++ [0]).
  rewrite rd_app by (cbn [length]; lia). cbn [bind].
  apply words_ok_cons in U2 as [_ Wmid].
  pose proof (shl_vu_inner_spec mid 1 Wmid ltac:(lia)) as (V1 & V2 & V3 & V4).
  destruct (shl_vu_inner mid 1) as [sh c]. cbn [fst snd] in *. change (2 ^ 1) with 2 in *.
  rewrite wr_app by (cbn [length]; lia). cbn [bind].
  assert (E1 : wr ([0] ++ sh ++ [0]) (2 * length x - 1) [c] = Ok ([0] ++ sh ++ [c])).
  { replace ([0] ++ sh ++ [0]) with (([0] ++ sh) ++ [0] ++ []) by (rewrite <- app_assoc; reflexivity).
    rewrite wr_app by (rewrite ?app_length; cbn [length]; lia). rewrite app_nil_r, <- app_assoc. reflexivity. }
  rewrite E1. cbn [bind].
  assert (Lt : length ([0] ++ sh ++ [c]) = (2 * length x)%nat) by (rewrite !app_length; cbn [length]; lia).
  rewrite app_length. replace (Nat.min (length (square_words x) + length z2) (2 * length x)) with (2 * length x)%nat by lia.
  assert (E2 : rd (square_words x ++ z2) 0 (2 * length x) = Ok (square_words x)).
  { apply (rd_app 0 _ [] (square_words x) z2); auto. }
  rewrite E2. cbn [bind].
  assert (E3 : rd ([0] ++ sh ++ [c]) 0 (2 * length x) = Ok ([0] ++ sh ++ [c])).
  { pose proof (rd_app 0 (2 * length x) [] ([0] ++ sh ++ [c]) [] eq_refl (eq_sym Lt)) as E.
    rewrite app_nil_r in E. exact E. }
  rewrite E3. cbn [bind].
  assert (Wt : words_ok ([0] ++ sh ++ [c])) by (repeat apply words_app; auto; repeat constructor; lia).
  pose proof (add_vv_spec (square_words x) ([0] ++ sh ++ [c]) S1 Wt ltac:(lia)) as (A1 & A2 & A3 & A4).
  destruct (add_vv (square_words x) ([0] ++ sh ++ [c])) as [s cy]. cbn [fst snd] in *.
  exists s. rewrite skipn_app, <- Lz1, skipn_all, Nat.sub_diag. cbn [skipn app].
  split; [apply (wr_app 0 s [] (square_words x) z2); auto; lia|]. split; [auto|]. split; [lia|].
  assert (VT : nval ([0] ++ sh ++ [c]) = 2 * (W * nval mid)).
  { rewrite !nval_app. cbn [nval length]. rewrite V3. change (Wp 1) with W. nia. }
  rewrite VT in A1. rewrite !nval_cons in U5. cbn [nval] in U5.
  change (Wp (2 * 1)) with (W * W) in U5.
  assert (SQ : nval (square_words x) = d * d + W * W * nval (square_words ds)).
  { rewrite Ex, square_words_cons, nval_app. destruct (mul_ww_spec d Hd) as (Q1 & _). cbn [nval length].
    change (Wp 2) with (W * W). nia. }
  assert (Tot : nval s + Wp (length (square_words x)) * cy = nval x * nval x) by nia.
  pose proof (nval_bound x Wx) as BX. pose proof (nval_bound s A2) as BS. rewrite A3, S2 in BS. rewrite S2 in Tot.
  replace (Wp (2 * length x)) with (Wp (length x) * Wp (length x)) in * by (rewrite <- Wp_add; do 2 f_equal; lia).
  assert (cy = 0 \/ cy = 1) as [-> | ->] by lia; [lia|]. nia.
Qed.

Lemma karatsuba_sqr_spec : forall f z x, words_ok z -> words_ok x -> x <> [] ->
  (length x <= f)%nat -> (6 * length x <= length z)%nat ->
  exists r, karatsuba_sqr f z x = Ok r /\ words_ok r /\ length r = length z /\
    nval (firstn (2 * length x) r) = nval x * nval x.
Proof.
  induction f as [|f IH]; intros z x Wz Wx Nx Hf Hz; cbn [karatsuba_sqr];
  (destruct (Nat.odd (length x) || (length x <? KARATSUBA_THRESHOLD)%nat || (length x <? 2)%nat) eqn:Eb;
   [destruct (basic_sqr_spec z x Wx Nx ltac:(lia)) as (p & P1 & P2 & P3 & P4);
    exists (p ++ skipn (2 * length x) z); split; [auto|]; split; [apply words_app; auto using words_ok_skipn|];
    split; [rewrite app_length, skipn_length; lia|];
    rewrite firstn_app; replace (2 * length x - length p)%nat with 0%nat by lia; cbn [firstn]; rewrite app_nil_r;
    rewrite firstn_all2 by lia; auto|]).
  - apply nonnil_len in Nx. lia.
  - apply orb_false_elim in Eb as [Eb _]. apply orb_false_elim in Eb as [Eo Eb]. apply Nat.ltb_ge in Eb.
    destruct (half_facts _ Eo Eb) as [Hn Hn2]. set (n := length x) in *. set (n2 := (n / 2)%nat) in *.
    assert (L0 : length (firstn n2 x) = n2) by (apply firstn_length_le; lia).
    assert (L1 : length (skipn n2 x) = n2) by (rewrite skipn_length; lia).
    destruct (IH z (firstn n2 x)) as (r1 & R1 & R2 & R3 & R4); auto using words_ok_firstn; try lia.
    { apply nonnil_len. lia. }
    rewrite R1. cbn [bind]. rewrite L0 in R4. replace (2 * n2)%nat with n in R4 by lia.
    destruct (split_len r1 n) as (A & S1 & -> & LA); [lia|]. rewrite app_length in R3.
    assert (VA : nval A = nval (firstn n2 x) * nval (firstn n2 x)).
    { rewrite <- R4. f_equal. rewrite firstn_app, LA, Nat.sub_diag. cbn [firstn]. rewrite app_nil_r.
      symmetry. apply firstn_all2. lia. }
    apply words_ok_app in R2 as [WA WS1].
    rewrite on_suffix_app by auto.
    destruct (IH S1 (skipn n2 x)) as (r2 & Q1 & Q2 & Q3 & Q4); auto using words_ok_skipn; try lia.
    { apply nonnil_len. lia. }
    rewrite Q1. cbn [bind]. rewrite L1 in Q4. replace (2 * n2)%nat with n in Q4 by lia.
    destruct (split_len r2 n) as (B & S2 & -> & LB); [lia|]. rewrite app_length in Q3.
    assert (VB : nval B = nval (skipn n2 x) * nval (skipn n2 x)).
    { rewrite <- Q4. f_equal. rewrite firstn_app, LB, Nat.sub_diag. cbn [firstn]. rewrite app_nil_r.
      symmetry. apply firstn_all2. lia. }
    apply words_ok_app in Q2 as [WB WS2].
    pose proof (abs_diff_spec (skipn n2 x) (firstn n2 x) ltac:(auto using words_ok_skipn) ltac:(auto using words_ok_firstn) ltac:(lia)) as (X1 & X2 & X3 & X4).
    destruct (abs_diff (skipn n2 x) (firstn n2 x)) as [xd s1]. cbn [fst snd] in *.
    destruct (split_len S2 n2) as (D1 & S3 & -> & LD1); [lia|]. rewrite app_length in Q3.
    destruct (split_len S3 n2) as (D2 & S4 & -> & LD2); [lia|]. rewrite app_length in Q3.
    apply words_ok_app in WS2 as [_ WS2]. apply words_ok_app in WS2 as [WD2 WS4].
    replace (A ++ B ++ D1 ++ D2 ++ S4) with ((A ++ B) ++ D1 ++ D2 ++ S4) by (rewrite <- !app_assoc; auto).
    rewrite wr_app by (rewrite ?app_length; lia). cbn [bind].
    replace ((A ++ B) ++ xd ++ D2 ++ S4) with ((A ++ B ++ xd ++ D2) ++ S4) by (rewrite <- !app_assoc; auto).
    rewrite on_suffix_app by (rewrite ?app_length; lia).
    destruct (IH S4 xd) as (r3 & T1 & T2 & T3 & T4); auto; try lia.
    { apply nonnil_len. lia. }
    rewrite T1. cbn [bind]. replace (2 * length xd)%nat with n in T4 by lia.
    destruct (split_len r3 n) as (P & S5 & -> & LP); [lia|]. rewrite app_length in T3.
    assert (VP : nval P = nval xd * nval xd).
    { rewrite <- T4. f_equal. rewrite firstn_app, LP, Nat.sub_diag. cbn [firstn]. rewrite app_nil_r.
      symmetry. apply firstn_all2. lia. }
    apply words_ok_app in T2 as [WP WS5].
    replace ((A ++ B ++ xd ++ D2) ++ P ++ S5) with (A ++ B ++ (xd ++ D2) ++ P ++ S5) by (rewrite <- !app_assoc; auto).
    destruct (combine_tail_spec (-1) n A B (xd ++ D2) P S5 (firstn n2 x) (skipn n2 x) (firstn n2 x) (skipn n2 x)
                s1 (- s1) (nval xd) (nval xd)) as (r & C1 & C2 & C3 & C4);
      auto using words_ok_firstn, words_ok_skipn, words_app;
      try (rewrite ?app_length; lia).
    exists r. unfold combine_tail in C1. rewrite Nat.min_comm in C1.
    split; [exact C1|]. split; [auto|]. split.
    + rewrite C3, !app_length. lia.
    + rewrite C4, !firstn_skipn. reflexivity.
Qed.

Lemma sqr_v_spec : forall f x, words_ok x -> (length x <= f)%nat ->
  exists r, sqr_v f x = Ok r /\ words_ok r /\ nval r = nval x * nval x /\ (length r <= 2 * length x)%nat /\
    (x <> [] -> canon r).
Proof.
  induction f as [|f IH]; intros x Wx Hf.
  { destruct x; [|cbn [length] in Hf; lia]. exists []. split; [reflexivity|]. split; [constructor|].
    split; [reflexivity|]. split; [auto|congruence]. }
  cbn [sqr_v]. destruct x as [|d x'] eqn:Ex.
  { exists []. split; [reflexivity|]. split; [constructor|]. split; [reflexivity|]. split; [auto|congruence]. }
  destruct x' as [|d2 x''].
  { apply words_ok_cons in Wx as [Hd _]. destruct (mul_ww_spec d Hd) as (Q1 & Q2 & Q3).
    destruct (mul_ww d d) as [h l]. cbn [fst snd] in *. exists (trim [l; h]).
    assert (Wl : words_ok [l; h]) by (repeat constructor; lia).
    split; [auto|]. split; [apply trim_words; auto|]. split; [rewrite trim_val; cbn [nval]; nia|].
    pose proof (trim_len [l; h]). split; [auto|]. intros _. apply trim_canon; auto. discriminate. }
  rewrite <- Ex in *. assert (Hn : (2 <= length x)%nat) by (rewrite Ex; cbn; lia).
  assert (Nx : x <> []) by (apply nonnil_len; lia). clear d d2 x'' Ex.
  set (n := length x) in *.
  assert (Fin : forall z, words_ok z -> length z = (2 * n)%nat -> nval z = nval x * nval x ->
    exists r, Ok (trim z) = Ok r /\ words_ok r /\ nval r = nval x * nval x /\ (length r <= 2 * n)%nat /\
      (x <> [] -> canon r)).
  { intros z Wz Lz Vz. exists (trim z). split; [auto|]. split; [apply trim_words; auto|].
    split; [rewrite trim_val; auto|]. pose proof (trim_len z). split; [lia|]. intros _.
    apply trim_canon; auto. apply nonnil_len. lia. }
  destruct (Nat.ltb_spec n BASIC_SQR_THRESHOLD) as [T|T].
  { destruct (basic_mul_spec (repeat 0 (2 * n)) x x Wx Wx) as (p & P1 & P2 & P3 & P4).
    { rewrite repeat_length. fold n. lia. }
    fold n in P1, P3. rewrite P1. cbn [bind].
    rewrite skipn_all2 in * by (rewrite repeat_length; lia). rewrite app_nil_r in *. apply Fin; auto. lia. }
  destruct (Nat.ltb_spec n KARATSUBA_SQR_THRESHOLD) as [T2|T2].
  { destruct (basic_sqr_spec (repeat 0 (2 * n)) x Wx Nx) as (p & P1 & P2 & P3 & P4).
    { rewrite repeat_length. fold n. lia. }
    fold n in P1, P3. rewrite P1. cbn [bind].
    rewrite skipn_all2 in * by (rewrite repeat_length; lia). rewrite app_nil_r in *. apply Fin; auto. }
  pose proof (karatsuba_len_spec n KARATSUBA_SQR_THRESHOLD ltac:(unfold KARATSUBA_SQR_THRESHOLD; lia) ltac:(lia)) as Hk.
  set (k := karatsuba_len n KARATSUBA_SQR_THRESHOLD) in *.
  assert (Lx0 : length (firstn k x) = k) by (apply firstn_length_le; lia).
  destruct (karatsuba_sqr_spec k (repeat 0 (Nat.max (k * 6) (n * 2))) (firstn k x)) as (z0 & K1 & K2 & K3 & K4);
    auto using words_ok_firstn, words_ok_repeat0; try lia.
  { apply nonnil_len. lia. }
  { rewrite repeat_length. lia. }
  rewrite K1. cbn [bind]. rewrite Lx0 in K4. rewrite repeat_length in K3.
  destruct (clean_spec z0 (2 * n) (2 * k) K2 ltac:(lia) ltac:(lia)) as (C1 & C2 & C3).
  set (z1 := clean z0 (2 * n) (2 * k)) in *. rewrite K4 in C3.
  destruct (Nat.ltb_spec k n) as [Ec|Ec].
  - pose proof (drop_zeros_len (firstn k x)) as DL.
    assert (Wx0 : words_ok (drop_zeros (firstn k x))) by (apply drop_zeros_words, words_ok_firstn; auto).
    assert (Wx1 : words_ok (skipn k x)) by (apply words_ok_skipn; auto).
    assert (Lx1 : length (skipn k x) = (n - k)%nat) by apply skipn_length.
    destruct (mul_by_karatsuba_spec (length (drop_zeros (firstn k x)) + length (skipn k x)) (drop_zeros (firstn k x)) (skipn k x) Wx0 Wx1 ltac:(lia))
      as (t & T1 & T3 & T4 & T5 & _).
    rewrite T1. cbn [bind].
    destruct (add_at_spec z1 t k C1 T3 ltac:(lia)) as (z2 & A1 & A2 & A3 & A4). rewrite A1. cbn [bind].
    destruct (add_at_spec z2 t k A2 T3 ltac:(lia)) as (z3 & B1 & B2 & B3 & B4). rewrite B1. cbn [bind].
    destruct (IH (skipn k x) Wx1 ltac:(lia)) as (t2 & D1 & D2 & D3 & D4 & _). rewrite D1. cbn [bind].
    destruct (add_at_spec z3 t2 (2 * k) B2 D2 ltac:(lia)) as (z4 & E1 & E2 & E3 & E4). rewrite E1. cbn [bind].
    apply Fin; [auto|lia|].
    rewrite E4, B4, B3, A4, A3, C2, C3, D3, T4, !drop_zeros_val.
    rewrite Zplus_mod_idemp_l, <- Z.add_assoc, Zplus_mod_idemp_l.
    replace (Wp (2 * k)) with (Wp k * Wp k) by (rewrite <- Wp_add; do 2 f_equal; lia).
    pose proof (nval_split k x Wx) as PX.
    match goal with |- ?e mod _ = ?r => replace e with r by (rewrite PX; ring) end.
    apply Z.mod_small.
    pose proof (nval_bound x Wx) as BX. fold n in BX.
    replace (Wp (2 * n)) with (Wp n * Wp n) by (rewrite <- Wp_add; do 2 f_equal; lia). nia.
  - cbn [bind]. apply Fin; auto. rewrite C3, !firstn_all2 by (fold n; lia). reflexivity.
Qed.

Lemma nat_sqr_of_Z a : canon a -> nat_sqr a = Ok (of_Z (nval a * nval a)).
Proof.
  intros Ha. unfold nat_sqr.
  destruct (sqr_v_spec (length a) a (canon_words a Ha) ltac:(lia)) as (r & R1 & R2 & R3 & R4 & R5).
  rewrite R1. cbn [bind]. specialize (R5 (canon_nonnil a Ha)).
  rewrite trim_canon_id by auto. f_equal. apply of_Z_unique; auto.
Qed.
