(** Facts about the Karatsuba buffers: basic multiplication, [karatsuba],
    [mul_by_karatsuba]. *)
From Coq Require Import ZArith List Lia Bool PeanoNat.
From Verif Require Import Words WordsFacts NatModel NatFacts NatFacts2 VecPrims VecFacts Karatsuba.
Import ListNotations.
Open Scope Z_scope.

Lemma rd_app off n a b c : off = length a -> n = length b -> rd (a ++ b ++ c) off n = Ok b.
Proof.
  intros -> ->. unfold rd. rewrite !app_length.
  assert ((length a + length b <=? length a + (length b + length c))%nat = true) as -> by (apply Nat.leb_le; lia).
  f_equal. rewrite skipn_app, skipn_all, Nat.sub_diag. cbn [skipn app].
  rewrite firstn_app, firstn_all, Nat.sub_diag. cbn [firstn]. apply app_nil_r.
Qed.
Lemma wr_app off l a b c : off = length a -> length l = length b -> wr (a ++ b ++ c) off l = Ok (a ++ l ++ c).
Proof.
  intros -> Hl. unfold wr. rewrite !app_length, Hl.
  assert ((length a + length b <=? length a + (length b + length c))%nat = true) as -> by (apply Nat.leb_le; lia).
  f_equal. rewrite firstn_app, firstn_all, Nat.sub_diag. cbn [firstn]. rewrite app_nil_r. do 2 f_equal.
  rewrite app_assoc, skipn_app, app_length.
  rewrite skipn_all2 by (rewrite app_length; lia). rewrite Nat.sub_diag. reflexivity.
Qed.

(** Cutting a list at lengths. *)
Lemma split_len (z : list Z) n : (n <= length z)%nat -> exists a b, z = a ++ b /\ length a = n.
Proof.
  intros H. exists (firstn n z), (skipn n z). split; [symmetry; apply firstn_skipn|].
  apply firstn_length_le. auto.
Qed.

Lemma on_suffix_app off a b g : off = length a -> on_suffix off (a ++ b) g = do r <- g b; Ok (a ++ r).
Proof.
  intros ->. unfold on_suffix. rewrite app_length.
  assert ((length a <=? length a + length b)%nat = true) as -> by (apply Nat.leb_le; lia).
  rewrite skipn_app, skipn_all, Nat.sub_diag, firstn_app, firstn_all, Nat.sub_diag.
  cbn [skipn firstn app]. rewrite app_nil_r. reflexivity.
Qed.

Lemma words_app a b : words_ok a -> words_ok b -> words_ok (a ++ b).
Proof. intros. apply words_ok_app. auto. Qed.

(** ** add and subtract in the middle of a buffer *)
Lemma karatsuba_add_spec off n a b c d x : off = length a -> n = length b -> (n / 2)%nat = length c ->
  length x = n -> words_ok b -> words_ok c -> words_ok x -> (0 < n / 2)%nat ->
  exists e, karatsuba_add (a ++ b ++ c ++ d) off x n = Ok (a ++ e ++ d) /\ words_ok e /\
    length e = (length b + length c)%nat /\
    nval e = (nval (b ++ c) + nval x) mod Wp (length b + length c).
Proof.
  intros Ho Hn Hc Hx Wb Wc Wx Hh. unfold karatsuba_add. rewrite rd_app by auto. cbn [bind].
  pose proof (add_vv_spec b x Wb Wx ltac:(lia)) as (E1 & E2 & E3 & E4).
  destruct (add_vv b x) as [s cy]. cbn [fst snd] in *.
  rewrite (wr_app off s a b (c ++ d)) by auto. cbn [bind]. rewrite nval_app.
  destruct (Z.eqb_spec cy 0) as [->|N].
  - exists (s ++ c). rewrite <- app_assoc. split; [auto|]. split; [apply words_app; auto|].
    split; [rewrite app_length; lia|]. rewrite nval_app, E3.
    replace (nval b + Wp (length b) * nval c + nval x) with (nval s + Wp (length b) * nval c) by lia.
    symmetry. apply Z.mod_small.
    pose proof (nval_bound (s ++ c) (words_app _ _ E2 Wc)) as B.
    rewrite nval_app, app_length, E3 in B. exact B.
  - assert (cy = 1) as -> by lia.
    rewrite (app_assoc a s). rewrite rd_app by (rewrite ?app_length; lia). cbn [bind].
    pose proof (add_vw_spec c 1 Wc ltac:(lia)) as (F1 & F2 & F3 & F4 & F5).
    destruct (add_vw c 1) as [s2 c2]. cbn [fst snd] in *.
    rewrite wr_app by (rewrite ?app_length; lia).
    exists (s ++ s2). rewrite <- !app_assoc. split; [auto|]. split; [apply words_app; auto|].
    split; [rewrite app_length; lia|].
    pose proof (nval_bound (s ++ s2) (words_app _ _ E2 F2)) as B.
    rewrite nval_app, app_length, E3, F3 in B. rewrite nval_app, E3.
    apply (Z.mod_unique_pos _ _ c2); [exact B|]. rewrite Wp_add. nia.
Qed.

Lemma karatsuba_sub_spec off n a b c d x : off = length a -> n = length b -> (n / 2)%nat = length c ->
  length x = n -> words_ok b -> words_ok c -> words_ok x -> (0 < n / 2)%nat ->
  exists e, karatsuba_sub (a ++ b ++ c ++ d) off x n = Ok (a ++ e ++ d) /\ words_ok e /\
    length e = (length b + length c)%nat /\
    nval e = (nval (b ++ c) - nval x) mod Wp (length b + length c).
Proof.
  intros Ho Hn Hc Hx Wb Wc Wx Hh. unfold karatsuba_sub. rewrite rd_app by auto. cbn [bind].
  pose proof (sub_vv_spec b x Wb Wx ltac:(lia)) as (E1 & E2 & E3 & E4).
  destruct (sub_vv b x) as [s cy]. cbn [fst snd] in *.
  rewrite (wr_app off s a b (c ++ d)) by auto. cbn [bind]. rewrite nval_app.
  destruct (Z.eqb_spec cy 0) as [->|N].
  - exists (s ++ c). rewrite <- app_assoc. split; [auto|]. split; [apply words_app; auto|].
    split; [rewrite app_length; lia|]. rewrite nval_app, E3.
    replace (nval b + Wp (length b) * nval c - nval x) with (nval s + Wp (length b) * nval c) by lia.
    symmetry. apply Z.mod_small.
    pose proof (nval_bound (s ++ c) (words_app _ _ E2 Wc)) as B.
    rewrite nval_app, app_length, E3 in B. exact B.
  - assert (cy = 1) as -> by lia.
    rewrite (app_assoc a s). rewrite rd_app by (rewrite ?app_length; lia). cbn [bind].
    pose proof (sub_vw_spec c 1 Wc ltac:(lia)) as (F1 & F2 & F3 & F4 & F5).
    destruct (sub_vw c 1) as [s2 c2]. cbn [fst snd] in *.
    rewrite wr_app by (rewrite ?app_length; lia).
    exists (s ++ s2). rewrite <- !app_assoc. split; [auto|]. split; [apply words_app; auto|].
    split; [rewrite app_length; lia|].
    pose proof (nval_bound (s ++ s2) (words_app _ _ E2 F2)) as B.
    rewrite nval_app, app_length, E3, F3 in B. rewrite nval_app, E3.
    apply (Z.mod_unique_pos _ _ (- c2)); [exact B|]. rewrite Wp_add. nia.
Qed.

(** ** basic_mul *)
Lemma basic_mul_rows_spec x : words_ok x -> forall y i u rest, words_ok y -> words_ok u ->
  length u = (length x + i)%nat ->
  exists p, basic_mul_rows (u ++ repeat 0 (length y) ++ rest) i x y = Ok (p ++ rest) /\ words_ok p /\
    length p = (length u + length y)%nat /\ nval p = nval u + Wp i * nval x * nval y.
Proof.
  intros Wx. induction y as [|d y IH]; intros i u rest Wy Wu Lu; cbn [basic_mul_rows].
  - exists u. cbn [repeat app length nval]. split; [auto|]. split; [auto|]. split; [lia|ring].
  - apply words_ok_cons in Wy as [Hd Wy]. cbn [length repeat].
    change ((0 :: repeat 0 (length y)) ++ rest) with ([0] ++ repeat 0 (length y) ++ rest).
    destruct (Z.eqb_spec d 0) as [->|Nd].
    + cbn [bind]. rewrite (app_assoc u).
      destruct (IH (S i) (u ++ [0]) rest Wy) as (p & P1 & P2 & P3 & P4).
      { apply words_app; auto. repeat constructor; lia. }
      { rewrite app_length. cbn. lia. }
      exists p. split; [auto|]. split; [auto|]. rewrite app_length in P3. cbn [length] in P3.
      split; [lia|]. rewrite P4, nval_app, nval_cons, Wp_S. cbn [nval]. ring.
    + destruct (split_len u i) as (u1 & u2 & -> & L1); [lia|]. rewrite app_length in Lu.
      apply words_ok_app in Wu as [W1 W2].
      rewrite <- (app_assoc u1 u2). rewrite rd_app by lia. cbn [bind].
      pose proof (add_mul_vvw_spec u2 x d W2 Wx ltac:(lia) Hd) as (E1 & E2 & E3 & E4).
      destruct (add_mul_vvw u2 x d) as [s c]. cbn [fst snd] in *.
      rewrite wr_app by lia. cbn [bind].
      rewrite (app_assoc u1 s). rewrite (wr_app _ [c] (u1 ++ s) [0]) by (rewrite ?app_length; cbn [length]; lia).
      cbn [bind]. rewrite (app_assoc (u1 ++ s)).
      destruct (IH (S i) ((u1 ++ s) ++ [c]) rest Wy) as (p & P1 & P2 & P3 & P4).
      { apply words_app; [apply words_app; auto|]. repeat constructor; lia. }
      { rewrite !app_length. cbn. lia. }
      exists p. split; [auto|]. split; [auto|]. rewrite !app_length in P3. cbn [length] in P3.
      rewrite app_length. split; [lia|].
      rewrite P4, !nval_app, nval_cons, Wp_S, app_length, L1, E3, Wp_add. cbn [nval]. nia.
Qed.

Lemma basic_mul_spec z x y : words_ok x -> words_ok y -> (length x + length y <= length z)%nat ->
  exists p, basic_mul z x y = Ok (p ++ skipn (length x + length y) z) /\ words_ok p /\
    length p = (length x + length y)%nat /\ nval p = nval x * nval y.
Proof.
  intros Wx Wy Hl. unfold basic_mul, wr. rewrite repeat_length.
  cbn [Nat.add]. assert ((length x + length y <=? length z)%nat = true) as -> by (apply Nat.leb_le; auto).
  cbn [bind firstn app]. rewrite repeat_app, <- app_assoc.
  destruct (basic_mul_rows_spec x Wx y 0 (repeat 0 (length x)) (skipn (length x + length y) z) Wy) as (p & P1 & P2 & P3 & P4).
  { apply words_ok_repeat0. } { rewrite repeat_length. lia. }
  exists p. rewrite repeat_length in P3. split; [auto|]. split; [auto|]. split; [auto|].
  rewrite P4, nval_repeat0. change (Wp 0) with 1. ring.
Qed.

(** ** |a - b| *)
Lemma abs_diff_spec a b : words_ok a -> words_ok b -> length a = length b ->
  let d := fst (abs_diff a b) in let s := snd (abs_diff a b) in
  words_ok d /\ length d = length a /\ (s = 1 \/ s = -1) /\ nval a - nval b = s * nval d.
Proof.
  intros Wa Wb Hl. unfold abs_diff.
  pose proof (sub_vv_spec a b Wa Wb Hl) as (E1 & E2 & E3 & E4).
  destruct (sub_vv a b) as [d c]. cbn [fst snd] in *.
  destruct (Z.eqb_spec c 0) as [->|N]; cbn [fst snd].
  - split; [auto|]. split; [auto|]. split; [auto|]. lia.
  - pose proof (sub_vv_spec b a Wb Wa ltac:(lia)) as (F1 & F2 & F3 & F4).
    destruct (sub_vv b a) as [d' c']. cbn [fst snd] in *.
    split; [auto|]. split; [lia|]. split; [auto|].
    assert (c = 1) as -> by lia. assert (c' = 0 \/ c' = 1) as [-> | ->] by lia; [lia|].
    pose proof (nval_bound d E2). pose proof (nval_bound d' F2). rewrite E3 in *. rewrite F3, <- Hl in *.
    pose proof (Wp_pos (length a)). lia.
Qed.

Lemma words_firstn n l : words_ok l -> words_ok (firstn n l).
Proof. apply words_ok_firstn. Qed.

(** ** karatsuba *)
Lemma even_half n : Nat.odd n = false -> n = (2 * (n / 2))%nat.
Proof.
  intros H. pose proof (Nat.div_mod n 2 ltac:(lia)). pose proof (Nat.mod_upper_bound n 2 ltac:(lia)).
  assert (n mod 2 = 0)%nat; [|lia].
  rewrite <- Nat.negb_even in H. apply negb_false_iff, Nat.even_spec in H. destruct H as [k ->].
  rewrite Nat.mul_comm. apply Nat.mod_mul. lia.
Qed.

(** The recombination: A, B the outer products, P the product of the
    differences, all over base b = Wp n2. *)
Lemma kara_combine b K x0 x1 y0 y1 L M A B P s1 s2 xd yd e1 e2 e3 :
  0 < b -> 0 < K -> A = x0 * y0 -> B = x1 * y1 -> P = xd * yd ->
  x1 - x0 = s1 * xd -> y0 - y1 = s2 * yd ->
  A + b * b * B = L + b * M -> 0 <= L ->
  0 <= M -> 0 <= x0 -> 0 <= x1 -> 0 <= y0 -> 0 <= y1 ->
  (x0 + b * x1) * (y0 + b * y1) < b * K ->
  e1 = (M + A) mod K -> e2 = (e1 + B) mod K -> e3 = (e2 + s1 * s2 * P) mod K ->
  L + b * e3 = (x0 + b * x1) * (y0 + b * y1).
Proof.
  intros Hb HK HA HB HP Hx Hy HLM HL HM H1 H2 H3 H4 Hlt E1 E2 E3.
  assert (E : e3 = (M + (x1 * y0 + x0 * y1)) mod K).
  { subst e3 e2 e1. rewrite Zplus_mod_idemp_l, <- Z.add_assoc, Zplus_mod_idemp_l.
    f_equal. assert (s1 * s2 * P = (x1 - x0) * (y0 - y1)) as -> by (rewrite Hx, Hy, HP; ring).
    rewrite HA, HB. ring. }
  assert (Eq : (x0 + b * x1) * (y0 + b * y1) = L + b * (M + (x1 * y0 + x0 * y1))).
  { replace (L + b * (M + (x1 * y0 + x0 * y1))) with ((L + b * M) + b * (x1 * y0 + x0 * y1)) by ring.
    rewrite <- HLM, HA, HB. ring. }
  rewrite E, Z.mod_small; [auto|]. split; [nia|]. rewrite Eq in Hlt. nia.
Qed.

Lemma half_facts n : Nat.odd n = false -> (KARATSUBA_THRESHOLD <= n)%nat ->
  n = (n / 2 + n / 2)%nat /\ (1 < n / 2)%nat.
Proof. intros H1 H2. apply even_half in H1. unfold KARATSUBA_THRESHOLD in H2. lia. Qed.

Lemma Wp_ne0 n : Wp n <> 0.
Proof. pose proof (Wp_pos n). lia. Qed.

(** Everything after the three recursive products, common to [karatsuba] and
    [karatsuba_sqr]: the buffer is A ++ B ++ D ++ P ++ R. *)
Definition combine_tail (sg : Z) (n : nat) (z : list Z) : res (list Z) :=
  if (length z <? 4 * n)%nat then Panic
  else
    let n2 := (n / 2)%nat in
    let tmp := Nat.min (2 * n) (length z - 4 * n) in
    do cp <- rd z 0 tmp;
    do z <- wr z (4 * n) cp;
    do r0 <- rd z (4 * n) n;
    do z <- karatsuba_add z n2 r0 n;
    do r1 <- rd z (5 * n) n;
    do z <- karatsuba_add z n2 r1 n;
    do p <- rd z (3 * n) n;
    if sg >? 0 then karatsuba_add z n2 p n else karatsuba_sub z n2 p n.

Lemma combine_tail_spec sg n A B D P R x0 x1 y0 y1 s1 s2 xd yd :
  Nat.odd n = false -> (KARATSUBA_THRESHOLD <= n)%nat ->
  length A = n -> length B = n -> length D = n -> length P = n -> (2 * n <= length R)%nat ->
  words_ok A -> words_ok B -> words_ok D -> words_ok P -> words_ok R ->
  words_ok x0 -> words_ok x1 -> words_ok y0 -> words_ok y1 ->
  length x0 = (n / 2)%nat -> length x1 = (n / 2)%nat -> length y0 = (n / 2)%nat -> length y1 = (n / 2)%nat ->
  nval A = nval x0 * nval y0 -> nval B = nval x1 * nval y1 -> nval P = xd * yd ->
  nval x1 - nval x0 = s1 * xd -> nval y0 - nval y1 = s2 * yd ->
  (s1 = 1 \/ s1 = -1) -> (s2 = 1 \/ s2 = -1) -> ((sg >? 0) = (s1 * s2 >? 0)) ->
  exists r, combine_tail sg n (A ++ B ++ D ++ P ++ R) = Ok r /\ words_ok r /\
    length r = length (A ++ B ++ D ++ P ++ R) /\
    nval (firstn (2 * n) r) = nval (x0 ++ x1) * nval (y0 ++ y1).
Proof.
  intros Ho Ht LA LB LD LP LR WA WB WD WP WR Wx0 Wx1 Wy0 Wy1 Lx0 Lx1 Ly0 Ly1 VA VB VP Hx Hy Hs1 Hs2 Hsg.
  destruct (half_facts n Ho Ht) as [Hn Hn2]. set (n2 := (n / 2)%nat) in *.
  unfold combine_tail. fold n2.
  assert (LZ : length (A ++ B ++ D ++ P ++ R) = (4 * n + length R)%nat) by (rewrite !app_length; lia).
  rewrite LZ. assert ((4 * n + length R <? 4 * n)%nat = false) as -> by (apply Nat.ltb_ge; lia).
  replace (Nat.min (2 * n) (4 * n + length R - 4 * n)) with (2 * n)%nat by lia.
  cbn [Nat.add].
  assert (E0 : rd (A ++ B ++ D ++ P ++ R) 0 (2 * n) = Ok (A ++ B)).
  { rewrite (app_assoc A B). apply (rd_app 0 (2 * n) [] (A ++ B)); [reflexivity|]. rewrite app_length. lia. }
  rewrite E0. cbn [bind].
  destruct (split_len R (2 * n)) as (R1 & R2 & -> & LR1); [lia|]. apply words_ok_app in WR as [WR1 WR2].
  assert (E1 : wr (A ++ B ++ D ++ P ++ R1 ++ R2) (4 * n) (A ++ B) = Ok (A ++ B ++ D ++ P ++ A ++ B ++ R2)).
  { replace (A ++ B ++ D ++ P ++ R1 ++ R2) with ((A ++ B ++ D ++ P) ++ R1 ++ R2) by (rewrite <- !app_assoc; auto).
    rewrite wr_app by (rewrite !app_length; lia). rewrite <- !app_assoc. reflexivity. }
  rewrite E1. cbn [bind].
  assert (E2 : rd (A ++ B ++ D ++ P ++ A ++ B ++ R2) (4 * n) n = Ok A).
  { replace (A ++ B ++ D ++ P ++ A ++ B ++ R2) with ((A ++ B ++ D ++ P) ++ A ++ (B ++ R2)) by (rewrite <- !app_assoc; auto).
    apply rd_app; rewrite ?app_length; lia. }
  rewrite E2. cbn [bind].
  (* cut A ++ B into the low n2 words and the rest *)
  destruct (split_len (A ++ B) n2) as (L & M & EAB & LL); [rewrite app_length; lia|].
  assert (LM : length M = (n + n2)%nat).
  { assert (H : length (A ++ B) = length (L ++ M)) by (rewrite EAB; auto). rewrite !app_length in H. lia. }
  assert (WLM : words_ok L /\ words_ok M) by (apply words_ok_app; rewrite <- EAB; apply words_app; auto).
  destruct WLM as [WL WM].
  set (T := D ++ P ++ A ++ B ++ R2).
  assert (ET : A ++ B ++ T = L ++ M ++ T) by (rewrite !app_assoc, EAB; reflexivity).
  change (A ++ B ++ D ++ P ++ A ++ B ++ R2) with (A ++ B ++ T). rewrite ET.
  assert (Add : forall M' X, length M' = (n + n2)%nat -> words_ok M' -> length X = n -> words_ok X ->
    exists e, karatsuba_add (L ++ M' ++ T) n2 X n = Ok (L ++ e ++ T) /\ words_ok e /\ length e = (n + n2)%nat /\
      nval e = (nval M' + nval X) mod Wp (n + n2)).
  { intros M' X LM' WM' LX WX. destruct (split_len M' n) as (b & c & -> & Lb); [lia|].
    rewrite app_length in LM'. apply words_ok_app in WM' as [Wb Wc].
    destruct (karatsuba_add_spec n2 n L b c T X) as (e & F1 & F2 & F3 & F4); auto; try (fold n2; lia).
    rewrite <- app_assoc. exists e. split; [auto|]. split; [auto|]. split; [lia|].
    rewrite F4. do 3 f_equal; lia. }
  assert (Sub : forall M' X, length M' = (n + n2)%nat -> words_ok M' -> length X = n -> words_ok X ->
    exists e, karatsuba_sub (L ++ M' ++ T) n2 X n = Ok (L ++ e ++ T) /\ words_ok e /\ length e = (n + n2)%nat /\
      nval e = (nval M' - nval X) mod Wp (n + n2)).
  { intros M' X LM' WM' LX WX. destruct (split_len M' n) as (b & c & -> & Lb); [lia|].
    rewrite app_length in LM'. apply words_ok_app in WM' as [Wb Wc].
    destruct (karatsuba_sub_spec n2 n L b c T X) as (e & F1 & F2 & F3 & F4); auto; try (fold n2; lia).
    rewrite <- app_assoc. exists e. split; [auto|]. split; [auto|]. split; [lia|].
    rewrite F4. do 3 f_equal; lia. }
  destruct (Add M A LM WM LA WA) as (e1 & G1 & We1 & Le1 & V1). rewrite G1. cbn [bind].
  assert (E3 : rd (L ++ e1 ++ T) (5 * n) n = Ok B).
  { replace (L ++ e1 ++ T) with ((L ++ e1 ++ D ++ P ++ A) ++ B ++ R2) by (unfold T; rewrite <- !app_assoc; auto).
    apply rd_app; rewrite ?app_length; lia. }
  rewrite E3. cbn [bind].
  destruct (Add e1 B Le1 We1 LB WB) as (e2 & G2 & We2 & Le2 & V2). rewrite G2. cbn [bind].
  assert (E4 : rd (L ++ e2 ++ T) (3 * n) n = Ok P).
  { replace (L ++ e2 ++ T) with ((L ++ e2 ++ D) ++ P ++ (A ++ B ++ R2)) by (unfold T; rewrite <- !app_assoc; auto).
    apply rd_app; rewrite ?app_length; lia. }
  rewrite E4. cbn [bind]. rewrite Hsg.
  assert (Fin : exists e3, (if s1 * s2 >? 0 then karatsuba_add (L ++ e2 ++ T) n2 P n else karatsuba_sub (L ++ e2 ++ T) n2 P n)
     = Ok (L ++ e3 ++ T) /\ words_ok e3 /\ length e3 = (n + n2)%nat /\
     nval e3 = (nval e2 + s1 * s2 * nval P) mod Wp (n + n2)).
  { destruct Hs1 as [-> | ->], Hs2 as [-> | ->];
    try change (1 * 1 >? 0) with true; try change (1 * -1 >? 0) with false; try change (-1 * 1 >? 0) with false;
    try change (-1 * -1 >? 0) with true; cbv iota.
    - destruct (Add e2 P Le2 We2 LP WP) as (e3 & K1 & K2 & K3 & K4). exists e3. rewrite K4.
      split; [auto|]. split; [auto|]. split; [auto|]. f_equal; lia.
    - destruct (Sub e2 P Le2 We2 LP WP) as (e3 & K1 & K2 & K3 & K4). exists e3. rewrite K4.
      split; [auto|]. split; [auto|]. split; [auto|]. f_equal; lia.
    - destruct (Sub e2 P Le2 We2 LP WP) as (e3 & K1 & K2 & K3 & K4). exists e3. rewrite K4.
      split; [auto|]. split; [auto|]. split; [auto|]. f_equal; lia.
    - destruct (Add e2 P Le2 We2 LP WP) as (e3 & K1 & K2 & K3 & K4). exists e3. rewrite K4.
      split; [auto|]. split; [auto|]. split; [auto|]. f_equal; lia. }
  destruct Fin as (e3 & G3 & We3 & Le3 & V3). rewrite G3. exists (L ++ e3 ++ T). split; [auto|].
  split; [unfold T; repeat apply words_app; auto|].
  split; [unfold T; rewrite !app_length; lia|].
  assert (FN : firstn (2 * n) (L ++ e3 ++ T) = L ++ e3).
  { rewrite app_assoc, firstn_app. rewrite app_length, LL, Le3.
    replace (2 * n - (n2 + (n + n2)))%nat with 0%nat by lia. cbn [firstn]. rewrite app_nil_r.
    apply firstn_all2. rewrite app_length. lia. }
  rewrite FN, !nval_app, LL, Lx0, Ly0.
  apply (kara_combine (Wp n2) (Wp (n + n2)) _ _ _ _ _ (nval M) (nval A) (nval B) (nval P) s1 s2 xd yd (nval e1) (nval e2));
    auto using Wp_pos, nval_nonneg.
  - rewrite <- Wp_add. replace (n2 + n2)%nat with n by lia.
    assert (nval (A ++ B) = nval (L ++ M)) as Q by (rewrite EAB; auto). rewrite !nval_app, LA, LL in Q. exact Q.
  - pose proof (nval_bound (x0 ++ x1) ltac:(apply words_app; auto)) as B1.
    pose proof (nval_bound (y0 ++ y1) ltac:(apply words_app; auto)) as B2.
    rewrite nval_app, app_length, Lx0, Lx1 in B1. rewrite nval_app, app_length, Ly0, Ly1 in B2.
    rewrite <- Wp_add. replace (n2 + (n + n2))%nat with ((n2 + n2) + (n2 + n2))%nat by lia. rewrite Wp_add. nia.
Qed.

Lemma karatsuba_spec : forall f z x y, words_ok z -> words_ok x -> words_ok y -> length x = length y ->
  (length y <= f)%nat -> (6 * length y <= length z)%nat ->
  exists r, karatsuba f z x y = Ok r /\ words_ok r /\ length r = length z /\
    nval (firstn (2 * length y) r) = nval x * nval y.
Proof.
  induction f as [|f IH]; intros z x y Wz Wx Wy Lxy Hf Hz; cbn [karatsuba];
  (destruct (Nat.odd (length y) || (length y <? KARATSUBA_THRESHOLD)%nat || (length y <? 2)%nat) eqn:Eb;
   [clear IH || idtac; destruct (basic_mul_spec z x y Wx Wy ltac:(lia)) as (p & P1 & P2 & P3 & P4);
    exists (p ++ skipn (length x + length y) z); split; [auto|]; split; [apply words_app; auto using words_ok_skipn|];
    split; [rewrite app_length, skipn_length; lia|];
    rewrite firstn_app; replace (2 * length y - length p)%nat with 0%nat by lia; cbn [firstn]; rewrite app_nil_r;
    rewrite firstn_all2 by lia; auto|]).
  - apply orb_false_elim in Eb as [Eb _]. apply orb_false_elim in Eb as [_ Eb].
    apply Nat.ltb_ge in Eb. unfold KARATSUBA_THRESHOLD in Eb. lia.
  - apply orb_false_elim in Eb as [Eb _]. apply orb_false_elim in Eb as [Eo Eb]. apply Nat.ltb_ge in Eb.
    destruct (half_facts _ Eo Eb) as [Hn Hn2]. set (n := length y) in *. set (n2 := (n / 2)%nat) in *.
    assert (L0 : length (firstn n2 x) = n2) by (apply firstn_length_le; lia).
    assert (L1 : length (skipn n2 x) = n2) by (rewrite skipn_length; lia).
    assert (M0 : length (firstn n2 y) = n2) by (apply firstn_length_le; lia).
    assert (M1 : length (skipn n2 y) = n2) by (rewrite skipn_length; lia).
    destruct (IH z (firstn n2 x) (firstn n2 y)) as (r1 & R1 & R2 & R3 & R4); auto using words_ok_firstn; try lia.
    rewrite R1. cbn [bind]. rewrite M0 in R4. replace (2 * n2)%nat with n in R4 by lia.
    destruct (split_len r1 n) as (A & S1 & -> & LA); [lia|]. rewrite app_length in R3.
    assert (VA : nval A = nval (firstn n2 x) * nval (firstn n2 y)).
    { rewrite <- R4. f_equal. rewrite firstn_app, LA, Nat.sub_diag. cbn [firstn]. rewrite app_nil_r.
      symmetry. apply firstn_all2. lia. }
    apply words_ok_app in R2 as [WA WS1].
    rewrite on_suffix_app by auto.
    destruct (IH S1 (skipn n2 x) (skipn n2 y)) as (r2 & Q1 & Q2 & Q3 & Q4); auto using words_ok_skipn; try lia.
    rewrite Q1. cbn [bind]. rewrite M1 in Q4. replace (2 * n2)%nat with n in Q4 by lia.
    destruct (split_len r2 n) as (B & S2 & -> & LB); [lia|]. rewrite app_length in Q3.
    assert (VB : nval B = nval (skipn n2 x) * nval (skipn n2 y)).
    { rewrite <- Q4. f_equal. rewrite firstn_app, LB, Nat.sub_diag. cbn [firstn]. rewrite app_nil_r.
      symmetry. apply firstn_all2. lia. }
    apply words_ok_app in Q2 as [WB WS2].
    pose proof (abs_diff_spec (skipn n2 x) (firstn n2 x) ltac:(auto using words_ok_skipn) ltac:(auto using words_ok_firstn) ltac:(lia)) as (X1 & X2 & X3 & X4).
    destruct (abs_diff (skipn n2 x) (firstn n2 x)) as [xd s1]. cbn [fst snd] in *.
    pose proof (abs_diff_spec (firstn n2 y) (skipn n2 y) ltac:(auto using words_ok_firstn) ltac:(auto using words_ok_skipn) ltac:(lia)) as (Y1 & Y2 & Y3 & Y4).
    destruct (split_len S2 n2) as (D1 & S3 & -> & LD1); [lia|]. rewrite app_length in Q3.
    destruct (split_len S3 n2) as (D2 & S4 & -> & LD2); [lia|]. rewrite app_length in Q3.
    apply words_ok_app in WS2 as [_ WS2]. apply words_ok_app in WS2 as [_ WS4].
    replace (A ++ B ++ D1 ++ D2 ++ S4) with ((A ++ B) ++ D1 ++ D2 ++ S4) by (rewrite <- !app_assoc; auto).
    rewrite wr_app by (rewrite ?app_length; lia). cbn [bind].
    destruct (abs_diff (firstn n2 y) (skipn n2 y)) as [yd s2]. cbn [fst snd] in *.
    replace ((A ++ B) ++ xd ++ D2 ++ S4) with ((A ++ B ++ xd) ++ D2 ++ S4) by (rewrite <- !app_assoc; auto).
    rewrite wr_app by (rewrite ?app_length; lia). cbn [bind].
    replace ((A ++ B ++ xd) ++ yd ++ S4) with ((A ++ B ++ xd ++ yd) ++ S4) by (rewrite <- !app_assoc; auto).
    rewrite on_suffix_app by (rewrite ?app_length; lia).
    destruct (IH S4 xd yd) as (r3 & T1 & T2 & T3 & T4); auto; try lia.
    rewrite T1. cbn [bind]. replace (2 * length yd)%nat with n in T4 by lia.
    destruct (split_len r3 n) as (P & S5 & -> & LP); [lia|]. rewrite app_length in T3.
    assert (VP : nval P = nval xd * nval yd).
    { rewrite <- T4. f_equal. rewrite firstn_app, LP, Nat.sub_diag. cbn [firstn]. rewrite app_nil_r.
      symmetry. apply firstn_all2. lia. }
    apply words_ok_app in T2 as [WP WS5].
    replace ((A ++ B ++ xd ++ yd) ++ P ++ S5) with (A ++ B ++ (xd ++ yd) ++ P ++ S5) by (rewrite <- !app_assoc; auto).
    destruct (combine_tail_spec (s1 * s2) n A B (xd ++ yd) P S5 (firstn n2 x) (skipn n2 x) (firstn n2 y) (skipn n2 y)
                s1 s2 (nval xd) (nval yd)) as (r & C1 & C2 & C3 & C4); auto using words_ok_firstn, words_ok_skipn, words_app;
      try (rewrite ?app_length; lia).
    exists r. split; [exact C1|]. split; [auto|]. split.
    + rewrite C3, !app_length. lia.
    + rewrite C4, !firstn_skipn. reflexivity.
Qed.
