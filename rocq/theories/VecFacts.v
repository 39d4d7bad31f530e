(** Contracts of the word-vector primitives. *)
From Coq Require Import ZArith List Lia Bool.
From Verif Require Import Words WordsFacts NatModel NatFacts NatFacts2 VecPrims.
Import ListNotations.
Open Scope Z_scope.

Lemma ovf_add_spec a b : 0 <= a < W -> 0 <= b < W ->
  fst (ovf_add a b) + W * bit_of (snd (ovf_add a b)) = a + b /\ 0 <= fst (ovf_add a b) < W.
Proof.
  intros Ha Hb. unfold ovf_add. cbn [fst snd]. pose proof (Z.mod_pos_bound (a + b) W ltac:(lia)) as B.
  split; [|exact B]. unfold bit_of. destruct (Z.leb_spec W (a + b)).
  - rewrite <- (Z.mod_unique (a + b) W 1 (a + b - W)); lia.
  - rewrite Z.mod_small; lia.
Qed.
Lemma ovf_sub_spec a b : 0 <= a < W -> 0 <= b < W ->
  fst (ovf_sub a b) - W * bit_of (snd (ovf_sub a b)) = a - b /\ 0 <= fst (ovf_sub a b) < W.
Proof.
  intros Ha Hb. unfold ovf_sub. cbn [fst snd]. pose proof (Z.mod_pos_bound (a - b) W ltac:(lia)) as B.
  split; [|exact B]. unfold bit_of. destruct (Z.ltb_spec a b).
  - rewrite <- (Z.mod_unique (a - b) W (-1) (a - b + W)); lia.
  - rewrite Z.mod_small; lia.
Qed.
Lemma bit_of_bound b : 0 <= bit_of b <= 1.
Proof. destruct b; cbn; lia. Qed.

Lemma add_vv_loop_spec x : forall c y, words_ok x -> words_ok y -> length x = length y -> 0 <= c <= 1 ->
  let r := fst (add_vv_loop c x y) in let c' := snd (add_vv_loop c x y) in
  nval r + Wp (length x) * c' = nval x + nval y + c /\ words_ok r /\ length r = length x /\ 0 <= c' <= 1.
Proof.
  induction x as [|a x IH]; intros c [|b y] Hx Hy Hl Hc; try discriminate; cbn [add_vv_loop].
  - cbn [nval length fst snd]. change (Wp 0) with 1. split; [lia|]. split; [constructor|auto].
  - apply words_ok_cons in Hx as [Ha Hx]. apply words_ok_cons in Hy as [Hb Hy].
    pose proof (ovf_add_spec a b Ha Hb) as [E1 B1]. destruct (ovf_add a b) as [t0 c0]. cbn [fst snd] in *.
    pose proof (ovf_add_spec t0 c B1 ltac:(lia)) as [E2 B2]. destruct (ovf_add t0 c) as [t c1]. cbn [fst snd] in *.
    specialize (IH (bit_of (c0 || c1)) y Hx Hy ltac:(cbn in Hl; lia) (bit_of_bound _)).
    destruct (add_vv_loop (bit_of (c0 || c1)) x y) as [r c']. cbn [fst snd] in *.
    destruct IH as (I1 & I2 & I3 & I4). cbn [length]. rewrite !nval_cons, Wp_S.
    assert (bit_of (c0 || c1) = bit_of c0 + bit_of c1) as EB.
    { destruct c0, c1; cbn [orb bit_of] in *; lia. }
    split; [|split; [apply words_ok_cons; auto|split; [lia|auto]]]. nia.
Qed.
Lemma add_vv_spec x y : words_ok x -> words_ok y -> length x = length y ->
  let r := fst (add_vv x y) in let c' := snd (add_vv x y) in
  nval r + Wp (length x) * c' = nval x + nval y /\ words_ok r /\ length r = length x /\ 0 <= c' <= 1.
Proof. intros. unfold add_vv. pose proof (add_vv_loop_spec x 0 y) as P. rewrite Z.add_0_r in P. apply P; auto. lia. Qed.

Lemma sub_vv_loop_spec x : forall c y, words_ok x -> words_ok y -> length x = length y -> 0 <= c <= 1 ->
  let r := fst (sub_vv_loop c x y) in let c' := snd (sub_vv_loop c x y) in
  nval r - Wp (length x) * c' = nval x - nval y - c /\ words_ok r /\ length r = length x /\ 0 <= c' <= 1.
Proof.
  induction x as [|a x IH]; intros c [|b y] Hx Hy Hl Hc; try discriminate; cbn [sub_vv_loop].
  - cbn [nval length fst snd]. change (Wp 0) with 1. split; [lia|]. split; [constructor|auto].
  - apply words_ok_cons in Hx as [Ha Hx]. apply words_ok_cons in Hy as [Hb Hy].
    pose proof (ovf_sub_spec a b Ha Hb) as [E1 B1]. destruct (ovf_sub a b) as [t0 c0]. cbn [fst snd] in *.
    pose proof (ovf_sub_spec t0 c B1 ltac:(lia)) as [E2 B2]. destruct (ovf_sub t0 c) as [t c1]. cbn [fst snd] in *.
    specialize (IH (bit_of (c0 || c1)) y Hx Hy ltac:(cbn in Hl; lia) (bit_of_bound _)).
    destruct (sub_vv_loop (bit_of (c0 || c1)) x y) as [r c']. cbn [fst snd] in *.
    destruct IH as (I1 & I2 & I3 & I4). cbn [length]. rewrite !nval_cons, Wp_S.
    assert (bit_of (c0 || c1) = bit_of c0 + bit_of c1) as EB.
    { destruct c0, c1; cbn [orb bit_of] in *; lia. }
    split; [|split; [apply words_ok_cons; auto|split; [lia|auto]]]. nia.
Qed.
Lemma sub_vv_spec x y : words_ok x -> words_ok y -> length x = length y ->
  let r := fst (sub_vv x y) in let c' := snd (sub_vv x y) in
  nval r - Wp (length x) * c' = nval x - nval y /\ words_ok r /\ length r = length x /\ 0 <= c' <= 1.
Proof. intros. unfold sub_vv. pose proof (sub_vv_loop_spec x 0 y) as P. rewrite Z.sub_0_r in P. apply P; auto. lia. Qed.

Lemma add_vw_spec x : forall y, words_ok x -> 0 <= y < W ->
  let r := fst (add_vw x y) in let c' := snd (add_vw x y) in
  nval r + Wp (length x) * c' = nval x + y /\ words_ok r /\ length r = length x /\ 0 <= c' < W /\
  (x <> [] -> c' <= 1).
Proof.
  induction x as [|a x IH]; intros y Hx Hy; cbn [add_vw].
  - cbn [nval length fst snd]. change (Wp 0) with 1. split; [lia|]. split; [constructor|]. split; [auto|]. split; [auto|congruence].
  - apply words_ok_cons in Hx as [Ha Hx].
    pose proof (ovf_add_spec a y Ha Hy) as [E1 B1]. destruct (ovf_add a y) as [t c]. cbn [fst snd] in *.
    pose proof (bit_of_bound c). specialize (IH (bit_of c) Hx ltac:(lia)).
    destruct (add_vw x (bit_of c)) as [r c'] eqn:E. cbn [fst snd] in *.
    destruct IH as (I1 & I2 & I3 & I4 & I5). cbn [length]. rewrite !nval_cons, Wp_S.
    split; [nia|]. split; [apply words_ok_cons; auto|]. split; [lia|]. split; [auto|].
    intros _. destruct x; [cbn in E; injection E as <- <-; lia|]. apply I5. discriminate.
Qed.
Lemma sub_vw_spec x : forall y, words_ok x -> 0 <= y < W ->
  let r := fst (sub_vw x y) in let c' := snd (sub_vw x y) in
  nval r - Wp (length x) * c' = nval x - y /\ words_ok r /\ length r = length x /\ 0 <= c' < W /\
  (x <> [] -> c' <= 1).
Proof.
  induction x as [|a x IH]; intros y Hx Hy; cbn [sub_vw].
  - cbn [nval length fst snd]. change (Wp 0) with 1. split; [lia|]. split; [constructor|]. split; [auto|]. split; [auto|congruence].
  - apply words_ok_cons in Hx as [Ha Hx].
    pose proof (ovf_sub_spec a y Ha Hy) as [E1 B1]. destruct (ovf_sub a y) as [t c]. cbn [fst snd] in *.
    pose proof (bit_of_bound c). specialize (IH (bit_of c) Hx ltac:(lia)).
    destruct (sub_vw x (bit_of c)) as [r c'] eqn:E. cbn [fst snd] in *.
    destruct IH as (I1 & I2 & I3 & I4 & I5). cbn [length]. rewrite !nval_cons, Wp_S.
    split; [nia|]. split; [apply words_ok_cons; auto|]. split; [lia|]. split; [auto|].
    intros _. destruct x; [cbn in E; injection E as <- <-; lia|]. apply I5. discriminate.
Qed.

Lemma ovf_add_0 a : 0 <= a < W -> ovf_add a 0 = (a, false).
Proof. intros. unfold ovf_add. rewrite Z.add_0_r, Z.mod_small by lia. f_equal. apply Z.leb_gt. lia. Qed.
Lemma ovf_sub_0 a : 0 <= a < W -> ovf_sub a 0 = (a, false).
Proof. intros. unfold ovf_sub. rewrite Z.sub_0_r, Z.mod_small by lia. f_equal. apply Z.ltb_ge. lia. Qed.
Lemma add_vw_large_eq x : forall y, words_ok x -> add_vw_large x y = add_vw x y.
Proof.
  induction x as [|a x IH]; intros y Hx; [reflexivity|]. apply words_ok_cons in Hx as [Ha Hx].
  cbn [add_vw_large add_vw]. destruct (Z.eqb_spec y 0) as [->|].
  - rewrite ovf_add_0 by auto. cbn [bit_of]. rewrite IH by auto. reflexivity.
  - destruct (ovf_add a y). rewrite IH by auto. reflexivity.
Qed.
Lemma sub_vw_large_eq x : forall y, words_ok x -> sub_vw_large x y = sub_vw x y.
Proof.
  induction x as [|a x IH]; intros y Hx; [reflexivity|]. apply words_ok_cons in Hx as [Ha Hx].
  cbn [sub_vw_large sub_vw]. destruct (Z.eqb_spec y 0) as [->|].
  - rewrite ovf_sub_0 by auto. cbn [bit_of]. rewrite IH by auto. reflexivity.
  - destruct (ovf_sub a y). rewrite IH by auto. reflexivity.
Qed.

Lemma mul_add_www_spec x y c : 0 <= x < W -> 0 <= y < W -> 0 <= c < W ->
  let h := fst (mul_add_www x y c) in let l := snd (mul_add_www x y c) in
  h * W + l = x * y + c /\ 0 <= l < W /\ 0 <= h < W.
Proof.
  intros Hx Hy Hc. unfold mul_add_www. cbn [fst snd].
  pose proof (Z.div_mod (x * y + c) W ltac:(lia)). pose proof (Z.mod_pos_bound (x * y + c) W ltac:(lia)).
  split; [lia|]. split; [auto|]. split; [apply Z.div_pos; nia|apply Z.div_lt_upper_bound; nia].
Qed.

Lemma mul_add_vww_spec x y : forall r, words_ok x -> 0 <= y < W -> 0 <= r < W ->
  let l := fst (mul_add_vww x y r) in let c := snd (mul_add_vww x y r) in
  nval l + Wp (length x) * c = nval x * y + r /\ words_ok l /\ length l = length x /\ 0 <= c < W.
Proof.
  induction x as [|a x IH]; intros r Hx Hy Hr; cbn [mul_add_vww].
  - cbn [nval length fst snd]. change (Wp 0) with 1. split; [lia|]. split; [constructor|auto].
  - apply words_ok_cons in Hx as [Ha Hx].
    pose proof (mul_add_www_spec a y r Ha Hy Hr) as (E1 & B1 & B2).
    destruct (mul_add_www a y r) as [cc t]. cbn [fst snd] in *.
    specialize (IH cc Hx Hy B2). destruct (mul_add_vww x y cc) as [l c]. cbn [fst snd] in *.
    destruct IH as (I1 & I2 & I3 & I4). cbn [length]. rewrite !nval_cons, Wp_S.
    split; [nia|]. split; [apply words_ok_cons; auto|]. split; [lia|auto].
Qed.

Lemma add_mul_loop_spec z : forall c x y, words_ok z -> words_ok x -> length z = length x ->
  0 <= y < W -> 0 <= c < W ->
  let l := fst (add_mul_loop c z x y) in let c' := snd (add_mul_loop c z x y) in
  nval l + Wp (length x) * c' = nval z + nval x * y + c /\ words_ok l /\ length l = length x /\ 0 <= c' < W.
Proof.
  induction z as [|zt z IH]; intros c [|xt x] y Hz Hx Hl Hy Hc; try discriminate; cbn [add_mul_loop].
  - cbn [nval length fst snd]. change (Wp 0) with 1. split; [lia|]. split; [constructor|auto].
  - apply words_ok_cons in Hz as [Hzt Hz]. apply words_ok_cons in Hx as [Hxt Hx].
    pose proof (mul_add_www_spec xt y zt Hxt Hy Hzt) as (E1 & B1 & B2).
    destruct (mul_add_www xt y zt) as [z1 z0]. cbn [fst snd] in *.
    pose proof (ovf_add_spec z0 c B1 Hc) as [E2 B3]. destruct (ovf_add z0 c) as [lo cc]. cbn [fst snd] in *.
    assert (NC : z1 + bit_of cc < W).
    { assert (z1 * W + z0 <= (W - 1) * (W - 1) + (W - 1)) by nia.
      destruct cc; cbn [bit_of] in *; nia. }
    assert (EC : (if cc then (1 + z1) mod W else z1) = z1 + bit_of cc).
    { destruct cc; cbn [bit_of] in *; [rewrite Z.mod_small by lia; lia|lia]. }
    rewrite EC. pose proof (bit_of_bound cc).
    specialize (IH (z1 + bit_of cc) x y Hz Hx ltac:(cbn in Hl; lia) Hy ltac:(lia)).
    destruct (add_mul_loop (z1 + bit_of cc) z x y) as [l c']. cbn [fst snd] in *.
    destruct IH as (I1 & I2 & I3 & I4). cbn [length]. rewrite !nval_cons, Wp_S.
    split; [nia|]. split; [apply words_ok_cons; auto|]. split; [lia|auto].
Qed.
Lemma add_mul_vvw_spec z x y : words_ok z -> words_ok x -> length z = length x -> 0 <= y < W ->
  let l := fst (add_mul_vvw z x y) in let c' := snd (add_mul_vvw z x y) in
  nval l + Wp (length x) * c' = nval z + nval x * y /\ words_ok l /\ length l = length x /\ 0 <= c' < W.
Proof.
  intros. unfold add_mul_vvw. pose proof (add_mul_loop_spec z 0 x y) as P. rewrite Z.add_0_r in P.
  apply P; auto. lia.
Qed.

(** shifts *)
Lemma lor_shift_word a b s : 0 < s < 32 -> 0 <= a < W -> 0 <= b < 2 ^ s ->
  Z.lor ((a * 2 ^ s) mod W) b = (a * 2 ^ s) mod W + b.
Proof.
  intros Hs Ha Hb. rewrite shl_word_mod by lia. pose proof (pow2_pos s ltac:(lia)).
  apply lor_shift_add; lia.
Qed.
Lemma div_word_bound a s : 0 <= s <= 32 -> 0 <= a < W -> 0 <= a / 2 ^ (32 - s) < 2 ^ s.
Proof.
  intros Hs Ha. pose proof (pow2_pos (32 - s) ltac:(lia)). split; [apply Z.div_pos; lia|].
  apply Z.div_lt_upper_bound; [lia|]. rewrite <- pow2_split by lia. lia.
Qed.
Lemma shl_word_eq a s : 0 <= s <= 32 -> (a * 2 ^ s) mod W + W * (a / 2 ^ (32 - s)) = a * 2 ^ s.
Proof.
  intros Hs. rewrite shl_word_mod by lia. rewrite (pow2_split s) at 1 by lia.
  pose proof (pow2_pos (32 - s) ltac:(lia)). pose proof (Z.div_mod a (2 ^ (32 - s)) ltac:(lia)). nia.
Qed.

Lemma shl_words_spec s x : 0 < s < 32 -> forall prev, words_ok x -> 0 <= prev < W ->
  let r := shl_words s (32 - s) prev x in
  nval r + Wp (length x) * (last (prev :: x) 0 / 2 ^ (32 - s)) = nval x * 2 ^ s + prev / 2 ^ (32 - s) /\
  words_ok r /\ length r = length x.
Proof.
  intros Hs. induction x as [|a x IH]; intros prev Hx Hp; cbn [shl_words].
  - cbn [nval length last]. rewrite Z.pow_0_r. split; [lia|]. split; [constructor|auto].
  - apply words_ok_cons in Hx as [Ha Hx]. specialize (IH a Hx Ha). cbn [length]. destruct IH as (I1 & I2 & I3).
    pose proof (div_word_bound prev s ltac:(lia) Hp).
    rewrite lor_shift_word by auto. rewrite !nval_cons, Wp_S.
    change (last (prev :: a :: x) 0) with (last (a :: x) 0).
    pose proof (shl_word_eq a s ltac:(lia)). split; [nia|]. split; [|lia].
    apply words_ok_cons. split; [|auto].
    rewrite shl_word_mod in * by lia. pose proof (Z.mod_pos_bound a (2 ^ (32 - s)) ltac:(apply pow2_pos; lia)).
    pose proof (pow2_split s ltac:(lia)). pose proof (pow2_pos s ltac:(lia)). nia.
Qed.

Lemma shl_vu_inner_spec x s : words_ok x -> 0 <= s < 32 ->
  let r := fst (shl_vu_inner x s) in let c := snd (shl_vu_inner x s) in
  nval r + Wp (length x) * c = nval x * 2 ^ s /\ words_ok r /\ length r = length x /\ 0 <= c < 2 ^ s.
Proof.
  intros Hx Hs. unfold shl_vu_inner. destruct (Z.eqb_spec s 0) as [->|N]; cbn [orb fst snd].
  { rewrite Z.mul_0_r, Z.pow_0_r. split; [lia|]. split; [auto|]. split; [auto|lia]. }
  destruct x as [|a x]; cbn [is_nan fst snd].
  { cbn [nval length]. split; [lia|]. split; [auto|]. split; [auto|]. split; [lia|apply pow2_pos; lia]. }
  apply words_ok_cons in Hx as [Ha Hx].
  rewrite (Z.mod_small s) by lia. rewrite (Z.mod_small (32 - s)) by lia.
  cbn [shl_body]. pose proof (shl_words_spec s x ltac:(lia) a Hx Ha) as (I1 & I2 & I3).
  pose proof (shl_word_eq a s ltac:(lia)). cbn [length]. rewrite !nval_cons, Wp_S.
  split; [nia|]. split; [apply words_ok_cons; split; [apply Z.mod_pos_bound; lia|auto]|].
  split; [lia|]. apply div_word_bound; [lia|]. apply words_ok_last. apply words_ok_cons. auto.
Qed.

Lemma shr_words_spec s x : 0 < s < 32 -> words_ok x ->
  let r := shr_words s (32 - s) x in
  nval r = nval x / 2 ^ s /\ words_ok r /\ length r = length x.
Proof.
  intros Hs Hx. pose proof (pow2_pos s ltac:(lia)) as P. pose proof (pow2_pos (32 - s) ltac:(lia)) as P2.
  pose proof (pow2_split s ltac:(lia)) as PS.
  induction x as [|a x IH]; [split; [reflexivity|split; [constructor|auto]]|].
  apply words_ok_cons in Hx as [Ha Hx]. specialize (IH Hx). destruct IH as (I1 & I2 & I3).
  assert (Da : 0 <= a / 2 ^ s < 2 ^ (32 - s)).
  { split; [apply Z.div_pos; lia|]. apply Z.div_lt_upper_bound; lia. }
  destruct x as [|b x].
  - cbn [shr_words length]. rewrite !nval_cons. cbn [nval]. rewrite Z.mul_0_r, !Z.add_0_r.
    split; [auto|]. split; [apply words_ok_cons; split; [nia|constructor]|auto].
  - set (y := b :: x) in *. change (shr_words s (32 - s) (a :: y)) with
      (Z.lor (a / 2 ^ s) ((b * 2 ^ (32 - s)) mod W) :: shr_words s (32 - s) y).
    assert (Hb : 0 <= b < W) by (unfold y in Hx; apply words_ok_cons in Hx as [? ?]; auto).
    rewrite shl_word_mod by lia. replace (32 - (32 - s)) with s by lia.
    rewrite Z.lor_comm, lor_shift_add by lia. pose proof (Z.mod_pos_bound b (2 ^ s) P) as Mb.
    cbn [length]. rewrite !nval_cons. rewrite I1.
    assert (Eb : nval y mod 2 ^ s = b mod 2 ^ s).
    { unfold y. rewrite nval_cons, PS, <- Z.mul_assoc, (Z.mul_comm (2 ^ (32 - s))), <- Z.mul_assoc, (Z.mul_comm (2 ^ s)).
      apply Z.mod_add. lia. }
    split.
    + pose proof (Z.div_mod (nval y) (2 ^ s) ltac:(lia)) as D. rewrite Eb in D.
      pose proof (Z.div_mod a (2 ^ s) ltac:(lia)) as D2. pose proof (Z.mod_pos_bound a (2 ^ s) P).
      apply (Z.div_unique_pos _ _ _ (a mod 2 ^ s)); [lia|]. nia.
    + split; [|lia]. apply words_ok_cons. split; [nia|auto].
Qed.

Lemma shr_vu_spec x s : words_ok x -> 0 <= s < 32 ->
  let r := fst (shr_vu x s) in let c := snd (shr_vu x s) in
  nval r = nval x / 2 ^ s /\ c = (nval x mod 2 ^ s) * 2 ^ (32 - s) /\ words_ok r /\ length r = length x.
Proof.
  intros Hx Hs. unfold shr_vu. destruct (Z.eqb_spec s 0) as [->|N]; cbn [orb fst snd].
  { rewrite Z.pow_0_r, Z.div_1_r, Z.mod_1_r. auto. }
  pose proof (pow2_pos s ltac:(lia)) as P. pose proof (pow2_split s ltac:(lia)) as PS.
  destruct x as [|a x]; cbn [is_nan fst snd].
  { cbn [nval]. rewrite Z.div_0_l, Z.mod_0_l by lia. auto. }
  rewrite (Z.mod_small s) by lia. rewrite (Z.mod_small (32 - s)) by lia. cbn [hd].
  destruct (shr_words_spec s (a :: x) ltac:(lia) Hx) as (I1 & I2 & I3).
  split; [auto|]. split; [|auto]. rewrite shl_word_mod by lia. replace (32 - (32 - s)) with s by lia.
  f_equal. rewrite nval_cons, PS, <- Z.mul_assoc, (Z.mul_comm (2 ^ (32 - s))), <- Z.mul_assoc, (Z.mul_comm (2 ^ s)).
  symmetry. apply Z.mod_add. lia.
Qed.
