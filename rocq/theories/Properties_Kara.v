(** Karatsuba multiplication, squaring and the word-vector primitives. *)
From Coq Require Import ZArith List Lia Bool.
From Verif Require Import Words Spec WordsFacts NatModel NatFacts NatFacts2 NatFacts5 VecPrims VecFacts Karatsuba KaraFacts KaraFacts2.
Import ListNotations.
Open Scope Z_scope.

(** ** C20: the product for operands of every length.  [Ok] also says that no
    word outside the buffer is read or written. *)
Theorem C20_mul_karatsuba : forall a b, canon a -> canon b ->
  exists r, mul_karatsuba a b = Ok r /\ represents r (nval a * nval b).
Proof.
  intros a b Ha Hb. exists (of_Z (nval a * nval b)). split; [apply mul_karatsuba_of_Z; auto|].
  pose proof (canon_nonneg a Ha). pose proof (canon_nonneg b Hb). apply rep_of_Z. nia.
Qed.
Theorem C20_mul_karatsuba_nan : forall a b, a = nan \/ b = nan -> mul_karatsuba a b = Ok nan.
Proof.
  assert (N : forall a, mul_by_karatsuba (length a + 0) a [] = Ok []).
  { intros a. destruct (length a + 0)%nat; cbn [mul_by_karatsuba length];
    (assert ((length a <? 0)%nat = false) as -> by (apply Nat.ltb_ge; lia)); reflexivity. }
  intros a b [-> | ->]; unfold mul_karatsuba, nan; cbn [length].
  - destruct b as [|w b]; [reflexivity|].
    rewrite mul_by_karatsuba_swap by (cbn [length]; lia). rewrite Nat.add_comm, N. reflexivity.
  - rewrite N. reflexivity.
Qed.
(** The recursive core on one buffer: [x], [y] of one length, any buffer of at
    least six times that length. *)
Theorem C20_karatsuba_buffer : forall z x y, words_ok z -> words_ok x -> words_ok y ->
  length x = length y -> (6 * length y <= length z)%nat ->
  exists r, karatsuba (length y) z x y = Ok r /\ length r = length z /\
    has_value (firstn (2 * length y) r) (nval x * nval y).
Proof.
  intros z x y Wz Wx Wy Hl Hz.
  destruct (karatsuba_spec (length y) z x y) as (r & R1 & R2 & R3 & R4); auto.
  exists r. split; [auto|]. split; [auto|]. split; auto using words_ok_firstn.
Qed.
Definition c20_x : list Z := repeat 4294967295 41.
Definition c20_y : list Z := map (fun i => Z.of_nat i * 77777777 mod W) (seq 1 43).
Example C20_case : mul_karatsuba c20_x c20_y = Ok (of_Z (nval c20_x * nval c20_y))
  /\ mul_karatsuba c20_y c20_x = Ok (of_Z (nval c20_x * nval c20_y))
  /\ karatsuba_len 41 KARATSUBA_THRESHOLD = 40%nat.
Proof. vm_compute. repeat split. Qed.
Print Assumptions C20_mul_karatsuba.
Print Assumptions C20_mul_karatsuba_nan.
Print Assumptions C20_karatsuba_buffer.

(** ** C21 *)
Theorem C21_nat_sqr : forall a, canon a ->
  exists r, nat_sqr a = Ok r /\ represents r (nval a ^ 2).
Proof.
  intros a Ha. exists (of_Z (nval a ^ 2)). rewrite Z.pow_2_r.
  split; [apply nat_sqr_of_Z; auto|]. apply rep_of_Z. nia.
Qed.
Theorem C21_nat_sqr_nan : nat_sqr nan = Ok nan.
Proof. reflexivity. Qed.
Definition c21_x : list Z := map (fun i => Z.of_nat i * 987654321 mod W) (seq 1 40).
Example C21_case : nat_sqr (repeat 4294967295 22) = Ok (of_Z ((W ^ 22 - 1) ^ 2))
  /\ bind (karatsuba_sqr 40 (repeat 5 240) c21_x) (fun r => Ok (nval (firstn 80 r))) = Ok (nval c21_x ^ 2)
  /\ nat_sqr [4294967295; 7] = Ok (of_Z ((4294967295 + 7 * W) ^ 2)).
Proof. vm_compute. repeat split. Qed.
Print Assumptions C21_nat_sqr.
Print Assumptions C21_nat_sqr_nan.

(** ** C29: contracts of the primitives used by the crate *)
Theorem C29_add_vv : forall x y, words_ok x -> words_ok y -> length x = length y ->
  exists r c, add_vv x y = (r, c) /\ words_ok r /\ length r = length x /\ 0 <= c <= 1 /\
    nval r + c * 2 ^ (32 * Z.of_nat (length x)) = nval x + nval y.
Proof.
  intros x y Wx Wy Hl. pose proof (add_vv_spec x y Wx Wy Hl) as (E1 & E2 & E3 & E4).
  destruct (add_vv x y) as [r c]. exists r, c. cbn [fst snd] in *. rewrite <- Wp_pow2. repeat split; auto; lia.
Qed.
Theorem C29_sub_vv : forall x y, words_ok x -> words_ok y -> length x = length y ->
  exists r c, sub_vv x y = (r, c) /\ words_ok r /\ length r = length x /\ 0 <= c <= 1 /\
    nval r - c * 2 ^ (32 * Z.of_nat (length x)) = nval x - nval y.
Proof.
  intros x y Wx Wy Hl. pose proof (sub_vv_spec x y Wx Wy Hl) as (E1 & E2 & E3 & E4).
  destruct (sub_vv x y) as [r c]. exists r, c. cbn [fst snd] in *. rewrite <- Wp_pow2. repeat split; auto; lia.
Qed.
Theorem C29_add_vw : forall x y, words_ok x -> 0 <= y < W ->
  exists r c, add_vw x y = (r, c) /\ add_vw_large x y = (r, c) /\ words_ok r /\ length r = length x /\ 0 <= c < W /\
    (x <> [] -> c <= 1) /\ nval r + c * 2 ^ (32 * Z.of_nat (length x)) = nval x + y.
Proof.
  intros x y Wx Hy. rewrite add_vw_large_eq by auto. pose proof (add_vw_spec x y Wx Hy) as (E1 & E2 & E3 & E4 & E5).
  destruct (add_vw x y) as [r c]. exists r, c. cbn [fst snd] in *. rewrite <- Wp_pow2. repeat split; auto; lia.
Qed.
Theorem C29_sub_vw : forall x y, words_ok x -> 0 <= y < W ->
  exists r c, sub_vw x y = (r, c) /\ sub_vw_large x y = (r, c) /\ words_ok r /\ length r = length x /\ 0 <= c < W /\
    (x <> [] -> c <= 1) /\ nval r - c * 2 ^ (32 * Z.of_nat (length x)) = nval x - y.
Proof.
  intros x y Wx Hy. rewrite sub_vw_large_eq by auto. pose proof (sub_vw_spec x y Wx Hy) as (E1 & E2 & E3 & E4 & E5).
  destruct (sub_vw x y) as [r c]. exists r, c. cbn [fst snd] in *. rewrite <- Wp_pow2. repeat split; auto; lia.
Qed.
Theorem C29_mul_add_vww : forall x y c0, words_ok x -> 0 <= y < W -> 0 <= c0 < W ->
  exists r c, mul_add_vww x y c0 = (r, c) /\ words_ok r /\ length r = length x /\ 0 <= c < W /\
    nval r + c * 2 ^ (32 * Z.of_nat (length x)) = nval x * y + c0.
Proof.
  intros x y c0 Wx Hy Hc. pose proof (mul_add_vww_spec x y c0 Wx Hy Hc) as (E1 & E2 & E3 & E4).
  destruct (mul_add_vww x y c0) as [r c]. exists r, c. cbn [fst snd] in *. rewrite <- Wp_pow2. repeat split; auto; lia.
Qed.
Theorem C29_add_mul_vvw : forall z x y, words_ok z -> words_ok x -> length z = length x -> 0 <= y < W ->
  exists r c, add_mul_vvw z x y = (r, c) /\ words_ok r /\ length r = length x /\ 0 <= c < W /\
    nval r + c * 2 ^ (32 * Z.of_nat (length x)) = nval z + nval x * y.
Proof.
  intros z x y Wz Wx Hl Hy. pose proof (add_mul_vvw_spec z x y Wz Wx Hl Hy) as (E1 & E2 & E3 & E4).
  destruct (add_mul_vvw z x y) as [r c]. exists r, c. cbn [fst snd] in *. rewrite <- Wp_pow2. repeat split; auto; lia.
Qed.
Theorem C29_shl_vu_inner : forall x s, words_ok x -> 0 <= s < 32 ->
  exists r c, shl_vu_inner x s = (r, c) /\ words_ok r /\ length r = length x /\ 0 <= c < 2 ^ s /\
    nval r + c * 2 ^ (32 * Z.of_nat (length x)) = nval x * 2 ^ s.
Proof.
  intros x s Wx Hs. pose proof (shl_vu_inner_spec x s Wx Hs) as (E1 & E2 & E3 & E4).
  destruct (shl_vu_inner x s) as [r c]. exists r, c. cbn [fst snd] in *. rewrite <- Wp_pow2. repeat split; auto; lia.
Qed.
Theorem C29_shr_vu : forall x s, words_ok x -> 0 <= s < 32 ->
  exists r c, shr_vu x s = (r, c) /\ words_ok r /\ length r = length x /\
    nval r * 2 ^ 32 + c = nval x * 2 ^ (32 - s) /\ nval r = nval x / 2 ^ s.
Proof.
  intros x s Wx Hs. pose proof (shr_vu_spec x s Wx Hs) as (E1 & E2 & E3 & E4).
  destruct (shr_vu x s) as [r c]. exists r, c. cbn [fst snd] in *. repeat split; auto.
  rewrite E1, E2. change (2 ^ 32) with W. rewrite (pow2_split s) by lia.
  pose proof (pow2_pos s ltac:(lia)). pose proof (Z.div_mod (nval x) (2 ^ s) ltac:(lia)). nia.
Qed.
Theorem C29_mul_add_www : forall x y c, 0 <= x < W -> 0 <= y < W -> 0 <= c < W ->
  exists h l, mul_add_www x y c = (h, l) /\ h * 2 ^ 32 + l = x * y + c /\ 0 <= h < W /\ 0 <= l < W.
Proof.
  intros x y c Hx Hy Hc. pose proof (mul_add_www_spec x y c Hx Hy Hc) as (E1 & E2 & E3).
  destruct (mul_add_www x y c) as [h l]. exists h, l. cbn [fst snd] in *. auto.
Qed.
Theorem C29_div_ww : forall u1 u0 v, 0 <= u1 < v -> 0 <= u0 < W -> v < W ->
  exists q r, div_ww u1 u0 v = Ok (q, r) /\ u1 * 2 ^ 32 + u0 = q * v + r /\ 0 <= r < v /\ 0 <= q < W.
Proof.
  intros u1 u0 v H1 H0 Hv. unfold div_ww. destruct (Z.eqb_spec v 0); [lia|].
  assert (B : 0 <= (u1 * W + u0) / v < W) by (split; [apply Z.div_pos; nia|apply Z.div_lt_upper_bound; nia]).
  rewrite Z.mod_small by auto. eexists _, _. split; [reflexivity|].
  pose proof (Z.div_mod (u1 * W + u0) v ltac:(lia)). pose proof (Z.mod_pos_bound (u1 * W + u0) v ltac:(lia)).
  change (2 ^ 32) with W. repeat split; try lia.
Qed.
Example C29_case : add_vv [4294967295; 4294967295] [1; 0] = ([0; 0], 1)
  /\ sub_vv [0; 0] [1; 0] = ([4294967295; 4294967295], 1)
  /\ shl_vu_inner [2147483648; 3221225472] 1 = ([0; 2147483649], 1)
  /\ shr_vu [3; 5] 1 = ([2147483649; 2], 2147483648)
  /\ add_mul_vvw [4294967295; 4294967295] [4294967295; 4294967295] 4294967295 = ([0; 4294967295], 4294967295)
  /\ div_ww 6 1 7 = Ok (3681400539, 4).
Proof. vm_compute. repeat split. Qed.
Print Assumptions C29_add_vv.
Print Assumptions C29_sub_vv.
Print Assumptions C29_add_vw.
Print Assumptions C29_sub_vw.
Print Assumptions C29_mul_add_vww.
Print Assumptions C29_add_mul_vvw.
Print Assumptions C29_shl_vu_inner.
Print Assumptions C29_shr_vu.
Print Assumptions C29_mul_add_www.
Print Assumptions C29_div_ww.

(** ** C67: the two slice primitives no caller uses *)
Theorem C67_shl_vu_refuted : ~ (forall x s, words_ok x -> 0 <= s < 32 ->
  nval (fst (shl_vu x s)) + snd (shl_vu x s) * 2 ^ (32 * Z.of_nat (length x)) = nval x * 2 ^ s).
Proof. intros H. specialize (H [3] 1 ltac:(repeat constructor; lia) ltac:(lia)). discriminate H || (vm_compute in H; discriminate). Qed.
Print Assumptions C67_shl_vu_refuted.
(** The words written are right; the outgoing word is right for s = 0 and s = 16 only. *)
Theorem C67_shl_vu_words_partial : forall x s, words_ok x -> 0 <= s < 32 ->
  fst (shl_vu x s) = fst (shl_vu_inner x s) /\ (s = 0 \/ s = 16 -> shl_vu x s = shl_vu_inner x s).
Proof.
  intros x s Wx Hs. unfold shl_vu, shl_vu_inner. destruct ((s =? 0) || is_nan x) eqn:E; [auto|].
  split; [reflexivity|]. intros [-> | ->]; [discriminate|reflexivity].
Qed.
Print Assumptions C67_shl_vu_words_partial.
Theorem C67_div_wvw_refuted : ~ (forall x y, words_ok x -> 0 < y < W ->
  exists q r, div_wvw 0 x y = Ok (q, r) /\ nval x = nval q * y + r /\ 0 <= r < y).
Proof.
  intros H. destruct (H [0; 1] 2 ltac:(repeat constructor; lia) ltac:(lia)) as (q & r & E & V & _).
  vm_compute in E. injection E as <- <-. vm_compute in V. discriminate.
Qed.
Print Assumptions C67_div_wvw_refuted.
(** It divides the number whose most significant word comes first. *)
Theorem C67_div_wvw_big_endian_partial : forall x xn y, words_ok x -> 0 <= xn < y -> y < W ->
  exists q r, div_wvw xn x y = Ok (q, r) /\ length q = length x /\ words_ok q /\ 0 <= r < y /\
    nval (rev (xn :: x)) = nval (rev q) * y + r.
Proof.
  induction x as [|a x IH]; intros xn y Wx Hx Hy; cbn [div_wvw].
  - exists [], xn. cbn [rev app nval length]. repeat split; auto; try lia.
  - apply words_ok_cons in Wx as [Ha Wx].
    destruct (C29_div_ww xn a y ltac:(lia) Ha Hy) as (q & r & E & V & B1 & B2). rewrite E. cbn [bind].
    destruct (IH r y Wx B1 Hy) as (l & r' & F1 & F2 & F3 & F4 & F5). rewrite F1. cbn [bind].
    exists (q :: l), r'. split; [auto|]. cbn [length]. split; [lia|]. split; [constructor; auto|]. split; [auto|].
    cbn [rev] in *. rewrite !nval_app in *. rewrite !app_length, !rev_length in *. cbn [nval length] in *. rewrite F2.
    rewrite Nat.add_1_r, Wp_S. change (2 ^ 32) with W in V. nia.
Qed.
Print Assumptions C67_div_wvw_big_endian_partial.
Example C67_case : shl_vu [1] 1 = ([2], 0) /\ shl_vu [2147483648] 1 = ([0], 1073741824) /\ div_wvw 0 [0; 1] 2 = Ok ([0; 0], 1).
Proof. vm_compute. repeat split. Qed.
