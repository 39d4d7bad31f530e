(** Linear congruences, products of ranges, binomials, powers and roots of [BigInt]. *)
From Coq Require Import ZArith List Lia Bool Znumtheory.
From Verif Require Import Words Spec WordsFacts NatModel NatFacts NatFacts2 NatFacts3 NatFacts4 NatFacts5
  NatConv NatConvFacts NatPow NatPowFacts VecPrims VecFacts Karatsuba KaraFacts KaraFacts2 NatExp NatExpFacts NatExpFacts2
  BigInt SpecInt BigIntFacts BigIntFacts2 BigIntFacts3.
Import ListNotations.
Open Scope Z_scope.

(* ------------------------------------------------------------------ *)
(** * solve_mod_linear_equation *)

Definition sol (x0 nd m : Z) (j : nat) : Z := (x0 + Z.of_nat j * nd) mod m.

Lemma solve_loop_spec d x0 nd m : 0 <= x0 -> 0 <= nd -> 0 < m -> forall cnt s, Z.of_nat s + Z.of_nat cnt = d ->
  solve_loop cnt (zint (Z.of_nat s)) (zint d) (zint x0) (zint nd) (zint m) =
  Ok (map zint (map (sol x0 nd m) (seq s cnt))).
Proof.
  intros Hx Hn Hm. induction cnt as [|cnt IH]; intros s E; cbn [solve_loop].
  - rewrite zint_lt. destruct (Z.ltb_spec (Z.of_nat s) d); [lia|]. reflexivity.
  - rewrite zint_lt. destruct (Z.ltb_spec (Z.of_nat s) d); [|lia].
    rewrite zint_clone, zint_mul, zint_add, zint_clone, zint_rem_euclid_pos by nia. cbn [bind].
    rewrite zint_u32, zint_add by lia. replace (Z.of_nat s + 1) with (Z.of_nat (S s)) by lia.
    rewrite IH by lia. cbn [bind seq map]. unfold sol at 2. rewrite (Z.abs_eq m) by lia. reflexivity.
Qed.

(** The residues [x0 + j (m/d)], [j < d], are exactly the residues congruent to
    [x0] modulo [m/d]. *)
Lemma sol_in x0 d m z : 0 < d -> (d | m) -> 0 < m ->
  In z (map (sol x0 (m / d) m) (seq 0 (Z.to_nat d))) <-> 0 <= z < m /\ z mod (m / d) = x0 mod (m / d).
Proof.
  intros Hd [e He] Hm. assert (Em : m / d = e) by (subst; apply Z.div_mul; lia). rewrite Em.
  assert (Pe : 0 < e) by nia. rewrite in_map_iff. unfold sol. split.
  - intros (j & <- & Hj). split; [apply Z.mod_pos_bound; auto|].
    rewrite <- Zmod_div_mod; [|lia|lia|exists d; lia].
    apply Z_mod_plus_full.
  - intros [Bz Ez].
    assert (D : exists t, z = x0 + t * e).
    { exists ((z / e) - (x0 / e)). pose proof (Z.div_mod z e ltac:(lia)). pose proof (Z.div_mod x0 e ltac:(lia)). nia. }
    destruct D as [t Et]. exists (Z.to_nat (t mod d)). pose proof (Z.mod_pos_bound t d Hd) as MB.
    split; [|apply in_seq; lia]. rewrite Z2Nat.id by lia.
    pose proof (Z.div_mod t d ltac:(lia)) as DM.
    replace (x0 + t mod d * e) with (z + (- (t / d)) * m) by (replace (t mod d) with (t - d * (t / d)) by lia; rewrite He, Et; ring).
    rewrite Z_mod_plus_full. apply Z.mod_small; auto.
Qed.

Lemma nodup_map {A B} (f : A -> B) l : (forall x y, In x l -> In y l -> f x = f y -> x = y) ->
  NoDup l -> NoDup (map f l).
Proof.
  induction l as [|a l IH]; intros Hf Hl; cbn [map]; [constructor|]. inversion Hl; subst.
  constructor; [|apply IH; auto; intros; apply Hf; auto using in_cons].
  rewrite in_map_iff. intros (b & E & Hb). apply Hf in E; auto using in_eq, in_cons. subst. auto.
Qed.

Lemma sol_nodup x0 d m : 0 < d -> (d | m) -> 0 < m ->
  NoDup (map (sol x0 (m / d) m) (seq 0 (Z.to_nat d))).
Proof.
  intros Hd [e He] Hm. assert (Em : m / d = e) by (subst; apply Z.div_mul; lia). rewrite Em.
  assert (Pe : 0 < e) by nia. apply nodup_map; [|apply seq_NoDup].
  intros i j Hi Hj E. apply in_seq in Hi, Hj. unfold sol in E.
  assert (D : (m | (x0 + Z.of_nat i * e) - (x0 + Z.of_nat j * e))).
  { apply Z.mod_divide; [lia|]. rewrite Zminus_mod, E, Z.sub_diag. apply Z.mod_0_l. lia. }
  destruct D as [c Hc]. subst m. assert (Z.of_nat i - Z.of_nat j = c * d) by nia. 
  assert (c = 0) by nia. nia.
Qed.

Lemma cong_sub a b m : 0 < m -> a mod m = b mod m <-> (m | a - b).
Proof.
  intros Hm. rewrite <- Z.mod_divide by lia. split; intros E.
  - rewrite Zminus_mod, E, Z.sub_diag. apply Z.mod_0_l. lia.
  - replace a with (b + (a - b)) by ring. rewrite Zplus_mod, E, Z.add_0_r, Z.mod_mod by lia. reflexivity.
Qed.

Lemma b_solve_spec a b n : n <> 0 -> 0 <= b ->
  exists r, b_solve (zint a) (zint b) (zint n) = Ok r /\
  match r with
  | Some l => exists zs, l = map zint zs /\ NoDup zs /\
      forall z, In z zs <-> 0 <= z < Z.abs n /\ (a * z) mod Z.abs n = b mod Z.abs n
  | None => forall z, (a * z) mod Z.abs n <> b mod Z.abs n
  end.
Proof.
  intros Hn Hb. unfold b_solve. rewrite !zint_clone, !zint_not_nan, !zint_is_negative, zint_abs. cbn [orb].
  assert (EN : (if n <? 0 then zint (Z.abs n) else zint n) = zint (Z.abs n)) by (destruct (Z.ltb_spec n 0); f_equal; lia).
  rewrite EN. set (m := Z.abs n). assert (Hm : 0 < m) by lia.
  assert (MM : Z.abs m = m) by lia.
  set (g := if a <? 0 then (if a mod m =? 0 then m else a mod m) else a).
  assert (Eg : (if a <? 0 then b_rem_euclid (zint a) (zint m) else Ok (zint a)) = Ok (zint g)).
  { unfold g. destruct (Z.ltb_spec a 0) as [L|L]; [|reflexivity].
    rewrite zint_rem_euclid, MM by lia. destruct (Z.ltb_spec a 0); [|lia]. reflexivity. }
  rewrite Eg. cbn [bind]. pose proof (Z.mod_pos_bound a m Hm) as MB.
  assert (Cg : g mod m = a mod m).
  { unfold g. destruct (Z.ltb_spec a 0); [|reflexivity].
    destruct (Z.eqb_spec (a mod m) 0) as [E|E]; [rewrite Z_mod_same_full; auto|apply Z.mod_mod; lia]. }
  assert (CA : forall z, (a * z) mod m = (g * z) mod m).
  { intros. rewrite <- Zmult_mod_idemp_l, <- Cg, Zmult_mod_idemp_l. reflexivity. }
  destruct (b_gcd_spec g m) as (x & y & E & BZ & _). rewrite E. cbn [bind].
  set (d := Z.gcd g m) in *.
  assert (GP : 0 < d).
  { pose proof (Z.gcd_nonneg g m). destruct (Z.eq_dec d 0) as [Z0|]; [|lia]. apply Z.gcd_eq_0_r in Z0. lia. }
  assert (Dg : (d | g)) by apply Z.gcd_divide_l. assert (Dm : (d | m)) by apply Z.gcd_divide_r.
  rewrite zint_u32, zint_gt, zint_eq by lia.
  replace (d >? 0) with true by (symmetry; apply Z.gtb_lt; lia).
  assert (ED : (if b =? 0 then Ok true else do r <- b_rem (zint b) (zint d); Ok (b_eq_u32 r 0)) = Ok (b mod d =? 0)).
  { destruct (Z.eqb_spec b 0) as [->|]; [rewrite Z.mod_0_l by lia; reflexivity|].
    rewrite zint_rem by lia. cbn [bind]. rewrite zint_eq_u32, Z.rem_mod_nonneg by lia. reflexivity. }
  rewrite ED. cbn [bind].
  destruct (Z.eqb_spec (b mod d) 0) as [E0|E0].
  - rewrite zint_div, Z.quot_div_nonneg by lia. cbn [bind]. rewrite zint_mul, zint_clone, zint_rem_euclid, MM by lia. cbn [bind].
    set (q := b / d). assert (Eb : b = d * q) by (pose proof (Z.div_mod b d ltac:(lia)); unfold q; lia).
    set (x0 := if _ && _ then m else (x * q) mod m).
    pose proof (Z.mod_pos_bound (x * q) m Hm) as MX.
    assert (X0 : 0 <= x0) by (unfold x0; destruct (_ && _); lia).
    assert (CX : x0 mod m = (x * q) mod m).
    { unfold x0. destruct (Z.ltb_spec (x * q) 0), (Z.eqb_spec ((x * q) mod m) 0) as [Ez|Ez]; cbn [andb];
        try (rewrite Z.mod_mod by lia; reflexivity). rewrite Z_mod_same_full. auto. }
    rewrite zint_clone, zint_div, Z.quot_div_nonneg by lia. cbn [bind].
    rewrite zint_nat, Z.abs_eq, of_Z_val by lia.
    assert (NDp : 0 < m / d) by (destruct Dm as [c Hc]; rewrite Hc, Z.div_mul by lia; nia).
    change (zint 0) with (zint (Z.of_nat 0)). rewrite solve_loop_spec by lia. cbn [bind].
    eexists. split; [reflexivity|]. eexists. split; [reflexivity|].
    split; [apply sol_nodup; auto|]. intros z. rewrite sol_in, CA by auto.
    set (e := m / d) in *. assert (Em : m = d * e).
    { destruct Dm as [c Hc]. unfold e. rewrite Hc, Z.div_mul by lia. lia. }
    destruct Dg as [g' Hg].
    assert (BZ' : g' * x + e * y = 1) by (apply (Z.mul_cancel_l _ _ d); [lia|]; nia).
    assert (CX' : x0 mod e = (x * q) mod e).
    { rewrite (Zmod_div_mod e m x0), CX, <- Zmod_div_mod; auto; try lia; exists d; lia. }
    rewrite CX'. clear CX CX' ED E EN Eg CA.
    assert (IFF : (g * z) mod m = b mod m <-> z mod e = (x * q) mod e); [|tauto].
    rewrite !cong_sub by lia. split.
    + intros [c Hc]. assert (g' * z - q = c * e) by nia.
      exists (x * c + y * z). 
      replace (z - x * q) with (x * (g' * z - q) + z * (1 - g' * x)) by ring.
      rewrite <- BZ' at 1. rewrite H. ring.
    + intros [c Hc]. exists (g' * c - y * q).
      replace (g * z - b) with (d * (g' * (z - x * q) + q * (g' * x - 1))) by (rewrite Hg, Eb; ring).
      rewrite <- BZ' at 1. rewrite Hc, Em. ring.
  - eexists. split; [reflexivity|]. intros z. rewrite CA. intros Ez. apply E0.
    rewrite (Zmod_div_mod d m b), <- Ez, <- Zmod_div_mod by (auto; lia).
    destruct Dg as [g' Hg]. rewrite Hg. replace (g' * d * z) with (g' * z * d) by ring. apply Z.mod_mul. lia.
Qed.

(** Negative right-hand sides are never solved. *)
Lemma b_solve_negative a b n : n <> 0 -> b < 0 -> b_solve (zint a) (zint b) (zint n) = Ok None.
Proof.
  intros Hn Hb. unfold b_solve. rewrite !zint_clone, !zint_not_nan, !zint_is_negative, zint_abs. cbn [orb].
  assert (EN : (if n <? 0 then zint (Z.abs n) else zint n) = zint (Z.abs n)) by (destruct (Z.ltb_spec n 0); f_equal; lia).
  rewrite EN. set (m := Z.abs n). assert (Hm : 0 < m) by lia.
  assert (Eg : exists g, (if a <? 0 then b_rem_euclid (zint a) (zint m) else Ok (zint a)) = Ok (zint g)).
  { destruct (Z.ltb_spec a 0) as [L|L]; [|eauto]. rewrite zint_rem_euclid by lia. eauto. }
  destruct Eg as [g Eg]. rewrite Eg. cbn [bind].
  destruct (b_gcd_spec g m) as (x & y & E & _). rewrite E. cbn [bind].
  set (d := Z.gcd g m) in *.
  assert (GP : 0 < d).
  { pose proof (Z.gcd_nonneg g m). destruct (Z.eq_dec d 0) as [Z0|]; [|lia]. apply Z.gcd_eq_0_r in Z0. lia. }
  rewrite zint_u32, zint_gt, zint_eq by lia.
  replace (d >? 0) with true by (symmetry; apply Z.gtb_lt; lia).
  destruct (Z.eqb_spec b 0); [lia|]. rewrite b_rem_raw by lia. cbn [bind].
  unfold b_eq_u32. cbn [bneg]. destruct (Z.ltb_spec b 0); [|lia]. reflexivity.
Qed.

(* ------------------------------------------------------------------ *)
(** * mul_range *)

Lemma resize_nval l n : (length l <= n)%nat -> nval (resize l n 0) = nval l.
Proof. intros. rewrite resize_grow, nval_app, nval_repeat0 by auto. lia. Qed.
Lemma resize_words l n : words_ok l -> (length l <= n)%nat -> words_ok (resize l n 0).
Proof. intros. rewrite resize_grow by auto. apply words_ok_app; auto using words_ok_repeat0. Qed.
Lemma resize_len l n : (length l <= n)%nat -> length (resize l n 0) = n.
Proof. intros. rewrite resize_grow, app_length, repeat_length by auto. lia. Qed.

Lemma mul_range_step_spec v e : 0 <= v -> 0 <= e < 2 ^ 64 -> mul_range_step (of_Z v) e = of_Z (v * e).
Proof.
  intros Hv He. unfold mul_range_step.
  assert (W0 : 0 < W) by reflexivity. assert (WW : W * W = 2 ^ 64) by reflexivity.
  pose proof (Z.mod_pos_bound e W W0) as ML. pose proof (Z.div_mod e W ltac:(lia)) as DM.
  assert (HH : 0 <= e / W < W).
  { split; [apply Z.div_pos; lia|]. apply Z.div_lt_upper_bound; lia. }
  destruct (mul_add_ww_spec (of_Z v) (e / W)) as (C1 & V1 & _); auto using of_Z_words, of_Z_nonnil.
  destruct (mul_add_ww_spec (of_Z v) (e mod W)) as (C2 & V2 & _); auto using of_Z_words, of_Z_nonnil.
  set (h := mul_add_ww (of_Z v) (e / W) 0) in *. set (lo := mul_add_ww (of_Z v) (e mod W) 0) in *.
  destruct (shl_inner_spec h 32 (canon_words h C1) ltac:(lia)) as [V3 W3].
  change (2 ^ 32) with W in V3. set (hi := shl_inner h 32) in *.
  set (len := Nat.max (length hi) (length lo)).
  assert (L1 : (length hi <= len)%nat) by (unfold len; lia). assert (L2 : (length lo <= len)%nat) by (unfold len; lia).
  pose proof (add_vv_spec (resize hi len 0) (resize lo len 0)) as P.
  rewrite !resize_len, !resize_nval in P by auto.
  destruct (add_vv (resize hi len 0) (resize lo len 0)) as [s c] eqn:E. cbn [fst snd] in P.
  destruct P as (P1 & P2 & P3 & P4); [apply resize_words; auto|apply resize_words; auto using canon_words|auto|].
  assert (W4 : words_ok (s ++ [c])) by (apply words_ok_app; split; [auto|apply words_ok_cons; split; [lia|apply words_ok_nil]]).
  rewrite trim_of_Z by (auto; destruct s; discriminate). f_equal.
  rewrite nval_app, nval_cons, P3. cbn [nval]. rewrite Z.mul_0_r, Z.add_0_r, P1, V3, V1, V2, of_Z_val by auto. rewrite DM at 3. ring.
Qed.

Lemma prod_from_nonneg n : forall a, 0 <= a -> 0 <= prod_from a n.
Proof. induction n as [|n IH]; intros a Ha; cbn [prod_from]; [lia|]. specialize (IH (a + 1)). nia. Qed.
Lemma prod_from_pos n : forall a, 0 < a -> 0 < prod_from a n.
Proof. induction n as [|n IH]; intros a Ha; cbn [prod_from]; [lia|]. specialize (IH (a + 1)). nia. Qed.
Lemma prod_from_last n : forall a, prod_from a (S n) = prod_from a n * (a + Z.of_nat n).
Proof.
  induction n as [|n IH]; intros a; [cbn [prod_from]; rewrite Z.add_0_r; ring|].
  change (prod_from a (S (S n))) with (a * prod_from (a + 1) (S n)). rewrite IH. cbn [prod_from].
  replace (a + 1 + Z.of_nat n) with (a + Z.of_nat (S n)) by lia. ring.
Qed.

Lemma mul_range_loop_spec cnt : forall e v, 0 <= v -> 0 <= e -> e + Z.of_nat cnt <= 2 ^ 64 ->
  mul_range_loop cnt e (of_Z v) = of_Z (v * prod_from e cnt).
Proof.
  induction cnt as [|cnt IH]; intros e v Hv He Hb; cbn [mul_range_loop prod_from].
  - f_equal. ring.
  - rewrite mul_range_step_spec by lia. rewrite IH by nia. f_equal. ring.
Qed.

Lemma nat_mul_range_spec a b : 0 < a <= b -> b < 2 ^ 64 ->
  nat_mul_range a b = of_Z (prod_from a (Z.to_nat (b - a + 1))).
Proof.
  intros Ha Hb. unfold nat_mul_range. destruct (Z.eqb_spec a 0); [lia|].
  destruct (Z.gtb_spec a b); [lia|]. destruct (Z.eqb_spec a b) as [->|N].
  - rewrite from_u64_of_Z by lia. replace (b - b + 1) with 1 by lia. change (Z.to_nat 1) with 1%nat.
    cbn [prod_from]. f_equal. ring.
  - rewrite from_u64_of_Z, mul_range_loop_spec by lia.
    replace (Z.to_nat (b - a + 1)) with (S (Z.to_nat (b - a))) by lia. rewrite prod_from_last. f_equal.
    rewrite Z2Nat.id by lia. ring.
Qed.

Lemma prod_from_neg n : forall a, prod_from a n = (if Z.odd (Z.of_nat n) then -1 else 1) * prod_from (- (a + Z.of_nat n - 1)) n.
Proof.
  induction n as [|n IH]; intros a; [reflexivity|].
  rewrite (prod_from_last n (- (a + Z.of_nat (S n) - 1))). cbn [prod_from]. rewrite (IH (a + 1)).
  replace (a + 1 + Z.of_nat n - 1) with (a + Z.of_nat (S n) - 1) by lia.
  replace (- (a + Z.of_nat (S n) - 1) + Z.of_nat n) with (- a) by lia.
  replace (Z.odd (Z.of_nat (S n))) with (negb (Z.odd (Z.of_nat n)))
    by (rewrite Z.negb_odd, <- Z.odd_succ; f_equal; lia).
  destruct (Z.odd (Z.of_nat n)); cbn [negb]; ring.
Qed.

Lemma prod_from_zero n : forall a, a <= 0 < a + Z.of_nat n -> prod_from a n = 0.
Proof.
  induction n as [|n IH]; intros a Ha; [lia|]. cbn [prod_from].
  destruct (Z.eq_dec a 0) as [->|]; [reflexivity|]. rewrite IH by lia. lia.
Qed.

Definition i64_range (x : Z) : Prop := - 2 ^ 63 <= x < 2 ^ 63.
Lemma i64_ok c x : i64_range x -> i64 c x = Ok x.
Proof.
  intros [H1 H2]. unfold i64. destruct (Z.leb_spec (- 2 ^ 63) x), (Z.ltb_spec x (2 ^ 63)); try lia. reflexivity.
Qed.

Lemma b_mul_range_spec c a b : i64_range a -> i64_range b ->
  c = false \/ b < a \/ 0 <= b \/ - 2 ^ 63 < a ->
  b_mul_range c a b = Ok (zint (prod_from a (Z.to_nat (b - a + 1)))).
Proof.
  intros Ha Hb Hc. unfold i64_range in *. unfold b_mul_range.
  destruct (Z.gtb_spec a b).
  { replace (Z.to_nat (b - a + 1)) with 0%nat by lia. rewrite zint_u32 by lia. reflexivity. }
  destruct (Z.leb_spec a 0), (Z.geb_spec b 0); cbn [andb].
  { rewrite prod_from_zero, zint_u32 by lia. reflexivity. }
  2:{ destruct (Z.ltb_spec a 0); [lia|]. rewrite nat_mul_range_spec by lia. f_equal. apply zint_intro; auto.
      apply prod_from_nonneg; lia. }
  2:{ lia. }
  destruct (Z.ltb_spec a 0); [|lia].
  rewrite (i64_ok c (b - a)) by (unfold i64_range; lia). cbn [bind].
  assert (EA : forall x, x = a \/ x = b -> exists nx, i64 c (- x) = Ok nx /\ as_u64 nx = - x).
  { intros x Hx. destruct (Z.eq_dec x (- 2 ^ 63)) as [->|].
    - destruct Hc as [->|Hc]; [|lia]. eexists. split; reflexivity.
    - rewrite i64_ok by (unfold i64_range; lia). eexists. split; [reflexivity|]. apply Z.mod_small. lia. }
  destruct (EA b) as (nb & E3 & E4); [auto|]. rewrite E3. cbn [bind]. rewrite E4.
  destruct (EA a) as (na & E1 & E2); [auto|]. rewrite E1. cbn [bind]. rewrite E2.
  rewrite nat_mul_range_spec by lia. f_equal.
  set (k := Z.to_nat (b - a + 1)). replace (Z.to_nat (- a - - b + 1)) with k by (unfold k; lia).
  replace (Z.land (b - a) 1) with ((b - a) mod 2) by (symmetry; apply (Z.land_ones (b - a) 1); lia).
  rewrite (prod_from_neg k a).
  assert (KK : Z.of_nat k = b - a + 1) by (unfold k; lia). rewrite KK.
  replace (- (a + (b - a + 1) - 1)) with (- b) by lia.
  pose proof (prod_from_pos k (- b) ltac:(lia)).
  replace (Z.odd (b - a + 1)) with ((b - a) mod 2 =? 0).
  - destruct (_ =? 0); apply zint_intro; lia.
  - rewrite Z.add_1_r, Z.odd_succ, Zeven_mod. unfold Zeq_bool, Z.eqb.
    destruct ((b - a) mod 2); reflexivity.
Qed.

(* ------------------------------------------------------------------ *)
(** * binomial *)

Lemma fact_pos k : 0 < fact k. Proof. apply prod_from_pos. lia. Qed.
Lemma fact_succ k : fact (S k) = fact k * Z.of_nat (S k).
Proof. unfold fact. rewrite prod_from_last. f_equal. lia. Qed.

Lemma falling_last k : forall n, falling n (S k) = falling n k * (n - Z.of_nat k).
Proof.
  induction k as [|k IH]; intros n; [cbn [falling]; rewrite Z.sub_0_r; ring|].
  change (falling n (S (S k))) with (n * falling (n - 1) (S k)). rewrite IH. cbn [falling].
  replace (n - 1 - Z.of_nat k) with (n - Z.of_nat (S k)) by lia. ring.
Qed.
Lemma falling_prod k : forall n, falling n k = prod_from (n - Z.of_nat k + 1) k.
Proof.
  induction k as [|k IH]; intros n; [reflexivity|].
  rewrite prod_from_last. cbn [falling]. rewrite IH.
  replace (n - Z.of_nat (S k) + 1 + Z.of_nat k) with n by lia.
  replace (n - 1 - Z.of_nat k + 1) with (n - Z.of_nat (S k) + 1) by lia. ring.
Qed.
Lemma falling_step k n : falling (n + 1) (S k) - falling n (S k) = Z.of_nat (S k) * falling n k.
Proof.
  rewrite (falling_last k n). cbn [falling]. replace (n + 1 - 1) with n by lia.
  replace (Z.of_nat (S k)) with (Z.of_nat k + 1) by lia. ring.
Qed.
Lemma falling_0 k : falling 0 (S k) = 0. Proof. reflexivity. Qed.

Lemma fact_falling k : forall n, (fact k | falling n k).
Proof.
  induction k as [|k IH]; intros n; [exists (falling n 0); cbn; ring|].
  assert (ST : forall n, (fact (S k) | falling (n + 1) (S k) - falling n (S k))).
  { intros m. rewrite falling_step, fact_succ, (Z.mul_comm (fact k)). apply Z.mul_divide_mono_l, IH. }
  revert n. apply Z.bi_induction.
  - intros ? ? ->. reflexivity.
  - rewrite falling_0. apply Z.divide_0_r.
  - intros n. rewrite <- Z.add_1_r. specialize (ST n). split; intros H.
    + replace (falling (n + 1) (S k)) with ((falling (n + 1) (S k) - falling n (S k)) + falling n (S k)) by ring.
      apply Z.divide_add_r; auto.
    + replace (falling n (S k)) with (falling (n + 1) (S k) - (falling (n + 1) (S k) - falling n (S k))) by ring.
      apply Z.divide_sub_r; auto.
Qed.

(** [k! (n-k)! C = n!]: the two characterisations agree. *)
Lemma falling_fact n k : (k <= n)%nat -> falling (Z.of_nat n) k * fact (n - k) = fact n.
Proof.
  revert n. induction k as [|k IH]; intros n H.
  - rewrite Nat.sub_0_r. cbn [falling]. ring.
  - destruct n as [|n]; [lia|]. cbn [falling]. replace (Z.of_nat (S n) - 1) with (Z.of_nat n) by lia.
    rewrite fact_succ, <- (IH n) by lia. cbn [Nat.sub]. ring.
Qed.

Lemma falling_sym n k : 0 <= k <= n -> falling n (Z.to_nat k) * fact (Z.to_nat (n - k)) =
  falling n (Z.to_nat (n - k)) * fact (Z.to_nat k).
Proof.
  intros H. pose proof (falling_fact (Z.to_nat n) (Z.to_nat k) ltac:(lia)) as F1.
  pose proof (falling_fact (Z.to_nat n) (Z.to_nat (n - k)) ltac:(lia)) as F2.
  rewrite Z2Nat.id in * by lia.
  replace (Z.to_nat n - Z.to_nat k)%nat with (Z.to_nat (n - k)) in F1 by lia.
  replace (Z.to_nat n - Z.to_nat (n - k))%nat with (Z.to_nat k) in F2 by lia. congruence.
Qed.

Lemma b_binomial_raw c n k : i64_range n -> 0 <= k < 2 ^ 63 -> - 2 ^ 63 <= n - k < 2 ^ 63 - 1 ->
  c = false \/ 0 <= n \/ - 2 ^ 63 < n - k + 1 \/ k = 0 ->
  (do t <- i64 c (n - k); do lo <- i64 c (t + 1); do a <- b_mul_range c lo n;
   do b <- b_mul_range c 1 k; b_div a b) = Ok (zint (falling n (Z.to_nat k) / fact (Z.to_nat k))).
Proof.
  intros Hn Hk Hd Hc. unfold i64_range in Hn. rewrite i64_ok by (unfold i64_range; lia). cbn [bind].
  rewrite i64_ok by (unfold i64_range; lia). cbn [bind].
  rewrite b_mul_range_spec by (unfold i64_range; lia). cbn [bind].
  rewrite b_mul_range_spec by (unfold i64_range; lia). cbn [bind].
  replace (Z.to_nat (n - (n - k + 1) + 1)) with (Z.to_nat k) by lia.
  replace (Z.to_nat (k - 1 + 1)) with (Z.to_nat k) by lia. fold (fact (Z.to_nat k)).
  pose proof (falling_prod (Z.to_nat k) n) as FP. rewrite Z2Nat.id in FP by lia. rewrite <- FP.
  set (j := Z.to_nat k) in *. pose proof (fact_pos j). destruct (fact_falling j n) as [v Hv]. rewrite Hv.
  rewrite zint_div, Z.quot_mul, Z.div_mul; try lia. reflexivity.
  rewrite Z.quot_mul by lia. nia.
Qed.

Lemma b_binomial_spec c n k : i64_range n -> 0 <= k < 2 ^ 63 -> - 2 ^ 63 <= n - k < 2 ^ 63 - 1 ->
  (n = 2 ^ 63 - 1 -> k <> n) ->
  c = false \/ 0 <= n \/ - 2 ^ 63 < n - k + 1 \/ k = 0 ->
  b_binomial c n k = Ok (zint (falling n (Z.to_nat k) / fact (Z.to_nat k))).
Proof.
  intros Hn Hk Hd Hm Hc. unfold b_binomial. destruct (Z.ltb_spec (n / 2) k), (Z.leb_spec k n); cbn [andb];
    try (cbn [bind]; apply b_binomial_raw; auto; fail).
  unfold i64_range in Hn. rewrite i64_ok by (unfold i64_range; lia). cbn [bind].
  rewrite b_binomial_raw by (unfold i64_range in *; lia). do 2 f_equal.
  pose proof (falling_sym n k ltac:(lia)) as S.
  pose proof (fact_pos (Z.to_nat k)). pose proof (fact_pos (Z.to_nat (n - k))).
  destruct (fact_falling (Z.to_nat k) n) as [u Hu], (fact_falling (Z.to_nat (n - k)) n) as [v Hv].
  rewrite Hu, Hv in *. rewrite !Z.div_mul by lia.
  apply (Z.mul_cancel_r _ _ (fact (Z.to_nat k) * fact (Z.to_nat (n - k)))); [nia|]. rewrite !Z.mul_assoc. lia.
Qed.

(* ------------------------------------------------------------------ *)
(** * exp *)

Lemma is_zero_vec_of_Z m : 0 <= m -> is_zero_vec (of_Z m) = (m =? 0).
Proof.
  intros H. unfold is_zero_vec. destruct (Z.eqb_spec m 0) as [->|N]; [reflexivity|].
  destruct (Nat.eqb_spec (length (of_Z m)) 1) as [E|E]; [|reflexivity].
  pose proof (of_Z_val m H) as V. destruct (of_Z m) as [|w [|? ?]] eqn:EL; try discriminate.
  cbn [hd andb]. apply Z.eqb_neq. rewrite nval_cons in V. cbn [nval] in V. lia.
Qed.
Lemma low_bit_of_Z m : 0 <= m -> (Z.land (hd 0 (of_Z m)) 1 =? 1) = Z.odd m.
Proof.
  intros H. pose proof (of_Z_val m H) as V. pose proof (of_Z_nonnil m H) as NN.
  destruct (of_Z m) as [|w l] eqn:EL; [contradiction|]. cbn [hd]. rewrite nval_cons in V.
  assert (E : Z.land w 1 = w mod 2) by (apply (Z.land_ones w 1); lia). rewrite E.
  rewrite <- V, Z.odd_add, Z.odd_mul. change (Z.odd W) with false. cbn [andb]. rewrite xorb_false_r.
  rewrite Zodd_mod. unfold Zeq_bool, Z.eqb. pose proof (Z.mod_pos_bound w 2 ltac:(lia)).
  destruct (w mod 2) as [|[]|]; reflexivity.
Qed.

Lemma abs_pow x b : 0 <= b -> Z.abs x ^ b = if (x <? 0) && Z.odd b then - x ^ b else x ^ b.
Proof.
  intros Hb. destruct (Z.ltb_spec x 0) as [L|L]; cbn [andb]; [|rewrite Z.abs_eq by lia; reflexivity].
  rewrite Z.abs_neq by lia. destruct (Z.odd b) eqn:O.
  - apply Z.pow_opp_odd. apply Z.odd_spec; auto.
  - apply Z.pow_opp_even. apply Z.even_spec. rewrite <- Z.negb_odd, O. reflexivity.
Qed.

Lemma exp_tail x (m b n : Z) : 0 <= m -> 0 <= b -> 
  (let e := of_Z (m ^ b mod Z.abs n) in
   let neg := negb (is_zero_vec e) && b_is_negative (zint x) && negb (is_zero_vec (of_Z b))
                 && (Z.land (hd 0 (of_Z b)) 1 =? 1) in
   if neg && negb (is_zero_vec (of_Z (Z.abs n))) then Ok (BI (nat_sub e (of_Z (Z.abs n))) false)
   else Ok (BI e neg)) =
  Ok (zint (if (x <? 0) && Z.odd b then - m ^ b mod Z.abs n else m ^ b mod Z.abs n)).
Proof.
  intros Hm Hb. set (p := m ^ b). assert (P0 : 0 <= p) by (apply Z.pow_nonneg; lia). cbv zeta.
  set (N := Z.abs n). assert (N0 : 0 <= N) by (unfold N; lia).
  assert (M0 : 0 <= p mod N).
  { destruct (Z.eq_dec N 0) as [->|]; [rewrite Zmod_0_r; auto|]. apply Z.mod_pos_bound; lia. }
  rewrite !is_zero_vec_of_Z, low_bit_of_Z, zint_is_negative by auto.
  assert (EB : forall c, c && negb (b =? 0) && Z.odd b = c && Z.odd b).
  { intros c. destruct (Z.eqb_spec b 0) as [->|]; [rewrite !andb_false_r; reflexivity|rewrite andb_true_r; reflexivity]. }
  rewrite EB. rewrite <- (andb_assoc _ (x <? 0)). generalize ((x <? 0) && Z.odd b) as s. intros s.
  destruct (Z.eqb_spec (p mod N) 0) as [E|E]; cbn [negb andb].
  - f_equal. rewrite E. destruct s; [rewrite Z_mod_zero_opp_full by auto|]; reflexivity.
  - destruct s; cbn [andb].
    + destruct (Z.eqb_spec N 0) as [EN|EN]; cbn [negb].
      * f_equal. rewrite EN, !Zmod_0_r in *. apply zint_intro; lia.
      * rewrite nat_sub_of_Z by auto. f_equal. pose proof (Z.mod_pos_bound p N ltac:(lia)).
        rewrite Z_mod_nz_opp_full by auto. apply zint_intro; lia.
    + f_equal. apply zint_intro; auto.
Qed.

Lemma b_exp_nonneg x b n : 0 <= b -> b_exp false (zint x) (zint b) (zint n) = Ok (zint (x ^ b mod Z.abs n)).
Proof.
  intros Hb. unfold b_exp. rewrite !zint_not_nan, !(zint_is_negative b). cbn [orb].
  destruct (Z.ltb_spec b 0); [lia|]. cbn [andb bind]. rewrite !zint_nat.
  rewrite nat_exp_release by apply abs_canon. rewrite !abs_val. cbn [bind]. rewrite (Z.abs_eq b) by auto.
  etransitivity; [apply (exp_tail x (Z.abs x) b n); lia|]. do 2 f_equal. rewrite abs_pow by auto.
  destruct (_ && _); [rewrite Z.opp_involutive|]; reflexivity.
Qed.

Lemma b_exp_neg x b n : b < 0 -> n <> 0 -> exists y, 0 <= y < Z.abs n /\
  (x * y) mod Z.abs n = Z.gcd x n mod Z.abs n /\
  b_exp false (zint x) (zint b) (zint n) =
  Ok (zint (if (x <? 0) && Z.odd b then - y ^ (- b) mod Z.abs n else y ^ (- b) mod Z.abs n)).
Proof.
  intros Hb Hn. unfold b_exp. rewrite !zint_not_nan, !(zint_is_negative b). cbn [orb].
  destruct (Z.ltb_spec b 0); [|lia]. rewrite zint_eq_u32 by lia. destruct (Z.eqb_spec n 0); [lia|]. cbn [andb].
  destruct (b_mod_inverse_spec x n Hn) as (y & E & By & Cy). exists y. split; [auto|]. split; [auto|].
  rewrite E. cbn [bind]. rewrite zint_not_nan, !zint_nat.
  rewrite nat_exp_release by apply abs_canon. rewrite !abs_val. cbn [bind].
  rewrite (Z.abs_neq b) by lia. rewrite (Z.abs_eq y) by lia.
  etransitivity; [apply (exp_tail x y (- b) n); lia|]. rewrite Z.odd_opp. reflexivity.
Qed.

Lemma b_exp_neg_zero c x b : b < 0 -> b_exp c (zint x) (zint b) (zint 0) = Ok (zint 1).
Proof.
  intros Hb. unfold b_exp. rewrite !zint_not_nan, !(zint_is_negative b). cbn [orb].
  destruct (Z.ltb_spec b 0); [|lia]. rewrite zint_eq_u32 by lia. reflexivity.
Qed.

(** With the inverse of a coprime, non-negative base (or an even exponent). *)
Lemma b_exp_inverse x b n : b < 0 -> n <> 0 -> Z.gcd x n = 1 -> 0 <= x \/ Z.even b = true ->
  exists r, b_exp false (zint x) (zint b) (zint n) = Ok (zint r) /\ 0 <= r < Z.abs n /\
    (x ^ (- b) * r) mod Z.abs n = 1 mod Z.abs n.
Proof.
  intros Hb Hn Hg Hs. destruct (b_exp_neg x b n Hb Hn) as (y & By & Cy & E). rewrite Hg in Cy.
  assert (F : (x <? 0) && Z.odd b = false).
  { destruct Hs as [H|H]; [destruct (Z.ltb_spec x 0); [lia|reflexivity]|]. rewrite <- Z.negb_even, H. apply andb_false_r. }
  rewrite F in E. eexists. split; [exact E|]. split; [apply Z.mod_pos_bound; lia|].
  rewrite Zmult_mod_idemp_r, <- Z.pow_mul_l.
  rewrite (Zpow_facts.Zpower_mod _ _ (Z.abs n)), Cy, <- (Zpow_facts.Zpower_mod _ _ (Z.abs n)) by lia.
  rewrite Z.pow_1_l by lia. reflexivity.
Qed.

(* ------------------------------------------------------------------ *)
(** * sqr, sqrt, conversions *)

Lemma b_sqr_spec x : b_sqr (zint x) = Ok (zint (x * x)).
Proof.
  unfold b_sqr. rewrite zint_nat, nat_sqr_of_Z, abs_val by apply abs_canon. cbn [bind]. f_equal.
  apply zint_intro; [nia| |auto]. rewrite <- Z.abs_mul, Z.abs_eq by nia. reflexivity.
Qed.
Lemma b_sqrt_spec x : b_sqrt (zint x) = Ok (if x <? 0 then b_nan else zint (Z.sqrt x)).
Proof.
  unfold b_sqrt. rewrite zint_not_nan, zint_neg. cbn [orb]. destruct (Z.ltb_spec x 0) as [L|L]; [reflexivity|].
  rewrite zint_nat, nat_sqrt_of_Z, abs_val by apply abs_canon. cbn [bind]. f_equal. rewrite Z.abs_eq by auto.
  pose proof (Z.sqrt_nonneg x). apply zint_intro; auto.
Qed.

Lemma from_signed_spec conv bits x : 0 < bits -> (forall w, 0 <= w < 2 ^ bits -> conv w = of_Z w) ->
  - 2 ^ (bits - 1) <= x < 2 ^ (bits - 1) -> b_from_signed conv bits x = zint x.
Proof.
  intros Hb Hc Hx. assert (P : 2 ^ bits = 2 * 2 ^ (bits - 1)).
  { replace bits with (Z.succ (bits - 1)) at 1 by lia. rewrite Z.pow_succ_r by lia. reflexivity. }
  pose proof (pow2_pos (bits - 1) ltac:(lia)). unfold b_from_signed, zint. f_equal.
  destruct (Z.eqb_spec x (- 2 ^ (bits - 1))) as [->|N]; rewrite Hc by lia; f_equal; lia.
Qed.

(* ------------------------------------------------------------------ *)
(** * Text *)

Lemma b_from_str_plain t n : 0 <= n -> Forall (fun c => 48 <= c <= 122) t ->
  nat_from_str t = Some (of_Z n) -> b_from_str t = Some (zint n).
Proof.
  intros Hn Ht E. unfold b_from_str. rewrite (trim_ws_spec t t (trimmed_self t Ht)).
  destruct t as [|c t]; [discriminate E|]. inversion Ht; subst.
  destruct (Z.eqb_spec c 45); [lia|]. rewrite E. f_equal.
  rewrite of_Z_eq_u32 by lia. destruct (n =? 0); apply zint_intro; auto.
Qed.
Lemma trimmed_minus t : Forall (fun c => 48 <= c <= 122) t -> trimmed (45 :: t) (45 :: t).
Proof.
  intros H. exists [], []. cbn [app]. rewrite app_nil_r. split; [auto|].
  split; [constructor|]. split; [constructor|]. right. split; [reflexivity|].
  destruct t as [|c t]; [reflexivity|]. change (last (45 :: c :: t) 0) with (last (c :: t) 0).
  apply is_ws_chr. apply (Forall_last (fun c => 48 <= c <= 122)); auto. discriminate.
Qed.
Lemma b_from_str_minus t n : 0 <= n -> Forall (fun c => 48 <= c <= 122) t ->
  nat_from_str t = Some (of_Z n) -> b_from_str (45 :: t) = Some (zint (- n)).
Proof.
  intros Hn Ht E. unfold b_from_str. rewrite (trim_ws_spec _ _ (trimmed_minus t Ht)).
  change (45 =? 45) with true. cbv iota zeta. rewrite E. f_equal.
  rewrite of_Z_eq_u32 by lia. destruct (Z.eqb_spec n 0); apply zint_intro; auto; lia.
Qed.
Lemma b_from_str_signed t n : Forall (fun c => 48 <= c <= 122) t ->
  nat_from_str t = Some (of_Z (Z.abs n)) -> b_from_str (b_sign_text (zint n) t) = Some (zint n).
Proof.
  intros Ht E. unfold b_sign_text. rewrite zint_is_negative. destruct (Z.ltb_spec n 0) as [L|L].
  - rewrite (b_from_str_minus t (Z.abs n)) by (auto; lia). do 2 f_equal. lia.
  - rewrite (b_from_str_plain t (Z.abs n)) by (auto; lia). do 2 f_equal. lia.
Qed.

Lemma trimmed_idem s t : trimmed s t -> trimmed t t.
Proof.
  intros (w1 & w2 & _ & _ & _ & H). exists [], []. cbn [app]. rewrite app_nil_r. auto.
Qed.
Lemma numeral_not_minus t base ds : numeral_text t base ds -> hd 0 t <> 45.
Proof.
  intros [pre s ds' Hpre Ht Hn _|pre c b s ds' Hpre _ _].
  - destruct Hpre as [|c pre Hc _]; cbn [app hd]; [|lia].
    destruct Ht as [|c d s ds' Hd _]; [contradiction|]. cbn [hd]. intros ->. discriminate Hd.
  - destruct Hpre as [|c' pre Hc _]; cbn [app hd]; lia.
Qed.
Lemma b_from_str_eq s t : trimmed s t -> b_from_str s =
  match t with
  | [] => None
  | c :: u => let neg := c =? 45 in
      match nat_from_str (if neg then u else t) with
      | None => None
      | Some n => Some (BI n (if nat_eq_u32 n 0 then false else neg))
      end
  end.
Proof. intros H. unfold b_from_str. rewrite (trim_ws_spec s t H). destruct t; reflexivity. Qed.
