(** Facts about [NatPrime]: [generate_prime], and Miller-Rabin when the shift
    by the trailing zeros is the one [Nat] gets wrong. *)
From Coq Require Import ZArith Znumtheory Zpow_facts List Lia Bool.
From Verif Require Import Words WordsFacts NatModel NatFacts NatFacts2 NatFacts3 NatFacts4 NatFacts5 Spec SpecInt SpecNum SpecPrime VecPrims VecFacts Karatsuba KaraFacts KaraFacts2
  NatPow NatPowFacts NatExp NatExpFacts NatExpFacts2 BigInt BigIntFacts BigIntFacts2 NumTheory NumTheory2 NumTheory3 NumTheory4 NumBig NumBigFacts NumBigFacts2
  NatPrime NatPrimeFacts NatPrimeFacts2 NatPrimeFacts3 NatPrimeFacts4.
Import ListNotations.
Open Scope Z_scope.

(* ------------------------------------------------------------------ *)
(** * The words of a candidate *)
Lemma take_words_ok : forall g n ws g', take_words g n = Ok (ws, g') -> stream_ok g ->
  words_ok ws /\ (length ws <= n)%nat /\ stream_ok g' /\ (length g' <= length g)%nat /\ (n <> O -> (length g' < length g)%nat).
Proof.
  induction g as [|o g IH]; intros n ws g' E G; destruct n as [|n]; cbn [take_words] in E.
  - injection E as <- <-. repeat split; auto; try constructor; lia.
  - discriminate.
  - injection E as <- <-. repeat split; auto; try constructor; lia.
  - destruct o as [x|]; apply stream_ok_cons in G; destruct G as (Gx & G).
    + destruct (take_words g n) as [[ws1 g1]| |] eqn:E1; try discriminate E. cbn [bind] in E. injection E as <- <-. destruct (IH _ _ _ E1 G) as (I1 & I2 & I3 & I4 & _).
      split; [apply words_ok_cons; split; auto|]. cbn [length]. repeat split; auto; lia.
    + injection E as <- <-. cbn [length]. repeat split; auto; try constructor; lia.
Qed.

Lemma lor_below a b k : 0 <= k -> 0 <= a < 2 ^ k -> 0 <= b < 2 ^ k -> 0 <= Z.lor a b < 2 ^ k.
Proof.
  intros K A B. assert (0 <= Z.lor a b) by (apply Z.lor_nonneg; lia). split; [auto|]. rewrite <- (Z.mod_small a (2 ^ k)), <- (Z.mod_small b (2 ^ k)) by lia.
  rewrite <- !Z.land_ones, <- Z.land_lor_distr_l, Z.land_ones by lia. apply Z.mod_pos_bound. apply Z.pow_pos_nonneg; lia.
Qed.
Lemma lor_1 x : 0 <= x -> Z.lor x 1 = x + (if Z.odd x then 0 else 1).
Proof.
  intros X. pose proof (lor_shift_add (x / 2) 1 1 ltac:(lia) ltac:(lia)) as L. change (2 ^ 1) with 2 in L. pose proof (Z.div_mod x 2 ltac:(lia)) as D. rewrite Zmod_odd in D. destruct (Z.odd x).
  - replace x with (Z.lor (x / 2 * 2) 1) at 1 by lia. rewrite <- Z.lor_assoc. change (Z.lor 1 1) with 1. lia.
  - replace x with (x / 2 * 2) at 1 by lia. lia.
Qed.
Lemma nval_set_last v x : v <> [] -> nval (set_last v x) = nval (removelast v) + Wp (length v - 1) * x.
Proof. intros N. rewrite set_last_nonnil by auto. rewrite nval_app, removelast_len. cbn [nval]. ring. Qed.
Lemma set_last_len v x : v <> [] -> length (set_last v x) = length v.
Proof. intros N. rewrite set_last_nonnil by auto. rewrite app_length, removelast_len. cbn [length]. destruct v; [congruence|cbn [length]; lia]. Qed.

Lemma top_spec b v : 1 <= b <= 32 -> words_ok v -> v <> [] -> last v 0 < 2 ^ b -> let B := 32 * (Z.of_nat (length v) - 1) + b in
  words_ok (set_top b v) /\ length (set_top b v) = length v /\ 2 ^ (B - 1) <= nval (set_top b v) < 2 ^ B /\ (2 <= B -> 3 * 2 ^ (B - 2) <= nval (set_top b v)).
Proof.
  intros HB Wv Nv LV B. set (m := (length v - 1)%nat) in *. assert (LEN : length v = S m) by (unfold m; destruct v; [congruence|cbn [length]; lia]).
  assert (EB : B = 32 * Z.of_nat m + b) by (unfold B; lia). assert (PB : 2 ^ B = Wp m * 2 ^ b) by (rewrite EB, Z.pow_add_r, Wp_pow2 by lia; reflexivity).
  pose proof (words_ok_last v Wv) as WL. pose proof (Wp_pos m) as WP. 
  unfold set_top. destruct (Z.leb_spec 2 b) as [B2|B1].
  - set (t := Z.lor (last v 0) (3 * 2 ^ (b - 2))). assert (P2 : 0 < 2 ^ (b - 2)) by (apply Z.pow_pos_nonneg; lia).
    assert (E2 : 2 ^ b = 4 * 2 ^ (b - 2)). { replace b with (2 + (b - 2)) at 1 by ring. rewrite Z.pow_add_r by lia. reflexivity. }
    assert (T : 0 <= t < 2 ^ b) by (apply lor_below; lia). assert (T3 : 3 * 2 ^ (b - 2) <= t). { unfold t. rewrite Z.lor_comm. apply lor_ge_l; lia. }
    pose proof (nval_bound _ (words_ok_removelast v Wv)) as RB. rewrite removelast_len in RB. fold m in RB.
    assert (Q3 : 3 * 2 ^ (B - 2) = Wp m * (3 * 2 ^ (b - 2))). { replace (B - 2) with (32 * Z.of_nat m + (b - 2)) by lia. rewrite Z.pow_add_r, Wp_pow2 by lia. ring. }
    assert (Q1 : 2 ^ (B - 1) = Wp m * (2 * 2 ^ (b - 2))). { replace (B - 1) with (32 * Z.of_nat m + (1 + (b - 2))) by lia. rewrite !Z.pow_add_r, Wp_pow2 by lia. ring. }
    assert (TW : 2 ^ b <= W) by (change W with (2 ^ 32); apply Z.pow_le_mono_r; lia).
    rewrite set_last_len by auto. split; [rewrite set_last_nonnil by auto; apply words_ok_app; split; [apply words_ok_removelast; auto|apply words_ok_cons; split; [lia|constructor]]|].
    split; [auto|]. rewrite nval_set_last by auto. fold m. split; [nia|]. intros _. nia.
  - assert (b = 1) by lia. subst b. change (2 ^ 1) with 2 in *. destruct (rev v) as [|x [|y r]] eqn:RV.
    + exfalso. apply (f_equal (@length Z)) in RV. rewrite rev_length in RV. cbn in RV. lia.
    + assert (LV1 : length v = 1%nat) by (rewrite <- rev_length, RV; reflexivity). assert (m = O) by lia. assert (E1 : v = [x]) by (rewrite <- (rev_involutive v), RV; reflexivity). rewrite E1 in *. cbn [last] in *.
      assert (EX : Z.lor x 1 = 1) by (assert (D : x = 0 \/ x = 1) by lia; destruct D as [-> | ->]; reflexivity). rewrite EX. cbn [length nval]. split; [repeat constructor; lia|]. split; [auto|].
      assert (BB : B = 1) by lia. rewrite BB. change (2 ^ (1 - 1)) with 1. change (2 ^ 1) with 2. split; [lia|]. intros X. exfalso. clear -X. lia.
    + assert (EV : v = rev r ++ [y; x]) by (rewrite <- (rev_involutive v), RV; cbn [rev]; rewrite <- app_assoc; reflexivity).
      assert (LX : last v 0 = x) by (rewrite EV; change [y; x] with ([y] ++ [x]); rewrite app_assoc; apply last_last). rewrite LX in *.
      assert (EX : Z.lor x 1 = 1) by (assert (D : x = 0 \/ x = 1) by lia; destruct D as [-> | ->]; reflexivity). rewrite EX. cbn [rev]. rewrite <- app_assoc. cbn [app].
      rewrite EV in Wv. apply words_ok_app in Wv. destruct Wv as (Wr & Wyx). apply words_ok_cons in Wyx. destruct Wyx as (Wy & _).
      assert (LR : m = S (length (rev r))). { unfold m. rewrite EV, app_length. cbn [length]. lia. }
      set (t := Z.lor y 0x80000000). assert (T : 0 <= t < 2 ^ 32) by (apply lor_below; [lia|exact Wy|lia]). assert (T3 : 2 ^ 31 <= t) by (unfold t; rewrite Z.lor_comm; apply (lor_ge_l (2 ^ 31)); lia).
      split; [apply words_ok_app; split; [auto|]; apply words_ok_cons; split; [exact T|]; apply words_ok_cons; split; [lia|constructor]|].
      split; [rewrite EV, !app_length; reflexivity|]. rewrite nval_app. cbn [nval]. set (k := length (rev r)) in *. pose proof (nval_bound _ Wr) as RB. fold k in RB.
      assert (EW : Wp m = W * Wp k) by (rewrite LR; apply Wp_S). pose proof (Wp_pos k).
      assert (Q3 : 3 * 2 ^ (B - 2) = Wp k * (3 * 2 ^ 31)). { replace (B - 2) with (32 * Z.of_nat k + 31) by lia. rewrite Z.pow_add_r, Wp_pow2 by lia. ring. }
      assert (Q1 : 2 ^ (B - 1) = Wp k * 2 ^ 32). { replace (B - 1) with (32 * Z.of_nat k + 32) by lia. rewrite Z.pow_add_r, Wp_pow2 by lia. ring. }
      rewrite PB, EW, Q1. change W with (2 ^ 32) in *. split; [split; nia|]. intros _. rewrite Q3. nia.
Qed.

Lemma shape_spec b ws : 1 <= b <= 32 -> words_ok ws -> ws <> [] -> let B := 32 * (Z.of_nat (length ws) - 1) + b in
  exists p, shape_words b ws = Ok p /\ words_ok p /\ length p = length ws /\ Z.odd (nval p) = true /\ 2 ^ (B - 1) <= nval p < 2 ^ B /\ (2 <= B -> 3 * 2 ^ (B - 2) <= nval p).
Proof.
  intros HB Ww Nw B. assert (B1 : 1 <= B) by (unfold B; destruct ws; [congruence|cbn [length]; lia]).
  assert (EB : 32 * (Z.of_nat (length ws) - 1) + b = B) by reflexivity. clearbody B.
  unfold shape_words. destruct ws as [|w0 ws0] eqn:EW; [congruence|]. rewrite <- EW in *. cbv zeta.
  set (v := if negb (b =? 32) then set_last ws (Z.land (last ws 0) (2 ^ b - 1)) else ws).
  assert (V : words_ok v /\ length v = length ws /\ last v 0 < 2 ^ b).
  { unfold v. pose proof (words_ok_last ws Ww) as WL. destruct (Z.eqb_spec b 32) as [->|]; cbn [negb]; [split; [auto|split; [auto|change (2 ^ 32) with W; lia]]|].
    rewrite set_last_len by auto. assert (L : 0 <= Z.land (last ws 0) (2 ^ b - 1) < 2 ^ b).
    { replace (2 ^ b - 1) with (Z.ones b) by (rewrite Z.ones_equiv; lia). rewrite Z.land_ones by lia. apply Z.mod_pos_bound. apply Z.pow_pos_nonneg; lia. }
    assert (TW : 2 ^ b <= W) by (change W with (2 ^ 32); apply Z.pow_le_mono_r; lia).
    rewrite set_last_nonnil, last_last by auto. split; [apply words_ok_app; split; [apply words_ok_removelast; auto|apply words_ok_cons; split; [lia|constructor]]|]. split; [auto|lia]. }
  destruct V as (Wv & Lv & LL). assert (Nv : v <> []) by (intros E; rewrite E in Lv; cbn in Lv; rewrite EW in Lv; discriminate).
  pose proof (top_spec b v HB Wv Nv LL) as T. cbv zeta in T. rewrite Lv, EB in T. destruct T as (T1 & T2 & T3 & T4).
  destruct (set_top b v) as [|x v'] eqn:ST. { rewrite EW in T2. discriminate T2. }
  apply words_ok_cons in T1. destruct T1 as (Wx & Wv'). eexists. split; [reflexivity|]. rewrite nval_cons in T3, T4 |- *. rewrite lor_1 by lia.
  assert (OE : Z.odd (x + W * nval v') = Z.odd x). { rewrite Z.odd_add, Z.odd_mul. change (Z.odd W) with false. cbn [andb]. apply xorb_false_r. }
  assert (XB : Z.odd x = false -> x + 1 < W). { intros O. assert (XW : x <> W - 1) by (intros ->; discriminate O). lia. }
  split; [apply words_ok_cons; split; [destruct (Z.odd x); [lia|specialize (XB eq_refl); lia]|auto]|]. split; [exact T2|].
  split; [replace (x + (if Z.odd x then 0 else 1) + W * nval v') with ((x + W * nval v') + (if Z.odd x then 0 else 1)) by ring; rewrite Z.odd_add, OE; destruct (Z.odd x); reflexivity|].
  split; [|intros H; specialize (T4 H); destruct (Z.odd x); lia]. split; [destruct (Z.odd x); lia|]. destruct (Z.odd x) eqn:O; [lia|].
  assert (x + W * nval v' <> 2 ^ B - 1); [|lia]. intros E. rewrite E in OE. rewrite Z.odd_sub in OE. replace B with (1 + (B - 1)) in OE by ring. rewrite Z.pow_add_r, Z.odd_mul in OE by lia. discriminate OE.
Qed.

Lemma find_delta_spec bits modulus : forall cnt d0 d, find_delta cnt d0 modulus bits = Some d -> exists k, d = d0 + 2 * k /\ 0 <= k < Z.of_nat cnt /\
  existsb (fun p => ((modulus + d) mod p =? 0) && ((6 <? bits) || negb (modulus + d =? p))) small_primes = false.
Proof.
  induction cnt as [|c IH]; intros d0 d E; [discriminate|]. cbn [find_delta] in E. destruct (existsb _ small_primes) eqn:X.
  - destruct (IH _ _ E) as (k & K1 & K2 & K3). exists (k + 1). split; [lia|]. split; [lia|auto].
  - injection E as <-. exists 0. split; [lia|]. split; [lia|auto].
Qed.
Lemma candidate_spec bits p : words_ok p -> canon p -> exists d, candidate bits p = of_Z (nval p + d) /\ 0 <= d < 2 ^ 20 /\ Z.odd d = false.
Proof.
  intros Wp0 C. unfold candidate. destruct (find_delta _ _ _ _) as [d|] eqn:F.
  - destruct (find_delta_spec _ _ _ _ _ F) as (k & K1 & K2 & _). rewrite Z2Nat.id in K2 by (apply Z.pow_nonneg; lia). assert (E20 : 2 ^ 20 = 2 * 2 ^ 19) by reflexivity. exists d.
    assert (DB : 0 <= d < 2 ^ 20) by lia. split; [|split; [auto|]].
    + destruct (Z.ltb_spec 0 d).
      * unfold nat_add_u32. rewrite op1_canon by auto. apply add_basic_of_Z; [auto|]. assert (2 ^ 20 < W) by reflexivity. lia.
      * replace d with 0 by lia. rewrite Z.add_0_r, of_Z_nval by auto. reflexivity.
    + rewrite K1, Z.add_0_l, Z.odd_mul. reflexivity.
  - exists 0. rewrite Z.add_0_r, of_Z_nval by auto. split; [reflexivity|]. split; [lia|reflexivity].
Qed.

Lemma random_stream x g r g' : canon x -> 0 < nval x -> stream_ok g -> random_inner x g = Ok (r, g') -> stream_ok g'.
Proof. intros C X G E. pose proof (random_inner_inv x C X g G) as R. rewrite E in R. destruct R as (v & R). tauto. Qed.
Lemma mr_rounds_stream checks n t u m : 0 < n -> forall s g b g', stream_ok g -> mr_rounds checks s (of_Z n) t u m g = Ok (b, g') -> stream_ok g'.
Proof.
  intros N. pose proof (of_Z_canon n ltac:(lia)) as C. induction s as [|s IH]; intros g b g' G E; cbn [mr_rounds] in E.
  - injection E as <- <-. auto.
  - destruct (random_inner (of_Z n) g) as [[a g1]| |] eqn:R; try discriminate E. cbn [bind] in E. apply random_stream in R; [|auto|rewrite of_Z_val by lia; auto|auto].
    destruct (nat_exp checks a u (of_Z n)); try discriminate E. cbn [bind] in E. destruct (mr_witness _ _ _ _) as [w| |]; try discriminate E. cbn [bind] in E. destruct w.
    + injection E as <- <-. auto.
    + apply (IH g1 b g'); auto.
Qed.
Lemma pp_stream checks n rounds g b g' : 0 < n -> stream_ok g -> probably_prime checks (of_Z n) rounds g = Ok (b, g') -> stream_ok g'.
Proof.
  intros N G E. destruct (Z.lt_ge_cases n 128) as [S0|S0].
  - destruct (pp_small checks n rounds g ltac:(lia)) as (c & E1 & _). rewrite E1 in E. injection E as <- <-. auto.
  - rewrite pp_large in E by auto. destruct (negb _); [injection E as <- <-; auto|]. destruct (existsb _ _); [injection E as <- <-; auto|].
    destruct (miller_rabin checks (of_Z n) (rounds + 1) g) as [[m g1]| |] eqn:M; try discriminate E. cbn [bind] in E. unfold miller_rabin in M. apply mr_rounds_stream in M; [|auto|auto].
    destruct m; [|injection E as <- <-; auto]. destruct (lucas (of_Z n)); try discriminate E. cbn [bind] in E. injection E as <- <-. auto.
Qed.

Lemma gen_loop_S f checks bits b len rounds g : gen_prime_loop (S f) checks bits b len rounds g =
      do '(ws, g1) <- take_words g len;
      do p <- shape_words b ws;
      let p := candidate bits p in
      if bits_len p =? bits then
        do '(t, g2) <- probably_prime checks p rounds g1;
        if t then Ok (p, g2) else gen_prime_loop f checks bits b len rounds g2
      else gen_prime_loop f checks bits b len rounds g1.
Proof. reflexivity. Qed.
Local Opaque candidate.
Lemma gen_loop_spec checks bits b len rounds : 1 <= b <= 32 -> (1 <= len)%nat -> bits = 32 * (Z.of_nat len - 1) + b -> 2 <= bits ->
  forall fuel g p g', stream_ok g -> gen_prime_loop fuel checks bits b len rounds g = Ok (p, g') ->
  exists n g1, p = of_Z n /\ 3 * 2 ^ (bits - 2) <= n < 2 ^ bits /\ Z.odd n = true /\ stream_ok g1 /\ probably_prime checks p rounds g1 = Ok (true, g').
Proof.
  intros HB HL EB B2. induction fuel as [|f IH]; intros g p g' G E; [discriminate|]. rewrite gen_loop_S in E.
  destruct (take_words g len) as [[ws g1]| |] eqn:T; try discriminate E. cbn [bind] in E. destruct (take_words_ok _ _ _ _ T G) as (Ww & Lw & G1 & _ & _).
  destruct (shape_words b ws) as [p0| |] eqn:SW; try discriminate E. cbn [bind] in E.
  assert (Nw : ws <> []) by (intros ->; discriminate SW). destruct (shape_spec b ws HB Ww Nw) as (p1 & P1 & P2 & P3 & P4 & P5 & P6). rewrite P1 in SW. injection SW as ->.
  set (B := 32 * (Z.of_nat (length ws) - 1) + b) in *. assert (LW : (1 <= length ws)%nat) by (destruct ws; [congruence|cbn [length]; lia]).
  assert (C : canon p0). { apply canon_intro; [auto|intros X; rewrite X in P3; cbn in P3; lia|]. intros L. rewrite P3, Wp_pow2. assert (2 ^ (32 * Z.of_nat (length ws - 1)) <= 2 ^ (B - 1)) by (apply Z.pow_le_mono_r; unfold B; lia). lia. }
  destruct (candidate_spec bits p0 P2 C) as (d & D1 & D2 & D3). rewrite D1 in E. set (n := nval p0 + d) in *.
  assert (PB : 0 < 2 ^ (B - 1)) by (apply Z.pow_pos_nonneg; unfold B; lia). assert (N0 : 0 < n) by (unfold n; lia).
  destruct (Z.eqb_spec (bits_len (of_Z n)) bits) as [EL|NL].
  - destruct (probably_prime checks (of_Z n) rounds g1) as [[t g2]| |] eqn:PP; try discriminate E. cbn [bind] in E.
    assert (LE : length ws = len).
    { destruct (Nat.eq_dec (length ws) len) as [|NE]; [auto|]. exfalso. pose proof (bits_len_of_Z n N0) as BL. rewrite EL in BL.
      assert (2 ^ B <= 2 ^ (bits - 2)) by (apply Z.pow_le_mono_r; unfold B; lia). assert (2 ^ 20 <= 2 ^ (bits - 2)) by (apply Z.pow_le_mono_r; lia).
      assert (2 ^ (bits - 1) = 2 * 2 ^ (bits - 2)) by (replace (bits - 1) with (1 + (bits - 2)) by ring; rewrite Z.pow_add_r by lia; reflexivity). unfold n in *. lia. }
    assert (EBB : B = bits) by (unfold B; lia). rewrite EBB in *. destruct t.
    + injection E as <- <-. exists n, g1. split; [reflexivity|]. pose proof (bits_len_of_Z n N0) as BL. rewrite EL in BL. specialize (P6 B2). split; [unfold n in *; lia|].
      split; [unfold n; rewrite Z.odd_add, P4, D3; reflexivity|]. split; [auto|exact PP].
    + apply (IH g2 p g'); auto. apply (pp_stream checks n rounds g1 false g2); auto.
  - apply (IH g1 p g'); auto.
Qed.

Lemma generate_spec checks bits rounds g p g' : stream_ok g -> generate_prime checks bits rounds g = Ok (Some p, g') ->
  exists n g1, p = of_Z n /\ 2 <= bits /\ 3 * 2 ^ (bits - 2) <= n < 2 ^ bits /\ Z.odd n = true /\ stream_ok g1 /\ probably_prime checks p rounds g1 = Ok (true, g').
Proof.
  intros G E. unfold generate_prime in E. destruct (Z.ltb_spec bits 2) as [|B2]; [discriminate E|]. set (b := if bits mod 32 =? 0 then 32 else bits mod 32) in *. set (len := Z.to_nat ((bits + 31) / 32)) in *.
  destruct (gen_prime_loop _ checks bits b len rounds g) as [[q g2]| |] eqn:L; try discriminate E. cbn [bind] in E. injection E as <- <-.
  assert (HB : 1 <= b <= 32). { unfold b. pose proof (Z.mod_pos_bound bits 32 ltac:(lia)). destruct (Z.eqb_spec (bits mod 32) 0); lia. }
  assert (LB : Z.of_nat len = (bits + 31) / 32) by (unfold len; rewrite Z2Nat.id; [reflexivity|apply Z.div_pos; lia]).
  assert (EB : bits = 32 * (Z.of_nat len - 1) + b).
  { rewrite LB. unfold b. pose proof (Z.div_mod bits 32 ltac:(lia)) as D. pose proof (Z.mod_pos_bound bits 32 ltac:(lia)) as MB. destruct (Z.eqb_spec (bits mod 32) 0) as [E0|E0].
    - replace (bits + 31) with (31 + bits / 32 * 32) by lia. rewrite Z.div_add by lia. change (31 / 32) with 0. lia.
    - replace (bits + 31) with ((bits mod 32 - 1) + (bits / 32 + 1) * 32) by lia. rewrite Z.div_add, Z.div_small by lia. lia. }
  assert (HL : (1 <= len)%nat) by lia. destruct (gen_loop_spec checks bits b len rounds HB HL EB B2 _ _ _ _ G L) as (n & g1 & H). exists n, g1. tauto.
Qed.

(* ------------------------------------------------------------------ *)
(** * Miller-Rabin rounds that test nothing *)
Lemma mr_witness_one n t : 1 < n -> mr_witness t (of_Z 1) (of_Z n) (of_Z (n - 1)) = Ok false.
Proof.
  intros N. induction t as [|t IH].
  - cbn [mr_witness]. rewrite nat_eq_u32_of_Z by lia. reflexivity.
  - rewrite witness_step by lia. change (1 * 1) with 1. rewrite Z.mod_small by lia. cbn [Z.eqb Pos.eqb negb andb]. exact IH.
Qed.
Lemma mr_vacuous checks c g vs rest : 0 < c < 2 ^ 32 -> Z.odd c = true -> stream_ok g -> draws (c * 2 ^ 32 + 1) g vs rest ->
  miller_rabin checks (of_Z (c * 2 ^ 32 + 1)) (length vs) g = Ok (true, rest).
Proof.
  intros C O G D. set (n := c * 2 ^ 32 + 1) in *. assert (N : 1 < n) by (unfold n; lia). assert (On : Z.odd n = true) by (unfold n; rewrite Z.odd_add, Z.odd_mul; rewrite andb_false_r; reflexivity).
  unfold miller_rabin. rewrite trim_num by lia. rewrite sub1_odd by (auto; lia). rewrite trim_num by lia. assert (TZ : trailling_zeros (of_Z (n - 1)) = 32) by (unfold n; rewrite Z.add_simpl_r; apply tz_of_Z; auto; lia). rewrite TZ.
  assert (E2 : of_Z (n - 1) = [0; c]). { symmetry. apply of_Z_unique; [|cbn [nval]; unfold n; change W with (2 ^ 32); lia]. apply canon_intro; [apply words_ok_cons; split; [lia|apply words_ok_cons; split; [change W with (2 ^ 32); lia|constructor]]|discriminate|]. intros _. cbn [length Nat.sub nval]. change (Wp 1) with W. nia. }
  assert (SH : nat_shr (of_Z (n - 1)) 32 = [0]) by (rewrite E2; reflexivity). rewrite SH. pose proof (of_Z_canon n ltac:(lia)) as Cn. pose proof (of_Z_val n ltac:(lia)) as Vn.
  clear TZ E2 SH. clearbody n. generalize (Z.to_nat 32) as t. intros t. induction D as [g|g v g' vs rest D DS IH]; [reflexivity|]. cbn [length mr_rounds]. rewrite <- Vn in D.
  destruct (random_inner_draw (of_Z n) Cn ltac:(lia) g v g' G D) as (r & R1 & R2 & R3 & R4). rewrite R1. cbn [bind]. destruct R2 as (Wr & Lr & _).
  assert (E1 : nat_exp checks r [0] (of_Z n) = Ok (of_Z 1)).
  { unfold nat_exp. assert (is_nan r = false) as ->. { pose proof (canon_len_pos _ Cn). unfold is_nan. destruct r; [cbn in Lr; lia|reflexivity]. }
    rewrite (is_nan_canon (of_Z n)) by auto. cbn [is_nan orb]. rewrite is_word_test by (auto; lia). rewrite Vn. destruct (Z.eqb_spec n 1); [lia|]. cbn. reflexivity. }
  rewrite E1. cbn [bind]. rewrite mr_witness_one by lia. cbn [bind]. apply IH. exact R4.
Qed.

(** What a positive answer says about the drawn bases. *)
Lemma pp_sound checks n rounds g rest : 128 <= n -> shift_ok (n - 1) -> stream_ok g -> probably_prime checks (of_Z n) rounds g = Ok (true, rest) ->
  exists vs, draws n g vs rest /\ length vs = (rounds + 1)%nat /\ Forall (fun v => v ^ (n - 1) mod n = 1) vs.
Proof.
  intros N S1 G E. rewrite pp_large in E by auto. destruct (Z.odd n) eqn:O; [|discriminate E]. cbn [negb] in E. destruct (existsb _ _); [discriminate E|].
  pose proof (mr_sound n ltac:(lia) O checks (rounds + 1) g S1 G) as M. destruct (miller_rabin checks (of_Z n) (rounds + 1) g) as [[m g1]| |]; try discriminate E. cbn [bind] in E.
  destruct m; [|discriminate E]. destruct (lucas (of_Z n)); try discriminate E. cbn [bind] in E. injection E as _ <-. destruct M as (vs & M1 & M2 & M3). exists vs. destruct (M3 eq_refl). auto.
Qed.
