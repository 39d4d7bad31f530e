(** Facts about [generate_prime]: the candidate as a number. *)
From Coq Require Import ZArith Znumtheory Zpow_facts List Lia Bool.
From Verif Require Import Words WordsFacts NatModel NatFacts NatFacts2 NatFacts3 NatFacts4 NatFacts5 Spec SpecInt SpecNum SpecPrime SpecGen VecPrims VecFacts Karatsuba KaraFacts KaraFacts2
  NatPow NatPowFacts NatExp NatExpFacts NatExpFacts2 BigInt BigIntFacts BigIntFacts2 NumTheory NumTheory2 NumTheory3 NumTheory4 NumBig NumBigFacts NumBigFacts2
  NatPrime NatPrimeFacts NatPrimeFacts2 NatPrimeFacts3 NatPrimeFacts4 NatPrimeFacts5.
Import ListNotations.
Open Scope Z_scope.

Lemma lor_cat k a b c d : 0 <= k -> 0 <= a < 2 ^ k -> 0 <= c < 2 ^ k -> Z.lor (a + 2 ^ k * b) (c + 2 ^ k * d) = Z.lor a c + 2 ^ k * Z.lor b d.
Proof.
  intros K A C. assert (E : forall x y, 0 <= x < 2 ^ k -> x + 2 ^ k * y = Z.lor (Z.shiftl y k) x). { intros x y X. rewrite Z.shiftl_mul_pow2, lor_shift_add by lia. ring. }
  rewrite (E a b A), (E c d C), (E (Z.lor a c) (Z.lor b d)) by (apply lor_below; auto). rewrite Z.shiftl_lor. rewrite <- !Z.lor_assoc. f_equal.
  rewrite (Z.lor_comm a (Z.lor (Z.shiftl d k) c)), <- Z.lor_assoc. f_equal. apply Z.lor_comm.
Qed.

Lemma top_value b v : 1 <= b <= 32 -> words_ok v -> v <> [] -> last v 0 < 2 ^ b -> let B := 32 * (Z.of_nat (length v) - 1) + b in 2 <= B ->
  nval (set_top b v) = Z.lor (nval v) (3 * 2 ^ (B - 2)).
Proof.
  intros HB Wv Nv LV B B2. set (m := (length v - 1)%nat) in *. assert (LEN : length v = S m) by (unfold m; destruct v; [congruence|cbn [length]; lia]).
  assert (EB : B = 32 * Z.of_nat m + b) by (unfold B; lia). pose proof (words_ok_last v Wv) as WL. pose proof (Wp_pos m) as WP.
  unfold set_top. destruct (Z.leb_spec 2 b) as [Hb|Hb].
  - pose proof (nval_bound _ (words_ok_removelast v Wv)) as RB. rewrite removelast_len in RB. fold m in RB.
    rewrite nval_set_last by auto. fold m. rewrite (last_split v Nv) at 3. rewrite nval_app, removelast_len. fold m. cbn [nval]. rewrite Z.mul_0_r, Z.add_0_r.
    replace (B - 2) with (32 * Z.of_nat m + (b - 2)) by lia. rewrite Z.pow_add_r by lia. replace (3 * (2 ^ (32 * Z.of_nat m) * 2 ^ (b - 2))) with (0 + 2 ^ (32 * Z.of_nat m) * (3 * 2 ^ (b - 2))) by ring.
    rewrite Wp_pow2 in *. rewrite lor_cat by lia. rewrite Z.lor_0_r. reflexivity.
  - assert (b = 1) by lia. subst b. change (2 ^ 1) with 2 in *. destruct (rev v) as [|x [|y r]] eqn:RV.
    + exfalso. apply (f_equal (@length Z)) in RV. rewrite rev_length in RV. cbn in RV. lia.
    + exfalso. assert (LV1 : length v = 1%nat) by (rewrite <- rev_length, RV; reflexivity). lia.
    + assert (EV : v = rev r ++ [y; x]) by (rewrite <- (rev_involutive v), RV; cbn [rev]; rewrite <- app_assoc; reflexivity).
      assert (LX : last v 0 = x) by (rewrite EV; change [y; x] with ([y] ++ [x]); rewrite app_assoc; apply last_last). rewrite LX in *.
      pose proof Wv as Wv2. rewrite EV in Wv2. apply words_ok_app in Wv2. destruct Wv2 as (Wr & Wyx). apply words_ok_cons in Wyx. destruct Wyx as (Wy & _).
      assert (LR : m = S (length (rev r))). { unfold m. rewrite EV, app_length. cbn [length]. lia. }
      cbn [rev]. rewrite <- app_assoc. cbn [app]. rewrite EV, !nval_app. cbn [nval]. set (k := length (rev r)) in *. pose proof (nval_bound _ Wr) as RB. fold k in RB.
      replace (B - 2) with (32 * Z.of_nat k + 31) by lia. rewrite Z.pow_add_r by lia. rewrite Wp_pow2 in *. change W with (2 ^ 32).
      replace (3 * (2 ^ (32 * Z.of_nat k) * 2 ^ 31)) with (0 + 2 ^ (32 * Z.of_nat k) * (0x80000000 + 2 ^ 32 * 1)) by (change (2 ^ 31) with 0x80000000; change (2 ^ 32) with 0x100000000; ring).
      rewrite lor_cat by lia. rewrite Z.lor_0_r. rewrite !Z.mul_0_r, !Z.add_0_r. rewrite lor_cat by (try lia; exact Wy). reflexivity.
Qed.

Lemma shape_value b ws : 1 <= b <= 32 -> words_ok ws -> ws <> [] -> let B := 32 * (Z.of_nat (length ws) - 1) + b in 2 <= B ->
  exists p, shape_words b ws = Ok p /\ canon p /\ nval p = start B (nval ws).
Proof.
  intros HB Ww Nw B B2. destruct (shape_spec b ws HB Ww Nw) as (p & P1 & P2 & P3 & P4 & P5 & _). fold B in P5. exists p. split; [exact P1|]. split.
  { assert (1 <= length ws)%nat by (destruct ws; [congruence|cbn [length]; lia]). apply canon_intro; [auto|intros X; rewrite X in P3; cbn in P3; lia|]. intros L. rewrite P3, Wp_pow2. assert (2 ^ (32 * Z.of_nat (length ws - 1)) <= 2 ^ (B - 1)) by (apply Z.pow_le_mono_r; unfold B; lia). lia. }
  assert (BD : B = 32 * (Z.of_nat (length ws) - 1) + b) by reflexivity. clearbody B. clear P2 P3 P4 P5. unfold shape_words in P1. destruct ws as [|w0 ws0] eqn:EW; [congruence|]. rewrite <- EW in *. cbv zeta in P1.
  set (v := if negb (b =? 32) then set_last ws (Z.land (last ws 0) (2 ^ b - 1)) else ws) in *. set (m := (length ws - 1)%nat) in *.
  assert (LEN : length ws = S m) by (unfold m; rewrite EW; cbn [length]; lia). assert (TW : 2 ^ b <= W) by (change W with (2 ^ 32); apply Z.pow_le_mono_r; lia). assert (PB : 0 < 2 ^ b) by (apply Z.pow_pos_nonneg; lia).
  assert (EB : 2 ^ B = Wp m * 2 ^ b). { replace B with (32 * Z.of_nat m + b) by lia. rewrite Z.pow_add_r, Wp_pow2 by lia. reflexivity. }
  pose proof (words_ok_last ws Ww) as WL. pose proof (Wp_pos m) as WP.
  assert (V : words_ok v /\ length v = length ws /\ last v 0 < 2 ^ b /\ nval v = nval ws mod 2 ^ B).
  { unfold v. destruct (Z.eqb_spec b 32) as [->|]; cbn [negb].
    - split; [auto|split; [auto|split; [change (2 ^ 32) with W; lia|]]]. symmetry. apply Z.mod_small. pose proof (nval_bound ws Ww) as NB. rewrite Wp_pow2 in NB. replace B with (32 * Z.of_nat (length ws)) by lia. exact NB.
    - rewrite set_last_len by auto. assert (LM : Z.land (last ws 0) (2 ^ b - 1) = last ws 0 mod 2 ^ b) by (replace (2 ^ b - 1) with (Z.ones b) by (rewrite Z.ones_equiv; lia); apply Z.land_ones; lia). rewrite LM.
      pose proof (Z.mod_pos_bound (last ws 0) (2 ^ b) PB) as MB.
      split; [rewrite set_last_nonnil by auto; apply words_ok_app; split; [apply words_ok_removelast; auto|apply words_ok_cons; split; [lia|constructor]]|]. split; [auto|]. split; [rewrite set_last_nonnil, last_last by auto; lia|].
      rewrite nval_set_last by auto. fold m. rewrite (last_split ws Nw) at 3. rewrite nval_app, removelast_len. fold m. cbn [nval]. rewrite Z.mul_0_r, Z.add_0_r, EB.
      pose proof (nval_bound _ (words_ok_removelast ws Ww)) as RB. rewrite removelast_len in RB. fold m in RB.
      apply Z.mod_unique with (last ws 0 / 2 ^ b); [left; nia|]. pose proof (Z.div_mod (last ws 0) (2 ^ b) ltac:(lia)). nia. }
  destruct V as (Wv & Lv & LL & Vv). assert (Nv : v <> []) by (intros E; rewrite E in Lv; cbn in Lv; lia).
  pose proof (top_value b v HB Wv Nv LL) as T. cbv zeta in T. rewrite Lv in T. rewrite <- BD in T. specialize (T B2). rewrite Vv in T.
  destruct (top_spec b v HB Wv Nv LL) as (T1 & _).
  destruct (set_top b v) as [|x v'] eqn:ST; [discriminate P1|]. injection P1 as <-. apply words_ok_cons in T1. destruct T1 as (Wx & Wv'). unfold start. rewrite <- T. rewrite !nval_cons. change W with (2 ^ 32) in *.
  pose proof (lor_cat 32 x (nval v') 1 0 ltac:(lia) Wx ltac:(lia)) as LC. rewrite Z.mul_0_r, Z.add_0_r, Z.lor_0_r in LC. congruence.
Qed.

(* ------------------------------------------------------------------ *)
(** * The sieve *)
Lemma small_primes_spec q : In q small_primes <-> prime q /\ 3 <= q <= 53.
Proof.
  split.
  - intros I. assert (B : 3 <= q <= 53) by (unfold small_primes in I; cbn [In] in I; lia). split; [|auto]. apply small_prime; [lia|]. unfold small_primes in I. cbn [In] in I. repeat (destruct I as [<-|I]; [reflexivity|]). destruct I.
  - intros (P & B). assert (A : forallb (fun x => implb (negb (Z.land (2 ^ x) prime_bit_mask =? 0) && (2 <? x)) (existsb (Z.eqb x) small_primes)) (map Z.of_nat (seq 0 54)) = true) by (vm_compute; reflexivity).
    rewrite forallb_forall in A. specialize (A q ltac:(apply in_map_iff; exists (Z.to_nat q); split; [lia|apply in_seq; lia])).
    apply (small_prime q ltac:(lia)) in P. rewrite P in A. destruct (Z.ltb_spec 2 q); [|lia]. cbn [andb implb] in A. apply existsb_exists in A. destruct A as (y & I & E). apply Z.eqb_eq in E. congruence.
Qed.
Lemma product_divides q : In q small_primes -> (q | small_primes_product).
Proof.
  intros I. assert (A : forallb (fun q => small_primes_product mod q =? 0) small_primes = true) by (vm_compute; reflexivity). rewrite forallb_forall in A. specialize (A q I). apply Z.eqb_eq in A. apply Z.mod_divide; [apply small_primes_spec in I; lia|exact A].
Qed.
Lemma sieved_test bits n d : 2 <= bits -> 0 < n < 2 ^ bits -> 0 <= d ->
  existsb (fun p => ((n mod small_primes_product + d) mod p =? 0) && ((6 <? bits) || negb (n mod small_primes_product + d =? p))) small_primes = false <-> sieved bits (n + d).
Proof.
  intros B N D. set (m := n mod small_primes_product).
  assert (DV : forall q, In q small_primes -> ((q | m + d) <-> (q | n + d))).
  { intros q I. pose proof (product_divides q I) as PD. assert (E : n + d = (m + d) + small_primes_product * (n / small_primes_product)). { pose proof (Z.div_mod n small_primes_product ltac:(discriminate)). unfold m. lia. }
    rewrite E. split; intros H.
    - apply Z.divide_add_r; [auto|]. apply Z.divide_mul_l. auto.
    - apply Z.divide_add_cancel_r with (small_primes_product * (n / small_primes_product)); [apply Z.divide_mul_l; auto|]. rewrite Z.add_comm. exact H. }
  assert (SM : bits <= 6 -> m = n). { intros B6. apply Z.mod_small. assert (2 ^ bits <= 2 ^ 6) by (apply Z.pow_le_mono_r; lia). assert (2 ^ 6 < small_primes_product) by reflexivity. lia. }
  split.
  - intros X q P Q DQ. assert (I : In q small_primes) by (apply small_primes_spec; auto).
    assert (Y : ((m + d) mod q =? 0) && ((6 <? bits) || negb (m + d =? q)) = false).
    { destruct (_ && _) eqn:E; [|reflexivity]. assert (existsb (fun p => ((m + d) mod p =? 0) && ((6 <? bits) || negb (m + d =? p))) small_primes = true) by (apply existsb_exists; exists q; auto). congruence. }
    apply DV in DQ; [|auto]. apply Z.mod_divide in DQ; [|lia]. rewrite DQ in Y. cbn [Z.eqb andb] in Y. apply orb_false_elim in Y. destruct Y as (Y1 & Y2). apply Z.ltb_ge in Y1. apply negb_false_iff, Z.eqb_eq in Y2. rewrite SM in Y2 by lia. auto.
  - intros S. destruct (existsb _ _) eqn:X; [|reflexivity]. exfalso. apply existsb_exists in X. destruct X as (q & I & E). apply andb_prop in E. destruct E as (E1 & E2). pose proof I as I2. apply small_primes_spec in I2. destruct I2 as (P & Q).
    apply Z.eqb_eq, Z.mod_divide in E1; [|lia]. apply DV in E1; [|auto]. destruct (S q P Q E1) as (S1 & S2). apply orb_prop in E2. destruct E2 as [E2|E2]; [apply Z.ltb_lt in E2; lia|]. apply negb_true_iff, Z.eqb_neq in E2. rewrite SM in E2 by lia. contradiction.
Qed.
Lemma find_delta_exact bits n : 2 <= bits -> 0 < n < 2 ^ bits -> forall cnt k, 0 <= k ->
  match find_delta cnt (2 * k) (n mod small_primes_product) bits with
  | Some d => 2 * k <= d < 2 * k + 2 * Z.of_nat cnt /\ Z.Even d /\ sieved bits (n + d) /\ forall d', 2 * k <= d' < d -> Z.Even d' -> ~ sieved bits (n + d')
  | None => forall d', 2 * k <= d' < 2 * k + 2 * Z.of_nat cnt -> Z.Even d' -> ~ sieved bits (n + d')
  end.
Proof.
  intros B N. induction cnt as [|c IH]; intros k K; [cbn [find_delta]; intros; lia|]. cbn [find_delta]. destruct (existsb _ _) eqn:X.
  - assert (NS : ~ sieved bits (n + 2 * k)) by (intros S; apply sieved_test in S; try lia; congruence).
    specialize (IH (k + 1) ltac:(lia)). replace (2 * (k + 1)) with (2 * k + 2) in IH by ring. destruct (find_delta c (2 * k + 2) _ bits) as [d|].
    + destruct IH as (I1 & I2 & I3 & I4). split; [lia|]. split; [auto|]. split; [auto|]. intros d' D' (j & E). destruct (Z.eq_dec d' (2 * k)) as [->|]; [auto|]. apply I4; [lia|exists j; auto].
    + intros d' D' (j & E). destruct (Z.eq_dec d' (2 * k)) as [->|]; [auto|]. apply IH; [lia|exists j; auto].
  - apply sieved_test in X; [|lia|lia|lia]. split; [lia|]. split; [exists k; auto|]. split; [auto|]. intros; lia.
Qed.
Lemma candidate_exact bits p v : 2 <= bits -> canon p -> nval p = start bits v -> nval p < 2 ^ bits -> exists c, candidate bits p = of_Z c /\ 0 < c /\ candidate_of bits v c.
Proof.
  intros B C E PB. assert (P0 : 0 < nval p). { pose proof (canon_nonneg p C). assert (nval p <> 0); [|lia]. intros Z0. rewrite Z0 in E. unfold start in E. symmetry in E. apply Z.lor_eq_0_iff in E. destruct E as (_ & E). discriminate E. }
  unfold candidate. rewrite rem_inner_u64_spec by (auto using canon_words, canon_nonnil; reflexivity).
  pose proof (find_delta_exact bits (nval p) B ltac:(lia) (Z.to_nat (2 ^ 19)) 0 ltac:(lia)) as F. change (2 * 0) with 0 in F. rewrite Z2Nat.id in F by (apply Z.pow_nonneg; lia). change (0 + 2 * 2 ^ 19) with (2 ^ 20) in F. change (2 ^ 20) with 1048576 in *.
  destruct (find_delta (Z.to_nat (2 ^ 19)) 0 (nval p mod small_primes_product) bits) as [d|].
  - destruct F as (F1 & F2 & F3 & F4). exists (nval p + d). split; [|split; [lia|]].
    + destruct (Z.ltb_spec 0 d).
      * unfold nat_add_u32. rewrite op1_canon by auto. apply add_basic_of_Z; [auto|]. assert (1048576 < W) by reflexivity. lia.
      * replace d with 0 by lia. rewrite Z.add_0_r, of_Z_nval by auto. reflexivity.
    + left. exists d. rewrite E in *. change (2 ^ 20) with 1048576. auto.
  - exists (nval p). split; [rewrite of_Z_nval by auto; reflexivity|]. split; [lia|]. right. rewrite E in *. change (2 ^ 20) with 1048576. auto.
Qed.
Lemma candidate_unique bits v c c' : candidate_of bits v c -> candidate_of bits v c' -> c = c'.
Proof.
  assert (A : forall d d' c c', c = start bits v + d -> c' = start bits v + d' -> 0 <= d -> 0 <= d' -> Z.Even d -> Z.Even d' -> sieved bits c -> sieved bits c' ->
    (forall e, 0 <= e < d -> Z.Even e -> ~ sieved bits (start bits v + e)) -> (forall e, 0 <= e < d' -> Z.Even e -> ~ sieved bits (start bits v + e)) -> c = c').
  { intros d d' c0 c1 -> -> D D' E E' S S' H H'. destruct (Z.lt_trichotomy d d') as [L|[->|L]]; [exfalso; apply (H' d); auto; lia|reflexivity|exfalso; apply (H d'); auto; lia]. }
  intros [(d & E1 & E2 & E3 & E4 & E5)|(E1 & E2)] [(d' & F1 & F2 & F3 & F4 & F5)|(F1 & F2)].
  - apply (A d d'); auto; lia.
  - exfalso. apply (F2 d); auto. rewrite <- E1. exact E4.
  - exfalso. apply (E2 d'); auto. rewrite <- F1. exact F4.
  - congruence.
Qed.

(* ------------------------------------------------------------------ *)
(** * The loop *)
Lemma take_words_somes : forall ws g, take_words (map Some ws ++ g) (length ws) = Ok (ws, g).
Proof. induction ws as [|w ws IH]; intros g; [destruct g; reflexivity|]. cbn [map app length take_words]. rewrite IH. reflexivity. Qed.

Lemma random_shorter x g r g' : canon x -> 0 < nval x -> stream_ok g -> random_inner x g = Ok (r, g') -> (length g' <= length g)%nat.
Proof.
  intros C X G E. pose proof (random_inner_inv x C X g G) as R. rewrite E in R. destruct R as (v & D & _).
  assert (TL : forall a ws b, takes a ws b -> (length b <= length a)%nat). { intros a ws b (pre & w & -> & _). rewrite app_length. cbn [length]. lia. }
  clear -D TL. induction D as [g ws rest T|g ws g1 v rest T L M D IH]; [eauto|]. apply TL in T. lia.
Qed.
Lemma pp_shorter checks n rounds g b g' : 0 < n -> stream_ok g -> probably_prime checks (of_Z n) rounds g = Ok (b, g') -> (length g' <= length g)%nat.
Proof.
  intros N G E. destruct (Z.lt_ge_cases n 128) as [S0|S0].
  - destruct (pp_small checks n rounds g ltac:(lia)) as (c & E1 & _). rewrite E1 in E. injection E as <- <-. auto.
  - rewrite pp_large in E by auto. destruct (negb _); [injection E as <- <-; auto|]. destruct (existsb _ _); [injection E as <- <-; auto|].
    assert (MR : forall t u m s g b g', stream_ok g -> mr_rounds checks s (of_Z n) t u m g = Ok (b, g') -> (length g' <= length g)%nat).
    { clear -N. intros t u m. pose proof (of_Z_canon n ltac:(lia)) as C. induction s as [|s IH]; intros g b g' G E; cbn [mr_rounds] in E; [injection E as <- <-; auto|].
      destruct (random_inner (of_Z n) g) as [[a g1]| |] eqn:R; try discriminate E. cbn [bind] in E. pose proof R as R2. apply random_shorter in R2; [|auto|rewrite of_Z_val by lia; auto|auto]. apply random_stream in R; [|auto|rewrite of_Z_val by lia; auto|auto].
      destruct (nat_exp checks a u (of_Z n)); try discriminate E. cbn [bind] in E. destruct (mr_witness _ _ _ _) as [w| |]; try discriminate E. cbn [bind] in E. destruct w; [injection E as <- <-; auto|]. apply IH in E; auto. lia. }
    destruct (miller_rabin checks (of_Z n) (rounds + 1) g) as [[m g1]| |] eqn:M; try discriminate E. cbn [bind] in E. unfold miller_rabin in M. apply MR in M; auto.
    destruct m; [|injection E as <- <-; auto]. destruct (lucas (of_Z n)); try discriminate E. cbn [bind] in E. injection E as <- <-. auto.
Qed.
Lemma stream_ok_app a b : stream_ok (a ++ b) <-> stream_ok a /\ stream_ok b.
Proof. apply Forall_app. Qed.

(** The test of the model, as the specification wants it. *)
Definition test_of (checks : bool) (rounds : nat) (n : Z) (g : list (option Z)) : option (bool * list (option Z)) :=
  match probably_prime checks (of_Z n) rounds g with Ok r => Some r | _ => None end.

Local Opaque candidate.
Lemma take_words_short : forall ws g n, (length ws < n)%nat -> take_words (map Some ws ++ None :: g) n = Ok (ws, g).
Proof. induction ws as [|w ws IH]; intros g n L; (destruct n as [|n]; [cbn [length] in L; lia|]); [reflexivity|]. cbn [map app take_words]. rewrite IH by (cbn [length] in L; lia). reflexivity. Qed.
Lemma take_words_inv : forall g n ws g1, take_words g n = Ok (ws, g1) -> (g = map Some ws ++ g1 /\ length ws = n) \/ (g = map Some ws ++ None :: g1 /\ (length ws < n)%nat).
Proof.
  induction g as [|o g IH]; intros n ws g1 E; (destruct n as [|n]; cbn [take_words] in E; [injection E as <- <-; left; split; reflexivity|]); [discriminate E|]. destruct o as [w|].
  - destruct (take_words g n) as [[ws' g']| |] eqn:T; try discriminate E. cbn [bind] in E. injection E as <- <-. destruct (IH _ _ _ T) as [(-> & L)|(-> & L)]; [left|right]; cbn [map app length]; split; auto; lia.
  - injection E as <- <-. right. split; [reflexivity|cbn [length]; lia].
Qed.

Section Loop.
Variable checks : bool.
Variable bits : Z.
Variable rounds : nat.
Hypothesis B2 : 2 <= bits.
Let b := if bits mod 32 =? 0 then 32 else bits mod 32.
Let len := Z.to_nat ((bits + 31) / 32).
Lemma b_range : 1 <= b <= 32.
Proof. unfold b. pose proof (Z.mod_pos_bound bits 32 ltac:(lia)). destruct (Z.eqb_spec (bits mod 32) 0); lia. Qed.
Lemma len_eq : Z.of_nat len = (bits + 31) / 32.
Proof. unfold len; rewrite Z2Nat.id; [reflexivity|apply Z.div_pos; lia]. Qed.
Lemma bits_eq : bits = 32 * (Z.of_nat len - 1) + b.
Proof.
  rewrite len_eq. unfold b. pose proof (Z.div_mod bits 32 ltac:(lia)) as D. pose proof (Z.mod_pos_bound bits 32 ltac:(lia)) as MB. destruct (Z.eqb_spec (bits mod 32) 0) as [E0|E0].
  - replace (bits + 31) with (31 + bits / 32 * 32) by lia. rewrite Z.div_add by lia. change (31 / 32) with 0. lia.
  - replace (bits + 31) with ((bits mod 32 - 1) + (bits / 32 + 1) * 32) by lia. rewrite Z.div_add, Z.div_small by lia. lia.
Qed.
Lemma bl_eq c : 0 < c -> 2 ^ (bits - 1) <= c -> (bits_len (of_Z c) =? bits) = (c <? 2 ^ bits).
Proof.
  intros C L. rewrite bits_len_of_Z_eq by lia. destruct (Z.eqb_spec c 0); [lia|]. assert (LG : bits - 1 <= Z.log2 c) by (apply Z.log2_le_pow2; auto). destruct (Z.ltb_spec c (2 ^ bits)) as [H|H].
  - apply Z.eqb_eq. assert (Z.log2 c < bits) by (apply Z.log2_lt_pow2; auto). lia.
  - apply Z.eqb_neq. assert (bits <= Z.log2 c) by (apply Z.log2_le_pow2; auto). lia.
Qed.
(** A whole group. *)
Lemma step_full ws : words_ok ws -> length ws = len -> exists c, candidate_of bits (nval ws) c /\ 0 < c /\ forall g f, gen_prime_loop (S f) checks bits b len rounds (map Some ws ++ g) =
      if c <? 2 ^ bits then do '(t, g2) <- probably_prime checks (of_Z c) rounds g; if t then Ok (of_Z c, g2) else gen_prime_loop f checks bits b len rounds g2
      else gen_prime_loop f checks bits b len rounds g.
Proof.
  pose proof b_range as HB. pose proof bits_eq as EB. intros Ww Lw. assert (LP : (1 <= len)%nat) by lia. clearbody b len. assert (Nw : ws <> []) by (intros E; rewrite E in Lw; cbn in Lw; lia).
  destruct (shape_value b ws HB Ww Nw ltac:(lia)) as (p & P1 & P2 & P3). rewrite Lw, <- EB in P3.
  destruct (shape_spec b ws HB Ww Nw) as (p' & P1' & _ & _ & _ & P5 & _). rewrite P1 in P1'. injection P1' as <-. rewrite Lw, <- EB in P5.
  destruct (candidate_exact bits p (nval ws) B2 P2 P3 ltac:(lia)) as (c & C1 & C2 & C3). exists c. split; [auto|]. split; [auto|].
  assert (CB : 2 ^ (bits - 1) <= c). { destruct C3 as [(d & E1 & E2 & _)|(E1 & _)]; rewrite <- P3 in E1; lia. }
  intros g f. rewrite gen_loop_S, <- Lw, take_words_somes. cbn [bind]. rewrite P1. cbn [bind]. cbv zeta. rewrite C1, bl_eq by auto. reflexivity.
Qed.
(** A group cut short by an error. *)
Lemma step_short ws g f : words_ok ws -> (1 <= length ws < len)%nat -> gen_prime_loop (S f) checks bits b len rounds (map Some ws ++ None :: g) = gen_prime_loop f checks bits b len rounds g.
Proof.
  pose proof b_range as HB. pose proof bits_eq as EB. intros Ww Lw. clearbody b len. assert (Nw : ws <> []) by (intros E; rewrite E in Lw; cbn in Lw; lia).
  destruct (shape_spec b ws HB Ww Nw) as (p & P1 & P2 & P3 & P4 & P5 & _). set (B := 32 * (Z.of_nat (length ws) - 1) + b) in *. assert (BB : 1 <= B <= bits - 32) by lia.
  assert (CP : canon p). { apply canon_intro; [auto|intros X; rewrite X in P3; cbn in P3; lia|]. intros L. rewrite P3, Wp_pow2. assert (2 ^ (32 * Z.of_nat (length ws - 1)) <= 2 ^ (B - 1)) by (apply Z.pow_le_mono_r; unfold B; lia). lia. }
  destruct (candidate_spec bits p P2 CP) as (d & D1 & D2 & _). rewrite gen_loop_S, take_words_short by lia. cbn [bind]. rewrite P1. cbn [bind]. cbv zeta. rewrite D1.
  assert (PB : 0 < 2 ^ (B - 1)) by (apply Z.pow_pos_nonneg; lia).
  assert (SM : nval p + d < 2 ^ (bits - 1)).
  { assert (H1 : 2 ^ B <= 2 ^ (bits - 32)) by (apply Z.pow_le_mono_r; lia). assert (H2 : 2 ^ (bits - 1) = 2 ^ (bits - 32) * 2 ^ 31) by (rewrite <- Z.pow_add_r by lia; f_equal; lia). assert (H3 : 1 < 2 ^ (bits - 32)) by (apply Z.pow_gt_1; lia).
    change (2 ^ 31) with 2147483648 in H2. change (2 ^ 20) with 1048576 in D2. lia. }
  assert ((bits_len (of_Z (nval p + d)) =? bits) = false) as ->; [|reflexivity]. rewrite bits_len_of_Z_eq by lia. destruct (Z.eqb_spec (nval p + d) 0); [lia|]. apply Z.eqb_neq.
  assert (Z.log2 (nval p + d) < bits - 1) by (apply Z.log2_lt_pow2; lia). lia.
Qed.

Lemma loop_exact : forall g n rest, generates (test_of checks rounds) bits g n rest -> stream_ok g ->
  forall fuel, (length g < fuel)%nat -> gen_prime_loop fuel checks bits b len rounds g = Ok (of_Z n, rest).
Proof.
  pose proof len_eq as LB. pose proof b_range as HB. pose proof bits_eq as EB. assert (LP : (1 <= len)%nat) by lia.
  assert (ST : forall ws c, words_ok ws -> Z.of_nat (length ws) = (bits + 31) / 32 -> candidate_of bits (nval ws) c -> 0 < c /\ forall g f, gen_prime_loop (S f) checks bits b len rounds (map Some ws ++ g) =
      if c <? 2 ^ bits then do '(t, g2) <- probably_prime checks (of_Z c) rounds g; if t then Ok (of_Z c, g2) else gen_prime_loop f checks bits b len rounds g2
      else gen_prime_loop f checks bits b len rounds g).
  { intros ws c Ww L C. destruct (step_full ws Ww ltac:(lia)) as (c' & C' & C0 & S). rewrite <- (candidate_unique _ _ _ _ C C') in C0, S. auto. }
  induction 1 as [ws g c rest Ww L C CB T|ws g c g' n rest Ww L C CB T GS IH|ws g c n rest Ww L C CB GS IH|ws g n rest Ww L GS IH]; intros G fuel FU; (destruct fuel as [|f]; [lia|]); [| | |rewrite step_short by (auto; lia)]; try (destruct (ST ws c Ww L C) as (C0 & ->));
    apply stream_ok_app in G; destruct G as (_ & G); rewrite app_length, map_length in FU; assert (1 <= length ws)%nat by lia.
  - destruct (Z.ltb_spec c (2 ^ bits)); [|lia]. unfold test_of in T. destruct (probably_prime checks (of_Z c) rounds g) as [r| |]; try discriminate T. injection T as ->. reflexivity.
  - destruct (Z.ltb_spec c (2 ^ bits)); [|lia]. unfold test_of in T. destruct (probably_prime checks (of_Z c) rounds g) as [r| |] eqn:PP; try discriminate T. injection T as ->. cbn [bind].
    apply IH; [apply (pp_stream checks c rounds g false g'); auto|]. apply pp_shorter in PP; auto. lia.
  - destruct (Z.ltb_spec c (2 ^ bits)); [lia|]. apply IH; [auto|lia].
  - cbn [length] in FU. apply IH; [inversion G; auto|lia].
Qed.
Lemma loop_inv : forall fuel g p rest, stream_ok g -> gen_prime_loop fuel checks bits b len rounds g = Ok (p, rest) -> exists n, p = of_Z n /\ generates (test_of checks rounds) bits g n rest.
Proof.
  pose proof len_eq as LB. pose proof b_range as HB. pose proof bits_eq as EB. assert (LP : (1 <= len)%nat) by lia.
  induction fuel as [|f IH]; intros g p rest G E; [discriminate E|]. pose proof E as E0. rewrite gen_loop_S in E0. destruct (take_words g len) as [[ws g1]| |] eqn:T; try discriminate E0.
  destruct (take_words_ok _ _ _ _ T G) as (Ww & _ & G1 & _). apply take_words_inv in T. destruct T as [(-> & L)|(-> & L)].
  - clear E0. destruct (step_full ws Ww L) as (c & C1 & C2 & S). rewrite S in E. clear S. assert (LZ : Z.of_nat (length ws) = (bits + 31) / 32) by lia. destruct (Z.ltb_spec c (2 ^ bits)) as [H|H].
    + destruct (probably_prime checks (of_Z c) rounds g1) as [[t g2]| |] eqn:PP; try discriminate E. cbn [bind] in E. assert (TO : test_of checks rounds c g1 = Some (t, g2)) by (unfold test_of; rewrite PP; reflexivity). destruct t.
      * injection E as <- <-. exists c. split; [reflexivity|]. apply gen_hit; auto.
      * apply IH in E; [|apply (pp_stream checks c rounds g1 false g2); auto]. destruct E as (n & -> & GN). exists n. split; [reflexivity|]. apply (gen_fail _ _ ws g1 c g2); auto.
    + apply IH in E; [|auto]. destruct E as (n & -> & GN). exists n. split; [reflexivity|]. apply (gen_long _ _ ws g1 c); auto.
  - destruct ws as [|w ws]. { cbn in E0. discriminate E0. } rewrite step_short in E by (auto; cbn [length] in *; lia). apply IH in E; [|auto]. destruct E as (n & -> & GN). exists n. split; [reflexivity|]. apply gen_short; auto. cbn [length] in *. lia.
Qed.
Lemma loop_panic f g : gen_prime_loop (S f) checks bits b len rounds (None :: g) = Panic.
Proof. pose proof len_eq as LB. pose proof bits_eq as EB. pose proof b_range as HB. assert (LP : (1 <= len)%nat) by lia. rewrite gen_loop_S. clear LB EB. destruct len as [|k]; [lia|]. reflexivity. Qed.
End Loop.

Lemma generate_iff checks bits rounds g p rest : 2 <= bits -> stream_ok g ->
  (generate_prime checks bits rounds g = Ok (Some p, rest) <-> exists n, p = of_Z n /\ generates (test_of checks rounds) bits g n rest).
Proof.
  intros B G. unfold generate_prime. destruct (Z.ltb_spec bits 2); [lia|]. cbv zeta. split.
  - intros E. destruct (gen_prime_loop _ _ _ _ _ _ _) as [[q g']| |] eqn:L; try discriminate E. cbn [bind] in E. injection E as <- <-. apply loop_inv in L; auto.
  - intros (n & -> & GN). rewrite (loop_exact checks bits rounds B g n rest GN G) by lia. reflexivity.
Qed.

(* ------------------------------------------------------------------ *)
(** * Every prime comes out *)
Fixpoint enc (len : nat) (n : Z) : list Z := match len with O => [] | S l => n mod W :: enc l (n / W) end.
Lemma enc_spec : forall len n, 0 <= n < Wp len -> words_ok (enc len n) /\ length (enc len n) = len /\ nval (enc len n) = n.
Proof.
  induction len as [|l IH]; intros n N; cbn [enc].
  - change (Wp 0) with 1 in N. cbn [nval]. repeat split; try constructor; lia.
  - assert (WP : 0 < W) by reflexivity. rewrite Wp_S in N. destruct (IH (n / W)) as (I1 & I2 & I3). { split; [apply Z.div_pos; lia|apply Z.div_lt_upper_bound; lia]. }
    split; [apply words_ok_cons; split; [apply Z.mod_pos_bound; lia|auto]|]. split; [cbn [length]; lia|]. rewrite nval_cons, I3. pose proof (Z.div_mod n W ltac:(lia)). lia.
Qed.
Lemma start_id bits n : 2 <= bits -> 3 * 2 ^ (bits - 2) <= n < 2 ^ bits -> Z.odd n = true -> start bits n = n.
Proof.
  intros B N O. unfold start. rewrite Z.mod_small by (pose proof (Z.pow_pos_nonneg 2 (bits - 2) ltac:(lia) ltac:(lia)); lia). set (k := bits - 2) in *. assert (K : 0 < 2 ^ k) by (apply Z.pow_pos_nonneg; lia).
  assert (E : 2 ^ bits = 4 * 2 ^ k) by (replace bits with (2 + k) by (unfold k; lia); rewrite Z.pow_add_r by lia; reflexivity).
  pose proof (lor_cat k (n - 3 * 2 ^ k) 3 0 3 ltac:(lia) ltac:(lia) ltac:(lia)) as L. rewrite Z.lor_0_r in L. change (Z.lor 3 3) with 3 in L. replace (n - 3 * 2 ^ k + 2 ^ k * 3) with n in L by ring. replace (0 + 2 ^ k * 3) with (3 * 2 ^ k) in L by ring. rewrite L.
  rewrite lor_1 by lia. rewrite O. lia.
Qed.
Lemma prime_sieved bits n : 2 <= bits -> prime n -> 2 ^ (bits - 1) <= n -> sieved bits n.
Proof.
  intros B P N q Q1 Q2 D. assert (E : n = q) by (apply Znumtheory.prime_div_prime in D; auto). split; [|auto]. assert (L : bits - 1 < 6); [|lia]. apply (Z.pow_lt_mono_r_iff 2); [lia|lia|]. change (2 ^ 6) with 64. lia.
Qed.
Lemma prime_candidate bits n : 2 <= bits -> prime n -> 3 * 2 ^ (bits - 2) <= n < 2 ^ bits -> candidate_of bits n n.
Proof.
  intros B P N. assert (K : 0 < 2 ^ (bits - 2)) by (apply Z.pow_pos_nonneg; lia). assert (E : 2 ^ (bits - 1) = 2 * 2 ^ (bits - 2)) by (replace (bits - 1) with (1 + (bits - 2)) by lia; rewrite Z.pow_add_r by lia; reflexivity).
  assert (O : Z.odd n = true). { destruct (Z.odd n) eqn:O; [auto|]. exfalso. assert (EV : Z.even n = true) by (rewrite <- Z.negb_odd, O; reflexivity). apply Z.even_spec in EV. destruct EV as (j & J). assert (2 = n); [|lia]. apply Znumtheory.prime_div_prime; [exact Znumtheory.prime_2|auto|exists j; lia]. }
  left. exists 0. rewrite start_id by auto. split; [lia|]. split; [change (2 ^ 20) with 1048576; lia|]. split; [exists 0; reflexivity|]. split; [apply prime_sieved; auto; lia|]. intros; lia.
Qed.
Lemma draw_one n rest : 1 < n -> exists pre, stream_ok pre /\ draw n (pre ++ rest) 1 rest.
Proof.
  intros N. set (L := word_length n). assert (LG : 0 < Z.log2 n) by (apply Z.log2_pos; auto). assert (L1 : (1 <= L)%nat). { unfold L, word_length, bit_length. assert (1 <= (Z.log2 n + 1 + 31) / 32) by (apply Z.div_le_lower_bound; lia). lia. }
  assert (WL : 1 < Wp L) by (rewrite Wp_pow2; apply Z.pow_gt_1; lia). destruct (enc_spec L 1 ltac:(lia)) as (E1 & E2 & E3). exists (map Some (enc L 1)). split.
  - apply Forall_forall. intros o I. apply in_map_iff in I. destruct I as (w & <- & I). unfold words_ok in E1. rewrite Forall_forall in E1. apply E1. auto.
  - assert (M : 1 mod 2 ^ bit_length n = 1) by (apply Z.mod_small; split; [lia|]; apply Z.pow_gt_1; unfold bit_length; lia).
    assert (H : draw n (map Some (enc L 1) ++ rest) (nval (enc L 1) mod 2 ^ bit_length n) rest); [|rewrite E3, M in H; exact H].
    assert (NE : enc L 1 <> []) by (intros X; rewrite X in E2; cbn in E2; lia). apply (draw_hit n _ (enc L 1)); [|auto|rewrite E3, M; auto].
    exists (map Some (removelast (enc L 1))), (last (enc L 1) 0). split.
    + rewrite (last_split (enc L 1) NE) at 1. rewrite map_app, <- app_assoc. reflexivity.
    + rewrite (last_split (enc L 1) NE) at 1. f_equal. generalize (removelast (enc L 1)). intros l. unfold somes. induction l as [|x l IH]; [reflexivity|]. cbn [map flat_map app]. congruence.
Qed.
Lemma draws_one n rest : 1 < n -> forall k, exists pre, stream_ok pre /\ draws n (pre ++ rest) (repeat 1 k) rest.
Proof.
  intros N. induction k as [|k (pre & P1 & P2)]; [exists []; split; [constructor|apply draws_nil]|]. destruct (draw_one n (pre ++ rest) N) as (pre' & Q1 & Q2).
  exists (pre' ++ pre). split; [apply stream_ok_app; auto|]. cbn [repeat]. rewrite <- app_assoc. apply draws_cons with (pre ++ rest); auto.
Qed.
Lemma generates_prime checks rounds bits n pre rest : 2 <= bits -> prime n -> 3 * 2 ^ (bits - 2) <= n < 2 ^ bits -> stream_ok pre -> probably_prime checks (of_Z n) rounds (pre ++ rest) = Ok (true, rest) ->
  exists g, stream_ok g /\ generates (test_of checks rounds) bits (g ++ rest) n rest.
Proof.
  intros B P N S T. set (len := Z.to_nat ((bits + 31) / 32)). assert (LB : Z.of_nat len = (bits + 31) / 32) by (unfold len; rewrite Z2Nat.id; [reflexivity|apply Z.div_pos; lia]).
  assert (K : 0 < 2 ^ (bits - 2)) by (apply Z.pow_pos_nonneg; lia).
  assert (NB : 0 <= n < Wp len). { split; [lia|]. rewrite Wp_pow2. assert (2 ^ bits <= 2 ^ (32 * Z.of_nat len)); [|lia]. apply Z.pow_le_mono_r; [lia|]. rewrite LB. pose proof (Z.div_mod (bits + 31) 32 ltac:(lia)). pose proof (Z.mod_pos_bound (bits + 31) 32 ltac:(lia)). lia. }
  destruct (enc_spec len n NB) as (E1 & E2 & E3). exists (map Some (enc len n) ++ pre). split.
  - apply stream_ok_app. split; [|auto]. apply Forall_forall. intros o I. apply in_map_iff in I. destruct I as (w & <- & I). unfold words_ok in E1. rewrite Forall_forall in E1. apply E1. auto.
  - rewrite <- app_assoc. apply gen_hit; [auto|lia|rewrite E3; apply prime_candidate; auto|lia|]. unfold test_of. rewrite T. reflexivity.
Qed.
