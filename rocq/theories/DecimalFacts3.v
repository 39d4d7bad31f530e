(** [Decimal::new] and the texts. *)
From Coq Require Import Ascii String ZArith QArith Qabs Qpower Lqa List Lia Bool.
From Verif Require Import Words Spec WordsFacts NatModel NatFacts NatFacts2 NatFacts5 NatConv NatConvFacts BigInt BigIntFacts Rat Float SpecFloat
  FloatFacts FloatFacts2 FloatFacts4 FloatFacts6 SpecDecimal Decimal DecimalFacts DecimalFacts2.
Import ListNotations.
Open Scope Z_scope.
Open Scope list_scope.

Lemma dval_inj : forall a b, digs a -> digs b -> length a = length b -> dval a = dval b -> a = b.
Proof.
  induction a as [|x a IH]; intros [|y b] A B L V; try discriminate; [auto|]. injection L as L. apply digs_cons in A as [A1 A2]. apply digs_cons in B as [B1 B2].
  rewrite !dval_cons, L in V. pose proof (dval_bound a A2) as X. pose proof (dval_bound b B2) as Y. rewrite L in X.
  pose proof (p10 (Z.of_nat (length b)) ltac:(lia)). assert (x = y) by nia. subst y. f_equal. apply IH; auto. lia.
Qed.
Lemma dval_len a b : digs a -> digs b -> a <> [] -> b <> [] -> hd 0 a <> 48 -> hd 0 b <> 48 -> dval a = dval b -> length a = length b.
Proof.
  intros A B NA NB HA HB V. pose proof (dval_bound a A) as X. pose proof (dval_bound b B) as Y. pose proof (dval_pos a A NA HA) as P. pose proof (dval_pos b B NB HB) as Q.
  assert (forall i j, 0 <= i -> 10 ^ (i - 1) < 10 ^ j -> i <= j) as M.
  { intros i j I H. destruct (Z.le_gt_cases i j); [auto|]. pose proof (Z.pow_le_mono_r 10 j (i - 1) ltac:(lia) ltac:(lia)). lia. }
  pose proof (M (Z.of_nat (length a)) (Z.of_nat (length b)) ltac:(lia) ltac:(lia)). pose proof (M (Z.of_nat (length b)) (Z.of_nat (length a)) ltac:(lia) ltac:(lia)). lia.
Qed.
Lemma numeral_digs t n : is_numeral lchar 10 t n -> digs t /\ dval t = n /\ t <> [] /\ (length t = 1%nat \/ hd 0 t <> 48).
Proof.
  intros (ds & -> & D & V & N & H). assert (E : dvs (map lchar ds) = ds).
  { unfold dvs. rewrite map_map. rewrite <- (map_id ds) at 2. apply map_ext_in. intros d I. unfold digits_ok in D. rewrite Forall_forall in D.
    specialize (D d I). cbn beta in D. unfold lchar. destruct (Z.ltb_spec d 10); lia. }
  split; [|split; [unfold dval; rewrite E; auto|split; [destruct ds; [congruence|discriminate]|rewrite map_length; destruct H as [H|H]; [auto|]]]].
  - unfold digs, digits_ok in *. rewrite Forall_map. eapply Forall_impl; [|exact D]. intros d B. cbn beta in *. unfold lchar, dig. destruct (Z.ltb_spec d 10); lia.
  - right. destruct ds as [|d ds]; [congruence|]. cbn [map hd] in *. apply Forall_inv in D. unfold lchar. destruct (Z.ltb_spec d 10); lia.
Qed.
Lemma zeros_in_app a b : zeros_in (a ++ b) = (zeros_in a + zeros_in b)%nat.
Proof. unfold zeros_in. rewrite filter_app, app_length. reflexivity. Qed.
Lemma zeros_in_zeros k : zeros_in (repeat 48 k) = k.
Proof. induction k as [|k IH]; [reflexivity|]. unfold zeros_in in *. cbn [repeat filter]. change (48 =? 48) with true. cbn [length]. rewrite IH. reflexivity. Qed.
Lemma zeros_in_none u : ~ In 48 u -> zeros_in u = O.
Proof.
  induction u as [|c u IH]; [reflexivity|]. intros H. unfold zeros_in in *. cbn [filter In] in *. destruct (Z.eqb_spec 48 c); [exfalso; apply H; left; congruence|].
  apply IH. tauto.
Qed.
Lemma plain_text t n : 0 < n -> plain n -> is_numeral lchar 10 t n ->
  let d := DC (firstn (length t - zeros_in t) t) (Z.of_nat (length t)) in dwf d /\ (dvalue d == dy n 0)%Q.
Proof.
  intros N (ds & k & D & NI & K & E) NT. destruct (numeral_digs t n NT) as (Dt & Vt & Nt & Ht).
  assert (Hd : hd 0 t <> 48).
  { destruct Ht as [L|H]; [|auto]. destruct t as [|c [|? ?]]; try discriminate. cbn [hd]. intros ->. change (dval [48]) with 0 in Vt. lia. }
  set (u := map (fun d => d + 48) ds).
  assert (EU : dvs u = ds) by (unfold dvs, u; rewrite map_map; rewrite <- (map_id ds) at 2; apply map_ext; intros; lia).
  assert (DU : digs u).
  { unfold digs, u, digits_ok in *. rewrite Forall_map. eapply Forall_impl; [|exact D]. intros d B. cbn beta in *. unfold dig. lia. }
  assert (VU : dval u = be_value 10 ds) by (unfold dval; rewrite EU; auto).
  assert (NIU : ~ In 48 u) by (unfold u; rewrite in_map_iff; intros (d & X & Y); apply NI; replace 0 with d by lia; auto).
  assert (NU : u <> []) by (intros X; rewrite X in VU; change (dval []) with 0 in VU; rewrite <- VU in E; lia).
  assert (HU : hd 0 u <> 48) by (destruct u; [congruence|]; cbn [hd In] in *; intros ->; apply NIU; auto).
  set (z := repeat 48 (Z.to_nat k)). assert (ET : t = u ++ z).
  { assert (Dz : digs (u ++ z)) by (apply digs_app; split; [auto|apply digs_zeros]).
    assert (Vz : dval (u ++ z) = n) by (unfold z; rewrite dval_app, dval_zeros, repeat_length, Z2Nat.id, VU by lia; lia).
    assert (Hz : hd 0 (u ++ z) <> 48) by (rewrite hd_app; auto). assert (Nz : u ++ z <> []) by (destruct u; [congruence|discriminate]).
    apply dval_inj; auto; [|congruence]. apply dval_len; auto. congruence. }
  assert (EF : firstn (length t - zeros_in t) t = u).
  { rewrite ET. unfold z. rewrite zeros_in_app, zeros_in_zeros, (zeros_in_none u NIU), app_length, repeat_length.
    replace (length u + Z.to_nat k - (0 + Z.to_nat k))%nat with (length u + 0)%nat by lia. rewrite firstn_app_2. cbn [firstn]. apply app_nil_r. }
  cbv zeta. rewrite EF. split.
  - split; [auto|]. split; [auto|]. split; [auto|]. cbn [dmant]. destruct (exists_last NU) as (u0 & c & X). rewrite X, last_last in *.
    intros ->. apply NIU. apply in_or_app. right. left. auto.
  - unfold dvalue. cbn [dmant dexp]. rewrite ET at 1. unfold z. rewrite app_length, repeat_length, VU, Nat2Z.inj_add, Z2Nat.id by lia.
    rewrite (de_to _ _ 0) by lia. unfold dy, de. rewrite E. replace (Z.of_nat (length u) + k - Z.of_nat (length u) - 0) with k by lia. reflexivity.
Qed.

Lemma odd_pow n t : Z.odd n = true -> 0 < t -> forall m, n <> m * 2 ^ t.
Proof. intros O T m ->. rewrite Z.odd_mul, Z.odd_pow in O by lia. change (Z.odd 2) with false in O. rewrite andb_false_r in O. discriminate. Qed.
Lemma dec_new_spec m shift n s : canon m -> 0 < nval m -> 0 < n -> 0 <= s -> s = 0 \/ Z.odd n = true -> plain n ->
  (dy (nval m) shift == dy n (- s))%Q -> (let t := - shift - s in t < 32 \/ (t mod 32 <> 0 /\ 2 ^ (t mod 32) <= last m 0)) ->
  exists d, dec_new m shift = Ok d /\ dwf d /\ (dvalue d == dy n (- s))%Q.
Proof.
  intros Cm Pm Pn Hs SO PL EQ SH. cbv zeta in SH. set (t := - shift - s) in *. unfold dec_new.
  rewrite (is_nan_canon m) by auto. cbn [orb].
  assert (NE : nat_eq_u32 m 0 = false). { rewrite <- (of_Z_nval m Cm), of_Z_eq_u32 by lia. apply Z.eqb_neq. lia. }
  rewrite NE, trim_canon_id by auto.
  assert (TAIL : forall m', represents m' n -> exists d, (do t <- fmt_display m';
      let z := DC (firstn (length t - zeros_in t) t) (Z.of_nat (length t)) in
      if - s <? 0 then dec_shr_loop (Z.to_nat (- (- s) / 28)) z (- s) else Ok z) = Ok d /\ dwf d /\ (dvalue d == dy n (- s))%Q).
  { intros m' (C' & V'). destruct (fmt_display_spec m' C') as (tx & E & NT). rewrite E. cbn [bind]. rewrite V' in NT.
    destruct (plain_text tx n Pn PL NT) as (W & V). cbv zeta in *. destruct (Z.ltb_spec (- s) 0) as [L|L].
    - edestruct dec_shr_loop_spec as (d & E2 & W2 & V2); [| |exact (dwf_dnum _ W)|exists d; split; [exact E2|]; split; [auto|]]; [lia| |].
      + rewrite Z2Nat.id by (apply Z.div_pos; lia). pose proof (Z.div_mod (- - s) 28 ltac:(lia)). pose proof (Z.mod_pos_bound (- - s) 28 ltac:(lia)). lia.
      + rewrite V2, V. unfold dy. change (Qpower 2 0) with 1%Q. ring.
    - assert (s = 0) by lia. subst s. eexists. split; [reflexivity|]. split; [auto|]. rewrite V. reflexivity. }
  destruct (Z.ltb_spec shift 0) as [L|L].
  - assert (T0 : 0 <= t).
    { destruct (Z.le_gt_cases 0 t) as [|G]; [auto|exfalso]. destruct SO as [->|O]; [lia|].
      apply (odd_pow n (- t) O ltac:(lia) (nval m)). symmetry. apply (dy_eq _ _ (- s)). rewrite <- EQ.
      rewrite (dy_to (nval m) shift (- s)) by lia. replace (shift - - s) with (- t) by (unfold t; lia). reflexivity. }
    assert (EM : nval m = n * 2 ^ t).
    { apply (dy_eq _ _ shift). rewrite EQ, (dy_to n (- s) shift) by lia. replace (- s - shift) with t by (unfold t; lia). reflexivity. }
    destruct (trailling_zeros_spec m (canon_words m Cm) Pm) as (q & Z0 & Q0 & EZ). set (tz := trailling_zeros m) in *.
    assert (MIN : Z.min (- shift) tz = t).
    { destruct (Z.lt_trichotomy tz t) as [X|[X|X]].
      - exfalso. apply (odd_pow (2 * q + 1) (t - tz) ltac:(rewrite Z.odd_add, Z.odd_mul; reflexivity) ltac:(lia) n).
        apply (Z.mul_reg_r _ _ (2 ^ tz)); [apply Z.pow_nonzero; lia|]. rewrite <- EZ, EM, <- Z.mul_assoc, <- Z.pow_add_r by lia. do 2 f_equal. lia.
      - lia.
      - destruct SO as [->|O]; [lia|]. exfalso. apply (odd_pow n (tz - t) O ltac:(lia) (2 * q + 1)).
        apply (Z.mul_reg_r _ _ (2 ^ t)); [apply Z.pow_nonzero; lia|]. rewrite <- EM, EZ, <- Z.mul_assoc, <- Z.pow_add_r by lia. do 2 f_equal. lia. }
    rewrite MIN. replace (shift + t) with (- s) by (unfold t; lia). destruct (Z.ltb_spec 0 (- s)); [lia|].
    apply TAIL. replace n with (nval m / 2 ^ t) by (rewrite EM; apply Z.div_mul, Z.pow_nonzero; lia). apply nat_shr_rep; auto.
    destruct SH as [SH|SH]; [left; lia|right; right; auto].
  - assert (s = 0) as ->.
    { destruct SO as [->|O]; [auto|]. destruct (Z.eq_dec s 0); [auto|exfalso]. apply (odd_pow n (shift + s) O ltac:(lia) (nval m)).
      symmetry. apply (dy_eq _ _ (- s)). rewrite <- EQ, (dy_to (nval m) shift (- s)) by lia. replace (shift - - s) with (shift + s) by lia. reflexivity. }
    assert (EM : n = nval m * 2 ^ shift).
    { symmetry. apply (dy_eq _ _ 0). change (- 0) with 0 in EQ. rewrite <- EQ, (dy_to (nval m) shift 0) by lia. rewrite Z.sub_0_r. reflexivity. }
    change (- 0) with 0 in *. destruct (Z.ltb_spec 0 shift) as [P|P].
    + apply TAIL. rewrite EM. apply nat_shl_rep_pos; auto.
    + assert (shift = 0) by lia. subst shift. apply TAIL. split; [auto|]. rewrite EM. change (2 ^ 0) with 1. lia.
Qed.

(** The decimal of a printable Float. *)
Lemma float_decimal x : ok_float x -> flform x = Finite -> printable x ->
  exists d, dec_new (flmant x) (flexp x - bits_len (flmant x)) = Ok d /\ dwf d /\ (dvalue d == Qabs (flvalue x))%Q /\ nat_eq_u32 (flmant x) 0 = false.
Proof.
  intros OX F (n & s & Pn & Hs & EV & SO & PL & SH). destruct (ok_finite x OX F) as (_ & NM). destruct (normal_pos _ NM) as (Hw & Hl & B).
  assert (CM : canon (flmant x)) by apply NM. rewrite normal_bits_len by auto.
  assert (PM : 0 < nval (flmant x)). { pose proof (pow2_pos (mbits (flmant x) - 1) ltac:(unfold mbits; lia)). lia. }
  assert (TOP : 2 ^ 31 <= last (flmant x) 0).
  { destruct (Z.le_gt_cases (2 ^ 31) (last (flmant x) 0)) as [|G]; [auto|exfalso]. pose proof (nval_last (flmant x)) as NL.
    assert (NN : flmant x <> []) by apply canon_nonnil, CM. specialize (NL NN).
    pose proof (nval_bound _ (words_ok_removelast _ Hw)) as NB. rewrite removelast_len in NB.
    assert (WP : 2 ^ (mbits (flmant x) - 1) = 2 ^ 31 * Wp (length (flmant x) - 1)).
    { rewrite Wp_pow2, <- Z.pow_add_r by lia. f_equal. unfold mbits. lia. }
    rewrite WP in B. nia. }
  assert (EQ : (dy (nval (flmant x)) (flexp x - mbits (flmant x)) == dy n (- s))%Q).
  { rewrite <- EV, (finite_abs x F NM). reflexivity. }
  destruct (dec_new_spec (flmant x) (flexp x - mbits (flmant x)) n s CM PM Pn Hs SO PL EQ) as (d & E & W & V).
  { cbv zeta in *. replace (- (flexp x - mbits (flmant x)) - s) with (mbits (flmant x) - flexp x - s) by lia. destruct SH as [SH|SH]; [auto|].
    right. split; [auto|]. set (t := mbits (flmant x) - flexp x - s) in *. pose proof (Z.mod_pos_bound t 32 ltac:(lia)).
    pose proof (Z.pow_le_mono_r 2 (t mod 32) 31 ltac:(lia) ltac:(lia)). lia. }
  exists d. split; [auto|]. split; [auto|]. split; [rewrite V, EV; reflexivity|].
  rewrite <- (of_Z_nval _ CM), of_Z_eq_u32 by lia. apply Z.eqb_neq. lia.
Qed.

(** * Scientific notation *)
Lemma usize_text_spec e : 0 <= e < 2 ^ 64 -> exists t, usize_text e = Ok t /\ digs t /\ dval t = e /\ t <> [].
Proof.
  intros H. unfold usize_text. rewrite from_u64_of_Z by auto. destruct (fmt_display_spec (of_Z e)) as (t & E & NT); [apply of_Z_canon; lia|].
  rewrite of_Z_val in NT by lia. destruct (numeral_digs t e NT) as (A & B & C & _). exists t. auto.
Qed.
Lemma fmt_for_exp_spec d p fc : dnum d -> 0 <= p -> Z.of_nat (length (dmant d)) <= 1 + p -> Z.abs (dexp d) < 2 ^ 62 ->
  exists t, fmt_for_exp d p fc = Ok t /\ sci_text p fc t (dvalue d).
Proof.
  intros (W1 & W2 & W3) P L B. unfold fmt_for_exp. unfold dvalue. destruct (dmant d) as [|c cs] eqn:EM; [congruence|]. clear W2.
  apply digs_cons in W1 as [D1 D2]. cbn [hd] in W3. set (e := dexp d) in *.
  set (sg := e <? 1). set (ev := if sg then 1 - e else e - 1).
  assert (EV : 0 <= ev < 2 ^ 64 /\ (if sg then - ev else ev) = e - 1) by (unfold ev, sg; destruct (Z.ltb_spec e 1); lia).
  destruct EV as (EV & ES). destruct (usize_text_spec ev EV) as (et & EE & DE & VE & NE).
  assert (G : (if sg then ([45], 1 - e) else ([], e - 1)) = ((if sg then [45] else []), ev)) by (unfold ev; destruct sg; reflexivity).
  rewrite G, EE. cbn [bind]. set (z := repeat 48 (Z.to_nat (1 + p - Z.of_nat (length (c :: cs))))). set (f := cs ++ z).
  eexists. split; [reflexivity|]. exists c, f, (dvs (c :: f)), ((if ev <? 10 then [48] else []) ++ et), (dvs ((if ev <? 10 then [48] else []) ++ et)), sg.
  assert (Df : digs f) by (unfold f, z; apply digs_app; split; [auto|apply digs_zeros]).
  assert (Lf : Z.of_nat (length f) = p) by (unfold f, z; rewrite app_length, repeat_length; cbn [length] in *; lia).
  assert (DE2 : digs ((if ev <? 10 then [48] else []) ++ et)).
  { apply digs_app. split; [|auto]. destruct (ev <? 10); repeat constructor; unfold dig; lia. }
  split; [|split; [auto|split; [apply digs_text, digs_cons; auto|split; [cbn [dvs map hd]; lia|split; [apply digs_text; auto|split]]]]].
  - f_equal. destruct (Z.ltb_spec 0 p) as [P0|P0].
    + cbn [app]. f_equal. unfold f, z. cbn [skipn]. cbn [length] in *. rewrite Z.min_l by lia.
      replace (Z.to_nat (Z.of_nat (S (length cs)) - 1)) with (length cs) by lia. rewrite firstn_all.
      destruct (Z.ltb_spec 1 (Z.of_nat (S (length cs)))).
      * replace (p - Z.of_nat (S (length cs)) + 1) with (1 + p - Z.of_nat (S (length cs))) by lia. rewrite <- !app_assoc. reflexivity.
      * replace (p - 1 + 1) with (1 + p - Z.of_nat (S (length cs))) by lia. rewrite <- !app_assoc. reflexivity.
    + cbn [app]. rewrite <- ?app_assoc. reflexivity.
  - rewrite app_length. destruct (Z.ltb_spec ev 10).
    + cbn [length]. destruct et; [congruence|cbn [length]; lia].
    + pose proof (dval_bound et DE) as X. rewrite VE in X. destruct et as [|a [|b et]]; [congruence| |cbn [length]; lia].
      change (10 ^ Z.of_nat (length [a])) with 10 in X. lia.
  - change (be_value 10 (dvs (c :: f))) with (dval (c :: f)). change (be_value 10 (dvs ((if ev <? 10 then [48] else []) ++ et))) with (dval ((if ev <? 10 then [48] else []) ++ et)).
    assert (VE2 : dval ((if ev <? 10 then [48] else []) ++ et) = ev).
    { rewrite dval_app, VE. destruct (ev <? 10); [change (dval [48]) with 0|change (dval []) with 0]; lia. }
    rewrite VE2, ES. unfold f, z. change (c :: cs ++ repeat 48 (Z.to_nat (1 + p - Z.of_nat (length (c :: cs))))) with ((c :: cs) ++ repeat 48 (Z.to_nat (1 + p - Z.of_nat (length (c :: cs))))).
    rewrite dval_app, dval_zeros, repeat_length, Z2Nat.id, Z.add_0_r by lia.
    rewrite (de_to (dval (c :: cs)) (e - Z.of_nat (length (c :: cs))) (e - 1 - p)) by lia. apply de_eq. do 2 f_equal. lia.
Qed.
(** Exponents of the decimals of Floats are small. *)
Lemma ten_two_le e : 0 <= e -> 2 ^ e <= 10 ^ e.
Proof. intros. apply Z.pow_le_mono_l. lia. Qed.
Lemma exp_small d x : dwf d -> ok_float x -> flform x = Finite -> (dvalue d == Qabs (flvalue x))%Q -> Z.abs (dexp d) <= 2 ^ 31 + 1.
Proof.
  intros W OX F V. destruct (ok_finite x OX F) as (_ & NM). pose proof (dvalue_bounds d W) as (B1 & B2). rewrite V, (finite_abs x F NM) in B1, B2.
  destruct (mag_binade x NM) as (M1 & M2). destruct OX as (_ & OX). destruct (OX F) as (_ & _ & R & _). unfold min_exp, max_exp in R.
  set (e := dexp d) in *. assert (U : e <= 2 ^ 31).
  { destruct (Z.le_gt_cases e (2 ^ 31)) as [|G]; [auto|exfalso]. assert (X : (dy 1 (flexp x) <= de 1 (e - 1))%Q); [|lra].
    apply Qle_trans with (dy 1 (e - 1)).
    - rewrite (dy_to 1 (e - 1) (flexp x)) by lia. apply dy_le. pose proof (pow2_pos (e - 1 - flexp x)). lia.
    - rewrite (dy_to 1 (e - 1) 0), (de_to 1 (e - 1) 0) by lia. unfold dy, de. change (Qpower 2 0) with 1%Q. change (Qpower 10 0) with 1%Q. rewrite !Qmult_1_r, <- Zle_Qle.
      pose proof (ten_two_le (e - 1 - 0)). lia. }
  assert (D : - 2 ^ 31 - 1 <= e); [|lia].
  destruct (Z.le_gt_cases (- 2 ^ 31 - 1) e) as [|G]; [auto|exfalso]. assert (X : (de 1 e <= dy 1 (flexp x - 1))%Q); [|lra].
  apply Qle_trans with (dy 1 e).
  - assert (T : forall k, 0 <= k -> (de 1 (- k) <= dy 1 (- k))%Q).
    { intros k K. unfold de, dy. change (inject_Z 1) with 1%Q. rewrite !Qmult_1_l. rewrite !Qpower_opp. apply Qle_shift_inv_l; [apply Qpower_0_lt; reflexivity|].
      assert (Qpower 2 k <= Qpower 10 k)%Q. { rewrite two_pow, ten_pow, <- Zle_Qle by auto. apply ten_two_le. auto. }
      pose proof (ten_pos k). pose proof (two_pos k). rewrite Qmult_comm. apply Qle_shift_div_r; [auto|]. lra. }
    replace e with (- - e) by lia. apply T. lia.
  - rewrite (dy_to 1 (flexp x - 1) e) by lia. apply dy_le. pose proof (pow2_pos (flexp x - 1 - e)). lia.
Qed.
Lemma sig_of_round d n : dwf d -> 0 < n -> sig_rounded n (dvalue d) (dvalue (dec_round d n)).
Proof.
  intros W N. destruct (dec_round_spec d n W ltac:(lia)) as (H & _). exists (dexp d - n). split; [|auto]. destruct (dvalue_bounds d W) as (A & B). split.
  - rewrite (de_to 1 (dexp d - 1) (dexp d - n)) in A by lia. replace (dexp d - 1 - (dexp d - n)) with (n - 1) in A by lia. rewrite Z.mul_1_l in A. exact A.
  - rewrite (de_to 1 (dexp d) (dexp d - n)) in B by lia. replace (dexp d - (dexp d - n)) with n in B by lia. rewrite Z.mul_1_l in B. exact B.
Qed.
Lemma round_exp d n : dnum d -> 0 < n -> dexp d <= dexp (dec_round d n) <= dexp d + 1.
Proof.
  intros W N. unfold dec_round. destruct (n <? Z.of_nat (length (dmant d))) eqn:L; [|lia]. apply Z.ltb_lt in L.
  destruct (should_round_up (dmant d) (Z.to_nat n)).
  - unfold dec_round_up. destruct (rev (drop9 (rev (firstn (Z.to_nat n) (dmant d))))); cbn [dexp]; lia.
  - destruct W as (W1 & W2 & W3). assert (E : firstn (Z.to_nat n) (dmant d) <> [] /\ hd 0 (firstn (Z.to_nat n) (dmant d)) <> 48).
    { destruct (dmant d) as [|c cs]; [congruence|]. destruct (Z.to_nat n) eqn:X; [lia|]. cbn [firstn hd] in *. split; [discriminate|auto]. }
    destruct E as (E1 & E2). destruct (trim_wf _ (dexp d) (digs_firstn (Z.to_nat n) _ W1) E1 E2) as (_ & _ & T & _). rewrite T. lia.
Qed.
Lemma sig_wd n v w r s : (v == w)%Q -> (r == s)%Q -> sig_rounded n v r -> sig_rounded n w s.
Proof. intros E F (k & A & B). exists k. rewrite <- E at 1 2. split; [auto|]. eapply half_even_wd; eauto. Qed.

Lemma fmt_exp_spec up p x : ok_float x -> flform x = Finite -> printable x -> (match p with Some p => 0 <= p | None => True end) ->
  exists t, fl_fmt_exp up p x = Ok t /\ exists r, sig_rounded (1 + match p with Some p => p | None => 7 end) (Qabs (flvalue x)) r /\
    signed_text x (fun u => sci_text (match p with Some p => p | None => 7 end) (if up then 69 else 101) u r) t.
Proof.
  intros OX F PR HP. unfold fl_fmt_exp. set (q := match p with Some p => p | None => 7 end). assert (Q : 0 <= q) by (unfold q; destruct p; lia).
  destruct (float_decimal x OX F PR) as (d & E & W & V & NZ). unfold fmt_inner. rewrite F. cbn [is_fnan is_zero is_infinite]. rewrite NZ, E. cbn [bind].
  pose proof (exp_small d x W OX F V) as ES. destruct (dec_round_spec d (1 + q) W ltac:(lia)) as (H1 & H2 & H3 & H4 & _).
  set (d1 := dec_round d (1 + q)) in *. assert (W1 : dwf d1) by (destruct H2 as [(_ & _ & X)|X]; [lia|auto]).
  destruct (dec_round_spec d1 (1 + q) W1 ltac:(lia)) as (_ & _ & _ & _ & I). rewrite (I (H4 ltac:(lia))).
  pose proof (round_exp d (1 + q) (dwf_dnum _ W) ltac:(lia)) as RE. fold d1 in RE.
  destruct (fmt_for_exp_spec d1 q (if up then 69 else 101) (dwf_dnum _ W1) Q (H4 ltac:(lia))) as (t & ET & ST); [lia|]. rewrite ET. cbn [bind].
  eexists. split; [reflexivity|]. exists (dvalue d1). split; [|exists t; auto].
  eapply sig_wd; [exact V|reflexivity|]. apply sig_of_round; [auto|lia].
Qed.
