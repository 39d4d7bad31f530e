(** [Display] of a Float and the parser. *)
From Coq Require Import Ascii String ZArith QArith Qabs Qpower Lqa List Lia Bool.
From Verif Require Import Words Spec WordsFacts NatModel NatFacts NatFacts2 NatFacts5 NatConv NatConvFacts BigInt SpecInt BigIntFacts BigIntFacts4
  Properties_BigInt Rat SpecRat RatFacts RatFacts4 Properties_Rat Float SpecFloat FloatFacts FloatFacts2 FloatFacts4 FloatFacts6 FloatFacts7
  Properties_Float SpecDecimal Decimal DecimalFacts DecimalFacts2 DecimalFacts3.
Import ListNotations.
Open Scope Z_scope.
Open Scope list_scope.

(** The digit at position [j] of an endless decimal. *)
Definition at_ (m : list Z) (j : Z) : Z := if j <? 0 then 48 else nth (Z.to_nat j) m 48.
Lemma fill m : forall n, map (fun k => nth k m 48) (seq 0 n) = firstn n m ++ repeat 48 (n - length m).
Proof.
  induction m as [|c m IH]; intros n.
  - rewrite firstn_nil, Nat.sub_0_r. cbn [app]. induction n as [|n IHn] in |- *; [reflexivity|]. rewrite seq_S, map_app, IHn. cbn [map Nat.add].
    rewrite nth_overflow by (cbn [length]; lia). change (repeat 48 (S n)) with (48 :: repeat 48 n). rewrite repeat_cons. reflexivity.
  - destruct n as [|n]; [reflexivity|]. cbn [seq map firstn app length]. rewrite <- seq_shift, map_map. cbn [nth]. rewrite IH. reflexivity.
Qed.
Lemma display_index_spec checks d i : Z.abs (dexp d) < 2 ^ 61 -> 0 <= i < 2 ^ 62 -> Z.of_nat (length (dmant d)) < 2 ^ 63 ->
  0 <= dexp d \/ dexp d + i < 0 \/ checks = false ->
  exists j, display_index checks (dexp d) i = Ok j /\ dec_at d j = at_ (dmant d) (dexp d + i).
Proof.
  intros E I L H. unfold display_index, dec_at, at_. set (e := dexp d) in *. destruct (Z.ltb_spec e 0) as [N|N].
  - assert (e mod 2 ^ 64 = e + 2 ^ 64) as -> by (symmetry; apply (Z.mod_unique_pos _ _ (-1)); lia).
    destruct (Z.ltb_spec (e + i) 0) as [M|M].
    + destruct (Z.ltb_spec (e + 2 ^ 64 + i) (2 ^ 64)); [|lia]. eexists. split; [reflexivity|].
      destruct (Z.ltb_spec (e + 2 ^ 64 + i) (Z.of_nat (length (dmant d)))); [lia|auto].
    + destruct (Z.ltb_spec (e + 2 ^ 64 + i) (2 ^ 64)); [lia|]. destruct H as [H|[H|H]]; try lia. rewrite H.
      eexists. split; [reflexivity|]. replace (e + 2 ^ 64 + i - 2 ^ 64) with (e + i) by lia.
      destruct (Z.ltb_spec (e + i) (Z.of_nat (length (dmant d)))); [auto|]. rewrite nth_overflow by lia. auto.
  - rewrite Z.mod_small by lia. destruct (Z.ltb_spec (e + i) (2 ^ 64)); [|lia]. eexists. split; [reflexivity|].
    destruct (Z.ltb_spec (e + i) 0); [lia|]. destruct (Z.ltb_spec (e + i) (Z.of_nat (length (dmant d)))); [auto|]. rewrite nth_overflow by lia. auto.
Qed.
Lemma display_frac_spec checks d : Z.abs (dexp d) < 2 ^ 61 -> Z.of_nat (length (dmant d)) < 2 ^ 63 -> forall n i,
  0 <= i -> i + Z.of_nat n <= 2 ^ 62 -> 0 <= dexp d \/ dexp d + i + Z.of_nat n <= 0 \/ checks = false ->
  display_frac checks d i n = Ok (map (fun k => at_ (dmant d) (dexp d + i + Z.of_nat k)) (seq 0 n)).
Proof.
  intros E L. induction n as [|n IH]; intros i I N H; [reflexivity|]. cbn [display_frac].
  destruct (display_index_spec checks d i E ltac:(lia) L ltac:(destruct H as [?|[?|?]]; [left; lia|right; left; lia|auto])) as (j & EJ & A). rewrite EJ. cbn [bind].
  rewrite IH; [|lia|lia|destruct H as [?|[?|?]]; [left; lia|right; left; lia|auto]]. cbn [bind seq map]. rewrite A. f_equal. f_equal; [f_equal; lia|]. rewrite <- seq_shift, map_map. apply map_ext. intros k. f_equal. lia.
Qed.

Lemma frac_pos m e n : 0 <= e -> (length m <= Z.to_nat e + n)%nat ->
  firstn (Z.to_nat e) m ++ repeat 48 (Z.to_nat e - length m) ++ map (fun k => at_ m (e + 0 + Z.of_nat k)) (seq 0 n) = m ++ repeat 48 (Z.to_nat e + n - length m).
Proof.
  intros E L. rewrite app_assoc, <- fill. set (a := Z.to_nat e) in *.
  assert (X : map (fun k => at_ m (e + 0 + Z.of_nat k)) (seq 0 n) = map (fun k => nth k m 48) (seq a n)).
  { rewrite <- (Nat.add_0_r a) at 1. clear L. revert n. intros n. induction n as [|n IH]; [reflexivity|].
    rewrite !seq_S, !map_app, IH. f_equal. cbn [map]. unfold at_. destruct (Z.ltb_spec (e + 0 + Z.of_nat (0 + n)) 0); [lia|]. do 2 f_equal. unfold a. lia. }
  rewrite X, <- map_app. rewrite <- seq_app, fill, firstn_all2 by lia. reflexivity.
Qed.
Lemma frac_neg m e n : e <= 0 -> (length m <= n - Z.to_nat (- e))%nat -> (Z.to_nat (- e) <= n)%nat ->
  map (fun k => at_ m (e + 0 + Z.of_nat k)) (seq 0 n) = repeat 48 (Z.to_nat (- e)) ++ m ++ repeat 48 (n - Z.to_nat (- e) - length m).
Proof.
  intros E L N. set (a := Z.to_nat (- e)) in *. replace n with (a + (n - a))%nat at 1 by lia. rewrite seq_app, map_app. f_equal.
  - clear L N. assert (G : forall q, (q <= a)%nat -> map (fun k => at_ m (e + 0 + Z.of_nat k)) (seq 0 q) = repeat 48 q).
    { induction q as [|q IH]; intros Q; [reflexivity|]. rewrite seq_S, map_app, IH by lia. cbn [map]. change (repeat 48 (S q)) with (48 :: repeat 48 q). unfold at_.
      destruct (Z.ltb_spec (e + 0 + Z.of_nat (0 + q)) 0); [|unfold a in Q; lia]. rewrite repeat_cons. reflexivity. }
    apply G. lia.
  - cbn [Nat.add]. assert (X : forall q, map (fun k => at_ m (e + 0 + Z.of_nat k)) (seq a q) = map (fun k => nth k m 48) (seq 0 q)).
    { induction q as [|q IH]; [reflexivity|]. rewrite !seq_S, !map_app, IH. f_equal. cbn [map]. unfold at_.
      destruct (Z.ltb_spec (e + 0 + Z.of_nat (a + q)) 0); [unfold a in *; lia|]. do 2 f_equal. unfold a. lia. }
    rewrite X, fill, firstn_all2 by lia. reflexivity.
Qed.
Lemma frac_none m e n : e + Z.of_nat n <= 0 -> map (fun k => at_ m (e + 0 + Z.of_nat k)) (seq 0 n) = repeat 48 n.
Proof.
  induction n as [|q IH]; intros Q; [reflexivity|]. rewrite seq_S, map_app, IH by lia. cbn [map]. change (repeat 48 (S q)) with (48 :: repeat 48 q). unfold at_.
  destruct (Z.ltb_spec (e + 0 + Z.of_nat (0 + q)) 0); [|lia]. rewrite repeat_cons. reflexivity.
Qed.

Lemma fmt_for_display_spec checks d p : (dmant d = [] /\ dexp d = 0) \/ dnum d -> 0 < p < 2 ^ 62 -> Z.abs (dexp d) < 2 ^ 61 ->
  Z.of_nat (length (dmant d)) < 2 ^ 63 -> Z.of_nat (length (dmant d)) - dexp d <= p -> 0 <= dexp d \/ dexp d + p <= 0 \/ checks = false ->
  exists t, fmt_for_display checks d p = Ok t /\ fix_text p t (dvalue d).
Proof.
  intros W P E L F H. unfold fmt_for_display. destruct (Z.ltb_spec 0 p); [|lia]. rewrite display_frac_spec; [|lia|lia|lia|lia|destruct H as [?|[?|?]]; [left; lia|right; left; lia|auto]]. cbn [bind].
  set (n := Z.to_nat p) in *. set (m := dmant d) in *. set (e := dexp d) in *. set (f := map (fun k => at_ m (e + 0 + Z.of_nat k)) (seq 0 n)).
  assert (Lf : length f = n) by (unfold f; rewrite map_length, seq_length; auto).
  assert (Dm : digs m) by (destruct W as [(-> & _)|(D & _)]; [constructor|auto]).
  eexists. split; [reflexivity|]. destruct (Z.ltb_spec 0 e) as [PE|PE].
  - destruct W as [(_ & X)|W]; [fold e in X; lia|]. destruct W as (_ & W2 & W3). fold m in W2, W3.
    set (a := firstn (Z.to_nat (Z.min (Z.of_nat (length m)) e)) m ++ repeat 48 (Z.to_nat (e - Z.min (Z.of_nat (length m)) e))).
    assert (EA : a = firstn (Z.to_nat e) m ++ repeat 48 (Z.to_nat e - length m)).
    { unfold a. destruct (Z.le_gt_cases (Z.of_nat (length m)) e).
      - rewrite Z.min_l, Nat2Z.id, firstn_all by lia. rewrite firstn_all2 by lia. do 2 f_equal. lia.
      - rewrite Z.min_r by lia. do 2 f_equal. lia. }
    assert (EAF : a ++ f = m ++ repeat 48 (Z.to_nat e + n - length m)).
    { rewrite EA, <- app_assoc. unfold f. rewrite frac_pos by lia. reflexivity. }
    assert (DAF : digs (a ++ f)) by (rewrite EAF; apply digs_app; split; [auto|apply digs_zeros]).
    apply digs_app in DAF as [Da Df]. assert (LA : length a = Z.to_nat e) by (rewrite EA, app_length, firstn_length, repeat_length; lia).
    exists a, f, (dvs a), (dvs f). destruct (Z.ltb_spec 0 p); [|lia]. split; [reflexivity|]. split; [lia|].
    split; [apply digs_text; auto|]. split; [apply digs_text; auto|]. assert (NA : a <> []) by (destruct a; [cbn [length] in LA; lia|discriminate]).
    split; [destruct a; [congruence|discriminate]|]. split.
    + right. assert (HA : hd 0 a = hd 0 m).
      { rewrite <- (hd_app a f NA), EAF, hd_app by auto. reflexivity. }
      destruct a as [|c a']; [congruence|]. cbn [dvs map hd] in *. lia.
    + assert (be_value 10 (dvs a ++ dvs f) = dval (a ++ f)) as -> by (unfold dval, dvs; rewrite map_app; reflexivity).
      rewrite EAF, dval_app, dval_zeros, repeat_length, Z.add_0_r. unfold dvalue. fold m e. rewrite (de_to (dval m) _ (- p)) by lia.
      apply de_eq. do 2 f_equal. lia.
  - assert (EF : exists j k, f = repeat 48 j ++ m ++ repeat 48 k /\ Z.of_nat k = p + e - Z.of_nat (length m)).
    { exists (Z.to_nat (- e)), (n - Z.to_nat (- e) - length m)%nat. unfold f. rewrite frac_neg by lia. split; [auto|lia]. }
    destruct EF as (j & k & EF & K). assert (Df : digs f) by (rewrite EF; apply digs_app; split; [apply digs_zeros|apply digs_app; split; [auto|apply digs_zeros]]).
    exists [48], f, [0], (dvs f). destruct (Z.ltb_spec 0 p); [|lia]. split; [reflexivity|]. split; [lia|].
    split; [repeat constructor|]. split; [apply digs_text; auto|]. split; [discriminate|]. split; [left; auto|].
    assert (be_value 10 ([0] ++ dvs f) = dval f) as -> by reflexivity.
    rewrite EF, !dval_app, !dval_zeros, repeat_length. unfold dvalue. fold m e. rewrite (de_to (dval m) _ (- p)) by lia. apply de_eq.
    replace (e - Z.of_nat (length m) - - p) with (Z.of_nat k) by lia. lia.
Qed.
(** A value far below the last place shows as zero. *)
Lemma fmt_display_tiny checks d p : dwf d -> 0 < p < 2 ^ 62 -> Z.abs (dexp d) < 2 ^ 61 -> Z.of_nat (length (dmant d)) < 2 ^ 63 -> dexp d + p < 0 ->
  exists t, fmt_for_display checks d p = Ok t /\ fix_text p t 0 /\ place_rounded p (dvalue d) 0.
Proof.
  intros W P E L H. unfold fmt_for_display. destruct (Z.ltb_spec 0 p); [|lia]. rewrite display_frac_spec by lia. cbn [bind].
  rewrite frac_none by lia. destruct (Z.ltb_spec 0 (dexp d)); [lia|]. eexists. split; [reflexivity|]. split.
  - exists [48], (repeat 48 (Z.to_nat p)), [0], (dvs (repeat 48 (Z.to_nat p))). destruct (Z.ltb_spec 0 p); [|lia]. split; [reflexivity|].
    split; [rewrite repeat_length; lia|]. split; [repeat constructor|]. split; [apply digs_text, digs_zeros|]. split; [discriminate|]. split; [auto|].
    change (be_value 10 ([0] ++ dvs (repeat 48 (Z.to_nat p)))) with (dval (repeat 48 (Z.to_nat p))). rewrite dval_zeros, de_0. reflexivity.
  - exists 0. split; [rewrite de_0; reflexivity|]. destruct (dvalue_bounds d W) as (B1 & B2).
    assert (B0 : (0 < de 1 (dexp d - 1))%Q) by (apply de_pos; lia).
    assert (B3 : (10 * de 1 (dexp d) <= de 1 (- p))%Q).
    { rewrite (de_to 1 (- p) (dexp d)) by lia. change 10%Q with (inject_Z 10). rewrite de_scale. apply de_le.
      pose proof (Z.pow_le_mono_r 10 1 (- p - dexp d) ltac:(lia) ltac:(lia)). change (10 ^ 1) with 10 in *. lia. }
    rewrite (Qabs_neg (0 - dvalue d)) by lra. split; [lra|]. intros X. lra.
Qed.

Lemma display_spec checks x : ok_float x -> flform x = Finite -> flprec x < 2 ^ 61 -> printable x ->
  checks = false \/ ((1 # 10) <= Qabs (flvalue x))%Q ->
  exists t, fl_fmt_display checks x = Ok t /\ exists r1 r, sig_rounded (1 + flprec x) (Qabs (flvalue x)) r1 /\ place_rounded (flprec x) r1 r /\
    signed_text x (fun u => fix_text (flprec x) u r) t.
Proof.
  intros OX F PB PR CH. destruct (ok_finite x OX F) as (P & _). set (p := flprec x) in *.
  destruct (float_decimal x OX F PR) as (d & E & W & V & NZ). unfold fl_fmt_display, fmt_inner. fold p. rewrite F. cbn [is_fnan is_zero is_infinite]. rewrite NZ, E. cbn [bind].
  pose proof (exp_small d x W OX F V) as ES. destruct (dec_round_spec d (1 + p) W ltac:(lia)) as (H1 & H2 & H3 & H4 & _).
  set (d1 := dec_round d (1 + p)) in *. assert (W1 : dwf d1) by (destruct H2 as [(_ & _ & X)|X]; [lia|auto]). specialize (H4 ltac:(lia)).
  pose proof (round_exp d (1 + p) (dwf_dnum _ W) ltac:(lia)) as RE. fold d1 in RE.
  assert (C1 : checks = false \/ 0 <= dexp d1).
  { destruct CH as [C|C]; [auto|right]. destruct (Z.le_gt_cases 0 (dexp d)) as [|G]; [lia|exfalso]. destruct (dvalue_bounds d W) as (_ & B). rewrite V in B.
    assert (X : (de 1 (dexp d) <= 1 # 10)%Q); [|lra].
    assert (Y : (de 1 (-1) == 1 # 10)%Q) by reflexivity. rewrite <- Y. rewrite (de_to 1 (-1) (dexp d)) by lia. apply de_le. pose proof (p10 (-1 - dexp d)). lia. }
  assert (SIG : sig_rounded (1 + p) (Qabs (flvalue x)) (dvalue d1)) by (eapply sig_wd; [exact V|reflexivity|]; apply sig_of_round; [auto|lia]).
  destruct (Z.leb_spec 0 (dexp d1 + p)) as [N|N].
  - destruct (dec_round_spec d1 (dexp d1 + p) W1 N) as (A1 & A2 & A3 & A4 & A5). set (d2 := dec_round d1 (dexp d1 + p)) in *.
    assert (Q : ((dmant d2 = [] /\ dexp d2 = 0) \/ dwf d2) /\ Z.abs (dexp d2) < 2 ^ 61 /\ Z.of_nat (length (dmant d2)) < 2 ^ 63 /\ Z.of_nat (length (dmant d2)) - dexp d2 <= p /\
      (0 <= dexp d2 \/ dexp d2 + p <= 0 \/ checks = false)).
    { destruct A2 as [(M & X & Y)|A2].
      - rewrite M, X. cbn [length]. split; [auto|]. lia.
      - split; [auto|]. assert (NM : dmant d2 <> []) by apply A2. specialize (A3 NM).
        assert (X : dexp d1 <= dexp d2 <= dexp d1 + 1).
        { destruct (Z.eq_dec (dexp d1 + p) 0) as [Z0|Z0]; [|apply round_exp; [apply dwf_dnum; auto|lia]]. unfold d2. rewrite Z0. unfold dec_round.
          destruct (0 <? Z.of_nat (length (dmant d1))); [|lia]. destruct (should_round_up (dmant d1) (Z.to_nat 0)) eqn:RU; [cbn; lia|].
          exfalso. apply NM. unfold d2. rewrite Z0. unfold dec_round. rewrite RU. destruct W1 as (_ & W1 & _). destruct (dmant d1); [congruence|reflexivity]. }
        split; [lia|]. split; [|split; [lia|destruct C1; [auto|lia]]].
        destruct (Z.eq_dec (dexp d1 + p) 0) as [Z0|Z0]; [lia|]. specialize (A4 ltac:(lia)). lia. }
    destruct Q as (Q1 & Q2 & Q3 & Q4 & Q5). assert (Q1' : (dmant d2 = [] /\ dexp d2 = 0) \/ dnum d2) by (destruct Q1; [auto|right; apply dwf_dnum; auto]).
    destruct (fmt_for_display_spec checks d2 p Q1' ltac:(lia) Q2 Q3 Q4 Q5) as (t & ET & FT). rewrite ET. cbn [bind].
    eexists. split; [reflexivity|]. exists (dvalue d1), (dvalue d2). split; [auto|]. split; [|exists t; auto].
    unfold place_rounded. replace (- p) with (dexp d1 - (dexp d1 + p)) by lia. exact A1.
  - destruct (fmt_display_tiny checks d1 p W1 ltac:(lia) ltac:(lia) ltac:(lia) ltac:(lia)) as (t & ET & FT & PRd). rewrite ET. cbn [bind].
    eexists. split; [reflexivity|]. exists (dvalue d1), 0%Q. split; [auto|]. split; [auto|]. exists t; auto.
Qed.

(** A multiple of the last place is not changed. *)
Lemma half_even_exact k v r D : half_even_at k v r -> (v == de D k)%Q -> (r == v)%Q.
Proof.
  intros (D' & E & B & _) V. rewrite E, V in B |- *. rewrite de_sub, de_abs in B. change 2%Q with (inject_Z 2) in B. rewrite de_scale in B. apply de_le in B.
  apply de_eq. lia.
Qed.

(* ------------------------------------------------------------------ *)
(** * Parsing *)

Lemma bits_max a : Z.abs a < 2 ^ max_exp -> bits_len (of_Z (Z.abs a)) <= max_exp.
Proof.
  intros H. rewrite bits_len_of_Z_eq by lia. destruct (Z.eqb_spec (Z.abs a) 0) as [E|N]; [vm_compute; discriminate|].
  assert (Z.log2 (Z.abs a) < max_exp) by (apply Z.log2_lt_pow2; lia). lia.
Qed.
Lemma from_zint a : Z.abs a < 2 ^ max_exp -> exists z, fl_from_bigint (zint a) = Ok z /\ is_integer_float a z.
Proof. intros H. apply C56_from_bigint; [apply is_int_iff; auto|]. apply bits_max. auto. Qed.

(** The Float made of a fraction: exact for an integer, far off otherwise. *)
Lemma from_frac_float a b : a <> 0 -> 0 < b -> Z.abs a < 2 ^ max_exp -> b < 2 ^ max_exp ->
  exists r, r_from_frac_bigint (zint a) (zint b) = Ok (Some r) /\
    ((exists q z, a = q * b /\ fl_from_rat r = Ok z /\ is_integer_float q z) \/
     (~ (b | a) /\ (forall z, fl_from_rat r = Ok z -> flform z = Finite -> (dy (2 ^ 29) 0 * Qabs (flvalue z) < Qabs (inject_Z a / inject_Z b))%Q))).
Proof.
  intros A B LA LB. destruct (from_frac_bigint_spec a b ltac:(lia)) as (r & E & [OKr D] & _ & LO). specialize (LO A).
  destruct (C73_is_integer_partial r LO) as (i & EI & II). destruct (lowest_inv r LO) as (s & m & n & Hm & Hn & G & Z0 & ->).
  rewrite rvalue_mk in D by lia. assert (DQ : sgv s m * b = a * n).
  { assert (X : (inject_Z (sgv s m) * inject_Z b == inject_Z a * inject_Z n)%Q).
    { assert (Y : (sgv s m # Z.to_pos n == inject_Z (sgv s m) / inject_Z n)%Q).
      { rewrite <- (Z2Pos.id n) at 2 by lia. rewrite Qmake_Qdiv. reflexivity. }
      rewrite Y in D. assert (NB : ~ (inject_Z b == 0)%Q) by (change 0%Q with (inject_Z 0); rewrite inject_Z_injective; lia).
      assert (NN : ~ (inject_Z n == 0)%Q) by (change 0%Q with (inject_Z 0); rewrite inject_Z_injective; lia).
      assert (F : (inject_Z (sgv s m) == inject_Z (sgv s m) / inject_Z n * inject_Z n)%Q) by (field; auto). rewrite F, D. field. auto. }
    rewrite <- !inject_Z_mult, inject_Z_injective in X. exact X. }
  assert (AS : Z.abs (sgv s m) = m) by (unfold sgv; destruct s; lia).
  assert (DM : m * b = Z.abs a * n) by (rewrite <- AS, <- (Z.abs_eq b), <- (Z.abs_eq n), <- !Z.abs_mul by lia; congruence).
  assert (Dm : (m | Z.abs a)). { apply (Z.gauss m n); [exists b; lia|auto]. }
  assert (Dn : (n | b)). { apply (Z.gauss n m); [exists (Z.abs a); lia|rewrite Z.gcd_comm; auto]. }
  assert (Lm : m <= Z.abs a) by (apply Z.divide_pos_le; [lia|auto]). assert (Ln : n <= b) by (apply Z.divide_pos_le; [lia|auto]).
  assert (Nm : m <> 0) by nia.
  assert (R1 : rnum (mk s m false n) = zint (sgv s m)).
  { unfold mk, zint. cbn [rnum]. rewrite AS. f_equal. unfold sgv. destruct s; symmetry; [apply Z.ltb_lt|apply Z.ltb_ge]; lia. }
  assert (R2 : rden (mk s m false n) = zint n).
  { unfold mk, zint. cbn [rden]. rewrite Z.abs_eq by lia. f_equal. symmetry. apply Z.ltb_ge. lia. }
  destruct (from_zint (sgv s m) ltac:(lia)) as (x & EX & IX). destruct (from_zint n ltac:(lia)) as (y & EY & IY).
  exists (mk s m false n). unfold fl_from_rat. rewrite EI, R1, R2. rewrite rvalue_mk in II by lia. destruct i.
  - split; [auto|left]. destruct (proj1 II eq_refl) as (q & Q). unfold Qeq, inject_Z in Q. cbn [Qnum Qden] in Q. rewrite Z2Pos.id in Q by lia.
    assert (n = 1). { assert (Dq : (n | m)) by (rewrite <- AS; apply Z.divide_abs_r; exists q; lia).
      apply Z.divide_gcd_iff in Dq; [|lia]. rewrite Z.gcd_comm in Dq. lia. }
    subst n. exists (sgv s m), x. split; [nia|auto].
  - rewrite EX, EY. cbn [bind]. destruct IX as (OX & FX & VX & _). destruct IY as (OY & FY & VY & _).
    destruct (Z.eqb_spec (sgv s m) 0); [lia|]. destruct (Z.eqb_spec n 0); [lia|].
    split; [auto|right]. split; [|intros z EZ FZ].
    { intros (q & Q). assert (false = true) by (apply II; exists q; unfold Qeq, inject_Z; cbn [Qnum Qden]; rewrite Z2Pos.id by lia; nia). discriminate. }
    assert (ED : fl_div x y = Ok z). { unfold fl_div, fl_op2. unfold fl_op2_assign in EZ. rewrite FX, FY in EZ |- *. exact EZ. }
    pose proof (div_far x y z OX OY FX FY ED FZ) as DF.
    assert (VV : (flvalue x / flvalue y == inject_Z a / inject_Z b)%Q).
    { rewrite VX, VY, <- D. rewrite <- (Z2Pos.id n) at 1 by lia. rewrite Qmake_Qdiv. reflexivity. }
    rewrite VV in DF. exact DF.
Qed.

Lemma ten_text k : (0 < k)%nat -> b_from_str (49 :: repeat 48 k) = Some (zint (10 ^ Z.of_nat k)).
Proof.
  intros K. assert (DT : digs (49 :: repeat 48 k)) by (constructor; [unfold dig; lia|apply digs_zeros]).
  apply int_text_parse. exists (49 :: repeat 48 k), 10, (dvs (49 :: repeat 48 k)). split; [discriminate|]. split.
  - apply (nt_dec []); [constructor|apply digs_text; auto|discriminate|]. right. discriminate.
  - left. split.
    + apply trimmed_self. apply (Forall_impl _ (P := dig)); [|auto]. unfold dig. intros; lia.
    + change (be_value 10 (dvs (49 :: repeat 48 k))) with (dval ([49] ++ repeat 48 k)). rewrite dval_app, dval_zeros, repeat_length.
      change (dval [49]) with 1. lia.
Qed.
Lemma byte_len_digits v ds : digit_text 10 v ds -> byte_len v = Z.of_nat (length v).
Proof.
  unfold digit_text. induction 1 as [|c d v ds H _ IH]; [reflexivity|]. cbn [byte_len fold_right length] in *. fold (byte_len v). rewrite IH.
  unfold utf8_len. destruct (Z.ltb_spec c 128); [lia|]. exfalso. revert H. unfold digit_value.
  repeat match goal with |- context [?a <=? ?b] => destruct (Z.leb_spec a b) | |- context [?a <? ?b] => destruct (Z.ltb_spec a b) end; cbn [andb]; lia || discriminate.
Qed.
Lemma exp_value_zint e : Z.abs e < W -> exp_value (zint e) = e.
Proof.
  intros H. unfold exp_value, zint. cbn [bnat bneg]. rewrite of_Z_small by lia. cbn [rev app fold_left]. rewrite Z.mul_0_l, Z.lor_0_l.
  destruct (Z.ltb_spec e 0); lia.
Qed.
Lemma from_i64_zint n : - 2 ^ 63 <= n < 2 ^ 63 -> b_from_i64 n = zint n.
Proof. intros H. apply from_signed_spec; [lia|apply from_u64_of_Z|auto]. Qed.

(** The text [u . v]. *)
Lemma parse_dot s u v : trimmed s (u ++ 46 :: v) -> ~ In 46 u -> ~ In 101 (u ++ v) -> ~ In 69 (u ++ v) ->
  let e := - byte_len v in
  fl_from_str s =
    match b_from_str (if e <? 0 then u ++ v else (u ++ v) ++ repeat 48 (Z.to_nat e)), b_from_str (if e <? 0 then 49 :: repeat 48 (Z.to_nat (- e)) else []) with
    | Some n, Some d => do r <- r_from_frac_bigint n d; match r with None => Ok None | Some r => do z <- fl_from_rat r; Ok (Some z) end
    | _, _ => Ok None
    end.
Proof.
  intros T N46 NL NU e. unfold fl_from_str. rewrite (trim_ws_spec _ _ T).
  assert (XL : find_char 101 (u ++ 46 :: v) = None) by (apply find_char_none; rewrite in_app_iff in NL |- *; cbn [In]; intuition discriminate).
  assert (XU : find_char 69 (u ++ 46 :: v) = None) by (apply find_char_none; rewrite in_app_iff in NU |- *; cbn [In]; intuition discriminate).
  assert (XD : find_char 46 (u ++ 46 :: v) = Some (u, v)) by (apply find_char_app; auto).
  unfold split_exp. rewrite XL, XU, XD. destruct (u ++ 46 :: v) eqn:EU; [destruct u; discriminate|].
  change (0 - byte_len v) with e. destruct (e <? 0); reflexivity.
Qed.
(** The text [u e es]. *)
Lemma parse_exp s u c es k : trimmed s (u ++ c :: es) -> c = 101 \/ c = 69 -> ~ In 46 (u ++ es) -> ~ In 101 (u ++ es) -> ~ In 69 (u ++ es) -> es <> [] ->
  int_text es k -> min_exp <= k <= max_exp ->
  fl_from_str s =
    match b_from_str (if k <? 0 then u else u ++ repeat 48 (Z.to_nat k)), b_from_str (if k <? 0 then 49 :: repeat 48 (Z.to_nat (- k)) else []) with
    | Some n, Some d => do r <- r_from_frac_bigint n d; match r with None => Ok None | Some r => do z <- fl_from_rat r; Ok (Some z) end
    | _, _ => Ok None
    end.
Proof.
  intros T HC N46 NL NU NE I K. unfold fl_from_str. rewrite (trim_ws_spec _ _ T).
  assert (XD : find_char 46 (u ++ c :: es) = None) by (apply find_char_none; rewrite in_app_iff in N46 |- *; cbn [In]; destruct HC; subst c; intuition discriminate).
  assert (XDu : find_char 46 u = None) by (apply find_char_none; rewrite in_app_iff in N46; tauto).
  assert (XE : (find_char 101 (u ++ c :: es) = Some (u, es) /\ find_char 69 (u ++ c :: es) = None) \/ (find_char 101 (u ++ c :: es) = None /\ find_char 69 (u ++ c :: es) = Some (u, es))).
  { rewrite in_app_iff in NL, NU. destruct HC; subst c; [left|right]; split; try (apply find_char_app; tauto); apply find_char_none; rewrite in_app_iff; cbn [In]; intuition discriminate. }
  assert (XS : split_exp (u ++ c :: es) = Some (u, k)).
  { unfold split_exp. assert (match find_char 101 (u ++ c :: es) with Some p => Some p | None => find_char 69 (u ++ c :: es) end = Some (u, es)) as -> by
      (destruct XE as [(-> & _)|(-> & ->)]; reflexivity).
    destruct es as [|d es]; [congruence|]. rewrite (int_text_parse _ _ I). rewrite !from_i64_zint, !zint_lt by (unfold min_exp, max_exp; lia).
    destruct (Z.ltb_spec k min_exp); [lia|]. destruct (Z.ltb_spec max_exp k); [lia|]. rewrite exp_value_zint; [auto|]. unfold min_exp, max_exp in *. lia. }
  destruct (u ++ c :: es) eqn:EU; [destruct u; discriminate|]. rewrite <- EU in *. rewrite XS, XD, XDu.
  destruct XE as [(-> & ->)|(-> & ->)]; destruct (k <? 0); reflexivity.
Qed.
