(** Decimal digit strings: values, division by a power of two, rounding. *)
From Coq Require Import Ascii String ZArith QArith Qabs Qpower Lqa List Lia Bool.
From Verif Require Import Words Spec WordsFacts NatModel NatFacts NatFacts2 NatFacts5 NatConv NatConvFacts BigInt Rat Float SpecFloat
  FloatFacts SpecDecimal Decimal.
Import ListNotations.
Open Scope Z_scope.
Open Scope list_scope.

(** * Numbers m * 10 ^ e *)
Lemma ten_pos e : (0 < Qpower 10 e)%Q.
Proof. apply Qpower_0_lt. reflexivity. Qed.
Lemma ten_nz : ~ (10 == 0)%Q. Proof. discriminate. Qed.
Lemma ten_pow k : 0 <= k -> (Qpower 10 k == inject_Z (10 ^ k))%Q.
Proof. intros H. rewrite Zpower_Qpower by auto. reflexivity. Qed.
Lemma p10 k : 0 <= k -> 0 < 10 ^ k.
Proof. intros. apply Z.pow_pos_nonneg; lia. Qed.
Lemma de_shift m e k : 0 <= k -> (de m e == de (m * 10 ^ k) (e - k))%Q.
Proof.
  intros H. unfold de. rewrite inject_Z_mult, <- ten_pow, <- Qmult_assoc, <- Qpower_plus by (auto; apply ten_nz).
  replace (k + (e - k)) with e by lia. reflexivity.
Qed.
Lemma de_to m e f : f <= e -> (de m e == de (m * 10 ^ (e - f)) f)%Q.
Proof. intros H. rewrite (de_shift m e (e - f)) by lia. replace (e - (e - f)) with f by lia. reflexivity. Qed.
Lemma de_le a b e : (de a e <= de b e)%Q <-> a <= b.
Proof. unfold de. rewrite Qmult_le_r by apply ten_pos. rewrite <- Zle_Qle. reflexivity. Qed.
Lemma de_lt a b e : (de a e < de b e)%Q <-> a < b.
Proof. unfold de. rewrite Qmult_lt_r by apply ten_pos. rewrite <- Zlt_Qlt. reflexivity. Qed.
Lemma de_eq a b e : (de a e == de b e)%Q <-> a = b.
Proof.
  split; [|intros ->; reflexivity]. intros H. assert (a <= b) by (apply (de_le _ _ e); rewrite H; apply Qle_refl).
  assert (b <= a) by (apply (de_le _ _ e); rewrite H; apply Qle_refl). lia.
Qed.
Lemma de_sub a b e : (de a e - de b e == de (a - b) e)%Q.
Proof. unfold de. unfold Z.sub. rewrite inject_Z_plus, inject_Z_opp. ring. Qed.
Lemma de_scale c a e : (inject_Z c * de a e == de (c * a) e)%Q.
Proof. unfold de. rewrite inject_Z_mult. ring. Qed.
Lemma de_abs a e : (Qabs (de a e) == de (Z.abs a) e)%Q.
Proof.
  unfold de. rewrite Qabs_Qmult. assert (Qabs (Qpower 10 e) == Qpower 10 e)%Q as -> by (apply Qabs_pos, Qlt_le_weak, ten_pos).
  reflexivity.
Qed.
Lemma de_pos a e : (0 < de a e)%Q <-> 0 < a.
Proof. assert (de 0 e == 0)%Q as <- by (unfold de; ring). apply de_lt. Qed.
Lemma de_0 e : (de 0 e == 0)%Q.
Proof. unfold de. ring. Qed.

(** * Digit characters *)
Definition dig (c : Z) : Prop := 48 <= c <= 57.
Definition digs (cs : list Z) : Prop := Forall dig cs.
Definition dvs (cs : list Z) : list Z := map (fun c => c - 48) cs.
Definition dval (cs : list Z) : Z := be_value 10 (dvs cs).

Lemma dval_nil : dval [] = 0. Proof. reflexivity. Qed.
Lemma dvs_len cs : length (dvs cs) = length cs. Proof. apply map_length. Qed.
Lemma dval_cons c cs : dval (c :: cs) = (c - 48) * 10 ^ Z.of_nat (length cs) + dval cs.
Proof. unfold dval. cbn [dvs map]. rewrite be_value_cons, map_length. reflexivity. Qed.
Lemma dval_app a b : dval (a ++ b) = dval a * 10 ^ Z.of_nat (length b) + dval b.
Proof. unfold dval, dvs. rewrite map_app, be_value_app, map_length. reflexivity. Qed.
Lemma dval_snoc a c : dval (a ++ [c]) = dval a * 10 + (c - 48).
Proof. rewrite dval_app, dval_cons, dval_nil. cbn [length]. change (10 ^ Z.of_nat 0) with 1. change (10 ^ Z.of_nat 1) with 10. lia. Qed.
Lemma dval_zeros k : dval (repeat 48 k) = 0.
Proof. induction k as [|k IH]; [reflexivity|]. cbn [repeat]. rewrite dval_cons, IH. lia. Qed.
Lemma digs_ok cs : digs cs -> digits_ok 10 (dvs cs).
Proof. unfold digs, digits_ok, dvs. intros H. rewrite Forall_map. eapply Forall_impl; [|exact H]. unfold dig. cbn. intros; lia. Qed.
Lemma dval_bound cs : digs cs -> 0 <= dval cs < 10 ^ Z.of_nat (length cs).
Proof. intros H. unfold dval. rewrite <- (dvs_len cs). apply be_value_bound; [lia|apply digs_ok; auto]. Qed.
Lemma digs_text cs : digs cs -> digit_text 10 cs (dvs cs).
Proof.
  unfold digit_text. induction cs as [|c cs IH]; intros H; [constructor|]. inversion_clear H. cbn [dvs map]. constructor; [|apply IH; auto].
  unfold dig in *. unfold digit_value. destruct (Z.leb_spec 48 c), (Z.leb_spec c 57); try lia. cbn [andb]. destruct (Z.ltb_spec (c - 48) 10); [auto|lia].
Qed.
Lemma digs_app a b : digs (a ++ b) <-> digs a /\ digs b. Proof. apply Forall_app. Qed.
Lemma digs_cons c b : digs (c :: b) <-> dig c /\ digs b. Proof. apply Forall_cons_iff. Qed.
Lemma digs_zeros k : digs (repeat 48 k).
Proof. apply Forall_forall. intros c H. apply repeat_spec in H. subst. unfold dig. lia. Qed.
Lemma digs_firstn n cs : digs cs -> digs (firstn n cs).
Proof. intros H. rewrite <- (firstn_skipn n cs) in H. apply digs_app in H. tauto. Qed.
Lemma digs_skipn n cs : digs cs -> digs (skipn n cs).
Proof. intros H. rewrite <- (firstn_skipn n cs) in H. apply digs_app in H. tauto. Qed.
Lemma dval_pos cs : digs cs -> cs <> [] -> hd 0 cs <> 48 -> 10 ^ (Z.of_nat (length cs) - 1) <= dval cs.
Proof.
  intros H N D. destruct cs as [|c cs]; [congruence|]. apply digs_cons in H as [A B]. cbn [hd] in D. unfold dig in A. rewrite dval_cons.
  pose proof (dval_bound cs B). cbn [length]. rewrite Nat2Z.inj_succ. replace (Z.succ (Z.of_nat (length cs)) - 1) with (Z.of_nat (length cs)) by lia.
  pose proof (p10 (Z.of_nat (length cs)) ltac:(lia)). nia.
Qed.

(** * Well-formed decimals: no zero at either end *)
Definition dwf (d : decimal) : Prop := digs (dmant d) /\ dmant d <> [] /\ hd 0 (dmant d) <> 48 /\ last (dmant d) 0 <> 48.
Definition dvalue (d : decimal) : Q := de (dval (dmant d)) (dexp d - Z.of_nat (length (dmant d))).
(** The last digit may be zero. *)
Definition dnum (d : decimal) : Prop := digs (dmant d) /\ dmant d <> [] /\ hd 0 (dmant d) <> 48.
Lemma dwf_dnum d : dwf d -> dnum d.
Proof. intros (A & B & C & _). split; auto. Qed.
Lemma dnum_bounds d : dnum d -> (de 1 (dexp d - 1) <= dvalue d < de 1 (dexp d))%Q.
Proof.
  intros (A & B & C). unfold dvalue. set (L := Z.of_nat (length (dmant d))). assert (0 < L) by (unfold L; destruct (dmant d); [congruence|cbn [length]; lia]).
  pose proof (dval_bound _ A). pose proof (dval_pos _ A B C). fold L in H0, H1. split.
  - rewrite (de_to 1 (dexp d - 1) (dexp d - L)) by lia. apply de_le. replace (dexp d - 1 - (dexp d - L)) with (L - 1) by lia. lia.
  - rewrite (de_to 1 (dexp d) (dexp d - L)) by lia. apply de_lt. replace (dexp d - (dexp d - L)) with L by lia. lia.
Qed.
Lemma dvalue_bounds d : dwf d -> (de 1 (dexp d - 1) <= dvalue d < de 1 (dexp d))%Q.
Proof. intros W. apply dnum_bounds, dwf_dnum, W. Qed.

(** * Division by 2 ^ s *)
Lemma q_small n k : 0 < k -> 0 <= n -> (n / k =? 0) = (n <? k).
Proof.
  intros K N. destruct (Z.ltb_spec n k) as [L|L].
  - rewrite Z.div_small by lia. reflexivity.
  - apply Z.eqb_neq. pose proof (Z.div_le_lower_bound n k 1). lia.
Qed.
Lemma pick_stop s r n cs : n / 2 ^ s <> 0 -> pick s r n cs = (r, n).
Proof. intros H. induction cs as [|c cs IH]; [reflexivity|]. cbn [pick]. rewrite (proj2 (Z.eqb_neq _ _) H). exact IH. Qed.
Lemma pick_spec s cs : 0 <= s -> digs cs -> forall r n, 0 <= n < 10 * 2 ^ s ->
  exists k, (k <= length cs)%nat /\ let n' := n * 10 ^ Z.of_nat k + dval (firstn k cs) in
    pick s r n cs = (r + Z.of_nat k, n') /\ 0 <= n' < 10 * 2 ^ s /\ (k = length cs \/ 2 ^ s <= n') /\
    (n = 0 -> cs <> [] -> (1 <= k)%nat).
Proof.
  intros Hs. pose proof (pow2_pos s Hs) as P. induction cs as [|c cs IH]; intros H r n N.
  - exists O. split; [auto|]. cbn [firstn pick]. rewrite dval_nil. change (10 ^ Z.of_nat 0) with 1. cbv zeta.
    replace (n * 1 + 0) with n by lia. split; [f_equal; lia|]. split; [auto|]. split; [auto|congruence].
  - apply digs_cons in H as [D H]. unfold dig in D. cbn [pick]. rewrite q_small by lia. destruct (Z.ltb_spec n (2 ^ s)) as [L|L].
    + destruct (IH H (r + 1) (n * 10 + (c - 48))) as (k & K & E & B & Ho & _); [lia|]. exists (S k).
      cbn [firstn length]. rewrite dval_cons, firstn_length_le by auto.
      assert (EQ : n * 10 ^ Z.of_nat (S k) + ((c - 48) * 10 ^ Z.of_nat k + dval (firstn k cs)) = (n * 10 + (c - 48)) * 10 ^ Z.of_nat k + dval (firstn k cs)).
      { rewrite Nat2Z.inj_succ, Z.pow_succ_r by lia. ring. }
      cbv zeta. rewrite EQ. split; [lia|]. split; [rewrite E; f_equal; lia|]. split; [auto|]. split; [destruct Ho; [left; lia|right; auto]|lia].
    + exists O. split; [cbn [length]; lia|]. cbn [firstn]. rewrite dval_nil. change (10 ^ Z.of_nat 0) with 1. cbv zeta.
      replace (n * 1 + 0) with n by lia. rewrite pick_stop. 2:{ apply Z.eqb_neq. rewrite q_small by lia. apply Z.ltb_ge. auto. }
      split; [f_equal; lia|]. split; [auto|]. split; [auto|]. intros ->. lia.
Qed.
Lemma grow_spec s : 0 <= s -> forall fuel r n, 0 < n < 10 * 2 ^ s -> 2 ^ s <= n * 2 ^ Z.of_nat fuel ->
  exists j, grow fuel s r n = Ok (r + Z.of_nat j, n * 10 ^ Z.of_nat j) /\ 2 ^ s <= n * 10 ^ Z.of_nat j < 10 * 2 ^ s /\
    (2 ^ s <= n -> j = O).
Proof.
  intros Hs. pose proof (pow2_pos s Hs) as P. induction fuel as [|f IH]; intros r n N F; cbn [grow]; rewrite q_small by lia;
    destruct (Z.ltb_spec n (2 ^ s)) as [L|L].
  - change (2 ^ Z.of_nat 0) with 1 in F. lia.
  - exists O. change (10 ^ Z.of_nat 0) with 1. rewrite Z.mul_1_r, Z.add_0_r. split; [auto|]. split; [lia|auto].
  - destruct (IH (r + 1) (n * 10)) as (j & E & B & _); [lia| |].
    { rewrite Nat2Z.inj_succ, Z.pow_succ_r in F by lia. nia. }
    exists (S j). rewrite Nat2Z.inj_succ, Z.pow_succ_r by lia. replace (n * (10 * 10 ^ Z.of_nat j)) with (n * 10 * 10 ^ Z.of_nat j) by ring.
    split; [rewrite E; do 2 f_equal; lia|]. split; [auto|]. lia.
  - exists O. change (10 ^ Z.of_nat 0) with 1. rewrite Z.mul_1_r, Z.add_0_r. split; [auto|]. split; [lia|auto].
Qed.
Lemma out_digit s n : 0 <= s -> 0 <= n < 10 * 2 ^ s -> dig ((n / 2 ^ s) mod 256 + 48) /\ (n / 2 ^ s) mod 256 = n / 2 ^ s /\
  n = n / 2 ^ s * 2 ^ s + n mod 2 ^ s /\ 0 <= n mod 2 ^ s < 2 ^ s.
Proof.
  intros Hs N. pose proof (pow2_pos s Hs) as P. assert (0 <= n / 2 ^ s < 10).
  { split; [apply Z.div_pos; lia|]. apply Z.div_lt_upper_bound; lia. }
  rewrite (Z.mod_small _ 256) by lia. split; [unfold dig; lia|]. split; [auto|]. split; [rewrite Z.mul_comm; apply Z.div_mod; lia|].
  apply Z.mod_pos_bound. auto.
Qed.
Lemma emit_spec s cs : 0 <= s -> digs cs -> forall n, 0 <= n < 10 * 2 ^ s ->
  exists l n', emit s n cs = (l, n') /\ digs l /\ length l = length cs /\ 0 <= n' < 10 * 2 ^ s /\
    n * 10 ^ Z.of_nat (length cs) + dval cs = 2 ^ s * 10 * dval l + n' /\
    (cs <> [] -> 2 ^ s <= n -> hd 0 l <> 48) /\ (cs = [] -> n' = n).
Proof.
  intros Hs. pose proof (pow2_pos s Hs) as P. induction cs as [|c cs IH]; intros H n N.
  - exists [], n. cbn [emit length]. rewrite dval_nil. change (10 ^ Z.of_nat 0) with 1. split; [auto|]. split; [constructor|].
    split; [auto|]. split; [auto|]. split; [lia|]. split; [congruence|auto].
  - apply digs_cons in H as [D H]. unfold dig in D. destruct (out_digit s n Hs N) as (O1 & O2 & O3 & O4).
    destruct (IH H (n mod 2 ^ s * 10 + (c - 48))) as (l & n' & E & A & LL & B & V & _); [lia|].
    exists ((n / 2 ^ s) mod 256 + 48 :: l), n'. cbn [emit]. rewrite E. split; [auto|]. split; [apply digs_cons; auto|].
    cbn [length]. split; [auto|]. split; [auto|]. split; [|split; [|congruence]].
    + rewrite !dval_cons, Nat2Z.inj_succ, Z.pow_succ_r, LL, O2 by lia. set (X := 10 ^ Z.of_nat (length cs)) in *. nia.
    + intros _ L. cbn [hd]. rewrite O2. assert (1 <= n / 2 ^ s) by (apply Z.div_le_lower_bound; lia). lia.
Qed.
Lemma drain_spec s : 0 <= s -> forall fuel i n, 0 <= i <= s -> (2 ^ i | n) -> 0 <= n < 10 * 2 ^ s -> s + 1 - i <= Z.of_nat fuel ->
  exists l, drain fuel s n = Ok l /\ digs l /\ n * 10 ^ Z.of_nat (length l) = 2 ^ s * 10 * dval l /\
    (2 ^ s <= n -> l <> [] /\ hd 0 l <> 48) /\ (n = 0 -> l = []).
Proof.
  intros Hs. pose proof (pow2_pos s Hs) as P. induction fuel as [|f IH]; intros i n I D N F; [lia|]. cbn [drain].
  destruct (Z.ltb_spec 0 n) as [L|L].
  - destruct (out_digit s n Hs N) as (O1 & O2 & O3 & O4).
    assert (exists l, drain f s (n mod 2 ^ s * 10) = Ok l /\ digs l /\ n mod 2 ^ s * 10 * 10 ^ Z.of_nat (length l) = 2 ^ s * 10 * dval l) as (l & E & A & V).
    { destruct (Z.eq_dec i s) as [->|NE].
      - exists []. replace (n mod 2 ^ s) with 0. 2:{ symmetry. apply Z.mod_divide; [lia|auto]. }
        change (0 * 10) with 0. split; [destruct f; reflexivity|]. split; [constructor|]. rewrite dval_nil. lia.
      - destruct (IH (i + 1) (n mod 2 ^ s * 10)) as (l & E & A & V & _); [lia| |lia|lia|exists l; auto].
        replace (2 ^ (i + 1)) with (2 ^ i * 2) by (rewrite Z.pow_add_r by lia; reflexivity).
        assert (DM : forall a b, (a | b) -> (a * 2 | b * 10)) by (intros a b [q ->]; exists (5 * q); ring). apply DM. replace (n mod 2 ^ s) with (n - n / 2 ^ s * 2 ^ s) by lia.
        apply Z.divide_sub_r; [auto|]. apply Z.divide_mul_r. exists (2 ^ (s - i)). rewrite <- Z.pow_add_r by lia. f_equal. lia. }
    rewrite E. cbn [bind]. exists ((n / 2 ^ s) mod 256 + 48 :: l). split; [auto|]. split; [apply digs_cons; auto|]. split; [|split; [|lia]].
    + rewrite dval_cons. cbn [length]. rewrite Nat2Z.inj_succ, Z.pow_succ_r, O2 by lia. set (X := 10 ^ Z.of_nat (length l)) in *. nia.
    + intros G. split; [discriminate|]. cbn [hd]. rewrite O2. assert (1 <= n / 2 ^ s) by (apply Z.div_le_lower_bound; lia). lia.
  - exists []. split; [auto|]. split; [constructor|]. split; [rewrite dval_nil; change (10 ^ Z.of_nat (length (@nil Z))) with 1; lia|].
    split; [lia|auto].
Qed.

(** Trailing zeros do not count. *)
Lemma strip0 m : exists k, m = rev (trim_start0 (rev m)) ++ repeat 48 k.
Proof.
  assert (H : forall r, exists k, r = repeat 48 k ++ trim_start0 r).
  { induction r as [|c r (k & IH)]; [exists O; reflexivity|]. cbn [trim_start0]. destruct (Z.eqb_spec c 48) as [->|N]; [|exists O; reflexivity].
    exists (S k). cbn [repeat app]. congruence. }
  destruct (H (rev m)) as (k & E). exists k. assert (E2 : m = rev (repeat 48 k ++ trim_start0 (rev m))) by (rewrite <- E, rev_involutive; reflexivity).
  rewrite E2 at 1. rewrite rev_app_distr. f_equal. clear. induction k as [|k IH]; [reflexivity|]. cbn [repeat rev]. rewrite IH, <- repeat_cons. reflexivity.
Qed.
Lemma strip0_last m : let u := rev (trim_start0 (rev m)) in u = [] \/ last u 0 <> 48.
Proof.
  cbv zeta. assert (H : forall r, trim_start0 r = [] \/ hd 0 (trim_start0 r) <> 48).
  { induction r as [|c r IH]; [auto|]. cbn [trim_start0]. destruct (Z.eqb_spec c 48); [auto|]. right. auto. }
  destruct (H (rev m)) as [->|N]; [auto|]. right. destruct (trim_start0 (rev m)) as [|c r]; [cbn; lia|]. cbn [rev]. rewrite last_last. exact N.
Qed.
Lemma hd_app (a b : list Z) : a <> [] -> hd 0 (a ++ b) = hd 0 a.
Proof. destruct a; [congruence|reflexivity]. Qed.
Lemma trim_wf m e : digs m -> m <> [] -> hd 0 m <> 48 -> dwf (dec_trim (DC m e)) /\ (dvalue (dec_trim (DC m e)) == dvalue (DC m e))%Q /\
  dexp (dec_trim (DC m e)) = e /\ (length (dmant (dec_trim (DC m e))) <= length m)%nat.
Proof.
  intros D N H. unfold dec_trim. cbn [dmant dexp]. destruct (strip0 m) as (k & E). pose proof (strip0_last m) as L. cbv zeta in L.
  set (u := rev (trim_start0 (rev m))) in *. destruct u as [|c u'] eqn:EU.
  - exfalso. cbn [app] in E. destruct k; [subst m; apply N; reflexivity|]. subst m. apply H. reflexivity.
  - rewrite <- EU in *. assert (NU : u <> []) by (rewrite EU; discriminate). unfold dwf, dvalue. cbn [dmant dexp].
    assert (D' := D). rewrite E in D'. apply digs_app in D' as [D1 _]. split; [|split; [|split]].
    + split; [auto|]. split; [auto|]. split; [rewrite E, hd_app in H by auto; auto|]. destruct L; [congruence|auto].
    + rewrite E at 1 2. rewrite dval_app, dval_zeros, app_length, repeat_length, Z.add_0_r, Nat2Z.inj_add.
      rewrite (de_shift (dval u) _ (Z.of_nat k)) by lia.
      replace (e - Z.of_nat (length u) - Z.of_nat k) with (e - (Z.of_nat (length u) + Z.of_nat k)) by lia. reflexivity.
    + auto.
    + rewrite E at 1. rewrite app_length. lia.
Qed.

Lemma dec_shr_spec d s : 0 <= s -> dnum d -> exists d', dec_shr d s = Ok d' /\ dwf d' /\ (dvalue d' == dvalue d * Qpower 2 (- s))%Q.
Proof.
  intros Hs (W1 & W2 & W3). pose proof (pow2_pos s Hs) as P. destruct d as [cs e]. cbn [dmant] in *. unfold dec_shr. cbn [dmant dexp].
  destruct (pick_spec s cs Hs W1 0 0 ltac:(lia)) as (k & K & EP & B & Ho & K1). cbv zeta in *. rewrite Z.mul_0_l, !Z.add_0_l in *.
  specialize (K1 eq_refl W2). rewrite EP. set (n := dval (firstn k cs)) in *.
  assert (NP : 0 < n).
  { unfold n. pose proof (dval_pos (firstn k cs) (digs_firstn k cs W1)) as X. destruct cs as [|c cs']; [congruence|]. destruct k; [lia|].
    cbn [firstn] in *. specialize (X ltac:(discriminate) W3). pose proof (p10 (Z.of_nat (length (c :: firstn k cs')) - 1)) as Y.
    cbn [length] in *. lia. }
  destruct (Z.eqb_spec n 0); [lia|].
  destruct (grow_spec s Hs (Z.to_nat s) (Z.of_nat k) n ltac:(lia)) as (j & EG & BG & J0).
  { rewrite Z2Nat.id by lia. pose proof (pow2_pos s Hs). nia. }
  rewrite EG. cbn [bind]. rewrite <- Nat2Z.inj_add, Nat2Z.id. set (R := (k + j)%nat). set (rest := skipn R cs). set (n1 := n * 10 ^ Z.of_nat j) in *.
  assert (V1 : n1 * 10 ^ Z.of_nat (length rest) + dval rest = dval cs * 10 ^ Z.of_nat j /\ (R + length rest = length cs + j)%nat).
  { destruct Ho as [Ho|Ho].
    - assert (rest = []) as -> by (unfold rest; apply skipn_all2; unfold R; lia). rewrite dval_nil. cbn [length]. change (10 ^ Z.of_nat 0) with 1.
      unfold n1, n. rewrite Ho, firstn_all. split; [ring|unfold R; lia].
    - assert (j = O) as J by (apply J0; lia). unfold n1, rest, R. rewrite J, Nat.add_0_r. change (10 ^ Z.of_nat 0) with 1. rewrite !Z.mul_1_r.
      rewrite <- (firstn_skipn k cs) at 3. rewrite dval_app. fold n. split; [ring|]. rewrite skipn_length. lia. }
  destruct V1 as (V1 & LR). destruct (emit_spec s rest Hs (digs_skipn R cs W1) n1 ltac:(lia)) as (l & n2 & EE & DL & LL & B2 & V2 & HL & NL).
  rewrite EE. destruct (drain_spec s Hs (S (Z.to_nat s)) 0 n2) as (l' & ED & DL' & V3 & HL' & _);
    [lia|apply Z.divide_1_l|lia|lia|]. rewrite ED. cbn [bind].
  assert (N12 : l ++ l' <> [] /\ hd 0 (l ++ l') <> 48).
  { destruct rest as [|c rest'] eqn:ER.
    - assert (l = []) as -> by (destruct l; [auto|discriminate]). specialize (NL eq_refl). subst n2. apply HL'. lia.
    - assert (l <> []) by (destruct l; [discriminate|discriminate]). split; [destruct l; [congruence|discriminate]|].
      rewrite hd_app by auto. apply HL; [discriminate|lia]. }
  destruct N12 as (N1 & N2). destruct (trim_wf (l ++ l') (e + (1 - Z.of_nat R))) as (T1 & T2 & _); [apply digs_app; auto|auto|auto|].
  eexists. split; [reflexivity|]. split; [auto|]. rewrite T2. unfold dvalue. cbn [dmant dexp].
  assert (V : 2 ^ s * 10 * dval (l ++ l') = dval cs * 10 ^ Z.of_nat j * 10 ^ Z.of_nat (length l')).
  { rewrite dval_app, <- V1, V2. rewrite Z.mul_add_distr_r, V3. ring. }
  assert (P2 : (Qpower 2 (- s) * inject_Z (2 ^ s) == 1)%Q).
  { rewrite <- two_pow, <- Qpower_plus by (auto; apply two_nz). replace (- s + s) with 0 by lia. reflexivity. }
  rewrite app_length, Nat2Z.inj_add, LL. set (a := Z.of_nat (length rest)) in *. set (b := Z.of_nat (length l')) in *.
  set (m := Z.of_nat (length cs)) in *. assert (M : Z.of_nat R + a = m + Z.of_nat j) by (unfold a, m; lia).
  set (ex := e + (1 - Z.of_nat R) - (a + b)).
  assert (C : (inject_Z (2 ^ s) * de (dval (l ++ l')) ex == de (dval cs) (e - m))%Q).
  { rewrite de_scale. assert (X : (de (2 ^ s * dval (l ++ l')) ex == de (2 ^ s * 10 * dval (l ++ l')) (ex - 1))%Q).
    { rewrite (de_shift (2 ^ s * dval (l ++ l')) ex 1) by lia. apply de_eq. change (10 ^ 1) with 10. ring. }
    rewrite X, V, (de_shift (dval cs) (e - m) (Z.of_nat j + b)) by lia. replace (ex - 1) with (e - m - (Z.of_nat j + b)) by (unfold ex; lia).
    apply de_eq. rewrite Z.pow_add_r by lia. ring. }
  rewrite <- C, Qmult_comm, Qmult_assoc, P2. ring.
Qed.
Lemma dec_shr_loop_spec : forall fuel d shift, shift <= 0 -> - shift <= 28 * (Z.of_nat fuel + 1) -> dnum d ->
  exists d', dec_shr_loop fuel d shift = Ok d' /\ dwf d' /\ (dvalue d' == dvalue d * Qpower 2 shift)%Q.
Proof.
  induction fuel as [|f IH]; intros d shift Hs F D; cbn [dec_shr_loop]; destruct (Z.ltb_spec shift (-28)) as [L|L]; try lia.
  - destruct (dec_shr_spec d (- shift) ltac:(lia) D) as (d' & E & D' & V). rewrite Z.opp_involutive in V. eauto.
  - destruct (dec_shr_spec d 28 ltac:(lia) D) as (d' & E & D' & V). rewrite E. cbn [bind].
    destruct (IH d' (shift + 28) ltac:(lia) ltac:(lia) (dwf_dnum _ D')) as (d2 & E2 & D2 & V2). exists d2. split; [auto|]. split; [auto|].
    rewrite V2, V, <- Qmult_assoc, <- Qpower_plus by apply two_nz. replace (-(28) + (shift + 28)) with shift by lia. reflexivity.
  - destruct (dec_shr_spec d (- shift) ltac:(lia) D) as (d' & E & D' & V). rewrite Z.opp_involutive in V. eauto.
Qed.
