(** Proofs about [montgomery] and the exponentiation loops. *)
From Coq Require Import ZArith Znumtheory List Lia Bool PeanoNat.
From Verif Require Import Words WordsFacts NatModel NatFacts NatFacts2 NatFacts3 NatFacts5 VecPrims VecFacts Karatsuba KaraFacts KaraFacts2 NatExp.
Import ListNotations.
Open Scope Z_scope.

Lemma carry_pair c c2 c3 : 0 <= c <= 1 -> 0 <= c2 < W -> 0 <= c3 < W -> c + c2 + c3 < 2 * W ->
  let cx := (c + c2) mod W in let cy := (cx + c3) mod W in
  let c' := if (cx <? c2) || (cy <? c3) then 1 else 0 in
  cy + W * c' = c + c2 + c3 /\ 0 <= cy < W /\ 0 <= c' <= 1.
Proof.
  intros Hc H2 H3 Hs cx cy c'.
  assert (Ex : exists a, (a = 0 \/ a = 1) /\ cx + W * a = c + c2 /\ 0 <= cx < W).
  { subst cx. destruct (Z_lt_le_dec (c + c2) W).
    - exists 0. rewrite Z.mod_small by lia. lia.
    - exists 1. rewrite <- (Z.mod_unique (c + c2) W 1 (c + c2 - W)) by lia. lia. }
  destruct Ex as (a & Ha & Ex & Bx).
  assert (Ey : exists b, (b = 0 \/ b = 1) /\ cy + W * b = cx + c3 /\ 0 <= cy < W).
  { subst cy. destruct (Z_lt_le_dec (cx + c3) W).
    - exists 0. rewrite Z.mod_small by lia. lia.
    - exists 1. rewrite <- (Z.mod_unique (cx + c3) W 1 (cx + c3 - W)) by lia. lia. }
  destruct Ey as (b & Hb & Ey & By). clearbody cx cy. subst c'.
  destruct (Z.ltb_spec cx c2); destruct (Z.ltb_spec cy c3); cbn [orb]; lia.
Qed.

Lemma nval_mod_hd a l : 0 <= a < W -> nval (a :: l) mod W = a.
Proof. intros. rewrite nval_cons, Z.mul_comm, Z.mod_add by lia. apply Z.mod_small. auto. Qed.

Lemma mont_rows_spec n x m k : length x = n -> length m = n -> words_ok x -> words_ok m -> (0 < n)%nat ->
  (hd 0 m * k + 1) mod W = 0 -> 0 <= k < W ->
  forall ys i low mid zs c, length low = i -> length mid = n -> length zs = length ys ->
  words_ok mid -> words_ok ys -> 0 <= c <= 1 -> nval mid + Wp n * c < Wp n + nval m ->
  exists low' mid' c' T, mont_rows n i ys (low ++ mid ++ zs) x m k c = Ok (low' ++ mid', c') /\
    length low' = (i + length ys)%nat /\ length mid' = n /\ words_ok mid' /\ 0 <= c' <= 1 /\
    nval mid' + Wp n * c' < Wp n + nval m /\
    Wp (length ys) * (nval mid' + Wp n * c') = nval mid + Wp n * c + nval x * nval ys + nval m * T.
Proof.
  intros Lx Lm Wx Wm Hn Hk Bk. induction ys as [|d ys IH]; intros i low mid zs c Ll Lmid Lzs Wmid Wys Hc HV; cbn [mont_rows].
  - destruct zs; [|discriminate]. rewrite app_nil_r. exists low, mid, c, 0. cbn [length nval]. change (Wp 0) with 1.
    repeat (split; [auto; lia|]). lia.
  - apply words_ok_cons in Wys as [Hd Wys]. destruct zs as [|z0 zs]; [discriminate|]. cbn [length] in Lzs.
    rewrite rd_app by lia. cbn [bind].
    pose proof (add_mul_vvw_spec mid x d Wmid Wx ltac:(lia) Hd) as (E1 & E2 & E3 & E4).
    destruct (add_mul_vvw mid x d) as [s c2]. cbn [fst snd] in *. rewrite Lx in E1, E3.
    rewrite wr_app by lia. cbn [bind].
    destruct s as [|s0 s']; [cbn in E3; lia|].
    assert (En : nth i (low ++ (s0 :: s') ++ z0 :: zs) 0 = s0).
    { rewrite app_nth2 by lia. rewrite Ll, Nat.sub_diag. reflexivity. }
    rewrite En. set (t := (s0 * k) mod W). assert (Bt : 0 <= t < W) by (apply Z.mod_pos_bound; lia).
    rewrite rd_app by lia. cbn [bind].
    pose proof (add_mul_vvw_spec (s0 :: s') m t E2 Wm ltac:(lia) Bt) as (F1 & F2 & F3 & F4).
    destruct (add_mul_vvw (s0 :: s') m t) as [s2 c3]. cbn [fst snd] in *. rewrite Lm in F1, F3.
    rewrite wr_app by lia. cbn [bind].
    destruct s2 as [|u0 s2']; [cbn in F3; lia|]. cbn [length] in F3.
    destruct m as [|m0 m'] eqn:Em; [cbn in Lm; lia|]. cbn [hd] in Hk.
    assert (Hu : u0 = 0).
    { apply words_ok_cons in F2 as [Bu F2]. apply words_ok_cons in E2 as [Bs0 E2].
      rewrite <- (nval_mod_hd u0 s2') by auto.
      assert (EW : nval (u0 :: s2') = s0 + m0 * t + (nval s' + nval m' * t - Wp (n - 1) * c3) * W).
      { rewrite !nval_cons in *. replace n with (S (n - 1)) in F1 by lia. rewrite Wp_S in F1. nia. }
      rewrite EW, Z_mod_plus_full. subst t.
      rewrite <- Zplus_mod_idemp_r, Zmult_mod_idemp_r, Zplus_mod_idemp_r.
      replace (s0 + m0 * (s0 * k)) with (s0 * (m0 * k + 1)) by ring.
      rewrite <- Zmult_mod_idemp_r, Hk, Z.mul_0_r. reflexivity. }
    subst u0. rewrite <- Em in *.
    pose proof (nval_bound x Wx) as BX. rewrite Lx in BX. pose proof (nval_bound m Wm) as BM. rewrite Lm in BM.
    pose proof (nval_bound mid Wmid) as Bmid. rewrite Lmid in Bmid.
    assert (Tot : nval (0 :: s2') + Wp n * (c + c2 + c3) = nval mid + Wp n * c + nval x * d + nval m * t) by nia.
    assert (TB : nval mid + Wp n * c + nval x * d + nval m * t < W * (Wp n + nval m)) by nia.
    pose proof (nval_bound _ F2) as B2. cbn [length] in B2. rewrite F3 in B2.
    assert (CB : c + c2 + c3 < 2 * W) by nia.
    pose proof (carry_pair c c2 c3 Hc E4 F4 CB) as (G1 & G2 & G3).
    set (cx := (c + c2) mod W) in *. set (cy := (cx + c3) mod W) in *.
    set (c' := if (cx <? c2) || (cy <? c3) then 1 else 0) in *. clearbody c' cy.
    replace (low ++ (0 :: s2') ++ z0 :: zs) with ((low ++ 0 :: s2') ++ [z0] ++ zs) by (rewrite <- app_assoc; reflexivity).
    rewrite wr_app by (rewrite ?app_length; cbn [length]; lia). cbn [bind].
    replace ((low ++ 0 :: s2') ++ [cy] ++ zs) with ((low ++ [0]) ++ (s2' ++ [cy]) ++ zs)
      by (rewrite <- !app_assoc; reflexivity).
    apply words_ok_cons in F2 as [_ F2].
    assert (NV : nval (s2' ++ [cy]) = nval s2' + Wp (n - 1) * cy).
    { rewrite nval_app. cbn [nval]. replace (length s2') with (n - 1)%nat by lia. ring. }
    assert (EQ : W * (nval (s2' ++ [cy]) + Wp n * c') = nval mid + Wp n * c + nval x * d + nval m * t).
    { rewrite NV, <- Tot, <- G1, nval_cons. replace (Wp n) with (W * Wp (n - 1)).
      - ring.
      - rewrite <- Wp_S. do 2 f_equal. lia. }
    destruct (IH (S i) (low ++ [0]) (s2' ++ [cy]) zs c') as (low' & mid' & c'' & T & R1 & R2 & R3 & R4 & R5 & R6 & R7); auto.
    { rewrite app_length. cbn [length]. lia. }
    { rewrite app_length. cbn [length]. lia. }
    { apply words_app; auto. repeat constructor; lia. }
    { nia. }
    exists low', mid', c'', (t + W * T). split; [exact R1|]. cbn [length]. split; [lia|]. split; [auto|].
    split; [auto|]. split; [auto|]. split; [auto|].
    rewrite Wp_S, nval_cons. replace (W * Wp (length ys) * (nval mid' + Wp n * c'')) with (W * (Wp (length ys) * (nval mid' + Wp n * c''))) by ring.
    rewrite R7. nia.
Qed.

(** Almost Montgomery multiplication: the result is below 2^(32n), not
    necessarily below m. *)
Lemma montgomery_spec n x y m k : length x = n -> length y = n -> length m = n ->
  words_ok x -> words_ok y -> words_ok m -> (0 < n)%nat ->
  (hd 0 m * k + 1) mod W = 0 -> 0 <= k < W ->
  exists r, montgomery x y m k n = Ok r /\ length r = n /\ words_ok r /\
    (nval r * Wp n) mod nval m = (nval x * nval y) mod nval m.
Proof.
  intros Lx Ly Lm Wx Wy Wm Hn Hk Bk. unfold montgomery. rewrite Lx, Ly, Lm, Nat.eqb_refl. cbn [negb orb].
  destruct (mont_rows_spec n x m k Lx Lm Wx Wm Hn Hk Bk y 0 [] (repeat 0 n) (repeat 0 n) 0)
    as (low & mid & c & T & R1 & R2 & R3 & R4 & R5 & R6 & R7); auto using words_ok_repeat0, repeat_length.
  { rewrite repeat_length. auto. }
  { lia. }
  { rewrite nval_repeat0. pose proof (nval_bound m Wm). pose proof (Wp_pos n). lia. }
  assert (ER : repeat 0 (2 * n) = repeat 0 n ++ repeat 0 n) by (rewrite <- repeat_app; f_equal; lia).
  rewrite ER. cbn [app] in R1. rewrite R1. cbn [bind]. rewrite Ly in *. cbn [Nat.add] in R2.
  assert (ERD : rd (low ++ mid) n n = Ok mid).
  { pose proof (rd_app n n low mid [] ltac:(lia) ltac:(lia)) as E. rewrite app_nil_r in E. exact E. }
  rewrite ERD. cbn [bind]. rewrite nval_repeat0 in R7. rewrite Z.mul_0_r, Z.add_0_r, Z.add_0_l in R7.
  pose proof (nval_bound m Wm) as BM. rewrite Lm in BM.
  assert (Key : forall v, (exists q, v = nval mid + Wp n * c - q * nval m) -> (v * Wp n) mod nval m = (nval x * nval y) mod nval m).
  { intros v [q ->]. replace ((nval mid + Wp n * c - q * nval m) * Wp n)
      with (nval x * nval y + (T - q * Wp n) * nval m) by nia. apply Z_mod_plus_full. }
  destruct (Z.eqb_spec c 0) as [->|N]; cbn [negb].
  - exists mid. split; [auto|]. split; [auto|]. split; [auto|]. apply Key. exists 0. lia.
  - assert (c = 1) as -> by lia.
    pose proof (sub_vv_spec mid m R4 Wm ltac:(lia)) as (S1 & S2 & S3 & S4).
    destruct (sub_vv mid m) as [s b]. cbn [fst snd] in *. rewrite R3 in *.
    pose proof (nval_bound s S2) as BS. rewrite S3 in BS. pose proof (nval_bound mid R4) as BD. rewrite R3 in BD.
    exists s. split; [auto|]. split; [auto|]. split; [auto|]. apply Key. exists 1.
    assert (b = 0 \/ b = 1) as [-> | ->] by lia; [nia|nia].
Qed.

Lemma divide_mul_mono a b c d : (a | b) -> (c | d) -> (a * c | b * d).
Proof. intros [q ->] [r ->]. exists (q * r). ring. Qed.

(** The Newton iteration. *)
Lemma newton_inv_spec m0 : forall cnt k t e, (m0 * k) mod W = (1 - t * t) mod W -> (2 ^ e | t) -> 0 <= e ->
  (m0 * newton_inv cnt k t) mod W = 1 mod W \/
  exists t', (2 ^ (e * 2 ^ Z.of_nat cnt) | t') /\ (m0 * newton_inv cnt k t) mod W = (1 - t' * t') mod W.
Proof.
  induction cnt as [|cnt IH]; intros k t e Hk Ht He; cbn [newton_inv].
  - right. exists t. change (2 ^ Z.of_nat 0) with 1. rewrite Z.mul_1_r. auto.
  - set (t1 := (t * t) mod W).
    assert (K : (m0 * ((k * ((t1 + 1) mod W)) mod W)) mod W = (1 - t1 * t1) mod W).
    { rewrite Zmult_mod_idemp_r. replace (m0 * (k * ((t1 + 1) mod W))) with ((m0 * k) * ((t1 + 1) mod W)) by ring.
      rewrite Zmult_mod_idemp_r, <- Zmult_mod_idemp_l, Hk, Zmult_mod_idemp_l.
      assert (C : exists q, t * t = t1 + W * q).
      { exists (t * t / W). subst t1. pose proof (Z.div_mod (t * t) W ltac:(lia)). lia. }
      destruct C as [q ->]. replace ((1 - (t1 + W * q)) * (t1 + 1)) with (1 - t1 * t1 + (- q * (t1 + 1)) * W) by ring.
      apply Z_mod_plus_full. }
    destruct (Z_lt_le_dec (e + e) 32) as [L|L].
    + assert (D : (2 ^ (e + e) | t1)).
      { subst t1. rewrite Z.mod_eq by lia. apply Z.divide_sub_r.
        - rewrite Z.pow_add_r by lia. apply divide_mul_mono; auto.
        - apply Z.divide_mul_l. exists (2 ^ (32 - (e + e))). rewrite <- Z.pow_add_r by lia.
          replace (32 - (e + e) + (e + e)) with 32 by lia. reflexivity. }
      destruct (IH _ t1 (e + e) K D ltac:(lia)) as [H|(t' & H1 & H2)]; [auto|].
      right. exists t'. split; [|auto]. rewrite Nat2Z.inj_succ, Z.pow_succ_r by lia.
      replace (e * (2 * 2 ^ Z.of_nat cnt)) with ((e + e) * 2 ^ Z.of_nat cnt) by ring. auto.
    + left. assert (t1 = 0) as E0.
      { subst t1. apply Z.mod_divide; [lia|]. change W with (2 ^ 32).
        apply Z.divide_trans with (2 ^ (e + e)).
        - exists (2 ^ (e + e - 32)). rewrite <- Z.pow_add_r by lia. f_equal. lia.
        - rewrite Z.pow_add_r by lia. apply divide_mul_mono; auto. }
      rewrite E0 in *. clear E0 t1 IH. 
      assert (Z0 : forall cnt k, (m0 * k) mod W = 1 mod W -> (m0 * newton_inv cnt k 0) mod W = 1 mod W).
      { clear. induction cnt as [|cnt IH]; intros k Hk; cbn [newton_inv]; [auto|].
        change ((0 * 0) mod W) with 0. apply IH. change ((0 + 1) mod W) with 1. rewrite Z.mul_1_r, Zmult_mod_idemp_r. auto. }
      apply Z0. rewrite K. reflexivity.
Qed.

Lemma mont_k0_spec m0 : 0 <= m0 < W -> Z.odd m0 = true -> (m0 * mont_k0 m0 + 1) mod W = 0 /\ 0 <= mont_k0 m0 < W.
Proof.
  intros B O. unfold mont_k0. split; [|apply Z.mod_pos_bound; lia].
  assert (E : (m0 * newton_inv 5 ((2 - m0) mod W) ((m0 - 1) mod W)) mod W = 1).
  { assert (B1 : 1 <= m0) by (destruct (Z.eq_dec m0 0) as [->|]; [discriminate|lia]).
    rewrite (Z.mod_small (m0 - 1)) by lia.
    apply Z.odd_spec in O. destruct O as [q Hq].
    destruct (newton_inv_spec m0 5 ((2 - m0) mod W) (m0 - 1) 1) as [H|(t & [u Hu] & H)].
    - rewrite Zmult_mod_idemp_r. f_equal. ring.
    - exists q. change (2 ^ 1) with 2. lia.
    - lia.
    - exact H.
    - rewrite H. change (2 ^ (1 * 2 ^ Z.of_nat 5)) with W in Hu. rewrite Hu.
      replace (1 - u * W * (u * W)) with (1 + (- u * u * W) * W) by ring. rewrite Z_mod_plus_full. reflexivity. }
  set (v := newton_inv _ _ _) in *. rewrite <- Zplus_mod_idemp_l, Zmult_mod_idemp_r, Zplus_mod_idemp_l.
  replace (m0 * - v + 1) with (1 - m0 * v) by ring. rewrite <- Zminus_mod_idemp_r, E. reflexivity.
Qed.
