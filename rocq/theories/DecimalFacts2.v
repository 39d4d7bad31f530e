(** Rounding of decimals, [Decimal::new]. *)
From Coq Require Import Ascii String ZArith QArith Qabs Qpower Lqa List Lia Bool.
From Verif Require Import Words Spec WordsFacts NatModel NatFacts NatFacts2 NatFacts5 NatConv NatConvFacts BigInt Rat Float SpecFloat
  FloatFacts FloatFacts2 SpecDecimal Decimal DecimalFacts.
Import ListNotations.
Open Scope Z_scope.
Open Scope list_scope.

Lemma half_even_wd k v w r s : (v == w)%Q -> (r == s)%Q -> half_even_at k v r -> half_even_at k w s.
Proof. intros E F (D & A & B & C). exists D. rewrite <- E, <- F. auto. Qed.
Lemma half_even_core U R L k b : 0 <= L -> 0 <= R <= 10 ^ L -> (b = 0 \/ b = 1) ->
  (b = 0 -> 2 * R <= 10 ^ L) -> (b = 1 -> 10 ^ L <= 2 * R) -> (2 * R = 10 ^ L -> Z.even (U + b) = true) ->
  half_even_at k (de (U * 10 ^ L + R) (k - L)) (de (U + b) k).
Proof.
  intros HL HR HB H0 H1 HT. exists (U + b). split; [reflexivity|].
  assert (E : (2 * Qabs (de (U + b) k - de (U * 10 ^ L + R) (k - L)) == de (2 * Z.abs (b * 10 ^ L - R)) (k - L))%Q).
  { rewrite (de_shift (U + b) k L) by auto. rewrite de_sub, de_abs. change 2%Q with (inject_Z 2). rewrite de_scale. apply de_eq.
    do 2 f_equal. ring. }
  rewrite E. rewrite (de_shift 1 k L) by auto. rewrite de_le, de_eq. destruct HB as [-> | ->].
  - specialize (H0 eq_refl). split; [lia|]. intros X. apply HT. lia.
  - specialize (H1 eq_refl). split; [lia|]. intros X. apply HT. lia.
Qed.

Lemma digs_last cs : digs cs -> cs <> [] -> dig (last cs 0).
Proof.
  intros H N. destruct (exists_last N) as (u & c & ->). rewrite last_last. apply digs_app in H as [_ H]. apply digs_cons in H. tauto.
Qed.
Lemma dval_parity cs : digs cs -> cs <> [] -> Z.odd (dval cs) = Z.odd (last cs 0 - 48).
Proof.
  intros H N. destruct (exists_last N) as (u & c & ->). rewrite last_last, dval_snoc.
  rewrite Z.odd_add, Z.odd_mul. change (Z.odd 10) with false. rewrite andb_false_r. apply xorb_false_l.
Qed.
Lemma rest_pos w : digs w -> w <> [] -> last w 0 <> 48 -> 0 < dval w.
Proof.
  intros H N L. destruct (exists_last N) as (u & c & ->). rewrite last_last in L. apply digs_app in H as [A B]. apply digs_cons in B as [B _].
  unfold dig in B. rewrite dval_snoc. pose proof (dval_bound u A). lia.
Qed.
Lemma drop9_rev u : digs u -> exists w j, u = w ++ repeat 57 j /\ rev (drop9 (rev u)) = w /\ (w = [] \/ last w 0 <> 57).
Proof.
  assert (H : forall r, digs r -> exists j, r = repeat 57 j ++ drop9 r /\ (drop9 r = [] \/ hd 0 (drop9 r) <> 57)).
  { induction r as [|c r IH]; intros H; [exists O; auto|]. apply digs_cons in H as [A B]. unfold dig in A. cbn [drop9].
    destruct (Z.leb_spec 57 c).
    - destruct (IH B) as (j & E & F). exists (S j). cbn [repeat app]. replace c with 57 by lia. split; [congruence|auto].
    - exists O. split; [reflexivity|]. right. cbn [hd]. lia. }
  intros D. assert (DR : digs (rev u)) by (apply Forall_rev; auto). destruct (H (rev u) DR) as (j & E & F).
  exists (rev (drop9 (rev u))), j. split; [|split; [auto|]].
  - rewrite <- (rev_involutive u) at 1. rewrite E at 1. rewrite rev_app_distr. f_equal.
    clear. induction j as [|j IH]; [reflexivity|]. cbn [repeat rev]. rewrite IH, <- repeat_cons. reflexivity.
  - destruct F as [->|F]; [auto|]. right. destruct (drop9 (rev u)) as [|c r]; [cbn; lia|]. cbn [rev]. rewrite last_last. exact F.
Qed.
Lemma dval_nines j : dval (repeat 57 j) + 1 = 10 ^ Z.of_nat j.
Proof.
  induction j as [|j IH]; [reflexivity|]. cbn [repeat]. rewrite dval_cons, repeat_length, Nat2Z.inj_succ, Z.pow_succ_r by lia. lia.
Qed.

(** Adding one to the kept digits. *)
Lemma round_up_spec d n : dnum d -> (n <= length (dmant d))%nat ->
  let d' := dec_round_up d n in dwf d' /\ (dvalue d' == de (dval (firstn n (dmant d)) + 1) (dexp d - Z.of_nat n))%Q /\
  Z.of_nat (length (dmant d')) - dexp d' <= Z.of_nat n - dexp d /\ ((0 < n)%nat -> (length (dmant d') <= n)%nat).
Proof.
  intros (W1 & W2 & W3) N. cbv zeta. unfold dec_round_up. set (u := firstn n (dmant d)). assert (Du : digs u) by (apply digs_firstn; auto).
  assert (Lu : length u = n) by (unfold u; apply firstn_length_le; auto).
  destruct (drop9_rev u Du) as (w & j & E & -> & L). destruct w as [|c w'] eqn:EW.
  - cbn [app] in E. assert (J : j = n) by (rewrite <- Lu, E, repeat_length; auto). unfold dvalue, dwf. cbn [dmant dexp length].
    split; [|split; [|split]].
    + split; [constructor; [unfold dig; lia|constructor]|]. split; [discriminate|]. split; cbn; lia.
    + rewrite E, J, dval_nines.
      replace (dexp d + 1 - Z.of_nat 1) with (dexp d) by lia. change (dval [49]) with 1. rewrite (de_to 1 (dexp d) (dexp d - Z.of_nat n)) by lia.
      apply de_eq. replace (dexp d - (dexp d - Z.of_nat n)) with (Z.of_nat n) by lia. lia.
    + lia.
    + lia.
  - rewrite <- EW in *. assert (NW : w <> []) by (rewrite EW; discriminate). clear EW c w'. destruct L as [L|L]; [congruence|].
    destruct (exists_last NW) as (w0 & c & EC). assert (Dw : digs w) by (rewrite E in Du; apply digs_app in Du; tauto).
    assert (Dc := Dw). rewrite EC in Dc. apply digs_app in Dc as [D0 Dc]. apply digs_cons in Dc as [Dc _]. unfold dig in Dc.
    rewrite EC, last_last in L. rewrite EC. assert (SL : set_last (w0 ++ [c]) (last (w0 ++ [c]) 0 + 1) = w0 ++ [c + 1]).
    { rewrite last_last. apply set_last_snoc. }
    rewrite SL. unfold dvalue, dwf. cbn [dmant dexp]. rewrite app_length. cbn [length].
    assert (LN : (length w0 + 1 + j = n)%nat) by (rewrite <- Lu, E, EC, !app_length, repeat_length; cbn [length]; lia).
    split; [|split; [|split; lia]].
    + split; [apply digs_app; split; [auto|constructor; [unfold dig; lia|constructor]]|]. split; [destruct w0; discriminate|].
      split; [|rewrite last_last; lia]. destruct w0 as [|h w1]; [cbn [app hd]; lia|]. cbn [app hd] in *.
      assert (hd 0 u = h) by (rewrite E, EC; reflexivity). assert (hd 0 u = hd 0 (dmant d)); [|congruence].
      unfold u. destruct (dmant d); [congruence|]. destruct n; [lia|reflexivity].
    + rewrite E, EC, !dval_app, !dval_cons, dval_nil, repeat_length. cbn [length]. change (10 ^ Z.of_nat 0) with 1. change (10 ^ Z.of_nat 1) with 10.
      pose proof (dval_nines j) as J. rewrite Nat2Z.inj_add. change (Z.of_nat 1) with 1. set (a := dexp d - (Z.of_nat (length w0) + 1)).
      rewrite (de_shift _ a (Z.of_nat j)) by lia. replace (a - Z.of_nat j) with (dexp d - Z.of_nat n) by (unfold a; lia). apply de_eq. nia.
Qed.

Lemma dec_round_spec d n : dwf d -> 0 <= n -> let d' := dec_round d n in
  half_even_at (dexp d - n) (dvalue d) (dvalue d') /\ (dmant d' = [] /\ dexp d' = 0 /\ n = 0 \/ dwf d') /\
  (dmant d' <> [] -> Z.of_nat (length (dmant d')) - dexp d' <= n - dexp d) /\ (0 < n -> Z.of_nat (length (dmant d')) <= n) /\
  (Z.of_nat (length (dmant d)) <= n -> d' = d).
Proof.
  intros W N. cbv zeta. unfold dec_round. destruct (Z.ltb_spec n (Z.of_nat (length (dmant d)))) as [L|L].
  - set (k := Z.to_nat n). assert (K : Z.of_nat k = n) by (unfold k; lia). assert (KL : (k < length (dmant d))%nat) by lia.
    pose proof W as W'. destruct W' as (W1 & W2 & W3 & W4).
    set (u := firstn k (dmant d)). assert (Du : digs u) by (apply digs_firstn; auto). assert (Lu : length u = k) by (apply firstn_length_le; lia).
    destruct (skipn k (dmant d)) as [|c w] eqn:ES.
    { exfalso. assert (length (skipn k (dmant d)) = O) by (rewrite ES; auto). rewrite skipn_length in H. lia. }
    assert (EM : dmant d = u ++ c :: w) by (rewrite <- ES; symmetry; apply firstn_skipn).
    assert (NTH : nth k (dmant d) 0 = c) by (rewrite EM, app_nth2, Lu, Nat.sub_diag by lia; reflexivity).
    assert (LEN : length (dmant d) = (k + 1 + length w)%nat) by (rewrite EM, app_length, Lu; cbn [length]; lia).
    assert (DW : digs (c :: w)) by (rewrite EM in W1; apply digs_app in W1; tauto). assert (DW' := DW). apply digs_cons in DW' as [Dc Dw].
    unfold dig in Dc. set (lw := Z.of_nat (length w)). set (R := dval (c :: w)).
    assert (ER : R = (c - 48) * 10 ^ lw + dval w) by (unfold R, lw; apply dval_cons).
    pose proof (dval_bound w Dw) as BW. fold lw in BW. pose proof (p10 lw ltac:(unfold lw; lia)) as P.
    assert (P1 : 10 ^ (lw + 1) = 10 * 10 ^ lw) by (rewrite Z.pow_add_r by (unfold lw; lia); change (10 ^ 1) with 10; ring).
    assert (V : (dvalue d == de (dval u * 10 ^ (lw + 1) + R) (dexp d - n - (lw + 1)))%Q).
    { unfold dvalue. rewrite EM, dval_app, app_length, Lu. cbn [length]. fold R. rewrite !Nat2Z.inj_add, Nat2Z.inj_succ. fold lw.
      replace (dexp d - (Z.of_nat k + Z.succ lw)) with (dexp d - n - (lw + 1)) by lia. unfold Z.succ. reflexivity. }
    assert (RB : 0 <= R <= 10 ^ (lw + 1)) by nia.
    assert (UP : should_round_up (dmant d) k = true /\ 10 ^ (lw + 1) <= 2 * R /\ (2 * R = 10 ^ (lw + 1) -> Z.odd (dval u) = true) \/
                 should_round_up (dmant d) k = false /\ 2 * R <= 10 ^ (lw + 1) /\ (2 * R = 10 ^ (lw + 1) -> Z.odd (dval u) = false)).
    { unfold should_round_up. rewrite NTH, LEN.
      assert (EQ : (Z.of_nat k + 1 =? Z.of_nat (k + 1 + length w)) = (lw =? 0)).
      { unfold lw. destruct (Z.eqb_spec (Z.of_nat k + 1) (Z.of_nat (k + 1 + length w))), (Z.eqb_spec (Z.of_nat (length w)) 0); auto; lia. }
      rewrite EQ. destruct (Z.eqb_spec lw 0) as [Z0|Z0].
      - assert (w = []) as -> by (destruct w; [auto|unfold lw in Z0; cbn [length] in Z0; lia]). rewrite Z0 in *. change (10 ^ 0) with 1 in *.
        rewrite dval_nil in *. destruct (Z.eqb_spec c 53) as [C|C]; cbn [andb].
        + destruct (Z.ltb_spec 0 (Z.of_nat k)) as [K0|K0]; cbn [andb].
          * assert (NU : u <> []) by (intros X; rewrite X in Lu; cbn [length] in Lu; lia).
            assert (LA : nth (k - 1) (dmant d) 0 = last u 0).
            { destruct (exists_last NU) as (u0 & c0 & EU). rewrite EM, EU, last_last. assert (length u0 = (k - 1)%nat) by (rewrite <- Lu, EU, app_length; cbn [length]; lia).
              rewrite <- app_assoc. rewrite app_nth2 by lia. rewrite H, Nat.sub_diag. reflexivity. }
            rewrite LA. rewrite (dval_parity u Du NU). assert (LO : Z.land (last u 0 - 48) 1 = if Z.odd (last u 0 - 48) then 1 else 0).
            { change 1 with (Z.ones 1) at 1. rewrite Z.land_ones by lia. apply Zmod_odd. }
            rewrite LO. destruct (Z.odd (last u 0 - 48)); cbn [Z.eqb negb]; [left|right]; split; auto; split; auto; lia.
          * right. split; [auto|]. split; [lia|]. intros _. assert (u = []) as -> by (destruct u; [auto|cbn [length] in Lu; lia]). reflexivity.
        + destruct (Z.leb_spec 53 c); [left|right]; (split; [auto|]); split; lia.
      - rewrite andb_false_r. assert (NW : w <> []) by (intros ->; apply Z0; reflexivity).
        assert (PW : 0 < dval w).
        { apply rest_pos; auto. rewrite EM in W4. assert (X : u ++ c :: w = (u ++ [c]) ++ w) by (rewrite <- app_assoc; reflexivity).
          rewrite X in W4. destruct (exists_last NW) as (w0 & x & EX). rewrite EX, app_assoc, last_last in W4. rewrite EX, last_last. auto. }
        destruct (Z.leb_spec 53 c); [left|right]; (split; [auto|]); split; nia. }
    destruct UP as [(E & H & T)|(E & H & T)]; rewrite E.
    + destruct (round_up_spec d k (dwf_dnum d W) ltac:(lia)) as (A & B & C & D). cbv zeta in *. fold u in B. rewrite K in *.
      split; [|split; [right; auto|split; [auto|split; [intros; specialize (D ltac:(lia)); lia|lia]]]].
      apply (half_even_wd _ _ _ _ _ (Qeq_sym _ _ V) (Qeq_sym _ _ B)). apply half_even_core; try lia.
      intros X. rewrite Z.even_add. rewrite <- Z.negb_odd, (T X). reflexivity.
    + assert (C : half_even_at (dexp d - n) (dvalue d) (de (dval u) (dexp d - n))).
      { apply (half_even_wd _ _ _ (de (dval u + 0) (dexp d - n)) _ (Qeq_sym _ _ V)); [rewrite Z.add_0_r; reflexivity|].
        apply half_even_core; try lia. intros X. rewrite Z.add_0_r, <- Z.negb_odd, (T X). reflexivity. }
      fold u. destruct (Z.eq_dec n 0) as [N0|N0].
      * assert (EU : u = []) by (destruct u; [auto|cbn [length] in Lu; lia]). rewrite EU in *. unfold dec_trim. cbn [dmant rev trim_start0 dexp length].
        split; [|split; [left; auto|split; [congruence|split; lia]]]. eapply half_even_wd; [reflexivity| |exact C].
        unfold dvalue. cbn [dmant]. rewrite dval_nil, !de_0. reflexivity.
      * assert (NU : u <> []) by (intros X; rewrite X in Lu; cbn [length] in Lu; lia).
        assert (HU : hd 0 u <> 48) by (rewrite EM, hd_app in W3; auto). destruct (trim_wf u (dexp d) Du NU HU) as (T1 & T2 & T3 & T4).
        split; [|split; [auto|split; [intros _; rewrite T3; lia|split; lia]]].
        eapply half_even_wd; [reflexivity| |exact C]. rewrite T2. unfold dvalue. cbn [dmant dexp]. rewrite Lu, K. reflexivity.
  - split; [|split; [auto|split; [lia|split; [lia|auto]]]]. exists (dval (dmant d) * 10 ^ (n - Z.of_nat (length (dmant d)))).
    assert (Z0 : (Qabs (dvalue d - dvalue d) == 0)%Q).
    { assert (dvalue d - dvalue d == 0)%Q as -> by ring. reflexivity. }
    split; [|rewrite Z0; split].
    + unfold dvalue. rewrite (de_to _ (dexp d - Z.of_nat (length (dmant d))) (dexp d - n)) by lia. apply de_eq. do 2 f_equal. lia.
    + apply Qlt_le_weak. setoid_replace (2 * 0)%Q with 0%Q by ring. apply de_pos. lia.
    + intros X. exfalso. assert (Y : (0 < de 1 (dexp d - n))%Q) by (apply de_pos; lia). rewrite <- X in Y. revert Y. vm_compute. discriminate.
Qed.
