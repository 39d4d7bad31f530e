(** The nearest machine float is the nearest number of as many bits, in the
    range of the normal numbers (for C96). *)
From Coq Require Import ZArith QArith Qpower Qabs Lqa List Lia Bool.
From Verif Require Import Words Spec Ieee SpecRat IeeeFacts Float SpecFloat FloatFacts FloatFacts3 FloatFacts9.
Import ListNotations.
Open Scope Z_scope.

Section Normal.
  Variables mb eb : Z.
  Hypothesis Hmb : 1 <= mb.
  Hypothesis Heb : 2 <= eb.
  Hypothesis Hu : funit mb eb <= 0.
  Notation T := (2 ^ mb).
  Notation val k := (dy (funits mb k) (funit mb eb)).
  Variables (p q : Z).
  Hypothesis Hp : 0 < p.
  Hypothesis Hq : 0 < q.
  Let v : Q := (inject_Z p / inject_Z q)%Q.
  Let D := p * 2 ^ (- funit mb eb).
  Let c : Q := (/ (inject_Z q * inject_Z (2 ^ (- funit mb eb))))%Q.
  Lemma c_pos : (0 < c)%Q.
  Proof.
    unfold c. apply Qinv_lt_0_compat. change 0%Q with (inject_Z 0). rewrite <- inject_Z_mult, <- Zlt_Qlt.
    pose proof (Z.pow_pos_nonneg 2 (- funit mb eb)). nia.
  Qed.
  Lemma diff_eq n : (dy n (funit mb eb) - v == inject_Z (q * n - D) * c)%Q.
  Proof.
    unfold dy, v, c, D. set (u := funit mb eb) in *. replace (Qpower 2 u) with (Qpower 2 (- - u)) by (f_equal; lia).
    assert (PE : (Qpower 2 (- - u) == / inject_Z (2 ^ (- u)))%Q).
    { assert (PM : (Qpower 2 (- - u) * inject_Z (2 ^ (- u)) == 1)%Q).
      { rewrite <- two_pow by lia. rewrite <- Qpower_plus by apply two_nz. replace (- - u + - u) with 0 by lia. reflexivity. }
      rewrite <- (Qmult_1_l (/ _)), <- PM. field. change 0%Q with (inject_Z 0). rewrite inject_Z_injective. apply Z.pow_nonzero; lia. }
    rewrite PE.
    unfold Zminus. rewrite inject_Z_plus, inject_Z_opp, !inject_Z_mult.
    assert (~ (inject_Z q == 0)%Q). { change 0%Q with (inject_Z 0). rewrite inject_Z_injective. lia. }
    assert (~ (inject_Z (2 ^ (- u)) == 0)%Q). { change 0%Q with (inject_Z 0). rewrite inject_Z_injective. apply Z.pow_nonzero; lia. }
    field. split; auto.
  Qed.
  Lemma dist_eq n : (Qabs (dy n (funit mb eb) - v) == inject_Z (Z.abs (D - q * n)) * c)%Q.
  Proof.
    rewrite diff_eq, Qabs_Qmult. rewrite (Qabs_pos c) by (apply Qlt_le_weak, c_pos).
    apply Qmult_comp; [|reflexivity]. unfold Qabs, inject_Z. replace (Z.abs (q * n - D)) with (Z.abs (D - q * n)) by lia. reflexivity.
  Qed.
  Lemma dist_le m n : (Qabs (dy m (funit mb eb) - v) <= Qabs (dy n (funit mb eb) - v))%Q <-> Z.abs (D - q * m) <= Z.abs (D - q * n).
  Proof. rewrite !dist_eq, Qmult_le_r by apply c_pos. rewrite <- Zle_Qle. reflexivity. Qed.
  Lemma le_val n : (dy n (funit mb eb) <= v)%Q <-> q * n <= D.
  Proof.
    pose proof (diff_eq n) as E. pose proof c_pos as C. split; intros H.
    - assert (L : (inject_Z (q * n - D) * c <= 0 * c)%Q) by lra. apply Qmult_lt_0_le_reg_r in L; [|exact C].
      change 0%Q with (inject_Z 0) in L. rewrite <- Zle_Qle in L. lia.
    - assert (L : (inject_Z (q * n - D) * c <= 0 * c)%Q).
      { apply Qmult_le_compat_r; [|lra]. change 0%Q with (inject_Z 0). rewrite <- Zle_Qle. lia. }
      lra.
  Qed.

  (** A normal pattern and the next one. *)
  Lemma normal_pattern k : T <= k -> exists sig b, T <= sig < 2 * T /\ 0 <= b /\ k = sig + b * T /\
    funits mb k = sig * 2 ^ b /\ funits mb (k + 1) = (sig + 1) * 2 ^ b /\ Z.even k = Z.even sig.
  Proof.
    intros K. pose proof (T_pos mb Hmb) as TP. destruct (T_even mb Hmb) as (h & TE & _).
    destruct (pattern_split mb Hmb k ltac:(lia)) as (sig & b & O & L & E). destruct O as (B & S & O).
    assert (SG : T <= sig) by (destruct O as [->|O]; lia).
    exists sig, b. split; [lia|]. split; [auto|]. split; [auto|]. split; [|split].
    - rewrite E. apply (units_pattern mb Hmb); [repeat split; auto|lia].
    - replace (k + 1) with ((sig + 1) + b * T) by lia. apply (units_pattern mb Hmb); [repeat split; lia|lia].
    - rewrite E, Z.even_add, TE, Z.even_mul, Z.even_mul. cbn [Z.even orb]. rewrite orb_true_r. destruct (Z.even sig); reflexivity.
  Qed.

  Lemma dy_scale n b : 0 <= b -> (dy (n * 2 ^ b) (funit mb eb) == dy n (funit mb eb + b))%Q.
  Proof. intros B. rewrite (dy_shift n (funit mb eb + b) b) by auto. replace (funit mb eb + b - b) with (funit mb eb) by lia. reflexivity. Qed.

  Lemma nearest_normal k : nearest mb eb p q k -> (dy T (funit mb eb) <= v)%Q -> k < finf mb eb ->
    rounded ToNearestEven (mb + 1) v (val k).
  Proof.
    intros N V F. pose proof (T_pos mb Hmb) as TP. apply le_val in V as V'.
    assert (UT : funits mb T = T).
    { pose proof (units_pattern mb Hmb T 0 ltac:(repeat split; lia) ltac:(lia)) as E. rewrite Z.mul_0_l, Z.add_0_r, Z.pow_0_r in E. lia. }
    assert (KT : T <= k).
    { apply (near_ge mb eb Hmb D q k T Hq N); [|rewrite UT; exact V'].
      split; [lia|]. unfold finf. assert (2 ^ 2 <= 2 ^ eb) by (apply Z.pow_le_mono_r; lia). change (2 ^ 2) with 4 in *. nia. }
    pose proof (proj2 N) as N2. cbv zeta in N2. fold D in N2.
    assert (DI : forall j, 0 <= j <= finf mb eb -> (Qabs (val k - v) <= Qabs (val j - v))%Q).
    { intros j J. apply dist_le. destruct (Z.eq_dec j k) as [->|NE]; [lia|]. destruct (N2 j J NE); lia. }
    assert (PT : 2 ^ (mb + 1 - 1) = T) by (f_equal; lia).
    assert (P2 : 2 ^ (mb + 1) = 2 * T) by (rewrite Z.pow_add_r by lia; lia).
    destruct (Qlt_le_dec v (val k)) as [L|L].
    - (* the value is below: look at the pattern before *)
      assert (KT' : T < k).
      { destruct (Z.eq_dec k T) as [E|]; [exfalso|lia]. rewrite E, UT in L. lra. }
      destruct (normal_pattern (k - 1) ltac:(lia)) as (sig & b & S & B & E & U0 & U1 & EV). replace (k - 1 + 1) with k in U1 by lia.
      pose proof (DI (k - 1) ltac:(lia)) as DK. rewrite U0, U1 in *. 
      assert (LO : (dy (sig * 2 ^ b) (funit mb eb) <= v)%Q).
      { destruct (Qlt_le_dec v (dy (sig * 2 ^ b) (funit mb eb))) as [L2|]; [exfalso|auto].
        assert (dy (sig * 2 ^ b) (funit mb eb) < dy ((sig + 1) * 2 ^ b) (funit mb eb))%Q.
        { apply dy_lt. pose proof (Z.pow_pos_nonneg 2 b). nia. }
        rewrite !Qabs_pos in DK by lra. lra. }
      assert (NR : forall s, representable (mb + 1) s -> (s <= dy (sig * 2 ^ b) (funit mb eb))%Q \/ (dy ((sig + 1) * 2 ^ b) (funit mb eb) <= s)%Q).
      { intros s R. rewrite !dy_scale by auto. apply (rep_gap (mb + 1)); [lia|lia|auto]. }
      set (lo := dy (sig * 2 ^ b) (funit mb eb)) in *. set (hi := dy ((sig + 1) * 2 ^ b) (funit mb eb)) in *.
      assert (DK' : (hi - v <= v - lo)%Q).
      { rewrite (Qabs_pos (hi - v)) in DK by lra. rewrite (Qabs_neg (lo - v)) in DK by lra. lra. }
      assert (NE : is_nearest (mb + 1) v hi).
      { split.
        - apply (rep_wd _ (dy (sig + 1) (funit mb eb + b))); [symmetry; apply dy_scale; auto|]. apply rep_dy; lia.
        - intros s R. rewrite (Qabs_pos (hi - v)) by lra. destruct (NR s R) as [C|C].
          + rewrite Qabs_neg by lra. lra.
          + rewrite Qabs_pos by lra. lra. }
      split; [exact NE|]. intros (s & R & SN & ST).
      assert (SL : (s <= lo)%Q).
      { destruct (NR s R) as [C|C]; [auto|exfalso]. rewrite !Qabs_pos in ST by lra. apply SN. lra. }
      rewrite (Qabs_pos (hi - v)), (Qabs_neg (s - v)) in ST by lra.
      assert (TI : (hi - v == v - lo)%Q) by lra.
      assert (EK : Z.even k = true).
      { destruct (N2 (k - 1) ltac:(lia) ltac:(lia)) as [C|[_ C]]; [exfalso|auto]. rewrite U0, U1 in C.
        assert (W : (Qabs (lo - v) <= Qabs (hi - v))%Q). { rewrite (Qabs_pos (hi - v)), (Qabs_neg (lo - v)) by lra. lra. }
        unfold lo, hi in W. apply dist_le in W. lia. }
      exists (sig + 1), (funit mb eb + b). rewrite PT, P2. rewrite (Qabs_pos v) by (assert (0 <= dy T (funit mb eb))%Q by (apply dy_nonneg; lia); lra). split; [split|split].
      + apply Qle_trans with lo; [|auto]. unfold lo. rewrite dy_scale by auto. apply dy_le. lia.
      + apply Qlt_le_trans with hi; [auto|]. unfold hi. rewrite dy_scale by auto. apply dy_le. lia.
      + rewrite Z.even_add, <- EV. replace k with (k - 1 + 1) in EK by lia. rewrite Z.even_add in EK. exact EK.
      + apply dy_scale. auto.
    - destruct (normal_pattern k KT) as (sig & b & S & B & E & U0 & U1 & EV).
      pose proof (DI (k + 1) ltac:(lia)) as DK. rewrite U0, U1 in *.
      assert (HI : (v <= dy ((sig + 1) * 2 ^ b) (funit mb eb))%Q).
      { destruct (Qlt_le_dec (dy ((sig + 1) * 2 ^ b) (funit mb eb)) v) as [L2|]; [exfalso|auto].
        assert (dy (sig * 2 ^ b) (funit mb eb) < dy ((sig + 1) * 2 ^ b) (funit mb eb))%Q.
        { apply dy_lt. pose proof (Z.pow_pos_nonneg 2 b). nia. }
        rewrite !Qabs_neg in DK by lra. lra. }
      assert (NR : forall s, representable (mb + 1) s -> (s <= dy (sig * 2 ^ b) (funit mb eb))%Q \/ (dy ((sig + 1) * 2 ^ b) (funit mb eb) <= s)%Q).
      { intros s R. rewrite !dy_scale by auto. apply (rep_gap (mb + 1)); [lia|lia|auto]. }
      set (lo := dy (sig * 2 ^ b) (funit mb eb)) in *. set (hi := dy ((sig + 1) * 2 ^ b) (funit mb eb)) in *.
      assert (DK' : (v - lo <= hi - v)%Q).
      { rewrite (Qabs_pos (hi - v)) in DK by lra. rewrite (Qabs_neg (lo - v)) in DK by lra. lra. }
      assert (NE : is_nearest (mb + 1) v lo).
      { split.
        - apply (rep_wd _ (dy sig (funit mb eb + b))); [symmetry; apply dy_scale; auto|]. apply rep_dy; lia.
        - intros s R. rewrite (Qabs_neg (lo - v)) by lra. destruct (NR s R) as [C|C].
          + rewrite Qabs_neg by lra. lra.
          + rewrite Qabs_pos by lra. lra. }
      split; [exact NE|]. intros (s & R & SN & ST).
      assert (SL : (hi <= s)%Q).
      { destruct (NR s R) as [C|C]; [exfalso|auto]. rewrite !Qabs_neg in ST by lra. apply SN. lra. }
      rewrite (Qabs_neg (lo - v)), (Qabs_pos (s - v)) in ST by lra.
      assert (EK : Z.even k = true).
      { destruct (N2 (k + 1) ltac:(lia) ltac:(lia)) as [C|[_ C]]; [exfalso|auto]. rewrite U0, U1 in C.
        assert (W : (Qabs (hi - v) <= Qabs (lo - v))%Q). { rewrite (Qabs_pos (hi - v)), (Qabs_neg (lo - v)) by lra. lra. }
        unfold lo, hi in W. apply dist_le in W. lia. }
      assert (VH : (v < hi)%Q).
      { assert (lo < hi)%Q; [|lra]. unfold lo, hi. apply dy_lt. pose proof (Z.pow_pos_nonneg 2 b). nia. }
      exists sig, (funit mb eb + b). rewrite PT, P2. rewrite (Qabs_pos v) by (assert (0 <= dy T (funit mb eb))%Q by (apply dy_nonneg; lia); lra). split; [split|split].
      + apply Qle_trans with lo; [|auto]. unfold lo. rewrite dy_scale by auto. apply dy_le. lia.
      + apply Qlt_le_trans with hi; [auto|]. unfold hi. rewrite dy_scale by auto. apply dy_le. lia.
      + congruence.
      + apply dy_scale. auto.
  Qed.
End Normal.
