(** Lemmas about machine floats: the values of bit patterns, rounding to
    nearest, [ldexp]. *)
From Coq Require Import ZArith QArith List Lia Bool.
From Verif Require Import Words NatFacts2 Ieee SpecRat.
Open Scope Z_scope.

(** [nearest] for a number [X / q] given in units. *)
Definition near (mb eb X q k : Z) : Prop :=
  0 <= k <= finf mb eb /\
  forall j, 0 <= j <= finf mb eb -> j <> k ->
    Z.abs (X - q * funits mb k) < Z.abs (X - q * funits mb j) \/
    (Z.abs (X - q * funits mb k) = Z.abs (X - q * funits mb j) /\ Z.even k = true).
Lemma nearest_near mb eb p q k : nearest mb eb p q k <-> near mb eb (p * 2 ^ (- funit mb eb)) q k.
Proof. reflexivity. Qed.
Lemma near_scale mb eb X q k d : 0 < d -> near mb eb (X * d) (q * d) k <-> near mb eb X q k.
Proof.
  intros Hd. unfold near.
  assert (S : forall j, Z.abs (X * d - q * d * funits mb j) = Z.abs (X - q * funits mb j) * d).
  { intros j. replace (X * d - q * d * funits mb j) with ((X - q * funits mb j) * d) by ring.
    rewrite Z.abs_mul, (Z.abs_eq d) by lia. reflexivity. }
  split; intros [A B]; (split; [auto|]); intros j Hj Nj; specialize (B j Hj Nj); rewrite !S in *;
    (destruct B as [B|[B E]]; [left; nia|right; split; [nia|exact E]]).
Qed.

Section Format.
  Variables mb eb : Z.
  Hypothesis Hmb : 1 <= mb.
  Hypothesis Heb : 2 <= eb.
  Notation T := (2 ^ mb).
  Notation u := (funits mb).

  Lemma T_even : exists h, T = 2 * h /\ 1 <= h.
  Proof.
    exists (2 ^ (mb - 1)). split.
    - rewrite <- Z.pow_succ_r by lia. f_equal. lia.
    - pose proof (Z.pow_pos_nonneg 2 (mb - 1)). lia.
  Qed.
  Lemma T_pos : 2 <= T. Proof. destruct T_even as (h & E & H). lia. Qed.

  (** Patterns as significand and binade. *)
  Definition sig_ok (sig c : Z) : Prop := 0 <= c /\ 0 <= sig /\ (c = 0 \/ T <= sig).
  Lemma units_pattern sig c : sig_ok sig c -> sig <= 2 * T -> u (sig + c * T) = sig * 2 ^ c.
  Proof.
    intros (Hc & Hs & Hl) Hu. pose proof T_pos as TP. unfold funits.
    destruct (Z.lt_ge_cases sig T) as [L|L].
    - assert (c = 0) by lia. subst c. rewrite Z.mul_0_l, Z.add_0_r, Z.div_small by lia. cbn [Z.eqb]. rewrite Z.pow_0_r. lia.
    - destruct (Z.eq_dec sig (2 * T)) as [->|N].
      + replace (2 * T + c * T) with ((c + 2) * T) by ring. rewrite Z.div_mul, Z.mod_mul by lia.
        destruct (Z.eqb_spec (c + 2) 0); [lia|]. replace (c + 2 - 1) with (Z.succ c) by lia.
        rewrite Z.pow_succ_r by lia. ring.
      + replace (sig + c * T) with ((sig - T) + (c + 1) * T) by ring.
        rewrite Z.div_add, Z.mod_add, Z.div_small, Z.mod_small by lia. rewrite Z.add_0_l.
        destruct (Z.eqb_spec (c + 1) 0); [lia|]. replace (c + 1 - 1) with c by lia. f_equal. lia.
  Qed.
  Lemma pattern_split k : 0 <= k -> exists sig c, sig_ok sig c /\ sig < 2 * T /\ k = sig + c * T.
  Proof.
    intros Hk. pose proof T_pos as TP. destruct (Z.lt_ge_cases k (2 * T)) as [L|L].
    - exists k, 0. split; [split; [lia|split; [lia|auto]]|]. split; [auto|lia].
    - pose proof (Z.mod_pos_bound k T). pose proof (Z.div_mod k T).
      assert (2 <= k / T) by (apply Z.div_le_lower_bound; lia).
      exists (k mod T + T), (k / T - 1). split; [split; [lia|split; [lia|right; lia]]|]. split; [lia|].
      nia.
  Qed.
  Lemma units_nonneg k : 0 <= k -> 0 <= u k.
  Proof.
    intros H. destruct (pattern_split k H) as (sig & c & O & L & ->). rewrite units_pattern by (auto; lia).
    destruct O as (? & ? & _). pose proof (Z.pow_pos_nonneg 2 c). nia.
  Qed.
  Lemma units_step k : 0 <= k -> u k < u (k + 1).
  Proof.
    intros H. destruct (pattern_split k H) as (sig & c & O & L & ->).
    replace (sig + c * T + 1) with ((sig + 1) + c * T) by ring.
    assert (O' : sig_ok (sig + 1) c) by (destruct O as (? & ? & ?); repeat split; lia).
    rewrite !units_pattern by (auto; lia).
    destruct O as (? & ? & _). pose proof (Z.pow_pos_nonneg 2 c). nia.
  Qed.
  Lemma units_mono j k : 0 <= j -> j < k -> u j < u k.
  Proof.
    intros Hj Hk. replace k with (j + 1 + Z.of_nat (Z.to_nat (k - j - 1))) by lia.
    generalize (Z.to_nat (k - j - 1)). intros n. induction n as [|n IH].
    - rewrite Z.add_0_r. apply units_step. auto.
    - replace (j + 1 + Z.of_nat (S n)) with (j + 1 + Z.of_nat n + 1) by lia.
      eapply Z.lt_trans; [exact IH|]. apply units_step. lia.
  Qed.
  Lemma units_inj j k : 0 <= j -> 0 <= k -> u j = u k -> j = k.
  Proof.
    intros Hj Hk E. destruct (Z.lt_total j k) as [L|[L|L]]; [|auto|].
    - pose proof (units_mono j k Hj L). lia.
    - pose proof (units_mono k j Hk L). lia.
  Qed.
  Lemma units_le j k : 0 <= j -> j <= k -> u j <= u k.
  Proof. intros Hj L. destruct (Z.eq_dec j k) as [->|]; [lia|]. pose proof (units_mono j k Hj). lia. Qed.
  (** Values in a binade and above are multiples of its spacing. *)
  Lemma units_multiple j c : 0 <= j -> 0 <= c -> c = 0 \/ T * 2 ^ c <= u j -> exists t, u j = t * 2 ^ c.
  Proof.
    intros Hj Hc H. destruct (pattern_split j Hj) as (sig & c' & O & L & ->). rewrite units_pattern in * by (auto; lia).
    destruct O as (Hc' & Hs & _). destruct (Z.lt_ge_cases c' c) as [LC|LC].
    - exfalso. destruct H as [->|H]; [lia|].
      assert (2 ^ c = 2 ^ (c - c' - 1) * 2 * 2 ^ c').
      { rewrite <- (Z.pow_1_r 2) at 3. rewrite <- !Z.pow_add_r by lia. f_equal. lia. }
      pose proof (Z.pow_pos_nonneg 2 (c - c' - 1)). pose proof (Z.pow_pos_nonneg 2 c'). nia.
    - exists (sig * 2 ^ (c' - c)). rewrite <- Z.mul_assoc, <- Z.pow_add_r by lia. do 2 f_equal. lia.
  Qed.

  Lemma even_pattern sig c : Z.even (sig + c * T) = Z.even sig.
  Proof.
    destruct T_even as (h & E & _). rewrite E, Z.even_add, !Z.even_mul. cbn [Z.even orb].
    rewrite orb_true_r. destruct (Z.even sig); reflexivity.
  Qed.

  (** The rounding rule in one binade gives the nearest pattern. *)
  Lemma near_intro X q sig c : 0 < q -> 0 <= X -> sig_ok sig c -> sig <= 2 * T ->
    (c = 0 \/ q * (T * 2 ^ c) <= X) ->
    2 * Z.abs (X - q * (sig * 2 ^ c)) <= q * 2 ^ c ->
    (2 * Z.abs (X - q * (sig * 2 ^ c)) = q * 2 ^ c -> Z.even sig = true) ->
    sig + c * T <= finf mb eb ->
    near mb eb X q (sig + c * T).
  Proof.
    intros Hq HX O Hu HL HD HE HF. pose proof T_pos as TP.
    assert (Hc : 0 <= c) by (destruct O; auto). assert (PC : 0 < 2 ^ c) by (apply Z.pow_pos_nonneg; lia).
    assert (K0 : 0 <= sig + c * T) by (destruct O as (? & ? & _); nia).
    assert (M : forall t, t <> sig -> Z.abs (X - q * (sig * 2 ^ c)) <= Z.abs (X - q * (t * 2 ^ c)) /\
                 (Z.abs (X - q * (sig * 2 ^ c)) = Z.abs (X - q * (t * 2 ^ c)) -> Z.even sig = true)).
    { intros t Nt. set (D := X - q * (sig * 2 ^ c)) in *. set (Q := q * 2 ^ c) in *.
      assert (0 < Q) by (unfold Q; nia).
      replace (X - q * (t * 2 ^ c)) with (D + (sig - t) * Q) by (unfold D, Q; ring).
      assert (B : Q <= Z.abs ((sig - t) * Q)) by (rewrite Z.abs_mul, (Z.abs_eq Q) by lia; nia).
      pose proof (Z.abs_triangle (D + (sig - t) * Q) (- D)) as Tr.
      replace (D + (sig - t) * Q + - D) with ((sig - t) * Q) in Tr by ring. rewrite Z.abs_opp in Tr.
      split; [lia|]. intros E. apply HE. lia. }
    split; [lia|]. intros j [Hj0 Hj1] Nj. rewrite units_pattern by auto. rewrite even_pattern.
    assert (DEC : (c = 0 \/ T * 2 ^ c <= u j) \/ (0 < c /\ u j < T * 2 ^ c)) by lia.
    destruct DEC as [HJ|[C0 HJ]].
    - destruct (units_multiple j c Hj0 Hc HJ) as [t Et].
      assert (Nt : t <> sig).
      { intros ->. apply Nj. apply units_inj; auto. rewrite Et, units_pattern by auto. reflexivity. }
      rewrite Et. destruct (M t Nt) as [M1 M2].
      destruct (Z.eq_dec (Z.abs (X - q * (sig * 2 ^ c))) (Z.abs (X - q * (t * 2 ^ c)))); [right; auto|left; lia].
    - left. destruct HL as [|HL]; [lia|].
      assert (X - q * (T * 2 ^ c) < Z.abs (X - q * u j)) by (rewrite Z.abs_eq; nia).
      destruct (Z.eq_dec T sig) as [<-|NT]; [rewrite Z.abs_eq by lia; auto|].
      destruct (M T NT) as [M1 _]. rewrite (Z.abs_eq (X - q * (T * 2 ^ c))) in M1 by lia. lia.
  Qed.

  Lemma finf_pos : 3 * T <= finf mb eb.
  Proof.
    unfold finf. pose proof T_pos. assert (2 ^ 2 <= 2 ^ eb) by (apply Z.pow_le_mono_r; lia).
    change (2 ^ 2) with 4 in *. nia.
  Qed.
  Lemma finf_pattern : finf mb eb = T + (2 ^ eb - 2) * T.
  Proof. unfold finf. ring. Qed.
  Lemma units_finf : u (finf mb eb) = T * 2 ^ (2 ^ eb - 2).
  Proof.
    assert (2 ^ 2 <= 2 ^ eb) by (apply Z.pow_le_mono_r; lia). change (2 ^ 2) with 4 in *. pose proof T_pos.
    rewrite finf_pattern, units_pattern by (try split; lia). reflexivity.
  Qed.
  (** Overflow. *)
  Lemma near_inf X q : 0 < q -> q * u (finf mb eb) <= X -> near mb eb X q (finf mb eb).
  Proof.
    intros Hq H. pose proof finf_pos. pose proof T_pos. split; [lia|]. intros j [Hj0 Hj1] Nj. left.
    assert (u j < u (finf mb eb)) by (apply units_mono; lia). rewrite !Z.abs_eq; nia.
  Qed.
  (** Monotony: rounding cannot jump over a representable value. *)
  Lemma near_le X q k p : 0 < q -> near mb eb X q k -> 0 <= p <= finf mb eb -> X <= q * u p -> k <= p.
  Proof.
    intros Hq [HK N] Hp HX. destruct (Z.le_gt_cases k p) as [|G]; [auto|exfalso].
    specialize (N p Hp ltac:(lia)). assert (u p < u k) by (apply units_mono; lia).
    assert (q * u p < q * u k) by nia.
    rewrite (Z.abs_neq (X - q * u k)), (Z.abs_neq (X - q * u p)) in N by lia. lia.
  Qed.
  Lemma near_ge X q k p : 0 < q -> near mb eb X q k -> 0 <= p <= finf mb eb -> q * u p <= X -> p <= k.
  Proof.
    intros Hq [HK N] Hp HX. destruct (Z.le_gt_cases p k) as [|G]; [auto|exfalso].
    specialize (N p Hp ltac:(lia)). assert (u k < u p) by (apply units_mono; lia).
    assert (q * u k < q * u p) by nia.
    rewrite (Z.abs_eq (X - q * u k)), (Z.abs_eq (X - q * u p)) in N by lia. lia.
  Qed.
  Lemma near_exact X q k p : 0 < q -> near mb eb X q k -> 0 <= p <= finf mb eb -> X = q * u p -> k = p.
  Proof.
    intros Hq N Hp E. pose proof (near_le X q k p Hq N Hp ltac:(lia)). pose proof (near_ge X q k p Hq N Hp ltac:(lia)). lia.
  Qed.
  Lemma near_unique_lt X q a b : 0 < q -> near mb eb X q a -> near mb eb X q b -> a < b -> False.
  Proof.
    intros Hq [Ha Na] [Hb Nb] L. specialize (Nb a Ha ltac:(lia)).
    pose proof (Na b Hb ltac:(lia)) as Nab.
    assert (E : Z.abs (X - q * u a) = Z.abs (X - q * u b)) by lia.
    assert (Ea : Z.even a = true) by (destruct Nab as [?|[_ ?]]; [lia|auto]).
    assert (Eb : Z.even b = true) by (destruct Nb as [?|[_ ?]]; [lia|auto]).
    assert (a + 1 < b).
    { destruct (Z.eq_dec (a + 1) b) as [<-|]; [|lia]. rewrite Z.even_add, Ea in Eb. discriminate. }
    pose proof (units_mono a (a + 1) ltac:(lia) ltac:(lia)). pose proof (units_mono (a + 1) b ltac:(lia) ltac:(lia)).
    specialize (Na (a + 1) ltac:(lia) ltac:(lia)).
    assert (q * u a < q * u (a + 1)) by nia. assert (q * u (a + 1) < q * u b) by nia. lia.
  Qed.
  Lemma near_unique X q k k' : 0 < q -> near mb eb X q k -> near mb eb X q k' -> k = k'.
  Proof.
    intros Hq A B. destruct (Z.lt_total k k') as [L|[L|L]]; [exfalso|auto|exfalso].
    - exact (near_unique_lt X q k k' Hq A B L).
    - exact (near_unique_lt X q k' k Hq B A L).
  Qed.

  (** The same with the cut at infinity. *)
  Lemma near_round X q sig c : 0 < q -> 0 <= X -> sig_ok sig c -> sig <= 2 * T ->
    (c = 0 \/ q * (T * 2 ^ c) <= X) ->
    2 * Z.abs (X - q * (sig * 2 ^ c)) <= q * 2 ^ c ->
    (2 * Z.abs (X - q * (sig * 2 ^ c)) = q * 2 ^ c -> Z.even sig = true) ->
    near mb eb X q (Z.min (sig + c * T) (finf mb eb)).
  Proof.
    intros Hq HX O Hu HL HD HE. destruct (Z.le_gt_cases (sig + c * T) (finf mb eb)) as [L|L].
    - rewrite Z.min_l by auto. apply near_intro; auto.
    - rewrite Z.min_r by lia. apply near_inf; auto. rewrite units_finf. rewrite finf_pattern in L. pose proof T_pos as TP.
      assert (2 ^ 2 <= 2 ^ eb) by (apply Z.pow_le_mono_r; lia). change (2 ^ 2) with 4 in *.
      assert (2 ^ eb - 2 <= c) by nia. destruct HL as [->|HL]; [lia|].
      assert (2 ^ (2 ^ eb - 2) <= 2 ^ c) by (apply Z.pow_le_mono_r; lia). nia.
  Qed.

  Lemma half_even_spec m s : 0 <= m -> 0 <= s ->
    0 <= half_even m s /\ m / 2 ^ s <= half_even m s <= m / 2 ^ s + 1 /\
    2 * Z.abs (m - half_even m s * 2 ^ s) <= 2 ^ s /\
    (2 * Z.abs (m - half_even m s * 2 ^ s) = 2 ^ s -> Z.even (half_even m s) = true).
  Proof.
    intros Hm Hs. unfold half_even. assert (P : 0 < 2 ^ s) by (apply Z.pow_pos_nonneg; lia).
    pose proof (Z.div_mod m (2 ^ s)) as E. pose proof (Z.mod_pos_bound m (2 ^ s)) as B.
    pose proof (Z.div_pos m (2 ^ s) Hm P). set (q := m / 2 ^ s) in *. set (r := m mod 2 ^ s) in *.
    assert (E1 : m - q * 2 ^ s = r) by lia. assert (E2 : m - (q + 1) * 2 ^ s = r - 2 ^ s) by lia.
    destruct (Z.ltb_spec (2 * r) (2 ^ s)); [rewrite E1; lia|].
    destruct (Z.ltb_spec (2 ^ s) (2 * r)); [rewrite E2; lia|].
    destruct (Z.even q) eqn:Ev; [rewrite E1, Ev|rewrite E2, Z.even_add, Ev]; (split; [lia|]; split; [lia|]; split; [lia|reflexivity]).
  Qed.

  Notation U := (funit mb eb).
  Lemma fround_near m e N : 0 <= m -> 0 <= N -> 0 <= e - U + N ->
    near mb eb (m * 2 ^ (e - U + N)) (2 ^ N) (fround mb eb m e).
  Proof.
    intros Hm HN HeN. pose proof T_pos as TP. assert (PN : 0 < 2 ^ N) by (apply Z.pow_pos_nonneg; lia).
    assert (PE : 0 < 2 ^ (e - U + N)) by (apply Z.pow_pos_nonneg; lia).
    pose proof finf_pos as FP.
    unfold fround. destruct (Z.eqb_spec m 0) as [->|M0].
    { rewrite Z.mul_0_l. apply (near_intro 0 (2 ^ N) 0 0); try lia; repeat split; lia. }
    cbv zeta. set (s := Z.max (Z.log2 m - mb + e) U).
    pose proof (Z.log2_spec m ltac:(lia)) as [L1 L2]. pose proof (Z.log2_nonneg m) as L0.
    assert (Hs : s = U /\ Z.log2 m - mb + e <= U \/ s = Z.log2 m - mb + e /\ U <= s) by (unfold s; lia).
    assert (SU : U <= s) by (unfold s; lia). clearbody s.
    set (l := Z.log2 m) in *.
    assert (LOW : s - U = 0 \/ 2 ^ N * (T * 2 ^ (s - U)) <= m * 2 ^ (e - U + N)).
    { destruct Hs as [[-> _]|[Es _]]; [left; lia|right].
      replace (2 ^ N * (T * 2 ^ (s - U))) with (2 ^ l * 2 ^ (e - U + N)); [nia|].
      rewrite <- !Z.pow_add_r by lia. f_equal. lia. }
    assert (X0 : 0 <= m * 2 ^ (e - U + N)) by nia.
    destruct (Z.leb_spec s e) as [LE|GT].
    - assert (PS : 0 < 2 ^ (e - s)) by (apply Z.pow_pos_nonneg; lia).
      assert (EX : 2 ^ N * (m * 2 ^ (e - s) * 2 ^ (s - U)) = m * 2 ^ (e - U + N)).
      { replace (e - U + N) with (N + (e - s) + (s - U)) by lia. rewrite !Z.pow_add_r by lia. ring. }
      assert (U1 : m * 2 ^ (e - s) <= 2 * T).
      { assert (2 ^ Z.succ l * 2 ^ (e - s) <= 2 * T); [|nia].
        rewrite <- Z.pow_add_r, <- Z.pow_succ_r by lia. apply Z.pow_le_mono_r; lia. }
      assert (OK : sig_ok (m * 2 ^ (e - s)) (s - U)).
      { split; [lia|split; [nia|]]. destruct Hs as [[-> _]|[Es _]]; [left; lia|right].
        assert (2 ^ l * 2 ^ (e - s) = T) by (rewrite <- Z.pow_add_r by lia; f_equal; lia). nia. }
      assert (PX : 0 < 2 ^ N * 2 ^ (s - U)) by (apply Z.mul_pos_pos; [lia|apply Z.pow_pos_nonneg; lia]).
      apply near_round; auto; rewrite ?EX, ?Z.sub_diag; change (Z.abs 0) with 0; [lia|intros; exfalso; lia].
    - destruct (half_even_spec m (s - e)) as (A0 & A1 & A2 & A3); [lia|lia|]. set (h := half_even m (s - e)) in *. clearbody h.
      assert (EX : 2 ^ N * 2 ^ (s - U) = 2 ^ (e - U + N) * 2 ^ (s - e)) by (rewrite <- !Z.pow_add_r by lia; f_equal; lia).
      assert (PS : 0 < 2 ^ (s - e)) by (apply Z.pow_pos_nonneg; lia).
      assert (DX : Z.abs (m * 2 ^ (e - U + N) - 2 ^ N * (h * 2 ^ (s - U))) = Z.abs (m - h * 2 ^ (s - e)) * 2 ^ (e - U + N)).
      { replace (2 ^ N * (h * 2 ^ (s - U))) with (h * (2 ^ N * 2 ^ (s - U))) by ring. rewrite EX.
        rewrite <- (Z.abs_eq (2 ^ (e - U + N))) at 3 by lia. rewrite <- Z.abs_mul. f_equal. ring. }
      assert (UP : m / 2 ^ (s - e) < 2 * T).
      { apply Z.div_lt_upper_bound; [lia|]. eapply Z.lt_le_trans; [apply L2|].
        rewrite <- Z.pow_succ_r, <- Z.pow_add_r by lia. apply Z.pow_le_mono_r; lia. }
      assert (OK : sig_ok h (s - U)).
      { split; [lia|split; [lia|]]. destruct Hs as [[-> _]|[Es _]]; [left; lia|right].
        enough (T <= m / 2 ^ (s - e)) by lia. apply Z.div_le_lower_bound; [lia|].
        rewrite <- Z.pow_add_r by lia. replace (s - e + mb) with l by lia. auto. }
      apply near_round; auto; rewrite ?DX, ?EX; [lia|nia|].
      intros E. apply A3. nia.
  Qed.

  Lemma fround_range m e : 0 <= m -> 0 <= fround mb eb m e <= finf mb eb.
  Proof. intros H. apply (fround_near m e (Z.max 0 (U - e))); lia. Qed.

  (** Rounding depends on the value only. *)
  Lemma fround_value m e m' e' N : 0 <= m -> 0 <= m' -> 0 <= N -> 0 <= e - U + N -> 0 <= e' - U + N ->
    m * 2 ^ (e - U + N) = m' * 2 ^ (e' - U + N) -> fround mb eb m e = fround mb eb m' e'.
  Proof.
    intros Hm Hm' HN H1 H2 E. pose proof (fround_near m e N Hm HN H1) as A. pose proof (fround_near m' e' N Hm' HN H2) as B.
    rewrite <- E in B. eapply near_unique; eauto. apply Z.pow_pos_nonneg; lia.
  Qed.
  Lemma fround_shift m e d : 0 <= m -> 0 <= d -> fround mb eb (m * 2 ^ d) e = fround mb eb m (e + d).
  Proof.
    intros Hm Hd. assert (0 < 2 ^ d) by (apply Z.pow_pos_nonneg; lia).
    apply (fround_value _ _ _ _ (Z.max 0 (U - e))); try nia; try lia.
    rewrite <- Z.mul_assoc, <- Z.pow_add_r by lia. do 2 f_equal. lia.
  Qed.
  (** Representable values are kept; too large ones give infinity. *)
  Lemma fround_exact sig c : sig_ok sig c -> sig <= 2 * T ->
    fround mb eb sig (c + U) = Z.min (sig + c * T) (finf mb eb).
  Proof.
    intros O Hu. assert (O' := O). destruct O' as (Hc & Hs & _). pose proof T_pos as TP. pose proof finf_pos.
    pose proof (fround_near sig (c + U) 0 Hs ltac:(lia) ltac:(lia)) as N.
    replace (c + U - U + 0) with c in N by lia. change (2 ^ 0) with 1 in N.
    destruct (Z.le_gt_cases (sig + c * T) (finf mb eb)) as [L|L].
    - rewrite Z.min_l by auto. apply (near_exact (sig * 2 ^ c) 1); [lia|exact N|nia|]. rewrite units_pattern by auto. lia.
    - rewrite Z.min_r by lia. pose proof (fround_range sig (c + U) Hs).
      enough (finf mb eb <= fround mb eb sig (c + U)) by lia.
      eapply near_ge; eauto; try lia. rewrite units_finf. rewrite finf_pattern in L.
      assert (2 ^ 2 <= 2 ^ eb) by (apply Z.pow_le_mono_r; lia). change (2 ^ 2) with 4 in *.
      assert (C : 2 ^ eb - 2 <= c) by nia. destruct O as (_ & _ & [->|O]); [lia|].
      assert (2 ^ (2 ^ eb - 2) <= 2 ^ c) by (apply Z.pow_le_mono_r; lia). nia.
  Qed.
  (** Half a unit and less is rounded to zero. *)
  Lemma fround_tiny m e N : 0 <= m -> 0 <= N -> 0 <= e - U + N -> 2 * (m * 2 ^ (e - U + N)) <= 2 ^ N ->
    fround mb eb m e = 0.
  Proof.
    intros Hm HN HE L. pose proof (fround_near m e N Hm HN HE) as A.
    assert (P : 0 < 2 ^ N) by (apply Z.pow_pos_nonneg; lia). pose proof finf_pos. pose proof T_pos.
    assert (B : near mb eb (m * 2 ^ (e - U + N)) (2 ^ N) 0); [|eapply near_unique; eauto].
    assert (0 <= m * 2 ^ (e - U + N)) by (pose proof (Z.pow_pos_nonneg 2 (e - U + N)); nia).
    set (X := m * 2 ^ (e - U + N)) in *. clearbody X.
    apply (near_intro X (2 ^ N) 0 0); try lia; try (repeat split; lia); rewrite Z.pow_0_r; cbn [Z.mul]; try lia.
  Qed.
  Lemma fround_large m e N : 0 <= m -> 0 <= N -> 0 <= e - U + N -> 2 ^ N * (T * 2 ^ (2 ^ eb - 2)) <= m * 2 ^ (e - U + N) ->
    fround mb eb m e = finf mb eb.
  Proof.
    intros Hm HN HE L. pose proof (fround_near m e N Hm HN HE) as A. pose proof finf_pos. pose proof T_pos.
    assert (P : 0 < 2 ^ N) by (apply Z.pow_pos_nonneg; lia). pose proof (fround_range m e Hm).
    enough (finf mb eb <= fround mb eb m e) by lia. eapply near_ge; eauto; [lia|]. rewrite units_finf. auto.
  Qed.

  (** The value of a pattern through [fsig] and [fexp]. *)
  Lemma sig_exp k : 0 <= k -> U <= fexp mb eb k /\ 0 <= fsig mb k /\ fsig mb k * 2 ^ (fexp mb eb k - U) = u k.
  Proof.
    intros Hk. unfold fexp, fsig, funits. pose proof T_pos as TP. pose proof (Z.div_pos k T Hk ltac:(lia)).
    pose proof (Z.mod_pos_bound k T). destruct (Z.eqb_spec (k / T) 0) as [->|N].
    - change (Z.max 0 1) with 1. split; [lia|]. split; [lia|]. replace (1 - 1 + U - U) with 0 by lia. rewrite Z.pow_0_r. lia.
    - rewrite Z.max_l by lia. split; [lia|]. split; [lia|]. f_equal. f_equal. lia.
  Qed.
  Lemma fround_pattern k : 0 <= k <= finf mb eb -> fround mb eb (fsig mb k) (fexp mb eb k) = k.
  Proof.
    intros Hk. destruct (sig_exp k) as (A & B & C); [lia|].
    pose proof (fround_near (fsig mb k) (fexp mb eb k) 0 B ltac:(lia) ltac:(lia)) as N.
    rewrite Z.add_0_r, C in N. change (2 ^ 0) with 1 in N. eapply near_exact; eauto; lia.
  Qed.
End Format.
