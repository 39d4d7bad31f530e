(** Which Float every text becomes: property C125. *)
From Coq Require Import Ascii String ZArith QArith List Bool Lia.
From Verif Require Import Words WordsFacts Spec SpecText NatModel NatFacts NatConv NatConvFacts BigInt SpecInt BigIntFacts BigIntFacts4
  Rat SpecRat RatFacts RatFacts4 Float SpecFloat Decimal DecimalFacts4 Properties_Errors FromRatFacts Properties_FromRat SpecFloatText.
Import ListNotations.
Open Scope Z_scope.
Open Scope list_scope.

(** The cases of C124: a Rat that is not NaN as a Float. *)
Definition rat_as_float (s : bool) (m : Z) (t : bool) (n : Z) (z : float) : Prop :=
  if (m =? 0) || (negb t && (n =? 1)) then integer_as_float s m z
  else if 2 ^ max_exp <=? m then flform z = Nan
  else if n =? 0 then flform z = Inf /\ flneg z = xorb s t
  else if 2 ^ max_exp <=? n then flform z = Zero /\ flneg z = xorb s t
  else far_quotient (xorb s t) m n z.
Lemma rat_float s m t n : 0 <= m -> 0 <= n -> exists z, fl_from_rat (mk s m t n) = Ok z /\ rat_as_float s m t n z.
Proof. exact (C124_rat s m t n). Qed.

Lemma reads_parse s o : reads s o -> exists x, b_from_str s = Some x /\ match o with Some n => x = zint n | None => bnat x = nan end.
Proof.
  destruct o as [n|]; cbn [reads]; intros H; [exists (zint n); split; [apply int_text_parse; auto|reflexivity]|].
  destruct H as (t & base & N & [T|(u & T & U)]); rewrite (b_from_str_eq _ _ T).
  - pose proof (numeral_not_minus t base [] N) as NM. destruct t as [|c t]; [inversion N as [p s0 d A B C D|p c0 b s0 d A B C]; [congruence|]; destruct p; discriminate|].
    cbn [hd] in NM. destruct (Z.eqb_spec c 45); [lia|]. cbv zeta iota. rewrite (nat_from_str_complete (c :: t) (c :: t) base [] (trimmed_idem _ _ T) N). cbn [parsed]. eexists. split; [reflexivity|]. reflexivity.
  - change (45 =? 45) with true. cbv zeta iota. rewrite (nat_from_str_complete u t base [] U N). cbn [parsed]. eexists. split; [reflexivity|]. reflexivity.
Qed.
Lemma parse_reads s x : b_from_str s = Some x -> exists o, reads s o.
Proof.
  intros E. destruct (parse_int_text s x E) as [N|(n & I & _)]; [|exists (Some n); exact I]. exists None. cbn [reads].
  destruct (trimmed_exists s) as [t Ht]. rewrite (b_from_str_eq _ _ Ht) in E. destruct t as [|c u]; [discriminate|]. cbv zeta in E.
  destruct (nat_from_str (if c =? 45 then u else c :: u)) as [v|] eqn:F; [|discriminate].
  destruct (nat_from_str_sound _ _ F) as (t' & base & ds & T & NT & ->).
  assert (D : ds = []). { destruct ds as [|d ds]; [reflexivity|]. exfalso. cbn [parsed] in E. injection E as <-. revert N. unfold b_is_nan.
    assert (B0 : 0 <= be_value base (d :: ds)).
    { inversion NT as [p s0 d0 A B C D|p c0 b s0 d0 A B C]; subst.
      - apply be_value_bound; [lia|]. eapply digit_text_ok; [|exact B]. lia.
      - assert (0 < base) by (destruct B as [[-> _]|[[-> _]|[-> _]]]; lia). apply be_value_bound; [lia|]. eapply digit_text_ok; [|exact C]. lia. }
    cbn [bnat]. rewrite is_nan_of_Z by auto. discriminate. }
  subst ds. exists t', base. split; [exact NT|]. destruct (Z.eqb_spec c 45) as [->|N45]; [right; exists u; auto|left].
  replace t' with (c :: u); [exact Ht|]. rewrite <- (trim_ws_spec _ _ T). symmetry. apply trim_ws_spec, (trimmed_idem s). auto.
Qed.
Lemma parse_none s : b_from_str s = None <-> forall o, ~ reads s o.
Proof.
  split.
  - intros E o R. destruct (reads_parse s o R) as (x & E' & _). congruence.
  - intros H. destruct (b_from_str s) as [x|] eqn:E; [|reflexivity]. destruct (parse_reads s x E) as (o & R). exfalso. exact (H o R).
Qed.
Lemma text_bytes_len s : byte_len s = text_bytes s.
Proof.
  induction s as [|c s IH]; [reflexivity|]. cbn [byte_len fold_right text_bytes]. fold (byte_len s). rewrite IH. unfold utf8_len, bytes_of.
  destruct (Z.ltb_spec c 128), (Z.leb_spec 128 c), (Z.ltb_spec c 2048), (Z.leb_spec 2048 c), (Z.ltb_spec c 65536), (Z.leb_spec 65536 c); lia.
Qed.

Lemma bare_exp es e : b_from_str es = Some e -> bnat e = nan -> b_lt e (b_from_i64 min_exp) = false /\ b_lt (b_from_i64 max_exp) e = false /\ exp_value e = 0.
Proof.
  intros _ N. unfold b_lt, b_cmp, b_is_nan, exp_value. rewrite N. cbn [is_nan nan orb]. rewrite orb_true_r. split; [reflexivity|]. split; [reflexivity|]. cbn [rev nan fold_left]. destruct (bneg e); reflexivity.
Qed.
Lemma exp_of es (u : list Z) k : (exists c cs, es = c :: cs) ->
  (match b_from_str es with
   | None => None
   | Some e => if b_lt e (b_from_i64 min_exp) then None else if b_lt (b_from_i64 max_exp) e then None else Some (u, exp_value e)
   end = Some (u, k) <-> (int_text es k /\ min_exp <= k <= max_exp) \/ (bare_prefix es /\ k = 0)).
Proof.
  intros _. assert (I : forall n, int_text es n -> (match b_from_str es with
   | None => None
   | Some e => if b_lt e (b_from_i64 min_exp) then None else if b_lt (b_from_i64 max_exp) e then None else Some (u, exp_value e)
   end = if (n <? min_exp) || (max_exp <? n) then None else Some (u, n))).
  { intros n I. rewrite (int_text_parse _ _ I), !from_i64_zint, !zint_lt by (unfold min_exp, max_exp; lia). destruct (Z.ltb_spec n min_exp); [reflexivity|]. destruct (Z.ltb_spec max_exp n); [reflexivity|].
    cbn [orb]. rewrite exp_value_zint; [reflexivity|]. unfold min_exp, max_exp in *. lia. }
  split.
  - intros H. destruct (b_from_str es) as [e|] eqn:E; [|discriminate]. destruct (parse_reads es e E) as ([n|] & R).
    + left. cbn [reads] in R. rewrite (I n R) in H. destruct (Z.ltb_spec n min_exp); [discriminate|]. destruct (Z.ltb_spec max_exp n); [discriminate|]. cbn [orb] in H. injection H as <-. auto.
    + right. destruct (reads_parse es None R) as (e' & E' & N). assert (e' = e) by congruence. subst e'. destruct (bare_exp es e E N) as (A & B & C). rewrite A, B, C in H. injection H as <-. auto.
  - intros [(R & L)|(R & ->)].
    + rewrite (I k R). destruct (Z.ltb_spec k min_exp); [lia|]. destruct (Z.ltb_spec max_exp k); [lia|]. reflexivity.
    + destruct (reads_parse es None R) as (e & E & N). rewrite E. destruct (bare_exp es e E N) as (A & B & C). rewrite A, B, C. reflexivity.
Qed.
Lemma app_first c (u v u' v' : list Z) : ~ In c u -> ~ In c u' -> u ++ c :: v = u' ++ c :: v' -> u = u' /\ v = v'.
Proof. intros A B E. pose proof (find_char_app c u v A) as F. rewrite E, (find_char_app c u' v' B) in F. injection F as -> ->. auto. Qed.
Lemma split_exp_spec t u k : ~ (In 101 t /\ In 69 t) -> (split_exp t = Some (u, k) <-> before_exp min_exp max_exp t u k).
Proof.
  intros NB.
  assert (G : forall c p q, c = 101 \/ c = 69 -> t = p ++ c :: q -> ~ In c p ->
    (match q with [] => Some (t, 0) | _ :: _ => match b_from_str q with
       | None => None
       | Some e => if b_lt e (b_from_i64 min_exp) then None else if b_lt (b_from_i64 max_exp) e then None else Some (p, exp_value e)
       end end = Some (u, k) <-> before_exp min_exp max_exp t u k)).
  { intros c p q HC E NC. assert (IC : In c t) by (rewrite E; apply in_or_app; right; left; reflexivity).
    assert (OC : forall d, d = 101 \/ d = 69 -> In d t -> d = c) by (intros d HD ID; destruct HC, HD; subst; try reflexivity; exfalso; tauto). split.
    - destruct q as [|x q].
      + intros H. injection H as <- <-. exists c. split; [auto|]. left. split; [auto|]. split; [auto|]. right. exists p. auto.
      + intros H. assert (u = p) as -> by (destruct (b_from_str (x :: q)); [|discriminate]; destruct (b_lt _ _); [discriminate|]; destruct (b_lt _ _); [discriminate|]; injection H as <- _; reflexivity).
        apply exp_of in H; [|eauto]. exists c. split; [auto|]. right. exists (x :: q). split; [auto|]. split; [auto|]. split; [discriminate|auto].
    - intros (d & HD & [(-> & -> & H)|(es & E' & ND & NE & H)]).
      + destruct H as [(A & B)|(v & E' & ND)]; [exfalso; destruct HC; subst; auto|].
        assert (d = c) by (apply OC; [auto|rewrite E'; apply in_or_app; right; left; reflexivity]). subst d.
        rewrite E in E'. apply app_first in E'; auto. destruct E' as [_ ->]. reflexivity.
      + assert (d = c) by (apply OC; [auto|rewrite E'; apply in_or_app; right; left; reflexivity]). subst d.
        rewrite E in E'. apply app_first in E'; auto. destruct E' as [<- <-]. destruct q as [|x q]; [congruence|]. apply exp_of; [eauto|exact H]. }
  unfold split_exp. destruct (find_char 101 t) as [[p q]|] eqn:L.
  - apply find_char_inv in L. destruct L as [E L]. exact (G 101 p q (or_introl eq_refl) E L).
  - apply find_char_not in L. destruct (find_char 69 t) as [[p q]|] eqn:U.
    + apply find_char_inv in U. destruct U as [E U]. exact (G 69 p q (or_intror eq_refl) E U).
    + apply find_char_not in U. split.
      * intros H. injection H as <- <-. exists 101. split; [auto|]. left. auto.
      * intros (d & HD & [(-> & -> & _)|(es & E' & _)]); [reflexivity|]. exfalso. assert (In d t) by (rewrite E'; apply in_or_app; right; left; reflexivity). destruct HD; subst; auto.
Qed.
Lemma without_point_spec u nu f : (match find_char 46 u with Some (a, b) => (a ++ b, byte_len b) | None => (u, 0) end) = (nu, f) <-> without_point u nu f.
Proof.
  destruct (find_char 46 u) as [[a b]|] eqn:F.
  - apply find_char_inv in F. destruct F as [-> F]. rewrite text_bytes_len. split.
    + intros H. injection H as <- <-. right. exists a, b. auto.
    + intros [(A & _)|(p & q & E & N & -> & ->)]; [exfalso; apply A, in_or_app; right; left; reflexivity|]. apply app_first in E; auto. destruct E as [-> ->]. reflexivity.
  - apply find_char_not in F. split.
    + intros H. injection H as <- <-. left. auto.
    + intros [(_ & -> & ->)|(p & q & -> & _)]; [reflexivity|]. exfalso. apply F, in_or_app. right. left. reflexivity.
Qed.

(** ** C125 *)
(** The Float of the number [a] over 10 ^ n: the quotient in lowest terms is
    converted as in C124. *)
Definition fraction_as_float (a n : Z) (z : float) : Prop :=
  let g := Z.gcd a (10 ^ n) in rat_as_float (a <? 0) (Z.abs a / g) false (10 ^ n / g) z.
Lemma frac_form a b : 0 < b -> exists r, r_from_frac_bigint (zint a) (zint b) = Ok (Some r) /\ exists z, fl_from_rat r = Ok z /\
  let g := Z.gcd a b in rat_as_float (a <? 0) (Z.abs a / g) false (b / g) z.
Proof.
  intros B. destruct (Z.eq_dec a 0) as [->|A].
  - exists (mk false 0 false b). split.
    { unfold r_from_frac_bigint. rewrite zint_clone, zint_nat, zint_neg, of_Z_eq_u32, zint_abs by lia. destruct (Z.eqb_spec (Z.abs b) 0); [lia|]. destruct (Z.ltb_spec b 0); [lia|]. rewrite !Z.abs_eq by lia.
      unfold r_norm. cbn [rnum rden]. rewrite !zint_not_nan, !zint_nat, !of_Z_eq_u32 by lia. change (Z.abs 0 =? 0) with true. cbn [orb bind]. destruct (Z.eqb_spec (Z.abs b) 0); [lia|]. cbn [bind].
      unfold mk, zint. rewrite (Z.abs_eq b) by lia. destruct (Z.ltb_spec b 0); [lia|]. reflexivity. }
    destruct (rat_float false 0 false b ltac:(lia) ltac:(lia)) as (z & E & R). exists z. split; [exact E|]. cbv zeta. change (0 <? 0) with false. change (Z.abs 0) with 0. rewrite Z.div_0_l; [exact R|].
    rewrite Z.gcd_0_l. lia.
  - destruct (from_frac_bigint_spec a b ltac:(lia)) as (r & E & [OKr D] & _ & LO). specialize (LO A).
    destruct (lowest_inv r LO) as (s & m & n & Hm & Hn & G & Z0 & ->). rewrite rvalue_mk in D by lia. exists (mk s m false n). split; [exact E|].
    assert (DQ : sgv s m * b = a * n).
    { assert (X : (inject_Z (sgv s m) * inject_Z b == inject_Z a * inject_Z n)%Q).
      { assert (Y : (sgv s m # Z.to_pos n == inject_Z (sgv s m) / inject_Z n)%Q).
        { rewrite <- (Z2Pos.id n) at 2 by lia. rewrite Qmake_Qdiv. reflexivity. }
        rewrite Y in D. assert (NB : ~ (inject_Z b == 0)%Q) by (change 0%Q with (inject_Z 0); rewrite inject_Z_injective; lia).
        assert (NN : ~ (inject_Z n == 0)%Q) by (change 0%Q with (inject_Z 0); rewrite inject_Z_injective; lia).
        assert (F : (inject_Z (sgv s m) == inject_Z (sgv s m) / inject_Z n * inject_Z n)%Q) by (field; auto). rewrite F, D. field. auto. }
      rewrite <- !inject_Z_mult, inject_Z_injective in X. exact X. }
    assert (AS : Z.abs (sgv s m) = m) by (unfold sgv; destruct s; lia).
    assert (DM : m * b = Z.abs a * n) by (rewrite <- AS, <- (Z.abs_eq b), <- (Z.abs_eq n), <- !Z.abs_mul by lia; congruence).
    assert (Nm : m <> 0) by nia. assert (ES : s = (a <? 0)). { unfold sgv in DQ. destruct s, (Z.ltb_spec a 0); try reflexivity; nia. }
    assert (exists g, 0 < g /\ Z.abs a = g * m /\ b = g * n) as (g & G0 & EA & EB).
    { assert (Dn : (n | b)) by (apply (Z.gauss n m); [exists (Z.abs a); lia|rewrite Z.gcd_comm; auto]). destruct Dn as (g & EB). exists g. assert (0 < g) by nia. split; [auto|]. split; [|lia]. subst b. nia. }
    assert (EG : Z.gcd a b = g).
    { rewrite <- Z.gcd_abs_l, EA, EB, Z.gcd_mul_mono_l_nonneg, G by lia. lia. }
    destruct (rat_float s m false n ltac:(lia) ltac:(lia)) as (z & EZ & R). exists z. split; [exact EZ|]. cbv zeta. rewrite EG, EA, EB, (Z.mul_comm g m), (Z.mul_comm g n), !Z.div_mul by lia. subst s. exact R.
Qed.
Lemma nan_rat x b : bnat x = nan -> 0 < b -> exists r, r_from_frac_bigint x (zint b) = Ok (Some r) /\ r_is_nan r = true.
Proof.
  intros N B. unfold r_from_frac_bigint. rewrite zint_nat, zint_neg, of_Z_eq_u32, zint_abs by lia. destruct (Z.eqb_spec (Z.abs b) 0); [lia|]. destruct (Z.ltb_spec b 0); [lia|].
  unfold r_norm. cbn [rnum rden]. unfold b_is_nan at 1 2. unfold b_clone. cbn [bnat]. rewrite N. cbn [is_nan nan orb bind]. eexists. split; [reflexivity|]. unfold r_is_nan. cbn [rnum rden]. unfold b_is_nan. rewrite ?N. reflexivity.
Qed.
Lemma whole_nan x : bnat x = nan -> exists z, fl_from_bigint x = Ok z /\ flform z = Nan.
Proof. intros N. unfold fl_from_bigint, set_bigint, set_nat. rewrite N. cbn [is_nan nan]. eexists. split; reflexivity. Qed.

(** Every text that stands for a number gives that number, NaN for a bare
    prefix. *)
Theorem C125_value : forall s t o n, trimmed s t -> float_text min_exp max_exp t o n -> exists z, fl_from_str s = Ok (Some z) /\
  match o with
  | None => flform z = Nan
  | Some a => if n =? 0 then integer_as_float (a <? 0) (Z.abs a) z else fraction_as_float a n z
  end.
Proof.
  intros s t o n T [o' NE N46 NL NU R|u k nu f o' MK NB BE WP P R].
  - unfold fl_from_str. rewrite (trim_ws_spec _ _ T), !find_char_none by auto. destruct t as [|c t]; [congruence|]. destruct (reads_parse _ _ R) as (x & E & X). rewrite E. change (0 =? 0) with true.
    destruct o' as [a|].
    + subst x. destruct (C124_integer (a <? 0) (Z.abs a) ltac:(lia)) as (z & EZ & I). unfold zint. rewrite EZ. cbn [bind]. eauto.
    + destruct (whole_nan x X) as (z & EZ & F). rewrite EZ. cbn [bind]. eauto.
  - apply split_exp_spec in BE; [|exact NB]. apply without_point_spec in WP. destruct (reads_parse _ _ R) as (x & E & X).
    assert (V : fl_from_str s = do r <- r_from_frac_bigint x (zint (10 ^ (f - k))); match r with None => Ok None | Some r => do z <- fl_from_rat r; Ok (Some z) end).
    { unfold fl_from_str. rewrite (trim_ws_spec _ _ T), BE. destruct t as [|c t]; [cbn [In] in MK; tauto|]. set (w := c :: t) in *.
      assert (VC : (let '(nu, e) := match find_char 46 u with Some (a, b) => (a ++ b, k - byte_len b) | None => (u, k) end in
         let '(nu, de) := if e <? 0 then (nu, 49 :: repeat 48 (Z.to_nat (- e))) else (nu ++ repeat 48 (Z.to_nat e), []) in
         match b_from_str nu, b_from_str de with
         | Some n, Some d => do r <- r_from_frac_bigint n d; match r with None => Ok None | Some r => do z <- fl_from_rat r; Ok (Some z) end
         | _, _ => Ok None
         end) = do r <- r_from_frac_bigint x (zint (10 ^ (f - k))); match r with None => Ok None | Some r => do z <- fl_from_rat r; Ok (Some z) end).
      { assert (HE : match find_char 46 u with Some (a, b) => (a ++ b, k - byte_len b) | None => (u, k) end = (nu, k - f)).
        { destruct (find_char 46 u) as [[a b]|]; injection WP as <- <-; [reflexivity|]. rewrite Z.sub_0_r. reflexivity. }
        rewrite HE. destruct (Z.ltb_spec (k - f) 0); [|lia]. rewrite E, ten_text by lia. rewrite Z2Nat.id by lia. replace (- (k - f)) with (f - k) by lia. reflexivity. }
      destruct (find_char 101 w) as [[p1 q1]|] eqn:L; destruct (find_char 69 w) as [[p2 q2]|] eqn:U.
      - exfalso. apply NB. apply find_char_inv in L. apply find_char_inv in U. split; [destruct L as [-> _]|destruct U as [-> _]]; apply in_or_app; right; left; reflexivity.
      - destruct (find_char 46 w); exact VC.
      - destruct (find_char 46 w); exact VC.
      - destruct (find_char 46 w) eqn:D; [exact VC|]. apply find_char_not in L. apply find_char_not in U. apply find_char_not in D. tauto. }
    rewrite V. destruct (Z.eqb_spec (f - k) 0); [lia|]. assert (P10 : 0 < 10 ^ (f - k)) by (apply Z.pow_pos_nonneg; lia). destruct o' as [a|].
    + subst x. destruct (frac_form a (10 ^ (f - k)) P10) as (r & ER & z & EZ & FZ). rewrite ER. cbn [bind]. rewrite EZ. cbn [bind]. eauto.
    + destruct (nan_rat x (10 ^ (f - k)) X P10) as (r & ER & NR). rewrite ER. cbn [bind]. destruct (C124_nan r NR) as (z & EZ & FZ). rewrite EZ. cbn [bind]. eauto.
Qed.
(** All other texts are refused; nothing panics. *)
Theorem C125_refused : forall s t, trimmed s t -> (fl_from_str s = Ok None <-> forall o n, ~ float_text min_exp max_exp t o n).
Proof.
  intros s t T. split.
  - intros E o n F. destruct (C125_value s t o n T F) as (z & E' & _). congruence.
  - intros H. unfold fl_from_str. rewrite (trim_ws_spec _ _ T). destruct t as [|c t]; [reflexivity|]. set (w := c :: t) in *.
    assert (VC : In 46 w \/ In 101 w \/ In 69 w -> ~ (In 101 w /\ In 69 w) -> val_core w = Ok None).
    { intros MK NB. unfold val_core. destruct (split_exp w) as [[u k]|] eqn:S; [|reflexivity]. apply split_exp_spec in S; [|exact NB].
      destruct (match find_char 46 u with Some (a, b) => (a ++ b, byte_len b) | None => (u, 0) end) as [nu f] eqn:P. 
      assert (HE : match find_char 46 u with Some (a, b) => (a ++ b, k - byte_len b) | None => (u, k) end = (nu, k - f)).
      { destruct (find_char 46 u) as [[a b]|]; injection P as <- <-; [reflexivity|]. rewrite Z.sub_0_r. reflexivity. }
      apply without_point_spec in P. rewrite HE. destruct (Z.ltb_spec (k - f) 0) as [L|L].
      - assert (N : b_from_str nu = None). { apply parse_none. intros o R. apply (H o (f - k)). apply (ft_fraction _ _ w u k nu f o); auto. lia. }
        rewrite N. reflexivity.
      - change (b_from_str []) with (@None bigint). destruct (b_from_str (nu ++ repeat 48 (Z.to_nat (k - f)))); reflexivity. }
    destruct (find_char 101 w) as [[p1 q1]|] eqn:L; destruct (find_char 69 w) as [[p2 q2]|] eqn:U.
    + reflexivity.
    + apply find_char_inv in L. apply find_char_not in U. assert (I : In 101 w) by (destruct L as [-> _]; apply in_or_app; right; left; reflexivity). specialize (VC ltac:(tauto) ltac:(tauto)). destruct (find_char 46 w); exact VC.
    + apply find_char_not in L. apply find_char_inv in U. assert (I : In 69 w) by (destruct U as [-> _]; apply in_or_app; right; left; reflexivity). specialize (VC ltac:(tauto) ltac:(tauto)). destruct (find_char 46 w); exact VC.
    + apply find_char_not in L. apply find_char_not in U. destruct (find_char 46 w) as [[p q]|] eqn:D.
      * apply find_char_inv in D. assert (I : In 46 w) by (destruct D as [-> _]; apply in_or_app; right; left; reflexivity). exact (VC ltac:(tauto) ltac:(tauto)).
      * apply find_char_not in D. assert (N : b_from_str w = None). { apply parse_none. intros o R. apply (H o 0). apply ft_whole; auto. discriminate. } rewrite N. reflexivity.
Qed.

(** "12.5e-1" stands for 125 / 10 ^ 2; the Float is 2 ^ -96 and not 5/4.  "7"
    is exact, "0x" is NaN, "1.5e1" and "1e" are refused. *)
Example C125_case : float_text min_exp max_exp (str "12.5e-1") (Some 125) 2 /\
  (exists z, fl_from_str (str " 12.5e-1") = Ok (Some z) /\ flprec z = 64 /\ (flvalue z == dy 1 (-96))%Q) /\
  (exists z, fl_from_str (str "7") = Ok (Some z) /\ (flvalue z == inject_Z 7)%Q) /\
  (exists z, fl_from_str (str "0x") = Ok (Some z) /\ flform z = Nan) /\
  fl_from_str (str "1.5e1") = Ok None /\ fl_from_str (str "1e") = Ok None.
Proof.
  split; [|split; [|split; [|split; [|split; vm_compute; reflexivity]]]]; try (eexists; split; [vm_compute; reflexivity|]).
  - change 2 with (1 - -1). apply (ft_fraction _ _ _ (str "12.5") (-1) (str "125") 1); [left; vm_compute; tauto|vm_compute; intros [A B]; intuition discriminate| | |lia|].
    + exists 101. split; [auto|]. right. exists (str "-1"). split; [reflexivity|]. split; [vm_compute; intuition discriminate|]. split; [discriminate|]. left. split; [|vm_compute; split; discriminate].
      exists (str "1"), 10, [1]. split; [discriminate|]. split; [apply (nt_dec [] (str "1") [1]); [constructor|repeat constructor|discriminate|left; reflexivity]|]. right. exists (str "1"). split; [|split; [|reflexivity]]; exists [], []; (split; [reflexivity|split; [constructor|split; [constructor|right; split; reflexivity]]]).
    + right. exists (str "12"), (str "5"). split; [reflexivity|]. split; [vm_compute; intuition discriminate|]. split; reflexivity.
    + exists (str "125"), 10, [1; 2; 5]. split; [discriminate|]. split; [apply (nt_dec [] (str "125") [1; 2; 5]); [constructor|repeat constructor|discriminate|right; discriminate]|]. left. split; [|reflexivity]. exists [], []. split; [reflexivity|split; [constructor|split; [constructor|right; split; reflexivity]]].
  - split; vm_compute; reflexivity.
  - vm_compute. reflexivity.
  - reflexivity.
Qed.

Print Assumptions C125_value.
Print Assumptions C125_refused.
