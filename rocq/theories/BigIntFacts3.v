(** gcd, modular inverse and linear congruences of [BigInt]. *)
From Coq Require Import ZArith List Lia Bool Znumtheory.
From Verif Require Import Words Spec WordsFacts NatModel NatFacts NatFacts2 NatFacts3 NatFacts4 NatFacts5
  NatConv NatPow NatPowFacts BigInt SpecInt BigIntFacts BigIntFacts2.
Import ListNotations.
Open Scope Z_scope.

(** The result of the extended Euclid recursion: gcd, Bezout identity and the
    size of the coefficients. *)
Definition ext_ok (a b : Z) (out : res (bigint * bigint * bigint)) : Prop :=
  exists x y, out = Ok (zint (Z.gcd a b), zint x, zint y) /\ a * x + b * y = Z.gcd a b /\
    (0 < b -> ((b | a) /\ x = 0 /\ y = 1) \/
              (~ (b | a) /\ 2 * Z.gcd a b * Z.abs x <= b /\ 2 * Z.gcd a b * Z.abs y <= a)).

Lemma gcd_extend_zero f a : 0 <= a -> ext_ok a 0 (gcd_extend (S f) (zint a) (zint 0)).
Proof.
  intros Ha. exists 1, 0. cbn [gcd_extend]. rewrite zint_eq_u32 by lia. cbn [Z.eqb].
  rewrite Z.gcd_0_r, Z.abs_eq, zint_one, zint_zero by auto. split; [reflexivity|]. split; [lia|lia].
Qed.

Lemma gcd_extend_step f a b : 0 <= a -> 0 < b ->
  ext_ok b (a mod b) (gcd_extend f (zint b) (zint (a mod b))) ->
  ext_ok a b (gcd_extend (S f) (zint a) (zint b)).
Proof.
  intros Ha Hb (x & y & E & BZ & BD). cbn [gcd_extend]. rewrite zint_eq_u32 by lia.
  destruct (Z.eqb_spec b 0); [lia|].
  rewrite zint_rem, zint_div by lia. cbn [bind].
  rewrite Z.rem_mod_nonneg, Z.quot_div_nonneg by lia.
  rewrite E. cbn [bind]. rewrite zint_mul, zint_sub.
  assert (G : Z.gcd b (a mod b) = Z.gcd a b).
  { rewrite (Z.gcd_comm b), Z.gcd_mod by lia. apply Z.gcd_comm. }
  rewrite G in *. exists y, (x - a / b * y). split; [reflexivity|].
  pose proof (Z.div_mod a b ltac:(lia)) as DM. pose proof (Z.mod_pos_bound a b Hb) as MB.
  split; [nia|]. intros _.
  destruct (Z.eq_dec (a mod b) 0) as [E0|E0].
  - left. assert (b | a) by (apply Z.mod_divide; lia). split; [auto|].
    destruct f as [|f0]; [discriminate E|].
    cbn [gcd_extend] in E. rewrite E0, zint_eq_u32 in E by lia. cbn [Z.eqb] in E.
    rewrite zint_one, zint_zero in E.
    assert (Ex : zint 1 = zint x) by congruence. assert (Ey : zint 0 = zint y) by congruence.
    apply zint_inj in Ex, Ey.
    subst. lia.
  - right. assert (ND : ~ (b | a)) by (intros D; apply E0, Z.mod_divide; [lia|auto]).
    split; [auto|].
    assert (GP : 0 < Z.gcd a b).
    { pose proof (Z.gcd_nonneg a b). destruct (Z.eq_dec (Z.gcd a b) 0) as [Z0|]; [|lia].
      apply Z.gcd_eq_0_r in Z0. lia. }
    assert (DP : 0 <= a / b) by (apply Z.div_pos; lia).
    destruct (BD ltac:(lia)) as [(D1 & -> & ->)|(D1 & B1 & B2)].
    + (* the remainder divides b: it is the gcd and at most b/2 *)
      assert (GR : Z.gcd a b = a mod b).
      { rewrite <- G, Z.gcd_comm. apply Z.divide_gcd_iff; [lia|auto]. }
      rewrite GR. destruct D1 as [c Hc]. assert (2 <= c) by nia.
      replace (Z.abs (0 - a / b * 1)) with (a / b) by lia. change (Z.abs 1) with 1. nia.
    + split; [lia|].
      assert (Z.abs (x - a / b * y) <= Z.abs x + a / b * Z.abs y).
      { pose proof (Z.abs_triangle x (- (a / b * y))) as T. rewrite Z.abs_opp, Z.abs_mul in T.
        rewrite (Z.abs_eq (a / b)) in T by lia. replace (x + - (a / b * y)) with (x - a / b * y) in T by lia. lia. }
      set (g := Z.gcd a b) in *. set (q := a / b) in *.
      assert (q * (2 * g * Z.abs y) <= q * b) by (apply Z.mul_le_mono_nonneg_l; lia).
      assert (2 * g * Z.abs (x - q * y) <= 2 * g * (Z.abs x + q * Z.abs y)) by (apply Z.mul_le_mono_nonneg_l; lia).
      lia.
Qed.

Lemma gcd_extend_spec k : forall a b f, 0 <= a -> 0 <= b < 2 ^ Z.of_nat k -> (2 * k + 1 <= f)%nat ->
  ext_ok a b (gcd_extend f (zint a) (zint b)).
Proof.
  induction k as [|k IH]; intros a b f Ha Hb Hf.
  - change (2 ^ Z.of_nat 0) with 1 in Hb. replace b with 0 by lia.
    destruct f as [|f]; [lia|]. apply gcd_extend_zero; auto.
  - destruct f as [|f]; [lia|]. destruct (Z.eq_dec b 0) as [->|Nb]; [apply gcd_extend_zero; auto|].
    apply gcd_extend_step; [auto|lia|].
    pose proof (Z.mod_pos_bound a b ltac:(lia)) as MB. set (r := a mod b) in *.
    destruct f as [|f]; [lia|]. destruct (Z.eq_dec r 0) as [E0|E0]; [rewrite E0; apply gcd_extend_zero; lia|].
    apply gcd_extend_step; [lia|lia|].
    pose proof (Z.mod_pos_bound b r ltac:(lia)) as MB2.
    apply IH; [lia| |lia]. split; [lia|].
    assert (2 * (b mod r) < b).
    { pose proof (Z.div_mod b r ltac:(lia)). assert (1 <= b / r) by (apply Z.div_le_lower_bound; lia). nia. }
    replace (Z.of_nat (S k)) with (Z.of_nat k + 1) in Hb by lia.
    rewrite Z.pow_add_r in Hb by lia. change (2 ^ 1) with 2 in Hb. lia.
Qed.

Lemma gcd_extend_total a b : 0 <= a -> 0 <= b -> ext_ok a b (gcd_extend (gcd_fuel (zint b)) (zint a) (zint b)).
Proof.
  intros Ha Hb. unfold gcd_fuel. rewrite zint_nat, Z.abs_eq by auto.
  set (k := Z.to_nat (bits_len (of_Z b))). apply (gcd_extend_spec k); [auto| |lia].
  split; [auto|]. unfold k. pose proof (bits_len_of_Z_ge1 b Hb). rewrite Z2Nat.id by lia.
  destruct (Z.eq_dec b 0) as [->|]; [apply pow2_pos; lia|]. apply bits_len_of_Z. lia.
Qed.

(** The coefficients of [gcd], with the sizes used by [mod_inverse]. *)
Lemma b_gcd_spec a b : exists x y,
  b_gcd (zint a) (zint b) = Ok (zint (Z.gcd a b), zint x, zint y) /\ a * x + b * y = Z.gcd a b /\
  (0 <= a -> 0 < b -> (b | a) /\ x = 0 \/ 2 * Z.gcd a b * Z.abs x <= b).
Proof.
  unfold b_gcd. rewrite !zint_clone, !zint_not_nan, !zint_eq_u32, !zint_is_negative by lia. cbn [orb].
  rewrite zint_zero, zint_one, zint_mone, !zint_abs, !zint_opp.
  destruct (Z.eqb_spec a 0) as [->|Na], (Z.eqb_spec b 0) as [->|Nb]; cbn [andb negb].
  - exists 0, 0. split; [reflexivity|]. split; [reflexivity|lia].
  - exists 0, (if b <? 0 then -1 else 1). change (Z.gcd 0 b) with (Z.abs b). split; [destruct (b <? 0); reflexivity|].
    split; [destruct (Z.ltb_spec b 0); lia|]. intros _ _. left. split; [apply Z.divide_0_r|reflexivity].
  - exists (if a <? 0 then -1 else 1), 0. rewrite (Z.gcd_0_r a). split; [destruct (a <? 0); reflexivity|].
    split; [destruct (Z.ltb_spec a 0); lia|lia].
  - assert (EA : (if a <? 0 then zint (- a) else zint a) = zint (Z.abs a)) by (destruct (Z.ltb_spec a 0); f_equal; lia).
    assert (EB : (if b <? 0 then zint (- b) else zint b) = zint (Z.abs b)) by (destruct (Z.ltb_spec b 0); f_equal; lia).
    rewrite EA, EB.
    destruct (gcd_extend_total (Z.abs a) (Z.abs b)) as (x & y & E & BZ & BD); [lia|lia|].
    rewrite E. cbn [bind]. rewrite Z.gcd_abs_l, Z.gcd_abs_r in *. rewrite !zint_opp.
    exists (if a <? 0 then - x else x), (if b <? 0 then - y else y). split.
    { destruct (a <? 0), (b <? 0); reflexivity. }
    split. { destruct (Z.ltb_spec a 0), (Z.ltb_spec b 0); nia. }
    intros Pa Pb. rewrite (Z.abs_eq a), (Z.abs_eq b) in BD by lia. destruct (Z.ltb_spec a 0); [lia|].
    destruct (BD Pb) as [(D & -> & _)|(_ & B & _)]; auto.
Qed.

(* ------------------------------------------------------------------ *)
(** * mod_inverse *)

Lemma b_mod_inverse_spec a n : n <> 0 -> exists x, b_mod_inverse (zint a) (zint n) = Ok (zint x) /\
  0 <= x < Z.abs n /\ (a * x) mod Z.abs n = Z.gcd a n mod Z.abs n.
Proof.
  intros Hn. unfold b_mod_inverse. rewrite !zint_clone, !zint_not_nan, !zint_is_negative, zint_abs. cbn [orb].
  assert (EN : (if n <? 0 then zint (Z.abs n) else zint n) = zint (Z.abs n)) by (destruct (Z.ltb_spec n 0); f_equal; lia).
  rewrite EN. set (m := Z.abs n). assert (Hm : 0 < m) by lia.
  assert (MM : Z.abs m = m) by lia.
  set (g := if a <? 0 then (if a mod m =? 0 then m else a mod m) else a).
  assert (Eg : (if a <? 0 then b_rem_euclid (zint a) (zint m) else Ok (zint a)) = Ok (zint g)).
  { unfold g. destruct (Z.ltb_spec a 0) as [L|L]; [|reflexivity].
    rewrite zint_rem_euclid, MM by lia. destruct (Z.ltb_spec a 0); [|lia]. reflexivity. }
  rewrite Eg. cbn [bind]. pose proof (Z.mod_pos_bound a m Hm) as MB.
  assert (Pg : 0 <= g) by (unfold g; destruct (Z.ltb_spec a 0), (Z.eqb_spec (a mod m) 0); lia).
  assert (Cg : g mod m = a mod m).
  { unfold g. destruct (Z.ltb_spec a 0); [|reflexivity].
    destruct (Z.eqb_spec (a mod m) 0) as [E|E]; [rewrite Z_mod_same_full; auto|apply Z.mod_mod; lia]. }
  assert (GG : Z.gcd g m = Z.gcd a n).
  { rewrite (Z.gcd_comm g), <- Z.gcd_mod, Cg, Z.gcd_mod by lia. unfold m. rewrite Z.gcd_abs_l, Z.gcd_comm. reflexivity. }
  destruct (b_gcd_spec g m) as (x & y & E & BZ & BD). rewrite E. cbn [bind]. rewrite GG in *.
  rewrite zint_is_negative, zint_add.
  assert (GP : 0 < Z.gcd a n).
  { pose proof (Z.gcd_nonneg a n). destruct (Z.eq_dec (Z.gcd a n) 0) as [Z0|]; [|lia]. apply Z.gcd_eq_0_r in Z0. lia. }
  assert (BX : 2 * Z.abs x <= m) by (destruct (BD Pg Hm) as [[_ ->]|B]; [cbn; lia|nia]).
  exists (if x <? 0 then x + m else x).
  split; [destruct (Z.ltb_spec x 0); reflexivity|]. split; [destruct (Z.ltb_spec x 0); lia|].
  rewrite <- Zmult_mod_idemp_l, <- Cg, Zmult_mod_idemp_l.
  rewrite <- BZ. replace (g * x + m * y) with (g * x + y * m) by ring. rewrite Z_mod_plus_full.
  destruct (x <? 0); [|reflexivity].
  replace (g * (x + m)) with (g * x + g * m) by ring. apply Z_mod_plus_full.
Qed.
