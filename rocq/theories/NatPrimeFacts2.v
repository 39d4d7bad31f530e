(** Facts about [NatPrime]: exponentiation of a drawn base, Miller-Rabin. *)
From Coq Require Import ZArith Znumtheory Zpow_facts List Lia Bool.
From Verif Require Import Words WordsFacts NatModel NatFacts NatFacts2 NatFacts3 NatFacts4 NatFacts5 Spec SpecInt SpecPrime VecPrims VecFacts Karatsuba KaraFacts KaraFacts2
  NatExp NatExpFacts NatExpFacts2 BigInt BigIntFacts BigIntFacts2 NumTheory NumTheory2 NumBig NumBigFacts NumBigFacts2 NatPrime NatPrimeFacts.
Import ListNotations.
Open Scope Z_scope.

(* ------------------------------------------------------------------ *)
(** * [exp] of a base with high zero words *)
Lemma trim_nonnil x : x <> [] -> trim x <> [].
Proof. intros H E. apply trim_nil in E. auto. Qed.

Lemma nat_exp_padded checks x b n : words_ok x -> canon n -> length x = length n -> Z.odd (nval n) = true ->
  canon b -> 0 <= nval b < nval n -> nat_exp checks x b n = Ok (of_Z (nval x ^ nval b mod nval n)).
Proof.
  intros Wx Hn L On Hb B. pose proof (canon_len_pos n Hn) as Ln. assert (Nx : x <> []) by (intros ->; cbn in L; lia).
  destruct (nat_exp_words checks x b n Wx Nx Hb Hn) as [E|(_ & _ & (_ & _ & j & J1 & J2 & _) & [Z0|L1])]; [auto|lia|].
  exfalso. pose proof (nval_bound n (canon_words n Hn)) as BB. rewrite <- L, L1, Wp_pow2 in BB. assert (2 ^ (32 * Z.of_nat 1) <= 2 ^ (32 * j)) by (apply Z.pow_le_mono_r; lia). lia.
Qed.

(* ------------------------------------------------------------------ *)
(** * The witness loop *)
Lemma nat_eq_of_Z a b : 0 <= a -> 0 <= b -> nat_eq (of_Z a) (of_Z b) = (a =? b).
Proof. intros A B. rewrite nat_eq_spec by (apply of_Z_canon; auto). rewrite !of_Z_val by auto. reflexivity. Qed.
Lemma nat_eq_u32_of_Z a w : 0 <= a -> 0 <= w < W -> nat_eq_u32 (of_Z a) w = (a =? w).
Proof. intros A B. unfold nat_eq_u32, from_u32. rewrite <- (of_Z_small w) by auto. apply nat_eq_of_Z; lia. Qed.

Lemma witness_step t v n : 0 <= v -> 1 < n ->
  mr_witness (S t) (of_Z v) (of_Z n) (of_Z (n - 1)) =
    (if (v * v mod n =? 1) && negb (v =? 1) && negb (v =? n - 1) then Ok true else mr_witness t (of_Z (v * v mod n)) (of_Z n) (of_Z (n - 1))).
Proof.
  intros V0 N. cbn [mr_witness]. rewrite sqr_vec_of_Z by (apply of_Z_canon; auto). cbn [bind]. rewrite of_Z_val by auto.
  rewrite rem_of_Z by nia. cbn [bind]. pose proof (Z.mod_pos_bound (v * v) n ltac:(lia)). rewrite !nat_eq_u32_of_Z, nat_eq_of_Z by lia. reflexivity.
Qed.
(** For a prime no step finds a witness, and the end is v^(2^t). *)
Lemma witness_prime n : prime n -> 2 < n -> forall t v, 0 <= v < n ->
  mr_witness t (of_Z v) (of_Z n) (of_Z (n - 1)) = Ok (negb (v ^ (2 ^ Z.of_nat t) mod n =? 1)).
Proof.
  intros P N. induction t as [|t IH]; intros v V.
  - cbn [mr_witness]. rewrite nat_eq_u32_of_Z by lia. change (2 ^ Z.of_nat 0) with 1. rewrite Z.pow_1_r, Z.mod_small by lia. reflexivity.
  - rewrite witness_step by lia. pose proof (Z.mod_pos_bound (v * v) n ltac:(lia)) as MB.
    assert (F : (v * v mod n =? 1) && negb (v =? 1) && negb (v =? n - 1) = false).
    { destruct (Z.eqb_spec (v * v mod n) 1) as [E|]; [|reflexivity]. cbn [andb].
      assert (Q : eqm n (v * v) (1 * 1)). { apply eqm_iff; [lia|]. change (1 * 1) with 1. rewrite E, Z.mod_small by lia. reflexivity. }
      destruct (eqm_sqr n v 1 P Q) as [C|C].
      - apply (eqm_small n v 1) in C; [|lia|lia|lia]. destruct (Z.eqb_spec v 1); [reflexivity|lia].
      - assert (C' : eqm n v (n - 1)). { rewrite C. replace (n - 1) with (- (1) + 1 * n) by ring. apply eqm_shift. }
        apply (eqm_small n v (n - 1)) in C'; [|lia|lia|lia]. destruct (Z.eqb_spec v (n - 1)); [apply andb_false_r|lia]. }
    rewrite F, IH by lia. do 3 f_equal. rewrite Nat2Z.inj_succ, Z.pow_succ_r by lia. rewrite Z.pow_mul_r by (try apply Z.pow_nonneg; lia).
    rewrite (Zpower_mod (v ^ 2)) by lia. rewrite Z.pow_2_r. reflexivity.
Qed.
(** If no witness is found, v^(2^t) is 1. *)
Lemma witness_false n : 1 < n -> forall t v, 0 <= v < n -> exists w, mr_witness t (of_Z v) (of_Z n) (of_Z (n - 1)) = Ok w /\ (w = false -> v ^ (2 ^ Z.of_nat t) mod n = 1).
Proof.
  intros N. induction t as [|t IH]; intros v V.
  - cbn [mr_witness]. rewrite nat_eq_u32_of_Z by lia. change (2 ^ Z.of_nat 0) with 1. rewrite Z.pow_1_r, Z.mod_small by lia. eexists. split; [reflexivity|].
    destruct (Z.eqb_spec v 1); [auto|discriminate].
  - rewrite witness_step by lia. pose proof (Z.mod_pos_bound (v * v) n ltac:(lia)) as MB. destruct (_ && _); [eexists; split; [reflexivity|discriminate]|].
    destruct (IH (v * v mod n) MB) as (w & E & H). exists w. split; [exact E|]. intros Hw. specialize (H Hw). rewrite <- H.
    rewrite Nat2Z.inj_succ, Z.pow_succ_r by lia. rewrite Z.pow_mul_r by (try apply Z.pow_nonneg; lia). rewrite (Zpower_mod (v ^ 2)) by lia. rewrite Z.pow_2_r. reflexivity.
Qed.

(* ------------------------------------------------------------------ *)
(** * Miller-Rabin *)
Section MR.
Variable n : Z.
Hypothesis N2 : 2 < n.
Hypothesis On : Z.odd n = true.

(** The shift of n-1 by its trailing zeros is one [Nat] gets right. *)
Definition mr_ok : Prop := forall e s, n - 1 = s * 2 ^ e -> 0 <= e -> Z.odd s = true -> shr_exact (n - 1) e.

Lemma mr_setup : mr_ok -> exists t u, n - 1 = u * 2 ^ t /\ 1 <= t /\ 0 < u /\ Z.odd u = true /\
  nat_sub_u32 (of_Z n) 1 = of_Z (n - 1) /\ trailling_zeros (of_Z (n - 1)) = t /\ nat_shr (of_Z (n - 1)) t = of_Z u.
Proof.
  intros SH. destruct (odd_split (n - 1) ltac:(lia)) as (u & t & T0 & U0 & Ou & E). exists t, u.
  assert (P : 0 < 2 ^ t) by (apply Z.pow_pos_nonneg; lia).
  assert (T1 : 1 <= t). { destruct (Z.eq_dec t 0) as [->|]; [|lia]. rewrite Z.pow_0_r, Z.mul_1_r in E. subst u. exfalso. rewrite Z.odd_sub, On in Ou. discriminate Ou. }
  split; [exact E|]. split; [auto|]. split; [auto|]. split; [auto|]. split; [apply sub1_odd; [lia|auto]|].
  split; [rewrite E; apply tz_of_Z; auto|].
  unfold nat_shr. rewrite op1_canon by (apply of_Z_canon; lia). rewrite shr_inner_good; [|apply of_Z_canon; lia|lia|apply shr_exact_good; [lia|lia|apply (SH t u); auto; lia]].
    rewrite of_Z_val, E, Z.div_mul by lia. reflexivity.
Qed.

Lemma base_pow checks u a v : 0 <= u < n -> drawn (of_Z n) v a -> nat_exp checks a (of_Z u) (of_Z n) = Ok (of_Z (v ^ u mod n)).
Proof.
  intros U (Wa & La & Va). assert (Cn : canon (of_Z n)) by (apply of_Z_canon; lia). assert (Vn : nval (of_Z n) = n) by (apply of_Z_val; lia).
  rewrite nat_exp_padded; [|auto|auto|auto|rewrite Vn; auto|apply of_Z_canon; lia|rewrite Vn, of_Z_val by lia; lia]. rewrite Va, Vn, of_Z_val by lia. reflexivity.
Qed.

Lemma pow_combine v u t : 0 <= u -> 0 <= t -> (v ^ u mod n) ^ (2 ^ t) mod n = v ^ (u * 2 ^ t) mod n.
Proof. intros U T. rewrite <- Zpower_mod by lia. rewrite <- Z.pow_mul_r by (try apply Z.pow_nonneg; lia). reflexivity. Qed.

Variable checks : bool.
Section Rounds.
Variables t u : Z.
Hypothesis E : n - 1 = u * 2 ^ t.
Hypothesis T1 : 1 <= t.
Hypothesis U0 : 0 < u.

Lemma u_lt : 0 < u < n.
Proof. assert (0 < 2 ^ t) by (apply Z.pow_pos_nonneg; lia). nia. Qed.

Lemma mr_round_prime v a : prime n -> drawn (of_Z n) v a -> 0 <= v < n ->
  exists x, nat_exp checks a (of_Z u) (of_Z n) = Ok x /\ mr_witness (Z.to_nat t) x (of_Z n) (of_Z (n - 1)) = Ok (v =? 0).
Proof.
  intros P D V. pose proof u_lt. eexists. split; [apply (base_pow checks u a v); auto; lia|]. rewrite witness_prime; [|auto|auto|apply Z.mod_pos_bound; lia].
  f_equal. rewrite Z2Nat.id, pow_combine, <- E by lia. destruct (Z.eqb_spec v 0) as [->|V0].
  - rewrite Z.pow_0_l, Z.mod_0_l by lia. reflexivity.
  - assert (ND : ~ (n | v)) by (intros X; apply Z.divide_pos_le in X; lia). pose proof (fermat n v P ND) as F. apply eqm_iff in F; [|lia]. rewrite F, Z.mod_small by lia. reflexivity.
Qed.
Lemma mr_round_fermat v a : drawn (of_Z n) v a -> 0 <= v < n ->
  exists x w, nat_exp checks a (of_Z u) (of_Z n) = Ok x /\ mr_witness (Z.to_nat t) x (of_Z n) (of_Z (n - 1)) = Ok w /\ (w = false -> v ^ (n - 1) mod n = 1).
Proof.
  intros D V. pose proof u_lt. destruct (witness_false n ltac:(lia) (Z.to_nat t) (v ^ u mod n)) as (w & W1 & W2); [apply Z.mod_pos_bound; lia|].
  exists (of_Z (v ^ u mod n)), w. split; [apply base_pow; auto; lia|]. split; [exact W1|]. intros F. specialize (W2 F). rewrite Z2Nat.id, pow_combine, <- E in W2 by lia. exact W2.
Qed.

Lemma mr_rounds_prime : prime n -> forall g vs rest, draws n g vs rest -> stream_ok g -> Forall (fun v => v <> 0) vs ->
  mr_rounds checks (length vs) (of_Z n) (Z.to_nat t) (of_Z u) (of_Z (n - 1)) g = Ok (true, rest).
Proof.
  intros P g vs rest D. induction D as [g|g v g' vs rest D DS IH]; intros G NZ; [reflexivity|]. cbn [length mr_rounds].
  assert (Cn : canon (of_Z n)) by (apply of_Z_canon; lia). assert (Vn : nval (of_Z n) = n) by (apply of_Z_val; lia). rewrite <- Vn in D.
  destruct (random_inner_draw (of_Z n) Cn ltac:(lia) g v g' G D) as (r & R1 & R2 & R3 & R4). rewrite R1. cbn [bind]. rewrite Vn in *.
  destruct (mr_round_prime v r P R2 R3) as (x & X1 & X2). rewrite X1. cbn [bind]. rewrite X2. cbn [bind]. inversion NZ as [|? ? NZ1 NZ2]; subst.
  destruct (Z.eqb_spec v 0); [lia|]. apply IH; auto.
Qed.
Lemma mr_rounds_zero : prime n -> forall g vs rest, draws n g (vs ++ [0]) rest -> stream_ok g -> Forall (fun v => v <> 0) vs -> forall s, (length vs < s)%nat ->
  mr_rounds checks s (of_Z n) (Z.to_nat t) (of_Z u) (of_Z (n - 1)) g = Ok (false, rest).
Proof.
  intros P g vs. revert g. induction vs as [|v0 vs IH]; intros g rest D G NZ [|s] L; try lia; inversion D as [|? v g' ws ? D1 D2]; subst; cbn [mr_rounds];
  assert (Cn : canon (of_Z n)) by (apply of_Z_canon; lia); assert (Vn : nval (of_Z n) = n) by (apply of_Z_val; lia); rewrite <- Vn in D1;
  destruct (random_inner_draw (of_Z n) Cn ltac:(lia) g _ g' G D1) as (r & R1 & R2 & R3 & R4); rewrite R1; cbn [bind]; rewrite Vn in *;
  destruct (mr_round_prime _ r P R2 R3) as (x & X1 & X2); rewrite X1; cbn [bind]; rewrite X2; cbn [bind].
  - inversion D2; subst. reflexivity.
  - inversion NZ as [|? ? NZ1 NZ2]; subst. destruct (Z.eqb_spec v0 0); [lia|]. apply (IH g' rest); auto. cbn [length] in L. lia.
Qed.
(** Whatever happens, a returned [true] means that every base satisfies
    Fermat's congruence. *)
Lemma mr_rounds_sound : forall s g, stream_ok g ->
  match mr_rounds checks s (of_Z n) (Z.to_nat t) (of_Z u) (of_Z (n - 1)) g with
  | Ok (b, rest) => exists vs, draws n g vs rest /\ (length vs <= s)%nat /\ (b = true -> length vs = s /\ Forall (fun v => v ^ (n - 1) mod n = 1) vs)
  | Panic => False
  | Fuel => forall vs rest, draws n g vs rest -> (length vs < s)%nat
  end.
Proof.
  induction s as [|s IH]; intros g G; cbn [mr_rounds].
  - exists []. split; [constructor|]. split; [auto|]. auto.
  - assert (Cn : canon (of_Z n)) by (apply of_Z_canon; lia). assert (Vn : nval (of_Z n) = n) by (apply of_Z_val; lia).
    pose proof (random_inner_inv (of_Z n) Cn ltac:(lia) g G) as R. destruct (random_inner (of_Z n) g) as [[r g']| |]; cbn [bind].
    + destruct R as (v & D & R2 & R3 & R4). rewrite Vn in *. destruct (mr_round_fermat v r R2 R3) as (x & w & X1 & X2 & X3). rewrite X1. cbn [bind]. rewrite X2. cbn [bind]. destruct w.
      * exists [v]. split; [econstructor; [exact D|constructor]|]. split; [cbn [length]; lia|discriminate].
      * specialize (IH g' R4). destruct (mr_rounds checks s _ _ _ _ g') as [[b rest]| |]; [|auto|].
        -- destruct IH as (vs & DS & L & B). exists (v :: vs). split; [econstructor; eauto|]. cbn [length]. split; [lia|]. intros Hb. destruct (B Hb). split; [lia|constructor; auto].
        -- intros vs rest DS. inversion DS as [|? v' g'' ? ? D1 D2]; subst; [cbn; lia|]. destruct (draw_fun _ _ _ _ _ _ D D1). subst. apply IH in D2. cbn [length]. lia.
    + tauto.
    + rewrite Vn in R. intros vs rest DS. inversion DS as [|? v' g'' ? ? D1 D2]; subst; [cbn; lia|]. apply R in D1. tauto.
Qed.
End Rounds.

Lemma mr_prime g vs rest : prime n -> mr_ok -> draws n g vs rest -> stream_ok g -> Forall (fun v => v <> 0) vs -> miller_rabin checks (of_Z n) (length vs) g = Ok (true, rest).
Proof.
  intros P OK D G NZ. destruct (mr_setup OK) as (t & u & E & T1 & U0 & Ou & E1 & E2 & E3). unfold miller_rabin. rewrite (trim_num n) by lia. rewrite E1, (trim_num (n - 1)), E2, E3 by lia. apply mr_rounds_prime; auto.
Qed.
Lemma mr_zero g vs rest s : prime n -> mr_ok -> draws n g (vs ++ [0]) rest -> stream_ok g -> Forall (fun v => v <> 0) vs -> (length vs < s)%nat -> miller_rabin checks (of_Z n) s g = Ok (false, rest).
Proof.
  intros P OK D G NZ L. destruct (mr_setup OK) as (t & u & E & T1 & U0 & Ou & E1 & E2 & E3). unfold miller_rabin. rewrite (trim_num n) by lia. rewrite E1, (trim_num (n - 1)), E2, E3 by lia. apply (mr_rounds_zero t u E T1 U0 P g vs); auto.
Qed.
Lemma mr_sound s g : mr_ok -> stream_ok g ->
  match miller_rabin checks (of_Z n) s g with
  | Ok (b, rest) => exists vs, draws n g vs rest /\ (length vs <= s)%nat /\ (b = true -> length vs = s /\ Forall (fun v => v ^ (n - 1) mod n = 1) vs)
  | Panic => False
  | Fuel => forall vs rest, draws n g vs rest -> (length vs < s)%nat
  end.
Proof.
  intros OK G. destruct (mr_setup OK) as (t & u & E & T1 & U0 & Ou & E1 & E2 & E3). unfold miller_rabin. rewrite (trim_num n) by lia. rewrite E1, (trim_num (n - 1)), E2, E3 by lia. apply mr_rounds_sound; auto.
Qed.
End MR.
