(** The rounds of Miller-Rabin, exactly, and the share of accepted base
    sequences. *)
From Coq Require Import ZArith Znumtheory Zpow_facts List Lia Bool.
From Verif Require Import Words WordsFacts NatModel NatFacts NatFacts2 NatFacts3 NatFacts4 NatFacts5 Spec SpecInt SpecPrime SpecRabin NatPrime
  NumBigFacts NumTheory NumTheory2 NumTheory5 NatPrimeFacts NatPrimeFacts2.
Import ListNotations.
Open Scope Z_scope.

(** ** One round *)
Definition chain (n : Z) (t : nat) (v : Z) : Prop := v = 1 \/ exists i, (i < t)%nat /\ v ^ (2 ^ Z.of_nat i) mod n = n - 1.
Lemma pow_sq n v i : 0 < n -> 0 <= i -> (v * v mod n) ^ (2 ^ i) mod n = v ^ (2 ^ (i + 1)) mod n.
Proof.
  intros N I. rewrite <- Zpower_mod by lia. rewrite Z.pow_add_r by lia. change (2 ^ 1) with 2. rewrite (Z.mul_comm (2 ^ i) 2).
  rewrite Z.pow_mul_r by (try apply Z.pow_nonneg; lia). rewrite Z.pow_2_r. reflexivity.
Qed.
Lemma witness_exact n : 2 < n -> forall t v, 0 <= v < n -> exists w, mr_witness t (of_Z v) (of_Z n) (of_Z (n - 1)) = Ok w /\ (w = false <-> chain n t v).
Proof.
  intros N. induction t as [|t IH]; intros v V.
  - cbn [mr_witness]. rewrite nat_eq_u32_of_Z by lia. eexists. split; [reflexivity|]. unfold chain. destruct (Z.eqb_spec v 1) as [->|]; cbn [negb]; split; auto; [discriminate|]. intros [?|(i & I & _)]; lia.
  - rewrite witness_step by lia. pose proof (Z.mod_pos_bound (v * v) n ltac:(lia)) as MB. destruct (IH (v * v mod n) MB) as (w & E & H).
    destruct (_ && _) eqn:B.
    + exists true. split; [reflexivity|]. split; [discriminate|]. apply andb_prop in B. destruct B as [B B3]. apply andb_prop in B. destruct B as [B1 B2].
      apply Z.eqb_eq in B1. apply negb_true_iff, Z.eqb_neq in B2, B3. intros [?|([|i] & I & F)]; [lia| |].
      * change (2 ^ Z.of_nat 0) with 1 in F. rewrite Z.pow_1_r, Z.mod_small in F by lia. lia.
      * rewrite Nat2Z.inj_succ in F. change (Z.succ (Z.of_nat i)) with (Z.of_nat i + 1) in F. rewrite <- pow_sq in F by lia. rewrite B1, Z.pow_1_l, Z.mod_small in F by (try apply Z.pow_nonneg; lia). lia.
    + exists w. split; [exact E|]. rewrite H. clear E H IH w. split.
      * intros [Y|(i & I & F)].
        -- rewrite Y in B. cbn [Z.eqb Pos.eqb andb] in B. destruct (Z.eqb_spec v 1); [left; auto|]. cbn [negb andb] in B. destruct (Z.eqb_spec v (n - 1)) as [->|]; [|discriminate B].
           right. exists O. split; [lia|]. change (2 ^ Z.of_nat 0) with 1. rewrite Z.pow_1_r, Z.mod_small by lia. reflexivity.
        -- right. exists (S i). split; [lia|]. rewrite Nat2Z.inj_succ. change (Z.succ (Z.of_nat i)) with (Z.of_nat i + 1). rewrite <- pow_sq by lia. exact F.
      * intros [->|([|i] & I & F)].
        -- left. rewrite Z.mod_small by lia. reflexivity.
        -- left. change (2 ^ Z.of_nat 0) with 1 in F. rewrite Z.pow_1_r, Z.mod_small in F by lia. subst v. replace ((n - 1) * (n - 1)) with (1 + (n - 2) * n) by ring. rewrite Z.mod_add, Z.mod_small by lia. reflexivity.
        -- right. exists i. split; [lia|]. rewrite Nat2Z.inj_succ in F. change (Z.succ (Z.of_nat i)) with (Z.of_nat i + 1) in F. rewrite <- pow_sq in F by lia. exact F.
Qed.

(** ** The decomposition n - 1 = u * 2^t is unique *)
Lemma odd_part_unique u t u' t' : Z.odd u = true -> Z.odd u' = true -> 0 <= t -> 0 <= t' -> u * 2 ^ t = u' * 2 ^ t' -> u = u' /\ t = t'.
Proof.
  assert (A : forall u t u' t', Z.odd u = true -> Z.odd u' = true -> 0 <= t <= t' -> u * 2 ^ t = u' * 2 ^ t' -> u = u' /\ t = t').
  { clear. intros u t u' t' O O' T E. assert (P : 0 < 2 ^ t) by (apply Z.pow_pos_nonneg; lia). replace (2 ^ t') with (2 ^ (t' - t) * 2 ^ t) in E by (rewrite <- Z.pow_add_r by lia; f_equal; lia).
    assert (E2 : u = u' * 2 ^ (t' - t)) by nia. destruct (Z.eq_dec t' t) as [->|NE]; [rewrite Z.sub_diag, Z.pow_0_r in E2; lia|].
    exfalso. rewrite E2, Z.odd_mul, O', Z.odd_pow in O by lia. discriminate O. }
  intros O O' T T' E. destruct (Z_le_dec t t'); [apply A; auto|]. destruct (A u' t' u t); auto; lia.
Qed.

Section MR6.
Variable n : Z.
Hypothesis N2 : 2 < n.
Hypothesis On : Z.odd n = true.
Variables t u : Z.
Hypothesis E : n - 1 = u * 2 ^ t.
Hypothesis T1 : 1 <= t.
Hypothesis U0 : 0 < u.
Hypothesis Uo : Z.odd u = true.

Lemma strong_iff v : 0 <= v < n -> strong_base n v <-> chain n (Z.to_nat t) (v ^ u mod n).
Proof.
  intros V. split.
  - intros (t' & u' & E' & T' & O' & H). rewrite E in E'. apply odd_part_unique in E'; auto; [|lia]. destruct E' as [<- <-]. destruct H as [H|(i & I & H)]; [left; auto|right].
    exists (Z.to_nat i). split; [apply Z2Nat.inj_lt; lia|]. rewrite Z2Nat.id, (pow_combine n N2) by lia. exact H.
  - intros C. exists t, u. split; [auto|]. split; [lia|]. split; [auto|]. destruct C as [C|(i & I & H)]; [left; auto|right]. exists (Z.of_nat i). split; [lia|]. rewrite (pow_combine n N2) in H by lia. exact H.
Qed.
Lemma strong_passes v : strong_base n v -> passes n t u v.
Proof.
  intros (t' & u' & E' & T' & O' & H). rewrite E in E'. apply odd_part_unique in E'; auto; [|lia]. destruct E' as [<- <-]. destruct H as [H|(i & I & H)]; [left|right; exists i; split; [auto|]].
  - apply eqm_iff; [lia|]. rewrite (Z.mod_small 1) by lia. exact H.
  - apply eqm_iff; [lia|]. rewrite H. replace (-1) with (n - 1 + (-1) * n) by ring. rewrite Z.mod_add, Z.mod_small by lia. reflexivity.
Qed.
Variable checks : bool.
Hypothesis U1 : u = 1 -> n < 2 ^ 32.
Lemma rounds_exact : forall g vs rest, draws n g vs rest -> stream_ok g ->
  exists b g', mr_rounds checks (length vs) (of_Z n) (Z.to_nat t) (of_Z u) (of_Z (n - 1)) g = Ok (b, g') /\ (b = true <-> Forall (strong_base n) vs) /\ (b = true -> g' = rest).
Proof.
  intros g vs rest D. induction D as [g|g v g' vs rest D DS IH]; intros G.
  - exists true, g. split; [reflexivity|]. split; [split; auto|auto].
  - cbn [length mr_rounds]. assert (Cn : canon (of_Z n)) by (apply of_Z_canon; lia). assert (Vn : nval (of_Z n) = n) by (apply of_Z_val; lia).
    pose proof (random_inner_inv (of_Z n) Cn ltac:(lia) g G) as R. destruct (random_inner (of_Z n) g) as [[r g2]| |]; cbn [bind].
    + destruct R as (v2 & D2 & R2 & R3 & R4). rewrite Vn in *. destruct (draw_fun _ _ _ _ _ _ D D2). subst v2 g2.
      assert (UL : 0 < u < n) by (assert (0 < 2 ^ t) by (apply Z.pow_pos_nonneg; lia); nia).
      rewrite (base_pow n N2 On checks u r v) by (auto; lia). cbn [bind].
      destruct (witness_exact n N2 (Z.to_nat t) (v ^ u mod n)) as (w & W1 & W2); [apply Z.mod_pos_bound; lia|]. rewrite W1. cbn [bind]. rewrite <- strong_iff in W2 by auto.
      destruct w.
      * exists false, g'. split; [reflexivity|]. split; [|discriminate]. split; [discriminate|]. intros F. apply Forall_inv in F. apply W2 in F. discriminate F.
      * destruct (IH R4) as (b & g2 & B1 & B2 & B3). exists b, g2. split; [exact B1|]. split; [|exact B3]. rewrite B2. split; [intros F; constructor; [apply W2; reflexivity|exact F]|intros F; inversion F; auto].
    + tauto.
    + rewrite Vn in R. apply R in D. tauto.
Qed.
End MR6.

Lemma mr_exact checks n g vs rest : 2 < n -> Z.odd n = true -> mr_ok n -> stream_ok g -> draws n g vs rest ->
  exists b g', miller_rabin checks (of_Z n) (length vs) g = Ok (b, g') /\ (b = true <-> Forall (strong_base n) vs) /\ (b = true -> g' = rest).
Proof.
  intros N2 On OK G D. destruct (mr_setup n N2 On OK) as (t & u & E & T1 & U0 & Ou & E1 & E2 & E3). unfold miller_rabin. rewrite (trim_num n) by lia. rewrite E1, (trim_num (n - 1)), E2, E3 by lia. apply rounds_exact; auto.
Qed.

(** ** Counting the accepted sequences *)
Lemma strong_half n l : 2 < n -> Z.odd n = true -> ~ prime n -> NoDup l -> (forall v, In v l -> 0 <= v < n /\ strong_base n v) -> 2 * Z.of_nat (length l) <= n - 1.
Proof.
  intros N2 On NP ND H. destruct (odd_split (n - 1) ltac:(lia)) as (u & t & T0 & U0 & Ou & E).
  assert (T1 : 1 <= t). { destruct (Z.eq_dec t 0) as [->|]; [|lia]. rewrite Z.pow_0_r, Z.mul_1_r in E. subst u. exfalso. rewrite Z.odd_sub, On in Ou. discriminate Ou. }
  apply (rabin_half n t u); auto; [lia|]. intros x X. apply H in X. destruct X as [B S]. apply (strong_passes n N2 t u E T1 Ou) in S. split; [|auto].
  enough (x <> 0) by lia. intros ->. apply (passes_fermat n t u) in S; auto; try lia. rewrite Z.pow_0_l in S by lia. apply eqm_small in S; lia.
Qed.
Fixpoint tuples (a : list Z) (s : nat) : list (list Z) :=
  match s with O => [[]] | S s' => flat_map (fun v => map (cons v) (tuples a s')) a end.
Lemma tuples_length a s : Z.of_nat (length (tuples a s)) = Z.of_nat (length a) ^ Z.of_nat s.
Proof.
  induction s as [|s IH]; [reflexivity|]. cbn [tuples]. rewrite Nat2Z.inj_succ, Z.pow_succ_r, <- IH by lia. rewrite <- Nat2Z.inj_mul. f_equal.
  generalize (tuples a s) as T. intros T. clear. induction a as [|x a IH]; [reflexivity|]. cbn [flat_map length]. rewrite app_length, map_length, IH. lia.
Qed.
Lemma tuples_in a s vs : length vs = s -> Forall (fun v => In v a) vs -> In vs (tuples a s).
Proof.
  intros <-. induction 1 as [|v vs H1 H2 IH]; [left; reflexivity|]. cbn [length tuples]. apply in_flat_map. exists v. split; [auto|]. apply in_map. exact IH.
Qed.
Lemma seq_count n s (L : list (list Z)) : 2 < n -> Z.odd n = true -> ~ prime n -> NoDup L ->
  (forall vs, In vs L -> base_seq n s vs /\ Forall (strong_base n) vs) -> 2 ^ Z.of_nat s * Z.of_nat (length L) <= (n - 1) ^ Z.of_nat s.
Proof.
  intros N2 On NP ND H. set (a := nodup Z.eq_dec (concat L)).
  assert (A : forall v, In v a -> 0 <= v < n /\ strong_base n v).
  { intros v V. apply nodup_In, in_concat in V. destruct V as (vs & V1 & V2). destruct (H vs V1) as ((_ & B) & S). rewrite Forall_forall in B, S. auto. }
  pose proof (strong_half n a N2 On NP (NoDup_nodup _ _) A) as Ha.
  assert (I : incl L (tuples a s)). { intros vs V. destruct (H vs V) as ((Hl & _) & _). apply tuples_in; [auto|]. apply Forall_forall. intros v Hv. apply nodup_In, in_concat. exists vs. auto. }
  pose proof (NoDup_incl_length ND I) as LE. apply Nat2Z.inj_le in LE. rewrite tuples_length in LE.
  apply Z.le_trans with (2 ^ Z.of_nat s * Z.of_nat (length a) ^ Z.of_nat s); [apply Z.mul_le_mono_nonneg_l; [apply Z.pow_nonneg; lia|auto]|].
  rewrite <- Z.pow_mul_l. apply Z.pow_le_mono_l. lia.
Qed.
