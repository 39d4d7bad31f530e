(** At most half of the bases pass a Miller-Rabin round for an odd composite
    number.  Pure number theory; nothing of the code is modelled here. *)
From Coq Require Import ZArith Znumtheory List Lia Bool Permutation Setoid Morphisms.
From Verif Require Import NumTheory NumTheory2.
Import ListNotations.
Open Scope Z_scope.

Lemma crt p m a b : rel_prime p m -> exists w, eqm p w a /\ eqm m w b.
Proof.
  intros R. destruct (rel_prime_bezout _ _ R) as [x y E]. exists (b * (x * p) + a * (y * m)). split.
  - exists ((b - a) * x). replace (y * m) with (1 - x * p) by lia. ring.
  - exists ((a - b) * y). replace (x * p) with (1 - y * m) by lia. ring.
Qed.
Lemma eqm_dvd p n a b : (p | n) -> eqm n a b -> eqm p a b.
Proof. intros H1 H2. change (p | a - b). eapply Z.divide_trans; [exact H1|exact H2]. Qed.
Lemma eqm_cancel_rel n a b c : rel_prime c n -> eqm n (c * a) (c * b) -> eqm n a b.
Proof.
  intros R D. change (n | a - b). change (n | c * a - c * b) in D. replace (c * a - c * b) with (c * (a - b)) in D by ring. apply (Gauss n c); [exact D|apply rel_prime_sym; exact R].
Qed.
Lemma eqm_unit n a b c : eqm n (a * b) c -> rel_prime c n -> rel_prime a n.
Proof.
  intros D R. destruct (rel_prime_bezout _ _ R) as [x y E]. destruct D as [k D].
  apply bezout_rel_prime. apply Bezout_intro with (x * b) (y - x * k). replace (x * b * a + (y - x * k) * n) with (x * (a * b - k * n) + y * n) by ring. replace (a * b - k * n) with c by lia. exact E.
Qed.
Lemma rel_m1 n : rel_prime (-1) n.
Proof. apply bezout_rel_prime. apply Bezout_intro with (-1) 0. ring. Qed.
Lemma rel_1 n : rel_prime 1 n.
Proof. apply bezout_rel_prime. apply Bezout_intro with 1 0. ring. Qed.
Lemma eqm_pow_unit n a k c : 0 < k -> eqm n (a ^ k) c -> rel_prime c n -> rel_prime a n.
Proof.
  intros K E R. apply (eqm_unit n a (a ^ (k - 1)) c); [|auto]. replace (a * a ^ (k - 1)) with (a ^ k); [auto|]. rewrite <- Z.pow_succ_r by lia. f_equal. lia.
Qed.
Lemma odd_1_m1 n : 1 < n -> Z.odd n = true -> ~ eqm n 1 (-1).
Proof. intros N O [k D]. assert (n * k = 2) by lia. assert (k = 1 \/ 1 < k \/ k <= 0) as [?|[?|?]] by lia; [subst k; assert (n = 2) by lia; subst n; discriminate O|nia|nia]. Qed.

(** ** Counting *)
Definition mulw (n w x : Z) : Z := (x * w) mod n.
Lemma shift_count n w l : 1 < n -> rel_prime w n -> NoDup l -> (forall x, In x l -> 0 < x < n) -> (forall x, In x l -> ~ In (mulw n w x) l) ->
  2 * Z.of_nat (length l) <= n - 1.
Proof.
  intros N R ND B H.
  assert (INJ : forall x y, In x l -> In y l -> mulw n w x = mulw n w y -> x = y).
  { intros x y X Y E. pose proof (B x X). pose proof (B y Y). apply (eqm_small n); try lia. apply (eqm_cancel_rel n x y w R). rewrite !(Z.mul_comm w). apply eqm_iff; [lia|exact E]. }
  assert (POS : forall x, In x l -> 0 < mulw n w x < n).
  { intros x X. pose proof (B x X). pose proof (Z.mod_pos_bound (x * w) n ltac:(lia)) as MB. fold (mulw n w x) in MB. enough (mulw n w x <> 0) by lia. intros Z0.
    assert (D : eqm n (w * x) (w * 0)). { rewrite Z.mul_0_r, Z.mul_comm. apply eqm_iff; [lia|]. rewrite Z.mod_0_l by lia. exact Z0. }
    apply (eqm_cancel_rel n x 0 w R) in D. apply eqm_small in D; lia. }
  assert (ND2 : forall k, (forall x, In x k -> In x l) -> NoDup k -> NoDup (l ++ map (mulw n w) k)).
  { induction k as [|y k IH]; intros I NK; [cbn [map]; rewrite app_nil_r; auto|]. inversion NK as [|? ? N1 N2]; subst. cbn [map].
    apply (Permutation_NoDup (Permutation_middle l (map (mulw n w) k) (mulw n w y))). constructor; [|apply IH; [intros; apply I; right; auto|auto]].
    rewrite in_app_iff, in_map_iff. intros [Q|(z & Z1 & Z2)]; [apply (H y); [apply I; left; auto|auto]|]. apply INJ in Z1; [subst z; auto|apply I; right; auto|apply I; left; auto]. }
  specialize (ND2 l (fun x h => h) ND). assert (IN : incl (l ++ map (mulw n w) l) (range (Z.to_nat (n - 1)))).
  { intros x X. apply range_in. rewrite Z2Nat.id by lia. apply in_app_iff in X. destruct X as [X|X]; [apply B in X; lia|]. apply in_map_iff in X. destruct X as (y & <- & Y). apply POS in Y. lia. }
  pose proof (NoDup_incl_length ND2 IN) as L. rewrite app_length, map_length, range_length in L. lia.
Qed.

(** ** The bases that pass *)
Definition passes (n t u v : Z) : Prop := eqm n (v ^ u) 1 \/ exists i, 0 <= i < t /\ eqm n (v ^ (u * 2 ^ i)) (-1).

Section Rabin.
Variables n t u : Z.
Hypothesis N1 : 1 < n.
Hypothesis No : Z.odd n = true.
Hypothesis Nc : ~ prime n.
Hypothesis E : n - 1 = u * 2 ^ t.
Hypothesis T1 : 1 <= t.
Hypothesis Uo : Z.odd u = true.
Lemma u_pos : 0 < u.
Proof. assert (0 < 2 ^ t) by (apply Z.pow_pos_nonneg; lia). nia. Qed.
Lemma pow_up v i j c : 0 <= i <= j -> eqm n (v ^ (u * 2 ^ i)) c -> eqm n (v ^ (u * 2 ^ j)) (c ^ (2 ^ (j - i))).
Proof.
  intros I D. replace (u * 2 ^ j) with (u * 2 ^ i * 2 ^ (j - i)); [|rewrite <- Z.mul_assoc, <- Z.pow_add_r by lia; do 2 f_equal; lia].
  pose proof u_pos. rewrite Z.pow_mul_r; [|apply Z.mul_nonneg_nonneg; [lia|apply Z.pow_nonneg; lia]|apply Z.pow_nonneg; lia]. apply eqm_pow; [apply Z.pow_nonneg; lia|auto].
Qed.
Lemma m1_pow k : 1 <= k -> (-1) ^ (2 ^ k) = 1.
Proof. intros K. replace k with (1 + (k - 1)) by lia. rewrite Z.pow_add_r by lia. rewrite Z.pow_mul_r by (try apply Z.pow_nonneg; lia). change ((-1) ^ 2 ^ 1) with 1. apply Z.pow_1_l. apply Z.pow_nonneg; lia. Qed.
Lemma passes_fermat v : passes n t u v -> eqm n (v ^ (n - 1)) 1.
Proof.
  rewrite E. intros [D|(i & I & D)].
  - replace (v ^ u) with (v ^ (u * 2 ^ 0)) in D by (f_equal; ring). apply (pow_up v 0 t) in D; [|lia]. rewrite Z.pow_1_l in D by (apply Z.pow_nonneg; lia). exact D.
  - apply (pow_up v i t) in D; [|lia]. rewrite m1_pow in D by lia. exact D.
Qed.
Lemma passes_unit v : passes n t u v -> rel_prime v n.
Proof. intros P. apply passes_fermat in P. apply (eqm_pow_unit n v (n - 1) 1); [lia|auto|apply rel_1]. Qed.

(** First case: some unit violates Fermat's congruence. *)
Lemma half_fermat w l : rel_prime w n -> ~ eqm n (w ^ (n - 1)) 1 -> NoDup l -> (forall x, In x l -> 0 < x < n /\ passes n t u x) -> 2 * Z.of_nat (length l) <= n - 1.
Proof.
  intros R F ND H. apply (shift_count n w); auto; [intros x X; apply H; auto|]. intros x X Y. apply H in X, Y. destruct X as [_ X], Y as [_ Y]. apply passes_fermat in X, Y.
  apply F. unfold mulw in Y. rewrite eqm_pow in Y; [|lia|apply eqm_mod; lia]. rewrite Z.pow_mul_l, X, Z.mul_1_l in Y. exact Y.
Qed.

(** Second case: every unit satisfies it. *)
Hypothesis Car : forall x, rel_prime x n -> eqm n (x ^ (n - 1)) 1.
Lemma pow_1_plus q k : (n | q * q) -> 0 <= k -> eqm n ((1 + q) ^ k) (1 + k * q).
Proof.
  intros Q. revert k. apply natlike_ind; [rewrite Z.pow_0_r; apply eqm_refl|]. intros k K IH. rewrite Z.pow_succ_r, IH by auto. destruct Q as [c Q]. exists (k * c). replace (k * c * n) with (k * (c * n)) by ring. rewrite <- Q. ring.
Qed.
Lemma squarefree p : prime p -> ~ (p * p | n).
Proof.
  intros P [m D]. pose proof (prime_2 p P) as P2. set (q := m * p). assert (Q : n = p * q) by (unfold q; lia).
  assert (QQ : (n | q * q)) by (exists m; unfold q; rewrite D; ring).
  assert (R : rel_prime (1 + q) n).
  { assert (R1 : rel_prime (1 + q) q) by (apply bezout_rel_prime; apply Bezout_intro with 1 (-1); ring).
    rewrite Q. apply rel_prime_mult; [|exact R1]. apply bezout_rel_prime. apply Bezout_intro with 1 (- m). unfold q. ring. }
  apply Car in R. rewrite pow_1_plus in R by (auto; lia). destruct R as [k R]. replace (1 + (n - 1) * q - 1) with ((n - 1) * q) in R by ring.
  assert (q <> 0) by (intros Z0; rewrite Z0 in Q; lia). rewrite Q in R at 2. assert (R2 : n - 1 = k * p) by nia.
  assert (PD : (p | 1)) by (exists (q - k); lia). apply Z.divide_1_r_nonneg in PD; lia.
Qed.
Lemma odd_factor a b : n = a * b -> Z.odd a = true.
Proof. intros D. rewrite D, Z.odd_mul in No. apply andb_prop in No. tauto. Qed.
Lemma split_n : exists p m, n = p * m /\ 1 < p /\ 1 < m /\ rel_prime p m.
Proof.
  destruct (factor n ltac:(lia)) as ([|p ps] & F & D); [rewrite prodZ_nil in D; lia|]. rewrite prodZ_cons in D. pose proof (Forall_inv F) as P. cbn beta in P.
  pose proof (prime_2 p P). exists p, (prodZ ps). assert (0 < prodZ ps) by nia. assert (prodZ ps <> 1). { intros Z1. apply Nc. rewrite <- D, Z1, Z.mul_1_r. auto. }
  split; [auto|]. split; [lia|]. split; [lia|]. apply prime_rel_prime; auto. intros [m M]. apply (squarefree p P). exists m. rewrite <- D, M. ring.
Qed.
Definition reach (j : Z) : Prop := exists v, eqm n (v ^ (u * 2 ^ j)) (-1).
Lemma reach_0 : reach 0.
Proof. exists (-1). change (2 ^ 0) with 1. rewrite Z.mul_1_r. apply Z.odd_spec in Uo. destruct Uo as [k K]. pose proof u_pos. rewrite K. rewrite Z.pow_add_r, Z.pow_mul_r by lia. change ((-1) ^ 2) with 1. rewrite Z.pow_1_l by lia. apply eqm_refl. Qed.
Lemma em (P : Prop) : (P \/ ~ P -> False) -> False.
Proof. tauto. Qed.
(** The largest level that is reached (doubly negated: reaching is not decided here). *)
Lemma top_level (G : (forall j, 0 <= j < t -> reach j -> (forall i, j < i < t -> ~ reach i) -> False)) : False.
Proof.
  assert (A : forall k, 0 <= k -> k < t -> (forall i, k < i < t -> ~ reach i) -> False).
  { apply (natlike_ind (fun k => k < t -> (forall i, k < i < t -> ~ reach i) -> False)).
    - intros _ H. apply (G 0); [lia|apply reach_0|auto].
    - intros k K IH L H. apply (em (reach (Z.succ k))). intros [R|R]; [apply (G (Z.succ k)); auto; lia|]. apply IH; [lia|]. intros i I. destruct (Z.eq_dec i (Z.succ k)) as [->|]; [auto|apply H; lia]. }
  apply (A (t - 1)); [lia|lia|]. intros; lia.
Qed.
Lemma half_carmichael l : NoDup l -> (forall x, In x l -> 0 < x < n /\ passes n t u x) -> 2 * Z.of_nat (length l) <= n - 1.
Proof.
  intros ND H. destruct (Z_le_dec (2 * Z.of_nat (length l)) (n - 1)) as [|BAD]; [auto|exfalso]. apply top_level. intros j J (v & V) MAX. apply BAD. clear BAD.
  destruct split_n as (p & m & D & P1 & M1 & R). pose proof u_pos as U0. set (e := u * 2 ^ j) in *. assert (E0 : 0 < e) by (apply Z.mul_pos_pos; [auto|apply Z.pow_pos_nonneg; lia]).
  assert (B : forall x, passes n t u x -> eqm n (x ^ e) 1 \/ eqm n (x ^ e) (-1)).
  { intros x [X|(i & I & X)].
    - left. replace (x ^ u) with (x ^ (u * 2 ^ 0)) in X by (f_equal; ring). apply (pow_up x 0 j) in X; [|lia]. rewrite Z.pow_1_l in X by (apply Z.pow_nonneg; lia). exact X.
    - assert (i <= j). { destruct (Z_le_dec i j); [auto|]. exfalso. apply (MAX i); [lia|]. exists x. auto. }
      apply (pow_up x i j) in X; [|lia]. destruct (Z.eq_dec i j) as [->|]; [right|left]; [rewrite Z.sub_diag in X; exact X|rewrite m1_pow in X by lia; exact X]. }
  destruct (crt p m v 1 R) as (w & Wp & Wm).
  assert (Dp : (p | n)) by (exists m; lia). assert (Dm : (m | n)) by (exists p; lia).
  assert (Ep : eqm p (w ^ e) (-1)) by (rewrite eqm_pow; [|lia|exact Wp]; apply (eqm_dvd p n); auto).
  assert (Em : eqm m (w ^ e) 1) by (rewrite eqm_pow; [|lia|exact Wm]; rewrite Z.pow_1_l by lia; apply eqm_refl).
  assert (Op : ~ eqm p 1 (-1)) by (apply odd_1_m1; [auto|apply (odd_factor p m); auto]).
  assert (Om : ~ eqm m 1 (-1)) by (apply odd_1_m1; [auto|apply (odd_factor m p); lia]).
  assert (Rw : rel_prime w n).
  { rewrite D. apply rel_prime_mult; [apply (eqm_pow_unit p w e (-1)); auto; apply rel_m1|apply (eqm_pow_unit m w e 1); auto; apply rel_1]. }
  apply (shift_count n w); auto; [intros x X; apply H; auto|]. intros x X Y. apply H in X, Y. destruct X as [_ X], Y as [_ Y]. apply B in X, Y.
  assert (S : forall q, (q | n) -> forall c, eqm n (mulw n w x ^ e) c -> eqm q (x ^ e * w ^ e) c).
  { intros q Q c C. rewrite <- Z.pow_mul_l. apply (eqm_dvd q n); [exact Q|]. apply eqm_trans with (mulw n w x ^ e); [|exact C]. apply eqm_pow; [lia|]. apply eqm_sym, eqm_mod. lia. }
  assert (S1 : forall q, (q | n) -> forall c, eqm n (x ^ e) c -> eqm q (x ^ e) c) by (intros; eapply eqm_dvd; eauto).
  destruct X as [X|X]; pose proof (S1 p Dp _ X) as Xp; pose proof (S1 m Dm _ X) as Xm; destruct Y as [Y|Y]; pose proof (S p Dp _ Y) as Yp; pose proof (S m Dm _ Y) as Ym;
    rewrite Xp, Ep in Yp; rewrite Xm, Em in Ym; change (1 * -1) with (-1) in *; change (-1 * -1) with 1 in *; change (1 * 1) with 1 in *; change (-1 * 1) with (-1) in *;
    first [apply Op; exact Yp | apply Op; apply eqm_sym; exact Yp | apply Om; exact Ym | apply Om; apply eqm_sym; exact Ym].
Qed.
End Rabin.

Theorem rabin_half n t u l : 1 < n -> Z.odd n = true -> ~ prime n -> n - 1 = u * 2 ^ t -> 1 <= t -> Z.odd u = true ->
  NoDup l -> (forall x, In x l -> 0 < x < n /\ passes n t u x) -> 2 * Z.of_nat (length l) <= n - 1.
Proof.
  intros N1 No Nc E T1 Uo ND H. destruct (Z_le_dec (2 * Z.of_nat (length l)) (n - 1)) as [|BAD]; [auto|exfalso].
  apply (em (exists w, rel_prime w n /\ ~ eqm n (w ^ (n - 1)) 1)). intros [(w & R & F)|A].
  - apply BAD. apply (half_fermat n t u) with w; auto.
  - apply BAD. apply (half_carmichael n t u); auto. intros x R. destruct (Znumtheory.Zdivide_dec n (x ^ (n - 1) - 1)) as [|F]; [auto|]. exfalso. apply A. exists x. auto.
Qed.
