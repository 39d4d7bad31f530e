(** Quadratic reciprocity: Gauss's lemma, Eisenstein's count, and the Jacobi
    symbol as a product of Legendre symbols.  Nothing here is about the code. *)
From Coq Require Import ZArith Znumtheory List Lia Bool Permutation Setoid Morphisms.
From Verif Require Import NumTheory.
Import ListNotations.
Open Scope Z_scope.

(** (-1) ^ z *)
Definition par (z : Z) : Z := if Z.even z then 1 else -1.
Lemma par_add x y : par (x + y) = par x * par y.
Proof. unfold par. rewrite Z.even_add. destruct (Z.even x), (Z.even y); reflexivity. Qed.
Lemma par_mul_odd x y : Z.odd x = true -> par (x * y) = par y.
Proof. unfold par. rewrite Z.even_mul, <- Z.negb_odd. intros ->. reflexivity. Qed.
Lemma par_sqr x : par x * par x = 1.
Proof. unfold par. destruct (Z.even x); reflexivity. Qed.
Lemma par_even x : par (2 * x) = 1.
Proof. unfold par. rewrite Z.even_mul. reflexivity. Qed.
Lemma par_opp x : par (- x) = par x.
Proof. unfold par. rewrite Z.even_opp. reflexivity. Qed.
Lemma par_pow x n : 0 <= n -> par x ^ n = par (n * x).
Proof.
  revert n. apply natlike_ind; [reflexivity|].
  intros k K IH. rewrite Z.pow_succ_r by auto. replace (Z.succ k * x) with (x + k * x) by ring. rewrite par_add, IH by auto. reflexivity.
Qed.
Definition sign (v : Z) : Prop := v = 1 \/ v = -1.
Lemma sign_sqr v : sign v -> v * v = 1. Proof. intros [->| ->]; reflexivity. Qed.
Lemma sign_mul v w : sign v -> sign w -> sign (v * w). Proof. intros [->| ->] [->| ->]; unfold sign; lia. Qed.
Lemma sign_par x : sign (par x). Proof. unfold par, sign. destruct (Z.even x); auto. Qed.
Lemma sign_prod (f : Z -> Z) l : (forall x, In x l -> sign (f x)) -> sign (prodZ (map f l)).
Proof.
  induction l as [|x l IH]; intros H; [left; reflexivity|]. cbn [map]. rewrite prodZ_cons. apply sign_mul; [apply H; left; auto|apply IH; intros; apply H; right; auto].
Qed.
Lemma prodZ_ext (f g : Z -> Z) l : (forall x, In x l -> f x = g x) -> prodZ (map f l) = prodZ (map g l).
Proof. intros H. f_equal. apply map_ext_in. auto. Qed.
Lemma prodZ_swap (f : Z -> Z -> Z) K L :
  prodZ (map (fun k => prodZ (map (fun l => f k l) L)) K) = prodZ (map (fun l => prodZ (map (fun k => f k l) K)) L).
Proof.
  induction K as [|k K IH]; cbn [map].
  - rewrite prodZ_nil. induction L as [|l L IHL]; [reflexivity|]. cbn [map]. rewrite prodZ_cons, <- IHL. reflexivity.
  - rewrite prodZ_cons, IH, <- prodZ_mul. apply prodZ_ext. intros l _. rewrite prodZ_cons. reflexivity.
Qed.

Lemma eqm_shift p x k : eqm p x (x + k * p).
Proof. apply eqm_minus, div_eqm. exists (- k). ring. Qed.

(** The Legendre symbol by Euler's criterion. *)
Definition ls (a p : Z) : Z := let r := a ^ ((p - 1) / 2) mod p in if r =? p - 1 then -1 else r.
Definition tri (v : Z) : Prop := v = 0 \/ v = 1 \/ v = -1.
Lemma tri_eqm p v w : 2 < p -> tri v -> tri w -> eqm p v w -> v = w.
Proof. intros P V W E. apply eqm_minus, eqm_div in E. destruct E as [k E]. assert (k = 0); [|lia]. destruct V as [->|[->| ->]], W as [->|[->| ->]]; nia. Qed.
Lemma sign_tri v : sign v -> tri v. Proof. unfold sign, tri. tauto. Qed.
Lemma ls_spec a p : prime p -> p <> 2 -> tri (ls a p) /\ eqm p (ls a p) (a ^ ((p - 1) / 2)).
Proof.
  intros P N2. destruct (odd_prime_half p P N2) as (E & H1). pose proof (prime_2 p P). unfold ls. set (h := (p - 1) / 2) in *.
  assert (EM : eqm p (a ^ h mod p) (a ^ h)) by (apply eqm_mod; lia). pose proof (Z.mod_pos_bound (a ^ h) p ltac:(lia)) as B.
  assert (M1 : eqm p (-1) (p - 1)) by (replace (p - 1) with (-1 + 1 * p) by ring; apply eqm_shift).
  assert (C : a ^ h mod p = 0 \/ a ^ h mod p = 1 \/ a ^ h mod p = p - 1).
  { destruct (Zdivide_dec p a) as [D|D].
    - left. apply Z.mod_divide; [lia|]. replace h with (Z.succ (h - 1)) by lia. rewrite Z.pow_succ_r by lia. apply Z.divide_mul_l. auto.
    - right. destruct (pow_half p a P N2 D) as [X|X]; fold h in X.
      + left. apply (eqm_small p); try lia. rewrite EM. auto.
      + right. apply (eqm_small p); try lia. rewrite EM, X. exact M1. }
  destruct (Z.eqb_spec (a ^ h mod p) (p - 1)) as [X|X].
  - split; [right; right; reflexivity|]. rewrite <- EM, X. exact M1.
  - split; [|exact EM]. unfold tri. lia.
Qed.
Lemma ls_unique a p v : prime p -> p <> 2 -> tri v -> eqm p v (a ^ ((p - 1) / 2)) -> v = ls a p.
Proof.
  intros P N2 T E. destruct (ls_spec a p P N2) as (T' & E'). apply (tri_eqm p); auto; [pose proof (prime_2 p P); lia|]. rewrite E, E'. reflexivity.
Qed.
Lemma ls_eqm a b p : prime p -> p <> 2 -> eqm p a b -> ls a p = ls b p.
Proof.
  intros P N2 E. destruct (ls_spec a p P N2) as (T & Ea). apply ls_unique; auto. rewrite Ea. apply eqm_pow; [|auto]. pose proof (odd_prime_half p P N2). lia.
Qed.
Lemma ls_mul a b p : prime p -> p <> 2 -> ls (a * b) p = ls a p * ls b p.
Proof.
  intros P N2. destruct (ls_spec a p P N2) as (T & Ea). destruct (ls_spec b p P N2) as (T' & Eb). symmetry. apply ls_unique; auto.
  - unfold tri in *. destruct T as [->|[->| ->]], T' as [->|[->| ->]]; lia.
  - rewrite Ea, Eb, Z.pow_mul_l. reflexivity.
Qed.
Lemma ls_one p : prime p -> p <> 2 -> ls 1 p = 1.
Proof. intros P N2. symmetry. apply ls_unique; auto; [right; left; reflexivity|]. rewrite Z.pow_1_l; [reflexivity|]. pose proof (odd_prime_half p P N2). lia. Qed.
Lemma ls_zero a p : prime p -> p <> 2 -> (p | a) <-> ls a p = 0.
Proof.
  intros P N2. destruct (ls_spec a p P N2) as (T & Ea). destruct (odd_prime_half p P N2) as (E & H1). split.
  - intros D. symmetry. apply ls_unique; auto; [left; reflexivity|]. symmetry. apply div_eqm. replace ((p - 1) / 2) with (Z.succ ((p - 1) / 2 - 1)) by lia.
    rewrite Z.pow_succ_r by lia. apply Z.divide_mul_l. auto.
  - intros Z0. rewrite Z0 in Ea. destruct (Zdivide_dec p a) as [D|D]; [auto|exfalso]. apply (prime_pow_ndiv p a ((p - 1) / 2)); [auto|lia|auto|].
    apply eqm_div. symmetry. auto.
Qed.
(** What the symbol says. *)
Lemma ls_legendre a p : prime p -> p <> 2 ->
  (ls a p = 0 <-> (p | a)) /\ (ls a p = 1 <-> ~ (p | a) /\ is_qr p a) /\ (ls a p = -1 <-> ~ is_qr p a).
Proof.
  intros P N2. pose proof (ls_zero a p P N2) as Z0. destruct (ls_spec a p P N2) as (T & Ea). pose proof (prime_2 p P).
  assert (Q1 : ~ (p | a) -> is_qr p a -> ls a p = 1).
  { intros D Q. symmetry. apply ls_unique; auto; [right; left; reflexivity|]. symmetry. apply euler; auto. }
  assert (Q2 : ~ is_qr p a -> ls a p = -1).
  { intros Q. symmetry. apply ls_unique; auto; [right; right; reflexivity|]. symmetry. apply euler_neg; auto. }
  assert (Q3 : ls a p = 1 -> ~ (p | a) /\ is_qr p a).
  { intros L. assert (D : ~ (p | a)) by (rewrite Z0, L; lia). split; [auto|]. apply euler; auto. rewrite <- Ea, L. reflexivity. }
  assert (Q4 : (p | a) -> is_qr p a) by (intros D; exists 0; symmetry; apply div_eqm; auto).
  split; [symmetry; exact Z0|]. split; [split; [auto|intros (? & ?); auto]|]. split; [|auto]. intros L Q. destruct (Zdivide_dec p a) as [D|D]; [apply Z0 in D; lia|].
  rewrite (Q1 D Q) in L. lia.
Qed.

(* ------------------------------------------------------------------ *)
(** * Gauss's lemma *)

Definition half (p : Z) : Z := (p - 1) / 2.
Definition halfn (p : Z) : nat := Z.to_nat (half p).
Definition gr (a p k : Z) : Z := (a * k) mod p.
Definition gab (a p k : Z) : Z := if gr a p k <=? half p then gr a p k else p - gr a p k.
Definition gm (a p k : Z) : Z := if gr a p k <=? half p then 0 else 1.

Lemma gauss a p : prime p -> p <> 2 -> ~ (p | a) ->
  Permutation (map (gab a p) (range (halfn p))) (range (halfn p)) /\ ls a p = prodZ (map (fun k => par (gm a p k)) (range (halfn p))).
Proof.
  intros P N2 N. destruct (odd_prime_half p P N2) as (E & H1). fold (half p) in E, H1. set (h := half p) in *. set (n := halfn p). assert (Hn : Z.of_nat n = h) by (unfold n, halfn; fold h; lia).
  assert (R0 : forall k, 1 <= k <= h -> 1 <= gr a p k <= p - 1).
  { intros k K. unfold gr. pose proof (Z.mod_pos_bound (a * k) p ltac:(lia)). assert ((a * k) mod p <> 0); [|lia]. intros X. apply Z.mod_divide in X; [|lia].
    apply prime_mult in X; [|auto]. destruct X as [X|X]; [auto|]. apply Z.divide_pos_le in X; lia. }
  assert (RE : forall k, eqm p (gr a p k) (a * k)) by (intros k; apply eqm_mod; lia).
  assert (AB : forall k, eqm p (a * k) (par (gm a p k) * gab a p k)).
  { intros k. rewrite <- RE. unfold gm, gab. fold h. destruct (Z.leb_spec (gr a p k) h); unfold par; cbn [Z.even]; [rewrite Z.mul_1_l; reflexivity|].
    replace (-1 * (p - gr a p k)) with (gr a p k + (-1) * p) by ring. apply eqm_shift. }
  assert (PM : Permutation (map (gab a p) (range n)) (range n)).
  { apply range_perm; rewrite Hn.
    - intros k K. specialize (R0 k K). unfold gab. fold h. destruct (Z.leb_spec (gr a p k) h); lia.
    - intros x y X Y G. pose proof (AB x) as Ax. pose proof (AB y) as Ay. rewrite G in Ax.
      assert (Q : eqm p x y \/ eqm p x (- y)).
      { destruct (sign_par (gm a p x)) as [S1|S1], (sign_par (gm a p y)) as [S2|S2]; rewrite S1 in Ax; rewrite S2 in Ay; [left|right|right|left]; apply (eqm_cancel p _ _ a P N); rewrite ?Z.mul_opp_r, Ax, Ay;
          try reflexivity; replace (- (-1 * gab a p y)) with (1 * gab a p y) by ring; replace (- (1 * gab a p y)) with (-1 * gab a p y) by ring; reflexivity. }
      destruct Q as [Q|Q]; [apply (eqm_small p); auto; lia|]. exfalso. apply eqm_minus, eqm_div in Q. replace (x - - y) with (x + y) in Q by ring.
      apply Z.divide_pos_le in Q; lia. }
  split; [exact PM|]. symmetry. apply ls_unique; [auto|auto| |].
  - apply sign_tri, sign_prod. intros x _. apply sign_par.
  - fold (half p) h. apply prodZ_perm in PM. apply (eqm_cancel p _ _ (prodZ (range n))); [auto| |].
    + apply prodZ_ndiv; [auto|]. intros x. apply range_ndiv; lia.
    + rewrite <- PM at 1. rewrite Z.mul_comm, <- (prodZ_mul (fun k => par (gm a p k)) (gab a p)).
      rewrite <- (prodZ_eqm p (fun k => a * k)) by (intros; apply AB). rewrite (prodZ_mul (fun _ => a) (fun x => x)), prodZ_const, range_length, map_id, Hn, Z.mul_comm. reflexivity.
Qed.

(** The parities: a k = p floor + r, r = |r| + m modulo 2. *)
Lemma gauss_parity a p : prime p -> p <> 2 -> ~ (p | a) ->
  prodZ (map (fun k => par (a * k)) (range (halfn p))) =
  prodZ (map (fun k => par (a * k / p)) (range (halfn p))) * prodZ (map par (range (halfn p))) * ls a p.
Proof.
  intros P N2 N. destruct (gauss a p P N2 N) as (PM & L). rewrite L. destruct (odd_prime_half p P N2) as (E & H1).
  assert (PP : prodZ (map (fun k => par (gab a p k)) (range (halfn p))) = prodZ (map par (range (halfn p)))).
  { rewrite <- (map_map (gab a p) par). apply prodZ_perm. apply Permutation_map. exact PM. }
  rewrite <- PP, <- !prodZ_mul. apply prodZ_ext. intros k _. assert (OP : Z.odd p = true) by (rewrite E; rewrite Z.odd_add, Z.odd_mul; reflexivity).
  rewrite (Z.div_mod (a * k) p) at 1 by lia. rewrite par_add, par_mul_odd by auto. rewrite <- Z.mul_assoc. f_equal. fold (gr a p k).
  unfold gab, gm. destruct (gr a p k <=? half p); [unfold par at 3; cbn [Z.even]; ring|]. rewrite <- Z.add_opp_r, par_add, par_opp.
  assert (par p = -1) as -> by (unfold par; rewrite <- Z.negb_odd, OP; reflexivity). unfold par at 3. cbn [Z.even]. ring.
Qed.
Lemma eisenstein a p : prime p -> p <> 2 -> ~ (p | a) -> Z.odd a = true -> ls a p = prodZ (map (fun k => par (a * k / p)) (range (halfn p))).
Proof.
  intros P N2 N O. pose proof (gauss_parity a p P N2 N) as G. rewrite (prodZ_ext _ par) in G by (intros; apply par_mul_odd; auto).
  set (A := prodZ (map par (range (halfn p)))) in *. set (F := prodZ (map (fun k => par (a * k / p)) (range (halfn p)))) in *.
  assert (SA : sign A) by (apply sign_prod; intros; apply sign_par). assert (SF : sign F) by (apply sign_prod; intros; apply sign_par).
  destruct SA as [-> | ->], SF as [-> | ->]; lia.
Qed.

(** The second supplement. *)
Definition chi8 (p : Z) : Z := if (p mod 8 =? 3) || (p mod 8 =? 5) then -1 else 1.
Lemma tri_par n : prodZ (map par (range n)) = chi8 (2 * Z.of_nat n + 1).
Proof.
  assert (G : forall m, prodZ (map par (range (4 * m))) = 1).
  { assert (ST : forall k, prodZ (map par (range (S k))) = prodZ (map par (range k)) * par (Z.of_nat (S k))).
    { intros k. unfold range. rewrite seq_S, !map_app, prodZ_app. cbn [map]. rewrite prodZ_cons, prodZ_nil. cbn [Nat.add]. ring. }
    induction m as [|m IH]; [reflexivity|]. replace (4 * S m)%nat with (S (S (S (S (4 * m))))) by lia. rewrite !ST, IH.
    unfold par. replace (Z.of_nat (S (4 * m))) with (2 * (2 * Z.of_nat m) + 1) by lia. replace (Z.of_nat (S (S (4 * m)))) with (2 * (2 * Z.of_nat m + 1)) by lia.
    replace (Z.of_nat (S (S (S (4 * m))))) with (2 * (2 * Z.of_nat m + 1) + 1) by lia. replace (Z.of_nat (S (S (S (S (4 * m)))))) with (2 * (2 * Z.of_nat m + 2)) by lia.
    rewrite !Z.even_add, !Z.even_mul. reflexivity. }
  assert (ST : forall k, prodZ (map par (range (S k))) = prodZ (map par (range k)) * par (Z.of_nat (S k))).
  { intros k. unfold range. rewrite seq_S, !map_app, prodZ_app. cbn [map]. rewrite prodZ_cons, prodZ_nil. cbn [Nat.add]. ring. }
  pose proof (Nat.div_mod n 4 ltac:(lia)) as D. pose proof (Nat.mod_upper_bound n 4 ltac:(lia)) as B. set (m := (n / 4)%nat) in *.
  assert (C : (n = 4 * m \/ n = S (4 * m) \/ n = S (S (4 * m)) \/ n = S (S (S (4 * m))))%nat) by lia. clear D B. clearbody m.
  unfold chi8. destruct C as [->|[->|[->| ->]]]; rewrite ?ST, G; unfold par.
  - replace (2 * Z.of_nat (4 * m) + 1) with (1 + Z.of_nat m * 8) by lia. rewrite Z_mod_plus_full. reflexivity.
  - replace (2 * Z.of_nat (S (4 * m)) + 1) with (3 + Z.of_nat m * 8) by lia. rewrite Z_mod_plus_full.
    replace (Z.of_nat (S (4 * m))) with (2 * (2 * Z.of_nat m) + 1) by lia. rewrite !Z.even_add, !Z.even_mul. reflexivity.
  - replace (2 * Z.of_nat (S (S (4 * m))) + 1) with (5 + Z.of_nat m * 8) by lia. rewrite Z_mod_plus_full.
    replace (Z.of_nat (S (4 * m))) with (2 * (2 * Z.of_nat m) + 1) by lia. replace (Z.of_nat (S (S (4 * m)))) with (2 * (2 * Z.of_nat m + 1)) by lia.
    rewrite !Z.even_add, !Z.even_mul. reflexivity.
  - replace (2 * Z.of_nat (S (S (S (4 * m)))) + 1) with (7 + Z.of_nat m * 8) by lia. rewrite Z_mod_plus_full.
    replace (Z.of_nat (S (4 * m))) with (2 * (2 * Z.of_nat m) + 1) by lia. replace (Z.of_nat (S (S (4 * m)))) with (2 * (2 * Z.of_nat m + 1)) by lia.
    replace (Z.of_nat (S (S (S (4 * m))))) with (2 * (2 * Z.of_nat m + 1) + 1) by lia. rewrite !Z.even_add, !Z.even_mul. reflexivity.
Qed.
Lemma sign_chi8 p : sign (chi8 p). Proof. unfold chi8, sign. destruct ((p mod 8 =? 3) || (p mod 8 =? 5)); auto. Qed.
Lemma ls_2 p : prime p -> p <> 2 -> ls 2 p = chi8 p.
Proof.
  intros P N2. destruct (odd_prime_half p P N2) as (E & H1). fold (half p) in E, H1.
  assert (N : ~ (p | 2)) by (intros D; apply Z.divide_pos_le in D; lia).
  pose proof (gauss_parity 2 p P N2 N) as G. rewrite (prodZ_ext _ (fun _ => 1)) in G by (intros; apply par_even). rewrite prodZ_const, Z.pow_1_l in G by lia.
  rewrite (prodZ_ext (fun k => par (2 * k / p)) (fun _ => 1)) in G.
  - rewrite prodZ_const, Z.pow_1_l, tri_par in G by lia. assert (X : 2 * Z.of_nat (halfn p) + 1 = p) by (unfold halfn; lia). rewrite X in G.
    destruct (sign_chi8 p) as [Y|Y]; rewrite Y in *; lia.
  - intros k I. apply range_in in I. unfold halfn in I. rewrite Z.div_small by lia. reflexivity.
Qed.

(* ------------------------------------------------------------------ *)
(** * Reciprocity *)

Lemma count_par g N : 0 <= N <= Z.of_nat g -> prodZ (map (fun l => if l <=? N then -1 else 1) (range g)) = par N.
Proof.
  revert N. induction g as [|g IH]; intros N B.
  - assert (N = 0) as -> by lia. reflexivity.
  - unfold range. rewrite seq_S, !map_app, prodZ_app. cbn [map]. rewrite prodZ_cons, prodZ_nil. fold (range g). replace (Z.of_nat (1 + g)) with (Z.of_nat g + 1) by lia.
    destruct (Z.leb_spec (Z.of_nat g + 1) N) as [L|L].
    + assert (N = Z.of_nat g + 1) as -> by lia. rewrite par_add, <- IH by lia. rewrite (prodZ_ext _ (fun l => if l <=? Z.of_nat g then -1 else 1)); [reflexivity|].
      intros l I. apply range_in in I. destruct (Z.leb_spec l (Z.of_nat g + 1)), (Z.leb_spec l (Z.of_nat g)); lia.
    + rewrite IH by lia. ring.
Qed.
Lemma lattice p q : 0 < p -> 0 < q -> p = 2 * half p + 1 -> q = 2 * half q + 1 -> (forall k, 1 <= k <= half p -> ~ (p | q * k)) ->
  prodZ (map (fun k => par (q * k / p)) (range (halfn p))) =
  prodZ (map (fun k => prodZ (map (fun l => if p * l <? q * k then -1 else 1) (range (halfn q)))) (range (halfn p))).
Proof.
  intros P Q Ep Eq ND. apply prodZ_ext. intros k I. apply range_in in I. unfold halfn in I.
  rewrite <- (count_par (halfn q) (q * k / p)).
  - apply prodZ_ext. intros l J. apply range_in in J. unfold halfn in J. pose proof (Z.div_mod (q * k) p ltac:(lia)) as D. pose proof (Z.mod_pos_bound (q * k) p P) as B.
    assert (MZ : (q * k) mod p <> 0) by (intros X; apply Z.mod_divide in X; [apply (ND k); [lia|auto]|lia]).
    destruct (Z.leb_spec l (q * k / p)), (Z.ltb_spec (p * l) (q * k)); try reflexivity; exfalso; nia.
  - split; [apply Z.div_pos; nia|]. unfold halfn. assert (q * k / p < half q + 1); [|lia]. apply Z.div_lt_upper_bound; nia.
Qed.
Definition eps (p q : Z) : Z := if (p mod 4 =? 3) && (q mod 4 =? 3) then -1 else 1.
Lemma par_half p q : p = 2 * half p + 1 -> q = 2 * half q + 1 -> par (half p * half q) = eps p q.
Proof.
  intros Ep Eq. assert (M : forall p, p = 2 * half p + 1 -> (p mod 4 =? 3) = Z.odd (half p)).
  { intros x E. rewrite (Z.div2_odd (half x)) in E. set (d := Z.div2 (half x)) in *. destruct (Z.odd (half x)); cbn [Z.b2z] in E.
    - rewrite E. replace (2 * (2 * d + 1) + 1) with (3 + d * 4) by ring. rewrite Z_mod_plus_full. reflexivity.
    - rewrite E. replace (2 * (2 * d + 0) + 1) with (1 + d * 4) by ring. rewrite Z_mod_plus_full. reflexivity. }
  unfold eps, par. rewrite (M p Ep), (M q Eq), Z.even_mul, <- !Z.negb_odd. destruct (Z.odd (half p)), (Z.odd (half q)); reflexivity.
Qed.
Lemma reciprocity p q : prime p -> p <> 2 -> prime q -> q <> 2 -> ls q p = eps p q * ls p q.
Proof.
  intros P P2 Q Q2. destruct (odd_prime_half p P P2) as (Ep & Hp). fold (half p) in Ep, Hp. destruct (odd_prime_half q Q Q2) as (Eq & Hq). fold (half q) in Eq, Hq.
  destruct (Z.eq_dec p q) as [->|N].
  - assert (ls q q = 0) as -> by (apply ls_zero; auto; exists 1; lia). lia.
  - assert (Npq : ~ (p | q)) by (intros D; destruct (prime_divisors q Q p D) as [?|[?|[?|?]]]; lia).
    assert (Nqp : ~ (q | p)) by (intros D; destruct (prime_divisors p P q D) as [?|[?|[?|?]]]; lia).
    assert (Oq : Z.odd q = true) by (rewrite Eq, Z.odd_add, Z.odd_mul; reflexivity). assert (Op : Z.odd p = true) by (rewrite Ep, Z.odd_add, Z.odd_mul; reflexivity).
    pose proof (eisenstein q p P P2 Npq Oq) as L1. pose proof (eisenstein p q Q Q2 Nqp Op) as L2.
    assert (D1 : forall k, 1 <= k <= half p -> ~ (p | q * k)).
    { intros k K D. apply prime_mult in D; [|auto]. destruct D as [D|D]; [auto|]. apply Z.divide_pos_le in D; lia. }
    assert (D2 : forall k, 1 <= k <= half q -> ~ (q | p * k)).
    { intros k K D. apply prime_mult in D; [|auto]. destruct D as [D|D]; [auto|]. apply Z.divide_pos_le in D; lia. }
    rewrite lattice in L1 by (auto; lia). rewrite lattice in L2 by (auto; lia).
    rewrite (prodZ_swap (fun k l => if q * l <? p * k then -1 else 1)) in L2.
    assert (M : ls q p * ls p q = par (half p * half q)).
    { rewrite L1, L2, <- prodZ_mul. rewrite (prodZ_ext _ (fun _ => par (half q))).
      - rewrite prodZ_const, range_length. unfold halfn at 1. rewrite Z2Nat.id by lia. apply par_pow. lia.
      - intros k I. apply range_in in I. unfold halfn in I. rewrite <- prodZ_mul. rewrite (prodZ_ext _ (fun l => -1)).
        + rewrite prodZ_const, range_length. unfold halfn. rewrite Z2Nat.id by lia. change (-1) with (par 1). rewrite par_pow, Z.mul_1_r by lia. reflexivity.
        + intros l J. apply range_in in J. unfold halfn in J. assert (p * l <> q * k) by (intros X; apply (D1 k); [lia|]; exists l; lia).
          destruct (Z.ltb_spec (p * l) (q * k)), (Z.ltb_spec (q * k) (p * l)); lia. }
    rewrite (par_half p q Ep Eq) in M. destruct (ls_spec p q Q Q2) as (T & _). assert (NZ : ls p q <> 0) by (rewrite <- ls_zero by auto; auto).
    destruct T as [T|[T|T]]; [congruence| |]; rewrite T in *; lia.
Qed.

(* ------------------------------------------------------------------ *)
(** * The Jacobi symbol *)

Definition odd_prime (p : Z) : Prop := prime p /\ p <> 2.
Definition J (a : Z) (ps : list Z) : Z := prodZ (map (ls a) ps).
Lemma J_mul a b ps : Forall odd_prime ps -> J (a * b) ps = J a ps * J b ps.
Proof.
  intros F. unfold J. rewrite <- prodZ_mul. apply prodZ_ext. intros p I. rewrite Forall_forall in F. destruct (F p I). apply ls_mul; auto.
Qed.
Lemma J_one ps : Forall odd_prime ps -> J 1 ps = 1.
Proof.
  intros F. unfold J. rewrite (prodZ_ext _ (fun _ => 1)); [rewrite prodZ_const; apply Z.pow_1_l; lia|]. intros p I. rewrite Forall_forall in F. destruct (F p I). apply ls_one; auto.
Qed.
Lemma J_eqm a b ps : Forall odd_prime ps -> eqm (prodZ ps) a b -> J a ps = J b ps.
Proof.
  intros F E. unfold J. apply prodZ_ext. intros p I. rewrite Forall_forall in F. destruct (F p I). apply ls_eqm; auto.
  apply eqm_minus, div_eqm. apply eqm_minus, eqm_div in E. apply Z.divide_trans with (prodZ ps); [|auto].
  apply in_split in I as (l & m & ->). rewrite prodZ_app, prodZ_cons. exists (prodZ l * prodZ m). ring.
Qed.
Lemma J_zero ps : Forall odd_prime ps -> ps <> [] -> J 0 ps = 0.
Proof.
  intros F N. destruct ps as [|p ps]; [congruence|]. unfold J. cbn [map]. rewrite prodZ_cons. inversion_clear F as [|? ? [P P2] _].
  assert (ls 0 p = 0) as -> by (apply ls_zero; auto; apply Z.divide_0_r). reflexivity.
Qed.
Lemma odd_prod ps : Forall odd_prime ps -> 0 < prodZ ps /\ Z.odd (prodZ ps) = true.
Proof.
  induction 1 as [|p ps [P P2] _ (IH1 & IH2)]; [split; [reflexivity|reflexivity]|]. rewrite prodZ_cons. pose proof (prime_2 p P). split; [nia|].
  rewrite Z.odd_mul, IH2, andb_true_r. destruct (odd_prime_half p P P2) as (E & _). rewrite E, Z.odd_add, Z.odd_mul. reflexivity.
Qed.
Lemma odd_mod8 a : Z.odd a = true -> a mod 8 = 1 \/ a mod 8 = 3 \/ a mod 8 = 5 \/ a mod 8 = 7.
Proof. intros O. apply Z.odd_spec in O. destruct O as [k ->]. pose proof (Z.mod_pos_bound (2 * k + 1) 8 ltac:(lia)). pose proof (Z.div_mod (2 * k + 1) 8 ltac:(lia)). lia. Qed.
Lemma odd_mod4 a : Z.odd a = true -> a mod 4 = 1 \/ a mod 4 = 3.
Proof. intros O. apply Z.odd_spec in O. destruct O as [k ->]. pose proof (Z.mod_pos_bound (2 * k + 1) 4 ltac:(lia)). pose proof (Z.div_mod (2 * k + 1) 4 ltac:(lia)). lia. Qed.
Lemma chi8_mul a b : Z.odd a = true -> Z.odd b = true -> chi8 (a * b) = chi8 a * chi8 b.
Proof.
  intros A B. unfold chi8. rewrite (Z.mul_mod a b 8) by lia. destruct (odd_mod8 a A) as [->|[->|[->| ->]]], (odd_mod8 b B) as [->|[->|[->| ->]]]; reflexivity.
Qed.
Lemma eps_mul_l a b c : Z.odd a = true -> Z.odd b = true -> eps (a * b) c = eps a c * eps b c.
Proof.
  intros A B. unfold eps. rewrite (Z.mul_mod a b 4) by lia. destruct (odd_mod4 a A) as [->| ->], (odd_mod4 b B) as [->| ->], (c mod 4 =? 3); reflexivity.
Qed.
Lemma eps_sym a b : eps a b = eps b a.
Proof. unfold eps. rewrite andb_comm. reflexivity. Qed.
Lemma J_2 ps : Forall odd_prime ps -> J 2 ps = chi8 (prodZ ps).
Proof.
  induction 1 as [|p ps [P P2] F IH]; [reflexivity|]. unfold J in *. cbn [map]. rewrite !prodZ_cons, IH, ls_2 by auto. symmetry. apply chi8_mul; [|apply odd_prod; auto].
  destruct (odd_prime_half p P P2) as (E & _). rewrite E, Z.odd_add, Z.odd_mul. reflexivity.
Qed.
Lemma odd_prime_odd p : odd_prime p -> Z.odd p = true.
Proof. intros [P P2]. destruct (odd_prime_half p P P2) as (E & _). rewrite E, Z.odd_add, Z.odd_mul. reflexivity. Qed.
Lemma J_recip_1 p qs : odd_prime p -> Forall odd_prime qs -> ls (prodZ qs) p = eps p (prodZ qs) * J p qs.
Proof.
  intros [P P2]. induction 1 as [|q qs Q F IH].
  - rewrite prodZ_nil, ls_one by auto. unfold J. cbn [map]. rewrite prodZ_nil. unfold eps. rewrite andb_false_r. reflexivity.
  - unfold J in *. cbn [map]. rewrite !prodZ_cons, ls_mul, IH by auto. destruct Q as [Q Q2]. rewrite (reciprocity p q) by auto.
    rewrite (eps_sym p (q * prodZ qs)), eps_mul_l, (eps_sym q p), (eps_sym (prodZ qs) p); [ring|apply odd_prime_odd; split; auto|apply odd_prod; auto].
Qed.
Lemma J_recip ps qs : Forall odd_prime ps -> Forall odd_prime qs -> J (prodZ qs) ps = eps (prodZ ps) (prodZ qs) * J (prodZ ps) qs.
Proof.
  intros F G. induction F as [|p ps Pp F IH].
  - rewrite prodZ_nil, J_one by auto. reflexivity.
  - unfold J at 1. cbn [map]. rewrite prodZ_cons. fold (J (prodZ qs) ps). rewrite IH, (J_recip_1 p qs) by auto. rewrite prodZ_cons, J_mul by auto.
    rewrite eps_mul_l; [ring|apply odd_prime_odd; auto|apply odd_prod; auto].
Qed.
(** Every positive integer is a product of primes. *)
Lemma factor n : 0 < n -> exists ps, Forall prime ps /\ prodZ ps = n.
Proof.
  intros N. assert (N0 : 0 <= n) by lia. revert N. pattern n. apply Zlt_0_ind; [|exact N0]. clear n N0. intros n IH N0 N.
  destruct (Z.eq_dec n 1) as [->|N1]; [exists []; split; [constructor|reflexivity]|].
  destruct (prime_dec n) as [P|NP]; [exists [n]; split; [constructor; [exact P|constructor]|rewrite prodZ_cons, prodZ_nil; ring]|].
  destruct (not_prime_divide n ltac:(lia) NP) as (d & D & (k & K)). assert (0 < k < n) by nia.
  destruct (IH d ltac:(lia) ltac:(lia)) as (ps & F & E). destruct (IH k ltac:(lia) ltac:(lia)) as (qs & G & H').
  exists (ps ++ qs). split; [apply Forall_app; auto|]. rewrite prodZ_app, E, H'. lia.
Qed.
Lemma factor_odd n : 0 < n -> Z.odd n = true -> exists ps, Forall odd_prime ps /\ prodZ ps = n.
Proof.
  intros N O. destruct (factor n N) as (ps & F & E). exists ps. split; [|auto]. rewrite Forall_forall in *. intros p I. split; [auto|]. intros ->.
  apply in_split in I as (l & m & ->). rewrite prodZ_app, prodZ_cons in E. rewrite <- E, !Z.odd_mul in O. cbn [Z.odd] in O. rewrite andb_false_r in O. discriminate.
Qed.
