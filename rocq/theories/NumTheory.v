(** Elementary number theory over Z: congruences, Fermat's theorem, the number
    of roots of a polynomial, Euler's criterion.  Nothing here is about the
    code. *)
From Coq Require Import ZArith Znumtheory List Lia Bool Permutation Setoid Morphisms.
Import ListNotations.
Open Scope Z_scope.

(* ------------------------------------------------------------------ *)
(** * Congruences *)

Definition eqm (p a b : Z) : Prop := (p | a - b).

Lemma eqm_refl p a : eqm p a a.
Proof. exists 0. lia. Qed.
Lemma eqm_sym p a b : eqm p a b -> eqm p b a.
Proof. intros [k H]. exists (- k). lia. Qed.
Lemma eqm_trans p a b c : eqm p a b -> eqm p b c -> eqm p a c.
Proof. intros [k H] [l G]. exists (k + l). lia. Qed.
Global Instance eqm_equiv p : Equivalence (eqm p).
Proof. split; [exact (eqm_refl p)|exact (eqm_sym p)|exact (eqm_trans p)]. Qed.
Global Instance eqm_add p : Proper (eqm p ==> eqm p ==> eqm p) Z.add.
Proof. intros a b [k H] c d [l G]. exists (k + l). lia. Qed.
Global Instance eqm_sub p : Proper (eqm p ==> eqm p ==> eqm p) Z.sub.
Proof. intros a b [k H] c d [l G]. exists (k - l). lia. Qed.
Global Instance eqm_opp p : Proper (eqm p ==> eqm p) Z.opp.
Proof. intros a b [k H]. exists (- k). lia. Qed.
Global Instance eqm_mul p : Proper (eqm p ==> eqm p ==> eqm p) Z.mul.
Proof. intros a b [k H] c d [l G]. exists (k * c + b * l). replace a with (b + k * p) by lia. replace c with (d + l * p) by lia. ring. Qed.
Lemma eqm_pow p a b n : 0 <= n -> eqm p a b -> eqm p (a ^ n) (b ^ n).
Proof.
  intros N H. revert n N. apply natlike_ind; [reflexivity|]. intros n N IH. rewrite !Z.pow_succ_r by lia. rewrite IH, H. reflexivity.
Qed.
Lemma eqm_mod p a : p <> 0 -> eqm p (a mod p) a.
Proof. intros P. exists (- (a / p)). pose proof (Z.div_mod a p P). lia. Qed.
Lemma eqm_iff p a b : 0 < p -> eqm p a b <-> a mod p = b mod p.
Proof.
  intros P. split.
  - intros [k H]. replace a with (b + k * p) by lia. apply Z_mod_plus_full.
  - intros H. rewrite <- (eqm_mod p a), <- (eqm_mod p b) by lia. rewrite H. reflexivity.
Qed.
Lemma eqm_small p a b : 0 < p -> 0 <= a < p -> 0 <= b < p -> eqm p a b -> a = b.
Proof. intros P A B H. apply eqm_iff in H; [|auto]. rewrite !Z.mod_small in H by lia. auto. Qed.
Lemma eqm_0 p a : eqm p a 0 <-> (p | a).
Proof. unfold eqm. rewrite Z.sub_0_r. reflexivity. Qed.
Lemma eqm_minus p a b : eqm p (a - b) 0 <-> eqm p a b.
Proof. unfold eqm. rewrite Z.sub_0_r. reflexivity. Qed.
Lemma eqm_div p a : eqm p a 0 -> (p | a).
Proof. apply eqm_0. Qed.
Lemma div_eqm p a : (p | a) -> eqm p a 0.
Proof. apply eqm_0. Qed.
Global Opaque eqm.
Lemma eqm_p p : eqm p p 0.
Proof. apply div_eqm. exists 1. lia. Qed.

Lemma prime_2 p : prime p -> 2 <= p.
Proof. intros [H _]. lia. Qed.
Lemma eqm_integral p a b : prime p -> eqm p (a * b) 0 -> eqm p a 0 \/ eqm p b 0.
Proof. rewrite !eqm_0. intros P. apply prime_mult. auto. Qed.
Lemma eqm_cancel p a b c : prime p -> ~ (p | c) -> eqm p (c * a) (c * b) -> eqm p a b.
Proof.
  intros P N H. assert (E : eqm p (c * (a - b)) 0) by (rewrite Z.mul_sub_distr_l; apply eqm_minus; auto).
  apply eqm_integral in E; [|auto]. destruct E as [E|E]; [exfalso; apply N; apply eqm_div; auto|]. apply eqm_minus. auto.
Qed.
Lemma eqm_inv p a : prime p -> ~ (p | a) -> exists b, eqm p (a * b) 1.
Proof.
  intros P N. assert (R : rel_prime p a) by (apply prime_rel_prime; auto).
  apply rel_prime_bezout in R. destruct R as [u v E]. exists v. apply eqm_minus, div_eqm. exists (- u). lia.
Qed.
Lemma eqm_sqr p a b : prime p -> eqm p (a * a) (b * b) -> eqm p a b \/ eqm p a (- b).
Proof.
  intros P H. assert (E : eqm p ((a - b) * (a + b)) 0) by (replace ((a - b) * (a + b)) with (a * a - b * b) by ring; apply eqm_minus; auto).
  apply eqm_integral in E; [|auto]. destruct E as [E|E]; [left|right]; apply eqm_minus; [auto|]. replace (a - - b) with (a + b) by ring. auto.
Qed.
Lemma prime_pow_ndiv p a n : prime p -> 0 <= n -> ~ (p | a) -> ~ (p | a ^ n).
Proof.
  intros P N H. revert n N. apply natlike_ind.
  - intros D. apply Z.divide_pos_le in D; [|lia]. pose proof (prime_2 p P). change (a ^ 0) with 1 in D. lia.
  - intros n N IH D. rewrite Z.pow_succ_r in D by lia. apply prime_mult in D; tauto.
Qed.

(* ------------------------------------------------------------------ *)
(** * Products and sums over lists *)

Definition prodZ (l : list Z) : Z := fold_right Z.mul 1 l.
Definition sumZ (l : list Z) : Z := fold_right Z.add 0 l.
Definition range (n : nat) : list Z := map Z.of_nat (seq 1 n).

Lemma range_in n x : In x (range n) <-> 1 <= x <= Z.of_nat n.
Proof.
  unfold range. rewrite in_map_iff. split.
  - intros (k & <- & I). apply in_seq in I. lia.
  - intros H. exists (Z.to_nat x). split; [lia|]. apply in_seq. lia.
Qed.
Lemma range_nodup n : NoDup (range n).
Proof. unfold range. apply FinFun.Injective_map_NoDup; [intros a b; lia|apply seq_NoDup]. Qed.
Lemma range_length n : length (range n) = n.
Proof. unfold range. rewrite map_length, seq_length. reflexivity. Qed.

Lemma prodZ_cons x l : prodZ (x :: l) = x * prodZ l. Proof. reflexivity. Qed.
Lemma sumZ_cons x l : sumZ (x :: l) = x + sumZ l. Proof. reflexivity. Qed.
Lemma prodZ_nil : prodZ [] = 1. Proof. reflexivity. Qed.
Lemma sumZ_nil : sumZ [] = 0. Proof. reflexivity. Qed.
Lemma prodZ_app l m : prodZ (l ++ m) = prodZ l * prodZ m.
Proof. induction l as [|x l IH]; cbn [app]; [rewrite prodZ_nil; ring|]. rewrite !prodZ_cons, IH. ring. Qed.
Lemma sumZ_app l m : sumZ (l ++ m) = sumZ l + sumZ m.
Proof. induction l as [|x l IH]; cbn [app]; [rewrite sumZ_nil; ring|]. rewrite !sumZ_cons, IH. ring. Qed.
Lemma prodZ_perm l m : Permutation l m -> prodZ l = prodZ m.
Proof. induction 1; rewrite ?prodZ_cons; try congruence; ring. Qed.
Lemma sumZ_perm l m : Permutation l m -> sumZ l = sumZ m.
Proof. induction 1; rewrite ?sumZ_cons; try congruence; ring. Qed.
Lemma prodZ_eqm p (f g : Z -> Z) l : (forall x, In x l -> eqm p (f x) (g x)) -> eqm p (prodZ (map f l)) (prodZ (map g l)).
Proof.
  induction l as [|x l IH]; intros H; [reflexivity|]. cbn [map]. rewrite !prodZ_cons.
  rewrite IH by (intros; apply H; right; auto). rewrite (H x) by (left; auto). reflexivity.
Qed.
Lemma prodZ_mul (f g : Z -> Z) l : prodZ (map (fun x => f x * g x) l) = prodZ (map f l) * prodZ (map g l).
Proof. induction l as [|x l IH]; cbn [map]; [reflexivity|]. rewrite !prodZ_cons, IH. ring. Qed.
Lemma prodZ_const (c : Z) (l : list Z) : prodZ (map (fun _ => c) l) = c ^ Z.of_nat (length l).
Proof.
  induction l as [|x l IH]; [reflexivity|]. cbn [map length]. rewrite prodZ_cons, IH.
  rewrite Nat2Z.inj_succ, Z.pow_succ_r by lia. reflexivity.
Qed.
Lemma prodZ_ndiv p l : prime p -> (forall x, In x l -> ~ (p | x)) -> ~ (p | prodZ l).
Proof.
  intros P. induction l as [|x l IH]; intros H D.
  - apply Z.divide_pos_le in D; [|cbn; lia]. pose proof (prime_2 p P). cbn in D. lia.
  - rewrite prodZ_cons in D. apply prime_mult in D; [|auto]. destruct D as [D|D]; [apply (H x); [left|]; auto|].
    apply IH; [intros; apply H; right|]; auto.
Qed.
Lemma prodZ_div p l : prime p -> (p | prodZ l) -> exists x, In x l /\ (p | x).
Proof.
  intros P. induction l as [|x l IH]; intros D.
  - apply Z.divide_pos_le in D; [|cbn; lia]. pose proof (prime_2 p P). cbn in D. lia.
  - rewrite prodZ_cons in D. apply prime_mult in D; [|auto]. destruct D as [D|D]; [exists x; split; [left|]; auto|].
    destruct (IH D) as (y & I & Dy). exists y. split; [right|]; auto.
Qed.

(** An injective map of a range into itself is a permutation. *)
Lemma range_perm n (f : Z -> Z) : (forall x, 1 <= x <= Z.of_nat n -> 1 <= f x <= Z.of_nat n) ->
  (forall x y, 1 <= x <= Z.of_nat n -> 1 <= y <= Z.of_nat n -> f x = f y -> x = y) -> Permutation (map f (range n)) (range n).
Proof.
  intros F I. apply NoDup_Permutation_bis.
  - assert (G : forall l, (forall x, In x l -> 1 <= x <= Z.of_nat n) -> NoDup l -> NoDup (map f l)).
    { induction l as [|x l IH]; intros B ND; [constructor|]. inversion ND as [|? ? N1 N2]; subst. cbn [map]. constructor.
      - intros J. apply in_map_iff in J as (y & E & J). apply N1. rewrite <- (I y x); [auto|apply B; right; auto|apply B; left; auto|auto].
      - apply IH; [intros; apply B; right; auto|auto]. }
    apply G; [intros x; apply range_in|apply range_nodup].
  - rewrite map_length. reflexivity.
  - intros y J. apply in_map_iff in J as (x & <- & J). apply range_in. apply F. apply range_in. auto.
Qed.

(* ------------------------------------------------------------------ *)
(** * Fermat *)

Lemma range_ndiv p n x : 0 < p -> Z.of_nat n < p -> In x (range n) -> ~ (p | x).
Proof. intros P N I D. apply range_in in I. apply Z.divide_pos_le in D; lia. Qed.
Lemma fermat p a : prime p -> ~ (p | a) -> eqm p (a ^ (p - 1)) 1.
Proof.
  intros P N. pose proof (prime_2 p P). set (n := Z.to_nat (p - 1)). assert (Hn : Z.of_nat n = p - 1) by (unfold n; lia).
  assert (PM : Permutation (map (fun x => (a * x) mod p) (range n)) (range n)).
  { apply range_perm.
    - intros x X. pose proof (Z.mod_pos_bound (a * x) p ltac:(lia)). assert ((a * x) mod p <> 0); [|lia]. intros E.
      apply Z.mod_divide in E; [|lia]. apply prime_mult in E; [|auto]. destruct E as [E|E]; [auto|]. apply Z.divide_pos_le in E; lia.
    - intros x y X Y E. apply eqm_iff in E; [|lia]. apply eqm_cancel in E; auto. apply (eqm_small p); auto; lia. }
  apply prodZ_perm in PM. apply (eqm_cancel p _ _ (prodZ (range n))); [auto| |].
  - apply prodZ_ndiv; [auto|]. intros x. apply range_ndiv; lia.
  - rewrite Z.mul_1_r. rewrite <- PM at 2. rewrite (prodZ_eqm p _ (fun x => a * x)) by (intros; apply eqm_mod; lia).
    rewrite (prodZ_mul (fun _ => a) (fun x => x)), prodZ_const, range_length, map_id, Hn, Z.mul_comm. reflexivity.
Qed.

(* ------------------------------------------------------------------ *)
(** * Roots of a polynomial modulo a prime (coefficients, constant first) *)

Fixpoint peval (f : list Z) (x : Z) : Z := match f with [] => 0 | c :: f' => c + x * peval f' x end.
(** Synthetic division by X - r: quotient. *)
Fixpoint pdiv (f : list Z) (r : Z) : list Z := match f with [] => [] | c :: f' => match f' with [] => [] | _ => peval f' r :: pdiv f' r end end.
Lemma pdiv_spec f r x : peval f x - peval f r = (x - r) * peval (pdiv f r) x.
Proof.
  induction f as [|c f IH]; [cbn; ring|]. destruct f as [|d f]; [cbn; ring|]. change (pdiv (c :: d :: f) r) with (peval (d :: f) r :: pdiv (d :: f) r).
  change (peval (c :: d :: f) x) with (c + x * peval (d :: f) x). change (peval (c :: d :: f) r) with (c + r * peval (d :: f) r).
  set (A := peval (d :: f) x) in *. set (B := peval (d :: f) r) in *. cbn [peval]. set (G := peval (pdiv (d :: f) r) x) in *.
  replace (x * A) with (x * (A - B) + x * B) by ring. rewrite IH. ring.
Qed.
Lemma pdiv_length f r : length (pdiv f r) = pred (length f).
Proof. induction f as [|c f IH]; [reflexivity|]. destruct f as [|d f]; [reflexivity|]. change (pdiv (c :: d :: f) r) with (peval (d :: f) r :: pdiv (d :: f) r). cbn [length] in *. rewrite IH. reflexivity. Qed.
Lemma pdiv_last f r : (2 <= length f)%nat -> last (pdiv f r) 0 = last f 0.
Proof.
  induction f as [|c f IH]; [cbn; lia|]. destruct f as [|d f]; [cbn; lia|]. intros _. change (pdiv (c :: d :: f) r) with (peval (d :: f) r :: pdiv (d :: f) r).
  destruct f as [|e f]; [cbn; lia|]. specialize (IH ltac:(cbn; lia)). change (last (c :: d :: e :: f) 0) with (last (d :: e :: f) 0). rewrite <- IH.
  change (pdiv (d :: e :: f) r) with (peval (e :: f) r :: pdiv (e :: f) r). reflexivity.
Qed.
Lemma roots_bound p : prime p -> forall n f, length f = S n -> ~ (p | last f 0) -> forall l, NoDup l -> (forall x, In x l -> 0 <= x < p /\ eqm p (peval f x) 0) ->
  (length l <= n)%nat.
Proof.
  intros P. pose proof (prime_2 p P). induction n as [|n IH]; intros f L N l ND R.
  - destruct l as [|x l]; [cbn; lia|]. exfalso. destruct (R x (or_introl eq_refl)) as (_ & E). destruct f as [|c [|? ?]]; try discriminate. cbn [last peval] in *.
    apply N. apply eqm_div. rewrite Z.mul_0_r, Z.add_0_r in E. auto.
  - destruct l as [|r l]; [cbn; lia|]. inversion ND as [|? ? N1 N2]; subst. destruct (R r (or_introl eq_refl)) as (BR & ER).
    cbn [length]. apply le_n_S. apply (IH (pdiv f r)); [rewrite pdiv_length, L; reflexivity|rewrite pdiv_last by (rewrite L; lia); auto|auto|].
    intros x I. destruct (R x (or_intror I)) as (BX & EX). split; [auto|]. pose proof (pdiv_spec f r x) as S.
    assert (E : eqm p ((x - r) * peval (pdiv f r) x) 0) by (rewrite <- S, EX, ER; reflexivity).
    apply eqm_integral in E; [|auto]. destruct E as [E|E]; [|auto]. exfalso. apply N1. assert (x = r) as <-; [|auto].
    apply (eqm_small p); auto; [lia|]. apply eqm_minus. auto.
Qed.

(* ------------------------------------------------------------------ *)
(** * Euler's criterion *)

Definition is_qr (p a : Z) : Prop := exists x, eqm p (x * x) a.

Lemma odd_prime_half p : prime p -> p <> 2 -> p = 2 * ((p - 1) / 2) + 1 /\ 1 <= (p - 1) / 2.
Proof.
  intros P N. pose proof (prime_2 p P). assert (O : Z.odd p = true).
  { destruct (Z.odd p) eqn:E; [auto|]. exfalso. rewrite <- Z.negb_even in E. apply negb_false_iff in E. apply Z.even_spec in E. destruct E as [k E].
    assert (D : (2 | p)) by (exists k; lia). destruct (prime_divisors p P 2 D) as [?|[?|[?|?]]]; lia. }
  apply Z.odd_spec in O. destruct O as [k O]. subst p. replace (2 * k + 1 - 1) with (k * 2) by lia. rewrite Z.div_mul by lia. lia.
Qed.
Lemma pow_half p a : prime p -> p <> 2 -> ~ (p | a) -> eqm p (a ^ ((p - 1) / 2)) 1 \/ eqm p (a ^ ((p - 1) / 2)) (-1).
Proof.
  intros P N2 N. destruct (odd_prime_half p P N2) as (E & H1). set (h := (p - 1) / 2) in *. apply (eqm_sqr p _ 1 P). rewrite <- Z.pow_add_r by lia.
  replace (h + h) with (p - 1) by lia. apply fermat; auto.
Qed.
Lemma qr_pow p a : prime p -> p <> 2 -> ~ (p | a) -> is_qr p a -> eqm p (a ^ ((p - 1) / 2)) 1.
Proof.
  intros P N2 N (x & X). destruct (odd_prime_half p P N2) as (E & H1). set (h := (p - 1) / 2) in *.
  rewrite <- (eqm_pow p _ _ h ltac:(lia) X). replace (x * x) with (x ^ 2) by ring. rewrite <- Z.pow_mul_r by lia. replace (2 * h) with (p - 1) by lia.
  apply fermat; [auto|]. intros D. apply N. apply eqm_div. rewrite <- X. apply div_eqm. apply Z.divide_mul_l. auto.
Qed.
Definition xh (h : nat) : list Z := -1 :: repeat 0 (pred h) ++ [1].
Lemma peval_repeat n g x : peval (repeat 0 n ++ g) x = x ^ Z.of_nat n * peval g x.
Proof.
  induction n as [|n IH]; [cbn [repeat app]; change (x ^ Z.of_nat 0) with 1; ring|]. cbn [repeat app peval]. rewrite IH, Nat2Z.inj_succ, Z.pow_succ_r by lia. ring.
Qed.
Lemma euler p a : prime p -> p <> 2 -> ~ (p | a) -> eqm p (a ^ ((p - 1) / 2)) 1 <-> is_qr p a.
Proof.
  intros P N2 N. split; [|apply qr_pow; auto]. destruct (odd_prime_half p P N2) as (E & H1). set (h := (p - 1) / 2) in *. intros A.
  (* the squares of 1..h are h roots of X^h - 1; with a they would be h + 1 *)
  set (hn := Z.to_nat h). assert (Hh : Z.of_nat hn = h) by (unfold hn; lia).
  set (sq := map (fun x => (x * x) mod p) (range hn)).
  destruct (in_dec Z.eq_dec (a mod p) sq) as [I|NI].
  - apply in_map_iff in I as (x & X & _). exists x. apply eqm_iff; [lia|auto].
  - exfalso. assert (LEN : (length ((a mod p)%Z :: sq) <= hn)%nat).
    { apply (roots_bound p P hn (xh hn)).
      - unfold xh. cbn [length]. rewrite app_length, repeat_length. cbn [length]. lia.
      - unfold xh. rewrite last_last || (change (last (-1 :: repeat 0 (pred hn) ++ [1]) 0) with (last ((-1 :: repeat 0 (pred hn)) ++ [1]) 0); rewrite last_last).
        intros D. apply Z.divide_pos_le in D; lia.
      - constructor; [auto|]. unfold sq. assert (G : forall l, (forall x, In x l -> 1 <= x <= h) -> NoDup l -> NoDup (map (fun x => (x * x) mod p) l)).
        { induction l as [|x l IH]; intros B ND; [constructor|]. inversion_clear ND as [|? ? M1 M2]. cbn [map]. constructor.
          - intros J. apply in_map_iff in J as (y & EY & J). apply M1. assert (x = y) as ->; [|auto]. apply eqm_iff in EY; [|lia].
            pose proof (B x (or_introl eq_refl)). pose proof (B y (or_intror J)). symmetry. apply eqm_sqr in EY; [|auto]. destruct EY as [EY|EY].
            + apply (eqm_small p); auto; lia.
            + exfalso. apply eqm_minus, eqm_div in EY. destruct EY as [k K]. assert (B1 : 0 < k * p < p) by lia. clear - B1 H1 E. destruct (Z.le_gt_cases k 0); nia.
          - apply IH; [intros; apply B; right; auto|auto]. }
        apply G; [intros x I; apply range_in in I; lia|apply range_nodup].
      - intros x [<-|I].
        + split; [apply Z.mod_pos_bound; lia|]. unfold xh. cbn [peval]. rewrite peval_repeat. cbn [peval].
          assert (eqm p ((a mod p) ^ h) 1) as Q by (rewrite (eqm_pow p _ _ h ltac:(lia) (eqm_mod p a ltac:(lia))); auto).
          replace (-1 + a mod p * ((a mod p) ^ Z.of_nat (pred hn) * (1 + a mod p * 0))) with ((a mod p) ^ h - 1).
          * rewrite Q. reflexivity.
          * rewrite <- Hh. replace (Z.of_nat hn) with (Z.succ (Z.of_nat (pred hn))) by lia. rewrite Z.pow_succ_r by lia. ring.
        + apply in_map_iff in I as (y & <- & I). apply range_in in I. split; [apply Z.mod_pos_bound; lia|]. set (x := (y * y) mod p). unfold xh. cbn [peval]. rewrite peval_repeat. cbn [peval].
          assert (eqm p (x ^ h) 1) as Q.
          { unfold x. rewrite (eqm_pow p _ _ h ltac:(lia) (eqm_mod p (y * y) ltac:(lia))). apply qr_pow; [auto|auto| |exists y; reflexivity].
            intros D. apply prime_mult in D; [|auto]. destruct D as [D|D]; apply Z.divide_pos_le in D; lia. }
          replace (-1 + x * (x ^ Z.of_nat (pred hn) * (1 + x * 0))) with (x ^ h - 1).
          * rewrite Q. reflexivity.
          * rewrite <- Hh. replace (Z.of_nat hn) with (Z.succ (Z.of_nat (pred hn))) by lia. rewrite Z.pow_succ_r by lia. ring. }
    cbn [length] in LEN. unfold sq in LEN. rewrite map_length, range_length in LEN. lia.
Qed.
Lemma euler_neg p a : prime p -> p <> 2 -> ~ is_qr p a -> eqm p (a ^ ((p - 1) / 2)) (-1).
Proof.
  intros P N2 N. assert (ND : ~ (p | a)). { intros D. apply N. exists 0. symmetry. apply div_eqm. auto. }
  destruct (pow_half p a P N2 ND) as [H|H]; [|auto]. exfalso. apply N. apply euler; auto.
Qed.
