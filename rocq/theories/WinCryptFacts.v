(** Lemmas about the Windows entropy back end. *)
From Coq Require Import ZArith List Lia Bool.
From Verif Require Import Words NatConv Rand WinCrypt SpecWin.
Import ListNotations.
Open Scope Z_scope.

Definition lsum {A : Type} (f : A -> Z) (l : list A) : Z := fold_right (fun x a => f x + a) 0 l.
Lemma lsum_app {A} (f : A -> Z) l m : lsum f (l ++ m) = lsum f l + lsum f m.
Proof. induction l as [|x l IH]; [reflexivity|]. cbn [app lsum fold_right]. unfold lsum in IH. rewrite IH. fold (lsum f l) (lsum f m). lia. Qed.
Lemma lsum_upd {A} (f : A -> Z) i x l d : (i < length l)%nat -> lsum f (upd i x l) = lsum f l - f (nth i l d) + f x.
Proof.
  revert i. induction l as [|y l IH]; intros i H; [cbn in H; lia|]. destruct i; cbn [upd nth lsum fold_right]; [lia|].
  fold (lsum f (upd i x l)) (lsum f l). rewrite IH by (cbn in H; lia). lia.
Qed.
Lemma lsum_one {A} (f : A -> Z) x : lsum f [x] = f x. Proof. cbn. lia. Qed.
Lemma lsum_nonneg {A} (f : A -> Z) l : (forall x, 0 <= f x) -> 0 <= lsum f l.
Proof. intros H. induction l as [|x l IH]; [reflexivity|]. cbn [lsum fold_right]. fold (lsum f l). specialize (H x). lia. Qed.
Lemma lsum_in {A} (f : A -> Z) i l d : (forall x, 0 <= f x) -> (i < length l)%nat -> f (nth i l d) <= lsum f l.
Proof.
  intros P. revert i. induction l as [|y l IH]; intros i H; [cbn in H; lia|]. cbn [lsum fold_right]. fold (lsum f l).
  pose proof (lsum_nonneg f l P). destruct i; cbn [nth]; [lia|]. specialize (IH i ltac:(cbn in H; lia)). specialize (P y). lia.
Qed.
Lemma lsum_zero {A} (f : A -> Z) l : (forall x, In x l -> f x = 0) -> lsum f l = 0.
Proof.
  induction l as [|x l IH]; intros F; [reflexivity|]. cbn [lsum fold_right]. fold (lsum f l). rewrite F by (left; auto). rewrite IH; [reflexivity|]. intros; apply F; right; auto.
Qed.
Lemma upd_length {A} i (x : A) l : length (upd i x l) = length l.
Proof. revert i. induction l as [|y l IH]; intros [|i]; cbn; auto. Qed.
Lemma nth_upd {A} i j (x : A) l d : (i < length l)%nat -> nth j (upd i x l) d = if Nat.eqb i j then x else nth j l d.
Proof.
  revert i j. induction l as [|y l IH]; intros i j H; [cbn in H; lia|]. destruct i, j; cbn [upd nth Nat.eqb]; auto. apply IH. cbn in H. lia.
Qed.
Lemma nth_gone i l : nth i l SGone <> SGone -> (i < length l)%nat.
Proof. intros H. destruct (Nat.lt_ge_cases i (length l)) as [|G]; [auto|]. exfalso. apply H. apply nth_overflow. auto. Qed.

Lemma balance_app h l m : balance h (l ++ m) = balance h l + balance h m.
Proof. apply (lsum_app (weight h)). Qed.

(** Variables that point to cell [c]; owners of [h]. *)
Definition points (c : nat) (x : slot) : Z := match x with SCrypt c' => if Nat.eqb c c' then 1 else 0 | _ => 0 end.
Definition own_slot (h : Z) (x : slot) : Z := match x with SHandle h' => if h =? h' then 1 else 0 | _ => 0 end.
Definition own_cell (h : Z) (k : cell) : Z := if (crefs k =? 0)%nat then 0 else if h =? chandle k then 1 else 0.
Definition owners (s : wstate) (h : Z) : Z := lsum (own_slot h) (wslots s) + lsum (own_cell h) (wcells s).
Record winv (s : wstate) : Prop := {
  w_points : forall c, (c < length (wcells s))%nat -> Z.of_nat (crefs (nth c (wcells s) (Cell 0 0))) = lsum (points c) (wslots s);
  w_dangling : forall i c, nth i (wslots s) SGone = SCrypt c -> (c < length (wcells s))%nat;
  w_balance : forall h, balance h (wlog s) = owners s h }.

Lemma points_nonneg c x : 0 <= points c x. Proof. destruct x; cbn; try lia. destruct (Nat.eqb c c0); lia. Qed.
Lemma own_slot_nonneg h x : 0 <= own_slot h x. Proof. destruct x; cbn; try lia. destruct (h =? h0); lia. Qed.
Lemma own_cell_nonneg h k : 0 <= own_cell h k. Proof. unfold own_cell. destruct (_ =? _)%nat; [lia|]. destruct (h =? _); lia. Qed.
Lemma owners_nonneg s h : 0 <= owners s h.
Proof. unfold owners. pose proof (lsum_nonneg (own_slot h) (wslots s) (own_slot_nonneg h)). pose proof (lsum_nonneg (own_cell h) (wcells s) (own_cell_nonneg h)). lia. Qed.

Lemma init_inv : winv w_init.
Proof. constructor; cbn; intros; try lia. destruct i; discriminate. Qed.
(** A variable holding a [BCrypt] keeps its cell alive. *)
Lemma crypt_alive s i c : winv s -> nth i (wslots s) SGone = SCrypt c ->
  (i < length (wslots s))%nat /\ (c < length (wcells s))%nat /\ (0 < crefs (nth c (wcells s) (Cell 0 0)))%nat.
Proof.
  intros I E. assert (L : (i < length (wslots s))%nat) by (apply nth_gone; rewrite E; discriminate). pose proof (w_dangling s I i c E) as D. split; [auto|]. split; [auto|].
  pose proof (lsum_in (points c) i (wslots s) SGone (points_nonneg c) L) as P. rewrite E in P. cbn [points] in P. rewrite Nat.eqb_refl in P.
  pose proof (w_points s I c D). lia.
Qed.

Lemma step_inv s o s' : winv s -> wstep s o = Some s' -> winv s'.
Proof.
  intros I. destruct o as [[h|]|i|i|i n|i]; cbn [wstep].
  - intros [= <-]. destruct I as [P D B]. constructor; cbn [wslots wcells wlog].
    + intros c C. rewrite lsum_app, lsum_one. cbn [points]. rewrite P by auto. lia.
    + intros j c E. destruct (Nat.lt_ge_cases j (length (wslots s))) as [L|L].
      * rewrite app_nth1 in E by auto. eauto.
      * rewrite app_nth2 in E by auto. destruct (j - length (wslots s))%nat as [|[|]]; cbn in E; discriminate.
    + intros h'. rewrite balance_app, B. unfold owners. cbn [wslots wcells]. rewrite lsum_app, lsum_one. cbn [balance fold_right weight own_slot]. lia.
  - intros [= <-]. exact I.
  - destruct (nth i (wslots s) SGone) as [h| |] eqn:E; try discriminate. intros [= <-].
    assert (L : (i < length (wslots s))%nat) by (apply nth_gone; rewrite E; discriminate).
    destruct I as [P D B]. constructor; cbn [wslots wcells wlog].
    + intros c C. rewrite app_length in C. cbn [length] in C. rewrite lsum_app, lsum_one, (lsum_upd _ i SGone _ SGone L), E. cbn [points].
      destruct (Nat.lt_ge_cases c (length (wcells s))) as [LC|LC].
      * rewrite app_nth1 by auto. rewrite P by auto. destruct (Nat.eqb_spec c (length (wcells s))); lia.
      * assert (c = length (wcells s)) as -> by lia. rewrite app_nth2, Nat.sub_diag by lia. cbn [nth crefs]. rewrite Nat.eqb_refl.
        assert (Z0 : lsum (points (length (wcells s))) (wslots s) = 0); [|lia].
        apply lsum_zero. intros x H. destruct (In_nth _ _ SGone H) as (j & _ & <-). destruct (nth j (wslots s) SGone) as [|c'|] eqn:E'; cbn [points]; auto.
        apply D in E'. destruct (Nat.eqb_spec (length (wcells s)) c'); lia.
    + intros j c E'. rewrite app_length. cbn [length]. destruct (Nat.lt_ge_cases j (length (wslots s))) as [LJ|LJ].
      * rewrite app_nth1 in E' by (rewrite upd_length; auto). rewrite nth_upd in E' by auto. destruct (Nat.eqb i j); [discriminate|]. apply D in E'. lia.
      * rewrite app_nth2 in E' by (rewrite upd_length; auto). destruct (j - length (upd i SGone (wslots s)))%nat as [|[|]]; cbn in E'; try discriminate. injection E' as <-. lia.
    + intros h'. rewrite B. unfold owners. cbn [wslots wcells]. rewrite !lsum_app, !lsum_one, (lsum_upd _ i SGone _ SGone L), E. cbn [own_slot own_cell crefs chandle].
      unfold own_cell. cbn [crefs chandle Nat.eqb]. lia.
  - destruct (nth i (wslots s) SGone) as [|c0|] eqn:E; try discriminate. destruct (crypt_alive s i c0 I E) as (L & C0 & R). cbv zeta. intros [= <-].
    destruct I as [P D B]. constructor; cbn [wslots wcells wlog].
    + intros c C. rewrite upd_length in C. rewrite nth_upd by auto. rewrite lsum_app, lsum_one. cbn [points]. rewrite (Nat.eqb_sym c c0).
      destruct (Nat.eqb_spec c0 c) as [<-|N]; cbn [crefs]; [rewrite Nat2Z.inj_succ|]; rewrite P by auto; lia.
    + intros j c E'. rewrite upd_length. destruct (Nat.lt_ge_cases j (length (wslots s))) as [LJ|LJ].
      * rewrite app_nth1 in E' by auto. eauto.
      * rewrite app_nth2 in E' by auto. destruct (j - length (wslots s))%nat as [|[|]]; cbn in E'; try discriminate. injection E' as <-. auto.
    + intros h'. rewrite B. unfold owners. cbn [wslots wcells]. rewrite lsum_app, lsum_one, (lsum_upd _ c0 _ _ (Cell 0 0) C0). cbn [own_slot]. unfold own_cell. cbn [crefs chandle].
      destruct (crefs (nth c0 (wcells s) (Cell 0 0))); [lia|]. cbn [Nat.eqb]. lia.
  - destruct (nth i (wslots s) SGone) as [|c0|] eqn:E; try discriminate. intros [= <-]. destruct I as [P D B]. constructor; cbn [wslots wcells wlog]; auto.
    intros h'. rewrite balance_app, B. cbn [balance fold_right weight]. unfold owners. cbn [wslots wcells]. lia.
  - destruct (nth i (wslots s) SGone) as [h|c0|] eqn:E; try discriminate.
    + assert (L : (i < length (wslots s))%nat) by (apply nth_gone; rewrite E; discriminate). intros [= <-]. destruct I as [P D B]. constructor; cbn [wslots wcells wlog].
      * intros c C. rewrite (lsum_upd _ i SGone _ SGone L), E. cbn [points]. rewrite P by auto. lia.
      * intros j c E'. rewrite nth_upd in E' by auto. destruct (Nat.eqb i j); [discriminate|]. eauto.
      * intros h'. rewrite balance_app, B. unfold owners. cbn [wslots wcells]. rewrite (lsum_upd _ i SGone _ SGone L), E. cbn [own_slot balance fold_right weight]. destruct (h' =? h); lia.
    + destruct (crypt_alive s i c0 I E) as (L & C0 & R). cbv zeta. intros [= <-]. destruct I as [P D B]. constructor; cbn [wslots wcells wlog].
      * intros c C. rewrite upd_length in C. rewrite nth_upd by auto. rewrite (lsum_upd _ i SGone _ SGone L), E. cbn [points]. rewrite (Nat.eqb_sym c c0).
        destruct (Nat.eqb_spec c0 c) as [<-|N]; cbn [crefs]; [rewrite Nat2Z.inj_pred by lia|]; rewrite P by auto; lia.
      * intros j c E'. rewrite upd_length. rewrite nth_upd in E' by auto. destruct (Nat.eqb i j); [discriminate|]. eauto.
      * intros h'. unfold owners. cbn [wslots wcells]. rewrite (lsum_upd _ i SGone _ SGone L), E, (lsum_upd _ c0 _ _ (Cell 0 0) C0). cbn [own_slot]. unfold own_cell at 2 3. cbn [crefs chandle].
        set (k := nth c0 (wcells s) (Cell 0 0)) in *. destruct (crefs k) as [|m]; [lia|]. cbn [Nat.pred].
        specialize (B h'). unfold owners in B. destruct m as [|m]; cbn [Nat.eqb]; [rewrite balance_app; cbn [balance fold_right weight]; destruct (h' =? chandle k)|]; lia.
Qed.
Lemma run_inv p : forall s s', winv s -> wrun s p = Some s' -> winv s'.
Proof.
  induction p as [|o p IH]; intros s s' I; cbn [wrun]; [intros [= <-]; auto|]. destruct (wstep s o) as [s1|] eqn:E; [|discriminate]. apply IH. eapply step_inv; eauto.
Qed.

(** ** The protocol *)
Lemma snoc_split {A} (l : list A) e l1 x l2 : l ++ [e] = l1 ++ x :: l2 -> (l = l1 /\ e = x /\ l2 = []) \/ (exists l3, l2 = l3 ++ [e] /\ l = l1 ++ x :: l3).
Proof.
  destruct (exists_last (l := x :: l2)) as (l3 & y & E); [discriminate|]. intros H. rewrite E in H. rewrite app_assoc in H. apply app_inj_tail in H. destruct H as (H1 & <-).
  destruct l3 as [|z l3].
  - cbn in E. left. assert (x = e) by congruence. assert (l2 = []) by congruence. rewrite app_nil_r in H1. auto.
  - right. cbn [app] in E. assert (z = x) by congruence. assert (l2 = l3 ++ [e]) by congruence. subst z. exists l3. auto.
Qed.
Lemma fresh_prefix l m : fresh_handles (l ++ m) -> fresh_handles l.
Proof. intros F l1 h l2 E. apply (F l1 h (l2 ++ m)). rewrite E, <- app_assoc. reflexivity. Qed.
Lemma fresh_le l : fresh_handles l -> forall h, balance h l <= 1.
Proof.
  induction l as [|e l IH] using rev_ind; intros F h; [cbn; lia|]. pose proof (IH (fresh_prefix _ _ F) h) as H. rewrite balance_app. cbn [balance fold_right].
  destruct e as [h'|h'|h' n]; cbn [weight]; try (destruct (h =? h'); lia); try lia.
  destruct (Z.eqb_spec h h') as [->|]; [|lia]. specialize (F l h' [] eq_refl). lia.
Qed.
(** The events a step adds: at most one, and on an owned handle. *)
Lemma step_log s o s' : winv s -> wstep s o = Some s' ->
  wlog s' = wlog s \/ exists e, wlog s' = wlog s ++ [e] /\
    match e with EOpen _ => True | EClose h | ERandom h _ => 1 <= owners s h end.
Proof.
  intros I. destruct o as [[h|]|i|i|i n|i]; cbn [wstep].
  - intros [= <-]. right. exists (EOpen h). split; [reflexivity|exact Logic.I].
  - intros [= <-]. auto.
  - destruct (nth i (wslots s) SGone); try discriminate. intros [= <-]. auto.
  - destruct (nth i (wslots s) SGone); try discriminate. intros [= <-]. auto.
  - destruct (nth i (wslots s) SGone) as [|c|] eqn:E; try discriminate. intros [= <-]. right. eexists. split; [reflexivity|]. cbn beta iota.
    destruct (crypt_alive s i c I E) as (L & C & R). unfold owners. pose proof (lsum_nonneg (own_slot (chandle (nth c (wcells s) (Cell 0 0)))) (wslots s) (own_slot_nonneg _)).
    pose proof (lsum_in (own_cell (chandle (nth c (wcells s) (Cell 0 0)))) c (wcells s) (Cell 0 0) (own_cell_nonneg _) C) as P. unfold own_cell in P at 1. rewrite Z.eqb_refl in P.
    destruct (Nat.eqb_spec (crefs (nth c (wcells s) (Cell 0 0))) 0); lia.
  - destruct (nth i (wslots s) SGone) as [h|c|] eqn:E; try discriminate.
    + intros [= <-]. right. eexists. split; [reflexivity|]. cbn beta iota. assert (L : (i < length (wslots s))%nat) by (apply nth_gone; rewrite E; discriminate).
      pose proof (lsum_in (own_slot h) i (wslots s) SGone (own_slot_nonneg _) L) as P. rewrite E in P. cbn [own_slot] in P. rewrite Z.eqb_refl in P.
      unfold owners. pose proof (lsum_nonneg (own_cell h) (wcells s) (own_cell_nonneg _)). lia.
    + cbv zeta. intros [= <-]. cbn [wlog]. destruct (Nat.pred _ =? 0)%nat; [|auto]. right. eexists. split; [reflexivity|]. cbn beta iota.
      destruct (crypt_alive s i c I E) as (L & C & R). unfold owners. pose proof (lsum_nonneg (own_slot (chandle (nth c (wcells s) (Cell 0 0)))) (wslots s) (own_slot_nonneg _)).
      pose proof (lsum_in (own_cell (chandle (nth c (wcells s) (Cell 0 0)))) c (wcells s) (Cell 0 0) (own_cell_nonneg _) C) as P. unfold own_cell in P at 1. rewrite Z.eqb_refl in P.
      destruct (Nat.eqb_spec (crefs (nth c (wcells s) (Cell 0 0))) 0); lia.
Qed.
Lemma step_proper s o s' : winv s -> proper_use (wlog s) -> wstep s o = Some s' -> fresh_handles (wlog s') -> proper_use (wlog s').
Proof.
  intros I (U1 & U2) E F. destruct (step_log s o s' I E) as [->|(e & EL & O)]; [split; auto|].
  rewrite EL in *. pose proof (fresh_le _ (fresh_prefix _ _ F)) as LE. split.
  - intros l1 h l2 X. destruct (snoc_split _ _ _ _ _ X) as [(<- & -> & ->)|(l3 & -> & Y)]; [|eauto].
    pose proof (w_balance s I h). specialize (LE h). lia.
  - intros l1 h n l2 X. destruct (snoc_split _ _ _ _ _ X) as [(<- & -> & ->)|(l3 & -> & Y)]; [|eauto].
    pose proof (w_balance s I h). specialize (LE h). lia.
Qed.
Lemma step_extends s o s' : winv s -> wstep s o = Some s' -> exists m, wlog s' = wlog s ++ m.
Proof. intros I E. destruct (step_log s o s' I E) as [->|(e & -> & _)]; [exists []; rewrite app_nil_r; auto|eauto]. Qed.
Lemma run_extends p : forall s s', winv s -> wrun s p = Some s' -> exists m, wlog s' = wlog s ++ m.
Proof.
  induction p as [|o p IH]; intros s s' I; cbn [wrun]; [intros [= <-]; exists []; rewrite app_nil_r; auto|].
  destruct (wstep s o) as [s1|] eqn:E; [|discriminate]. intros R. destruct (step_extends _ _ _ I E) as (m1 & M1).
  destruct (IH s1 s' (step_inv _ _ _ I E) R) as (m2 & M2). exists (m1 ++ m2). rewrite M2, M1, app_assoc. reflexivity.
Qed.
Lemma run_proper p : forall s s', winv s -> proper_use (wlog s) -> wrun s p = Some s' -> fresh_handles (wlog s') -> proper_use (wlog s').
Proof.
  induction p as [|o p IH]; intros s s' I U; cbn [wrun]; [intros [= <-]; auto|]. destruct (wstep s o) as [s1|] eqn:E; [|discriminate]. intros R F.
  pose proof (step_inv _ _ _ I E) as I1. destruct (run_extends p s1 s' I1 R) as (m & M). apply (IH s1 s' I1); auto.
  apply (step_proper s o s1 I U E). rewrite M in F. exact (fresh_prefix _ _ F).
Qed.
(** Owned means reachable from a variable. *)
Lemma sum_pos {A} (f : A -> Z) l : (forall x, 0 <= f x) -> 0 < lsum f l -> exists x, In x l /\ 0 < f x.
Proof.
  intros P. induction l as [|x l IH]; cbn [lsum fold_right]; [lia|]. fold (lsum f l). intros H. destruct (Z.eq_dec (f x) 0) as [E|E].
  - destruct IH as (y & A1 & A2); [lia|]. exists y. split; [right|]; auto.
  - exists x. split; [left; auto|]. specialize (P x). lia.
Qed.
Lemma owned_reached s h : winv s -> 0 < owners s h <-> exists x, In x (wslots s) /\ reaches s x h.
Proof.
  intros I. split.
  - unfold owners. intros H. assert (C : 0 < lsum (own_slot h) (wslots s) \/ 0 < lsum (own_cell h) (wcells s)).
    { pose proof (lsum_nonneg (own_slot h) (wslots s) (own_slot_nonneg h)). lia. }
    destruct C as [C|C].
    + destruct (sum_pos _ _ (own_slot_nonneg h) C) as (x & X & Y). exists x. split; [auto|]. destruct x as [h'| |]; cbn [own_slot reaches] in *; try lia. destruct (Z.eqb_spec h h'); [auto|lia].
    + destruct (sum_pos _ _ (own_cell_nonneg h) C) as (k & X & Y). destruct (In_nth _ _ (Cell 0 0) X) as (c & LC & N). unfold own_cell in Y.
      destruct (Nat.eqb_spec (crefs k) 0) as [|R]; [lia|]. destruct (Z.eqb_spec h (chandle k)) as [->|]; [|lia].
      pose proof (w_points s I c LC) as P. rewrite N in P. destruct (sum_pos (points c) (wslots s) (points_nonneg c)) as (x & A1 & A2); [lia|].
      exists x. split; [auto|]. destruct x as [|c'|]; cbn [points reaches] in *; try lia. destruct (Nat.eqb_spec c c') as [<-|]; [|lia].
      exists k. split; [|reflexivity]. rewrite <- N. apply nth_error_nth'. auto.
  - intros (x & X & R). unfold owners. pose proof (lsum_nonneg (own_slot h) (wslots s) (own_slot_nonneg h)). pose proof (lsum_nonneg (own_cell h) (wcells s) (own_cell_nonneg h)).
    destruct (In_nth _ _ SGone X) as (i & L & N). destruct x as [h'|c|]; cbn [reaches] in R; [| |contradiction].
    + pose proof (lsum_in (own_slot h) i (wslots s) SGone (own_slot_nonneg h) L) as P. rewrite N in P. cbn [own_slot] in P. subst h'. rewrite Z.eqb_refl in P. lia.
    + destruct R as (k & K & E). destruct (crypt_alive s i c I N) as (_ & C & R). apply (nth_error_nth _ _ (Cell 0 0)) in K. rewrite K in R.
      pose proof (lsum_in (own_cell h) c (wcells s) (Cell 0 0) (own_cell_nonneg h) C) as P. rewrite K in P. unfold own_cell in P at 1. rewrite E, Z.eqb_refl in P.
      destruct (Nat.eqb_spec (crefs k) 0); lia.
Qed.
