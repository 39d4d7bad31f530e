(** Facts about entropy handles. *)
From Coq Require Import ZArith List Lia Bool Permutation.
From Verif Require Import Words Rand RandFacts2 RandClone SpecRandClone.
Import ListNotations.
Open Scope Z_scope.

Lemma set_queue_perm qs : forall h q q', nth_error qs h = Some q -> Permutation (q ++ concat (set_queue qs h q')) (q' ++ concat qs).
Proof.
  induction qs as [|a qs IH]; intros [|h] q q' H; cbn [nth_error set_queue concat] in *; try discriminate H.
  - injection H as <-. apply Permutation_app_swap_app.
  - etransitivity; [apply Permutation_app_swap_app|]. etransitivity; [apply Permutation_app_head, IH; exact H|]. apply Permutation_app_swap_app.
Qed.
Lemma handed_app a b : handed (a ++ b) = handed a ++ handed b.
Proof. apply flat_map_app. Qed.

Lemma cstep_account qs c os qs' : cstep qs c = Ok (os, qs') -> within c ->
  Permutation (concat qs ++ call_bytes c ++ match c with CClone h => nth h qs [] | _ => [] end) (handed os ++ concat qs').
Proof.
  destruct c as [|h|h sys buf]; cbn [cstep call_bytes within].
  - intros [= <- <-] _. cbn [handed flat_map app]. rewrite concat_app. cbn [concat app]. rewrite !app_nil_r. reflexivity.
  - destruct (nth_error qs h) as [q|] eqn:E; [|discriminate]. intros [= <- <-] _. cbn [handed flat_map app]. rewrite concat_app. cbn [concat]. rewrite app_nil_r, (nth_error_nth _ _ [] E). reflexivity.
  - destruct (nth_error qs h) as [q|] eqn:E; [|discriminate]. intros H L.
    assert (L' : (length (sys_bytes sys) <= length buf)%nat) by (destruct sys; [exact L|cbn; lia]).
    pose proof (gen_random_spec q sys buf L') as G. destruct (gen_random q sys buf) as [[ok out] q']. injection H as <- <-.
    rewrite app_nil_r. change (match sys with Some bs => bs | None => [] end) with (sys_bytes sys). unfold handed. cbn [flat_map fst snd]. rewrite app_nil_r.
    assert (P : Permutation (q ++ sys_bytes sys) ((if ok then out else []) ++ q')).
    { destruct ok.
      - destruct G as (_ & G). rewrite (Permutation_rev q), G. apply Permutation_app_head. symmetry. apply Permutation_rev.
      - destruct G as (G & _). rewrite (Permutation_rev q), <- G. symmetry. apply Permutation_rev. }
    apply Permutation_app_inv_l with (l := q). rewrite (Permutation_app_comm (concat qs)), app_assoc, P, <- app_assoc.
    rewrite (Permutation_app_swap_app q). apply Permutation_app_head. symmetry. apply set_queue_perm. exact E.
Qed.
Lemma crun_account : forall cs qs os qs', crun qs cs = Ok (os, qs') -> Forall within cs ->
  Permutation (concat qs ++ given cs ++ copied qs cs) (handed os ++ concat qs').
Proof.
  induction cs as [|c cs IH]; intros qs os qs' H W; cbn [crun] in H.
  - injection H as <- <-. cbn [given flat_map copied handed app]. rewrite app_nil_r. reflexivity.
  - inversion W as [|? ? W1 W2]; subst. destruct (cstep qs c) as [[o qs1]| |] eqn:E; cbn [bind] in H; try discriminate H.
    destruct (crun qs1 cs) as [[os1 qs2]| |] eqn:F; cbn [bind] in H; try discriminate H. injection H as <- <-.
    rewrite handed_app, <- app_assoc, <- (IH _ _ _ F W2). cbn [copied]. rewrite E.
    change (given (c :: cs)) with (call_bytes c ++ given cs).
    rewrite (app_assoc (handed o)), <- (cstep_account _ _ _ _ E W1).
    set (d := match c with CClone h => nth h qs [] | _ => [] end). rewrite <- !app_assoc. do 2 apply Permutation_app_head.
    apply Permutation_app_swap_app.
Qed.

Lemma set_queue_in qs : forall h q x, In x (set_queue qs h q) -> x = q \/ In x qs.
Proof. induction qs as [|a qs IH]; intros [|h] q x H; cbn [set_queue In] in *; [tauto|tauto|intuition|]. destruct H as [H|H]; [tauto|]. apply IH in H. tauto. Qed.
(** With all-or-nothing calls the queues stay empty. *)
Lemma aon_empty : forall cs qs os qs', crun qs cs = Ok (os, qs') -> Forall all_or_nothing cs -> (forall q, In q qs -> q = []) ->
  copied qs cs = [] /\ forall q, In q qs' -> q = [].
Proof.
  induction cs as [|c cs IH]; intros qs os qs' H W I; cbn [crun] in H; [injection H as <- <-; auto|].
  inversion W as [|? ? W1 W2]; subst. destruct (cstep qs c) as [[o qs1]| |] eqn:E; cbn [bind] in H; try discriminate H.
  destruct (crun qs1 cs) as [[os1 qs2]| |] eqn:F; cbn [bind] in H; try discriminate H. injection H as <- <-.
  cbn [copied]. rewrite E.
  assert (I1 : forall q, In q qs1 -> q = []).
  { destruct c as [|h|h sys buf]; cbn [cstep all_or_nothing] in *.
    - injection E as <- <-. intros q Q. apply in_app_or in Q. destruct Q as [Q|[Q|[]]]; auto.
    - destruct (nth_error qs h) as [q0|] eqn:N; [|discriminate E]. injection E as <- <-. intros q Q. apply in_app_or in Q. destruct Q as [Q|[<-|[]]]; [auto|]. apply nth_error_In in N. auto.
    - destruct (nth_error qs h) as [q0|] eqn:N; [|discriminate E]. apply nth_error_In in N. apply I in N. subst q0.
      assert (L' : (length (sys_bytes sys) <= length buf)%nat) by (destruct sys; cbn [sys_bytes length]; lia).
      pose proof (gen_random_spec [] sys buf L') as G. destruct (gen_random [] sys buf) as [[ok out] q']. injection E as <- <-.
      intros q Q. apply set_queue_in in Q. destruct Q as [->|Q]; [|auto]. cbn [rev app] in G.
      destruct ok.
      + destruct G as (G1 & G2). assert (length (out ++ rev q') <= length out)%nat as L by (rewrite <- G2, G1; exact L').
        rewrite app_length, rev_length in L. apply length_zero_iff_nil. lia.
      + destruct G as (G1 & G2). destruct sys as [bs|]; cbn [sys_bytes length] in *; [lia|]. apply (f_equal (@length Z)) in G1. rewrite rev_length in G1. apply length_zero_iff_nil. exact G1. }
  destruct (IH _ _ _ F W2 I1) as (A & B). rewrite A, app_nil_r. split; [|exact B].
  destruct c as [|h|h sys buf]; auto. destruct (nth_in_or_default h qs []) as [N|N]; auto.
Qed.
Lemma aon_within c : all_or_nothing c -> within c.
Proof. destruct c as [|h|h [bs|] buf]; cbn; auto. lia. Qed.

Lemma hw_pulls e : forall k hw, (k <= length hw)%nat ->
  pulls (hw_step e) k hw = (map (fun d : bool * Z => if fst d then ROk (snd d) else RErr e) (firstn k hw), skipn k hw).
Proof.
  induction k as [|k IH]; intros hw L; [reflexivity|]. cbn [pulls]. rewrite IH by lia.
  destruct (nth_error hw k) as [[f w]|] eqn:E; [|apply nth_error_None in E; lia].
  apply nth_error_split in E. destruct E as (l1 & l2 & -> & <-).
  assert (F : firstn (S (length l1)) (l1 ++ (f, w) :: l2) = l1 ++ [(f, w)]) by (rewrite firstn_app, Nat.sub_succ_l, Nat.sub_diag, firstn_all2 by lia; reflexivity).
  assert (K : skipn (S (length l1)) (l1 ++ (f, w) :: l2) = l2) by (rewrite skipn_app, Nat.sub_succ_l, Nat.sub_diag, skipn_all2 by lia; reflexivity).
  rewrite F, K, firstn_app, skipn_app, !Nat.sub_diag, firstn_all, skipn_all. cbn [firstn skipn app hw_step fst snd]. rewrite !app_nil_r, map_app. reflexivity.
Qed.
(** The draws of a history: each [next] without pending error makes one. *)
Lemma hw_values e l : values (map (fun d : bool * Z => if fst d then ROk (snd d) else RErr e) l) = map snd (filter fst l).
Proof. induction l as [|[[|] w] l IH]; cbn [map values flat_map filter fst snd app]; [reflexivity|f_equal; exact IH|exact IH]. Qed.
Lemma pulls_over e : forall k hw, (length hw <= k)%nat -> values (fst (pulls (hw_step e) k hw)) = map snd (filter fst hw) /\ snd (pulls (hw_step e) k hw) = [].
Proof.
  induction k as [|k IH]; intros hw L; [destruct hw; [split; reflexivity|cbn in L; lia]|].
  destruct (Nat.eq_dec (length hw) (S k)) as [E|E].
  - rewrite hw_pulls by lia. rewrite <- E, firstn_all, skipn_all. cbn [fst snd]. rewrite hw_values. split; reflexivity.
  - destruct (IH hw ltac:(lia)) as (A & B). cbn [pulls]. destruct (pulls (hw_step e) k hw) as [l s]. cbn [fst snd] in *. subst s. cbn [hw_step fst snd].
    unfold values in *. rewrite flat_map_app, A. cbn [flat_map]. rewrite app_nil_r. split; reflexivity.
Qed.
