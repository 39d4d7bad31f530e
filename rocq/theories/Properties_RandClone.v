(** Several entropy handles (C85) and the hardware generators (C86). *)
From Coq Require Import ZArith List Lia Bool Permutation.
From Verif Require Import Words Rand RandFacts2 RandClone SpecRandClone RandCloneFacts.
Import ListNotations.
Open Scope Z_scope.

(* ------------------------------------------------------------------ *)
(** * C85: clones and fresh entropy *)

(** Where every byte goes: what the system gave, and once more what sat in a
    queue when it was cloned, is handed out or still queued. *)
Theorem C85_account_partial : forall cs os qs, crun [] cs = Ok (os, qs) -> Forall within cs ->
  Permutation (given cs ++ copied [] cs) (handed os ++ concat qs).
Proof. intros cs os qs H W. exact (crun_account cs [] os qs H W). Qed.
(** If only empty queues are cloned, no byte is handed out twice. *)
Theorem C85_once_partial : forall cs os qs, crun [] cs = Ok (os, qs) -> Forall within cs -> copied [] cs = [] ->
  NoDup (given cs) -> NoDup (handed os ++ concat qs).
Proof. intros cs os qs H W C N. eapply Permutation_NoDup; [exact (C85_account_partial cs os qs H W)|]. rewrite C, app_nil_r. exact N. Qed.
(** So it is, clones or not, when the system call writes all or nothing; then
    everything is handed out. *)
Theorem C85_all_or_nothing_partial : forall cs os qs, crun [] cs = Ok (os, qs) -> Forall all_or_nothing cs ->
  Permutation (given cs) (handed os) /\ (NoDup (given cs) -> NoDup (handed os)).
Proof.
  intros cs os qs H W. destruct (aon_empty cs [] os qs H W) as (C & E); [intros q []|].
  assert (P : Permutation (given cs) (handed os)).
  { pose proof (C85_account_partial cs os qs H (Forall_impl _ aon_within W)) as P. rewrite C, app_nil_r in P.
    replace (concat qs) with (@nil Z) in P; [rewrite app_nil_r in P; exact P|]. symmetry. clear -E. induction qs as [|q qs IH]; [reflexivity|]. cbn [concat]. rewrite (E q (or_introl eq_refl)). apply IH. intros p Ip. apply E. right. exact Ip. }
  split; [exact P|]. intros N. eapply Permutation_NoDup; eauto.
Qed.
(** A short read, then a clone: both handles hand out the bytes 1 and 2. *)
Theorem C85_clone_refuted : exists cs os qs, crun [] cs = Ok (os, qs) /\ Forall within cs /\ NoDup (given cs) /\
  In (true, [1; 2; 3; 4]) os /\ In (true, [1; 2; 7; 8]) os /\ ~ NoDup (handed os).
Proof.
  exists [CNew; CGen 0 (Some [1; 2]) [0; 0; 0; 0]; CClone 0; CGen 0 (Some [3; 4; 5; 6]) [0; 0; 0; 0]; CGen 1 (Some [7; 8; 9; 10]) [0; 0; 0; 0]]. do 2 eexists.
  split; [reflexivity|]. split; [repeat constructor|]. split; [cbn; repeat constructor; cbn; lia|]. split; [cbn; tauto|]. split; [cbn; tauto|].
  cbn. intros N. inversion N as [|? ? A _]. apply A. cbn. tauto.
Qed.
Example C85_case : crun [] [CNew; CGen 0 (Some [1; 2]) [0; 0]; CClone 0; CGen 1 None [0; 0]; CGen 1 (Some [3]) [0]; CGen 0 (Some [4; 5]) [0; 0]]
  = Ok ([(true, [1; 2]); (false, [0; 0]); (true, [3]); (true, [4; 5])], [[]; []]).
Proof. reflexivity. Qed.
Print Assumptions C85_account_partial.
Print Assumptions C85_once_partial.
Print Assumptions C85_all_or_nothing_partial.
Print Assumptions C85_clone_refuted.

(* ------------------------------------------------------------------ *)
(** * C86: hardware words *)

(** A word is handed out only when the hardware signalled success, and then it
    is the word the hardware gave; otherwise the caller gets the error. *)
Theorem C86_draw : forall flag w hw,
  hw_default_gen ((flag, w) :: hw) = (if flag then ROk w else RErr NoNewRandNumberGen, hw) /\
  hw_crypto_gen ((flag, w) :: hw) = (if flag then ROk w else RErr NoNewRandNumberGen, hw) /\
  hw_seed ((flag, w) :: hw) = (if flag then ROk w else RErr NoNewRandSeedGen, hw).
Proof. intros [|] w hw; repeat split. Qed.
(** Over any use of the iterator: the words obtained are the successful draws
    so far, none left out and none repeated. *)
Theorem C86_iterator : forall hw ops,
  let '(out, it) := iter_run hw_crypto_gen ops (iter_new hw) in
  exists used, hw = used ++ it_inner it /\ somes out = map snd (filter fst used).
Proof.
  intros hw ops. destruct (iter_run_spec hw_crypto_gen hw ops (iter_new hw) O) as (k & H); [reflexivity|intros e E; discriminate|].
  destruct (iter_run hw_crypto_gen ops (iter_new hw)) as [out it]. destruct H as (_ & H1 & _ & H3).
  change hw_crypto_gen with (hw_step NoNewRandNumberGen) in *.
  destruct (Nat.le_gt_cases k (length hw)) as [L|L].
  - rewrite hw_pulls in H1, H3 by exact L. cbn [fst snd] in H1, H3. exists (firstn k hw). rewrite H1. split; [symmetry; apply firstn_skipn|].
    rewrite hw_values in H3. symmetry. exact H3.
  - destruct (pulls_over NoNewRandNumberGen k hw ltac:(lia)) as (A & B). exists hw. rewrite H1, B, app_nil_r. split; [reflexivity|]. rewrite <- A. symmetry. exact H3.
Qed.
Example C86_case : iter_run hw_crypto_gen [INext; INext; INext; IClear; INext] (iter_new [(true, 7); (false, 0); (true, 9); (true, 11)]) = ([Some 7; None; None; Some 9], Iter [(true, 11)] None).
Proof. reflexivity. Qed.
Print Assumptions C86_draw.
Print Assumptions C86_iterator.
