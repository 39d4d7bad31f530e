(** C22, C71: shared storage of [Nat]. *)
From Coq Require Import ZArith List Lia Bool.
From Verif Require Import Words WordsFacts Spec NatModel NatFacts Alias SpecAlias AliasFacts.
Import ListNotations.
Open Scope Z_scope.

(** ** C22
    [run fuel empty_state cs = Ok s]: [s] is reachable by the history [cs].
    Families are computed from the program text alone (SpecAlias.v). *)

(** Clones always show the same vector, whatever happened before. *)
Theorem C22_clones_agree : forall fuel cs s x y f,
  run fuel empty_state cs = Ok s -> family cs x = Some f -> family cs y = Some f ->
  look s x = look s y /\ look s x <> None.
Proof. exact same_family_same_look. Qed.

(** A handle keeps its vector as long as nobody assigns to its own family:
    deep clones and results of operators are isolated. *)
Theorem C22_isolation : forall fuel cs ds s s' x,
  run fuel empty_state cs = Ok s -> run fuel s ds = Ok s' -> look s x <> None ->
  (forall c t, In c ds -> target c = Some t -> family (cs ++ ds) t <> family (cs ++ ds) x) ->
  look s' x = look s x.
Proof. exact isolation. Qed.

(** In particular: a new variable made by anything but [clone] is a family of
    its own, so later assignments to older handles never reach it. *)
Theorem C22_deep_clone_isolates : forall fuel cs ds s s' c x,
  run fuel empty_state (cs ++ [c]) = Ok s -> creates c = true -> (forall z, c <> CClone z) ->
  x = length (families [] cs) -> run fuel s ds = Ok s' ->
  (forall d t, In d ds -> target d = Some t -> (t < x)%nat) ->
  look s' x = look s x.
Proof.
  intros fuel cs ds s s' c x R Cr NC -> R' T.
  assert (F : families [] (cs ++ [c]) = families [] cs ++ [length (families [] cs)]).
  { rewrite families_app. cbn [families fold_left]. apply add_family_fresh; auto. }
  pose proof (run_inv _ _ _ _ _ inv_empty R) as I. rewrite F in I.
  assert (FX : nth_error (families [] (cs ++ [c])) (length (families [] cs)) = Some (length (families [] cs))).
  { rewrite F, nth_error_app2, Nat.sub_diag by lia. reflexivity. }
  eapply isolation; eauto.
  - unfold look. destruct (nth_error (env s) (length (families [] cs))) eqn:E.
    + apply nth_error_Some. eapply (inv_cell _ _ I); eauto.
    + apply nth_error_None in E. rewrite (inv_len _ _ I), app_length in E. cbn in E. lia.
  - intros d t Hd Ht Eq. unfold family in Eq. rewrite (families_app _ (cs ++ [c]) ds) in Eq.
    specialize (T d t Hd Ht).
    destruct (nth_error (families [] cs) t) as [f|] eqn:Ft; [|apply nth_error_None in Ft; lia].
    assert (Lf : (f < length (families [] cs))%nat).
    { destruct (run fuel empty_state cs) as [s0| |] eqn:R0.
      - eapply (inv_fam _ _ (run_inv _ _ _ _ _ inv_empty R0)); eauto.
      - rewrite run_app, R0 in R. discriminate.
      - rewrite run_app, R0 in R. discriminate. }
    assert (Ft' : nth_error (families [] (cs ++ [c])) t = Some f)
      by (rewrite families_app; apply families_prefix; auto).
    rewrite (families_prefix ds _ _ _ Ft'), (families_prefix ds _ _ _ FX) in Eq.
    injection Eq as ->. lia.
Qed.

(** Operators by value never change an existing handle. *)
Theorem C22_by_value_pure : forall fuel cs s c s' x,
  run fuel empty_state cs = Ok s -> step fuel s c = Ok s' -> creates c = true ->
  look s x <> None -> look s' x = look s x.
Proof.
  intros fuel cs s c s' x R H C L.
  apply (isolation fuel cs [c] s s' x R); auto.
  - cbn [run]. rewrite H. reflexivity.
  - intros d t [<-|[]]. destruct c; discriminate.
Qed.

(** The whole behaviour: on the commands that keep numbers canonical a history
    panics exactly when the heap-free specification does (division by zero or
    an undeclared variable), and afterwards every handle shows exactly the
    number the specification assigns to it. *)
Theorem C22_refines_clone_families : forall fuel cs, Forall exact_cmd cs -> no_self_rem [] cs ->
  match run fuel empty_state cs, srun [] cs with
  | Ok s, Some ss => length (env s) = length ss /\
      forall x, match look s x, nth_error ss x with
                | Some l, Some (_, Some n) => represents l n
                | Some l, Some (_, None) => l = []
                | None, None => True
                | _, _ => False
                end
  | Panic, None => True
  | _, _ => False
  end.
Proof. exact run_refines. Qed.

(** x = 7; y = x.clone(); z = x.deep_clone(); w = x + y; y *= z; x -= x.clone() *)
Definition demo : list cmd :=
  [CNew [7]; CClone 0; CDeep 0; CBin OAdd 0 1; CAssign OMul 1 2; CBin OMul 0 3; CAssign OSub 0 1].
Example C22_case :
  (exists s, run 9 empty_state demo = Ok s /\
     map (look s) [0; 1; 2; 3; 4; 5]%nat = [Some [0]; Some [0]; Some [7]; Some [14]; Some [686]; None]) /\
  map snd (match srun [] demo with Some s => s | None => [] end) =
     [Some 0; Some 0; Some 7; Some 14; Some 686] /\
  Forall exact_cmd demo /\ no_self_rem [] demo /\
  map (family demo) [0; 1; 2; 3; 4; 5]%nat = [Some 0; Some 0; Some 2; Some 3; Some 4; None]%nat.
Proof.
  split; [eexists; split; vm_compute; reflexivity|]. split; [vm_compute; reflexivity|].
  split; [unfold demo; repeat (apply Forall_cons || apply Forall_nil); try exact I; repeat constructor; lia|].
  split; [cbn; tauto|vm_compute; reflexivity].
Qed.
Print Assumptions C22_clones_agree.
Print Assumptions C22_isolation.
Print Assumptions C22_deep_clone_isolates.
Print Assumptions C22_by_value_pure.
Print Assumptions C22_refines_clone_families.

(* ------------------------------------------------------------------ *)
(** ** C71: [x op= x.clone()]
    Full claim: the result is that of [x op x].  It fails for [%=]: the loop
    reads the modulus from the cell it has just emptied. *)
Theorem C71_self_rem_refuted : exists cs x, Forall exact_cmd cs /\
  (forall fuel s, run fuel empty_state cs = Ok s ->
     exists s', step fuel s (CBin ORem x x) = Ok s' /\ look s' 1 = Some [0]) /\
  (exists s, run 0 empty_state cs = Ok s) /\
  (forall fuel s s', run fuel empty_state cs = Ok s -> step fuel s (CAssign ORem x x) <> Ok s').
Proof.
  exists [CNew [7]], 0%nat. split; [repeat constructor; lia|].
  split; [|split].
  - intros fuel s [= <-]. eexists. split; vm_compute; reflexivity.
  - eexists. reflexivity.
  - intros fuel s s' [= <-]. cbn [step cell_of nth_error env empty_state alloc app length heap bind rd_cell trim drop_zeros is_nan orb Nat.eqb alias2].
    rewrite rem_alias_bad by (apply canon_single; lia).
    destruct ((nval [7] =? 1) || _); discriminate.
Qed.

(** For every canonical Nat: [x %= x.clone()] never returns.  It runs forever
    for 1 and panics for everything else (0 is the zero-modulus panic). *)
Theorem C71_self_rem_never_returns : forall a fuel, canon a -> (2 <= fuel)%nat ->
  rem_alias fuel a = (if nval a =? 1 then Fuel else Panic).
Proof.
  intros a fuel Ha Hf. rewrite rem_alias_bad by auto.
  destruct (Nat.leb_spec fuel 1); [lia|]. rewrite orb_false_r. reflexivity.
Qed.

(** The seven other operators agree with the operator on independent copies,
    word for word, for every canonical Nat. *)
Theorem C71_self_assign_partial : forall fuel o a, canon a -> o <> ORem ->
  alias2 fuel o a = inner2 o a a /\
  match alias2 fuel o a, zop o (nval a) (nval a) with
  | Ok r, Some n => represents r n
  | Panic, None => True
  | _, _ => False
  end.
Proof.
  intros fuel o a Ha Ho. rewrite alias2_eq by auto. split; auto.
  exact (inner2_agrees o a a Ha Ha).
Qed.
Example C71_case : alias2 0 OAdd [4294967295; 1] = Ok [4294967294; 3] /\
  alias2 0 OSub [4294967295; 1] = Ok [0] /\ alias2 0 OMul [4294967295; 1] = Ok [1; 4294967292; 3] /\
  alias2 0 ODiv [4294967295; 1] = Ok [1] /\ alias2 0 OXor [4294967295; 1] = Ok [0] /\
  alias2 5 ORem [4294967295; 1] = Panic /\ alias2 50 ORem [1] = Fuel.
Proof. vm_compute. auto 10. Qed.
Print Assumptions C71_self_rem_refuted.
Print Assumptions C71_self_rem_never_returns.
Print Assumptions C71_self_assign_partial.
