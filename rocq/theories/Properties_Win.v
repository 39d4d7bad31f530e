(** Theorems about the Windows entropy back end (C91-C93). *)
From Coq Require Import Ascii String ZArith List Lia Bool.
From Verif Require Import Words Spec NatConv Rand WinCrypt SpecWin WinCryptFacts.
Import ListNotations.
Open Scope Z_scope.
Open Scope list_scope.

(** ** C91
    [proper_use], [fresh_handles], [balance], [reaches]: SpecWin.v.  For every
    program, whatever the system answers: a provider is closed and used only
    while it is open, it is open exactly as long as a variable reaches it, and
    so closed exactly once. *)
Theorem C91_protocol : forall p s, wrun w_init p = Some s -> fresh_handles (wlog s) -> proper_use (wlog s).
Proof.
  intros p s R F. apply (run_proper p w_init s init_inv); auto. split; intros; destruct l1; discriminate.
Qed.
Theorem C91_open_iff_reachable : forall p s, wrun w_init p = Some s -> fresh_handles (wlog s) -> forall h,
  0 <= balance h (wlog s) <= 1 /\ (balance h (wlog s) = 1 <-> exists x, In x (wslots s) /\ reaches s x h).
Proof.
  intros p s R F h. pose proof (run_inv p w_init s init_inv R) as I. pose proof (w_balance s I h) as B. pose proof (fresh_le _ F h). pose proof (owners_nonneg s h).
  split; [lia|]. rewrite <- (owned_reached s h I). lia.
Qed.
(** When every variable is gone, every provider is closed. *)
Theorem C91_no_leak : forall p s, wrun w_init p = Some s -> Forall (eq SGone) (wslots s) -> forall h, balance h (wlog s) = 0.
Proof.
  intros p s R G h. pose proof (run_inv p w_init s init_inv R) as I. rewrite (w_balance s I h). pose proof (owners_nonneg s h).
  destruct (Z.eq_dec (owners s h) 0) as [|N]; [auto|]. destruct (proj1 (owned_reached s h I)) as (x & X & RX); [lia|].
  rewrite Forall_forall in G. rewrite <- (G x X) in RX. destruct RX.
Qed.
(** A variable holding a [BCrypt] can be used, cloned and dropped, and draws
    from the provider it reaches. *)
Theorem C91_usable : forall p s i c, wrun w_init p = Some s -> nth i (wslots s) SGone = SCrypt c ->
  (forall n, exists h s', wstep s (WGen i n) = Some s' /\ wlog s' = wlog s ++ [ERandom h n] /\ reaches s (SCrypt c) h) /\
  (exists s', wstep s (WClone i) = Some s' /\ wlog s' = wlog s) /\ (exists s', wstep s (WDrop i) = Some s').
Proof.
  intros p s i c R E. pose proof (run_inv p w_init s init_inv R) as I. destruct (crypt_alive s i c I E) as (_ & C & _). cbn [wstep]. rewrite E. split; [|split; eexists; try split; reflexivity].
  intros n. do 2 eexists. split; [reflexivity|]. split; [reflexivity|]. cbn [reaches]. eexists. split; [|reflexivity]. apply nth_error_nth'. exact C.
Qed.
(** [CryptoRand::new]: an error opens nothing; success gives one new variable
    that reaches the new provider. *)
Theorem C91_crypto_new : forall p s, wrun w_init p = Some s ->
  win_crypto_new s None = RErr InnerErr /\
  forall h, exists s', win_crypto_new s (Some h) = ROk s' /\ wlog s' = wlog s ++ [EOpen h] /\ exists x, In x (wslots s') /\ reaches s' x h.
Proof.
  intros p s R. split; [reflexivity|]. intros h. pose proof (run_inv p w_init s init_inv R) as I. unfold win_crypto_new. cbn [wrun wstep wslots wcells wlog].
  rewrite app_nth2, Nat.sub_diag by lia. cbn [nth]. eexists. split; [reflexivity|]. split; [reflexivity|]. exists (SCrypt (length (wcells s))). cbn [wslots]. split.
  - apply in_or_app. right. left. reflexivity.
  - cbn [reaches wcells]. exists (Cell h 1). split; [|reflexivity]. rewrite nth_error_app2, Nat.sub_diag by lia. reflexivity.
Qed.
(** Two clones, one dropped, a draw, a second provider with the recycled handle. *)
Example C91_case :
  match wrun w_init [WOpen (Some 7); WNew 0; WClone 1; WDrop 1; WGen 2 8; WDrop 2; WOpen None; WOpen (Some 7); WDrop 3] with
  | Some s => wlog s = [EOpen 7; ERandom 7 8; EClose 7; EOpen 7; EClose 7]
  | None => False
  end /\ wrun w_init [WOpen (Some 7); WNew 0; WDrop 0] = None.
Proof. split; vm_compute; reflexivity. Qed.
Print Assumptions C91_protocol.
Print Assumptions C91_open_iff_reachable.
Print Assumptions C91_no_leak.
Print Assumptions C91_usable.
Print Assumptions C91_crypto_new.

(** ** C92
    Full claim: each constructor names its provider and the algorithm by a
    NUL-terminated text.  False for [ms_platform_crypto_provider]. *)
Lemma c_text_app t rest : Forall (fun c => c <> 0) t -> c_text (t ++ 0 :: rest) = Some t.
Proof.
  induction t as [|c t IH]; intros F; cbn [app c_text]; [reflexivity|]. apply Forall_cons_iff in F. destruct F as (C & F).
  destruct (Z.eqb_spec c 0); [contradiction|]. rewrite IH by auto. reflexivity.
Qed.
Lemma str_nonzero t : forallb (fun c => negb (c =? 0)) t = true -> Forall (fun c => c <> 0) t.
Proof. rewrite forallb_forall, Forall_forall. intros H c I. specialize (H c I). destruct (Z.eqb_spec c 0); [discriminate|auto]. Qed.
Theorem C92_texts_partial :
  denotes_text alg_buffer (str "RNG") /\
  (exists b, impl_buffer Primitive = Some b /\ denotes_text b (str "Microsoft Primitive Provider")) /\ impl_buffer Auto = None.
Proof.
  split; [|split; [|reflexivity]].
  - intros rest. unfold alg_buffer. rewrite <- app_assoc. apply c_text_app. apply str_nonzero. reflexivity.
  - eexists. split; [reflexivity|]. intros rest. rewrite <- app_assoc. apply c_text_app. apply str_nonzero. reflexivity.
Qed.
(** What the system reads depends on the memory behind the buffer: the intended
    name exactly when a zero happens to follow. *)
Lemma c_text_open t rest r : Forall (fun c => c <> 0) t -> c_text rest = r -> c_text (t ++ rest) = option_map (app t) r.
Proof.
  intros F <-. induction t as [|c t IH]; cbn [app c_text]; [destruct (c_text rest); reflexivity|]. apply Forall_cons_iff in F. destruct F as (C & F).
  destruct (Z.eqb_spec c 0); [contradiction|]. rewrite IH by auto. destruct (c_text rest); reflexivity.
Qed.
Theorem C92_platform_refuted : exists b, impl_buffer Platform = Some b /\
  (forall rest, c_text (b ++ rest) = Some (str "Microsoft Platform Crypto Provider") <-> exists r, rest = 0 :: r) /\
  ~ exists t, denotes_text b t.
Proof.
  set (t := str "Microsoft Platform Crypto Provider"). assert (F : Forall (fun c => c <> 0) t) by (apply str_nonzero; reflexivity).
  exists t. split; [reflexivity|]. split.
  - intros rest. rewrite (c_text_open t rest _ F eq_refl). split.
    + destruct rest as [|c rest]; cbn [c_text option_map]; [discriminate|]. destruct (Z.eqb_spec c 0) as [->|]; [eauto|].
      destruct (c_text rest) as [u|]; cbn [option_map]; intros H; [|discriminate]. assert (X : t ++ c :: u = t) by congruence. rewrite <- (app_nil_r t) in X at 2. apply app_inv_head in X. discriminate.
    + intros (r & ->). cbn [c_text Z.eqb option_map]. rewrite app_nil_r. reflexivity.
  - intros (u & D). pose proof (D [0]) as D1. pose proof (D [65; 0]) as D2. rewrite (c_text_open t _ _ F eq_refl) in D1. rewrite (c_text_open t _ _ F eq_refl) in D2. cbn [c_text Z.eqb option_map] in D1, D2.
    assert (X : t ++ [] = t ++ [65]) by congruence. apply app_inv_head in X. discriminate.
Qed.
Example C92_case : c_text (match impl_buffer Primitive with Some b => b ++ [81; 0] | None => [] end) = Some (str "Microsoft Primitive Provider").
Proof. reflexivity. Qed.
Print Assumptions C92_texts_partial.
Print Assumptions C92_platform_refuted.

(** ** C93
    Full claim: after [Ok], every byte of the buffer comes from the system.
    False from 2 ^ 32 bytes on, where the length is cut. *)
Theorem C93_filled_partial : forall sys junk buf b, honest_sys sys -> Z.of_nat (length buf) < 2 ^ 32 -> win_gen_random sys junk buf = (true, b) ->
  sys (Z.of_nat (length buf)) = Some b /\ length b = length buf.
Proof.
  intros sys junk buf b H L. unfold win_gen_random. rewrite Z.mod_small by lia. destruct (sys (Z.of_nat (length buf))) as [bs|] eqn:E; [|discriminate].
  destruct (H _ _ E) as (N & _). intros [= <-]. assert (LB : length bs = length buf) by lia. rewrite LB, skipn_all2, app_nil_r by lia. auto.
Qed.
Theorem C93_fails : forall sys junk buf b, win_gen_random sys junk buf = (false, b) <-> sys (Z.of_nat (length buf) mod 2 ^ 32) = None /\ b = junk.
Proof. intros sys junk buf b. unfold win_gen_random. destruct (sys _) eqn:E; split; intros H; [discriminate|destruct H; discriminate|split; congruence|destruct H as (_ & ->); reflexivity]. Qed.
(** A buffer of 2 ^ 32 bytes is not touched, and the call succeeds. *)
Theorem C93_long_refuted : forall sys junk buf, honest_sys sys -> Z.of_nat (length buf) = 2 ^ 32 -> sys 0 <> None -> win_gen_random sys junk buf = (true, buf).
Proof.
  intros sys junk buf H L N. unfold win_gen_random. rewrite L, Z_mod_same_full. destruct (sys 0) as [bs|] eqn:E; [|congruence].
  destruct (H _ _ E) as (LB & _). destruct bs; [reflexivity|cbn [length] in LB; lia].
Qed.
(** [CryptoRand::gen] for [len] = 4 or 8: the system's bytes, little endian, or
    an error; every word is in range. *)
Theorem C93_word : forall sys junk len, honest_sys sys -> (len = 4 \/ len = 8)%nat ->
  match sys (Z.of_nat len) with
  | Some bs => win_crypto_gen len sys junk = ROk (le_value 256 bs) /\ 0 <= le_value 256 bs < 256 ^ Z.of_nat len
  | None => win_crypto_gen len sys junk = RErr InnerErr
  end.
Proof.
  intros sys junk len H L. unfold win_crypto_gen, win_gen_random. rewrite repeat_length, Z.mod_small by lia.
  destruct (sys (Z.of_nat len)) as [bs|] eqn:E; [|reflexivity]. destruct (H _ _ E) as (N & B).
  assert (LB : length bs = len) by lia. rewrite skipn_all2, app_nil_r by (rewrite repeat_length; lia). split; [reflexivity|].
  clear - LB B. revert len LB. induction B as [|x bs X B IH]; intros len <-; [cbn; lia|].
  specialize (IH _ eq_refl). cbn [length]. rewrite Nat2Z.inj_succ, Z.pow_succ_r by lia. unfold le_value in *. cbn [fold_right]. set (v := fold_right _ 0 bs) in *. set (q := 256 ^ Z.of_nat (length bs)) in *. lia.
Qed.
Example C93_case : win_crypto_gen 4 (fun n => Some (firstn (Z.to_nat n) [1; 2; 3; 4; 5; 6; 7; 8])) [] = ROk 67305985 /\
  win_crypto_gen 8 (fun n => if n =? 8 then None else Some []) [9] = RErr InnerErr.
Proof. split; reflexivity. Qed.
Print Assumptions C93_filled_partial.
Print Assumptions C93_fails.
Print Assumptions C93_long_refuted.
Print Assumptions C93_word.
