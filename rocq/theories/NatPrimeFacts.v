(** Facts about [NatPrime]: drawing random numbers. *)
From Coq Require Import ZArith Znumtheory List Lia Bool.
From Verif Require Import Words WordsFacts NatModel NatFacts NatFacts2 NatFacts3 NatFacts4 NatFacts5 Spec SpecPrime BigInt NatPrime.
Import ListNotations.
Open Scope Z_scope.

Lemma trim_num n : 0 <= n -> trim (of_Z n) = of_Z n.
Proof. intros H. apply trim_canon_id, of_Z_canon, H. Qed.

(* ------------------------------------------------------------------ *)
(** * Taking words *)
Lemma takes_none g ws rest : takes (None :: g) ws rest <-> takes g ws rest.
Proof.
  split; intros (pre & w & E & ->).
  - destruct pre as [|o pre]; [discriminate E|]. injection E as <- E. exists pre, w. auto.
  - exists (None :: pre), w. rewrite E. auto.
Qed.
Lemma takes_some x g ws rest : takes (Some x :: g) ws rest <-> (ws = [x] /\ rest = g) \/ exists ws', ws = x :: ws' /\ takes g ws' rest.
Proof.
  split.
  - intros (pre & w & E & ->). destruct pre as [|o pre].
    + injection E as <- <-. left. auto.
    + injection E as <- E. right. exists (somes pre ++ [w]). split; [reflexivity|]. exists pre, w. auto.
  - intros [(-> & ->)|(ws' & -> & pre & w & -> & ->)].
    + exists [], x. auto.
    + exists (Some x :: pre), w. auto.
Qed.
Lemma takes_nil ws rest : ~ takes [] ws rest.
Proof. intros (pre & w & E & _). destruct pre; discriminate E. Qed.
Lemma takes_nonnil g rest : ~ takes g [] rest.
Proof. intros (pre & w & _ & E). destruct (somes pre); discriminate E. Qed.
Lemma takes_len g ws rest : takes g ws rest -> (length rest < length g)%nat.
Proof. intros (pre & w & -> & _). rewrite app_length. cbn [length]. lia. Qed.
Lemma stream_ok_cons o g : stream_ok (o :: g) <-> match o with Some w => 0 <= w < 2 ^ 32 | None => True end /\ stream_ok g.
Proof. unfold stream_ok. split; [intros H; inversion H; auto|intros []; constructor; auto]. Qed.
Lemma stream_ok_app a b : stream_ok (a ++ b) <-> stream_ok a /\ stream_ok b.
Proof. apply Forall_app. Qed.
Lemma somes_words g : stream_ok g -> words_ok (somes g).
Proof.
  induction g as [|[x|] g IH]; intros H; [constructor| |]; apply stream_ok_cons in H; destruct H as (H1 & H2).
  - change (somes (Some x :: g)) with (x :: somes g). apply words_ok_cons. split; [lia|auto].
  - apply IH. auto.
Qed.
Lemma takes_ok g ws rest : stream_ok g -> takes g ws rest -> words_ok ws /\ stream_ok rest.
Proof.
  intros G (pre & w & -> & ->). apply stream_ok_app in G. destruct G as (G1 & G2). apply stream_ok_cons in G2. destruct G2 as (G2 & G3).
  split; [|auto]. apply words_ok_app. split; [apply somes_words; auto|]. apply words_ok_cons. split; [lia|constructor].
Qed.
Lemma takes_fun g ws rest ws' rest' : takes g ws rest -> takes g ws' rest' -> length ws = length ws' -> ws = ws' /\ rest = rest'.
Proof.
  revert ws ws'. induction g as [|[x|] g IH]; intros ws ws' T T' L.
  - apply takes_nil in T. tauto.
  - apply takes_some in T. apply takes_some in T'. destruct T as [(-> & ->)|(v & -> & T)]; destruct T' as [(-> & ->)|(v' & -> & T')].
    + auto.
    + exfalso. apply (takes_nonnil g rest'). destruct v'; [auto|discriminate L].
    + exfalso. apply (takes_nonnil g rest). destruct v; [auto|discriminate L].
    + destruct (IH v v' T T'); [cbn in L; lia|]. subst. auto.
  - rewrite takes_none in T, T'. eauto.
Qed.

Lemma draw_words_spec : forall g n, match draw_words g (S n) with
  | Ok (ws, rest) => takes g ws rest /\ length ws = S n
  | Panic => False
  | Fuel => forall ws rest, takes g ws rest -> (length ws <= n)%nat
  end.
Proof.
  induction g as [|[x|] g IH]; intros n.
  - cbn. intros ws rest T. apply takes_nil in T. tauto.
  - change (draw_words (Some x :: g) (S n)) with (do '(ws, rest) <- draw_words g n; Ok (x :: ws, rest)). destruct n as [|n].
    + assert (E : draw_words g 0 = Ok ([], g)) by (destruct g; reflexivity). rewrite E. cbn [bind]. split; [apply takes_some; auto|reflexivity].
    + specialize (IH n). destruct (draw_words g (S n)) as [[ws rest]| |]; cbn [bind].
      * destruct IH as (T & L). split; [apply takes_some; eauto|cbn [length]; lia].
      * exact IH.
      * intros ws rest T. apply takes_some in T. destruct T as [(-> & _)|(ws' & -> & T)]; [cbn [length]; lia|]. apply IH in T. cbn [length]. lia.
  - change (draw_words (None :: g) (S n)) with (draw_words g (S n)). specialize (IH n). destruct (draw_words g (S n)) as [[ws rest]| |]; [|auto|].
    + rewrite takes_none. auto.
    + intros ws rest. rewrite takes_none. apply IH.
Qed.
Lemma draw_words_takes g n ws rest : takes g ws rest -> length ws = S n -> draw_words g (S n) = Ok (ws, rest).
Proof.
  intros T L. pose proof (draw_words_spec g n) as H. destruct (draw_words g (S n)) as [[ws' rest']| |]; [|tauto|apply H in T; lia].
  destruct H as (T' & L'). destruct (takes_fun g ws rest ws' rest' T T'); [lia|]. subst. reflexivity.
Qed.

(* ------------------------------------------------------------------ *)
(** * One group of words *)
Lemma canon_bits x : canon x -> 0 < nval x -> bits_len x = bit_length (nval x) /\ length x = word_length (nval x) /\
  32 * (Z.of_nat (length x) - 1) < bits_len x <= 32 * Z.of_nat (length x).
Proof.
  intros Hx P. assert (E : bits_len x = bit_length (nval x)). { rewrite bits_len_spec by auto. destruct (Z.eqb_spec (nval x) 0); [lia|reflexivity]. }
  assert (R : 32 * (Z.of_nat (length x) - 1) < bits_len x <= 32 * Z.of_nat (length x)).
  { split; [|apply bits_len_le_words; auto]. pose proof (canon_len_pos x Hx). pose proof (bits_len_ge1 x Hx). destruct (Nat.eq_dec (length x) 1) as [->|N]; [cbn; lia|].
    pose proof (canon_lower x Hx ltac:(lia)) as L. rewrite Wp_pow2 in L. rewrite E. unfold bit_length. apply Z.log2_le_pow2 in L; lia. }
  split; [exact E|]. split; [|exact R]. unfold word_length. rewrite <- E.
  assert (D : (bits_len x + 31) / 32 = Z.of_nat (length x)); [|lia]. symmetry. apply (Z.div_unique _ _ _ (bits_len x + 31 - 32 * Z.of_nat (length x))); lia.
Qed.

Lemma set_last_nonnil l x : l <> [] -> set_last l x = removelast l ++ [x].
Proof. destruct l; [congruence|reflexivity]. Qed.
Lemma masked ws B : words_ok ws -> ws <> [] -> 32 * (Z.of_nat (length ws) - 1) < B <= 32 * Z.of_nat (length ws) ->
  let m := if B mod 32 =? 0 then W - 1 else 2 ^ (B mod 32) - 1 in
  let v := set_last ws (Z.land (last ws 0) m) in
  words_ok v /\ length v = length ws /\ nval v = nval ws mod 2 ^ B.
Proof.
  intros Ww Nw HB m v. assert (L1 : (1 <= length ws)%nat) by (destruct ws; [congruence|cbn [length]; lia]). set (k := B - 32 * (Z.of_nat (length ws) - 1)).
  assert (K : 1 <= k <= 32) by (unfold k; lia). assert (M : m = 2 ^ k - 1).
  { unfold m. replace B with (k + (Z.of_nat (length ws) - 1) * 32) by (unfold k; lia). rewrite Z_mod_plus_full. destruct (Z.eq_dec k 32) as [->|N].
    - rewrite Z.mod_same by lia. reflexivity.
    - rewrite Z.mod_small by lia. destruct (Z.eqb_spec k 0); [lia|reflexivity]. }
  pose proof (words_ok_last ws Ww) as BL. assert (La : Z.land (last ws 0) m = last ws 0 mod 2 ^ k).
  { rewrite M, <- Z.land_ones by lia. f_equal. rewrite Z.ones_equiv. lia. }
  assert (P2 : 0 < 2 ^ k) by (apply Z.pow_pos_nonneg; lia). pose proof (Z.mod_pos_bound (last ws 0) (2 ^ k) P2) as MB.
  assert (LW : last ws 0 mod 2 ^ k < W). { assert (2 ^ k <= 2 ^ 32) by (apply Z.pow_le_mono_r; lia). change (2 ^ 32) with W in H. lia. }
  unfold v. rewrite set_last_nonnil, La by auto. pose proof (words_ok_removelast ws Ww) as Wr. split; [|split].
  - apply words_ok_app. split; [auto|]. apply words_ok_cons. split; [lia|constructor].
  - rewrite app_length, removelast_len. cbn [length]. lia.
  - rewrite nval_app, removelast_len, (nval_last ws Nw). cbn [nval]. pose proof (nval_bound _ Wr) as NB. rewrite removelast_len in NB.
    set (h := nval (removelast ws)) in *. set (l := last ws 0) in *. replace B with (32 * Z.of_nat (length ws - 1) + k) by (unfold k; lia).
    rewrite Z.pow_add_r, <- Wp_pow2 by lia. set (w := Wp (length ws - 1)) in *. clearbody h l w. rewrite Z.rem_mul_r by lia.
    rewrite (Z.mul_comm w l), Z_mod_plus_full, (Z.mod_small h w), Z.div_add, (Z.div_small h w) by lia. rewrite Z.add_0_l. ring.
Qed.

(* ------------------------------------------------------------------ *)
(** * [random_inner] *)
Definition rmask (x : list Z) : Z := if bits_len x mod 32 =? 0 then W - 1 else 2 ^ (bits_len x mod 32) - 1.
Lemma nat_lt_len v x : words_ok v -> words_ok x -> length v = length x -> x <> [] -> nat_lt v x = (nval v <? nval x).
Proof.
  intros Wv Wx L Nx. unfold nat_lt, partial_cmp. assert (is_nan v = false) as -> by (destruct v; [destruct x; [congruence|discriminate L]|reflexivity]).
  assert (is_nan x = false) as -> by (destruct x; [congruence|reflexivity]). cbn [orb]. rewrite cmp_inner_words by auto. unfold Z.ltb. destruct (nval v ?= nval x); reflexivity.
Qed.

Section Draw.
Variable x : list Z.
Hypothesis Hx : canon x.
Hypothesis X0 : 0 < nval x.

(** The value list of a draw. *)
Definition drawn (v : Z) (r : list Z) : Prop := words_ok r /\ length r = length x /\ nval r = v.
Lemma drawn_inj v r r' : drawn v r -> drawn v r' -> r = r'.
Proof. intros (A & B & C) (A' & B' & C'). apply nval_inj; auto; congruence. Qed.

Lemma group g ws rest : stream_ok g -> takes g ws rest -> length ws = word_length (nval x) ->
  draw_words g (length x) = Ok (ws, rest) /\
  let v := set_last ws (Z.land (last ws 0) (rmask x)) in
  drawn (nval ws mod 2 ^ bit_length (nval x)) v /\ nat_lt v x = (nval ws mod 2 ^ bit_length (nval x) <? nval x).
Proof.
  intros G T L. destruct (canon_bits x Hx X0) as (B1 & B2 & B3). pose proof (canon_len_pos x Hx). destruct (takes_ok g ws rest G T) as (Ww & _).
  split.
  - destruct (length x) as [|k] eqn:E; [lia|]. apply draw_words_takes; [auto|lia].
  - assert (Nw : ws <> []) by (intros ->; apply takes_nonnil in T; auto). rewrite <- B1.
    destruct (masked ws (bits_len x) Ww Nw ltac:(lia)) as (V1 & V2 & V3). fold (rmask x) in V1, V2, V3. cbv zeta. split; [split; [auto|split; [lia|auto]]|].
    rewrite nat_lt_len; [rewrite V3; reflexivity|auto|apply canon_words; auto|lia|apply canon_nonnil; auto].
Qed.

Lemma random_loop_draw g v rest : draw (nval x) g v rest -> stream_ok g -> forall fuel, (length g < fuel)%nat ->
  exists r, random_loop fuel x (rmask x) g = Ok (r, rest) /\ drawn v r /\ 0 <= v < nval x /\ stream_ok rest.
Proof.
  induction 1 as [g ws rest T L V|g ws g' v rest T L V D IH]; intros G fuel F; (destruct fuel as [|f]; [lia|]); cbn [random_loop];
    destruct (group g ws _ G T L) as (E & Dr & Lt); rewrite E; cbn [bind]; cbv zeta in Lt; rewrite Lt; destruct (takes_ok _ _ _ G T) as (Ww & Gr).
  - destruct (Z.ltb_spec (nval ws mod 2 ^ bit_length (nval x)) (nval x)); [|lia]. eexists. split; [reflexivity|]. split; [exact Dr|]. split; [|auto]. split; [|lia].
    apply Z.mod_pos_bound, Z.pow_pos_nonneg; [lia|]. unfold bit_length. pose proof (Z.log2_nonneg (nval x)). lia.
  - destruct (Z.ltb_spec (nval ws mod 2 ^ bit_length (nval x)) (nval x)); [lia|]. apply IH; [auto|]. apply takes_len in T. lia.
Qed.
Lemma random_loop_inv : forall fuel g, stream_ok g -> (length g < fuel)%nat ->
  match random_loop fuel x (rmask x) g with
  | Ok (r, rest) => exists v, draw (nval x) g v rest /\ drawn v r /\ 0 <= v < nval x /\ stream_ok rest
  | Panic => False
  | Fuel => forall v rest, ~ draw (nval x) g v rest
  end.
Proof.
  induction fuel as [|f IH]; intros g G F; [lia|]. cbn [random_loop]. pose proof (canon_len_pos x Hx). destruct (canon_bits x Hx X0) as (B1 & B2 & B3).
  pose proof (draw_words_spec g (length x - 1)) as DW. replace (S (length x - 1)) with (length x) in DW by lia.
  destruct (draw_words g (length x)) as [[ws g']| |] eqn:E; cbn [bind]; [|auto|].
  - destruct DW as (T & L). destruct (group g ws g' G T ltac:(lia)) as (_ & Dr & Lt). cbv zeta in Lt. rewrite Lt. destruct (takes_ok _ _ _ G T) as (Ww & Gr).
    destruct (Z.ltb_spec (nval ws mod 2 ^ bit_length (nval x)) (nval x)) as [V|V].
    + eexists. split; [apply (draw_hit _ g ws); auto; lia|]. split; [exact Dr|]. split; [|auto]. split; [|lia].
      apply Z.mod_pos_bound, Z.pow_pos_nonneg; [lia|]. unfold bit_length. pose proof (Z.log2_nonneg (nval x)). lia.
    + pose proof (takes_len _ _ _ T). specialize (IH g' Gr ltac:(lia)). destruct (random_loop f x (rmask x) g') as [[r rest]| |]; [|auto|].
      * destruct IH as (v & D & R). exists v. split; [|exact R]. apply (draw_miss _ g ws g'); auto; lia.
      * intros v rest D. inversion D as [? ws' ? T' L' V'|? ws' g'' ? ? T' L' V' D']; subst.
        -- destruct (takes_fun _ _ _ _ _ T T' ltac:(lia)). subst. lia.
        -- destruct (takes_fun _ _ _ _ _ T T' ltac:(lia)). subst. apply (IH _ _ D').
  - intros v rest D. inversion D as [? ws' ? T' L' V'|? ws' g'' ? ? T' L' V' D']; subst; apply DW in T'; lia.
Qed.

Lemma random_inner_draw g v rest : stream_ok g -> draw (nval x) g v rest ->
  exists r, random_inner x g = Ok (r, rest) /\ drawn v r /\ 0 <= v < nval x /\ stream_ok rest.
Proof. intros G D. unfold random_inner. fold (rmask x). apply (random_loop_draw g v rest); auto. Qed.
Lemma random_inner_inv g : stream_ok g -> match random_inner x g with
  | Ok (r, rest) => exists v, draw (nval x) g v rest /\ drawn v r /\ 0 <= v < nval x /\ stream_ok rest
  | Panic => False
  | Fuel => forall v rest, ~ draw (nval x) g v rest
  end.
Proof. intros G. unfold random_inner. fold (rmask x). apply random_loop_inv; auto. Qed.
Lemma nat_random_inner g : nat_random x g = random_inner x g.
Proof.
  unfold nat_random. rewrite is_nan_canon by auto. unfold nat_eq_u32. rewrite nat_eq_spec by (auto; apply canon_single; lia).
  cbn [from_u32 nval]. destruct (Z.eqb_spec (nval x) (0 + W * 0)); [lia|reflexivity].
Qed.
End Draw.

(** Draws are determined by the stream. *)
Lemma draw_fun x g v rest v' rest' : draw x g v rest -> draw x g v' rest' -> v = v' /\ rest = rest'.
Proof.
  intros D. revert v' rest'. induction D as [g ws rest T L V|g ws g' v rest T L V D IH]; intros v' rest' D'; inversion D' as [? ws' ? T' L' V'|? ws' g'' ? ? T' L' V' D'']; subst;
    destruct (takes_fun _ _ _ _ _ T T' ltac:(lia)); subst; auto; lia.
Qed.
