(** C99: [Nat::random] and [BigInt::random] are uniform.
    A stream lists the outcomes of the generator ([Some w] a word, [None] an
    error); [shape g] says where the errors are.  Uniform means: over all
    streams of one shape, every number below the bound is drawn equally often.
    [as_many P Q] counts (SpecUniform.v). *)
From Coq Require Import ZArith List Lia Bool.
From Verif Require Import Words WordsFacts NatModel NatFacts NatFacts5 Spec SpecInt SpecPrime SpecUniform BigInt BigIntFacts NatPrime NatPrimeFacts Properties_Prime UniformFacts.
Import ListNotations.
Open Scope Z_scope.

(** The streams of shape [sh] from which [x.random()] is [v], and those that
    moreover leave [rest] for later calls. *)
Definition gives (x : list Z) (sh : list bool) (v : Z) (g : list (option Z)) : Prop :=
  shape g = sh /\ stream_ok g /\ exists r rest, nat_random x g = Ok (r, rest) /\ has_value r v.
Definition gives_leaving (x : list Z) (sh : list bool) (rest : list (option Z)) (v : Z) (g : list (option Z)) : Prop :=
  shape g = sh /\ stream_ok g /\ exists r, nat_random x g = Ok (r, rest) /\ has_value r v.

(** Exchanging two numbers: a rearrangement of the streams that keeps errors
    and everything after the draw in place. *)
Theorem C99_exchange : forall x n v w, represents x n -> 0 <= v < n -> 0 <= w < n ->
  exists f, (forall g, stream_ok g -> stream_ok (f g) /\ shape (f g) = shape g /\ f (f g) = g) /\
    (forall g r rest, stream_ok g -> nat_random x g = Ok (r, rest) -> exists r', nat_random x (f g) = Ok (r', rest) /\ has_value r' (swap v w (nval r))).
Proof.
  intros x n v w R V Ww. assert (N : 0 < n) by lia. exists (fun g => flip n v w (length g) g). split.
  - intros g G. destruct (flip_ok n v w (length g) g G) as (F1 & F2). split; [auto|]. split; [auto|].
    assert (L : length (flip n v w (length g) g) = length g). { apply (f_equal (@length bool)) in F2. unfold shape in F2. rewrite !map_length in F2. exact F2. }
    rewrite L. apply flip_flip; auto.
  - intros g r rest G E. pose proof (C23_range x n g R N G) as K. rewrite E in K. destruct K as (m & (_ & Vr) & B & D). rewrite Vr.
    pose proof (flip_draw n v w N V Ww g m rest D G (length g) ltac:(lia)) as D2. destruct (flip_ok n v w (length g) g G) as (F1 & F2).
    destruct (C23_random x n _ _ rest R N F1 D2) as (r' & E' & H' & _). eauto.
Qed.

Lemma count_test x n v w sh (T : Z -> list (option Z) -> bool) : represents x n -> 0 <= v < n -> 0 <= w < n ->
  (forall u g, T u g = true -> exists r rest, nat_random x g = Ok (r, rest) /\ nval r = u) ->
  (forall u g r rest g' u' r', T u g = true -> nat_random x g = Ok (r, rest) -> nat_random x g' = Ok (r', rest) -> nval r' = u' -> T u' g' = true) ->
  as_many (fun g => (shape g = sh /\ stream_ok g) /\ T v g = true) (fun g => (shape g = sh /\ stream_ok g) /\ T w g = true).
Proof.
  intros R V Ww T1 T2. destruct (lists_streams sh) as (l & L). pose proof (lists_part _ (T v) l L) as L1. pose proof (lists_part _ (T w) l L) as L2.
  exists (filter (T v) l), (filter (T w) l). split; [auto|]. split; [auto|].
  destruct (C99_exchange x n v w R V Ww) as (f & F1 & F2).
  assert (I : forall a b, stream_ok a -> stream_ok b -> f a = f b -> a = b).
  { intros a b A B E. destruct (F1 a A) as (_ & _ & Ea). destruct (F1 b B) as (_ & _ & Eb). congruence. }
  assert (S0 : forall u, u = v \/ u = w -> forall g, (shape g = sh /\ stream_ok g) /\ T u g = true -> (shape (f g) = sh /\ stream_ok (f g)) /\ T (swap v w u) (f g) = true).
  { intros u _ g ((Sg & G) & Tg). destruct (F1 g G) as (G' & Sg' & _). split; [split; [congruence|auto]|]. destruct (T1 u g Tg) as (r & rest & E & Vr).
    destruct (F2 g r rest G E) as (r' & E' & _ & Vr'). rewrite Vr in Vr'. exact (T2 u g r rest (f g) _ r' Tg E E' Vr'). }
  assert (Sv : swap v w v = w) by (unfold swap; rewrite Z.eqb_refl; reflexivity).
  assert (Sw : swap v w w = v) by (unfold swap; destruct (Z.eqb_spec w v); [congruence|rewrite Z.eqb_refl; reflexivity]).
  apply Nat.le_antisymm.
  - apply (count_inj _ _ f _ _ (fun g H => eq_rect _ (fun u => (shape (f g) = sh /\ stream_ok (f g)) /\ T u (f g) = true) (S0 v (or_introl eq_refl) g H) _ Sv)) with (3 := L2); [|exact L1]. intros a b Ha Hb. apply I; tauto.
  - apply (count_inj _ _ f _ _ (fun g H => eq_rect _ (fun u => (shape (f g) = sh /\ stream_ok (f g)) /\ T u (f g) = true) (S0 w (or_intror eq_refl) g H) _ Sw)) with (3 := L1); [|exact L2]. intros a b Ha Hb. apply I; tauto.
Qed.

Lemma as_many_ext {A} (P P' Q Q' : A -> Prop) : (forall a, P a <-> P' a) -> (forall a, Q a <-> Q' a) -> as_many P Q -> as_many P' Q'.
Proof. intros E1 E2 (l & m & L & M & E). exists l, m. split; [exact (lists_ext _ _ _ E1 L)|]. split; [exact (lists_ext _ _ _ E2 M)|auto]. Qed.

Definition val_is (x : list Z) (u : Z) (g : list (option Z)) : bool := match nat_random x g with Ok (r, _) => nval r =? u | _ => false end.
Lemma val_is_gives x sh n u g : represents x n -> 0 < n -> (shape g = sh /\ stream_ok g) /\ val_is x u g = true <-> gives x sh u g.
Proof.
  intros R N. unfold gives, val_is. split.
  - intros ((S0 & G) & T). split; [auto|]. split; [auto|]. pose proof (C23_range x n g R N G) as K. destruct (nat_random x g) as [[r rest]| |]; try discriminate T.
    apply Z.eqb_eq in T. destruct K as (m & (Wr & _) & _). exists r, rest. split; [auto|]. split; auto.
  - intros (S0 & G & r & rest & E & _ & Vr). rewrite E. split; [auto|]. apply Z.eqb_eq. exact Vr.
Qed.

Theorem C99_uniform : forall x n v w sh, represents x n -> 0 <= v < n -> 0 <= w < n -> as_many (gives x sh v) (gives x sh w).
Proof.
  intros x n v w sh R V Ww. eapply as_many_ext; [intros g; apply (val_is_gives x sh n); [exact R|lia]|intros g; apply (val_is_gives x sh n); [exact R|lia]|].
  apply (count_test x n); auto; unfold val_is.
  - intros u g T. destruct (nat_random x g) as [[r rest]| |]; try discriminate T. apply Z.eqb_eq in T. eauto.
  - intros u g r rest g' u' r' _ _ -> <-. apply Z.eqb_refl.
Qed.

(** The draw says nothing about the rest of the stream: uniform also among the
    streams that leave [rest]. *)
Theorem C99_independent : forall x n v w sh rest, represents x n -> 0 <= v < n -> 0 <= w < n -> as_many (gives_leaving x sh rest v) (gives_leaving x sh rest w).
Proof.
  intros x n v w sh rest R V Ww. assert (N : 0 < n) by lia.
  pose (eqs := fun a b : list (option Z) => if list_eq_dec (fun p q : option Z => ltac:(decide equality; apply Z.eq_dec)) a b then true else false).
  pose (T := fun u g => match nat_random x g with Ok (r, q) => (nval r =? u) && eqs q rest | _ => false end).
  assert (EQ : forall a b, eqs a b = true <-> a = b) by (intros a b; unfold eqs; destruct (list_eq_dec _ a b); split; congruence).
  assert (K : forall u g, (shape g = sh /\ stream_ok g) /\ T u g = true <-> gives_leaving x sh rest u g).
  { intros u g. unfold gives_leaving, T. split.
    - intros ((S0 & G) & H). split; [auto|]. split; [auto|]. pose proof (C23_range x n g R N G) as K. destruct (nat_random x g) as [[r q]| |]; try discriminate H.
      apply andb_true_iff in H. destruct H as (H1 & H2). apply Z.eqb_eq in H1. apply EQ in H2. subst q. destruct K as (m & (Wr & _) & _). exists r. split; [auto|]. split; auto.
    - intros (S0 & G & r & E & _ & Vr). rewrite E. split; [auto|]. apply andb_true_iff. split; [apply Z.eqb_eq; exact Vr|apply EQ; reflexivity]. }
  eapply as_many_ext; [apply K|apply K|]. apply (count_test x n); auto; unfold T.
  - intros u g H. destruct (nat_random x g) as [[r q]| |]; try discriminate H. apply andb_true_iff in H. destruct H as (H1 & _). apply Z.eqb_eq in H1. eauto.
  - intros u g r q g' u' r' H E -> <-. rewrite E in H. apply andb_true_iff in H. rewrite Z.eqb_refl. apply H.
Qed.

(** At most half of the groups of words are rejected, whatever the bound. *)
Theorem C99_half : forall x n, represents x n -> 0 < n ->
  at_most (fun ws => (words_ok ws /\ length ws = length x) /\ nat_random x (map Some ws) = Fuel)
          (fun ws => (words_ok ws /\ length ws = length x) /\ exists r, nat_random x (map Some ws) = Ok (r, [])).
Proof.
  intros x n R N. destruct (size_facts n N) as (K0 & B0 & NB & TB & c & C0 & WC). set (k := word_length n) in *. set (B := bit_length n) in *.
  assert (Lx : length x = k). { destruct R as (C & Vx). destruct (canon_bits x C ltac:(lia)) as (_ & L & _). rewrite L, Vx. reflexivity. }
  assert (P0 : 0 < 2 ^ B) by (apply Z.pow_pos_nonneg; lia).
  assert (SO : forall ws, words_ok ws -> stream_ok (map Some ws)).
  { intros ws H. induction H; cbn [map]; constructor; auto. }
  assert (TK : forall ws, words_ok ws -> length ws = k -> takes (map Some ws) ws []).
  { intros ws _ L. destruct (exists_last (l := ws)) as (u & a & ->); [intros ->; cbn in L; lia|]. exists (map Some u), a. split; [rewrite map_app; reflexivity|].
    f_equal. clear. induction u as [|b u IH]; [reflexivity|]. cbn [map somes flat_map app]. f_equal. exact IH. }
  assert (HIT : forall ws, words_ok ws -> length ws = k -> nval ws mod 2 ^ B < n -> exists r, nat_random x (map Some ws) = Ok (r, [])).
  { intros ws H L M. destruct (C23_random x n _ _ [] R N (SO ws H) (draw_hit n _ ws [] (TK ws H L) L M)) as (r & E & _). eauto. }
  assert (MISS : forall ws, words_ok ws -> length ws = k -> n <= nval ws mod 2 ^ B -> nat_random x (map Some ws) = Fuel).
  { intros ws H L M. pose proof (C23_range x n _ R N (SO ws H)) as G. destruct (nat_random x (map Some ws)) as [[r rest]| |]; [|destruct G|reflexivity].
    destruct G as (v & _ & _ & D). exfalso. inversion D as [? ws' ? T' L' V'|? ws' g' ? ? T' L' V' D']; subst; destruct (takes_fun _ _ _ _ _ (TK ws H L) T' ltac:(fold k in L'; lia)); subst; fold B in V'; [lia|].
    inversion D' as [? ws2 ? T2 L2 ?|? ws2 g2 ? ? T2 L2 ? ?]; subst; destruct T2 as (pre & y & E & _); destruct pre; discriminate E. }
  pose (miss := fun ws => n <=? nval ws mod 2 ^ B). destruct (lists_words k) as (l & L).
  exists (filter miss l), (filter (fun ws => negb (miss ws)) l).
  assert (L1 : lists_all (fun ws => (words_ok ws /\ length ws = k) /\ miss ws = true) (filter miss l)) by (apply lists_part; auto).
  assert (L2 : lists_all (fun ws => (words_ok ws /\ length ws = k) /\ negb (miss ws) = true) (filter (fun ws => negb (miss ws)) l)) by (apply lists_part; auto).
  split; [|split].
  - revert L1. apply lists_ext. intros ws. rewrite Lx. unfold miss. split; intros ((H1 & H2) & H3); (split; [auto|]).
    + apply Z.leb_le in H3. auto.
    + apply Z.leb_le. destruct (Z.le_gt_cases n (nval ws mod 2 ^ B)) as [|G]; [auto|]. destruct (HIT ws H1 H2 G) as (r & E). congruence.
  - revert L2. apply lists_ext. intros ws. rewrite Lx. unfold miss. split; intros ((H1 & H2) & H3); (split; [auto|]).
    + apply negb_true_iff, Z.leb_gt in H3. auto.
    + apply negb_true_iff, Z.leb_gt. destruct (Z.le_gt_cases n (nval ws mod 2 ^ B)) as [G|]; [|auto]. destruct H3 as (r & E). rewrite (MISS ws H1 H2 G) in E. discriminate E.
  - assert (BP : 2 ^ B = 2 * 2 ^ (B - 1)) by (rewrite <- Z.pow_succ_r by lia; f_equal; lia). set (P := 2 ^ (B - 1)) in *.
    assert (KEY : forall ws, (words_ok ws /\ length ws = k) /\ miss ws = true -> 0 <= nval ws - P < Wp k /\ (nval ws - P) mod 2 ^ B < n).
    { intros ws ((H1 & H2) & H3). unfold miss in H3. apply Z.leb_le in H3. pose proof (nval_bound ws H1) as NB2. rewrite H2 in NB2.
      pose proof (Z.div_mod (nval ws) (2 ^ B) ltac:(lia)) as DM. pose proof (Z.mod_pos_bound (nval ws) (2 ^ B) P0) as MB. set (q := nval ws / 2 ^ B) in *. set (m := nval ws mod 2 ^ B) in *.
      assert (0 <= q) by (apply Z.div_pos; lia). assert (E : (nval ws - P) mod 2 ^ B = m - P) by (symmetry; apply (Z.mod_unique_pos _ _ q); lia). rewrite E. split; [nia|lia]. }
    apply (count_inj _ _ (fun ws => wordsk k (nval ws - P)) _ _) with (3 := L1) (4 := L2).
    + intros ws H. destruct (KEY ws H) as (K1 & K2). split; [split; [apply wordsk_ok|apply wordsk_len]|]. unfold miss. rewrite wordsk_val by auto. apply negb_true_iff, Z.leb_gt. exact K2.
    + intros a b Ha Hb E. destruct (KEY a Ha) as (K1 & _). destruct (KEY b Hb) as (K2 & _). apply (f_equal nval) in E. rewrite !wordsk_val in E by auto.
      destruct Ha as ((A1 & A2) & _), Hb as ((B1 & B2) & _). apply nval_inj; [auto|auto|congruence|lia].
Qed.

(** [BigInt::random]: uniform among 0, ..., |n| - 1 with the sign of the bound. *)
Theorem C99_bigint : forall x n v w sh, is_int x n -> 0 <= v < Z.abs n -> 0 <= w < Z.abs n ->
  let gives u g := shape g = sh /\ stream_ok g /\ exists r rest, b_random x g = Ok (r, rest) /\ int_value r (if n <? 0 then - u else u) in
  as_many (gives v) (gives w).
Proof.
  intros x n v w sh X V Ww. cbv zeta. assert (N0 : n <> 0) by lia.
  assert (R : represents (bnat x) (Z.abs n)) by (apply is_int_iff in X; subst x; rewrite zint_nat; split; [apply of_Z_canon|apply of_Z_val]; lia).
  assert (Q : forall u g, stream_ok g -> (exists r rest, nat_random (bnat x) g = Ok (r, rest) /\ has_value r u) <->
         (exists r rest, b_random x g = Ok (r, rest) /\ int_value r (if n <? 0 then - u else u))).
  { intros u g G. pose proof (C77_random_partial x n g X N0 G) as K1. pose proof (C23_range (bnat x) (Z.abs n) g R ltac:(lia) G) as K2. split; intros (r & rest & E & H).
    - rewrite E in K2. destruct K2 as (m & (_ & Vm) & B & D). destruct H as (_ & Hr). destruct (b_random x g) as [[r' rest']| |]; [|destruct K1|destruct (K1 _ _ D)].
      destruct K1 as (m' & D' & B' & I'). destruct (draw_fun _ _ _ _ _ _ D D') as (-> & ->). exists r', rest'. split; [reflexivity|]. rewrite <- Hr, Vm. exact I'.
    - rewrite E in K1. destruct K1 as (m' & D' & B' & I'). destruct (nat_random (bnat x) g) as [[r' rest']| |]; [|destruct K2|destruct (K2 _ _ D')].
      destruct K2 as (m & H2 & B & D). destruct (draw_fun _ _ _ _ _ _ D D') as (-> & ->). exists r', rest. split; [reflexivity|].
      replace u with m'; [exact H2|]. destruct I' as (_ & _ & I'), H as (_ & _ & H). destruct (n <? 0); lia. }
  eapply as_many_ext; [| |exact (C99_uniform (bnat x) (Z.abs n) v w sh R V Ww)]; intros g; unfold gives; split; intros (A1 & A2 & A3);
    (split; [exact A1|]); (split; [exact A2|]); apply Q; auto.
Qed.

(** With the bound 3 and one word, the streams that give 0 and 2 are exchanged
    by changing the two low bits; words with low bits 11 give nothing. *)
Example C99_case : nat_random [3] [Some 4; Some 9] = Ok ([0], [Some 9]) /\ nat_random [3] [Some 6; Some 9] = Ok ([2], [Some 9]) /\
  flip 3 0 2 1 [Some 4; Some 9] = [Some 6; Some 9] /\ nat_random [3] [Some 7] = Fuel /\
  gives [3] [true] 2 [Some 6] /\ represents [3] 3.
Proof.
  split; [reflexivity|]. split; [reflexivity|]. split; [reflexivity|]. split; [reflexivity|]. split.
  - split; [reflexivity|]. split; [repeat constructor; lia|]. exists [2], []. split; [reflexivity|]. split; [repeat constructor; lia|reflexivity].
  - split; [apply canon_single; lia|reflexivity].
Qed.
Print Assumptions C99_exchange.
Print Assumptions C99_uniform.
Print Assumptions C99_independent.
Print Assumptions C99_half.
Print Assumptions C99_bigint.
