(** Uniformity of rejection sampling: the group of words that makes the draw
    can be exchanged for one that draws another number. *)
From Coq Require Import ZArith List Lia Bool FinFun.
From Verif Require Import Words WordsFacts NatModel NatFacts Spec SpecPrime SpecUniform NatPrime NatPrimeFacts.
Import ListNotations.
Open Scope Z_scope.

(** The prefix of [g] that ends with its [k]-th word. *)
Fixpoint cut (k : nat) (g : list (option Z)) {struct g} : option (list (option Z) * list (option Z)) :=
  match k with
  | O => Some ([], g)
  | S j =>
      match g with
      | [] => None
      | None :: t => match cut k t with Some (p, q) => Some (None :: p, q) | None => None end
      | Some w :: t => match cut j t with Some (p, q) => Some (Some w :: p, q) | None => None end
      end
  end.
(** Other words in the same places. *)
Fixpoint refill (p : list (option Z)) (l : list Z) : list (option Z) :=
  match p with
  | [] => []
  | None :: t => None :: refill t l
  | Some _ :: t => match l with [] => Some 0 :: refill t [] | w :: l' => Some w :: refill t l' end
  end.
Fixpoint wordsk (k : nat) (u : Z) : list Z := match k with O => [] | S j => u mod W :: wordsk j (u / W) end.

Lemma wordsk_len k : forall u, length (wordsk k u) = k.
Proof. induction k as [|k IH]; intros u; cbn [wordsk length]; auto. Qed.
Lemma wordsk_ok k : forall u, words_ok (wordsk k u).
Proof. induction k as [|k IH]; intros u; [constructor|]. cbn [wordsk]. apply words_ok_cons. split; [apply Z.mod_pos_bound; reflexivity|auto]. Qed.
Lemma wordsk_val k : forall u, 0 <= u < Wp k -> nval (wordsk k u) = u.
Proof.
  induction k as [|k IH]; intros u H; cbn [wordsk nval].
  - change (Wp 0) with 1 in H. lia.
  - rewrite IH.
    + pose proof (Z.div_mod u W ltac:(discriminate)). lia.
    + rewrite Wp_S in H. split; [apply Z.div_pos; [lia|reflexivity]|]. apply Z.div_lt_upper_bound; [reflexivity|lia].
Qed.

Lemma cut_app k : forall g p q, cut k g = Some (p, q) -> g = p ++ q /\ length (somes p) = k /\ forall q', cut k (p ++ q') = Some (p, q').
Proof.
  intros g. revert k. induction g as [|o g IH]; intros [|k] p q E; cbn [cut] in E; try discriminate.
  - injection E as <- <-. split; [reflexivity|]. split; [reflexivity|]. intros [|]; reflexivity.
  - injection E as <- <-. split; [reflexivity|]. split; [reflexivity|]. intros [|]; reflexivity.
  - destruct o as [w|].
    + destruct (cut k g) as [[p1 q1]|] eqn:C; [|discriminate]. injection E as <- <-. destruct (IH _ _ _ C) as (-> & L & F).
      split; [reflexivity|]. split; [cbn; f_equal; exact L|]. intros q'. cbn [app cut]. rewrite F. reflexivity.
    + destruct (cut (S k) g) as [[p1 q1]|] eqn:C; [|discriminate]. injection E as <- <-. destruct (IH _ _ _ C) as (-> & L & F).
      split; [reflexivity|]. split; [exact L|]. intros q'. cbn [app cut]. rewrite F. reflexivity.
Qed.
Lemma cut_takes k : forall g p q, cut (S k) g = Some (p, q) -> takes g (somes p) q.
Proof.
  intros g. revert k. induction g as [|o g IH]; intros k p q E; cbn [cut] in E; [discriminate|]. destruct o as [w|].
  - destruct (cut k g) as [[p1 q1]|] eqn:C; [|discriminate]. injection E as <- <-. destruct k as [|k].
    + assert (p1 = [] /\ q1 = g) as (-> & ->) by (destruct g; cbn [cut] in C; injection C as <- <-; auto). exists [], w. split; reflexivity.
    + destruct (IH _ _ _ C) as (pre & u & -> & E). exists (Some w :: pre), u. split; [reflexivity|]. cbn [somes flat_map app]. fold (somes p1) (somes pre). rewrite E. reflexivity.
  - destruct (cut (S k) g) as [[p1 q1]|] eqn:C; [|discriminate]. injection E as <- <-.
    destruct (IH _ _ _ C) as (pre & u & -> & E). exists (None :: pre), u. split; [reflexivity|]. exact E.
Qed.
Lemma takes_cut g ws rest : takes g ws rest -> exists p, cut (length ws) g = Some (p, rest) /\ somes p = ws.
Proof.
  intros (pre & w & -> & ->). exists (pre ++ [Some w]). split.
  - induction pre as [|o pre IH]; cbn [app somes flat_map length].
    + cbn [cut]. destruct rest; reflexivity.
    + destruct o as [u|]; cbn [app length].
      * cbn [cut]. fold (somes pre). rewrite IH. reflexivity.
      * fold (somes pre). rewrite app_length in *. cbn [length] in *. rewrite Nat.add_1_r in *. cbn [cut]. rewrite IH. reflexivity.
  - unfold somes. rewrite flat_map_app. reflexivity.
Qed.

Lemma refill_somes p : forall l, length l = length (somes p) -> somes (refill p l) = l.
Proof.
  induction p as [|[w|] p IH]; intros l L; cbn [somes flat_map app length refill] in *.
  - destruct l; [reflexivity|discriminate].
  - fold (somes p) in L. destruct l as [|v l]; [discriminate|]. cbn [length] in L. cbn [somes flat_map app]. fold (somes (refill p l)). rewrite IH by lia. reflexivity.
  - apply IH. exact L.
Qed.
Lemma refill_refill p : forall l m, length l = length (somes p) -> refill (refill p l) m = refill p m.
Proof.
  induction p as [|[w|] p IH]; intros l m L; cbn [somes flat_map app length refill] in *; [reflexivity| |].
  - fold (somes p) in L. destruct l as [|v l]; [discriminate|]. cbn [length] in L. cbn [refill]. destruct m as [|u m]; rewrite IH by lia; reflexivity.
  - rewrite IH by exact L. reflexivity.
Qed.
Lemma refill_id p : refill p (somes p) = p.
Proof. induction p as [|[w|] p IH]; cbn [somes flat_map app refill]; [reflexivity| |]; fold (somes p); rewrite IH; reflexivity. Qed.
Lemma refill_shape p : forall l, shape (refill p l) = shape p.
Proof.
  unfold shape. induction p as [|[w|] p IH]; intros l; cbn [refill map]; [reflexivity| |].
  - destruct l; cbn [map]; rewrite IH; reflexivity.
  - rewrite IH. reflexivity.
Qed.
Lemma refill_ok p : forall l, words_ok l -> stream_ok (refill p l).
Proof.
  induction p as [|[w|] p IH]; intros l H; cbn [refill]; [constructor| |].
  - destruct l as [|v l].
    + apply Forall_cons; [lia|apply IH; constructor].
    + apply words_ok_cons in H. destruct H as (H1 & H2). apply Forall_cons; [exact H1|apply IH; exact H2].
  - apply Forall_cons; [exact I|apply IH; exact H].
Qed.
Lemma refill_cut k p : forall l q, cut k p = Some (p, []) -> length l = k -> cut k (refill p l ++ q) = Some (refill p l, q).
Proof.
  revert k. induction p as [|[w|] p IH]; intros k l q C L.
  - destruct k as [|k]; [|discriminate C]. destruct q; reflexivity.
  - destruct k as [|k]; [cbn in C; discriminate C|]. cbn [cut] in C. destruct (cut k p) as [[p1 q1]|] eqn:E; [|discriminate]. injection C as -> ->.
    destruct l as [|v l]; [discriminate|]. cbn [length] in L. cbn [refill app cut]. rewrite (IH k l q E ltac:(lia)). reflexivity.
  - destruct k as [|k]; [cbn in C; discriminate C|]. cbn [cut] in C. destruct (cut (S k) p) as [[p1 q1]|] eqn:E; [|discriminate]. injection C as -> ->.
    cbn [refill app cut]. rewrite (IH (S k) l q E L). reflexivity.
Qed.

Section Swap.
Variables (n v w : Z).
Hypothesis N : 0 < n.
Hypothesis V : 0 <= v < n.
Hypothesis V' : 0 <= w < n.
Let k := word_length n.
Let B := bit_length n.

Lemma size_facts : (0 < k)%nat /\ 0 < B /\ n < 2 ^ B /\ 2 ^ B <= 2 * n /\ exists c, 0 < c /\ Wp k = c * 2 ^ B.
Proof.
  unfold k, B, word_length, bit_length. pose proof (Z.log2_nonneg n) as L. destruct (Z.log2_spec n N) as (A1 & A2). rewrite <- Z.add_1_r in A2.
  assert (D : 1 <= (Z.log2 n + 1 + 31) / 32) by (apply Z.div_le_lower_bound; lia).
  split; [lia|]. split; [lia|]. split; [exact A2|]. split; [rewrite Z.pow_add_r by lia; lia|].
  rewrite Wp_pow2, Z2Nat.id by lia. assert (K : Z.log2 n + 1 <= 32 * ((Z.log2 n + 1 + 31) / 32)).
  { pose proof (Z.div_mod (Z.log2 n + 1 + 31) 32 ltac:(lia)). pose proof (Z.mod_pos_bound (Z.log2 n + 1 + 31) 32 ltac:(lia)). lia. }
  exists (2 ^ (32 * ((Z.log2 n + 1 + 31) / 32) - (Z.log2 n + 1))). split; [apply Z.pow_pos_nonneg; lia|]. rewrite <- Z.pow_add_r by lia. f_equal. lia.
Qed.
Lemma swap_range m : 0 <= m < n -> 0 <= swap v w m < n.
Proof. unfold swap. destruct (m =? v), (m =? w); lia. Qed.
Lemma swap_swap m : swap v w (swap v w m) = m.
Proof. unfold swap. destruct (Z.eqb_spec m v); [subst; destruct (Z.eqb_spec w v); [congruence|rewrite Z.eqb_refl; reflexivity]|].
  destruct (Z.eqb_spec m w); [subst; rewrite Z.eqb_refl; reflexivity|]. destruct (Z.eqb_spec m v); [congruence|]. destruct (Z.eqb_spec m w); congruence. Qed.

(** The new group. *)
Definition regroup (u : Z) : Z := u - u mod 2 ^ B + swap v w (u mod 2 ^ B).
Lemma regroup_facts u : 0 <= u < Wp k -> u mod 2 ^ B < n ->
  0 <= regroup u < Wp k /\ regroup u mod 2 ^ B = swap v w (u mod 2 ^ B) /\ regroup (regroup u) = u.
Proof.
  intros U M. destruct size_facts as (_ & B0 & NB & _ & c & C0 & WC). set (P := 2 ^ B) in *.
  assert (P0 : 0 < P) by (unfold P; apply Z.pow_pos_nonneg; lia).
  pose proof (Z.mod_pos_bound u P P0) as MB. pose proof (swap_range (u mod P) ltac:(lia)) as SB.
  pose proof (Z.div_mod u P ltac:(lia)) as DM. set (q := u / P) in *. assert (Q : 0 <= q < c) by (split; [apply Z.div_pos; lia|apply Z.div_lt_upper_bound; lia]).
  assert (R : regroup u = swap v w (u mod P) + q * P) by (unfold regroup; fold P; lia).
  assert (R2 : regroup u mod P = swap v w (u mod P)) by (rewrite R, Z.mod_add, Z.mod_small by lia; reflexivity).
  split; [rewrite R; nia|]. split; [exact R2|]. unfold regroup at 1. fold P. rewrite R2, swap_swap. lia.
Qed.

Fixpoint flip (fuel : nat) (g : list (option Z)) : list (option Z) :=
  match fuel with
  | O => g
  | S f =>
      match cut k g with
      | None => g
      | Some (p, q) =>
          let u := nval (somes p) in
          if u mod 2 ^ B <? n then refill p (wordsk k (regroup u)) ++ q else p ++ flip f q
      end
  end.

Lemma somes_ok g : stream_ok g -> words_ok (somes g).
Proof.
  intros H. induction H as [|[u|] g Hu H IH]; cbn [somes flat_map app]; [constructor| |exact IH]. apply words_ok_cons. split; [exact Hu|exact IH].
Qed.
Lemma stream_app a b : stream_ok (a ++ b) <-> stream_ok a /\ stream_ok b.
Proof. unfold stream_ok. apply Forall_app. Qed.
Lemma cut_nil g p q : cut k g = Some (p, q) -> cut k p = Some (p, []).
Proof. intros C. destruct (cut_app _ _ _ _ C) as (_ & _ & F). specialize (F []). rewrite app_nil_r in F. exact F. Qed.
Lemma group_bound g p q : stream_ok g -> cut k g = Some (p, q) -> 0 <= nval (somes p) < Wp k /\ length (somes p) = k /\ stream_ok p /\ stream_ok q.
Proof.
  intros G C. destruct (cut_app _ _ _ _ C) as (E & L & _). rewrite E in G. apply stream_app in G. destruct G as (Gp & Gq).
  split; [|auto]. rewrite <- L. apply nval_bound, somes_ok. exact Gp.
Qed.
Lemma flip_ok fuel : forall g, stream_ok g -> stream_ok (flip fuel g) /\ shape (flip fuel g) = shape g.
Proof.
  induction fuel as [|f IH]; intros g G; cbn [flip]; [auto|]. destruct (cut k g) as [[p q]|] eqn:C; [|auto]. cbv zeta.
  destruct (group_bound _ _ _ G C) as (U & L & Gp & Gq). destruct (cut_app _ _ _ _ C) as (E & _ & _). destruct (nval (somes p) mod 2 ^ B <? n).
  - split; [apply stream_app; split; [apply refill_ok, wordsk_ok|auto]|]. unfold shape. rewrite map_app. fold (shape (refill p (wordsk k (regroup (nval (somes p)))))). rewrite refill_shape.
    rewrite E. unfold shape. rewrite map_app. reflexivity.
  - destruct (IH q Gq) as (F1 & F2). split; [apply stream_app; auto|]. rewrite E. unfold shape in *. rewrite !map_app, F2. reflexivity.
Qed.
Lemma flip_flip fuel : forall g, stream_ok g -> flip fuel (flip fuel g) = g.
Proof.
  induction fuel as [|f IH]; intros g G; cbn [flip]; [auto|]. destruct (cut k g) as [[p q]|] eqn:C; [|rewrite C; auto]. cbv zeta.
  destruct (group_bound _ _ _ G C) as (U & L & Gp & Gq). destruct (cut_app _ _ _ _ C) as (E & _ & F). destruct (nval (somes p) mod 2 ^ B <? n) eqn:M.
  - apply Z.ltb_lt in M. destruct (regroup_facts _ U M) as (U1 & M1 & R1). rewrite (refill_cut k p _ q (cut_nil _ _ _ C)) by apply wordsk_len.
    rewrite refill_somes by (rewrite wordsk_len; auto). rewrite wordsk_val by auto. rewrite M1.
    assert (M2 : swap v w (nval (somes p) mod 2 ^ B) < n) by (apply swap_range; split; [|exact M]; apply Z.mod_pos_bound, Z.pow_pos_nonneg; destruct size_facts; lia).
    apply Z.ltb_lt in M2. rewrite M2, R1. rewrite refill_refill by (rewrite wordsk_len; auto).
    replace (wordsk k (nval (somes p))) with (somes p); [rewrite refill_id; auto|]. apply nval_inj; [apply somes_ok; auto|apply wordsk_ok|rewrite wordsk_len; auto|rewrite wordsk_val; auto].
  - rewrite F, M, IH by auto. symmetry. exact E.
Qed.
Lemma flip_draw g m rest : draw n g m rest -> stream_ok g -> forall fuel, (length g <= fuel)%nat -> draw n (flip fuel g) (swap v w m) rest.
Proof.
  destruct size_facts as (K0 & B0 & NB & _ & c & C0 & WC).
  induction 1 as [g ws rest T L M|g ws g' m rest T L M D IH]; intros G fuel F.
  - destruct (takes_cut _ _ _ T) as (p & C & Sp). rewrite L in C. fold k in C. pose proof (takes_len _ _ _ T). destruct fuel as [|f]; [lia|]. cbn [flip]. rewrite C. cbv zeta. rewrite Sp.
    fold B in M |- *. rewrite (proj2 (Z.ltb_lt _ _) M). destruct (group_bound _ _ _ G C) as (U & Lp & Gp & Gq). rewrite Sp in U. destruct (regroup_facts _ U M) as (U1 & M1 & R1).
    pose proof (refill_cut k p (wordsk k (regroup (nval ws))) rest (cut_nil _ _ _ C) (wordsk_len _ _)) as C2. destruct k as [|j] eqn:Kj; [lia|]. apply cut_takes in C2.
    rewrite refill_somes in C2 by (rewrite wordsk_len; auto). pose proof (draw_hit n _ _ rest C2) as H1. rewrite wordsk_len in H1. fold B in H1. rewrite wordsk_val, M1 in H1 by exact U1. apply H1; [symmetry; exact Kj|].
    apply swap_range. split; [|exact M]. apply Z.mod_pos_bound, Z.pow_pos_nonneg; lia.
  - destruct (takes_cut _ _ _ T) as (p & C & Sp). rewrite L in C. fold k in C. pose proof (takes_len _ _ _ T). destruct fuel as [|f]; [lia|]. cbn [flip]. rewrite C. cbv zeta. rewrite Sp.
    fold B in M |- *. rewrite (proj2 (Z.ltb_ge _ _) M). destruct (group_bound _ _ _ G C) as (U & Lp & Gp & Gq). specialize (IH Gq f ltac:(lia)).
    destruct (cut_app _ _ _ _ C) as (_ & _ & F2). specialize (F2 (flip f g')). destruct k as [|j] eqn:Kj; [lia|]. pose proof (cut_takes j _ _ _ F2) as T2. rewrite Sp in T2.
    eapply draw_miss; [exact T2|lia|exact M|exact IH].
Qed.
End Swap.

(** Counting through an injection. *)
Lemma count_inj {A} (P Q : A -> Prop) (f : A -> A) l m : (forall a, P a -> Q (f a)) -> (forall a b, P a -> P b -> f a = f b -> a = b) ->
  lists_all P l -> lists_all Q m -> (length l <= length m)%nat.
Proof.
  intros H I (Nl & Hl) (Nm & Hm). rewrite <- (map_length f l). apply NoDup_incl_length.
  - assert (HP : forall a, In a l -> P a) by (intros a; apply Hl). clear Hl. induction Nl as [|a l Na Nl IH]; [constructor|]. cbn [map]. constructor.
    + intros J. apply in_map_iff in J. destruct J as (b & E & Ib). apply Na. rewrite (I a b); [exact Ib|apply HP; left; auto|apply HP; right; auto|auto].
    + apply IH. intros b Ib. apply HP. right. auto.
  - intros b J. apply in_map_iff in J. destruct J as (a & <- & Ia). apply Hm, H, Hl. exact Ia.
Qed.
(** Decidable parts of finite sets are finite. *)
Lemma lists_part {A} (P : A -> Prop) (f : A -> bool) l : lists_all P l -> lists_all (fun a => P a /\ f a = true) (filter f l).
Proof. intros (N & H). split; [apply NoDup_filter; auto|]. intros a. rewrite filter_In, H. reflexivity. Qed.
Lemma lists_ext {A} (P Q : A -> Prop) l : (forall a, P a <-> Q a) -> lists_all P l -> lists_all Q l.
Proof. intros E (N & H). split; [auto|]. intros a. rewrite H. apply E. Qed.

Lemma lists_range n : lists_all (fun z => 0 <= z < n) (map Z.of_nat (seq 0 (Z.to_nat n))).
Proof.
  split.
  - apply FinFun.Injective_map_NoDup; [intros a b; lia|apply seq_NoDup].
  - intros a. rewrite in_map_iff. split.
    + intros (k & <- & I). apply in_seq in I. lia.
    + intros H. exists (Z.to_nat a). split; [lia|]. apply in_seq. lia.
Qed.
Lemma nodup_app {A} (l m : list A) : NoDup l -> NoDup m -> (forall a, In a l -> ~ In a m) -> NoDup (l ++ m).
Proof.
  intros Nl Nm D. induction Nl as [|a l Na Nl IH]; [exact Nm|]. cbn [app]. constructor.
  - intros J. apply in_app_or in J. destruct J as [J|J]; [auto|]. apply (D a); [left; auto|auto].
  - apply IH. intros b Ib. apply D. right. auto.
Qed.
Lemma lists_cons {A} (P : A -> Prop) (Q : list A -> Prop) l m : lists_all P l -> lists_all Q m ->
  exists k, lists_all (fun g => match g with [] => False | a :: t => P a /\ Q t end) k.
Proof.
  intros (Nl & Hl) (Nm & Hm). exists (flat_map (fun a => map (cons a) m) l). split.
  - clear Hl. induction Nl as [|a l Na Nl IH]; [constructor|]. cbn [flat_map]. apply nodup_app; [|exact IH|].
    + apply FinFun.Injective_map_NoDup; [intros t u; congruence|auto].
    + intros g J K. apply in_map_iff in J. destruct J as (t & <- & _). apply in_flat_map in K. destruct K as (b & Ib & K).
      apply in_map_iff in K. destruct K as (u & E & _). injection E as -> _. auto.
  - intros g. rewrite in_flat_map. split.
    + intros (a & Ia & J). apply in_map_iff in J. destruct J as (t & <- & It). split; [apply Hl; auto|apply Hm; auto].
    + destruct g as [|a t]; [intros []|]. intros (Pa & Qt). exists a. split; [apply Hl; auto|]. apply in_map_iff. exists t. split; [auto|apply Hm; auto].
Qed.
(** The streams of one shape. *)
Lemma lists_streams sh : exists l, lists_all (fun g => shape g = sh /\ stream_ok g) l.
Proof.
  induction sh as [|b sh (m & IH)].
  - exists [[]]. split; [repeat constructor; auto|]. intros g. cbn [In]. split.
    + intros [<-|[]]. split; [reflexivity|constructor].
    + intros (E & _). left. destruct g; [reflexivity|discriminate].
  - assert (S0 : exists l, lists_all (fun o : option Z => (match o with Some _ => true | None => false end) = b /\ match o with Some w => 0 <= w < 2 ^ 32 | None => True end) l).
    { destruct b.
      - assert (LR : exists l, lists_all (fun z => 0 <= z < 2 ^ 32) l) by (eexists; apply lists_range). destruct LR as (l & N & H). exists (map Some l). split; [apply FinFun.Injective_map_NoDup; [intros a c; congruence|exact N]|].
        intros o. rewrite in_map_iff. split.
        + intros (w & <- & I). split; [reflexivity|]. apply H. exact I.
        + intros (E & B). destruct o as [w|]; [|discriminate]. exists w. split; [reflexivity|]. apply H. exact B.
      - exists [None]. split; [repeat constructor; auto|]. intros o. cbn [In]. split; [intros [<-|[]]; auto|]. intros (E & _). destruct o; [discriminate|auto]. }
    destruct S0 as (l & Hl). destruct (lists_cons _ _ _ _ Hl IH) as (k & Hk). exists k. revert Hk. apply lists_ext. intros [|o g].
    + split; [intros []|]. intros (E & _). discriminate E.
    + unfold shape, stream_ok. cbn [map]. split.
      * intros ((E1 & E2) & E3 & E4). split; [congruence|]. constructor; auto.
      * intros (E & H). injection E as E1 E2. inversion H; subst. auto.
Qed.
Lemma lists_words k : exists l, lists_all (fun g => words_ok g /\ length g = k) l.
Proof.
  induction k as [|k (m & IH)].
  - exists [[]]. split; [repeat constructor; auto|]. intros g. cbn [In]. split; [intros [<-|[]]; split; [constructor|reflexivity]|]. intros (_ & E). left. destruct g; [reflexivity|discriminate].
  - assert (LR : exists l, lists_all (fun z => 0 <= z < W) l) by (eexists; apply lists_range). destruct LR as (l0 & LR).
    destruct (lists_cons _ _ _ _ LR IH) as (l & Hl). exists l. revert Hl. apply lists_ext. intros [|o g].
    + split; [intros []|]. intros (_ & E). discriminate E.
    + cbn [length]. rewrite words_ok_cons. split; [intros (E1 & E2 & E3)|intros ((E1 & E2) & E3)]; repeat split; try tauto; try lia; auto.
Qed.
