(** Random numbers below a bound with leading zero words: property C139. *)
From Coq Require Import ZArith List Lia Bool.
From Verif Require Import Words WordsFacts NatModel NatFacts NatFacts2 NatFacts5 Spec SpecNum SpecPrime SpecLoose LooseFacts NatPrime NatPrimeFacts.
Import ListNotations.
Open Scope Z_scope.

(** Groups of [l] whole words; the first group below [m] is the draw. *)
Inductive whole_draw (l m : Z) : list (option Z) -> list Z -> list (option Z) -> Prop :=
| whole_hit g ws rest : takes g ws rest -> Z.of_nat (length ws) = l -> nval ws < m -> whole_draw l m g ws rest
| whole_miss g ws g' v rest : takes g ws g' -> Z.of_nat (length ws) = l -> m <= nval ws -> whole_draw l m g' v rest -> whole_draw l m g v rest.

Lemma set_last_same v : words_ok v -> v <> [] -> set_last v (Z.land (last v 0) (W - 1)) = v.
Proof.
  intros Wv Nv. rewrite set_last_nonnil by auto. assert (B : 0 <= last v 0 < 2 ^ 32).
  { rewrite (last_split v Nv) in Wv. apply words_ok_app in Wv. destruct Wv as (_ & Wv). inversion Wv; auto. }
  change (W - 1) with (Z.ones 32). rewrite Z.land_ones, Z.mod_small by lia. symmetry. apply last_split. auto.
Qed.
Lemma loop_whole a l m : stored a l m -> forall fuel g, stream_ok g -> (length g < fuel)%nat ->
  match random_loop fuel a (W - 1) g with
  | Ok (r, rest) => whole_draw l m g r rest /\ stored r l (nval r) /\ 0 <= nval r < m
  | Panic => False
  | Fuel => forall r rest, ~ whole_draw l m g r rest
  end.
Proof.
  intros S. pose proof S as (Wa & La & L0 & Va). pose proof (stored_nonnil _ _ _ S) as Na.
  induction fuel as [|f IH]; intros g G F; [lia|]. cbn [random_loop].
  pose proof (draw_words_spec g (length a - 1)) as DW. replace (Datatypes.S (length a - 1)) with (length a) in DW by lia.
  destruct (draw_words g (length a)) as [[ws g']| |] eqn:E; cbn [bind]; [|auto|].
  - destruct DW as (T & L). destruct (takes_ok _ _ _ G T) as (Ww & Gr). assert (Nw : ws <> []) by (intros ->; cbn in L; lia).
    cbv zeta. rewrite set_last_same by auto. rewrite nat_lt_len by auto. rewrite Va. pose proof (nval_nonneg ws Ww).
    destruct (Z.ltb_spec (nval ws) m) as [V|V].
    + split; [apply whole_hit; auto; lia|]. split; [split; [auto|split; [lia|auto]]|lia].
    + pose proof (takes_len _ _ _ T). specialize (IH g' Gr ltac:(lia)). destruct (random_loop f a (W - 1) g') as [[r rest]| |]; [|auto|].
      * destruct IH as (D & R). split; [|exact R]. apply (whole_miss _ _ g ws g'); auto; lia.
      * intros v rest D. inversion D as [? ws' ? T' L' V'|? ws' g'' ? ? T' L' V' D']; subst.
        -- destruct (takes_fun _ _ _ _ _ T T' ltac:(lia)). subst. lia.
        -- destruct (takes_fun _ _ _ _ _ T T' ltac:(lia)). subst. apply (IH _ _ D').
  - intros v rest D. inversion D as [? ws' ? T' L' V'|? ws' g'' ? ? T' L' V' D']; subst; apply DW in T'; lia.
Qed.
(** ** C139
    A number drawn below [m], kept with leading zero words, is below [m]; it is the first
    group of as many whole words as the bound has that is below [m]. *)
Theorem C139_random : forall a l m g, stored a l m -> 1 < l -> m < 2 ^ (32 * (l - 1)) -> stream_ok g ->
  match nat_random a g with
  | Ok (r, rest) => whole_draw l m g r rest /\ stored r l (nval r) /\ 0 <= nval r < m
  | Panic => False
  | Fuel => forall r rest, ~ whole_draw l m g r rest
  end.
Proof.
  intros a l m g S L M G. unfold nat_random. rewrite (stored_nan _ _ _ S). cbn [orb]. unfold nat_eq_u32, from_u32. rewrite (eqb_stored a l m [0] 1 0 S) by (apply single_stored; lia).
  destruct (Z.eqb_spec l 1); [lia|]. cbn [andb]. unfold random_inner. rewrite (bits_len_stored _ _ _ S). destruct (Z.ltb_spec m (2 ^ (32 * (l - 1)))); [|lia].
  rewrite Z.max_r by lia. rewrite (Z.mul_comm 32), Z.mod_mul by lia. apply (loop_whole a l m S); auto.
Qed.
(** Below a zero kept in several words there is no number: the loop takes groups
    from every generator and never ends, where the bound 0 gives NaN. *)
Theorem C139_zero_refuted : forall a l g, stored a l 0 -> 1 < l -> stream_ok g -> nat_random a g = Fuel /\ nat_random [0] g = Ok (nan, g).
Proof.
  intros a l g S L G. split; [|reflexivity]. assert (0 < 2 ^ (32 * (l - 1))) as P by (apply pow2_pos; lia). pose proof (C139_random a l 0 g S L P G) as R.
  destruct (nat_random a g) as [[r rest]| |]; [destruct R as (_ & _ & R); lia|contradiction|reflexivity].
Qed.
(** Groups of two words for the bound 3 * 5u32, of which one in 2^64 / 15 is taken. *)
Example C139_case : nat_random (nat_mul_u32 [3] 5) [Some 7; Some 9; Some 15; Some 0; None; Some 14; Some 0; Some 1] = Ok ([14; 0], [Some 1]) /\
  nat_random [15] [Some 7; Some 9] = Ok ([7], [Some 9]) /\ nat_random (nat_shl [0] 32) [Some 0; Some 0] = Fuel.
Proof. vm_compute. auto. Qed.

Print Assumptions C139_random.
Print Assumptions C139_zero_refuted.
