(** Corner cases of several properties: what the special values look like
    through the public accessors, which parameters are refused, and what a
    blank inside a decimal text does. *)
From Coq Require Import String ZArith QArith List Lia Bool.
From Verif Require Import Words Spec WordsFacts NatModel NatFacts NatConv NatPow BigInt SpecInt BigIntFacts Rand Rat SpecRat Float SpecFloat
  FloatFacts FloatFacts7  Decimal Alias AliasFacts AliasInt SpecAliasInt AliasIntFacts Properties_Float Properties_AliasInt AliasFloat SpecAliasFloat Properties_AliasFloat.
Import ListNotations.
Open Scope Z_scope.
Open Scope list_scope.

(** ** C12: [Nat::from(Vec<u32>)] (nat.rs:2038-2060), which is [trim] *)
Theorem C12_from_words : forall l, words_ok l ->
  (l <> [] -> represents (trim l) (nval l)) /\ trim [] = nan /\ trim (trim l) = trim l.
Proof.
  intros l H. split; [|split; [reflexivity|]].
  - intros N. split; [apply trim_canon; auto|apply trim_val].
  - destruct l as [|x l]; [reflexivity|]. apply trim_canon_id, trim_canon; [auto|discriminate].
Qed.
Example C12_words_case : trim [5; 7; 0; 0] = [5; 7] /\ trim [0; 0] = [0].
Proof. split; reflexivity. Qed.
Print Assumptions C12_from_words.

(** ** C64: the parameters [new] accepts *)
Theorem C64_parameters : forall B sd w s r, 0 <= w -> 0 <= s -> 0 <= r ->
  (0 < w <= B /\ 0 < s < r -> lf_new B sd w s r = rmap (fun x => Lfg w s r true x 0 0 []) sd) /\
  (~ (0 < w <= B /\ 0 < s < r) -> lf_new B sd w s r = RErr InvalidRngPara) /\
  (forall e, 0 < w <= B -> 0 < s < r -> sd = RErr e -> lf_new B sd w s r = RErr e).
Proof.
  intros B sd w s r Hw Hs Hr.
  assert (K : 0 < w <= B /\ 0 < s < r -> lf_new B sd w s r = rmap (fun x => Lfg w s r true x 0 0 []) sd).
  { intros (A & C). unfold lf_new. destruct (Z.eqb_spec w 0); [lia|]. destruct (Z.eqb_spec s 0); [lia|]. destruct (Z.eqb_spec r 0); [lia|]. cbn [orb].
    destruct (Z.leb_spec r s); [lia|]. destruct (Z.ltb_spec B w); [lia|]. reflexivity. }
  split; [exact K|]. split; [|intros e A C ->; rewrite K by auto; reflexivity].
  intros N. unfold lf_new. destruct (Z.eqb_spec w 0); [reflexivity|]. destruct (Z.eqb_spec s 0); [reflexivity|]. destruct (Z.eqb_spec r 0); [reflexivity|]. cbn [orb].
  destruct (Z.leb_spec r s); [reflexivity|]. destruct (Z.ltb_spec B w); [reflexivity|]. exfalso. apply N. lia.
Qed.
Example C64_parameters_case : lf_new 32 (ROk 1) 0 10 24 = RErr InvalidRngPara /\ lf_new 32 (ROk 1) 24 24 24 = RErr InvalidRngPara /\
  lf_new 32 (ROk 1) 33 10 24 = RErr InvalidRngPara /\ lf_new 32 (ROk 1) 24 0 24 = RErr InvalidRngPara.
Proof. repeat split. Qed.
Print Assumptions C64_parameters.

(** ** C54, C60: the settings of NaN and of the other special values *)
Theorem C54_nan_settings : forall x y z, flform x = Nan \/ flform y = Nan ->
  In (Ok z) [fl_add x y; fl_sub x y; fl_mul x y; fl_div x y] ->
  flform z = Nan /\ flprec z = 0 /\ flmode z = ToNearestEven /\ flacc z = Exact /\ flneg z = false.
Proof.
  intros x y z H I. destruct (C54_nan x y H) as (E1 & E2 & E3 & E4). rewrite E1, E2, E3, E4 in I. cbn [In] in I.
  assert (z = fl_nan) as -> by (destruct I as [I|[I|[I|[I|[]]]]]; congruence). repeat split.
Qed.
Theorem C60_min_precision_special : forall x, flform x <> Finite -> required_min_precision x = 0.
Proof. intros x H. unfold required_min_precision. destruct (flform x); try reflexivity. congruence. Qed.
(** [Float::default()] is +0 with precision 0; the infinities have precision 0. *)
Theorem C60_defaults : ok_float fl_default /\ (flvalue fl_default == 0)%Q /\ flform fl_default = Zero /\ flneg fl_default = false /\
  flprec fl_default = 0 /\ flmode fl_default = ToNearestEven /\ flacc fl_default = Exact /\
  forall s, ok_float (fl_get_inf s) /\ flform (fl_get_inf s) = Inf /\ flneg (fl_get_inf s) = s /\
    flprec (fl_get_inf s) = 0 /\ flmode (fl_get_inf s) = ToNearestEven /\ flacc (fl_get_inf s) = Exact.
Proof.
  assert (O : forall x, flform x <> Finite -> flprec x = 0 -> ok_float x).
  { intros x F P. split; [rewrite P; unfold max_precision; lia|congruence]. }
  split; [apply O; [discriminate|reflexivity]|]. do 6 (split; [reflexivity|]).
  intros s. split; [apply O; [discriminate|reflexivity]|]. repeat split.
Qed.
Example C60_special_case : required_min_precision (fl_get_inf true) = 0 /\ required_min_precision fl_default = 0 /\
  match fl_add (fu 5) fl_nan with Ok z => flprec z = 0 | _ => False end.
Proof. repeat split. Qed.
Print Assumptions C54_nan_settings.
Print Assumptions C60_min_precision_special.
Print Assumptions C60_defaults.

(** ** C59: a blank in front of the exponent is counted as fraction digits, one
    per byte of its UTF-8 encoding.  "30000000.0e-1" is three million. *)
Theorem C59_blank_refuted :
  let text (blank : list Z) := str "30000000.0" ++ blank ++ str "e-1" in
  Forall (fun p => let '(b, v) := p in
    match fl_from_str (text b) with Ok (Some z) => flform z = Finite /\ Qeq_bool (flvalue z) (inject_Z v) = true | _ => False end)
    [([], 3000000); ([32], 300000); ([32; 9], 30000); ([133], 30000); ([8195], 3000)].
Proof. repeat (apply Forall_cons; [vm_compute; split; reflexivity|]). apply Forall_nil. Qed.
Print Assumptions C59_blank_refuted.

(** ** C75: numerator and denominator of a NaN *)
Theorem C75_nan_parts : forall x y z, r_is_nan x = true \/ r_is_nan y = true ->
  In (Ok z) [r_add x y; r_sub x y; r_mul x y; r_div x y] -> b_is_nan (rnum z) = true /\ is_int (rden z) 1.
Proof.
  intros x y z H I. assert (E : r_is_nan x || r_is_nan y = true) by (destruct H as [->| ->]; [|rewrite orb_true_r]; reflexivity).
  unfold r_add, r_sub, r_mul, r_div, r_op2 in I. rewrite E in I. cbn [In] in I.
  assert (z = r_nan) as -> by (destruct I as [I|[I|[I|[I|[]]]]]; congruence). split; [reflexivity|]. apply is_int_iff. reflexivity.
Qed.
Theorem C75_unary_parts : forall x, r_is_nan x = true -> 
  (b_is_nan (rnum (r_neg x)) = true /\ is_int (rden (r_neg x)) 1) /\
  (forall z, r_inv x = Some z -> b_is_nan (rnum z) = true /\ is_int (rden z) 1).
Proof.
  intros x H. unfold r_neg, r_inv. rewrite H. assert (D : is_int (rden r_nan) 1) by (apply is_int_iff; reflexivity).
  split; [split; [reflexivity|exact D]|]. intros z E. injection E as <-. split; [reflexivity|exact D].
Qed.
Theorem C75_assign_parts : forall f x y, r_is_nan x = true \/ r_is_nan y = true ->
  exists z, r_op2_assign f x y = Ok z /\ b_is_nan (rnum z) = true /\ rden z = rden x.
Proof.
  intros f x y H. assert (E : r_is_nan x || r_is_nan y = true) by (destruct H as [->| ->]; [|rewrite orb_true_r]; reflexivity).
  unfold r_op2_assign. rewrite E. exists (r_clear x). repeat split.
Qed.
Print Assumptions C75_nan_parts.
Print Assumptions C75_unary_parts.
Print Assumptions C75_assign_parts.

(** ** C79: a NaN combined with a clone of itself stays NaN.  [C79_assign_partial]
    speaks of numbers only. *)
Theorem C79_nan : forall fuel cs s o x y a b, brun fuel bempty cs = Ok s ->
  blook s x = Some a -> blook s y = Some b -> bfamily cs x = bfamily cs y -> b_is_nan a = true ->
  exists s' r, bstep fuel s (BAssign o x y) = Ok s' /\ blook s' x = Some r /\ b_is_nan r = true.
Proof.
  intros fuel cs s o x y a b R A A2 FE N. pose proof (brun_inv _ _ _ _ _ binv_empty R) as B.
  destruct (look_family _ _ _ _ _ R A) as (f & F). destruct (look_family _ _ _ _ _ R A2) as (g & G).
  destruct (bassign fuel s _ o x y a b B A A2) as (k & E & S0 & M). rewrite (family_nth cs x y f g F G) in S0.
  assert (f = g) as <- by congruence. rewrite Nat.eqb_refl in S0.
  assert (K : exists r, b_alias fuel o (bnat a) (bneg a) (bneg b) = Ok r /\ b_is_nan r = true).
  { destruct a as [m sa]. unfold b_is_nan in N. cbn [bnat bneg] in *. destruct m as [|w m]; [clear N|discriminate N].
    destruct o, sa, (bneg b); (eexists; split; [reflexivity|reflexivity]). }
  destruct K as (r & K & NR). rewrite K in S0. cbn [bind] in S0. destruct (bset_look s _ x k r B E) as (P & _).
  exists (bset s x k r), r. auto.
Qed.
Example C79_nan_case : exists s s', brun 5 bempty [BNew [] false; BClone 0] = Ok s /\ bstep 5 s (BAssign IMul 0 1) = Ok s' /\ blook s' 0 = Some b_nan.
Proof. do 2 eexists. repeat split. Qed.
Print Assumptions C79_nan.

(** [+=] with a clone whose exponent is smaller doubles the left operand:
    after x = 1.75, y = x.clone(), y.set_precision(2): y is 2, x is 1, y + x is
    3, but y += x gives 4. *)
Theorem C83_doubles_refuted : exists cs s s1 s2, frun fempty cs = Ok s /\ value_of s 1 = Some 2%Q /\ value_of s 0 = Some 1%Q /\
  fstep s (FBin FAdd 1 0) = Ok s1 /\ value_of s1 2 = Some 3%Q /\ fstep s (FAssign FAdd 1 0) = Ok s2 /\ value_of s2 1 = Some 4%Q.
Proof.
  exists [FNew f_1_75; FClone 0; FPrec 1 2]. do 3 eexists. split; [vm_compute; reflexivity|]. split; [vm_compute; reflexivity|]. split; [vm_compute; reflexivity|].
  split; [vm_compute; reflexivity|]. split; [vm_compute; reflexivity|]. split; [vm_compute; reflexivity|]. vm_compute; reflexivity.
Qed.
Print Assumptions C83_doubles_refuted.

(** ** C36: [is_natural] *)
Theorem C36_is_natural : forall x a, is_int x a -> b_is_natural x = (0 <=? a).
Proof.
  intros x a H. apply is_int_iff in H. subst x. unfold b_is_natural. rewrite zint_not_nan, zint_neg. cbn [negb andb].
  destruct (Z.ltb_spec a 0), (Z.leb_spec 0 a); try lia; reflexivity.
Qed.
Example C36_natural_case : b_is_natural (zint 0) = true /\ b_is_natural (zint (-7)) = false.
Proof. split; reflexivity. Qed.
Print Assumptions C36_is_natural.

(** ** C14: the white space that parsing trims, character by character (the
    Unicode property White_Space, which [str::trim] uses) *)
Theorem C14_white_space : forall c, is_ws c = true <->
  In c [9; 10; 11; 12; 13; 32; 133; 160; 5760; 8192; 8193; 8194; 8195; 8196; 8197; 8198; 8199; 8200; 8201; 8202; 8232; 8233; 8239; 8287; 12288].
Proof.
  intros c. unfold is_ws. rewrite !orb_true_iff, !andb_true_iff, !Z.leb_le, !Z.eqb_eq. cbn [In]. lia.
Qed.
Example C14_white_space_case : nat_from_str (8202 :: 49 :: [12288]) = Some [1] /\ nat_from_str [8203; 49] = None.
Proof. split; reflexivity. Qed.
Print Assumptions C14_white_space.

(** ** C17: NaN in [pow_mod] *)
Theorem C17_nan : forall a b n, a = nan \/ b = nan \/ n = nan -> nat_pow_mod a b n = Ok nan.
Proof. intros a b n [->|[->| ->]]; unfold nat_pow_mod; cbn [is_nan nan]; rewrite ?orb_true_r; reflexivity. Qed.
Example C17_nan_case : nat_pow_mod [7] nan [5] = Ok nan.
Proof. reflexivity. Qed.
Print Assumptions C17_nan.
