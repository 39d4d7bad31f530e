(** C119-C121: the error values. *)
From Coq Require Import Ascii String ZArith QArith List Bool Lia.
From Verif Require Import Words WordsFacts Spec SpecText NatModel NatFacts NatConv NatConvFacts Properties_NatConv BigInt SpecInt BigIntFacts BigIntFacts4 Properties_BigInt
  Rat SpecRat RatFacts RatFacts4 Properties_Rat Float SpecFloat Decimal DecimalFacts4 Ieee Rand RandFacts Properties_Rand NatPrime Errors SpecErr ErrorsFacts.
Import ListNotations.
Open Scope Z_scope.
Open Scope list_scope.

(* ------------------------------------------------------------------ *)
(** ** C119

    A text that is not a number gives an error whose kind says where the fault
    is (at the beginning, or behind a good beginning) and whose message quotes
    the first character at fault.  The kinds are right for every text.  The
    quoted character is at fault, but behind a prefix it is the last one, not
    the first: refuted. *)
Theorem C119_nat_refines : forall s, nat_parse_err s = None <-> nat_from_str s <> None.
Proof. exact nat_err_none. Qed.
Theorem C119_int_refines : forall s, int_parse_err s = None <-> b_from_str s <> None.
Proof. exact int_err_none. Qed.
Theorem C119_nat_fault : forall s t e, trimmed s t ->
  nat_parse_err s = Some e <-> exists k m, fault t k m /\ e = failed k (Plain m).
Proof. exact nat_err_fault. Qed.
Theorem C119_int_fault : forall s t e, trimmed s t ->
  int_parse_err s = Some e <-> exists k m, int_fault t k m /\ e = failed k (Plain m).
Proof. exact int_err_fault. Qed.
(** One text has one fault. *)
Theorem C119_fault_unique : forall t k m k' m', fault t k m -> fault t k' m' -> k = k' /\ m = m'.
Proof.
  intros t k m k' m' F G. apply text_err_fault in F. apply text_err_fault in G. rewrite F in G. injection G as <- <-. auto.
Qed.
(** A text that parses has none, and every other text has one. *)
Theorem C119_fault_iff : forall s t, trimmed s t -> (exists k m, fault t k m) <-> nat_from_str s = None.
Proof.
  intros s t T. pose proof (nat_err_none s) as N. split.
  - intros (k & m & F). assert (E : nat_parse_err s = Some (failed k (Plain m))) by (apply (nat_err_fault s t _ T); eauto).
    destruct (nat_from_str s); [|reflexivity]. destruct N as [_ N]. rewrite N in E by discriminate. discriminate.
  - intros E. destruct (nat_parse_err s) as [e|] eqn:P.
    + apply (nat_err_fault s t e T) in P. destruct P as (k & m & F & _). eauto.
    + destruct N as [N _]. specialize (N eq_refl). congruence.
Qed.
(** The quoted character is one of the text and no digit of its base. *)
Theorem C119_quotes_partial : forall s t e, trimmed s t -> nat_parse_err s = Some e -> kind e = IllegalCharEncounter ->
  exists base c, shown (as_report parse_dbg e) = str "illegal char " ++ [c] /\ In c t /\ ~ is_digit base c /\
    ((base = 10 /\ exists pre d u, signs pre /\ is_digit 10 d /\ d <> 48 /\ t = pre ++ d :: u) \/
     (exists pre p u, signs pre /\ prefix_base p base /\ t = pre ++ 48 :: p :: u)).
Proof.
  intros s t e T P K. apply (nat_err_fault s t e T) in P. destruct P as (k & m & F & ->). cbn [kind failed] in K. subst k.
  inversion F as [| | | |pre d u c v S D N U C|pre p base u c v S B C V]; subst.
  - exists 10, c. split; [reflexivity|]. split; [apply in_or_app; right; right; apply in_or_app; right; left; reflexivity|].
    split; [auto|]. left. split; [reflexivity|]. exists pre, d, (u ++ c :: v). auto.
  - exists base, c. split; [reflexivity|]. split; [apply in_or_app; right; right; right; apply in_or_app; right; left; reflexivity|].
    split; [auto|]. right. exists pre, p, (u ++ c :: v). auto.
Qed.
(** "0x1g2h": the message quotes 'h', the fault is at 'g'. *)
Theorem C119_first_refuted : exists e, nat_parse_err (str "0x1g2h") = Some e /\ shown (as_report parse_dbg e) = str "illegal char h" /\
  ~ is_digit 16 103 /\ str "0x1g2h" = str "0x" ++ [49] ++ 103 :: str "2h".
Proof. eexists. split; [vm_compute; reflexivity|]. split; [reflexivity|]. split; [intros H; apply H; reflexivity|reflexivity]. Qed.
Example C119_case : option_map (fun e => (kind e, shown (as_report parse_dbg e))) (nat_parse_err (str " +12a4b ")) = Some (IllegalCharEncounter, str "illegal char a") /\
  option_map (fun e => (kind e, shown (as_report parse_dbg e))) (nat_parse_err (str "007")) = Some (BeginWithIllegalChar, str "begin with illegal char 00") /\
  option_map (fun e => (kind e, shown (as_report parse_dbg e))) (int_parse_err (str "--1")) = Some (BeginWithIllegalChar, str "begin with illegal char -") /\
  option_map (fun e => (kind e, shown (as_report parse_dbg e))) (int_parse_err (str "-")) = Some (BeginWithIllegalChar, str "empty string") /\
  option_map (fun e => (kind e, shown (as_report parse_dbg e))) (nat_parse_err (str "+ +")) = Some (BeginWithIllegalChar, str "all char is +") /\
  nat_parse_err (str "0xfF") = None.
Proof. vm_compute. auto 10. Qed.
Print Assumptions C119_nat_refines.
Print Assumptions C119_int_refines.
Print Assumptions C119_nat_fault.
Print Assumptions C119_int_fault.
Print Assumptions C119_fault_unique.
Print Assumptions C119_fault_iff.
Print Assumptions C119_quotes_partial.
Print Assumptions C119_first_refuted.

(* ------------------------------------------------------------------ *)
(** ** C120

    The error of a failed Rat or Float parse has the right kind: a zero
    denominator exactly for an integer over a zero, an exponent error exactly
    for an integer exponent out of range, with that exponent in the message;
    the message of everything else is that of the part at fault. *)
Definition ok_f64 (pf : list Z -> Z + list Z) (s : list Z) : option Z := match pf s with inl f => Some f | inr _ => None end.
Theorem C120_rat_refines : forall pf s, (exists e, rat_parse_err pf s = Some e) <-> r_from_str (ok_f64 pf) s = Ok None.
Proof.
  intros pf s. unfold rat_parse_err, r_from_str, ok_f64. destruct (trim_ws s) as [|c t]; [split; [reflexivity|eauto]|].
  destruct (find_char 46 (c :: t)) as [p|].
  - destruct (pf (c :: t)) as [f|m]; [|split; [reflexivity|eauto]]. destruct (f_is_nan 52 11 f); [split; [reflexivity|eauto]|].
    split; [intros (e & E); discriminate|]. destruct (r_from_f64 f); cbn [bind]; discriminate.
  - destruct (find_char 47 (c :: t)) as [[u v]|].
    + pose proof (int_err_none u) as U. pose proof (int_err_none v) as V. destruct (int_parse_err u).
      { destruct (b_from_str u); [destruct U as [_ U]; discriminate U; discriminate|]. split; [reflexivity|eauto]. }
      destruct (b_from_str u) as [a|]; [|exfalso; apply U; reflexivity]. destruct (int_parse_err v).
      { destruct (b_from_str v); [destruct V as [_ V]; discriminate V; discriminate|]. split; [reflexivity|eauto]. }
      destruct (b_from_str v) as [b|]; [|exfalso; apply V; reflexivity].
      destruct (b_is_nan a || b_is_nan b); [split; [reflexivity|eauto]|]. destruct (nat_eq_u32 (bnat b) 0); [split; [reflexivity|eauto]|].
      split; [intros (e & E); discriminate|discriminate].
    + pose proof (int_err_none (c :: t)) as U. destruct (int_parse_err (c :: t)).
      { destruct (b_from_str (c :: t)); [destruct U as [_ U]; discriminate U; discriminate|]. split; [reflexivity|eauto]. }
      destruct (b_from_str (c :: t)) as [a|]; [|exfalso; apply U; reflexivity].
      destruct (b_is_nan a || b_is_nan (b_from_u32 1)); [split; [reflexivity|eauto]|]. destruct (nat_eq_u32 (bnat (b_from_u32 1)) 0); [split; [reflexivity|eauto]|].
      split; [intros (e & E); discriminate|discriminate].
Qed.
Lemma find_char_inv c t u v : find_char c t = Some (u, v) -> t = u ++ c :: v /\ ~ In c u.
Proof.
  revert u v. induction t as [|d t IH]; intros u v F; [discriminate|]. cbn [find_char] in F.
  destruct (Z.eqb_spec d c) as [->|ND]; [injection F as <- <-; split; [reflexivity|intros []]|].
  destruct (find_char c t) as [[u' v']|]; [|discriminate]. injection F as <- <-. destruct (IH u' v' eq_refl) as [-> NI].
  split; [reflexivity|]. intros [C|C]; congruence.
Qed.
Lemma find_char_not c t : find_char c t = None -> ~ In c t.
Proof. intros F I. apply find_char_some in I. congruence. Qed.
Theorem C120_rat_kind : forall pf s t, trimmed s t ->
  (rat_parse_err pf s = Some zero_denominator <-> ~ In 46 t /\ exists u v a, t = u ++ 47 :: v /\ ~ In 47 u /\ int_text u a /\ int_text v 0) /\
  (forall e, rat_parse_err pf s = Some e -> e = zero_denominator \/ kind e = RatParseStringWrong).
Proof.
  intros pf s t T. unfold rat_parse_err. rewrite (trim_ws_spec _ _ T). destruct t as [|c t].
  { split; [|intros e E; right; injection E as <-; reflexivity]. split; [discriminate|]. intros (_ & u & v & a & E & _). destruct u; discriminate. }
  destruct (find_char 46 (c :: t)) as [[p q]|] eqn:D.
  { split.
    - split; [destruct (pf (c :: t)) as [f|m]; [destruct (f_is_nan 52 11 f)|]; discriminate|].
      intros (N & _). exfalso. apply N. destruct (find_char_inv _ _ _ _ D) as [-> _]. apply in_or_app. right. left. reflexivity.
    - intros e. destruct (pf (c :: t)) as [f|m]; [destruct (f_is_nan 52 11 f); [|discriminate]|]; intros E; injection E as <-; auto. }
  apply find_char_not in D. destruct (find_char 47 (c :: t)) as [[u v]|] eqn:S.
  - destruct (find_char_inv _ _ _ _ S) as [ET NU]. pose proof (int_err_none u) as U. pose proof (int_err_none v) as V.
    assert (UN : forall u' v', c :: t = u' ++ 47 :: v' -> ~ In 47 u' -> u' = u /\ v' = v).
    { intros u' v' E N. rewrite E, find_char_app in S by auto. injection S as <- <-. auto. }
    destruct (int_parse_err u) as [eu|].
    { split; [|intros e E; right; injection E as <-; reflexivity]. split; [discriminate|]. intros (_ & u' & v' & a & E & N & A & B).
      destruct (UN u' v' E N) as [-> ->]. apply int_text_parse in A. destruct U as [_ U]. discriminate U. congruence. }
    destruct (int_parse_err v) as [ev|].
    { split; [|intros e E; right; injection E as <-; reflexivity]. split; [discriminate|]. intros (_ & u' & v' & a & E & N & A & B).
      destruct (UN u' v' E N) as [-> ->]. apply int_text_parse in B. destruct V as [_ V]. discriminate V. congruence. }
    destruct (b_from_str u) as [x|] eqn:X; [|exfalso; apply U; reflexivity]. destruct (b_from_str v) as [y|] eqn:Y; [|exfalso; apply V; reflexivity].
    destruct (parse_int_text _ _ X) as [NX|(a & A & ->)].
    { rewrite NX. cbn [orb]. split; [|intros e E; right; injection E as <-; reflexivity]. split; [discriminate|]. intros (_ & u' & v' & a & E & N & A & B).
      destruct (UN u' v' E N) as [-> ->]. apply int_text_parse in A. rewrite X in A. injection A as ->. rewrite zint_not_nan in NX. discriminate. }
    rewrite zint_not_nan. cbn [orb]. destruct (parse_int_text _ _ Y) as [NY|(b & B & ->)].
    { rewrite NY. split; [|intros e E; right; injection E as <-; reflexivity]. split; [discriminate|]. intros (_ & u' & v' & a' & E & N & A' & B).
      destruct (UN u' v' E N) as [-> ->]. apply int_text_parse in B. rewrite Y in B. injection B as ->. rewrite zint_not_nan in NY. discriminate. }
    rewrite zint_not_nan, zint_nat, of_Z_eq_u32 by lia. destruct (Z.eqb_spec (Z.abs b) 0) as [Z0|NZ].
    + split; [|intros e E; left; injection E as <-; reflexivity]. split; [intros _|reflexivity]. split; [auto|]. exists u, v, a.
      replace 0 with b by lia. auto.
    + split; [|intros e E; discriminate]. split; [discriminate|]. intros (_ & u' & v' & a' & E & N & A' & B').
      destruct (UN u' v' E N) as [-> ->]. apply int_text_parse in B'. rewrite Y in B'. exfalso. apply NZ.
      assert (H : bvalue (zint b) = bvalue (zint 0)) by congruence. rewrite !bvalue_zint in H. lia.
  - apply find_char_not in S. assert (NO : ~ (~ In 46 (c :: t) /\ exists u v a, c :: t = u ++ 47 :: v /\ ~ In 47 u /\ int_text u a /\ int_text v 0)).
    { intros (_ & u & v & a & E & _). apply S. rewrite E. apply in_or_app. right. left. reflexivity. }
    destruct (int_parse_err (c :: t)) as [eu|]; [split; [split; [discriminate|tauto]|intros e E; right; injection E as <-; reflexivity]|].
    destruct (b_from_str (c :: t)) as [a|]; [|split; [split; [discriminate|tauto]|discriminate]].
    destruct (b_is_nan a || b_is_nan (b_from_u32 1)); [split; [split; [discriminate|tauto]|intros e E; right; injection E as <-; reflexivity]|].
    change (nat_eq_u32 (bnat (b_from_u32 1)) 0) with false. split; [split; [discriminate|tauto]|discriminate].
Qed.
(** The message is that of the part at fault, the numerator first. *)
Theorem C120_rat_message : forall pf s u v, trimmed s (u ++ 47 :: v) -> ~ In 46 (u ++ 47 :: v) -> ~ In 47 u ->
  (forall u' k m, trimmed u u' -> int_fault u' k m -> exists e, rat_parse_err pf s = Some e /\ kind e = RatParseStringWrong /\ shown (as_report rat_dbg e) = m) /\
  (forall v' k m, b_from_str u <> None -> trimmed v v' -> int_fault v' k m -> exists e, rat_parse_err pf s = Some e /\ kind e = RatParseStringWrong /\ shown (as_report rat_dbg e) = m).
Proof.
  intros pf s u v T D S. unfold rat_parse_err. rewrite (trim_ws_spec _ _ T). rewrite (find_char_none 46), find_char_app by auto.
  assert (H : exists c t, u ++ 47 :: v = c :: t) by (destruct u; cbn [app]; eauto). destruct H as (c & t & ->). split.
  - intros u' k m TU F. assert (E : int_parse_err u = Some (failed k (Plain m))) by (apply (int_err_fault u u' _ TU); eauto).
    rewrite E. eexists. split; [reflexivity|]. split; reflexivity.
  - intros v' k m NU TV F. apply int_err_none in NU. rewrite NU.
    assert (E : int_parse_err v = Some (failed k (Plain m))) by (apply (int_err_fault v v' _ TV); eauto).
    rewrite E. eexists. split; [reflexivity|]. split; reflexivity.
Qed.
Theorem C120_rat_others : forall n d x,
  (forall e, frac_err n d = Some e <-> d = 0 /\ e = zero_denominator) /\
  (forall nb db e, frac_bigint_err nb db = Some e -> e = zero_denominator) /\
  (forall checks, (frac_err n d <> None <-> r_from_frac checks n d = Ok None)) /\
  (forall nb db, frac_bigint_err nb db <> None <-> r_from_frac_bigint nb db = Ok None) /\
  (inv_err x <> None <-> r_inv x = None) /\ (forall e, inv_err x = Some e -> kind e = NumeratorIsZero /\ shown (as_report rat_dbg e) = str "It cannot to inverse zero").
Proof.
  intros n d x. split; [|split; [|split; [|split; [|split]]]].
  - intros e. unfold frac_err. destruct (Z.eqb_spec d 0); split; intros H; try discriminate; [split; congruence|destruct H; congruence|lia].
  - intros nb db e. unfold frac_bigint_err. destruct (nat_eq_u32 (bnat db) 0); congruence.
  - intros checks. unfold frac_err, r_from_frac. destruct (d =? 0); [split; congruence|]. split; [congruence|].
    destruct (if d <? 0 then i64 checks (- n) else Ok n); cbn [bind]; try discriminate. destruct (i64 checks (Z.abs d)); cbn [bind]; try discriminate.
    destruct (r_norm _); cbn [bind]; discriminate.
  - intros nb db. unfold frac_bigint_err, r_from_frac_bigint. destruct (nat_eq_u32 (bnat db) 0); [split; congruence|]. split; [congruence|].
    destruct (r_norm _); cbn [bind]; discriminate.
  - unfold inv_err, r_inv. destruct (r_is_nan x); [split; congruence|]. destruct (nat_eq_u32 (bnat (rnum x)) 0); split; congruence.
  - intros e. unfold inv_err. destruct (r_is_nan x); [discriminate|]. destruct (nat_eq_u32 (bnat (rnum x)) 0); [|discriminate]. intros H. injection H as <-. split; reflexivity.
Qed.
(** The exponent. *)
Lemma exp_err_int es k : int_text es k -> exists x, b_fmt_display (zint k) = Ok x /\
  exp_err es = Ok (if k <? min_exp then Some (failed ExponentUnderflow (Plain (str "exp: " ++ x)))
                   else if max_exp <? k then Some (failed ExponentOverflow (Plain (str "exp: " ++ x))) else None).
Proof.
  intros I. destruct (C45_display (zint k) k) as (s & x & E & _); [apply is_int_iff; reflexivity|]. exists x. split; [exact E|].
  unfold exp_err. pose proof (int_text_parse _ _ I) as P. pose proof (int_err_none es) as N. rewrite P in *.
  destruct (int_parse_err es); [destruct N as [_ N]; discriminate N; discriminate|].
  rewrite !from_i64_zint, !zint_lt by (unfold min_exp, max_exp; lia). rewrite E. cbn [bind]. destruct (k <? min_exp); [reflexivity|]. destruct (max_exp <? k); reflexivity.
Qed.
Lemma exp_err_kind es e : exp_err es = Ok (Some e) -> kind e <> FloatParseStringWrong ->
  exists k x, int_text es k /\ b_fmt_display (zint k) = Ok x /\
    ((k < min_exp /\ e = failed ExponentUnderflow (Plain (str "exp: " ++ x))) \/ (max_exp < k /\ e = failed ExponentOverflow (Plain (str "exp: " ++ x)))).
Proof.
  intros H K. destruct (b_from_str es) as [y|] eqn:Y.
  - destruct (parse_int_text _ _ Y) as [NY|(k & I & ->)].
    + exfalso. unfold exp_err in H. destruct (int_parse_err es); [injection H as <-; apply K; reflexivity|]. rewrite Y in H.
      unfold b_is_nan in NY. destruct y as [n g]. cbn [bnat] in NY. destruct n; [|discriminate].
      rewrite !from_i64_zint in H by (unfold min_exp, max_exp; lia). destruct g; vm_compute in H; discriminate.
    + destruct (exp_err_int es k I) as (x & E & F). rewrite F in H. exists k, x. split; [auto|]. split; [auto|].
      destruct (Z.ltb_spec k min_exp); [left; split; [auto|congruence]|]. destruct (Z.ltb_spec max_exp k); [right; split; [auto|congruence]|discriminate].
  - unfold exp_err in H. pose proof (int_err_none es) as N. rewrite Y in *. destruct (int_parse_err es); [injection H as <-; exfalso; apply K; reflexivity|discriminate].
Qed.
(** What [split_exp] makes of it. *)
Lemma exp_err_total es : exists o, exp_err es = Ok o.
Proof.
  unfold exp_err. destruct (int_parse_err es); [eauto|]. destruct (b_from_str es) as [y|] eqn:Y; [|eauto].
  destruct (parse_int_text _ _ Y) as [NY|(k & I & ->)].
  - unfold b_is_nan in NY. destruct y as [n g]. cbn [bnat] in NY. destruct n; [|discriminate].
    rewrite !from_i64_zint by (unfold min_exp, max_exp; lia). destruct g; vm_compute; eauto.
  - destruct (C45_display (zint k) k) as (s & x & E & _); [apply is_int_iff; reflexivity|]. rewrite E. cbn [bind].
    destruct (b_lt _ _); [eauto|]. destruct (b_lt _ _); eauto.
Qed.
Lemma split_exp_err s u c es : match find_char 101 s with Some p => Some p | None => find_char 69 s end = Some (u, c :: es) ->
  (exp_err (c :: es) = Ok None <-> split_exp s <> None).
Proof.
  intros P. unfold split_exp. rewrite P. unfold exp_err. pose proof (int_err_none (c :: es)) as N.
  destruct (int_parse_err (c :: es)).
  { destruct (b_from_str (c :: es)); [destruct N as [_ N]; discriminate N; discriminate|]. split; congruence. }
  destruct (b_from_str (c :: es)) as [y|] eqn:Y; [|exfalso; apply N; reflexivity].
  assert (T : exists o, exp_err (c :: es) = Ok o) by apply exp_err_total. unfold exp_err in T. rewrite Y in T. clear N P. revert T. generalize (int_parse_err (c :: es)). intros o0 T.
  destruct (b_lt y (b_from_i64 min_exp)); [destruct (b_fmt_display y); cbn [bind]; split; congruence|].
  destruct (b_lt (b_from_i64 max_exp) y); [destruct (b_fmt_display y); cbn [bind]; split; congruence|]. split; congruence.
Qed.
Definition float_tail (u : list Z) (e : Z) : option (failure float_kind) :=
  let '(nu, e) := match find_char 46 u with Some (a, b) => (a ++ b, e - byte_len b) | None => (u, e) end in
  let '(nu, de) := if e <? 0 then (nu, 49 :: repeat 48 (Z.to_nat (- e))) else (nu ++ repeat 48 (Z.to_nat e), []) in
  match int_parse_err nu, int_parse_err de with
  | Some e, _ => Some (wrap_float parse_dbg e)
  | None, Some e => Some (wrap_float parse_dbg e)
  | None, None =>
      match b_from_str nu, b_from_str de with
      | Some n, Some d => option_map (wrap_float rat_dbg) (frac_bigint_err n d)
      | _, _ => None
      end
  end.
Lemma float_tail_kind u e f : float_tail u e = Some f -> kind f = FloatParseStringWrong.
Proof.
  unfold float_tail. destruct (match find_char 46 u with Some (a, b) => (a ++ b, e - byte_len b) | None => (u, e) end) as [nu x].
  destruct (if x <? 0 then (nu, 49 :: repeat 48 (Z.to_nat (- x))) else (nu ++ repeat 48 (Z.to_nat x), [])) as [n d].
  destruct (int_parse_err n); [intros H; injection H as <-; reflexivity|]. destruct (int_parse_err d); [intros H; injection H as <-; reflexivity|].
  destruct (b_from_str n) as [a|]; [|discriminate]. destruct (b_from_str d) as [b|]; [|discriminate]. destruct (frac_bigint_err a b); [|discriminate]. intros H; injection H as <-; reflexivity.
Qed.
Lemma float_tail_refines u e : float_tail u e <> None <->
  (let '(nu, e) := match find_char 46 u with Some (a, b) => (a ++ b, e - byte_len b) | None => (u, e) end in
   let '(nu, de) := if e <? 0 then (nu, 49 :: repeat 48 (Z.to_nat (- e))) else (nu ++ repeat 48 (Z.to_nat e), []) in
   match b_from_str nu, b_from_str de with
   | Some n, Some d => do r <- r_from_frac_bigint n d; match r with None => Ok None | Some r => do z <- fl_from_rat r; Ok (Some z) end
   | _, _ => Ok None
   end) = Ok None.
Proof.
  unfold float_tail. destruct (match find_char 46 u with Some (a, b) => (a ++ b, e - byte_len b) | None => (u, e) end) as [nu x].
  destruct (if x <? 0 then (nu, 49 :: repeat 48 (Z.to_nat (- x))) else (nu ++ repeat 48 (Z.to_nat x), [])) as [n d].
  pose proof (int_err_none n) as N. pose proof (int_err_none d) as D.
  destruct (int_parse_err n).
  { destruct (b_from_str n); [destruct N as [_ N]; discriminate N; discriminate|]. split; congruence. }
  destruct (b_from_str n) as [a|]; [|exfalso; apply N; reflexivity]. destruct (int_parse_err d).
  { destruct (b_from_str d); [destruct D as [_ D]; discriminate D; discriminate|]. split; congruence. }
  destruct (b_from_str d) as [b|]; [|exfalso; apply D; reflexivity].
  unfold frac_bigint_err, r_from_frac_bigint. destruct (nat_eq_u32 (bnat b) 0); cbn [option_map bind]; [split; congruence|]. split; [congruence|].
  destruct (r_norm _); cbn [bind]; try discriminate. destruct (fl_from_rat a0); cbn [bind]; discriminate.
Qed.
Definition exp_parts (t : list Z) : option (list Z * list Z) := match find_char 101 t with Some p => Some p | None => find_char 69 t end.
Definition err_core (t : list Z) : res (option (failure float_kind)) :=
  do x <- match exp_parts t with Some (_, c :: es) => exp_err (c :: es) | _ => Ok None end;
  match x with
  | Some e => Ok (Some e)
  | None => match split_exp t with None => Ok None | Some (u, e) => Ok (float_tail u e) end
  end.
Definition val_core (t : list Z) : res (option float) :=
  match split_exp t with
  | None => Ok None
  | Some (u, e) =>
      let '(nu, e) := match find_char 46 u with Some (a, b) => (a ++ b, e - byte_len b) | None => (u, e) end in
      let '(nu, de) := if e <? 0 then (nu, 49 :: repeat 48 (Z.to_nat (- e))) else (nu ++ repeat 48 (Z.to_nat e), []) in
      match b_from_str nu, b_from_str de with
      | Some n, Some d => do r <- r_from_frac_bigint n d; match r with None => Ok None | Some r => do z <- fl_from_rat r; Ok (Some z) end
      | _, _ => Ok None
      end
  end.
Lemma tail_form u e : Ok (float_tail u e) =
  (let '(nu, e) := match find_char 46 u with Some (a, b) => (a ++ b, e - byte_len b) | None => (u, e) end in
   let '(nu, de) := if e <? 0 then (nu, 49 :: repeat 48 (Z.to_nat (- e))) else (nu ++ repeat 48 (Z.to_nat e), []) in
   match int_parse_err nu, int_parse_err de with
   | Some e, _ => Ok (Some (wrap_float parse_dbg e))
   | None, Some e => Ok (Some (wrap_float parse_dbg e))
   | None, None => match b_from_str nu, b_from_str de with Some n, Some d => Ok (option_map (wrap_float rat_dbg) (frac_bigint_err n d)) | _, _ => Ok None end
   end).
Proof.
  unfold float_tail. destruct (match find_char 46 u with Some (a, b) => (a ++ b, e - byte_len b) | None => (u, e) end) as [nu x].
  destruct (if x <? 0 then (nu, 49 :: repeat 48 (Z.to_nat (- x))) else (nu ++ repeat 48 (Z.to_nat x), [])) as [n d].
  destruct (int_parse_err n); [reflexivity|]. destruct (int_parse_err d); [reflexivity|]. destruct (b_from_str n); [|reflexivity]. destruct (b_from_str d); reflexivity.
Qed.
Lemma core_refines t : (exists e, err_core t = Ok (Some e)) <-> val_core t = Ok None.
Proof.
  unfold err_core, val_core. assert (P : forall q, exp_parts t = q -> match q with Some (u, c :: es) => exp_err (c :: es) = Ok None <-> split_exp t <> None | _ => split_exp t <> None end).
  { intros q Q. destruct q as [[u [|c es]]|]; [| |]; unfold exp_parts in Q.
    - unfold split_exp. rewrite Q. discriminate.
    - apply (split_exp_err t u c es Q).
    - unfold split_exp. rewrite Q. discriminate. }
  specialize (P _ eq_refl).
  assert (TAIL : forall u e, split_exp t = Some (u, e) -> (exists f, Ok (float_tail u e) = Ok (Some f)) <->
    (let '(nu, e) := match find_char 46 u with Some (a, b) => (a ++ b, e - byte_len b) | None => (u, e) end in
     let '(nu, de) := if e <? 0 then (nu, 49 :: repeat 48 (Z.to_nat (- e))) else (nu ++ repeat 48 (Z.to_nat e), []) in
     match b_from_str nu, b_from_str de with
     | Some n, Some d => do r <- r_from_frac_bigint n d; match r with None => Ok None | Some r => do z <- fl_from_rat r; Ok (Some z) end
     | _, _ => Ok None
     end) = Ok None).
  { intros u e _. rewrite <- float_tail_refines. destruct (float_tail u e); split; intros H; try congruence; [eauto|destruct H as (f & H); congruence]. }
  destruct (exp_parts t) as [[u [|c es]]|].
  - cbn [bind]. destruct (split_exp t) as [[u' e]|]; [apply TAIL; reflexivity|congruence].
  - destruct (exp_err_total (c :: es)) as (o & E). rewrite E in *. cbn [bind]. destruct o as [f|].
    + destruct (split_exp t); [destruct P as [_ P]; assert (Ok (Some f) = Ok None) by (apply P; discriminate); congruence|]. split; [reflexivity|eauto].
    + destruct (split_exp t) as [[u' e]|]; [apply TAIL; reflexivity|destruct P as [P _]; exfalso; apply P; reflexivity].
  - cbn [bind]. destruct (split_exp t) as [[u' e]|]; [apply TAIL; reflexivity|congruence].
Qed.
(** A text has an exponent part [es]: behind the first 'e' or 'E', if only one
    of the two letters occurs. *)
Definition exp_part (t es : list Z) : Prop :=
  exists u c, t = u ++ c :: es /\ ((c = 101 /\ ~ In 101 u /\ ~ In 69 t) \/ (c = 69 /\ ~ In 69 u /\ ~ In 101 t)).
Lemma exp_part_iff t es : exp_part t es <-> (exists u, exp_parts t = Some (u, es)) /\ ~ (In 101 t /\ In 69 t).
Proof.
  unfold exp_part, exp_parts. split.
  - intros (u & c & -> & [(-> & A & B)|(-> & A & B)]).
    + split; [exists u; rewrite find_char_app by auto; reflexivity|tauto].
    + split; [exists u; rewrite find_char_none by auto; rewrite find_char_app by auto; reflexivity|tauto].
  - intros [(u & E) N]. destruct (find_char 101 t) as [[u' v']|] eqn:F.
    + injection E as -> ->. apply find_char_inv in F. destruct F as [-> F]. exists u, 101. split; [reflexivity|]. left. split; [reflexivity|]. split; [auto|].
      intros I. apply N. split; [apply in_or_app; right; left; reflexivity|auto].
    + apply find_char_not in F. apply find_char_inv in E. destruct E as [-> E]. exists u, 69. split; [reflexivity|]. right. auto.
Qed.
(** Four kinds of texts. *)
Inductive shape (t : list Z) (err : res (option (failure float_kind))) (val : res (option float)) : Prop :=
| sh_empty : t = [] -> err = Ok (Some (failed FloatParseStringWrong (Plain (str "empty string")))) -> val = Ok None -> shape t err val
| sh_both : In 101 t -> In 69 t -> err = Ok (Some (failed FloatParseStringWrong (Plain (str "invalid string")))) -> val = Ok None -> shape t err val
| sh_int : t <> [] -> exp_parts t = None -> err = Ok (option_map (wrap_float parse_dbg) (int_parse_err t)) ->
    val = match b_from_str t with None => Ok None | Some n => do z <- fl_from_bigint n; Ok (Some z) end -> shape t err val
| sh_core : t <> [] -> ~ (In 101 t /\ In 69 t) -> err = err_core t -> val = val_core t -> shape t err val.
Lemma float_shape s t : trimmed s t -> shape t (float_parse_err s) (fl_from_str s).
Proof.
  intros T. unfold float_parse_err, fl_from_str. rewrite (trim_ws_spec _ _ T). destruct t as [|c t]; [apply sh_empty; reflexivity|].
  assert (NE : c :: t <> []) by discriminate. set (w := c :: t) in *. clearbody w. clear T.
  assert (TF : forall r, (do x <- r; match x with
             | Some e => Ok (Some e)
             | None => match split_exp w with None => Ok None | Some (u, e) => Ok (float_tail u e) end end) =
           (do x <- r; match x with
             | Some e => Ok (Some e)
             | None =>
                  match split_exp w with
                  | None => Ok None
                  | Some (u, e) =>
                      let '(nu, e) := match find_char 46 u with Some (a, b) => (a ++ b, e - byte_len b) | None => (u, e) end in
                      let '(nu, de) := if e <? 0 then (nu, 49 :: repeat 48 (Z.to_nat (- e))) else (nu ++ repeat 48 (Z.to_nat e), []) in
                      match int_parse_err nu, int_parse_err de with
                      | Some e, _ => Ok (Some (wrap_float parse_dbg e))
                      | None, Some e => Ok (Some (wrap_float parse_dbg e))
                      | None, None => match b_from_str nu, b_from_str de with Some n, Some d => Ok (option_map (wrap_float rat_dbg) (frac_bigint_err n d)) | _, _ => Ok None end
                      end
                  end end)).
  { intros r. destruct r as [o| |]; cbn [bind]; [|reflexivity|reflexivity]. destruct o as [f|]; [reflexivity|]. destruct (split_exp w) as [[u e]|]; [apply tail_form|reflexivity]. }
  destruct (find_char 101 w) as [[u1 v1]|] eqn:L.
  - destruct (find_char 69 w) as [[u2 v2]|] eqn:U.
    + apply find_char_inv in L. apply find_char_inv in U. apply sh_both; try reflexivity; [destruct L as [-> _]|destruct U as [-> _]]; apply in_or_app; right; left; reflexivity.
    + apply find_char_not in U. apply sh_core; auto; [tauto| |destruct (find_char 46 w); reflexivity].
      unfold err_core, exp_parts. rewrite L, TF. destruct (find_char 46 w); destruct v1; reflexivity.
  - apply find_char_not in L. destruct (find_char 69 w) as [[u2 v2]|] eqn:U.
    + apply sh_core; auto; [tauto| |destruct (find_char 46 w); reflexivity].
      unfold err_core, exp_parts. rewrite (find_char_none 101), U, TF by auto. destruct (find_char 46 w); destruct v2; reflexivity.
    + destruct (find_char 46 w) as [p|] eqn:D.
      * apply sh_core; auto; [tauto|]. unfold err_core, exp_parts. rewrite (find_char_none 101), U, TF by auto. reflexivity.
      * apply sh_int; auto. unfold exp_parts. rewrite (find_char_none 101), U by auto. reflexivity.
Qed.
Theorem C120_float_refines : forall s, (exists e, float_parse_err s = Ok (Some e)) <-> fl_from_str s = Ok None.
Proof.
  intros s. destruct (trimmed_exists s) as [t T]. destruct (float_shape s t T) as [_ -> ->|_ _ -> ->|_ _ -> ->|_ _ -> ->]; [split; [reflexivity|eauto]|split; [reflexivity|eauto]| |apply core_refines].
  pose proof (int_err_none t) as N. destruct (int_parse_err t).
  - destruct (b_from_str t); [destruct N as [_ N]; discriminate N; discriminate|]. split; [reflexivity|cbn [option_map]; eauto].
  - destruct (b_from_str t) as [n|]; [|exfalso; apply N; reflexivity]. cbn [option_map]. split; [intros (e & E); discriminate|].
    destruct (fl_from_bigint n); cbn [bind]; discriminate.
Qed.
Theorem C120_float_kind : forall s t e, trimmed s t -> kind e <> FloatParseStringWrong ->
  (float_parse_err s = Ok (Some e) <->
   exists es k x, exp_part t es /\ int_text es k /\ b_fmt_display (zint k) = Ok x /\
     ((k < min_exp /\ e = failed ExponentUnderflow (Plain (str "exp: " ++ x))) \/ (max_exp < k /\ e = failed ExponentOverflow (Plain (str "exp: " ++ x))))).
Proof.
  intros s t e T K. destruct (float_shape s t T) as [-> -> _|A B -> _|_ P -> _|N0 NB -> _].
  - split; [intros H; injection H as <-; exfalso; apply K; reflexivity|]. intros (es & k & x & (u & c & E & _) & _). destruct u; discriminate.
  - split; [intros H; injection H as <-; exfalso; apply K; reflexivity|]. intros (es & k & x & E & _). apply exp_part_iff in E. tauto.
  - split; [destruct (int_parse_err t); intros H; [injection H as <-; exfalso; apply K; reflexivity|discriminate]|]. intros (es & k & x & E & _). apply exp_part_iff in E. destruct E as [(u & E) _]. congruence.
  - unfold err_core. split.
    + intros H. destruct (exp_parts t) as [[u [|c es]]|] eqn:P.
      1,3: cbn [bind] in H; destruct (split_exp t) as [[u' e']|]; [|discriminate]; injection H as H; apply float_tail_kind in H; congruence.
      destruct (exp_err_total (c :: es)) as (o & E). rewrite E in H. cbn [bind] in H. destruct o as [f|].
      * injection H as ->. destruct (exp_err_kind _ _ E K) as (k & x & I & D & H). exists (c :: es), k, x. split; [|auto]. apply exp_part_iff. eauto.
      * destruct (split_exp t) as [[u' e']|]; [|discriminate]; injection H as H; apply float_tail_kind in H; congruence.
    + intros (es & k & x & E & I & D & H). apply exp_part_iff in E. destruct E as [(u & E) _]. rewrite E.
      destruct (exp_err_int es k I) as (x' & D' & F). assert (x' = x) by congruence. subst x'.
      destruct es as [|c es].
      { exfalso. apply int_text_parse in I. discriminate. }
      rewrite F. destruct H as [(L & ->)|(L & ->)].
      * destruct (Z.ltb_spec k min_exp); [reflexivity|lia].
      * destruct (Z.ltb_spec k min_exp); [unfold min_exp, max_exp in *; lia|]. destruct (Z.ltb_spec max_exp k); [reflexivity|lia].
Qed.
(** A text without point and exponent fails with the message of C119. *)
Theorem C120_float_message : forall s t, trimmed s t -> t <> [] -> ~ In 46 t -> ~ In 101 t -> ~ In 69 t ->
  (forall k m, int_fault t k m -> exists e, float_parse_err s = Ok (Some e) /\ kind e = FloatParseStringWrong /\ shown (as_report float_dbg e) = m) /\
  (forall e, float_parse_err s = Ok (Some e) -> exists k m, int_fault t k m /\ shown (as_report float_dbg e) = m).
Proof.
  intros s t T N0 D L U. assert (TT : trimmed t t).
  { destruct T as (w1 & w2 & E & W1 & W2 & H). exists [], []. rewrite app_nil_r. repeat split; auto. }
  assert (F : float_parse_err s = Ok (option_map (wrap_float parse_dbg) (int_parse_err t))).
  { unfold float_parse_err. rewrite (trim_ws_spec _ _ T), !find_char_none by auto. destruct t; [congruence|reflexivity]. }
  rewrite F. split.
  - intros k m I. assert (E : int_parse_err t = Some (failed k (Plain m))) by (apply (int_err_fault t t _ TT); eauto). rewrite E. eexists. split; [reflexivity|]. split; reflexivity.
  - intros e H. destruct (int_parse_err t) as [f|] eqn:E; [|discriminate]. apply (int_err_fault t t _ TT) in E. destruct E as (k & m & I & ->).
    injection H as <-. exists k, m. split; [auto|reflexivity].
Qed.
Example C120_case : forall pf, option_map (fun e => (kind e, shown (as_report rat_dbg e))) (rat_parse_err pf (str " -5/0x0 ")) = Some (DenominatorIsZero, []) /\
  option_map (fun e => (kind e, shown (as_report rat_dbg e))) (rat_parse_err pf (str "5/0x")) = Some (RatParseStringWrong, str "`5/0x` is not a number") /\
  option_map (fun e => (kind e, shown (as_report rat_dbg e))) (rat_parse_err pf (str "5/3/2")) = Some (RatParseStringWrong, str "illegal char /") /\
  float_parse_err (str "1.5e3000000000") = Ok (Some (failed ExponentOverflow (Plain (str "exp: 3000000000")))) /\
  float_parse_err (str "x.1E-3000000000") = Ok (Some (failed ExponentUnderflow (Plain (str "exp: -3000000000")))) /\
  float_parse_err (str "1e2E3") = Ok (Some (failed FloatParseStringWrong (Plain (str "invalid string")))).
Proof. intros pf. vm_compute. auto 10. Qed.
Print Assumptions C120_rat_refines.
Print Assumptions C120_rat_kind.
Print Assumptions C120_rat_message.
Print Assumptions C120_rat_others.
Print Assumptions C120_float_refines.
Print Assumptions C120_float_kind.
Print Assumptions C120_float_message.

(* ------------------------------------------------------------------ *)
(** ** C121

    Claim: printing an error says what went wrong, its [source] is the inner
    error, and the message of a generator's constructor names a demand that the
    parameters violate.  False: a zero denominator, a zero LCG modulus and an
    exhausted hardware generator print nothing at all (the kind is only printed
    when there is no message, and there always is one); [source] is never there;
    the Mersenne twister complains about m when w is too large.  All other
    messages are as they should be. *)
Theorem C121_silent_refuted : forall pf, exists e, rat_parse_err pf (str "1/0") = Some e /\ frac_err 1 0 = Some e /\
  shown (as_report rat_dbg e) = [] /\ (exists f, lcg_new_err 0 = Some f /\ shown (as_report rand_dbg f) = []) /\
  shown (as_report rand_dbg no_number) = [] /\ shown (as_report rand_dbg no_seed) = [].
Proof. intros pf. exists zero_denominator. repeat (split; [vm_compute; reflexivity|]). split; [eexists; split; reflexivity|]. split; reflexivity. Qed.
Theorem C121_source_refuted : forall r, source r = None.
Proof. fix IH 1. intros [m|k [r|]]; [reflexivity|exact (IH r)|reflexivity]. Qed.
Lemma fault_speaks t k m : fault t k m -> m <> [].
Proof. intros F. destruct F; vm_compute; discriminate. Qed.
Lemma int_fault_speaks t k m : int_fault t k m -> m <> [].
Proof. intros F. destruct F as [t k m _ F|s t k m _ F]; eapply fault_speaks; eauto. Qed.
Lemma int_err_speaks s e : int_parse_err s = Some e -> shown (as_report parse_dbg e) <> [].
Proof.
  intros E. destruct (trimmed_exists s) as [t T]. apply (int_err_fault s t e T) in E. destruct E as (k & m & F & ->). apply int_fault_speaks in F. exact F.
Qed.
(** Who speaks: every failed parse of an integer; of a Rat, unless the
    denominator is zero ([pf] stands for the float parser, which does); of a
    Float, always. *)
Theorem C121_speaks_partial :
  (forall s e, nat_parse_err s = Some e -> shown (as_report parse_dbg e) <> []) /\
  (forall s e, int_parse_err s = Some e -> shown (as_report parse_dbg e) <> []) /\
  (forall pf s e, (forall x m, pf x = inr m -> m <> []) -> rat_parse_err pf s = Some e -> (shown (as_report rat_dbg e) = [] <-> kind e = DenominatorIsZero)) /\
  (forall B p e, mt_new_err B p = Some e -> shown (as_report rand_dbg e) <> []) /\
  (forall B w s r e, lf_new_err B w s r = Some e -> shown (as_report rand_dbg e) <> []) /\
  (forall st call e, nt_err st call = Some e -> shown (as_report rand_dbg e) <> []).
Proof.
  split; [|split; [exact int_err_speaks|split; [|split; [|split]]]].
  - intros s e E. destruct (trimmed_exists s) as [t T]. apply (nat_err_fault s t e T) in E. destruct E as (k & m & F & ->). apply fault_speaks in F. exact F.
  - intros pf s e PF. unfold rat_parse_err. destruct (trim_ws s) as [|c t]; [intros E; injection E as <-; split; discriminate|].
    assert (ONE : forall e x, int_parse_err x = Some e -> shown (as_report rat_dbg (wrap_rat e)) <> []) by (intros e0 x E0; apply int_err_speaks in E0; exact E0).
    destruct (find_char 46 (c :: t)) as [p|].
    + destruct (pf (c :: t)) as [f|m] eqn:PE; [destruct (f_is_nan 52 11 f); [|discriminate]|]; intros E; injection E as <-; split; try discriminate.
      intros C. exfalso. exact (PF _ _ PE C).
    + destruct (find_char 47 (c :: t)) as [[u v]|].
      * destruct (int_parse_err u) eqn:U; [intros E; injection E as <-; split; [intros C; exfalso; exact (ONE _ _ U C)|discriminate]|].
        destruct (int_parse_err v) eqn:V; [intros E; injection E as <-; split; [intros C; exfalso; exact (ONE _ _ V C)|discriminate]|].
        destruct (b_from_str u) as [a|]; [|discriminate]. destruct (b_from_str v) as [b|]; [|discriminate].
        destruct (b_is_nan a || b_is_nan b); [intros E; injection E as <-; split; discriminate|]. destruct (nat_eq_u32 (bnat b) 0); [|discriminate]. intros E; injection E as <-. split; reflexivity.
      * destruct (int_parse_err (c :: t)) eqn:U; [intros E; injection E as <-; split; [intros C; exfalso; exact (ONE _ _ U C)|discriminate]|].
        destruct (b_from_str (c :: t)) as [a|]; [|discriminate].
        destruct (b_is_nan a || b_is_nan (b_from_u32 1)); [intros E; injection E as <-; split; discriminate|]. destruct (nat_eq_u32 (bnat (b_from_u32 1)) 0); [|discriminate]. intros E; injection E as <-. split; reflexivity.
  - intros B p e. unfold mt_new_err.
    repeat match goal with |- (if ?c then _ else _) = _ -> _ => destruct c; [intros E; injection E as <-; vm_compute; discriminate|] end. discriminate.
  - intros B w s r e. unfold lf_new_err.
    repeat match goal with |- (if ?c then _ else _) = _ -> _ => destruct c; [intros E; injection E as <-; vm_compute; discriminate|] end. discriminate.
  - intros st call e. unfold nt_err. destruct (st =? 0); [discriminate|]. intros E. injection E as <-. cbn. discriminate.
Qed.
Lemma int_err_plain s e : int_parse_err s = Some e -> exists k m, e = failed k (Plain m) /\ m <> [].
Proof.
  intros E. destruct (trimmed_exists s) as [t T]. apply (int_err_fault s t e T) in E. destruct E as (k & m & F & ->). apply int_fault_speaks in F. eauto.
Qed.
Theorem C121_float_speaks : forall s e, float_parse_err s = Ok (Some e) -> shown (as_report float_dbg e) <> [].
Proof.
  intros s e H. destruct (trimmed_exists s) as [t T]. destruct (float_shape s t T) as [-> E _|A B E _|_ P E _|N0 NB E _]; rewrite E in H.
  - injection H as <-. discriminate.
  - injection H as <-. discriminate.
  - destruct (int_parse_err t) eqn:I; [|discriminate]. injection H as <-. exact (int_err_speaks _ _ I).
  - assert (TAIL : forall u x f, float_tail u x = Some f -> shown (as_report float_dbg f) <> []).
    { intros u x f. unfold float_tail. destruct (match find_char 46 u with Some (a, b) => (a ++ b, x - byte_len b) | None => (u, x) end) as [nu y].
      destruct (Z.ltb_spec y 0).
      - destruct (int_parse_err nu) eqn:I; [intros F; injection F as <-; exact (int_err_speaks _ _ I)|].
        destruct (int_parse_err (49 :: repeat 48 (Z.to_nat (- y)))) eqn:I2; [intros F; injection F as <-; exact (int_err_speaks _ _ I2)|].
        destruct (b_from_str nu); [|discriminate]. rewrite ten_text by lia. unfold frac_bigint_err. rewrite zint_nat, of_Z_eq_u32 by lia.
        destruct (Z.eqb_spec (Z.abs (10 ^ Z.of_nat (Z.to_nat (- y)))) 0) as [Z0|]; [|discriminate]. exfalso.
        assert (0 < 10 ^ Z.of_nat (Z.to_nat (- y))) by (apply Z.pow_pos_nonneg; lia). lia.
      - destruct (int_parse_err (nu ++ repeat 48 (Z.to_nat y))) eqn:I; [intros F; injection F as <-; exact (int_err_speaks _ _ I)|].
        destruct (int_parse_err []) eqn:I2; [intros F; injection F as <-; exact (int_err_speaks _ _ I2)|discriminate]. }
    assert (EXP : forall es o, exp_err es = Ok (Some o) -> shown (as_report float_dbg o) <> []).
    { intros es o. unfold exp_err. destruct (int_parse_err es) eqn:I; [intros F; injection F as <-; exact (int_err_speaks _ _ I)|].
      destruct (b_from_str es) as [y|]; [|discriminate].
      destruct (b_lt y (b_from_i64 min_exp)); [destruct (b_fmt_display y); cbn [bind]; try discriminate; intros F; injection F as <-; discriminate|].
      destruct (b_lt (b_from_i64 max_exp) y); [destruct (b_fmt_display y); cbn [bind]; try discriminate; intros F; injection F as <-; discriminate|discriminate]. }
    unfold err_core in H. destruct (match exp_parts t with Some (_, c :: es) => exp_err (c :: es) | _ => Ok None end) as [o| |] eqn:X; cbn [bind] in H; try discriminate.
    destruct o as [f|].
    + injection H as ->. destruct (exp_parts t) as [[u [|c es]]|]; try discriminate. eapply EXP; eauto.
    + destruct (split_exp t) as [[u x]|]; [|discriminate]. injection H as H. eapply TAIL; eauto.
Qed.

(** What a message of a constructor demands of the parameters. *)
Inductive mt_demand (B : Z) (p : mt_par) : list Z -> Prop -> Prop :=
| dm_zero : mt_demand B p (str "all parameters cannot be the 0")
    (mt_w p <> 0 /\ mt_n p <> 0 /\ mt_m p <> 0 /\ mt_r p <> 0 /\ mt_a p <> 0 /\ mt_u p <> 0 /\ mt_d p <> 0 /\ mt_s p <> 0 /\ mt_b p <> 0 /\ mt_t p <> 0 /\ mt_c p <> 0 /\ mt_l p <> 0 /\ mt_f p <> 0)
| dm_m : mt_demand B p (str "m must be satisfy the relation: m <= n") (mt_m p <= mt_n p)
| dm_w32 : B = 32 -> mt_demand B p (str "w must be satisfy the relation: m <= 32") (mt_m p <= 32)
| dm_w64 : B = 64 -> mt_demand B p (str "w must be satisfy the relation: m <= 64") (mt_m p <= 64)
| dm_r : mt_demand B p (str "r must be less than w") (mt_r p < mt_w p)
| dm_u : mt_demand B p (str "u must be less than w") (mt_u p < mt_w p)
| dm_s : mt_demand B p (str "s must be less than w") (mt_s p < mt_w p)
| dm_t : mt_demand B p (str "t must be less than w") (mt_t p < mt_w p)
| dm_l : mt_demand B p (str "l must be less than w") (mt_l p < mt_w p)
| dm_a : mt_demand B p (str "a must be less than or equal to ((1<<w) - 1)") (mt_a p <= 2 ^ mt_w p - 1)
| dm_d : mt_demand B p (str "d must be less than  or equal to ((1<<w) - 1)") (mt_d p <= 2 ^ mt_w p - 1)
| dm_b : mt_demand B p (str "b must be less than  or equal to ((1<<w) - 1)") (mt_b p <= 2 ^ mt_w p - 1)
| dm_c : mt_demand B p (str "c must be less than  or equal to ((1<<w) - 1)") (mt_c p <= 2 ^ mt_w p - 1)
| dm_f : mt_demand B p (str "f must be less than  or equal to ((1<<w) - 1)") (mt_f p <= 2 ^ mt_w p - 1).
Theorem C121_mt_refines : forall B p seed, (exists e, mt_new_err B p = Some e) <-> mt_new B (ROk seed) p = RErr InvalidRngPara.
Proof.
  intros B p seed. unfold mt_new, mt_check, mt_new_err.
  repeat match goal with |- context [if ?c then Some _ else _] => destruct c; cbn [andb negb]; [split; [reflexivity|eauto]|] end.
  split; [intros (e & E); discriminate|discriminate].
Qed.
Theorem C121_mt_partial : forall B p e, width B -> par_ok B p -> mt_new_err B p = Some e ->
  kind e = InvalidRngPara /\
  ((mt_w p <= B \/ mt_w p = 0 \/ mt_n p < mt_m p) -> exists D : Prop, mt_demand B p (shown (as_report rand_dbg e)) D /\ ~ D).
Proof.
  intros B p e HB PO. unfold mt_new_err.
  destruct ((mt_w p =? 0) || (mt_m p =? 0) || (mt_r p =? 0) || (mt_a p =? 0) || ((mt_u p =? 0) && (mt_d p =? 0)) || ((mt_s p =? 0) && (mt_b p =? 0)) || ((mt_t p =? 0) && (mt_c p =? 0)) || (mt_l p =? 0) || (mt_f p =? 0)) eqn:Z0.
  { intros E. injection E as <-. split; [reflexivity|]. intros _. eexists. split; [constructor|]. rewrite !orb_true_iff, !andb_true_iff, !Z.eqb_eq in Z0. tauto. }
  assert (W0 : mt_w p <> 0) by (rewrite !orb_false_iff in Z0; destruct Z0 as [[[[[[[[Z0 _] _] _] _] _] _] _] _]; apply Z.eqb_neq; exact Z0).
  assert (W1 : 0 <= mt_w p) by (unfold par_ok in PO; inversion PO; subst; tauto).
  destruct (Z.ltb_spec (mt_n p) (mt_m p)).
  { intros E. injection E as <-. split; [reflexivity|]. intros _. eexists. split; [constructor|]. lia. }
  destruct (Z.ltb_spec B (mt_w p)).
  { intros E. injection E as <-. split; [reflexivity|]. intros C. lia. }
  rewrite pmask_val by lia.
  repeat match goal with |- (if ?a <=? ?b then _ else _) = _ -> _ => destruct (Z.leb_spec a b); [intros E; injection E as <-; split; [reflexivity|]; intros _; eexists; split; [constructor|]; lia|]
    | |- (if ?a <? ?b then _ else _) = _ -> _ => destruct (Z.ltb_spec a b); [intros E; injection E as <-; split; [reflexivity|]; intros _; eexists; split; [constructor|]; lia|] end.
  discriminate.
Qed.
(** w = 33 for u32: "m <= 32", and m is 1. *)
Theorem C121_mt_refuted : exists p e, par_ok 32 p /\ mt_new_err 32 p = Some e /\ shown (as_report rand_dbg e) = str "w must be satisfy the relation: m <= 32" /\ mt_m p <= 32 /\
  forall D : Prop, mt_demand 32 p (shown (as_report rand_dbg e)) D -> D.
Proof.
  exists (MtPar 33 3 1 1 1 1 1 1 1 1 1 1 1). eexists. split; [apply par_ok_b; reflexivity|]. split; [vm_compute; reflexivity|]. split; [reflexivity|]. split; [vm_compute; discriminate|].
  intros D H. inversion H; try discriminate.
Qed.
Theorem C121_lf : forall B w s r e sd, width B -> lf_new_err B w s r = Some e ->
  lf_new B sd w s r = RErr InvalidRngPara /\ kind e = InvalidRngPara /\
  ((shown (as_report rand_dbg e) = str "all parameters cannot be the 0" /\ (w = 0 \/ s = 0 \/ r = 0)) \/
   (shown (as_report rand_dbg e) = str "s must be less than the r" /\ r <= s) \/
   (exists t, shown (as_report rand_dbg e) = str "w must be less than or equal to " ++ t /\ B < w /\ (B = 32 -> t = str "32") /\ (B = 64 -> t = str "64"))).
Proof.
  intros B w s r e sd HB. unfold lf_new_err, lf_new. destruct ((w =? 0) || (s =? 0) || (r =? 0)) eqn:Z0.
  { intros E. injection E as <-. split; [reflexivity|]. split; [reflexivity|]. left. split; [reflexivity|]. rewrite !orb_true_iff, !Z.eqb_eq in Z0. tauto. }
  destruct (Z.leb_spec r s).
  { intros E. injection E as <-. split; [reflexivity|]. split; [reflexivity|]. right. left. split; [reflexivity|lia]. }
  destruct (Z.ltb_spec B w); [|discriminate]. intros E. injection E as <-. split; [reflexivity|]. split; [reflexivity|]. right. right.
  exists (bits_text B). split; [reflexivity|]. split; [lia|]. split; intros ->; reflexivity.
Qed.
Theorem C121_lf_refines : forall B w s r seed, (exists e, lf_new_err B w s r = Some e) <-> lf_new B (ROk seed) w s r = RErr InvalidRngPara.
Proof.
  intros B w s r seed. unfold lf_new_err, lf_new. repeat match goal with |- context [if ?c then Some _ else _] => destruct c; [split; [reflexivity|eauto]|] end.
  split; [intros (e & E); discriminate|discriminate].
Qed.
Theorem C121_lcg_refines : forall a c m seed, (exists e, lcg_new_err m = Some e) <-> lcg_new (ROk seed) a c m = RErr DivisorIsZero.
Proof. intros a c m seed. unfold lcg_new_err, lcg_new. destruct (m =? 0); [split; [reflexivity|eauto]|]. split; [intros (e & E); discriminate|discriminate]. Qed.
Theorem C121_prime_refines : forall checks bits rounds g e, prime_err bits = Some e -> kind e = InvalidParameters /\ bits < 2 /\ generate_prime checks bits rounds g = Ok (None, g).
Proof.
  intros checks bits rounds g e. unfold prime_err, generate_prime. destruct (Z.ltb_spec bits 2); [|discriminate]. intros E. injection E as <-. auto.
Qed.
(** The text of a failed Windows call shows which status and which call it
    was. *)
Lemma code_no_comma st : ~ In 44 (fmt_lower_hex true [st mod 2 ^ 32]).
Proof.
  assert (C : canon [st mod 2 ^ 32]).
  { pose proof (Z.mod_pos_bound st (2 ^ 32) eq_refl). split; [constructor; [exact H|constructor]|]. split; [discriminate|]. left. reflexivity. }
  destruct (C13_format_hex true _ C) as [(s & -> & N) _]. intros I. apply in_app_or in I. destruct I as [I|I]; [vm_compute in I; intuition discriminate|].
  destruct N as (ds & -> & OK & _). apply in_map_iff in I. destruct I as (d & E & I). unfold digits_ok in OK. rewrite Forall_forall in OK. specialize (OK d I).
  assert (H : forall k : nat, (k < 16)%nat -> digit_in lower_digits (Z.of_nat k) <> 44) by (intros k K; do 16 (destruct k as [|k]; [vm_compute; discriminate|]); lia).
  apply (H (Z.to_nat d)); [lia|]. rewrite Z2Nat.id by lia. exact E.
Qed.
Lemma nt_shown st call e : nt_err st call = Some e -> shown (as_report rand_dbg e) = nt_kind_text st ++ str ", source: " ++ call.
Proof. unfold nt_err. destruct (st =? 0); [discriminate|]. generalize (nt_kind_text st ++ str ", source: " ++ call). intros m E. injection E as <-. reflexivity. Qed.
Theorem C121_nt_status : forall st st' call call' e e', - 2 ^ 31 <= st < 2 ^ 31 -> - 2 ^ 31 <= st' < 2 ^ 31 ->
  nt_err st call = Some e -> nt_err st' call' = Some e' -> shown (as_report rand_dbg e) = shown (as_report rand_dbg e') -> st = st' /\ call = call'.
Proof.
  intros st st' call call' e e' R R' E E'. rewrite (nt_shown _ _ _ E), (nt_shown _ _ _ E'). unfold nt_kind_text. rewrite <- !app_assoc. intros H. apply app_inv_head in H.
  change (str ", msg: ") with (44 :: str " msg: ") in H.
  assert (C : forall x, canon [x mod 2 ^ 32]).
  { intros x. pose proof (Z.mod_pos_bound x (2 ^ 32) eq_refl). split; [constructor; [exact H0|constructor]|]. split; [discriminate|]. left. reflexivity. }
 rewrite <- !app_comm_cons in H.
  assert (F : forall x r, find_char 44 (fmt_lower_hex true [x mod 2 ^ 32] ++ 44 :: r) = Some (fmt_lower_hex true [x mod 2 ^ 32], r)).
  { intros x r. apply find_char_app. apply code_no_comma. }
  pose proof (F st (str " msg: " ++ nt_msg st ++ str ", source: " ++ call)) as F1. pose proof (F st' (str " msg: " ++ nt_msg st' ++ str ", source: " ++ call')) as F2.
  rewrite H in F1. rewrite F2 in F1. injection F1 as G1 G2.
  assert (S : [st mod 2 ^ 32] = [st' mod 2 ^ 32]).
  { assert (P : forall x, nat_from_str (fmt_lower_hex true [x mod 2 ^ 32]) = Some [x mod 2 ^ 32]) by (intros x; apply C15_parse_prefixed; apply C).
    pose proof (P st) as P1. pose proof (P st') as P2. congruence. }
  assert (ST : st = st').
  { assert (S' : st mod 2 ^ 32 = st' mod 2 ^ 32) by congruence. clear - S' R R'. pose proof (Z.div_mod st (2 ^ 32) ltac:(lia)). pose proof (Z.div_mod st' (2 ^ 32) ltac:(lia)). change (2 ^ 31) with 2147483648 in *. change (2 ^ 32) with 4294967296 in *. lia. }
  split; [exact ST|]. subst st'. apply app_inv_head in G2. congruence.
Qed.
Example C121_case : option_map (fun e => shown (as_report rand_dbg e)) (nt_err st_invalid_handle (str "BCryptGenRandom")) =
    Some (str "code: 0xc0000008, msg: invalid handle was specified, source: BCryptGenRandom") /\
  option_map (fun e => shown (as_report rand_dbg e)) (nt_err 259 (str "BCryptGenRandom")) = Some (str "code: 0x103, msg: , source: BCryptGenRandom") /\
  option_map (fun e => shown (as_report rand_dbg e)) (lf_new_err 32 33 10 24) = Some (str "w must be less than or equal to 32") /\
  option_map (fun e => shown (as_report rand_dbg e)) (mt_new_err 32 (MtPar 8 3 2 8 157 3 255 2 86 4 200 1 77)) = Some (str "r must be less than w") /\
  shown (Own (str "x") None) = str "x".
Proof. vm_compute. auto 10. Qed.
Print Assumptions C121_silent_refuted.
Print Assumptions C121_source_refuted.
Print Assumptions C121_speaks_partial.
Print Assumptions C121_float_speaks.
Print Assumptions C121_mt_refines.
Print Assumptions C121_mt_partial.
Print Assumptions C121_mt_refuted.
Print Assumptions C121_lf.
Print Assumptions C121_lf_refines.
Print Assumptions C121_lcg_refines.
Print Assumptions C121_prime_refines.
Print Assumptions C121_nt_status.
