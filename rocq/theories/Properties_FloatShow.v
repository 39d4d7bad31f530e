(** What formatting shows for every finite Float: property C122. *)
From Coq Require Import Ascii String ZArith QArith Qabs List Lia Bool.
From Verif Require Import Words Spec NatModel NatConv BigInt Rat Float SpecFloat Properties_Float SpecDecimal SpecLoose Decimal SpecDecimal2 DecimalFacts5.
Import ListNotations.
Open Scope Z_scope.
Open Scope list_scope.

(** ** C122
    C59 is false for many Floats; this is what is shown for each.  The number
    m / 2 ^ s given by [shown] takes the place of the value; [{:e}] rounds it to
    the digits asked for, [{}] rounds that again to the places behind the point.
    Memory bounds the precision. *)
Theorem C122_shown : forall x, ok_float x -> flform x = Finite -> exists m s up, shown x m s up.
Proof. exact shown_exists. Qed.
Theorem C122_exp : forall e p x m s up, ok_float x -> flform x = Finite -> flprec x < 2 ^ 60 -> (match p with Some p => 0 <= p | None => True end) -> shown x m s up ->
  let q := match p with Some p => p | None => 7 end in
  if m =? 0 then fl_fmt_exp e p x = Panic
  else exists t r, fl_fmt_exp e p x = Ok t /\ sig_rounded_by up (1 + q) (dy m (- s)) r /\ signed_text x (fun u => sci_text q (if e then 69 else 101) u r) t.
Proof.
  intros e p x m s up O F P Q S. cbv zeta. pose proof (exp_any e p x m s up O F P Q S) as H. destruct (m =? 0); [auto|].
  destruct H as (t & E & r & A & B). exists t, r. auto.
Qed.
Theorem C122_display : forall checks x m s up, ok_float x -> flform x = Finite -> flprec x < 2 ^ 60 -> shown x m s up ->
  exists r1 r, (if m =? 0 then (r1 == 0)%Q else sig_rounded_by up (1 + flprec x) (dy m (- s)) r1) /\ place_rounded (flprec x) r1 r /\
    shown_text checks x (flprec x) (fl_fmt_display checks x) r.
Proof. exact display_shown. Qed.
(** Unless the mantissa has whole words to spare, the number shown is not above
    the value and above a tenth of it. *)
Theorem C122_below : forall x m s up, shown x m s up -> (let t := mbits (flmant x) - flexp x - s in t < 32 \/ t mod 32 <> 0) ->
  0 < m /\ (dy m (- s) <= Qabs (flvalue x))%Q /\ (Qabs (flvalue x) < 10 * dy m (- s))%Q.
Proof. exact shown_below. Qed.

(** 101 shows as 100; 25001000 to one digit is 3e07, because the digits kept are
    250; 2 ^ 95 + 1 in 128 bits shows as 4294967296. *)
Definition wide : float := match fl_mul (fp 13154935299 128) (fp 3011347479614249131 128) with Ok z => z | _ => fl_default end.
Example C122_case : shown (fu 101) 100 0 true /\ shown (fu 25001000) 25000000 0 true /\ fl_fmt_exp false (Some 0) (fu 25001000) = Ok (str "3e07") /\
  shown (fu 4294967295) 0 0 true /\ (flvalue wide == inject_Z (2 ^ 95 + 1))%Q /\ shown wide 4294967296 0 false /\
  fl_fmt_display true wide = Ok (str "4294967296." ++ repeat 48 128).
Proof.
  assert (S : forall x n ds w, 0 < n -> (flvalue x == inject_Z n)%Q -> written (Z.of_nat (List.length (flmant x))) n (mbits (flmant x) - flexp x - 0) = w ->
    is_numeral (fun d => d) 10 ds w -> let p := 10 ^ Z.of_nat (count_occ Z.eq_dec ds 0) in shown x (w / p * p) 0 (w / p * p mod (10 * p) =? 0)).
  { intros x n ds w N V W D. exists n, ds. split; [auto|]. split; [lia|]. split.
    - rewrite V. unfold dy. change (Qpower 2 (- 0)) with 1%Q. rewrite Qmult_1_r. rewrite Qabs_pos; [reflexivity|]. rewrite <- (Zle_Qle 0). lia.
    - split; [auto|]. cbv zeta. rewrite W. auto. }
  assert (N : forall ds, Forall (fun d => 0 <= d < 10) ds -> ds <> [] -> List.length ds = 1%nat \/ hd 0 ds <> 0 -> is_numeral (fun d => d) 10 ds (be_value 10 ds)).
  { intros ds A B C. exists ds. rewrite map_id. split; [auto|]. split; [exact A|]. auto. }
  split; [|split; [|split; [vm_compute; reflexivity|split; [|split; [vm_compute; reflexivity|split; [|vm_compute; reflexivity]]]]]].
  - apply (S (fu 101) 101 [1; 0; 1] 101); [lia|vm_compute; reflexivity|vm_compute; reflexivity|]. apply (N [1; 0; 1]); [repeat constructor; lia|discriminate|cbn; lia].
  - apply (S (fu 25001000) 25001000 [2; 5; 0; 0; 1; 0; 0; 0] 25001000); [lia|vm_compute; reflexivity|vm_compute; reflexivity|].
    apply (N [2; 5; 0; 0; 1; 0; 0; 0]); [repeat constructor; lia|discriminate|cbn; lia].
  - apply (S (fu 4294967295) 4294967295 [0] 0); [lia|vm_compute; reflexivity|vm_compute; reflexivity|]. apply (N [0]); [repeat constructor; lia|discriminate|cbn; lia].
  - apply (S wide (2 ^ 95 + 1) [4; 2; 9; 4; 9; 6; 7; 2; 9; 6] 4294967296); [lia|vm_compute; reflexivity|vm_compute; reflexivity|].
    apply (N [4; 2; 9; 4; 9; 6; 7; 2; 9; 6]); [repeat constructor; lia|discriminate|cbn; lia].
Qed.
Print Assumptions C122_shown.
Print Assumptions C122_exp.
Print Assumptions C122_display.
Print Assumptions C122_below.
