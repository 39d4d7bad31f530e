(** Heap model of shared storage for [Float].

    float.rs:65-74: [Float] derives [Clone], and the mantissa is a [Nat], so a
    clone copies every other field and shares the vector of the mantissa.  A
    handle is therefore a record of its own fields and a cell of the heap.  As
    in Alias.v, a routine whose operands share a cell gets the sequential
    meaning of its steps. *)
From Coq Require Import ZArith List Bool.
From Verif Require Import Words NatModel Alias AliasInt Float.
Import ListNotations.
Open Scope Z_scope.

Inductive fop := FAdd | FSub | FMul | FDiv.

(** What a user can do with handles; variables are numbered in the order of
    their creation. *)
Inductive fcmd :=
| FNew (v : float)                   (* let v = Float::from(..); storage of its own *)
| FClone (x : nat)                   (* let v = x.clone(); *)
| FDeep (x : nat)                    (* let v = x.deep_clone(); *)
| FNeg (x : nat)                     (* let v = -x.clone(); *)
| FAbs (x : nat)                     (* let v = x.abs(); *)
| FBin (o : fop) (x y : nat)         (* let v = x.clone() op y.clone(); *)
| FPrec (x : nat) (p : Z)            (* x.set_precision(p); *)
| FMode (x : nat) (m : rmode)        (* x.set_mode(m); *)
| FMantExp (x y : nat) (e : Z)       (* x.set_mant_exp(y.clone(), e); *)
| FAssign (o : fop) (x y : nat).     (* x op= y.clone(); *)

(** The inner routine of an operator, operands in different cells. *)
Definition f_inner (o : fop) : float -> float -> res float :=
  match o with FAdd => fl_add_inner | FSub => fl_sub_inner | FMul => fl_mul_inner | FDiv => fl_div_inner end.

(* ------------------------------------------------------------------ *)
(** * Inner routines when both mantissas are the same cell *)

(** float.rs:939-972 [uadd]: [x.mant <<= ..] shifts y.mant as well; the shift
    of y.mant is by value. *)
Definition uadd_alias (x y : float) : res float :=
  let m := flmant x in
  let ex := flexp x - mbits m in
  let ey := flexp y - mbits m in
  do '(m, e) <-
    (if ex <? ey then Ok (nat_add m (nat_shl m (ey - ex)), ex)
     else if ey <? ex then do r <- nat_alias 0 OAdd (nat_shl m (ex - ey)); Ok (r, ey)
     else do r <- nat_alias 0 OAdd m; Ok (r, ex));
  do '(v, s) <- fnorm m;
  set_exp_and_round (set_mant x v) (e + mbits m - s) 0.

(** float.rs:1027-1061 [usub]. *)
Definition usub_alias (x y : float) : res float :=
  let m := flmant x in
  let ex := flexp x - mbits m in
  let ey := flexp y - mbits m in
  do '(m, e) <-
    (if ex <? ey then Ok (nat_sub m (nat_shl m (ey - ex)), ex)
     else if ey <? ex then do r <- nat_alias 0 OSub (nat_shl m (ex - ey)); Ok (r, ey)
     else do r <- nat_alias 0 OSub m; Ok (r, ex));
  let x := set_mant x m in
  if nat_eq_u32 m 0 then Ok (set_neg (set_form (set_acc x Exact) Zero) false)
  else
    do '(v, s) <- fnorm m;
    set_exp_and_round (set_mant x v) (e + mbits m - s) 0.

(** float.rs:979-1007, 1068-1088: [tmp] (lines 1000, 1081) is a deep clone of
    [y], so that branch has no aliasing. *)
Definition add_finite_alias (same : bool) (x y : float) : res float :=
  do z <- (if same then uadd_alias x y
           else if 0 <? ucmp x y then usub_alias x y
           else usub (set_neg y (negb (flneg x))) x);
  Ok (if is_zero (flform z) && is_to_negative_inf (flmode z) && (match flacc z with Exact => true | _ => false end)
      then set_neg z true else z).

(** float.rs:974-1025; [set_float] (line 358) empties the cell before it reads
    y.mant. *)
Definition fl_add_alias (x y : float) : res float :=
  let x := default_prec x y in
  if is_finite (flform x) && is_finite (flform y) then add_finite_alias (eqb (flneg x) (flneg y)) x y
  else if is_infinite (flform x) && is_infinite (flform y) && negb (eqb (flneg x) (flneg y)) then
    Ok (set_neg (set_form (set_acc x Exact) Nan) false)
  else if is_infinite (flform x) || is_zero (flform y) then Ok x
  else set_float x (set_mant y []).
(** float.rs:1063-1112. *)
Definition fl_sub_alias (x y : float) : res float :=
  let x := default_prec x y in
  if is_finite (flform x) && is_finite (flform y) then add_finite_alias (negb (eqb (flneg x) (flneg y))) x y
  else if is_infinite (flform x) && is_infinite (flform y) && eqb (flneg x) (flneg y) then
    Ok (set_neg (set_form (set_acc x Exact) Nan) false)
  else if is_zero (flform x) && is_zero (flform y) then
    Ok (set_neg (set_form (set_acc x Exact) Zero) (flneg x && negb (flneg y)))
  else if is_infinite (flform x) || is_zero (flform y) then Ok x
  else set_float x (set_mant y []).
(** float.rs:1114-1157. *)
Definition fl_mul_alias (x y : float) : res float :=
  if is_finite (flform x) && is_finite (flform y) then
    let x := set_neg (default_prec x y) (negb (eqb (flneg x) (flneg y))) in
    do m <- nat_alias 0 OMul (flmant x);
    do '(v, s) <- fnorm m;
    set_exp_and_round (set_mant x v) (flexp x + flexp y - s) 0
  else fl_mul_inner x y.
(** float.rs:541-604: the quotient and the remainder are computed by value
    before [self.mant.clear()] (line 565), and y.mant is not read afterwards. *)
Definition f_alias (o : fop) : float -> float -> res float :=
  match o with FAdd => fl_add_alias | FSub => fl_sub_alias | FMul => fl_mul_alias | FDiv => fl_div_inner end.

(** float.rs:1000-1003, 1081-1084: [*self = tmp] gives the handle a new cell;
    all other paths write to the old one. *)
Definition repoints (o : fop) (x y : float) : bool :=
  let opposite := match o with FAdd => negb (eqb (flneg x) (flneg y)) | FSub => eqb (flneg x) (flneg y) | _ => false end in
  is_finite (flform x) && is_finite (flform y) && opposite && negb (0 <? ucmp x y).

(* ------------------------------------------------------------------ *)
(** * Programs *)

(** The mantissa of the record kept for a handle is not used. *)
Record fstate := FSt { heads : list (float * nat); fheap : list (list Z) }.

Definition head_of (s : fstate) (x : nat) : res (float * nat) :=
  match nth_error (heads s) x with Some h => Ok h | None => Panic end.
Fixpoint set_head (l : list (float * nat)) (i : nat) (v : float * nat) : list (float * nat) :=
  match l, i with
  | [], _ => []
  | _ :: t, O => v :: t
  | h :: t, S j => h :: set_head t j v
  end.
(** Reading through a handle: the value and the cell. *)
Definition fread (s : fstate) (x : nat) : res (float * nat) :=
  do '(h, c) <- head_of s x;
  match nth_error (fheap s) c with Some m => Ok (set_mant h m, c) | None => Panic end.
(** A new variable with storage of its own. *)
Definition falloc (s : fstate) (v : float) : fstate := FSt (heads s ++ [(v, length (fheap s))]) (fheap s ++ [flmant v]).
(** Writing through a handle, and giving it new storage. *)
Definition fwrite (s : fstate) (x c : nat) (v : float) : fstate := FSt (set_head (heads s) x (v, c)) (set_nth (fheap s) c (flmant v)).
Definition fpoint (s : fstate) (x : nat) (v : float) : fstate := FSt (set_head (heads s) x (v, length (fheap s))) (fheap s ++ [flmant v]).
(** float.rs:77-87 [deep_clone]; that of the mantissa trims. *)
Definition deep (v : float) : float := set_mant v (trim (flmant v)).

(** One command. *)
Definition fstep (s : fstate) (c : fcmd) : res fstate :=
  match c with
  | FNew v => Ok (falloc s v)
  | FClone x => do h <- head_of s x; Ok (FSt (heads s ++ [h]) (fheap s))
  | FDeep x => do '(v, _) <- fread s x; Ok (falloc s (deep v))
  | FNeg x => do '(v, _) <- fread s x; Ok (falloc s (fl_neg (deep v)))
  | FAbs x => do '(v, _) <- fread s x; Ok (falloc s (fl_abs (deep v)))
  | FBin o x y =>
      (* float.rs:1297-1391: NaN check, deep clone of the left operand *)
      do '(v, _) <- fread s x; do '(w, _) <- fread s y;
      do r <- fl_op2 (f_inner o) (deep v) w; Ok (falloc s r)
  | FPrec x p => do '(v, c) <- fread s x; do r <- fl_set_precision v p; Ok (fwrite s x c r)
  | FMode x m => do '(v, c) <- fread s x; Ok (fwrite s x c (fl_set_mode v m))
  | FMantExp x y e =>
      do '(_, c) <- fread s x; do '(w, d) <- fread s y;
      do r <- (if Nat.eqb c d then set_mant_exp_shared w e else set_mant_exp w e);
      Ok (fwrite s x c r)
  | FAssign o x y =>
      do '(v, c) <- fread s x; do '(w, d) <- fread s y;
      if is_fnan (flform v) || is_fnan (flform w) then Ok (fwrite s x c (set_form v Nan))
      else
        do r <- (if Nat.eqb c d then f_alias o v w else f_inner o v w);
        Ok (if repoints o v w then fpoint s x r else fwrite s x c r)
  end.

Fixpoint frun (s : fstate) (cs : list fcmd) : res fstate :=
  match cs with
  | [] => Ok s
  | c :: cs' => do s' <- fstep s c; frun s' cs'
  end.

Definition fempty : fstate := FSt [] [].

(** What a handle shows. *)
Definition flook (s : fstate) (x : nat) : option float :=
  match nth_error (heads s) x with
  | Some (h, c) => match nth_error (fheap s) c with Some m => Some (set_mant h m) | None => None end
  | None => None
  end.
