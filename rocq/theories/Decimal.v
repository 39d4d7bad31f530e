(** Model of decimal.rs and float_fmt.rs: the decimal text of a [Float] and the
    parser.

    A [char] is its code point, a string a list of code points (as in
    NatConv.v).  The machine integers that hold at most ten times 2 ^ 28 and the
    string lengths do not overflow and are kept as integers. *)
From Coq Require Import Ascii String ZArith List Lia Bool.
From Verif Require Import Words NatModel NatConv BigInt Rat Float.
Import ListNotations.
Open Scope Z_scope.
Open Scope list_scope.

(* ------------------------------------------------------------------ *)
(** * [Decimal] *)

(** decimal.rs:12-16; the constant [zero] character is left out. *)
Record decimal : Set := DC { dmant : list Z; dexp : Z }.

(** decimal.rs:80-85: leading digits until [n >> s] is not zero. *)
Fixpoint pick (s r n : Z) (cs : list Z) : Z * Z :=
  match cs with
  | [] => (r, n)
  | c :: cs' => if n / 2 ^ s =? 0 then pick s (r + 1) (n * 10 + (c - 48)) cs' else pick s r n cs'
  end.
(** decimal.rs:92-95. *)
Fixpoint grow (fuel : nat) (s r n : Z) : res (Z * Z) :=
  if n / 2 ^ s =? 0 then
    match fuel with O => Fuel | S f => grow f s (r + 1) (n * 10) end
  else Ok (r, n).
(** decimal.rs:100-108: the quotient digits while there are digits to read.
    They are written into the vector behind the place that is read, so the
    result is kept as a list of its own. *)
Fixpoint emit (s n : Z) (cs : list Z) : list Z * Z :=
  match cs with
  | [] => ([], n)
  | c :: cs' =>
      let '(l, n') := emit s (n mod 2 ^ s * 10 + (c - 48)) cs' in
      ((n / 2 ^ s) mod 256 + 48 :: l, n')
  end.
(** decimal.rs:110-124: the remaining digits; the first of the two loops writes
    them in place, the second pushes them. *)
Fixpoint drain (fuel : nat) (s n : Z) : res (list Z) :=
  if 0 <? n then
    match fuel with
    | O => Fuel
    | S f => do l <- drain f s (n mod 2 ^ s * 10); Ok ((n / 2 ^ s) mod 256 + 48 :: l)
    end
  else Ok [].

(** decimal.rs:129-143 [trim]. *)
Definition dec_trim (d : decimal) : decimal :=
  match rev (trim_start0 (rev (dmant d))) with
  | [] => DC [] 0
  | m => DC m (dexp d)
  end.

(** decimal.rs:73-127 [shr_inner]. *)
Definition dec_shr (d : decimal) (s : Z) : res decimal :=
  let '(r, n) := pick s 0 0 (dmant d) in
  if n =? 0 then Ok (DC [] (dexp d))
  else
    do '(r, n) <- grow (Z.to_nat s) s r n;
    let '(l, n) := emit s n (skipn (Z.to_nat r) (dmant d)) in
    do l' <- drain (S (Z.to_nat s)) s n;
    Ok (dec_trim (DC (l ++ l') (dexp d + (1 - r)))).

(** decimal.rs:5, 60-66: shifts by at most [MAX_SHIFT] = 28 bits at a time. *)
Fixpoint dec_shr_loop (fuel : nat) (d : decimal) (shift : Z) : res decimal :=
  if shift <? - 28 then
    match fuel with
    | O => Fuel
    | S f => do d' <- dec_shr d 28; dec_shr_loop f d' (shift + 28)
    end
  else dec_shr d (- shift).

(** decimal.rs:21-70 [new]; the loop 53-57 counts every zero character. *)
Definition zeros_in (t : list Z) : nat := length (filter (Z.eqb 48) t).
Definition dec_new (m : list Z) (shift : Z) : res decimal :=
  if is_nan m || nat_eq_u32 m 0 then Ok (DC [] 0)
  else
    let m := trim m in
    let '(m, shift) :=
      if shift <? 0 then
        let s := Z.min (- shift) (trailling_zeros m) in (nat_shr m s, shift + s)
      else (m, shift) in
    let '(m, shift) := if 0 <? shift then (nat_shl m shift, 0) else (m, shift) in
    do t <- fmt_display m;
    let z := DC (firstn (length t - zeros_in t) t) (Z.of_nat (length t)) in
    if shift <? 0 then dec_shr_loop (Z.to_nat (- shift / 28)) z shift else Ok z.

(** decimal.rs:148-154 [is_should_round_up]; 53 is '5'.  Indexing out of range
    does not occur in the one call (159-167). *)
Definition should_round_up (m : list Z) (n : nat) : bool :=
  if (nth n m 0 =? 53) && (Z.of_nat n + 1 =? Z.of_nat (length m))
  then (0 <? Z.of_nat n) && negb (Z.land (nth (n - 1) m 0 - 48) 1 =? 0)
  else 53 <=? nth n m 0.
(** decimal.rs:169-191 [round_up]: trailing nines of the part that is kept are
    dropped; 57 is '9', 49 is '1'. *)
Fixpoint drop9 (s : list Z) : list Z :=
  match s with
  | [] => []
  | c :: s' => if 57 <=? c then drop9 s' else s
  end.
Definition dec_round_up (d : decimal) (n : nat) : decimal :=
  match rev (drop9 (rev (firstn n (dmant d)))) with
  | [] => DC [49] (dexp d + 1)
  | u => DC (set_last u (last u 0 + 1)) (dexp d)
  end.
(** decimal.rs:159-167 [round], 193-198 [round_down]. *)
Definition dec_round (d : decimal) (n : Z) : decimal :=
  if n <? Z.of_nat (length (dmant d)) then
    if should_round_up (dmant d) (Z.to_nat n) then dec_round_up d (Z.to_nat n)
    else dec_trim (DC (firstn (Z.to_nat n) (dmant d)) (dexp d))
  else d.

(** decimal.rs:201-211 [index]; 48 is '0'. *)
Definition dec_at (d : decimal) (i : Z) : Z :=
  if i <? Z.of_nat (length (dmant d)) then nth (Z.to_nat i) (dmant d) 48 else 48.

(* ------------------------------------------------------------------ *)
(** * Text of a [Float] *)

(** [format!("{}", n)] of a usize: its decimal digits. *)
Definition usize_text (n : Z) : res (list Z) := fmt_display (from_u64 n).

(** float_fmt.rs:63-92 [fmt_for_exp]: what is appended to the buffer. *)
Definition fmt_for_exp (d : decimal) (prec : Z) (fc : Z) : res (list Z) :=
  match dmant d with
  | [] => Panic
  | c :: _ =>
      let m := Z.min (Z.of_nat (length (dmant d))) (prec + 1) in
      let frac :=
        if 0 <? prec then
          let i := if 1 <? m then m else 1 in
          46 :: firstn (Z.to_nat (m - 1)) (skipn 1 (dmant d)) ++ repeat 48 (Z.to_nat (prec - i + 1))
        else [] in
      let '(sgn, e) := if dexp d <? 1 then ([45], 1 - dexp d) else ([], dexp d - 1) in
      do t <- usize_text e;
      Ok (c :: frac ++ fc :: sgn ++ (if e <? 10 then [48] else []) ++ t)
  end.

(** float_fmt.rs:105: [(d.exp as usize) + i] wraps for a negative exponent, and
    panics where overflow is checked. *)
Definition display_index (checks : bool) (e i : Z) : res Z :=
  let u := e mod 2 ^ 64 in
  if u + i <? 2 ^ 64 then Ok (u + i) else if checks then Panic else Ok (u + i - 2 ^ 64).
Fixpoint display_frac (checks : bool) (d : decimal) (i : Z) (n : nat) : res (list Z) :=
  match n with
  | O => Ok []
  | S n' =>
      do j <- display_index checks (dexp d) i;
      do l <- display_frac checks d (i + 1) n';
      Ok (dec_at d j :: l)
  end.
(** float_fmt.rs:94-107 [fmt_for_display]. *)
Definition fmt_for_display (checks : bool) (d : decimal) (prec : Z) : res (list Z) :=
  let int :=
    if 0 <? dexp d then
      let m := Z.min (Z.of_nat (length (dmant d))) (dexp d) in
      firstn (Z.to_nat m) (dmant d) ++ repeat 48 (Z.to_nat (dexp d - m))
    else [48] in
  if 0 <? prec then do l <- display_frac checks d 0 (Z.to_nat prec); Ok (int ++ 46 :: l)
  else Ok int.

(** float_fmt.rs:11-60 [fmt_inner]; [body] is the match of lines 44-59. *)
Definition fmt_inner (x : float) (prec : Z) (body : decimal -> res (list Z)) : res (list Z) :=
  if is_fnan (flform x) then Ok (str "NaN")
  else if is_zero (flform x) then Ok (str "0")
  else
    let sgn := if flneg x then [45] else [] in
    if is_infinite (flform x) then Ok (sgn ++ (if flneg x then [] else [43]) ++ str "Inf")
    else if nat_eq_u32 (flmant x) 0 then Ok (sgn ++ [48])
    else
      do d <- dec_new (flmant x) (flexp x - bits_len (flmant x));
      do t <- body (dec_round d (1 + prec));
      Ok (sgn ++ t).
(** float_fmt.rs:110-129: [{:.pe}] and [{:.pE}], 7 digits if no precision is given. *)
Definition fl_fmt_exp (upper : bool) (p : option Z) (x : float) : res (list Z) :=
  let prec := match p with Some p => p | None => 7 end in
  fmt_inner x prec (fun d => fmt_for_exp (dec_round d (1 + prec)) prec (if upper then 69 else 101)).
(** float_fmt.rs:131-151: [Display] and [Debug]; the precision in bits is used
    as the number of digits. *)
Definition fl_fmt_display (checks : bool) (x : float) : res (list Z) :=
  fmt_inner x (flprec x) (fun d =>
    let n := dexp d + flprec x in
    fmt_for_display checks (if 0 <=? n then dec_round d n else d) (flprec x)).

(* ------------------------------------------------------------------ *)
(** * Parsing a [Float].  [None] is [Err]; kinds and texts are in Errors.v. *)

(** The length of a string in bytes (UTF-8). *)
Definition utf8_len (c : Z) : Z := if c <? 128 then 1 else if c <? 2048 then 2 else if c <? 65536 then 3 else 4.
Definition byte_len (s : list Z) : Z := fold_right (fun c n => utf8_len c + n) 0 s.

(** float_fmt.rs:198-206: the parsed exponent as an isize; it has one word. *)
Definition exp_value (e : bigint) : Z :=
  let v := fold_left (fun t w => Z.lor (t * W) w) (rev (bnat e)) 0 in
  if bneg e then - v else v.

(** float_fmt.rs:182-213: the text in front of the exponent, and the exponent;
    101 is 'e', 69 is 'E'. *)
Definition split_exp (s : list Z) : option (list Z * Z) :=
  let parts := match find_char 101 s with Some p => Some p | None => find_char 69 s end in
  match parts with
  | None => Some (s, 0)
  | Some (_, []) => Some (s, 0)
  | Some (u, es) =>
      match b_from_str es with
      | None => None
      | Some e =>
          if b_lt e (b_from_i64 min_exp) then None
          else if b_lt (b_from_i64 max_exp) e then None
          else Some (u, exp_value e)
      end
  end.

(** float_fmt.rs:156-253 [from_str].  When the exponent has been split off at
    an 'e', a '.' behind it would make the exponent an error, so the position of
    the first '.' is inside the remaining text. *)
Definition fl_from_str (s : list Z) : res (option float) :=
  let s := trim_ws s in
  match s with
  | [] => Ok None
  | _ :: _ =>
      let dot := find_char 46 s in
      let le := find_char 101 s in
      let ue := find_char 69 s in
      match le, ue with
      | Some _, Some _ => Ok None
      | _, _ =>
          match dot, le, ue with
          | None, None, None =>
              match b_from_str s with
              | None => Ok None
              | Some n => do z <- fl_from_bigint n; Ok (Some z)
              end
          | _, _, _ =>
              match split_exp s with
              | None => Ok None
              | Some (u, e) =>
                  let '(nu, e) := match find_char 46 u with
                                  | Some (a, b) => (a ++ b, e - byte_len b)
                                  | None => (u, e)
                                  end in
                  let '(nu, de) := if e <? 0 then (nu, 49 :: repeat 48 (Z.to_nat (- e)))
                                   else (nu ++ repeat 48 (Z.to_nat e), []) in
                  match b_from_str nu, b_from_str de with
                  | Some n, Some d =>
                      do r <- r_from_frac_bigint n d;
                      match r with
                      | None => Ok None
                      | Some r => do z <- fl_from_rat r; Ok (Some z)
                      end
                  | _, _ => Ok None
                  end
              end
          end
      end
  end.
