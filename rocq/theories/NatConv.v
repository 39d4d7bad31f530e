(** Model of the byte-string and text conversions of [Nat].

    A byte is a [Z] in [0,256); a Rust [char] is its code point, a [Z]; a
    string is a list of code points. *)
From Coq Require Import Ascii String ZArith List Lia Bool.
From Verif Require Import Words NatModel.
Import ListNotations.
Open Scope Z_scope.
Open Scope list_scope.

(** Notation helper for examples: the code points of a Coq string literal. *)
Fixpoint str (s : string) : list Z :=
  match s with
  | EmptyString => []
  | String a s' => Z.of_N (N_of_ascii a) :: str s'
  end.

(* ------------------------------------------------------------------ *)
(** * Bytes *)

(** nat.rs:108-118, loop of [from_le_or_be_bytes]; [j] is [i & 3]; the final
    push of a non-zero partial word is included. *)
Fixpoint bytes_loop (j val : Z) (bs : list Z) : list Z :=
  match bs with
  | [] => if val >? 0 then [val] else []
  | e :: bs' =>
      let val' := Z.lor val (e * 2 ^ (8 * j)) in
      if j =? 3 then val' :: bytes_loop 0 0 bs' else bytes_loop (j + 1) val' bs'
  end.

(** nat.rs:105-130 [from_le_or_be_bytes]. *)
Definition from_bytes_iter (bs : list Z) : list Z :=
  trim (match bytes_loop 0 0 bs with [] => [0] | v => v end).

(** nat.rs:133-139 [from_le_bytes]. *)
Definition from_le_bytes (bs : list Z) : list Z :=
  match bs with [] => nan | _ => from_bytes_iter bs end.

(** nat.rs:142-148 [from_be_bytes]. *)
Definition from_be_bytes (bs : list Z) : list Z :=
  match bs with [] => nan | _ => from_bytes_iter (rev bs) end.

(** nat.rs:2062-2081 [From<&\[u8\]>]: adds instead of or, pushes a last partial
    word even when it is zero. *)
Fixpoint bytes_loop2 (j val : Z) (bs : list Z) : list Z * Z :=
  match bs with
  | [] => ([], val)
  | e :: bs' =>
      let val' := val + e * 2 ^ (8 * j) in
      if j =? 3 then let '(v, t) := bytes_loop2 0 0 bs' in (val' :: v, t)
      else bytes_loop2 (j + 1) val' bs'
  end.
Definition from_u8_slice (bs : list Z) : list Z :=
  let '(v, t) := bytes_loop2 0 0 bs in
  trim (if t >? 0 then v ++ [t] else match bs with [] => v | _ => v ++ [t] end).

(** Rust [u32::to_le_bytes]. *)
Definition u32_le (x : Z) : list Z :=
  [x mod 256; (x / 256) mod 256; (x / 65536) mod 256; (x / 16777216) mod 256].

(** nat.rs:162-165: number of significant bytes of the top word. *)
Definition top_bytes (x : Z) : nat :=
  if x >? 16777215 then 4 else if x >? 65535 then 3 else if x >? 255 then 2 else 1.

(** nat.rs:151-171 [copy_to_le], 174-178 [to_le_bytes]. *)
Definition to_le_bytes (a : list Z) : list Z :=
  match a with
  | [] => []
  | _ => flat_map u32_le (firstn (length a - 1) a) ++
         firstn (top_bytes (last a 0)) (u32_le (last a 0))
  end.

(** nat.rs:181-200 [copy_to_be], 203-207 [to_be_bytes].  The skip count of the
    Rust code is 4 minus [top_bytes]. *)
Definition to_be_bytes (a : list Z) : list Z :=
  match a with
  | [] => []
  | _ => skipn (4 - top_bytes (last a 0)) (rev (u32_le (last a 0))) ++
         flat_map (fun x => rev (u32_le x)) (skipn 1 (rev a))
  end.

(** nat_macro.rs:1-13 [From<u64>], [From<u128>], [From<usize>]: the value's
    little-endian bytes through [From<&\[u8\]>]. *)
Fixpoint le_bytes (n : nat) (x : Z) : list Z :=
  match n with O => [] | S n' => x mod 256 :: le_bytes n' (x / 256) end.
Definition from_u64 (x : Z) : list Z := from_u8_slice (le_bytes 8 x).
Definition from_u128 (x : Z) : list Z := from_u8_slice (le_bytes 16 x).

(* ------------------------------------------------------------------ *)
(** * Formatting *)

(** The character of a digit below 16 (lower / upper case). *)
Definition lchar (d : Z) : Z := if d <? 10 then 48 + d else 87 + d.
Definition uchar (d : Z) : Z := if d <? 10 then 48 + d else 55 + d.

(** The fixed-width digits of one word, most significant first: what
    [format!("{:08x}", x)] and [format!("{:032b}", x)] print for a u32. *)
Fixpoint fixed_digits (base : Z) (k : nat) (x : Z) : list Z :=
  match k with
  | O => []
  | S k' => fixed_digits base k' (x / base) ++ [x mod base]
  end.

(** [trim_start_matches('0')]. *)
Fixpoint trim_start0 (s : list Z) : list Z :=
  match s with
  | [] => []
  | c :: s' => if c =? 48 then trim_start0 s' else s
  end.

(** nat_macro.rs:22-50 [nat_fmt!]: [chr]/[base]/[width] are the format string,
    [alt] the alternate flag with its prefix. *)
Definition nat_fmt (chr : Z -> Z) (base : Z) (width : nat) (prefix : list Z) (alt : bool)
  (a : list Z) : list Z :=
  match rev a with
  | [] => str "NaN"
  | x :: rest =>
      let y := trim_start0 (map chr (fixed_digits base width x)) in
      let y' := match y, rest with [], [] => [48] | _, _ => y end in
      (if alt then prefix else []) ++ y' ++
      flat_map (fun w => map chr (fixed_digits base width w)) rest
  end.

(** nat.rs:2115, the four instances ([Debug] is the same as [LowerHex]). *)
Definition fmt_lower_hex := nat_fmt lchar 16 8 (str "0x").
Definition fmt_upper_hex := nat_fmt uchar 16 8 (str "0x").
Definition fmt_binary := nat_fmt lchar 2 32 (str "0b").

(** nat.rs:2144-2147: ten octal digits of the remaining bits, low first. *)
Fixpoint oct10 (n : nat) (x : Z) : list Z :=
  match n with O => [] | S n' => (Z.land x 7 + 48) :: oct10 n' (x / 8) end.

(** nat.rs:2124-2148, loop of [Octal::fmt]; [i] is the index mod 3, [pre] the
    bits left over from the previous word.  Returns the characters, least
    significant first, and the last [pre].  Shifting by [idx * 3] is modelled
    by repeated division by 8. *)
Fixpoint oct_loop (i pre : Z) (a : list Z) : list Z * Z :=
  match a with
  | [] => ([], pre)
  | e :: a' =>
      if i =? 0 then
        let '(r, p) := oct_loop 1 (e / 2 ^ 30) a' in (oct10 10 e ++ r, p)
      else if i =? 1 then
        let '(r, p) := oct_loop 2 (e / 2 ^ 31) a' in
        ((Z.lor (Z.land e 1 * 4) pre + 48) :: oct10 10 (e / 2) ++ r, p)
      else
        let '(r, p) := oct_loop 0 0 a' in
        ((Z.lor (Z.land e 3 * 2) pre + 48) :: oct10 10 (e / 4) ++ r, p)
  end.

(** nat.rs:2117-2160 [Octal::fmt]. *)
Definition fmt_octal (alt : bool) (a : list Z) : list Z :=
  match a with
  | [] => str "NaN"
  | _ =>
      let '(r, p) := oct_loop 0 0 a in
      let s := trim_start0 (rev (if p >? 0 then r ++ [p + 48] else r)) in
      (if alt then str "0o" else []) ++ match s with [] => [48] | _ => s end
  end.

(** nat.rs:2170-2175, loop of [Display::fmt]: pushes digits least significant
    first.  [rem.first().unwrap()] on an empty remainder panics.  One decimal
    digit is formatted as one character, since the remainder is below ten. *)
Fixpoint dec_loop (fuel : nat) (a : list Z) : res (list Z) :=
  if nat_eq a [0] then Ok []
  else
    match fuel with
    | O => Fuel
    | S f =>
        do r <- nat_rem a [10];
        do q <- nat_div a [10];
        match r with
        | [] => Panic
        | v :: _ => do l <- dec_loop f q; Ok (48 + v :: l)
        end
    end.

(** nat.rs:2162-2184 [Display::fmt], on a [deep_clone]. *)
Definition fmt_display (a : list Z) : res (list Z) :=
  match a with
  | [] => Ok (str "NaN")
  | _ =>
      let n := trim a in
      do l <- dec_loop (S (32 * length n)) n;
      Ok (match l with [] => [48] | _ => rev l end)
  end.

(* ------------------------------------------------------------------ *)
(** * Parsing.  [None] is [Err]; kinds and texts are in Errors.v. *)

(** Rust [char::is_whitespace] (Unicode White_Space). *)
Definition is_ws (c : Z) : bool :=
  ((9 <=? c) && (c <=? 13)) || (c =? 32) || (c =? 133) || (c =? 160) || (c =? 5760) ||
  ((8192 <=? c) && (c <=? 8202)) || (c =? 8232) || (c =? 8233) || (c =? 8239) ||
  (c =? 8287) || (c =? 12288).

Fixpoint trim_start_ws (s : list Z) : list Z :=
  match s with
  | [] => []
  | c :: s' => if is_ws c then trim_start_ws s' else s
  end.
(** Rust [str::trim]. *)
Definition trim_ws (s : list Z) : list Z := rev (trim_start_ws (rev (trim_start_ws s))).

(** nat.rs:261-295 [check_base] followed by the slice [&s\[i..\]] of
    [from_str] (nat.rs:2103): returns the remaining characters and the base.
    The skipped characters are ASCII, so char and byte offsets agree. *)
Fixpoint check_base (s : list Z) : option (list Z * Z) :=
  match s with
  | [] => None
  | c :: t =>
      if (c =? 43) || (c =? 32) then check_base t
      else if (48 <=? c) && (c <=? 57) then
        match t with
        | x :: u =>
            if c =? 48 then
              if x =? 111 then Some (u, 8)
              else if (x =? 98) || (x =? 66) then Some (u, 2)
              else if (x =? 120) || (x =? 88) then Some (u, 16)
              else None
            else Some (s, 10)
        | [] => Some (s, 10)
        end
      else None
  end.

Definition dec_digit (c : Z) : option Z :=
  if (48 <=? c) && (c <=? 57) then Some (c - 48) else None.
Definition bin_digit (c : Z) : option Z :=
  if c =? 48 then Some 0 else if c =? 49 then Some 1 else None.
Definition oct_digit (c : Z) : option Z :=
  if (48 <=? c) && (c <=? 55) then Some (c - 48) else None.
Definition hex_digit (c : Z) : option Z :=
  if (48 <=? c) && (c <=? 57) then Some (c - 48)
  else if (97 <=? c) && (c <=? 102) then Some (c - 97 + 10)
  else if (65 <=? c) && (c <=? 70) then Some (c - 65 + 10)
  else None.

(** nat.rs:306-311: digit values, [Err] on the first bad character. *)
Fixpoint collect (dig : Z -> option Z) (s : list Z) : option (list Z) :=
  match s with
  | [] => Some []
  | c :: s' =>
      match dig c with
      | None => None
      | Some d => match collect dig s' with None => None | Some l => Some (d :: l) end
      end
  end.

(** nat.rs:314-319: one step of Horner's rule, 10 n = (n << 1) + (n << 3). *)
Definition dec_step (n : list Z) (d : Z) : list Z :=
  nat_add (nat_add (nat_shl n 3) (nat_shl n 1)) (from_u32 d).

(** nat.rs:297-322 [from_dec_str]. *)
Definition from_dec_str (s : list Z) : option (list Z) :=
  match s with
  | [] => Some nan
  | _ =>
      match trim_start0 s with
      | [] => Some (from_u32 0)
      | s' =>
          match collect dec_digit s' with
          | None => None
          | Some ds => Some (fold_left dec_step ds (from_u32 0))
          end
      end
  end.

(** nat.rs:324-341 [from_bin_str] and 372-396 [from_hex_str]: [bpd] bits per
    digit; [sh] is [(i & 31)] resp. [(i & 7) << 2]; a word is pushed when the
    digit just added was the last one that fits (sh = 31 resp. sh = 28).
    Input reversed.  Returns the words pushed and the pending [tmp]. *)
Fixpoint pow2_loop (dig : Z -> option Z) (bpd sh tmp : Z) (s : list Z) : option (list Z * Z) :=
  match s with
  | [] => Some ([], tmp)
  | c :: s' =>
      match dig c with
      | None => None
      | Some d =>
          let tmp' := tmp + d * 2 ^ sh in
          if sh =? 32 - bpd then
            match pow2_loop dig bpd 0 0 s' with
            | None => None
            | Some (v, t) => Some (tmp' :: v, t)
            end
          else pow2_loop dig bpd (sh + bpd) tmp' s'
      end
  end.

(** nat.rs:343-370, loop of [from_oct_str]. *)
Fixpoint oct_parse_loop (i tmp : Z) (s : list Z) : option (list Z * Z) :=
  match s with
  | [] => Some ([], tmp)
  | c :: s' =>
      match oct_digit c with
      | None => None
      | Some n =>
          if 32 <=? i + 3 then
            match oct_parse_loop (i + 3 - 32) (n / 2 ^ (32 - i)) s' with
            | None => None
            | Some (v, t) => Some ((tmp + Z.land (2 ^ (32 - i) - 1) n * 2 ^ i) :: v, t)
            end
          else oct_parse_loop (i + 3) (tmp + n * 2 ^ i) s'
      end
  end.

(** The common ending [if tmp > 0 {v.push(tmp)} else if !s.is_empty() {...}]
    followed by [Nat::from(v)] (nat.rs:2040-2047, trims). *)
Definition finish (s : list Z) (r : option (list Z * Z)) : option (list Z) :=
  match r with
  | None => None
  | Some (v, t) =>
      Some (trim (if t >? 0 then v ++ [t] else match s with [] => v | _ => v ++ [t] end))
  end.

Definition from_bin_str (s : list Z) := finish s (pow2_loop bin_digit 1 0 0 (rev s)).
Definition from_hex_str (s : list Z) := finish s (pow2_loop hex_digit 4 0 0 (rev s)).
Definition from_oct_str (s : list Z) := finish s (oct_parse_loop 0 0 (rev s)).

(** nat.rs:2097-2113 [FromStr::from_str]. *)
Definition nat_from_str (s : list Z) : option (list Z) :=
  match check_base (trim_ws s) with
  | None => None
  | Some (s', b) =>
      if b =? 2 then from_bin_str s'
      else if b =? 8 then from_oct_str s'
      else if b =? 10 then from_dec_str s'
      else from_hex_str s'
  end.
