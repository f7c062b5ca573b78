(** Model of /repo/src/sinab/src/utils/c_helper.rs: strings crossing the C interface. Definitions only.
    A Rust [str] is a list of Unicode scalar values, its bytes are its UTF-8 encoding. *)
From Verif Require Export GfxModel.
Local Open Scope N_scope.
Local Open Scope outcome_scope.

(** Unicode scalar values (Rust [char]) *)
(** external: the Rust type char; str is used at c_helper.rs:7 and 16 *)
Definition is_scalar (c : N) : bool := (c <? 55296) || ((57344 <=? c) && (c <? 1114112)).

(** char::encode_utf8 (std) *)
(** external: the bytes of a char in a str, c_helper.rs:16-17 *)
Definition utf8_char (c : N) : list N :=
  if c <? 128 then [c]
  else if c <? 2048 then [192 + c / 64; 128 + c mod 64]
  else if c <? 65536 then [224 + c / 4096; 128 + (c / 64) mod 64; 128 + c mod 64]
  else [240 + c / 262144; 128 + (c / 4096) mod 64; 128 + (c / 64) mod 64; 128 + c mod 64].
(** external: the bytes of a str, read by CString::new, c_helper.rs:17 *)
Definition utf8 (s : text) : list N := flat_map utf8_char s.

(** core::str::from_utf8 (std), following the well-formed byte sequences of the Unicode standard, table 3-7 *)
(** external: part of from_utf8, called through to_str, c_helper.rs:13 *)
Definition cont (b : N) : bool := (128 <=? b) && (b <? 192).
(** external: part of from_utf8, called through to_str, c_helper.rs:13 *)
Definition rng (lo hi b : N) : bool := (lo <=? b) && (b <=? hi).
(** external: part of from_utf8, called through to_str, c_helper.rs:13 *)
Definition utf8_next (bs : list N) : option (N * list N) :=
  match bs with
  | [] => None
  | b0 :: r =>
    if b0 <? 128 then Some (b0, r)
    else match r with
    | [] => None
    | b1 :: r1 =>
      if rng 194 223 b0 then if cont b1 then Some ((b0 - 192) * 64 + (b1 - 128), r1) else None
      else match r1 with
      | [] => None
      | b2 :: r2 =>
        if ((b0 =? 224) && rng 160 191 b1) || ((rng 225 236 b0 || rng 238 239 b0) && cont b1) || ((b0 =? 237) && rng 128 159 b1)
        then if cont b2 then Some ((b0 - 224) * 4096 + (b1 - 128) * 64 + (b2 - 128), r2) else None
        else match r2 with
        | [] => None
        | b3 :: r3 =>
          if ((b0 =? 240) && rng 144 191 b1) || (rng 241 243 b0 && cont b1) || ((b0 =? 244) && rng 128 143 b1)
          then if cont b2 && cont b3
               then Some ((b0 - 240) * 262144 + (b1 - 128) * 4096 + (b2 - 128) * 64 + (b3 - 128), r3) else None
          else None
        end
      end
    end
  end.
(** external: part of from_utf8, called through to_str, c_helper.rs:13 *)
Fixpoint from_utf8_fuel (n : nat) (bs : list N) : option text :=
  match bs with
  | [] => Some []
  | _ => match n with
         | O => None
         | S n' => match utf8_next bs with
                   | Some (c, r) => match from_utf8_fuel n' r with Some t => Some (c :: t) | None => None end
                   | None => None
                   end
         end
  end.
(** external: from_utf8, called through to_str, c_helper.rs:13 *)
Definition from_utf8 (bs : list N) : option text := from_utf8_fuel (length bs) bs.

(** Memory owned by CStrings: bytes without the terminating NUL; [None] = freed. A C pointer is null ([None]) or a block. *)
(** What into_raw gives away and from_raw takes back, c_helper.rs:18 and 31 *)
Definition cstrings := list (option (list N)).
Notation cptr := (option nat) (only parsing).

(** str_to_cstring, c_helper.rs:16-21 (CString::new fails iff the string contains a NUL; into_raw gives up ownership) *)
Definition str_to_cstring (m : cstrings) (s : text) : cptr * cstrings :=
  if existsb (fun b => b =? 0) (utf8 s) then (None, m) else (Some (length m), m ++ [Some (utf8 s)]).
(** CStr::from_ptr, to_str: the bytes up to the first NUL (std) *)
(** external: CStr::from_ptr, called at c_helper.rs:10 *)
Fixpoint until_nul (bs : list N) : list N :=
  match bs with [] => [] | b :: r => if b =? 0 then [] else b :: until_nul r end.
(** cstring_to_str, c_helper.rs:7-14: [Done None] is the Utf8Error *)
Definition cstring_to_str (m : cstrings) (p : cptr) : outcome (option text) :=
  match p with
  | None => RustPanic
  | Some i => match nth_error m i with
              | Some (Some bs) => Done (from_utf8 (until_nul (bs ++ [0])))
              | _ => Dangling
              end
  end.
(** sinab_free_cstring, c_helper.rs:25-33 *)
Definition sinab_free_cstring (m : cstrings) (p : cptr) : outcome cstrings :=
  match p with
  | None => Done m
  | Some i => match nth_error m i with
              | Some (Some _) => Done (upd i (fun _ => None) m)
              | _ => Dangling
              end
  end.

(** a Rust string as the byte string handed to C (labels of drawn text) *)
(** The label passed on by CString::new(label), renderer.rs:273 *)
Fixpoint bytes_string (bs : list N) : string :=
  match bs with [] => EmptyString | b :: r => String (ascii_of_N b) (bytes_string r) end.
(** The label passed on by CString::new(label), renderer.rs:273 *)
Definition label_of (t : text) : string := bytes_string (utf8 t).
