(** Model of the encodings of the strings that R and the package exchange: /repo/src/markdown.c,
    /repo/src/render_markdown.c, /repo/src/render_device.c:107-124, /repo/src/sinab/src/markdown.rs.  Definitions only. *)
From Verif Require Export CStrModel.
Local Open Scope N_scope.
Local Open Scope outcome_scope.

(* ------------------------------------------------------------------ *)
(** * R's strings ("Writing R Extensions", 6.11; R Internals, 1.10) *)

(** external: a CHARSXP, the elements of `str`, markdown.c:13: its bytes and how they are marked.  SIMPLIFICATION: strings
    marked as "bytes" are left out, translateCharUTF8 is an error for them. *)
Inductive mark := MNative | MUtf8 | MLatin1.
(** external: a CHARSXP, as above *)
Record rstring := RString { rs_bytes : list N; rs_mark : mark }.
(** external: the locale R runs in: the text that natively encoded bytes stand for (None: they are not valid), and what
    translateCharUTF8 makes of bytes that are not valid *)
Record locale := Locale { native : list N -> option text; escape : list N -> text }.
(** external: the text R prints, measures and draws for a string *)
Definition shown (loc : locale) (s : rstring) : option text :=
  match rs_mark s with
  | MUtf8 => from_utf8 (rs_bytes s)
  | MLatin1 => Some (rs_bytes s)
  | MNative => native loc (rs_bytes s)
  end.
(** external: Rf_translateCharUTF8, called at markdown.c:13, render_markdown.c:22-23 *)
Definition translate_utf8 (loc : locale) (s : rstring) : list N :=
  match shown loc s with Some t => utf8 t | None => utf8 (escape loc (rs_bytes s)) end.
(** external: mkString, called at render_device.c:110: native encoding *)
Definition mk_string (bytes : list N) : rstring := RString bytes MNative.
(** external: Rf_mkCharCE(s, CE_UTF8), called at markdown.c:14 *)
Definition mk_char_utf8 (bytes : list N) : rstring := RString bytes MUtf8.

(* ------------------------------------------------------------------ *)
(** * md_to_html *)
Section Markdown.
(** md_to_html, markdown.rs:17-28 (pulldown_cmark) *)
Variable md : text -> text.

(** sinab_md_to_html, markdown.rs:7-14 *)
Definition sinab_md_to_html (m : cstrings) (p : option nat) : outcome (option nat * cstrings) :=
  let* s := cstring_to_str m p in
  Done (str_to_cstring m (match s with Some s => md s | None => [] end)).
(** The body of the loop, markdown.c:13-17.  The C string that translateCharUTF8 returns is a block, too; SIMPLIFICATION: R
    takes it back at the end of the iteration, not of the .Call.  mkCharCE of a null pointer is [Dangling]. *)
Definition md_one (loc : locale) (m : cstrings) (s : rstring) : outcome (rstring * cstrings) :=
  let arg := length m in
  let* r := sinab_md_to_html (m ++ [Some (translate_utf8 loc s)]) (Some arg) in
  let '(p, m) := r in
  let* rs := match p with
             | None => Dangling
             | Some i => match nth_error m i with
                         | Some (Some bs) => Done (mk_char_utf8 (until_nul (bs ++ [0])))
                         | _ => Dangling
                         end
             end in
  let* m := sinab_free_cstring m p in
  Done (rs, upd arg (fun _ => None) m).
(** C_md_to_html, markdown.c:7-22, called by md_to_html, R/md-to-html.R:10-13 *)
Fixpoint C_md_to_html (loc : locale) (m : cstrings) (v : list rstring) : outcome (list rstring * cstrings) :=
  match v with
  | [] => Done ([], m)
  | s :: v' =>
      let* r := md_one loc m s in
      let* r' := C_md_to_html loc (snd r) v' in
      Done (fst r :: fst r', snd r')
  end.
End Markdown.

(* ------------------------------------------------------------------ *)
(** * Rendering *)

(** The text (or style sheet) that sinab_test_renderer gets, render_markdown.c:22-23 and test.rs:18-25: None is the
    Utf8Error, for which the empty string is taken *)
Definition received (loc : locale) (s : rstring) : outcome (option text) :=
  cstring_to_str [Some (translate_utf8 loc s)] (Some 0%nat).
(** The bytes of a string of GfxModel, read by mkString up to the terminating NUL, render_device.c:110 *)
Fixpoint string_bytes (s : string) : list N :=
  match s with EmptyString => [] | String a s => N_of_ascii a :: string_bytes s end.
(** The label of a text grob as an R string, render_device.c:110 and 119 *)
Definition label_string (g : grob) : option rstring :=
  match g with TextGrob label _ _ _ _ _ => Some (mk_string (string_bytes label)) | _ => None end.
