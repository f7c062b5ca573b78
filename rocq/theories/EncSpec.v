(** What it means that text arrives: the characters R shows are the characters that were given. *)
From Verif Require Export EncModel.
Local Open Scope N_scope.

(** A text that can be in an R string: Unicode scalar values, no NUL *)
Definition proper (t : text) : Prop := Forall (fun c => c <> 0 /\ (c < 55296 \/ 57344 <= c < 1114112)) t.
Definition ascii_only (t : text) : Prop := Forall (fun c => 0 < c < 128) t.
(** Locales: R reads native strings as UTF-8; R reads bytes below 128 as ASCII (so do all locales R runs in); Latin 1 *)
Definition utf8_locale (loc : locale) : Prop := forall t, proper t -> native loc (utf8 t) = Some t.
Definition ascii_locale (loc : locale) : Prop := forall t, ascii_only t -> native loc t = Some t.
Definition latin1 : locale := Locale (fun bytes => Some bytes) (fun bytes => bytes).
