(** What it means to rewrite style sheets without changing what they say (C93): independent of the cascade. *)
From Verif Require Import Base Len StyleModel StyleSpec.
Local Open Scope list_scope.
Section Any.
Context {ar : Arith} {sel element : Type}.
Variable ct : token -> option color.
Variable specificity : sel -> N.
(** [hits e s]: the selector holds of the element *)
Variable hits : element -> sel -> Prop.

(** The block has a valid declaration of the property, an important one if [i]. *)
Definition sets (b : list item) (l : longhand) (i : bool) : Prop :=
  exists d, In (d, i) (declared ct b) /\ decl_longhand d = l.
(** The valid declarations of one property in a block, in order. *)
Definition declared_of (b : list item) (l : longhand) : list (decl * bool) :=
  filter (fun e => if longhand_eq_dec (decl_longhand (fst e)) l then true else false) (declared ct b).
(** All that [a] declares is declared again in [b], and as important if it was. *)
Definition overridden (a b : list item) : Prop :=
  forall l i, sets a l i -> sets b l true \/ sets b l i.
(** No property is declared in both. *)
Definition independent (a b : list item) : Prop := forall l i j, sets a l i -> sets b l j -> False.
(** No element is selected by both. *)
Definition apart (s s' : list sel) : Prop := forall e x y, In x s -> In y s' -> hits e x -> hits e y -> False.
(** Every selector of the one is more or less specific than every one of the other. *)
Definition of_other_specificity (s s' : list sel) : Prop := forall x y, In x s -> In y s' -> specificity x <> specificity y.

(** Style sheets that say the same.  [RStyle sels b] is the rule `sels { b }`, [RErr] one that cannot be read. *)
Inductive refactored : list (rule sel) -> list (rule sel) -> Prop :=
(* `x, y { b }` is `x { b } y { b }` *)
| RGroup x y b : refactored [RStyle (x ++ y) b] [RStyle x b; RStyle y b]
(* the order of selectors in a group, and repeated ones, do not matter *)
| RSelectors x y b : incl x y -> incl y x -> refactored [RStyle x b] [RStyle y b]
(* `x { a b }` is `x { a } x { b }` *)
| RSplit x a b : refactored [RStyle x (a ++ b)] [RStyle x a; RStyle x b]
(* a block may be written in any way that declares the same of each property: shorthands written out, invalid
   declarations left out, different properties in another order *)
| RBlock x a b : (forall l, declared_of b l = declared_of a l) -> refactored [RStyle x a] [RStyle x b]
(* rules that a later one overrides may be left out *)
| ROverridden x a m y b : incl x y -> overridden a b -> refactored (RStyle x a :: m ++ [RStyle y b]) (m ++ [RStyle y b])
(* rules may be swapped if they are about different properties, or about different elements, or if specificity decides *)
| RSwap x a y b : independent a b \/ apart x y \/ of_other_specificity x y ->
    refactored [RStyle x a; RStyle y b] [RStyle y b; RStyle x a]
(* rules may be left out that select nothing, declare nothing or cannot be read *)
| RUnused x b : (forall e s, In s x -> ~ hits e s) -> refactored [RStyle x b] []
| REmpty x b : declared ct b = [] -> refactored [RStyle x b] []
| RMalformed : refactored [RErr] []
(* and all this again and again, anywhere, in both directions *)
| RSame a : refactored a a
| RBack a b : refactored a b -> refactored b a
| RThen a b c : refactored a b -> refactored b c -> refactored a c
| RWithin l a b r : refactored a b -> refactored (l ++ a ++ r) (l ++ b ++ r).

End Any.
(** A function of styles that only looks at the values. *)
Definition looks_at_values {ar : Arith} {A} (f : style -> A) : Prop := forall s s', same_style s s' -> f s' = f s.
Definition same_parent {ar : Arith} (p p' : option style) : Prop :=
  match p, p' with Some s, Some s' => same_style s s' | None, None => True | _, _ => False end.
