(** Meaning of selectors on the document tree. *)
From Coq Require Import ZArith Relations.
From Verif Require Import Base DomModel DomSpec SelModel.
Local Open Scope nat_scope.

Definition element (d : doc) (e : node_id) : Prop := exists x, data_of d e = Some (DElement x).
Definition elementb (d : doc) (e : node_id) : bool := match data_of d e with Some (DElement _) => true | _ => false end.

(** p is the parent element of e *)
Definition parent_elt (d : doc) (e p : node_id) : Prop := kid d p e /\ element d p.
Definition ancestor_elt (d : doc) : node_id -> node_id -> Prop := clos_trans nat (parent_elt d).
(** f is an element before e among the children of one node *)
Definition earlier_elt (d : doc) (e f : node_id) : Prop :=
  element d f /\ exists q a b c, kids d q (a ++ f :: b ++ e :: c).
(** ... and no element lies between *)
Definition previous_elt (d : doc) (e f : node_id) : Prop :=
  element d f /\ exists q a b c, kids d q (a ++ f :: b ++ e :: c) /\ forall x, In x b -> ~ element d x.
Definition later_elt (d : doc) (e f : node_id) : Prop :=
  element d f /\ exists q a b c, kids d q (a ++ e :: b ++ f :: c).
Definition next_elt (d : doc) (e f : node_id) : Prop :=
  element d f /\ exists q a b c, kids d q (a ++ e :: b ++ f :: c) /\ forall x, In x b -> ~ element d x.

(** Position among element siblings, from 1. *)
Definition position (d : doc) (from_end : bool) (e : node_id) (i : Z) : Prop :=
  (exists q l1 l2, kids d q (l1 ++ e :: l2) /\
     i = (1 + Z.of_nat (length (filter (elementb d) (if from_end then l2 else l1))))%Z) \/
  ((forall q, ~ kid d q e) /\ i = 1%Z).

(** Meaning of a simple selector. Class selectors: see C20. *)
Fixpoint simple_holds (d : doc) (e : node_id) (s : simple) : Prop :=
  match s with
  | SLocal name lower_name => exists x, data_of d e = Some (DElement x) /\
      q_local (e_name x) = (if String.eqb (q_ns (e_name x)) html_ns then lower_name else name)
  | SNamespace ns => exists x, data_of d e = Some (DElement x) /\ q_ns (e_name x) = ns
  | SId id => exists x, data_of d e = Some (DElement x) /\ get_attr x "id" = Some id
  | SClass c => exists x, data_of d e = Some (DElement x) /\ get_attr x "class" = Some c
  | SAttr ns local op => exists x a, data_of d e = Some (DElement x) /\ In a (e_attrs x) /\
      q_local (a_name a) = local /\ (forall n, ns = Some n -> q_ns (a_name a) = n) /\ op (a_value a) = true
  | SRoot => forall p, ~ parent_elt d e p
  | SEmpty => forall k, kid d e k -> ~ element d k /\ own_text d k = []
  | SFirstChild => forall f, ~ earlier_elt d e f
  | SLastChild => forall f, ~ later_elt d e f
  | SOnlyChild => (forall f, ~ earlier_elt d e f) /\ (forall f, ~ later_elt d e f)
  | SNth from_end of_type a b => exists n i, (0 <= n)%Z /\ position d from_end e i /\ (a * n + b = i)%Z
  | SNot l => ~ (fix all l := match l with [] => True | s :: r => simple_holds d e s /\ all r end) l
  end.
Fixpoint compound_holds (d : doc) (e : node_id) (l : list simple) : Prop :=
  match l with [] => True | s :: r => simple_holds d e s /\ compound_holds d e r end.
(** Which element a combinator relates to. *)
Definition related (d : doc) (k : combinator) : node_id -> node_id -> Prop :=
  match k with
  | CChild => parent_elt d
  | CDescendant => ancestor_elt d
  | CNextSibling => previous_elt d
  | CLaterSibling => earlier_elt d
  end.
Fixpoint selector_holds (d : doc) (c : list simple) (rest : list (combinator * list simple)) (e : node_id) : Prop :=
  compound_holds d e c /\
  match rest with
  | [] => True
  | (k, c') :: r => exists x, related d k e x /\ selector_holds d c' r x
  end.

(** The :nth-of-type family is not implemented. *)
Fixpoint simple_supported (s : simple) : Prop :=
  match s with
  | SNth _ of_type _ _ => of_type = false
  | SNot l => (fix all l := match l with [] => True | s :: r => simple_supported s /\ all r end) l
  | _ => True
  end.
Definition supported (c : list simple) (rest : list (combinator * list simple)) : Prop :=
  Forall simple_supported c /\ Forall (fun x => Forall simple_supported (snd x)) rest.

(** Words of an attribute value: maximal runs without white space. *)
Definition spaceb (c : ascii) : bool :=
  Ascii.eqb c " " || Ascii.eqb c "009" || Ascii.eqb c "010" || Ascii.eqb c "012" || Ascii.eqb c "013".
Fixpoint no_space (s : string) : Prop := match s with EmptyString => True | String c r => spaceb c = false /\ no_space r end.
Inductive ends_with_space : string -> Prop :=
| ews_empty : ends_with_space EmptyString
| ews_one c : spaceb c = true -> ends_with_space (String c EmptyString)
| ews_cons c s : s <> EmptyString -> ends_with_space s -> ends_with_space (String c s).
Definition starts_with_space (s : string) : Prop := match s with EmptyString => True | String c _ => spaceb c = true end.
Definition word_of (w s : string) : Prop :=
  w <> EmptyString /\ no_space w /\
  exists pre post, s = String.append pre (String.append w post) /\ ends_with_space pre /\ starts_with_space post.
