(** Properties of selector matching (C20, C21). *)
From Coq Require Import List Arith Lia Bool ZArith String Relations.
From Verif Require Import Base DomModel DomSpec DomFacts DomExample SelModel SelSpec SelProofs.
Import ListNotations.
Local Open Scope nat_scope.
Open Scope result_scope.

(** <html><div class="a b"/>ab<p id=x/><!-- --><b/></html>, and a <b/> outside the tree. *)
Definition sel_ops : list op :=
  [ OCreateElement (html_name "html") []                              (* 2 *)
  ; OAppend 1 (CNode 2)
  ; OCreateElement (html_name "div") [Attr (QName "" "class") "a b"]  (* 3 *)
  ; OAppend 2 (CNode 3)
  ; OAppend 2 (CText (txt "ab"))                                      (* 4 *)
  ; OCreateElement (html_name "p") [Attr (QName "" "id") "x"; Attr (QName "" "class") "c"] (* 5 *)
  ; OAppend 2 (CNode 5)
  ; OCreateComment                                                    (* 6 *)
  ; OAppend 2 (CNode 6)
  ; OCreateElement (html_name "b") []                                 (* 7 *)
  ; OAppend 2 (CNode 7)
  ; OCreateElement (html_name "b") [] ].                              (* 8 *)
Definition sel_doc : doc := match run doc_new sel_ops with Ok d => d | _ => doc_new end.
Lemma sel_reach : reach sel_doc.
Proof. apply (okrun_reach sel_ops doc_new); [apply reach_new|vm_compute; reflexivity|vm_compute; reflexivity]. Qed.

(** C20.  False of the code: the whole attribute is compared. *)
Lemma class_witness : exists d e x c v, reach d /\ node_of d e /\ data_of d e = Some (DElement x) /\ get_attr x "class" = Some v /\
  word_of c v /\ forall fuel, matches fuel d (Selector [SClass c] []) e = Ok false.
Proof.
  exists sel_doc, 3, (Elem (html_name "div") [Attr (QName "" "class") "a b"]), "a"%string, "a b"%string.
  split; [exact sel_reach|]. split; [node_tac|]. split; [vm_compute; reflexivity|]. split; [vm_compute; reflexivity|]. split.
  - split; [discriminate|]. split; [repeat constructor|]. exists ""%string, " b"%string. split; [reflexivity|]. split; [constructor|reflexivity].
  - intros fuel. unfold matches. cbn [s_rest s_subject match_complex compound_match simple_match].
    assert (has_class sel_doc 3 "a" = Ok false) as -> by (vm_compute; reflexivity). reflexivity.
Qed.
Theorem C20_refuted :
  exists d e x c v, reach d /\ node_of d e /\ data_of d e = Some (DElement x) /\ get_attr x "class" = Some v /\
  word_of c v /\ forall fuel, matches fuel d (Selector [SClass c] []) e = Ok false.
Proof. exact class_witness. Qed.
Print Assumptions C20_refuted.

Lemma no_space_app a b : no_space (String.append a b) <-> no_space a /\ no_space b.
Proof. induction a as [|c a IH]; cbn; [tauto|]. rewrite IH. tauto. Qed.
Lemma ends_no_space s : ends_with_space s -> no_space s -> s = EmptyString.
Proof.
  induction 1 as [|c Hc|c s Hne He IH]; intros Hn; [reflexivity| |].
  - destruct Hn as [Hn _]. congruence.
  - destruct Hn as [_ Hn]. exfalso. apply Hne, IH, Hn.
Qed.
Lemma append_nil_r s : String.append s EmptyString = s.
Proof. induction s as [|c s IH]; cbn; congruence. Qed.
Lemma word_single c v : no_space v -> (word_of c v <-> (c = v /\ v <> EmptyString)).
Proof.
  intros Hv. split.
  - intros (H1 & H2 & pre & post & -> & H3 & H4). apply no_space_app in Hv. destruct Hv as [Hp Hv]. apply no_space_app in Hv. destruct Hv as [_ Hq].
    rewrite (ends_no_space pre H3 Hp). cbn. destruct post as [|a post].
    + rewrite append_nil_r. auto.
    + cbn in Hq, H4. destruct Hq. congruence.
  - intros [-> H]. split; [exact H|]. split; [exact Hv|]. exists EmptyString, EmptyString. cbn. rewrite append_nil_r. split; [reflexivity|]. split; [constructor|exact I].
Qed.
Lemma class_partial d e x c v fuel : data_of d e = Some (DElement x) -> get_attr x "class" = Some v ->
  c <> EmptyString -> no_space c ->
  exists r, matches fuel d (Selector [SClass c] []) e = Ok r /\
    (r = true -> word_of c v) /\ (no_space v -> (r = true <-> word_of c v)).
Proof.
  intros Hx Hv Hne Hns. unfold matches. cbn [s_rest s_subject match_complex compound_match simple_match]. unfold has_class.
  rewrite (unwrap_ok d e x Hx). cbn [bind]. rewrite Hv. destruct (String.eqb_spec c v) as [<-|Hn]; cbn [bind].
  - exists true. split; [reflexivity|]. assert (word_of c c) by (apply word_single; auto). tauto.
  - exists false. split; [reflexivity|]. split; [discriminate|]. intros Hs. split; [discriminate|]. rewrite (word_single c v Hs). tauto.
Qed.
Lemma class_none d e x c fuel : data_of d e = Some (DElement x) -> get_attr x "class" = None ->
  matches fuel d (Selector [SClass c] []) e = Ok false.
Proof.
  intros Hx Hv. unfold matches. cbn [s_rest s_subject match_complex compound_match simple_match]. unfold has_class.
  rewrite (unwrap_ok d e x Hx). cbn [bind]. rewrite Hv. reflexivity.
Qed.
(** What holds: a match is never wrong, and matching is exact for attributes of one word.  MISSING for the full
    property: attributes of several words (refuted above). *)
Theorem C20_single_word_partial :
  forall d e x c v fuel, data_of d e = Some (DElement x) -> get_attr x "class" = Some v ->
  c <> EmptyString -> no_space c ->
  exists r, matches fuel d (Selector [SClass c] []) e = Ok r /\
    (r = true -> word_of c v) /\ (no_space v -> (r = true <-> word_of c v)).
Proof. exact class_partial. Qed.
Print Assumptions C20_single_word_partial.
Theorem C20_no_class_attribute :
  forall d e x c fuel, data_of d e = Some (DElement x) -> get_attr x "class" = None ->
  matches fuel d (Selector [SClass c] []) e = Ok false.
Proof. exact class_none. Qed.
Print Assumptions C20_no_class_attribute.
Example C20_case :
  exists x, data_of sel_doc 5 = Some (DElement x) /\ get_attr x "class" = Some "c"%string /\ no_space "c" /\
  matches 9 sel_doc (Selector [SClass "c"] []) 5 = Ok true.
Proof. eexists. split; [vm_compute; reflexivity|]. split; [vm_compute; reflexivity|]. split; [repeat constructor|vm_compute; reflexivity]. Qed.

(** C21, navigation: parent, previous and next element, emptiness, root. *)
Lemma navigation d e fuel : reach d -> node_of d e -> length (nodes d) <= fuel ->
  (exists o, parent_element d e = Ok o /\ forall p, o = Some p <-> parent_elt d e p) /\
  (exists o, prev_sibling_element fuel d e = Ok o /\ forall f, o = Some f <-> previous_elt d e f) /\
  (exists o, next_sibling_element fuel d e = Ok o /\ forall f, o = Some f <-> next_elt d e f) /\
  (exists b, is_empty fuel d e = Ok b /\ (b = true <-> forall k, kid d e k -> ~ element d k /\ own_text d k = [])) /\
  (exists b, is_root d e = Ok b /\ (b = true <-> forall p, ~ parent_elt d e p)).
Proof.
  intros Hd He Hf. split; [exact (parent_spec d fuel Hd Hf e He)|].
  split; [destruct (prev_spec d fuel Hd Hf e He) as (o & E & H & _); eauto|].
  split; [destruct (next_spec d fuel Hd Hf e He) as (o & E & H & _); eauto|].
  split; [exact (empty_spec d fuel Hd Hf e He)|].
  destruct (parent_spec d fuel Hd Hf e He) as (o & E & H). unfold is_root. rewrite E. cbn [bind]. eexists. split; [reflexivity|].
  destruct o as [p|]; cbn.
  - split; [discriminate|]. intros H0. exfalso. apply (H0 p), H. reflexivity.
  - split; [|reflexivity]. intros _ p Hp. apply H in Hp. discriminate.
Qed.
Theorem C21_navigation :
  forall d e fuel, reach d -> node_of d e -> length (nodes d) <= fuel ->
  (exists o, parent_element d e = Ok o /\ forall p, o = Some p <-> parent_elt d e p) /\
  (exists o, prev_sibling_element fuel d e = Ok o /\ forall f, o = Some f <-> previous_elt d e f) /\
  (exists o, next_sibling_element fuel d e = Ok o /\ forall f, o = Some f <-> next_elt d e f) /\
  (exists b, is_empty fuel d e = Ok b /\ (b = true <-> forall k, kid d e k -> ~ element d k /\ own_text d k = [])) /\
  (exists b, is_root d e = Ok b /\ (b = true <-> forall p, ~ parent_elt d e p)).
Proof. exact navigation. Qed.
Print Assumptions C21_navigation.

(** C21, whole selectors (type, namespace, id, class, attribute, :root, :empty, :first-child, :last-child,
    :only-child, :nth-child(an+b), :nth-last-child(an+b), :not, and the four combinators, to any depth). *)
Theorem C21_selectors :
  forall d fuel, reach d -> length (nodes d) <= fuel ->
  forall s e, node_of d e -> element d e -> supported (s_subject s) (s_rest s) ->
  exists r, matches fuel d s e = Ok r /\ (r = true <-> selector_holds d (s_subject s) (s_rest s) e).
Proof. exact matches_ok. Qed.
Print Assumptions C21_selectors.

(** Finding: the :nth-of-type family is not implemented and panics as soon as there is an element before. *)
Theorem C21_of_type_panics :
  forall d fuel, reach d -> length (nodes d) <= fuel ->
  forall e f a b, node_of d e -> previous_elt d e f ->
  simple_match fuel d e (SNth false true a b) = Panic.
Proof. exact (fun d fuel Hd Hf e f a b He Hp => of_type_panics d fuel Hd Hf e f a b He Hp). Qed.
Print Assumptions C21_of_type_panics.

(** `html > div ~ p + b:nth-child(2n+1):not(:first-child)` on the sample document *)
Definition type_is (s : string) : simple := SLocal s s.
Definition ex_selector : selector :=
  Selector [type_is "b"; SNth false false 2 1; SNot [SFirstChild]]
    [(CNextSibling, [type_is "p"; SId "x"]); (CLaterSibling, [type_is "div"; SEmpty]); (CChild, [type_is "html"; SRoot])].
Example C21_case :
  reach sel_doc /\ node_of sel_doc 7 /\ element sel_doc 7 /\ supported (s_subject ex_selector) (s_rest ex_selector) /\
  matches 9 sel_doc ex_selector 7 = Ok true /\ matches 9 sel_doc ex_selector 8 = Ok false /\
  selector_holds sel_doc (s_subject ex_selector) (s_rest ex_selector) 7 /\
  ~ selector_holds sel_doc (s_subject ex_selector) (s_rest ex_selector) 8 /\
  previous_elt sel_doc 7 5 /\ simple_match 9 sel_doc 7 (SNth false true 0 1) = Panic.
Proof.
  assert (Hs : supported (s_subject ex_selector) (s_rest ex_selector)) by (split; repeat constructor).
  assert (H7 : node_of sel_doc 7) by node_tac. assert (H8 : node_of sel_doc 8) by node_tac.
  assert (E7 : element sel_doc 7) by (eexists; vm_compute; reflexivity). assert (E8 : element sel_doc 8) by (eexists; vm_compute; reflexivity).
  assert (M7 : matches 9 sel_doc ex_selector 7 = Ok true) by (vm_compute; reflexivity).
  assert (M8 : matches 9 sel_doc ex_selector 8 = Ok false) by (vm_compute; reflexivity).
  assert (Hf : length (nodes sel_doc) <= 9) by (vm_compute; lia).
  assert (P7 : previous_elt sel_doc 7 5).
  { split; [eexists; vm_compute; reflexivity|]. exists 2, [3; 4], [6], []. split; [kids_tac|].
    intros x [<-|[]] (y & E). vm_compute in E. discriminate. }
  split; [exact sel_reach|]. split; [exact H7|]. split; [exact E7|]. split; [exact Hs|]. split; [exact M7|]. split; [exact M8|].
  split; [|split; [|split; [exact P7|exact (C21_of_type_panics sel_doc 9 sel_reach Hf 7 5 0 1 H7 P7)]]].
  - destruct (C21_selectors sel_doc 9 sel_reach Hf ex_selector 7 H7 E7 Hs) as (r & E & H). apply H. congruence.
  - destruct (C21_selectors sel_doc 9 sel_reach Hf ex_selector 8 H8 E8 Hs) as (r & E & H). rewrite <- H. congruence.
Qed.
