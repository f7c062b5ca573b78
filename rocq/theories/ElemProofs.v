(** Lemmas for C105. *)
From Coq Require Import Permutation.
From Verif Require Import StyleModel StyleSpec StyleCascade StyleWinner StyleParse StyleFacts PropStyle TreeModel.
From Verif Require Import Base DomModel DomSpec DomFacts SelModel SelSpec SelProofs UnsetModel UaModel UaSpec UaProofs UaDoc AttrSpec AttrProofs ElemSpec.
Local Open Scope string_scope.
Local Open Scope list_scope.
Local Open Scope nat_scope.
Local Open Scope result_scope.

Section Like.
Variable names : string -> Prop.
Variable d d' : doc.
Hypothesis L : renamed names d d'.

Lemma renamed_nth i : match nth_error (nodes d) i, nth_error (nodes d') i with
  | Some n, Some m => renamed_node names n m | None, None => True | _, _ => False end.
Proof.
  destruct L as [F _]. revert i. induction F as [|n m l l' H _ IH]; intros [|i]; cbn [nth_error]; [exact I|exact I|exact H|exact (IH i)].
Qed.
Lemma renamed_length : List.length (nodes d) = List.length (nodes d').
Proof. destruct L as [F _]. induction F; cbn; congruence. Qed.
(** Reading a node and going on in the same way gives the same. *)
Lemma renamed_getn {A} i (k k' : node -> result A) : (forall n m, renamed_node names n m -> k n = k' m) ->
  (do n <- getn d i; k n) = (do m <- getn d' i; k' m).
Proof.
  intros H. unfold getn. pose proof (renamed_nth i) as N. destruct (nth_error (nodes d) i), (nth_error (nodes d') i); try contradiction; cbn [bind]; auto.
Qed.
Lemma renamed_is_element n m : renamed_node names n m -> is_element_data (n_data n) = is_element_data (n_data m).
Proof. intros (_ & _ & _ & _ & _ & H). destruct (n_data n), (n_data m); cbn in H; try discriminate; reflexivity. Qed.
Lemma renamed_unwrap {A} i (k k' : elem -> result A) :
  (forall x y, q_ns (e_name x) = q_ns (e_name y) -> e_attrs x = e_attrs y -> (forall l, names l -> (q_local (e_name x) = l <-> q_local (e_name y) = l)) -> k x = k' y) ->
  (do x <- unwrap_element d i; k x) = (do y <- unwrap_element d' i; k' y).
Proof.
  intros H. unfold unwrap_element, getn. pose proof (renamed_nth i) as N.
  destruct (nth_error (nodes d) i) as [n|], (nth_error (nodes d') i) as [m|]; try contradiction; cbn [bind]; auto.
  destruct N as (_ & _ & _ & _ & _ & N). destruct (n_data n), (n_data m); cbn in N; try discriminate; try reflexivity.
  cbn [bind]. destruct N as (? & ? & ?). auto.
Qed.

Lemma find_element_renamed f g fuel : (forall n m, renamed_node names n m -> f n = g m) -> forall o, find_element fuel d f o = find_element fuel d' g o.
Proof.
  intros H. induction fuel as [|fuel IH]; intros [i|]; cbn; auto. apply renamed_getn. intros n m N.
  rewrite (renamed_is_element n m N), (H n m N). destruct (is_element_data (n_data m)); auto.
Qed.
Lemma parent_element_renamed i : parent_element d i = parent_element d' i.
Proof.
  unfold parent_element. apply renamed_getn. intros n m N. rewrite (proj1 N). destruct (n_parent m); [|reflexivity].
  apply renamed_getn. intros a b X. rewrite (renamed_is_element a b X). reflexivity.
Qed.
Lemma next_renamed fuel i : next_sibling_element fuel d i = next_sibling_element fuel d' i.
Proof.
  unfold next_sibling_element. apply renamed_getn. intros n m N. pose proof N as (_ & N2 & _). rewrite N2.
  apply find_element_renamed. intros a b X. apply X.
Qed.
Lemma prev_renamed fuel i : prev_sibling_element fuel d i = prev_sibling_element fuel d' i.
Proof.
  unfold prev_sibling_element. apply renamed_getn. intros n m N. pose proof N as (_ & _ & N2 & _). rewrite N2.
  apply find_element_renamed. intros a b X. apply X.
Qed.
Lemma is_empty_loop_renamed fuel : forall i, is_empty_loop fuel d i = is_empty_loop fuel d' i.
Proof.
  induction fuel as [|fuel IH]; intros i; cbn; [reflexivity|]. apply renamed_getn. intros n m N. rewrite (renamed_is_element n m N).
  destruct (is_element_data (n_data m)) eqn:E; [reflexivity|].
  destruct N as (_ & N2 & _ & _ & _ & N). rewrite N2. destruct (n_data n), (n_data m); cbn in N; try discriminate; try (injection N as ->);
    try (destruct (negb _)); destruct (n_next m); auto.
Qed.
Lemma is_empty_renamed fuel i : is_empty fuel d i = is_empty fuel d' i.
Proof.
  unfold is_empty. apply renamed_getn. intros n m N. destruct N as (_ & _ & _ & N & _). rewrite N. destruct (n_first m); auto using is_empty_loop_renamed.
Qed.
Lemma nth_index_renamed fuel steps : forall fe ot s c i, nth_index fuel steps d fe ot s c i = nth_index fuel steps d' fe ot s c i.
Proof.
  induction steps as [|steps IH]; intros fe ot s c i; cbn; [reflexivity|]. apply bind_ext; [destruct fe; [apply next_renamed|apply prev_renamed]|].
  intros [x|]; [|reflexivity]. apply bind_ext; [reflexivity|]. auto.
Qed.

Lemma eqb_renamed a b l : (a = l <-> b = l) -> String.eqb a l = String.eqb b l.
Proof. intros H. destruct (String.eqb_spec a l), (String.eqb_spec b l); tauto. Qed.
Lemma simple_renamed fuel e s : (forall l, simple_names l s -> names l) -> simple_match fuel d e s = simple_match fuel d' e s.
Proof.
  induction s as [a b|a|a|a|a b c| | | | | |x y a b|ss IH] using simple_ind'; intros R; cbn [simple_match].
  - unfold is_html_element_in_html_document, has_local_name. apply bind_ext; [apply renamed_unwrap; intros x y -> _ _; reflexivity|].
    intros h. apply renamed_unwrap. intros x y _ _ H. f_equal. apply eqb_renamed. apply H, R. cbn. destruct h; auto.
  - apply renamed_unwrap. intros x y -> _ _. reflexivity.
  - apply renamed_unwrap. intros x y _ H _. unfold get_attr. rewrite H. reflexivity.
  - apply renamed_unwrap. intros x y _ H _. unfold get_attr. rewrite H. reflexivity.
  - apply renamed_unwrap. intros x y _ H _. rewrite H. reflexivity.
  - unfold is_root. rewrite parent_element_renamed. reflexivity.
  - apply is_empty_renamed.
  - rewrite prev_renamed. reflexivity.
  - rewrite next_renamed. reflexivity.
  - rewrite prev_renamed. apply bind_ext; [reflexivity|]. intros o. destruct (is_none o); [|reflexivity]. rewrite next_renamed. reflexivity.
  - rewrite nth_index_renamed. reflexivity.
  - apply bind_ext; [|reflexivity]. induction IH as [|s r Hs _ IHr]; [reflexivity|]. apply bind_ext.
    + apply Hs. intros l Hl. apply R. cbn. auto.
    + intros [|]; [|reflexivity]. apply IHr. intros l Hl. apply R. cbn. auto.
Qed.
Lemma compound_renamed fuel e c : (forall l x, In x c -> simple_names l x -> names l) -> compound_match fuel d e c = compound_match fuel d' e c.
Proof.
  induction c as [|s r IH]; intros R; cbn; [reflexivity|]. apply bind_ext; [apply simple_renamed; intros l; apply R; left; reflexivity|].
  intros [|]; [|reflexivity]. apply IH. intros l x Hx. apply R. right. exact Hx.
Qed.
Lemma ancestors_renamed steps : forall e, ancestors steps d e = ancestors steps d' e.
Proof. induction steps as [|s IH]; intros e; cbn; [reflexivity|]. rewrite parent_element_renamed. apply bind_ext; [reflexivity|]. intros [p|]; [rewrite IH|]; reflexivity. Qed.
Lemma previous_renamed fuel steps : forall e, previous steps fuel d e = previous steps fuel d' e.
Proof. induction steps as [|s IH]; intros e; cbn; [reflexivity|]. rewrite prev_renamed. apply bind_ext; [reflexivity|]. intros [p|]; [rewrite IH|]; reflexivity. Qed.
Lemma next_elements_renamed fuel k e : next_elements fuel d k e = next_elements fuel d' k e.
Proof. destruct k; cbn; rewrite ?parent_element_renamed, ?prev_renamed; auto using ancestors_renamed, previous_renamed. Qed.
Lemma complex_renamed fuel rest : forall c e, (forall l x, In x c -> simple_names l x -> names l) ->
  (forall l k c x, In (k, c) rest -> In x c -> simple_names l x -> names l) ->
  match_complex fuel d c rest e = match_complex fuel d' c rest e.
Proof.
  induction rest as [|[k c'] rest IH]; intros c e R R'; cbn [match_complex]; (apply bind_ext; [apply compound_renamed; exact R|]); intros [|]; try reflexivity.
  rewrite next_elements_renamed. apply bind_ext; [reflexivity|]. intros l. apply walk_ext. intros x. apply IH.
  - intros m y Hy. eapply R'; [left; reflexivity|exact Hy].
  - intros m k2 c2 y Hy. eapply R'. right. exact Hy.
Qed.
Lemma matches_renamed fuel s e : (forall l, selector_names l s -> names l) -> matches fuel d s e = matches fuel d' s e.
Proof.
  intros R. unfold matches. rewrite (complex_renamed fuel (s_rest s) (s_subject s) e); [reflexivity| |].
  - intros l x Hx Hl. apply R. left. eauto.
  - intros l k c x Hk Hx Hl. apply R. right. exists k, c, x. auto.
Qed.
Lemma push_renamed fuel e rules : (forall s b l, In (s, b) rules -> selector_names l s -> names l) ->
  push_matching_in fuel d e rules = push_matching_in fuel d' e rules.
Proof.
  induction rules as [|[s b] r IH]; intros R; cbn; [reflexivity|]. rewrite (matches_renamed fuel s e); [|intros l; exact (R s b l (or_introl eq_refl))].
  rewrite IH; [reflexivity|]. intros s' b' l H. exact (R s' b' l (or_intror H)).
Qed.

(* ------------------------------------------------------------------ *)
(** * The document *)
Lemma following_renamed fuel : forall o, following_siblings fuel d o = following_siblings fuel d' o.
Proof.
  induction fuel as [|fuel IH]; intros [i|]; cbn; auto. apply renamed_getn. intros n m N. destruct N as (_ & N & _). rewrite N, IH. reflexivity.
Qed.
Lemma child_text_loop_renamed fuel : forall o, child_text_loop fuel d o = child_text_loop fuel d' o.
Proof.
  induction fuel as [|fuel IH]; intros [i|]; cbn; auto. apply renamed_getn. intros n m N. destruct N as (_ & N & _ & _ & _ & X). rewrite N, IH.
  apply bind_ext; [reflexivity|]. intros r. destruct (n_data n), (n_data m); cbn in X; try discriminate; congruence.
Qed.
Lemma sources_renamed fuel user : parse_stylesheets fuel d user = parse_stylesheets fuel d' user.
Proof.
  unfold parse_stylesheets. destruct L as [_ <-]. apply bind_ext; [|reflexivity].
  induction (style_elements d) as [|i is IH]; cbn; [reflexivity|]. apply renamed_getn. intros n m N.
  destruct N as (_ & _ & _ & _ & _ & X). unfold as_element. destruct (n_data n) as [ | | | |x|], (n_data m) as [ | | | |y|]; cbn in X; try discriminate; auto.
  destruct X as (_ & X & _). unfold get_attr. rewrite X. fold (get_attr y "type"). destruct (match get_attr y "type" with Some t => _ | None => _ end); [exact IH|].
  apply bind_ext.
  - unfold child_text_content. apply renamed_getn. intros a b N. destruct N as (_ & _ & _ & N & _). rewrite N. apply child_text_loop_renamed.
  - intros t. rewrite IH. reflexivity.
Qed.
Lemma root_scan_renamed l : forall o, root_scan d l o = root_scan d' l o.
Proof.
  induction l as [|c l IH]; intros o; cbn; [reflexivity|]. apply renamed_getn. intros n m N. destruct N as (_ & _ & _ & _ & _ & X).
  destruct (n_data n), (n_data m); cbn in X; try discriminate; auto. apply bind_ext; auto.
Qed.
Lemma root_renamed fuel : root_element fuel d = root_element fuel d'.
Proof.
  unfold root_element. apply renamed_getn. intros n m (-> & -> & -> & -> & _ & X).
  apply bind_ext; [destruct (n_data n), (n_data m); cbn in X; try discriminate; reflexivity|]. intros _.
  apply bind_ext; [reflexivity|]. intros _. apply bind_ext; [reflexivity|]. intros _. apply bind_ext; [reflexivity|]. intros _.
  destruct (n_first m); [|reflexivity]. rewrite following_renamed. apply bind_ext; [reflexivity|]. intros l. rewrite root_scan_renamed. reflexivity.
Qed.
Lemma subtree_renamed fuel : forall i, subtree fuel d i = subtree fuel d' i.
Proof.
  induction fuel as [|fuel IH]; intros i; cbn [subtree]; [reflexivity|]. apply renamed_getn. intros n m N. destruct N as (_ & _ & _ & N & _).
  rewrite N, renamed_length, following_renamed. apply bind_ext; [reflexivity|]. intros l. rewrite (mapR_ext _ _ l IH). reflexivity.
Qed.
(** A node with the same style attribute gets the same style. *)
Lemma node_style_renamed ct attr_items fuel ua author e p :
  (forall s b l, In (s, b) ua -> selector_names l s -> names l) ->
  (forall s b l, In (s, b) author -> selector_names l s -> names l) ->
  node_style ct attr_items fuel ua author d e p = node_style ct attr_items fuel ua author d' e p.
Proof.
  intros Ru Ra. unfold node_style. rewrite (push_renamed fuel e ua Ru), (push_renamed fuel e author Ra).
  unfold getn. pose proof (renamed_nth e) as N. destruct (nth_error (nodes d) e) as [n|], (nth_error (nodes d') e) as [m|]; try contradiction; auto.
  cbn [bind]. destruct N as (_ & _ & _ & _ & _ & X). destruct (n_data n) as [ | | | |x|], (n_data m) as [ | | | |y|]; cbn in X; try discriminate; auto.
  destruct X as (En & Ea & _). unfold style_attribute, get_attr. rewrite En, Ea. reflexivity.
Qed.
Lemma styled_renamed so so' : names "br" -> (forall e p, so e p = so' e p) -> forall t st, styled so d st t = styled so' d' st t.
Proof.
  intros B H. fix IH 1. intros [i ts] st. cbn [styled]. unfold data_of. pose proof (renamed_nth i) as N.
  destruct (nth_error (nodes d) i) as [n|], (nth_error (nodes d') i) as [m|]; try contradiction; [|reflexivity]. cbn [option_map].
  destruct N as (_ & _ & _ & _ & _ & X). destruct (n_data n) as [ | | | |x|], (n_data m) as [ | | | |y|]; cbn in X; try discriminate; try reflexivity.
  - injection X as ->. reflexivity.
  - destruct X as (_ & _ & X). rewrite (eqb_renamed _ _ _ (X _ B)), H. f_equal. induction ts as [|t ts IHts]; cbn [map]; [reflexivity|]. rewrite IH, IHts. reflexivity.
Qed.
Lemma construct_renamed so so' : names "br" -> (forall e p, so e p = so' e p) -> forall root, construct_document so d root = construct_document so' d' root.
Proof.
  intros B H [i ts]. cbn [construct_document]. rewrite H. f_equal. induction ts as [|t ts IH]; cbn [map]; [reflexivity|].
  rewrite (styled_renamed so so' B H), IH. reflexivity.
Qed.
End Like.

(** Where the selectors of a style set come from. *)
Lemma style_set_names ct sheets r : add_stylesheets ct selector [] sheets = Ok r ->
  forall s b l, In (s, b) (finish selector specificity r) -> selector_names l s -> sheets_name l sheets.
Proof.
  intros H s b l Hin Hl. destruct (add_sheets_parses _ _ _ _ _ H) as (k & -> & F). cbn [app] in Hin.
  apply (Permutation_in _ (Permutation_sym (finish_perm selector specificity k))) in Hin.
  destruct (forall2_in_r _ _ _ F _ Hin) as ([s' items] & Hs & [E _]). cbn [fst] in E. subst s'.
  destruct (rules_of_in _ _ _ Hs) as (sels & Hr & Hsel). exists sels, items, s. auto.
Qed.
