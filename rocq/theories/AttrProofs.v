(** Lemmas for C89. *)
From Coq Require Import Permutation.
From Verif Require Import StyleModel StyleSpec StyleCascade StyleWinner StyleParse StyleFacts PropStyle TreeModel.
From Verif Require Import Base DomModel DomSpec DomFacts SelModel SelSpec SelProofs UnsetModel UaModel UaSpec UaProofs UaDoc AttrSpec.
Local Open Scope string_scope.
Local Open Scope list_scope.
Local Open Scope nat_scope.
Local Open Scope result_scope.

Section Like.
Variable names : string -> Prop.
Variable d d' : doc.
Hypothesis L : like names d d'.

Lemma like_nth i : match nth_error (nodes d) i, nth_error (nodes d') i with
  | Some n, Some m => like_node names n m | None, None => True | _, _ => False end.
Proof.
  destruct L as [F _]. revert i. induction F as [|n m l l' H _ IH]; intros [|i]; cbn [nth_error]; [exact I|exact I|exact H|exact (IH i)].
Qed.
Lemma like_length : List.length (nodes d) = List.length (nodes d').
Proof. destruct L as [F _]. induction F; cbn; congruence. Qed.
(** Reading a node and going on in the same way gives the same. *)
Lemma like_getn {A} i (k k' : node -> result A) : (forall n m, like_node names n m -> k n = k' m) ->
  (do n <- getn d i; k n) = (do m <- getn d' i; k' m).
Proof.
  intros H. unfold getn. pose proof (like_nth i) as N. destruct (nth_error (nodes d) i), (nth_error (nodes d') i); try contradiction; cbn [bind]; auto.
Qed.
Lemma like_is_element n m : like_node names n m -> is_element_data (n_data n) = is_element_data (n_data m).
Proof. intros (_ & _ & _ & _ & _ & H). destruct (n_data n), (n_data m); cbn in H; try discriminate; reflexivity. Qed.
Lemma like_unwrap {A} i (k k' : elem -> result A) :
  (forall x y, e_name x = e_name y -> (forall l, names l -> attributes_named l x = attributes_named l y) -> k x = k' y) ->
  (do x <- unwrap_element d i; k x) = (do y <- unwrap_element d' i; k' y).
Proof.
  intros H. unfold unwrap_element, getn. pose proof (like_nth i) as N.
  destruct (nth_error (nodes d) i) as [n|], (nth_error (nodes d') i) as [m|]; try contradiction; cbn [bind]; auto.
  destruct N as (_ & _ & _ & _ & _ & N). destruct (n_data n), (n_data m); cbn in N; try discriminate; try reflexivity.
  cbn [bind]. destruct N. auto.
Qed.
Lemma bind_ext {A B} (x y : result A) (k k' : A -> result B) : x = y -> (forall a, k a = k' a) -> (do a <- x; k a) = (do a <- y; k' a).
Proof. intros <- H. destruct x; cbn [bind]; auto. Qed.

Lemma find_element_like f g fuel : (forall n m, like_node names n m -> f n = g m) -> forall o, find_element fuel d f o = find_element fuel d' g o.
Proof.
  intros H. induction fuel as [|fuel IH]; intros [i|]; cbn; auto. apply like_getn. intros n m N.
  rewrite (like_is_element n m N), (H n m N). destruct (is_element_data (n_data m)); auto.
Qed.
Lemma parent_element_like i : parent_element d i = parent_element d' i.
Proof.
  unfold parent_element. apply like_getn. intros n m N. rewrite (proj1 N). destruct (n_parent m); [|reflexivity].
  apply like_getn. intros a b X. rewrite (like_is_element a b X). reflexivity.
Qed.
Lemma next_like fuel i : next_sibling_element fuel d i = next_sibling_element fuel d' i.
Proof.
  unfold next_sibling_element. apply like_getn. intros n m N. pose proof N as (_ & N2 & _). rewrite N2.
  apply find_element_like. intros a b X. apply X.
Qed.
Lemma prev_like fuel i : prev_sibling_element fuel d i = prev_sibling_element fuel d' i.
Proof.
  unfold prev_sibling_element. apply like_getn. intros n m N. pose proof N as (_ & _ & N2 & _). rewrite N2.
  apply find_element_like. intros a b X. apply X.
Qed.
Lemma is_empty_loop_like fuel : forall i, is_empty_loop fuel d i = is_empty_loop fuel d' i.
Proof.
  induction fuel as [|fuel IH]; intros i; cbn; [reflexivity|]. apply like_getn. intros n m N. rewrite (like_is_element n m N).
  destruct (is_element_data (n_data m)) eqn:E; [reflexivity|].
  destruct N as (_ & N2 & _ & _ & _ & N). rewrite N2. destruct (n_data n), (n_data m); cbn in N; try discriminate; try (injection N as ->);
    try (destruct (negb _)); destruct (n_next m); auto.
Qed.
Lemma is_empty_like fuel i : is_empty fuel d i = is_empty fuel d' i.
Proof.
  unfold is_empty. apply like_getn. intros n m N. destruct N as (_ & _ & _ & N & _). rewrite N. destruct (n_first m); auto using is_empty_loop_like.
Qed.
Lemma nth_index_like fuel steps : forall fe ot s c i, nth_index fuel steps d fe ot s c i = nth_index fuel steps d' fe ot s c i.
Proof.
  induction steps as [|steps IH]; intros fe ot s c i; cbn; [reflexivity|]. apply bind_ext; [destruct fe; [apply next_like|apply prev_like]|].
  intros [x|]; [|reflexivity]. apply bind_ext; [reflexivity|]. auto.
Qed.
Lemma find_filter {A} (P Q : A -> bool) l : find (fun a => P a && Q a)%bool l = find P (filter Q l).
Proof. induction l as [|a l IH]; cbn; [reflexivity|]. destruct (Q a) eqn:E; cbn; destruct (P a); cbn; auto. Qed.
Lemma existsb_filter {A} (P Q : A -> bool) l : existsb (fun a => P a && Q a)%bool l = existsb Q (filter P l).
Proof. induction l as [|a l IH]; cbn; [reflexivity|]. destruct (P a); cbn; rewrite IH; reflexivity. Qed.
Lemma existsb_same {A} (P Q : A -> bool) l : (forall a, P a = Q a) -> existsb P l = existsb Q l.
Proof. intros H. induction l as [|a l IH]; cbn; [reflexivity|]. rewrite H, IH. reflexivity. Qed.
Lemma get_attr_named x y l : attributes_named l x = attributes_named l y -> get_attr x l = get_attr y l.
Proof.
  unfold get_attr, attributes_named. intros H.
  rewrite !(find_filter (fun a => String.eqb (q_ns (a_name a)) "") (fun a => String.eqb (q_local (a_name a)) l)). rewrite H. reflexivity.
Qed.

Lemma simple_like fuel e s : (forall l, simple_reads l s -> names l) -> simple_match fuel d e s = simple_match fuel d' e s.
Proof.
  induction s as [a b|a|a|a|a b c| | | | | |x y a b|ss IH] using simple_ind'; intros R; cbn [simple_match].
  - unfold is_html_element_in_html_document, has_local_name. apply bind_ext; [apply like_unwrap; intros x y -> _; reflexivity|].
    intros h. apply like_unwrap. intros x y -> _. reflexivity.
  - apply like_unwrap. intros x y -> _. reflexivity.
  - apply like_unwrap. intros x y _ H. rewrite (get_attr_named x y "id"); [reflexivity|apply H, R; reflexivity].
  - apply like_unwrap. intros x y _ H. rewrite (get_attr_named x y "class"); [reflexivity|apply H, R; reflexivity].
  - apply like_unwrap. intros x y _ H. f_equal.
    assert (X : forall z, existsb (fun w => String.eqb (q_local (a_name w)) b
                        && (match a with None => true | Some n => String.eqb (q_ns (a_name w)) n end) && c (a_value w))%bool (e_attrs z) =
      existsb (fun w => (match a with None => true | Some n => String.eqb (q_ns (a_name w)) n end) && c (a_value w))%bool (attributes_named b z)).
    { intros z. unfold attributes_named. rewrite <- existsb_filter. apply existsb_same. intros w. symmetry. apply Bool.andb_assoc. }
    rewrite !X, (H b); [reflexivity|apply R; reflexivity].
  - unfold is_root. rewrite parent_element_like. reflexivity.
  - apply is_empty_like.
  - rewrite prev_like. reflexivity.
  - rewrite next_like. reflexivity.
  - rewrite prev_like. apply bind_ext; [reflexivity|]. intros o. destruct (is_none o); [|reflexivity]. rewrite next_like. reflexivity.
  - rewrite nth_index_like. reflexivity.
  - apply bind_ext; [|reflexivity]. induction IH as [|s r Hs _ IHr]; [reflexivity|]. apply bind_ext.
    + apply Hs. intros l Hl. apply R. cbn. auto.
    + intros [|]; [|reflexivity]. apply IHr. intros l Hl. apply R. cbn. auto.
Qed.
Lemma compound_like fuel e c : (forall l x, In x c -> simple_reads l x -> names l) -> compound_match fuel d e c = compound_match fuel d' e c.
Proof.
  induction c as [|s r IH]; intros R; cbn; [reflexivity|]. apply bind_ext; [apply simple_like; intros l; apply R; left; reflexivity|].
  intros [|]; [|reflexivity]. apply IH. intros l x Hx. apply R. right. exact Hx.
Qed.
Lemma ancestors_like steps : forall e, ancestors steps d e = ancestors steps d' e.
Proof. induction steps as [|s IH]; intros e; cbn; [reflexivity|]. rewrite parent_element_like. apply bind_ext; [reflexivity|]. intros [p|]; [rewrite IH|]; reflexivity. Qed.
Lemma previous_like fuel steps : forall e, previous steps fuel d e = previous steps fuel d' e.
Proof. induction steps as [|s IH]; intros e; cbn; [reflexivity|]. rewrite prev_like. apply bind_ext; [reflexivity|]. intros [p|]; [rewrite IH|]; reflexivity. Qed.
Lemma next_elements_like fuel k e : next_elements fuel d k e = next_elements fuel d' k e.
Proof. destruct k; cbn; rewrite ?parent_element_like, ?prev_like; auto using ancestors_like, previous_like. Qed.
Lemma walk_ext k f g o l : (forall x, f x = g x) -> walk k f o l = walk k g o l.
Proof. intros H. induction l as [|x l IH]; cbn; [reflexivity|]. rewrite H. apply bind_ext; [reflexivity|]. intros []; destruct k; auto. Qed.
Lemma complex_like fuel rest : forall c e, (forall l x, In x c -> simple_reads l x -> names l) ->
  (forall l k c x, In (k, c) rest -> In x c -> simple_reads l x -> names l) ->
  match_complex fuel d c rest e = match_complex fuel d' c rest e.
Proof.
  induction rest as [|[k c'] rest IH]; intros c e R R'; cbn [match_complex]; (apply bind_ext; [apply compound_like; exact R|]); intros [|]; try reflexivity.
  rewrite next_elements_like. apply bind_ext; [reflexivity|]. intros l. apply walk_ext. intros x. apply IH.
  - intros m y Hy. eapply R'; [left; reflexivity|exact Hy].
  - intros m k2 c2 y Hy. eapply R'. right. exact Hy.
Qed.
Lemma matches_like fuel s e : (forall l, selector_reads l s -> names l) -> matches fuel d s e = matches fuel d' s e.
Proof.
  intros R. unfold matches. rewrite (complex_like fuel (s_rest s) (s_subject s) e); [reflexivity| |].
  - intros l x Hx Hl. apply R. left. eauto.
  - intros l k c x Hk Hx Hl. apply R. right. exists k, c, x. auto.
Qed.
Lemma push_like fuel e rules : (forall s b l, In (s, b) rules -> selector_reads l s -> names l) ->
  push_matching_in fuel d e rules = push_matching_in fuel d' e rules.
Proof.
  induction rules as [|[s b] r IH]; intros R; cbn; [reflexivity|]. rewrite (matches_like fuel s e); [|intros l; exact (R s b l (or_introl eq_refl))].
  rewrite IH; [reflexivity|]. intros s' b' l H. exact (R s' b' l (or_intror H)).
Qed.

(* ------------------------------------------------------------------ *)
(** * The document *)
Lemma following_like fuel : forall o, following_siblings fuel d o = following_siblings fuel d' o.
Proof.
  induction fuel as [|fuel IH]; intros [i|]; cbn; auto. apply like_getn. intros n m N. destruct N as (_ & N & _). rewrite N, IH. reflexivity.
Qed.
Lemma child_text_loop_like fuel : forall o, child_text_loop fuel d o = child_text_loop fuel d' o.
Proof.
  induction fuel as [|fuel IH]; intros [i|]; cbn; auto. apply like_getn. intros n m N. destruct N as (_ & N & _ & _ & _ & X). rewrite N, IH.
  apply bind_ext; [reflexivity|]. intros r. destruct (n_data n), (n_data m); cbn in X; try discriminate; congruence.
Qed.
Lemma sources_like fuel user : names "type" -> parse_stylesheets fuel d user = parse_stylesheets fuel d' user.
Proof.
  intros T. unfold parse_stylesheets. destruct L as [_ <-]. apply bind_ext; [|reflexivity].
  induction (style_elements d) as [|i is IH]; cbn; [reflexivity|]. apply like_getn. intros n m N.
  destruct N as (_ & _ & _ & _ & _ & X). unfold as_element. destruct (n_data n) as [ | | | |x|], (n_data m) as [ | | | |y|]; cbn in X; try discriminate; auto.
  destruct X as [_ X]. rewrite (get_attr_named x y "type" (X _ T)). destruct (match get_attr y "type" with Some t => _ | None => _ end); [exact IH|].
  apply bind_ext.
  - unfold child_text_content. apply like_getn. intros a b N. destruct N as (_ & _ & _ & N & _). rewrite N. apply child_text_loop_like.
  - intros t. rewrite IH. reflexivity.
Qed.
Lemma root_scan_like l : forall o, root_scan d l o = root_scan d' l o.
Proof.
  induction l as [|c l IH]; intros o; cbn; [reflexivity|]. apply like_getn. intros n m N. destruct N as (_ & _ & _ & _ & _ & X).
  destruct (n_data n), (n_data m); cbn in X; try discriminate; auto. apply bind_ext; auto.
Qed.
Lemma root_like fuel : root_element fuel d = root_element fuel d'.
Proof.
  unfold root_element. apply like_getn. intros n m (-> & -> & -> & -> & _ & X).
  apply bind_ext; [destruct (n_data n), (n_data m); cbn in X; try discriminate; reflexivity|]. intros _.
  apply bind_ext; [reflexivity|]. intros _. apply bind_ext; [reflexivity|]. intros _. apply bind_ext; [reflexivity|]. intros _.
  destruct (n_first m); [|reflexivity]. rewrite following_like. apply bind_ext; [reflexivity|]. intros l. rewrite root_scan_like. reflexivity.
Qed.
Lemma mapR_ext {A B} (f g : A -> result B) l : (forall x, f x = g x) -> mapR f l = mapR g l.
Proof. intros H. induction l as [|x l IH]; cbn; [reflexivity|]. rewrite H, IH. reflexivity. Qed.
Lemma subtree_like fuel : forall i, subtree fuel d i = subtree fuel d' i.
Proof.
  induction fuel as [|fuel IH]; intros i; cbn [subtree]; [reflexivity|]. apply like_getn. intros n m N. destruct N as (_ & _ & _ & N & _).
  rewrite N, like_length, following_like. apply bind_ext; [reflexivity|]. intros l. rewrite (mapR_ext _ _ l IH). reflexivity.
Qed.
(** A node with the same style attribute gets the same style. *)
Lemma node_style_like ct attr_items fuel ua author e p :
  (forall s b l, In (s, b) ua -> selector_reads l s -> names l) ->
  (forall s b l, In (s, b) author -> selector_reads l s -> names l) ->
  (forall x y, data_of d e = Some (DElement x) -> data_of d' e = Some (DElement y) -> get_attr x "style" = get_attr y "style") ->
  node_style ct attr_items fuel ua author d e p = node_style ct attr_items fuel ua author d' e p.
Proof.
  intros Ru Ra Hs. unfold node_style. unfold data_of in Hs. rewrite (push_like fuel e ua Ru), (push_like fuel e author Ra).
  unfold getn. pose proof (like_nth e) as N. destruct (nth_error (nodes d) e) as [n|], (nth_error (nodes d') e) as [m|]; try contradiction; auto.
  cbn [bind]. cbn [option_map] in Hs. destruct N as (_ & _ & _ & _ & _ & X). destruct (n_data n) as [ | | | |x|], (n_data m) as [ | | | |y|]; cbn in X; try discriminate; auto.
  destruct X as [En _]. unfold style_attribute. rewrite En, (Hs x y eq_refl eq_refl). reflexivity.
Qed.
Lemma kid_like i j : kid d i j -> kid d' i j.
Proof.
  intros (l & (n & Hn & Hc) & Hj). pose proof (like_nth i) as N. rewrite Hn in N. destruct (nth_error (nodes d') i) as [m|] eqn:Hm; [|contradiction].
  destruct N as (_ & _ & _ & N & _). exists l. split; [|exact Hj]. exists m. split; [exact Hm|]. rewrite N in Hc.
  clear - Hc L. induction Hc as [|k n l Hn Hc IH]; [constructor|].
  pose proof (like_nth k) as N. rewrite Hn in N. destruct (nth_error (nodes d') k) as [m'|] eqn:Hm; [|contradiction].
  econstructor; [exact Hm|]. destruct N as (_ & N & _). rewrite <- N. exact IH.
Qed.
Lemma styled_like so so' : (forall e p, so e p = so' e p) -> forall t st, styled so d st t = styled so' d' st t.
Proof.
  intros H. fix IH 1. intros [i ts] st. cbn [styled]. unfold data_of. pose proof (like_nth i) as N.
  destruct (nth_error (nodes d) i) as [n|], (nth_error (nodes d') i) as [m|]; try contradiction; [|reflexivity]. cbn [option_map].
  destruct N as (_ & _ & _ & _ & _ & X). destruct (n_data n) as [ | | | |x|], (n_data m) as [ | | | |y|]; cbn in X; try discriminate; try reflexivity.
  - injection X as ->. reflexivity.
  - destruct X as [-> _]. rewrite H. f_equal. induction ts as [|t ts IHts]; cbn [map]; [reflexivity|]. rewrite IH, IHts. reflexivity.
Qed.
Lemma construct_like so so' : (forall e p, so e p = so' e p) -> forall root, construct_document so d root = construct_document so' d' root.
Proof.
  intros H [i ts]. cbn [construct_document]. rewrite H. f_equal. induction ts as [|t ts IH]; cbn [map]; [reflexivity|].
  rewrite (styled_like so so' H), IH. reflexivity.
Qed.
End Like.

Lemma like_sym names d d' : like names d d' -> like names d' d.
Proof.
  intros [F E]. split; [|auto]. clear E. induction F as [|n m l l' H _ IH]; constructor; [|exact IH].
  destruct H as (H1 & H2 & H3 & H4 & H5 & X). unfold like_node. do 5 (split; [symmetry; assumption|]). unfold like_data in *.
  destruct (n_data n), (n_data m); auto. destruct X as [-> X]. split; [reflexivity|]. intros k Hk. symmetry. auto.
Qed.
(** Where the selectors of a style set come from. *)
Lemma style_set_reads ct sheets r : add_stylesheets ct selector [] sheets = Ok r ->
  forall s b l, In (s, b) (finish selector specificity r) -> selector_reads l s -> sheets_read l sheets.
Proof.
  intros H s b l Hin Hl. destruct (add_sheets_parses _ _ _ _ _ H) as (k & -> & F). cbn [app] in Hin.
  apply (Permutation_in _ (Permutation_sym (finish_perm selector specificity k))) in Hin.
  destruct (forall2_in_r _ _ _ F _ Hin) as ([s' items] & Hs & [E _]). cbn [fst] in E. subst s'.
  destruct (rules_of_in _ _ _ Hs) as (sels & Hr & Hsel). exists sels, items, s. auto.
Qed.
Lemma user_agent_reads l : sheets_read l [user_agent] -> l = "hidden" \/ l = "type".
Proof.
  intros (sels & items & s & Hr & Hs & Hl).
  assert (H : In (s, items) (rules_of [user_agent])).
  { unfold rules_of. cbn [flat_map concat] in *. rewrite app_nil_r in *. apply in_flat_map. exists (RStyle sels items). split; [exact Hr|].
    apply in_map_iff. exists s. auto. }
  pose proof user_agent_selectors as U. rewrite Forall_forall in U. specialize (U _ H). cbn [fst] in U.
  destruct U as [E U]. destruct Hl as [(x & Hx & Hl)|(k & c & x & Hk & _)]; [|rewrite E in Hk; destruct Hk].
  rewrite Forall_forall in U. destruct (U x Hx) as [(n & ->)|[->| ->]]; cbn in Hl; auto. contradiction.
Qed.
