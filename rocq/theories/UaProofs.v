(** Proofs about default styles and styles of whole documents. *)
From Verif Require Import StyleModel StyleSpec StyleCascade StyleWinner StyleParse StyleFacts PropStyle.
From Verif Require Import GfxModel Base DomModel DomSpec SelModel SelSpec SelProofs PropSel UnsetModel UaModel UaSpec.
Local Open Scope string_scope.
Local Open Scope list_scope.

Definition matchb (fuel : nat) (d : doc) (e : node_id) (s : selector) : bool :=
  match matches fuel d s e with Ok b => b | _ => false end.

Lemma push_matching_in_ok fuel d e : forall rules bs, push_matching_in fuel d e rules = Ok bs ->
  bs = push_matching selector (matchb fuel d e) rules.
Proof.
  induction rules as [|[s b] r IH]; cbn [push_matching_in]; intros bs H; [injection H as <-; reflexivity|].
  destruct (matches fuel d s e) as [m| |] eqn:Em; try discriminate. cbn [bind] in H.
  destruct (push_matching_in fuel d e r) as [l| |] eqn:E; try discriminate. cbn [bind] in H. injection H as <-.
  unfold push_matching. cbn [filter fst]. unfold matchb at 1. rewrite Em.
  specialize (IH l eq_refl). subst l. destruct m; reflexivity.
Qed.
Lemma push_matching_in_total fuel d e : forall rules, (forall s b, In (s, b) rules -> exists m, matches fuel d s e = Ok m) ->
  exists bs, push_matching_in fuel d e rules = Ok bs.
Proof.
  induction rules as [|[s b] r IH]; intros H; [eexists; reflexivity|]. cbn [push_matching_in].
  destruct (H s b (or_introl eq_refl)) as [m ->]. destruct IH as [bs ->]; [intros; eapply H; right; eassumption|].
  cbn [bind]. eexists. reflexivity.
Qed.

Section Doc.
Variable ct : token -> option color.
Variable sheet_rules : text -> list (rule selector).
Variable attr_items : string -> list item.

Lemma ua_sheets ua : ua_style_set ct = Ok ua ->
  exists r, add_stylesheets ct selector [] [user_agent] = Ok r /\ ua = finish selector specificity r.
Proof.
  unfold ua_style_set. cbn [add_stylesheets]. destruct (add_stylesheet ct selector [] user_agent) as [r| |]; try discriminate.
  cbn [bind]. intros [= <-]. exists r. split; reflexivity.
Qed.
Lemma author_sheets fuel d user author : author_style_set ct sheet_rules fuel d user = Ok author ->
  exists sources r, parse_stylesheets fuel d user = Ok sources /\
    add_stylesheets ct selector [] (map sheet_rules sources) = Ok r /\ author = finish selector specificity r.
Proof.
  unfold author_style_set. destruct (parse_stylesheets fuel d user) as [src| |]; try discriminate. cbn [bind].
  destruct (add_stylesheets ct selector [] (map sheet_rules src)) as [r| |] eqn:E; try discriminate. cbn [bind].
  intros [= <-]. exists src, r. repeat split. exact E.
Qed.
Lemma style_attribute_inline x : style_attribute x = inline_style x.
Proof.
  unfold style_attribute, inline_style, one_of, html_ns, svg_ns, mathml_ns. cbn [existsb]. rewrite orb_false_r, orb_assoc.
  destruct (String.eqb _ _ || _ || _); [|reflexivity]. unfold get_attr. induction (e_attrs x) as [|a l IH]; [reflexivity|].
  cbn [find filter]. rewrite andb_comm. destruct (String.eqb (q_local (a_name a)) "style" && _); [reflexivity|exact IH].
Qed.
Lemma node_style_element fuel ua author d e parent s x ur ar sheets :
  add_stylesheets ct selector [] [user_agent] = Ok ur -> ua = finish selector specificity ur ->
  add_stylesheets ct selector [] sheets = Ok ar -> author = finish selector specificity ar ->
  data_of d e = Some (DElement x) -> node_style ct attr_items fuel ua author d e parent = Ok s ->
  element_style ct specificity (matchb fuel d e) [user_agent] sheets (option_map attr_items (inline_style x)) parent s.
Proof.
  intros Hu -> Ha -> Hx H. exists ur, ar. split; [exact Hu|]. split; [exact Ha|].
  unfold node_style, getn in H. unfold data_of in Hx. destruct (nth_error (nodes d) e) as [n|]; [|discriminate].
  cbn [bind] in H. injection Hx as Hx. rewrite Hx in H.
  destruct (push_matching_in fuel d e (finish selector specificity ur)) as [u| |] eqn:Eu; try discriminate. cbn [bind] in H.
  destruct (push_matching_in fuel d e (finish selector specificity ar)) as [a| |] eqn:Ea; try discriminate. cbn [bind] in H.
  apply push_matching_in_ok in Eu, Ea. subst u a. unfold style_for_element.
  rewrite <- style_attribute_inline. destruct (style_attribute x) as [v|]; cbn [option_map]; exact H.
Qed.

(* ------------------------------------------------------------------ *)
(** * What the user agent sheet says about an element *)

(** The selectors of the sheet, decided from the name and the two attributes. *)
Fixpoint ua_match_simple (name : string) (hidden type_hidden : bool) (l : list simple) : bool :=
  match l with
  | [] => true
  | SLocal n _ :: r => String.eqb name n && ua_match_simple name hidden type_hidden r
  | SAttr _ n _ :: r => (if String.eqb n "hidden" then hidden else type_hidden) && ua_match_simple name hidden type_hidden r
  | _ :: r => false
  end.
Definition ua_match name hidden type_hidden (s : selector) : bool := ua_match_simple name hidden type_hidden (s_subject s).
Definition type_hidden (x : elem) : bool := attribute x "type" (fun v => eq_ignore_ascii_case v "hidden").

(** The forms of the selectors in the sheet. *)
Definition ua_simple (s : simple) : Prop :=
  (exists n, s = SLocal n n) \/ s = has_attribute "hidden" \/ s = attribute_is_i "type" "hidden".
Definition ua_selector (s : selector) : Prop := s_rest s = [] /\ Forall ua_simple (s_subject s).

Lemma attribute_holds d e x n ok : data_of d e = Some (DElement x) ->
  (simple_holds d e (SAttr (Some "") n ok) <-> attribute x n ok = true).
Proof.
  intros Hx. unfold attribute. rewrite existsb_exists. cbn [simple_holds]. split.
  - intros (y & a & Hy & Hin & Hl & Hn & Ho). rewrite Hx in Hy. injection Hy as <-. exists a. split; [exact Hin|].
    rewrite Hl, (Hn "" eq_refl), Ho, !String.eqb_refl. reflexivity.
  - intros (a & Hin & H). apply andb_true_iff in H as [H Ho]. apply andb_true_iff in H as [Hl Hn].
    apply String.eqb_eq in Hl, Hn. exists x, a. repeat split; auto. intros m [= <-]. exact Hn.
Qed.
Lemma ua_simple_holds d e x s : data_of d e = Some (DElement x) -> ua_simple s ->
  (simple_holds d e s <-> ua_match_simple (name_of x) (marked_hidden x) (type_hidden x) [s] = true).
Proof.
  intros Hx [[n ->]|[-> | ->]]; unfold has_attribute, attribute_is_i;
    cbn [ua_match_simple String.eqb Ascii.eqb Bool.eqb]; rewrite andb_true_r.
  - cbn [simple_holds]. rewrite String.eqb_eq. unfold name_of. split.
    + intros (y & Hy & H). rewrite Hx in Hy. injection Hy as <-. destruct (String.eqb _ _); exact H.
    + intros H. exists x. split; [exact Hx|]. destruct (String.eqb _ _); exact H.
  - apply attribute_holds. exact Hx.
  - apply attribute_holds. exact Hx.
Qed.
Lemma ua_compound_holds d e x : data_of d e = Some (DElement x) -> forall l, Forall ua_simple l ->
  (compound_holds d e l <-> ua_match_simple (name_of x) (marked_hidden x) (type_hidden x) l = true).
Proof.
  intros Hx. induction l as [|s r IH]; intros F; [split; reflexivity || exact (fun _ => I)|].
  apply Forall_cons_iff in F as [Fs Fr]. cbn [compound_holds]. rewrite (ua_simple_holds d e x s Hx Fs), (IH Fr).
  destruct Fs as [[n ->]|[-> | ->]]; unfold has_attribute, attribute_is_i; cbn [ua_match_simple String.eqb Ascii.eqb Bool.eqb];
    rewrite andb_true_r, andb_true_iff; reflexivity.
Qed.
Lemma ua_supported s : ua_selector s -> supported (s_subject s) (s_rest s).
Proof.
  intros [R F]. split; [|rewrite R; constructor]. eapply Forall_impl; [|exact F].
  intros a [[n ->]|[-> | ->]]; exact I.
Qed.
Lemma ua_matchb fuel d e x s : reach d -> (length (nodes d) <= fuel)%nat -> node_of d e -> data_of d e = Some (DElement x) ->
  ua_selector s -> matchb fuel d e s = ua_match (name_of x) (marked_hidden x) (type_hidden x) s.
Proof.
  intros Hd Hf He Hx Hs. destruct (C21_selectors d fuel Hd Hf s e He (ex_intro _ x Hx) (ua_supported s Hs)) as (r & Er & Hr).
  unfold matchb. rewrite Er. unfold ua_match. destruct Hs as [R F].
  apply eq_true_iff_eq. rewrite Hr, R. cbn [selector_holds].
  rewrite <- (ua_compound_holds d e x Hx _ F). tauto.
Qed.
Lemma user_agent_selectors : Forall (fun r => ua_selector (fst r)) (rules_of [user_agent]).
Proof.
  unfold rules_of. cbn [flat_map user_agent app map].
  repeat match goal with
  | |- Forall _ [] => apply Forall_nil
  | |- Forall _ (_ :: _) => apply Forall_cons; cbn [fst]
  | |- ua_selector _ => split; cbn [s_rest s_subject tag]; [reflexivity|]
  | |- ua_simple _ => (left; eexists; reflexivity) || (right; left; reflexivity) || (right; right; reflexivity)
  end.
Qed.
Lemma rule_cands_ext (m m' : selector -> bool) b : forall rules i, Forall (fun r => m (fst r) = m' (fst r)) rules ->
  rule_cands ct specificity m b i rules = rule_cands ct specificity m' b i rules.
Proof.
  induction rules as [|[s items] r IH]; intros i F; [reflexivity|]. apply Forall_cons_iff in F as [F1 F2].
  cbn [rule_cands]. cbn [fst] in F1. rewrite F1, (IH _ F2). reflexivity.
Qed.
Definition ua_cands (name : string) (hidden type_hidden : bool) : list cand :=
  rule_cands ct specificity (ua_match name hidden type_hidden) true 0 (rules_of [user_agent]).

(** The candidate that beats all others of its property, by search. *)
Definition spec_ltb (a b : option N) : bool :=
  match a, b with Some x, Some y => (x <? y)%N | Some _, None => true | None, _ => false end.
Definition spec_eqb (a b : option N) : bool :=
  match a, b with Some x, Some y => (x =? y)%N | None, None => true | _, _ => false end.
Definition outranksb (a b : cand) : bool :=
  (c_level b <? c_level a)%nat ||
  ((c_level b =? c_level a)%nat &&
   (spec_ltb (c_spec b) (c_spec a) ||
    (spec_eqb (c_spec b) (c_spec a) &&
     ((c_rule b <? c_rule a)%nat || ((c_rule b =? c_rule a)%nat && (c_pos b <? c_pos a)%nat))))).
Lemma outranksb_ok a b : outranksb a b = true -> outranks a b.
Proof.
  unfold outranksb, outranks. rewrite !orb_true_iff, !andb_true_iff, !orb_true_iff, !andb_true_iff, !orb_true_iff, !andb_true_iff.
  rewrite !Nat.ltb_lt, !Nat.eqb_eq. intros [H|[H H']]; [left; exact H|right; split; [exact H|]].
  assert (L : forall u v, spec_ltb u v = true -> spec_lt u v).
  { intros [u|] [v|]; cbn; try discriminate; try (intros; exact I). apply N.ltb_lt. }
  assert (E : forall u v, spec_eqb u v = true -> u = v).
  { intros [u|] [v|]; cbn; try discriminate; [|reflexivity]. intros Q. apply N.eqb_eq in Q. congruence. }
  destruct H' as [H'|[H' H'']]; [left; exact (L _ _ H')|right; split; [exact (E _ _ H')|exact H'']].
Qed.
Definition lh_eqb (a b : longhand) : bool := if longhand_eq_dec a b then true else false.
Definition loses_to (c c' : cand) : bool := negb (lh_eqb (decl_longhand (c_decl c')) (decl_longhand (c_decl c))) || outranksb c c'.
Fixpoint find_winner (l : longhand) (pre cs : list cand) : option cand :=
  match cs with
  | [] => None
  | c :: r => if lh_eqb (decl_longhand (c_decl c)) l && forallb (loses_to c) (pre ++ r) then Some c else find_winner l (pre ++ [c]) r
  end.
Lemma find_winner_ok l : forall cs pre c, find_winner l pre cs = Some c -> decl_longhand (c_decl c) = l /\
  forall rest, (forall c', In c' rest -> decl_longhand (c_decl c') = l -> outranks c c') -> wins ((pre ++ cs) ++ rest) c.
Proof.
  induction cs as [|x r IH]; cbn [find_winner]; intros pre c H; [discriminate|].
  destruct (lh_eqb (decl_longhand (c_decl x)) l && forallb (loses_to x) (pre ++ r)) eqn:E.
  - injection H as <-. apply andb_true_iff in E as [E1 E2]. unfold lh_eqb in E1.
    destruct (longhand_eq_dec (decl_longhand (c_decl x)) l) as [El|]; [|discriminate]. split; [exact El|].
    intros rest Hr. split; [apply in_or_app; left; apply in_or_app; right; left; reflexivity|].
    intros c' Hc' Hl. rewrite forallb_forall in E2.
    assert (B : In c' (pre ++ r) -> outranks x c').
    { intros Hi. specialize (E2 c' Hi). unfold loses_to, lh_eqb in E2. rewrite Hl in E2.
      destruct (longhand_eq_dec _ _) as [_|n]; [|congruence]. exact (outranksb_ok _ _ E2). }
    apply in_app_or in Hc' as [Hc'|Hc']; [|right; apply (Hr c' Hc'); congruence].
    apply in_app_or in Hc' as [Hc'|[Hc'|Hc']].
    + right. apply B. apply in_or_app. left. exact Hc'.
    + left. symmetry. exact Hc'.
    + right. apply B. apply in_or_app. right. exact Hc'.
  - destruct (IH (pre ++ [x]) c H) as [Hl Hw]. split; [exact Hl|]. intros rest Hr. specialize (Hw rest Hr).
    rewrite <- (app_assoc pre [x] r) in Hw. exact Hw.
Qed.

Definition all_longhands : list longhand :=
  [Lfont_size; Lfont_style; Lfont_weight; Lfont_family; Lline_height; Lvertical_align; Lcolor; Ltext_align; Lwhite_space;
   Lposition; Lfloat; Ldisplay; Ltop; Lleft; Lbottom; Lright; Lwidth; Lheight;
   Lmargin_top; Lmargin_right; Lmargin_bottom; Lmargin_left; Lpadding_top; Lpadding_right; Lpadding_bottom; Lpadding_left;
   Lborder_top_color; Lborder_right_color; Lborder_bottom_color; Lborder_left_color;
   Lborder_top_style; Lborder_right_style; Lborder_bottom_style; Lborder_left_style;
   Lborder_top_width; Lborder_right_width; Lborder_bottom_width; Lborder_left_width; Lbackground_color].
Lemma all_longhands_all l : In l all_longhands.
Proof. destruct l; cbn; tauto. Qed.

(** All names the sheet mentions, and one it does not. *)
Definition ua_names : list string :=
  never_shown ++ ["embed"; "input"] ++ blocks ++ ["em"; "strong"; "br"; "sub"; "sup"; "code"].
Definition table_row (n : string) (h t : bool) : list (option decl) :=
  map (fun l => option_map c_decl (find_winner l [] (ua_cands n h t))) all_longhands.
Definition mute (n : string) (h t : bool) (l : longhand) : bool :=
  forallb (fun c => negb (lh_eqb (decl_longhand (c_decl c)) l)) (ua_cands n h t).
Definition is_none_decl (o : option decl) : bool := match o with None => true | _ => false end.
Lemma table_ok : Forall (fun n => Forall (fun h => Forall (fun t =>
    table_row n h t = map (html_default n h (String.eqb n "input" && t)) all_longhands /\
    map (mute n h t) all_longhands = map (fun l => is_none_decl (html_default n h (String.eqb n "input" && t) l)) all_longhands)
  [true; false]) [true; false]) ("" :: ua_names).
Proof.
  repeat (apply Forall_cons || apply Forall_nil); vm_compute; split; reflexivity.
Qed.

(** A name the sheet does not mention behaves like the empty name. *)
Definition names_in (l : list simple) : list string := flat_map (fun s => match s with SLocal n _ => [n] | _ => [] end) l.
Lemma ua_match_other name h t : forall l, (forall n, In n (names_in l) -> name <> n) ->
  (forall n, In n (names_in l) -> n <> "") -> ua_match_simple name h t l = ua_match_simple "" h t l.
Proof.
  induction l as [|s r IH]; intros H H'; [reflexivity|].
  assert (E : ua_match_simple name h t r = ua_match_simple "" h t r).
  { apply IH; intros n Hn; [apply H|apply H']; cbn; apply in_or_app; right; exact Hn. }
  destruct s as [n ln| | | | ns n op| | | | | | | ]; cbn [ua_match_simple]; try reflexivity; try (rewrite E; reflexivity).
  rewrite E. assert (name <> n) by (apply H; cbn; left; reflexivity). assert (n <> "") by (apply H'; cbn; left; reflexivity).
  rewrite (proj2 (String.eqb_neq name n)), (proj2 (String.eqb_neq "" n)); congruence.
Qed.
Lemma user_agent_names : Forall (fun r : selector * list item => incl (names_in (s_subject (fst r))) ua_names) (rules_of [user_agent]).
Proof.
  assert (B : forallb (fun r : selector * list item => forallb (fun n => one_of ua_names n) (names_in (s_subject (fst r)))) (rules_of [user_agent]) = true)
    by (vm_compute; reflexivity).
  rewrite forallb_forall in B. apply Forall_forall. intros r Hr n Hn. specialize (B r Hr). rewrite forallb_forall in B.
  specialize (B n Hn). unfold one_of in B. apply existsb_exists in B as (m & Hm & E). apply String.eqb_eq in E. congruence.
Qed.
Lemma ua_cands_other name h t : ~ In name ua_names -> ua_cands name h t = ua_cands "" h t.
Proof.
  intros Hn. unfold ua_cands. apply rule_cands_ext. eapply Forall_impl; [|exact user_agent_names].
  intros [s items] Hi. cbn [fst] in *. unfold ua_match. apply ua_match_other; intros n Hin.
  - intros ->. apply Hn. exact (Hi _ Hin).
  - intros ->. specialize (Hi _ Hin). assert (B : one_of ua_names "" = false) by (vm_compute; reflexivity).
    unfold one_of in B. rewrite <- not_true_iff_false in B. apply B. apply existsb_exists. exists "". split; [exact Hi|reflexivity].
Qed.
Lemma one_of_false l name : ~ In name l -> one_of l name = false.
Proof.
  intros H. unfold one_of. apply not_true_iff_false. intros E. apply existsb_exists in E as (m & Hm & E).
  apply String.eqb_eq in E. subst m. exact (H Hm).
Qed.
Lemma eqb_false_in l name n : ~ In name l -> one_of l n = true -> String.eqb name n = false.
Proof.
  intros H E. apply String.eqb_neq. intros ->. unfold one_of in E. apply existsb_exists in E as (m & Hm & E).
  apply String.eqb_eq in E. subst m. exact (H Hm).
Qed.
Lemma html_default_other name h t l : ~ In name ua_names -> html_default name h (String.eqb name "input" && t) l = html_default "" h false l.
Proof.
  intros Hn. pose proof (fun n => eqb_false_in ua_names name n Hn) as E.
  assert (N : one_of never_shown name = false) by (apply one_of_false; intros H; apply Hn; unfold ua_names; apply in_or_app; left; exact H).
  assert (B : one_of blocks name = false).
  { apply one_of_false; intros H; apply Hn; unfold ua_names; apply in_or_app; right; apply in_or_app; right; apply in_or_app; left; exact H. }
  rewrite (E "input") by (vm_compute; reflexivity). cbn [andb].
  destruct l; cbn [html_default]; try reflexivity;
    repeat match goal with |- context[String.eqb name ?n] => rewrite (E n) by (vm_compute; reflexivity) end;
    rewrite ?N, ?B; reflexivity.
Qed.

Lemma map_in_eq {A B} (f g : A -> B) l x : map f l = map g l -> In x l -> f x = g x.
Proof. induction l as [|y l IH]; intros H Hin; [destruct Hin|]. injection H as H1 H2. destruct Hin as [->|Hin]; auto. Qed.
Lemma ua_table name h t l :
  option_map c_decl (find_winner l [] (ua_cands name h t)) = html_default name h (String.eqb name "input" && t) l /\
  mute name h t l = is_none_decl (html_default name h (String.eqb name "input" && t) l).
Proof.
  assert (B : forall b, In b [true; false]) by (intros [|]; cbn; auto).
  assert (T : forall n, In n ("" :: ua_names) -> 
     option_map c_decl (find_winner l [] (ua_cands n h t)) = html_default n h (String.eqb n "input" && t) l /\
     mute n h t l = is_none_decl (html_default n h (String.eqb n "input" && t) l)).
  { intros n Hn. pose proof table_ok as K. rewrite Forall_forall in K. specialize (K n Hn). rewrite Forall_forall in K.
    specialize (K h (B h)). rewrite Forall_forall in K. specialize (K t (B t)). destruct K as [K1 K2].
    unfold table_row in K1. split; [exact (map_in_eq _ _ _ l K1 (all_longhands_all l))|exact (map_in_eq _ _ _ l K2 (all_longhands_all l))]. }
  destruct (in_dec string_dec name ua_names) as [Hi|Hn]; [exact (T name (or_intror Hi))|].
  unfold mute. rewrite (ua_cands_other name h t Hn), (html_default_other name h t l Hn).
  destruct (T "" (or_introl eq_refl)) as [T1 T2]. cbn [String.eqb andb] in T1, T2. split; assumption.
Qed.

(** What the cascade makes of it. *)
Lemma rule_cands_in (m : selector -> bool) b : forall rules i c, In c (rule_cands ct specificity m b i rules) ->
  exists s items i', In (s, items) rules /\ m s = true /\ In (c_decl c, i') (declared ct items).
Proof.
  assert (K : forall es ua sp r p c, In c (block_cands_from ua sp r p es) -> exists i', In (c_decl c, i') es).
  { induction es as [|[dc i] es IH]; intros ua sp r p c H; [destruct H|]. cbn [block_cands_from] in H. destruct H as [<-|H].
    - exists i. left. reflexivity.
    - destruct (IH _ _ _ _ _ H) as [i' Hi]. exists i'. right. exact Hi. }
  induction rules as [|[s items] r IH]; intros i c H; [destruct H|]. cbn [rule_cands] in H. apply in_app_or in H as [H|H].
  - destruct (m s) eqn:E; [|destruct H]. destruct (K _ _ _ _ _ _ H) as [i' Hi]. exists s, items, i'. split; [left; reflexivity|auto].
  - destruct (IH _ _ H) as (s' & items' & i' & H1 & H2 & H3). exists s', items', i'. split; [right; exact H1|auto].
Qed.
Lemma block_cands_in : forall es ua sp r p c, In c (block_cands_from ua sp r p es) -> exists i', In (c_decl c, i') es.
Proof.
  induction es as [|[dc i] es IH]; intros ua sp r p c H; [destruct H|]. cbn [block_cands_from] in H. destruct H as [<-|H].
  - exists i. left. reflexivity.
  - destruct (IH _ _ _ _ _ H) as [i' Hi]. exists i'. right. exact Hi.
Qed.
Lemma rules_of_in sheets s items : In (s, items) (@rules_of _ selector sheets) ->
  exists sels, In (RStyle sels items) (concat sheets) /\ In s sels.
Proof.
  unfold rules_of. intros H. apply in_flat_map in H as (sh & Hsh & H). apply in_flat_map in H as (r & Hr & H).
  destruct r as [sels its|]; [|destruct H]. apply in_map_iff in H as (s' & E & Hs). injection E as -> ->.
  exists sels. split; [apply in_concat; exists sh; auto|exact Hs].
Qed.
Lemma default_style fuel d e x sheets attr parent s : reach d -> (length (nodes d) <= fuel)%nat -> node_of d e ->
  data_of d e = Some (DElement x) ->
  (forall sels items, In (RStyle sels items) (concat sheets) -> Forall (fun s => supported (s_subject s) (s_rest s)) sels) ->
  element_style ct specificity (matchb fuel d e) [user_agent] sheets attr parent s ->
  forall l, not_authored ct d sheets attr e l ->
  (forall dc, element_default x l = Some dc -> decl_longhand dc = l /\
     sv s (decl_longhand dc) = adjusted s (decl_longhand dc) (decl_value (parent_or_initial parent) (sv s Lfont_size) dc)) /\
  (element_default x l = None -> sv s l = adjusted s l (default_value (parent_or_initial parent) l)).
Proof.
  intros Hd Hf He Hx G Hs l [N1 N2].
  set (cs := candidates ct specificity (matchb fuel d e) [user_agent] sheets attr).
  assert (Eu : rule_cands ct specificity (matchb fuel d e) true 0 (rules_of [user_agent]) = ua_cands (name_of x) (marked_hidden x) (type_hidden x)).
  { unfold ua_cands. apply rule_cands_ext. eapply Forall_impl; [|exact user_agent_selectors].
    intros [sel items] Hsel. cbn [fst] in *. apply ua_matchb; assumption. }
  set (rest := rule_cands ct specificity (matchb fuel d e) false 0 (rules_of sheets) ++
     match attr with Some items => block_cands_from false None 0 0 (declared ct items) | None => [] end).
  assert (Ec : cs = ua_cands (name_of x) (marked_hidden x) (type_hidden x) ++ rest).
  { unfold cs, candidates, rest. rewrite Eu. reflexivity. }
  assert (R : forall c, In c rest -> decl_longhand (c_decl c) <> l).
  { intros c Hc. unfold rest in Hc. apply in_app_or in Hc as [Hc|Hc].
    - destruct (rule_cands_in _ _ _ _ _ Hc) as (sel & items & i & H1 & H2 & H3). apply (N1 sel items _ i H1); [|exact H3].
      destruct (rules_of_in _ _ _ H1) as (sels & Hr & Hsel). specialize (G _ _ Hr). rewrite Forall_forall in G. specialize (G _ Hsel).
      destruct (C21_selectors d fuel Hd Hf sel e He (ex_intro _ x Hx) G) as (r & Er & Hrr). unfold matchb in H2. rewrite Er in H2.
      apply Hrr. exact H2.
    - destruct attr as [items|]; [|destruct Hc]. destruct (block_cands_in _ _ _ _ _ _ Hc) as [i Hi]. exact (N2 items _ i eq_refl Hi). }
  destruct (ua_table (name_of x) (marked_hidden x) (type_hidden x) l) as [T1 T2].
  change (String.eqb (name_of x) "input" && type_hidden x) with (hidden_field x) in T1, T2.
  change (html_default (name_of x) (marked_hidden x) (hidden_field x) l) with (element_default x l) in T1, T2.
  split.
  - intros dc E. rewrite E in T1. destruct (find_winner l [] _) as [c|] eqn:Ew; [|discriminate]. cbn [option_map] in T1. injection T1 as T1.
    destruct (find_winner_ok l _ [] c Ew) as [Hl Hw]. specialize (Hw rest (fun c' Hc' E' => False_ind _ (R c' Hc' E'))). cbn [app] in Hw.
    rewrite <- Ec in Hw. rewrite <- T1. split; [exact Hl|]. exact (C09_winner_takes_effect _ _ _ _ _ _ _ _ _ Hs c Hw).
  - intros E. rewrite E in T2. cbn [is_none_decl] in T2. unfold mute in T2. rewrite forallb_forall in T2.
    assert (U : undeclared cs l).
    { intros c Hc. rewrite Ec in Hc. apply in_app_or in Hc as [Hc|Hc]; [|exact (R c Hc)].
      specialize (T2 c Hc). unfold lh_eqb in T2. destruct (longhand_eq_dec _ l) as [|Hne]; [discriminate|exact Hne]. }
    unfold default_value. destruct (in_dec longhand_eq_dec l css_inherited) as [Hi|Hni].
    + destruct parent as [p|].
      * rewrite (C10_inherited_property_without_declaration _ _ _ _ _ _ _ _ _ Hs l Hi U). cbn [parent_or_initial].
        destruct l; try reflexivity; cbn in Hi; exfalso; clear -Hi; intuition discriminate.
      * rewrite (C10_root _ _ _ _ _ _ _ _ Hs l Hi U). cbn [parent_or_initial].
        destruct l; try reflexivity; cbn in Hi; exfalso; clear -Hi; intuition discriminate.
    + exact (C10_other_property_without_declaration _ _ _ _ _ _ _ _ _ Hs l Hni U).
Qed.

(** Declarations marked !important in the sheet cannot be overridden. *)
Definition ua_fixed (name : string) (h t : bool) (l : longhand) (dc : decl) : Prop :=
  exists c, find_winner l [] (ua_cands name h t) = Some c /\ c_ua c = true /\ c_important c = true /\ c_decl c = dc.
Lemma block_cands_ua : forall es ua sp r p c, In c (block_cands_from ua sp r p es) -> c_ua c = ua.
Proof.
  induction es as [|[dc i] es IH]; intros ua sp r p c H; [destruct H|]. cbn [block_cands_from] in H. destruct H as [<-|H]; [reflexivity|].
  exact (IH _ _ _ _ _ H).
Qed.
Lemma rule_cands_ua (m : selector -> bool) b : forall rules i c, In c (rule_cands ct specificity m b i rules) -> c_ua c = b.
Proof.
  induction rules as [|[s items] r IH]; intros i c H; [destruct H|]. cbn [rule_cands] in H. apply in_app_or in H as [H|H]; [|exact (IH _ _ H)].
  destruct (m s); [|destruct H]. exact (block_cands_ua _ _ _ _ _ _ H).
Qed.
Lemma fixed_style fuel d e x sheets attr parent s l dc : reach d -> (length (nodes d) <= fuel)%nat -> node_of d e ->
  data_of d e = Some (DElement x) ->
  element_style ct specificity (matchb fuel d e) [user_agent] sheets attr parent s ->
  ua_fixed (name_of x) (marked_hidden x) (type_hidden x) l dc ->
  sv s (decl_longhand dc) = adjusted s (decl_longhand dc) (decl_value (parent_or_initial parent) (sv s Lfont_size) dc).
Proof.
  intros Hd Hf He Hx Hs (c & Ew & Cu & Ci & <-).
  assert (Eu : rule_cands ct specificity (matchb fuel d e) true 0 (rules_of [user_agent]) = ua_cands (name_of x) (marked_hidden x) (type_hidden x)).
  { unfold ua_cands. apply rule_cands_ext. eapply Forall_impl; [|exact user_agent_selectors].
    intros [sel items] Hsel. cbn [fst] in *. apply ua_matchb; assumption. }
  destruct (find_winner_ok l _ [] c Ew) as [Hl Hw].
  apply (C09_winner_takes_effect _ _ _ _ _ _ _ _ _ Hs c). unfold candidates. rewrite Eu. apply (Hw _). clear Hw.
  intros c' Hc' _. left. assert (c_ua c' = false).
  { apply in_app_or in Hc' as [Hc'|Hc']; [exact (rule_cands_ua _ _ _ _ _ Hc')|]. destruct attr as [items|]; [|destruct Hc'].
    exact (block_cands_ua _ _ _ _ _ _ Hc'). }
  unfold c_level. rewrite Cu, Ci, H. destruct (c_important c'); lia.
Qed.
Lemma br_fixed h t : ua_fixed "br" h t Lwhite_space (DVal Lwhite_space WSPre).
Proof. destruct h, t; eexists; (split; [vm_compute; reflexivity|]); repeat split. Qed.
Lemma hidden_field_fixed h : ua_fixed "input" h true Ldisplay (DVal Ldisplay DispNone).
Proof. destruct h; eexists; (split; [vm_compute; reflexivity|]); repeat split. Qed.
End Doc.
