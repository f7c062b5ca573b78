(** An inline element that adds nothing changes nothing that is seen (C95). *)
From Verif Require Import BlockModel InlineModel StyleModel StyleSpec StyleExample GeomModel TreeModel TreeSpec PropTree.
From Verif Require Import Base Len DomModel DomSpec UnsetModel GfxModel PaintModel PaintSpec PaintProofs PropPaint PropText PropAppend.
From Verif Require Import WrapSpec WrapInline WrapBlock WrapTree.
Local Open Scope string_scope.
Local Open Scope list_scope.

(** Take away inline elements that add nothing and leave their contents: everything that was drawn is drawn, in the same
    order and the same place, and nothing else is.  Where the text before or after could lean on what was taken away there
    has to be an element between ([starts_apart], [ends_apart]). *)
Theorem C95_adds_nothing_partial : forall font_of width_of style_of style_of' d d' root root' page_size,
  looks_at_font font_of -> looks_at_font width_of ->
  same_style (root_style style_of root) (root_style style_of' root') ->
  unwrapped (root_style style_of root) true (root_kids style_of d root) (root_kids style_of' d' root') ->
  (snd (drawing_calls font_of width_of style_of d root page_size) = Finished <->
   snd (drawing_calls font_of width_of style_of' d' root' page_size) = Finished) /\
  visible (fst (drawing_calls font_of width_of style_of d root page_size)) =
  visible (fst (drawing_calls font_of width_of style_of' d' root' page_size)).
Proof.
  intros font_of width_of so so' d d' root root' page Hf Hw Hs U. unfold drawing_calls.
  assert (C : zout zbfc (construct_document so d root) (construct_document so' d' root')).
  { destruct root as [i ts], root' as [i' ts']. cbn [construct_document root_style root_kids] in *. apply u_construct_root; assumption. }
  set (ma := fun st => f_ascent (font_of st)). set (md := fun st => f_descent (font_of st)).
  assert (Ha : looks_at_font ma) by (intros s s' E1 E2 E3 E4; unfold ma; rewrite (Hf s s' E1 E2 E3 E4); reflexivity).
  assert (Hd : looks_at_font md) by (intros s s' E1 E2 E3 E4; unfold md; rewrite (Hf s s' E1 E2 E3 E4); reflexivity).
  destruct (construct_document so d root) as [b| |], (construct_document so' d' root') as [b'| |]; cbn [zout] in C; try contradiction;
    try (split; [split; discriminate|reflexivity]).
  pose proof (z_layout_root font_of Hf ma md width_of Ha Hd Hw b b' page C) as L.
  destruct (layout_root ma md width_of b page) as [fs| |], (layout_root ma md width_of b' page) as [fs'| |]; cbn [zres] in L; try contradiction;
    try (split; [split; discriminate|reflexivity]).
  destruct (page_seen font_of fs page) as (cs & -> & E). destruct (page_seen font_of fs' page) as (cs' & -> & E').
  cbn [fst snd]. split; [split; reflexivity|]. rewrite E, E'. apply (z_alike font_of _ _ L).
Qed.
Print Assumptions C95_adds_nothing_partial.

(** An element without a style attribute that no rule of a style sheet matches adds nothing to the one it is in, if it is
    in one that has a style. *)
Theorem C95_unstyled : forall (selector : Type) ct (ua author : list (selector * block)) matches parent st,
  (forall s b, In (s, b) (ua ++ author) -> matches s = false) ->
  style_for_element ct selector ua author matches None (Some parent) = Ok st ->
  adds_nothing parent st.
Proof.
  intros selector ct ua author matches parent st M E. cbn [style_for_element] in E.
  assert (P : forall l, (forall s b, In (s, b) l -> matches s = false) -> push_matching selector matches l = []).
  { induction l as [|[s b] l IH]; intros H; cbn; [reflexivity|]. rewrite (H s b (or_introl eq_refl)). apply IH. intros s0 b0 I. apply (H s0 b0 (or_intror I)). }
  rewrite !P in E by (intros s b I; apply (M s b), in_or_app; tauto). injection E as <-.
  split; try reflexivity; try (split; reflexivity); try (repeat split; reflexivity).
  intros l I. repeat (destruct I as [<-|I]; [reflexivity|]). destruct I.
Qed.
Print Assumptions C95_unstyled.
(** rules for selectors 1 and 2, an element that matches neither, in a bold red block *)
Example C95_unstyled_case :
  let rules := match parse_block ex_ct [prop "display" "block"], parse_block ex_ct [prop "color" "red"] with Ok b, Ok c => [(1%nat, b); (2%nat, c)] | _, _ => [] end in
  let parent := css None [prop "display" "block"; prop "font-weight" "bold"; prop "color" "red"] in
  List.length rules = 2%nat /\ (forall s b, In (s, b) (rules ++ rules) -> Nat.eqb s 3 = false) /\
  exists st, style_for_element ex_ct nat rules rules (fun s => Nat.eqb s 3) None (Some parent) = Ok st /\ sv st Lcolor = sv parent Lcolor /\ sv st Ldisplay = DispBox OInline IFlow.
Proof.
  cbv zeta. destruct (parse_block ex_ct [prop "display" "block"]) as [b1| |] eqn:E1; [|vm_compute in E1; discriminate..].
  destruct (parse_block ex_ct [prop "color" "red"]) as [b2| |] eqn:E2; [|vm_compute in E2; discriminate..].
  split; [reflexivity|]. split; [|eexists; split; [reflexivity|split; vm_compute; reflexivity]].
  intros s b I. cbn [app] in I. repeat (destruct I as [I|I]; [injection I as <- _; reflexivity|]). destruct I.
Qed.

(** <html><p>so <span><b>bold</b></span> end</p><p><span>hi <b>you</b></span></p></html> and the same without the spans;
    the second <b> has a border, the first a margin *)
Definition wrap_doc : doc :=
  Doc [Node None None None (Some 1%nat) (Some 1%nat) DDocument;
       Node (Some 0%nat) None None (Some 2%nat) (Some 8%nat) (DElement (ex_elem "html"));
       Node (Some 1%nat) None (Some 8%nat) (Some 3%nat) (Some 7%nat) (DElement (ex_elem "p"));
       Node (Some 2%nat) None (Some 4%nat) None None (DomModel.DText (txt "so "));
       Node (Some 2%nat) (Some 3%nat) (Some 7%nat) (Some 5%nat) (Some 5%nat) (DElement (ex_elem "span"));
       Node (Some 4%nat) None None (Some 6%nat) (Some 6%nat) (DElement (ex_elem "b"));
       Node (Some 5%nat) None None None None (DomModel.DText (txt "bold"));
       Node (Some 2%nat) (Some 4%nat) None None None (DomModel.DText (txt " end"));
       Node (Some 1%nat) (Some 2%nat) None (Some 9%nat) (Some 9%nat) (DElement (ex_elem "p"));
       Node (Some 8%nat) None None (Some 10%nat) (Some 11%nat) (DElement (ex_elem "span"));
       Node (Some 9%nat) None (Some 11%nat) None None (DomModel.DText (txt "hi "));
       Node (Some 9%nat) (Some 10%nat) None (Some 12%nat) (Some 12%nat) (DElement (ex_elem "b"));
       Node (Some 11%nat) None None None None (DomModel.DText (txt "you"))] [].
Definition wrap_root : dtree := DT 1 [DT 2 [DT 3 []; DT 4 [DT 5 [DT 6 []]]; DT 7 []]; DT 8 [DT 9 [DT 10 []; DT 11 [DT 12 []]]]].
Definition bare_doc : doc :=
  Doc [Node None None None (Some 1%nat) (Some 1%nat) DDocument;
       Node (Some 0%nat) None None (Some 2%nat) (Some 8%nat) (DElement (ex_elem "html"));
       Node (Some 1%nat) None (Some 8%nat) (Some 3%nat) (Some 7%nat) (DElement (ex_elem "p"));
       Node (Some 2%nat) None (Some 5%nat) None None (DomModel.DText (txt "so "));
       Node None None None None None (DElement (ex_elem "span"));
       Node (Some 2%nat) (Some 3%nat) (Some 7%nat) (Some 6%nat) (Some 6%nat) (DElement (ex_elem "b"));
       Node (Some 5%nat) None None None None (DomModel.DText (txt "bold"));
       Node (Some 2%nat) (Some 5%nat) None None None (DomModel.DText (txt " end"));
       Node (Some 1%nat) (Some 2%nat) None (Some 10%nat) (Some 11%nat) (DElement (ex_elem "p"));
       Node None None None None None (DElement (ex_elem "span"));
       Node (Some 8%nat) None (Some 11%nat) None None (DomModel.DText (txt "hi "));
       Node (Some 8%nat) (Some 10%nat) None (Some 12%nat) (Some 12%nat) (DElement (ex_elem "b"));
       Node (Some 11%nat) None None None None (DomModel.DText (txt "you"))] [].
Definition bare_root : dtree := DT 1 [DT 2 [DT 3 []; DT 5 [DT 6 []]; DT 7 []]; DT 8 [DT 10 []; DT 11 [DT 12 []]]].
Definition wrap_style (i : nat) (parent : option style) : style :=
  css parent match i with
             | 1%nat | 2%nat | 8%nat => [prop "display" "block"]
             | 5%nat => [idecl "margin-left" [TDim (px 2) "px"]; prop "font-weight" "bold"]
             | 11%nat => [prop "border-left-style" "solid"]
             | _ => []
             end.
Definition wide_page : vec2 Len := Vec2 (px 60) (px 100).
Example C95_case : looks_at_font (@ex_font_of Exact) /\ looks_at_font (@ex_width Exact) /\
  same_style (root_style wrap_style wrap_root) (root_style wrap_style bare_root) /\
  unwrapped (root_style wrap_style wrap_root) true (root_kids wrap_style wrap_doc wrap_root) (root_kids wrap_style bare_doc bare_root) /\
  snd (drawing_calls ex_font_of ex_width wrap_style wrap_doc wrap_root wide_page) = Finished /\
  places (fst (drawing_calls ex_font_of ex_width wrap_style wrap_doc wrap_root wide_page)) =
    [("so ", 0, 68#5); ("bold", 26, 68#5); ("end", 0, 164#5); ("hi ", 0, 52); ("you", 27, 52)]%Q.
Proof.
  split; [intros s s' _ _ _ _; reflexivity|]. split; [intros s s' _ _ _ _; reflexivity|]. split; [split; reflexivity|].
  split; [|split; vm_compute; reflexivity].
  set (h := wrap_style 1 None). set (p := wrap_style 2 (Some h)). set (s := wrap_style 4 (Some p)). set (p2 := wrap_style 8 (Some h)). set (s2 := wrap_style 9 (Some p2)).
  change (root_kids wrap_style wrap_doc wrap_root) with
    [SElem false p [SText (txt "so "); SElem false s [SElem false (wrap_style 5 (Some s)) [SText (txt "bold")]]; SText (txt " end")];
     SElem false p2 [SElem false s2 [SText (txt "hi "); SElem false (wrap_style 11 (Some s2)) [SText (txt "you")]]]].
  change (root_kids wrap_style bare_doc bare_root) with
    [SElem false p [SText (txt "so "); SElem false (wrap_style 5 (Some p)) [SText (txt "bold")]; SText (txt " end")];
     SElem false p2 [SText (txt "hi "); SElem false (wrap_style 11 (Some p2)) [SText (txt "you")]]].
  assert (Rf : forall st, same_style st st) by (intros st; split; reflexivity).
  assert (An : forall i q, (i = 4 \/ i = 9)%nat -> adds_nothing q (wrap_style i (Some q))).
  { intros i q [-> | ->]; (split; try reflexivity; try (split; reflexivity); try (repeat split; reflexivity); intros l I; repeat (destruct I as [<-|I]; [reflexivity|]); destruct I). }
  assert (St : forall i q, (i = 5 \/ i = 11)%nat -> same_style (wrap_style i (Some (wrap_style 4 (Some q)))) (wrap_style i (Some q))).
  { intros i q [-> | ->]; (split; [intros l; destruct l|]; reflexivity). }
  assert (St' : forall i q, (i = 5 \/ i = 11)%nat -> same_style (wrap_style i (Some (wrap_style 9 (Some q)))) (wrap_style i (Some q))).
  { intros i q [-> | ->]; (split; [intros l; destruct l|]; reflexivity). }
  assert (Di : forall i q, (i = 5 \/ i = 11)%nat -> sv (wrap_style i (Some q)) Ldisplay = DispBox OInline IFlow).
  { intros i q [-> | ->]; reflexivity. }
  assert (Tx : forall t c, In c t -> ~ In c [32; 9; 10; 12; 13]%N -> shows_text (SText t)) by (intros t c I N; econstructor; eassumption).
  assert (Bo : shows_text (SText (txt "bold"))) by (apply (Tx _ 98%N); [left; reflexivity|cbn; intuition discriminate]).
  assert (Hi : shows_text (SText (txt "hi "))) by (apply (Tx _ 104%N); [left; reflexivity|cbn; intuition discriminate]).
  apply U_node; [|apply U_node; [|constructor]].
  - apply UN_box; [apply Rf|vm_compute; discriminate|]. apply U_node; [do 2 constructor|].
    apply (U_wrapper p false s [SElem false (wrap_style 5 (Some s)) [SText (txt "bold")]] [SElem false (wrap_style 5 (Some p)) [SText (txt "bold")]] [SText (txt " end")] [SText (txt " end")]).
    + apply An. auto.
    + constructor; [|constructor]. constructor; [apply Di; auto|]. repeat constructor.
    + constructor; [|constructor]. constructor; [apply St; auto|]. repeat constructor.
    + right. eexists _, []. split; [reflexivity|]. split; [split; [reflexivity|apply Di; auto]|]. constructor. constructor. exact Bo.
    + left. eexists [], _. split; [reflexivity|]. split; [reflexivity|apply Di; auto].
    + apply U_node; [do 2 constructor|constructor].
  - apply UN_box; [apply Rf|vm_compute; discriminate|].
    apply (U_wrapper p2 true s2 [SText (txt "hi "); SElem false (wrap_style 11 (Some s2)) [SText (txt "you")]] [SText (txt "hi "); SElem false (wrap_style 11 (Some p2)) [SText (txt "you")]] [] []).
    + apply An. auto.
    + constructor; [constructor|]. constructor; [|constructor]. constructor; [apply Di; auto|]. repeat constructor.
    + constructor; [constructor|]. constructor; [|constructor]. constructor; [apply St'; auto|]. repeat constructor.
    + left. split; [reflexivity|]. constructor. right. exact Hi.
    + right. left. reflexivity.
    + constructor.
Qed.

(** Without those conditions it fails: a space at the start of such an element disappears.  <html>a<span> b</span></html>
    reads "ab"; without the span it reads "a b". *)
Definition spaced_wrap_doc : doc :=
  Doc [Node None None None (Some 1%nat) (Some 1%nat) DDocument;
       Node (Some 0%nat) None None (Some 2%nat) (Some 3%nat) (DElement (ex_elem "html"));
       Node (Some 1%nat) None (Some 3%nat) None None (DomModel.DText (txt "a"));
       Node (Some 1%nat) (Some 2%nat) None (Some 4%nat) (Some 4%nat) (DElement (ex_elem "span"));
       Node (Some 3%nat) None None None None (DomModel.DText (txt " b"))] [].
Definition spaced_wrap_root : dtree := DT 1 [DT 2 []; DT 3 [DT 4 []]].
Definition spaced_bare_doc : doc :=
  Doc [Node None None None (Some 1%nat) (Some 1%nat) DDocument;
       Node (Some 0%nat) None None (Some 2%nat) (Some 4%nat) (DElement (ex_elem "html"));
       Node (Some 1%nat) None (Some 4%nat) None None (DomModel.DText (txt "a"));
       Node None None None None None (DElement (ex_elem "span"));
       Node (Some 1%nat) (Some 2%nat) None None None (DomModel.DText (txt " b"))] [].
Definition spaced_bare_root : dtree := DT 1 [DT 2 []; DT 4 []].
Theorem C95_refuted : exists font_of width_of style_of d d' root root' page_size before st inner after,
  looks_at_font font_of /\ looks_at_font width_of /\ root_style style_of root' = root_style style_of root /\
  root_kids style_of d root = before ++ SElem false st inner :: after /\
  root_kids style_of d' root' = before ++ inner ++ after /\
  adds_nothing (root_style style_of root) st /\ Forall inline_content inner /\
  snd (drawing_calls font_of width_of style_of d root page_size) = Finished /\
  snd (drawing_calls font_of width_of style_of d' root' page_size) = Finished /\
  String.concat "" (flat_map text_of (fst (drawing_calls font_of width_of style_of d root page_size))) = "ab" /\
  String.concat "" (flat_map text_of (fst (drawing_calls font_of width_of style_of d' root' page_size))) = "a b".
Proof.
  exists (@ex_font_of Exact), (@ex_width Exact), wrap_style, spaced_wrap_doc, spaced_bare_doc, spaced_wrap_root, spaced_bare_root, wide_page,
    [SText (txt "a")], (wrap_style 3 (Some (wrap_style 1 None))), [SText (txt " b")], [].
  split; [intros s s' _ _ _ _; reflexivity|]. split; [intros s s' _ _ _ _; reflexivity|]. do 3 (split; [reflexivity|]).
  split; [split; try reflexivity; try (split; reflexivity); try (repeat split; reflexivity); intros l I; repeat (destruct I as [<-|I]; [reflexivity|]); destruct I|].
  split; [repeat constructor|]. repeat split; vm_compute; reflexivity.
Qed.
Print Assumptions C95_refuted.
