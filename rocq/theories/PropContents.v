(** An element with display: contents that only inherits changes nothing that is seen (C98). *)
From Verif Require Import BlockModel InlineModel StyleModel StyleSpec StyleExample GeomModel TreeModel TreeSpec PropTree.
From Verif Require Import Base Len DomModel DomSpec UnsetModel GfxModel PaintModel PaintSpec PaintProofs PropPaint PropText PropAppend.
From Verif Require Import WrapSpec WrapInline WrapBlock WrapTree ContentsSpec ContentsProofs.
Local Open Scope string_scope.
Local Open Scope list_scope.

(** Take away elements with display: contents that have contents, that inherit font, colour, white space and so on, and
    whose last child is not hidden, and leave their contents: the one document is drawn to the end if and only if the other
    is, and everything that was drawn is drawn, in the same order and the same place, and nothing else is. *)
Theorem C98_contents_partial : forall font_of width_of style_of style_of' d d' root root' page_size,
  looks_at_font font_of -> looks_at_font width_of ->
  same_style (root_style style_of root) (root_style style_of' root') ->
  opened (root_style style_of root) (root_kids style_of d root) (root_kids style_of' d' root') ->
  (snd (drawing_calls font_of width_of style_of d root page_size) = Finished <->
   snd (drawing_calls font_of width_of style_of' d' root' page_size) = Finished) /\
  visible (fst (drawing_calls font_of width_of style_of d root page_size)) =
  visible (fst (drawing_calls font_of width_of style_of' d' root' page_size)).
Proof.
  intros font_of width_of so so' d d' root root' page Hf Hw Hs U. unfold drawing_calls.
  assert (C : zout zbfc (construct_document so d root) (construct_document so' d' root')).
  { destruct root as [i ts], root' as [i' ts']. cbn [construct_document root_style root_kids] in *. apply o_construct_root; assumption. }
  set (ma := fun st => f_ascent (font_of st)). set (md := fun st => f_descent (font_of st)).
  assert (Ha : looks_at_font ma) by (intros s s' E1 E2 E3 E4; unfold ma; rewrite (Hf s s' E1 E2 E3 E4); reflexivity).
  assert (Hd : looks_at_font md) by (intros s s' E1 E2 E3 E4; unfold md; rewrite (Hf s s' E1 E2 E3 E4); reflexivity).
  destruct (construct_document so d root) as [b| |], (construct_document so' d' root') as [b'| |]; cbn [zout] in C; try contradiction;
    try (split; [split; discriminate|reflexivity]).
  pose proof (z_layout_root font_of Hf ma md width_of Ha Hd Hw b b' page C) as L.
  destruct (layout_root ma md width_of b page) as [fs| |], (layout_root ma md width_of b' page) as [fs'| |]; cbn [zres] in L; try contradiction;
    try (split; [split; discriminate|reflexivity]).
  destruct (page_seen font_of fs page) as (cs & -> & E). destruct (page_seen font_of fs' page) as (cs' & -> & E').
  cbn [fst snd]. split; [split; reflexivity|]. rewrite E, E'. apply (z_alike font_of _ _ L).
Qed.
Print Assumptions C98_contents_partial.

(** <html>so <x>it<y> <b>is</b></y></x> now<x><p>and</p></x></html> and the same without x and y, which have
    display: contents; p is a block, b is bold and has a border *)
Definition held_doc : doc :=
  Doc [Node None None None (Some 1%nat) (Some 1%nat) DDocument;
       Node (Some 0%nat) None None (Some 2%nat) (Some 10%nat) (DElement (ex_elem "html"));
       Node (Some 1%nat) None (Some 3%nat) None None (DomModel.DText (txt "so "));
       Node (Some 1%nat) (Some 2%nat) (Some 9%nat) (Some 4%nat) (Some 5%nat) (DElement (ex_elem "x"));
       Node (Some 3%nat) None (Some 5%nat) None None (DomModel.DText (txt "it"));
       Node (Some 3%nat) (Some 4%nat) None (Some 6%nat) (Some 7%nat) (DElement (ex_elem "y"));
       Node (Some 5%nat) None (Some 7%nat) None None (DomModel.DText (txt " "));
       Node (Some 5%nat) (Some 6%nat) None (Some 8%nat) (Some 8%nat) (DElement (ex_elem "b"));
       Node (Some 7%nat) None None None None (DomModel.DText (txt "is"));
       Node (Some 1%nat) (Some 3%nat) (Some 10%nat) None None (DomModel.DText (txt " now"));
       Node (Some 1%nat) (Some 9%nat) None (Some 11%nat) (Some 11%nat) (DElement (ex_elem "x"));
       Node (Some 10%nat) None None (Some 12%nat) (Some 12%nat) (DElement (ex_elem "p"));
       Node (Some 11%nat) None None None None (DomModel.DText (txt "and"))] [].
Definition held_root : dtree := DT 1 [DT 2 []; DT 3 [DT 4 []; DT 5 [DT 6 []; DT 7 [DT 8 []]]]; DT 9 []; DT 10 [DT 11 [DT 12 []]]].
Definition open_doc : doc :=
  Doc [Node None None None (Some 1%nat) (Some 1%nat) DDocument;
       Node (Some 0%nat) None None (Some 2%nat) (Some 11%nat) (DElement (ex_elem "html"));
       Node (Some 1%nat) None (Some 4%nat) None None (DomModel.DText (txt "so "));
       Node None None None None None (DElement (ex_elem "x"));
       Node (Some 1%nat) (Some 2%nat) (Some 6%nat) None None (DomModel.DText (txt "it"));
       Node None None None None None (DElement (ex_elem "y"));
       Node (Some 1%nat) (Some 4%nat) (Some 7%nat) None None (DomModel.DText (txt " "));
       Node (Some 1%nat) (Some 6%nat) (Some 9%nat) (Some 8%nat) (Some 8%nat) (DElement (ex_elem "b"));
       Node (Some 7%nat) None None None None (DomModel.DText (txt "is"));
       Node (Some 1%nat) (Some 7%nat) (Some 11%nat) None None (DomModel.DText (txt " now"));
       Node None None None None None (DElement (ex_elem "x"));
       Node (Some 1%nat) (Some 9%nat) None (Some 12%nat) (Some 12%nat) (DElement (ex_elem "p"));
       Node (Some 11%nat) None None None None (DomModel.DText (txt "and"))] [].
Definition open_root : dtree := DT 1 [DT 2 []; DT 4 []; DT 6 []; DT 7 [DT 8 []]; DT 9 []; DT 11 [DT 12 []]].
Definition held_style (i : nat) (parent : option style) : style :=
  css parent match i with
             | 1%nat | 11%nat => [prop "display" "block"]
             | 3%nat | 5%nat | 10%nat => [prop "display" "contents"]
             | 7%nat => [prop "border-left-style" "solid"; prop "font-weight" "bold"]
             | _ => []
             end.
Definition open_page : vec2 Len := Vec2 (px 60) (px 100).
Example C98_case : looks_at_font (@ex_font_of Exact) /\ looks_at_font (@ex_width Exact) /\
  same_style (root_style held_style held_root) (root_style held_style open_root) /\
  opened (root_style held_style held_root) (root_kids held_style held_doc held_root) (root_kids held_style open_doc open_root) /\
  snd (drawing_calls ex_font_of ex_width held_style held_doc held_root open_page) = Finished /\
  places (fst (drawing_calls ex_font_of ex_width held_style held_doc held_root open_page)) =
    [("so it ", 0, 68#5); ("is", 0, 164#5); (" now", 16, 164#5); ("and", 0, 52)]%Q.
Proof.
  split; [intros s s' _ _ _ _; reflexivity|]. split; [intros s s' _ _ _ _; reflexivity|]. split; [split; reflexivity|].
  split; [|split; vm_compute; reflexivity].
  set (h := held_style 1 None). set (x := held_style 3 (Some h)). set (y := held_style 5 (Some x)). set (x2 := held_style 10 (Some h)).
  change (root_kids held_style held_doc held_root) with
    [SText (txt "so "); SElem false x [SText (txt "it"); SElem false y [SText (txt " "); SElem false (held_style 7 (Some y)) [SText (txt "is")]]]; SText (txt " now");
     SElem false x2 [SElem false (held_style 11 (Some x2)) [SText (txt "and")]]].
  change (root_kids held_style open_doc open_root) with
    ([SText (txt "so ")] ++ ([SText (txt "it")] ++ [SText (txt " "); SElem false (held_style 7 (Some h)) [SText (txt "is")]] ++ []) ++ [SText (txt " now")] ++
     [SElem false (held_style 11 (Some h)) [SText (txt "and")]] ++ []).
  assert (An : forall i q, (i = 3 \/ i = 5 \/ i = 10)%nat -> only_passes_on q (held_style i (Some q))).
  { intros i q [-> | [-> | ->]]; (split; [vm_compute; reflexivity|]; intros l I; repeat (destruct I as [<-|I]; [reflexivity|]); destruct I). }
  assert (S1 : forall q, same_style (held_style 7 (Some (held_style 5 (Some (held_style 3 (Some q)))))) (held_style 7 (Some q))).
  { intros q; (split; [intros l; destruct l|]; vm_compute; reflexivity). }
  assert (S2 : forall q, same_style (held_style 11 (Some (held_style 10 (Some q)))) (held_style 11 (Some q))).
  { intros q; (split; [intros l; destruct l|]; vm_compute; reflexivity). }
  assert (T : forall t, opened_node (SText t) (SText t)) by (intros t; constructor; constructor).
  assert (F : forall t, Forall2 same_node [SText t] [SText t]) by (intros t; constructor; [constructor|constructor]).
  cbn [app]. apply O_node; [apply T|]. apply (O_here h x _ [SText (txt "it"); SText (txt " "); SElem false (held_style 7 (Some h)) [SText (txt "is")]]); [apply An; auto| | |].
  - eexists [_], _. split; [reflexivity|]. cbv beta iota. vm_compute. discriminate.
  - apply O_node; [apply T|]. apply (O_here x y _ [SText (txt " "); SElem false (held_style 7 (Some h)) [SText (txt "is")]] [] []); [apply An; auto| | |constructor].
    + eexists [_], _. split; [reflexivity|]. cbv beta iota. vm_compute. discriminate.
    + apply O_node; [apply T|]. apply O_node; [|constructor]. apply ON_same. constructor; [apply S1|apply F].
  - apply O_node; [apply T|]. apply (O_here h x2 _ [SElem false (held_style 11 (Some h)) [SText (txt "and")]] [] []); [apply An; auto| | |constructor].
    + eexists [], _. split; [reflexivity|]. cbv beta iota. vm_compute. discriminate.
    + apply O_node; [|constructor]. apply ON_same. constructor; [apply S2|apply F].
Qed.

(** The condition on the last child is needed: <html><x>a<i></i></x>b</html>, where x has display: contents and i
    display: none, is not drawn; without x it is (cf. C43). *)
Definition late_doc : doc :=
  Doc [Node None None None (Some 1%nat) (Some 1%nat) DDocument;
       Node (Some 0%nat) None None (Some 2%nat) (Some 5%nat) (DElement (ex_elem "html"));
       Node (Some 1%nat) None (Some 5%nat) (Some 3%nat) (Some 4%nat) (DElement (ex_elem "x"));
       Node (Some 2%nat) None (Some 4%nat) None None (DomModel.DText (txt "a"));
       Node (Some 2%nat) (Some 3%nat) None None None (DElement (ex_elem "i"));
       Node (Some 1%nat) (Some 2%nat) None None None (DomModel.DText (txt "b"))] [].
Definition late_root : dtree := DT 1 [DT 2 [DT 3 []; DT 4 []]; DT 5 []].
Definition soon_doc : doc :=
  Doc [Node None None None (Some 1%nat) (Some 1%nat) DDocument;
       Node (Some 0%nat) None None (Some 3%nat) (Some 5%nat) (DElement (ex_elem "html"));
       Node None None None None None (DElement (ex_elem "x"));
       Node (Some 1%nat) None (Some 4%nat) None None (DomModel.DText (txt "a"));
       Node (Some 1%nat) (Some 3%nat) (Some 5%nat) None None (DElement (ex_elem "i"));
       Node (Some 1%nat) (Some 4%nat) None None None (DomModel.DText (txt "b"))] [].
Definition soon_root : dtree := DT 1 [DT 3 []; DT 4 []; DT 5 []].
Definition late_style (i : nat) (parent : option style) : style :=
  css parent match i with
             | 1%nat => [prop "display" "block"]
             | 2%nat => [prop "display" "contents"]
             | 4%nat => [prop "display" "none"]
             | _ => []
             end.
Theorem C98_refuted : exists font_of width_of style_of d d' root root' page_size st inner inner' after,
  looks_at_font font_of /\ looks_at_font width_of /\ root_style style_of root' = root_style style_of root /\
  root_kids style_of d root = SElem false st inner :: after /\ root_kids style_of d' root' = inner' ++ after /\
  Forall2 same_node inner inner' /\ only_passes_on (root_style style_of root) st /\
  snd (drawing_calls font_of width_of style_of d root page_size) <> Finished /\
  snd (drawing_calls font_of width_of style_of d' root' page_size) = Finished.
Proof.
  set (h := late_style 1 None). set (x := late_style 2 (Some h)).
  exists (@ex_font_of Exact), (@ex_width Exact), late_style, late_doc, soon_doc, late_root, soon_root, open_page,
    x, [SText (txt "a"); SElem false (late_style 4 (Some x)) []], [SText (txt "a"); SElem false (late_style 4 (Some h)) []], [SText (txt "b")].
  split; [intros s s' _ _ _ _; reflexivity|]. split; [intros s s' _ _ _ _; reflexivity|]. do 3 (split; [reflexivity|]).
  split.
  { assert (S : forall q, same_style (late_style 4 (Some (late_style 2 (Some q)))) (late_style 4 (Some q))) by (intros q; (split; [intros l; destruct l|]; vm_compute; reflexivity)).
    constructor; [constructor|]. constructor; [|constructor]. constructor; [apply S|constructor]. }
  split; [split; [vm_compute; reflexivity|]; intros l I; repeat (destruct I as [<-|I]; [reflexivity|]); destruct I|].
  split; vm_compute; [discriminate|reflexivity].
Qed.
Print Assumptions C98_refuted.
