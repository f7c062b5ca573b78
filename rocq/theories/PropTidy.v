(** Comments and the amount of white space in the source do not show (C85). *)
From Verif Require Import BlockModel StyleModel StyleSpec StyleExample GeomModel TreeModel TreeSpec TreeFacts TreeText PropTree.
From Verif Require Import Base DomModel DomSpec UnsetModel PaintModel PaintSpec PropPaint PropText TidySpec TidyProofs.
Local Open Scope string_scope.
Local Open Scope list_scope.

(* ------------------------------------------------------------------ *)
(** * What counts as formatting *)

Lemma tidy_text_cons {ar : Arith} st t l : tidy st (SText t :: l) =
  match tidy st l with SText u :: r => SText (tidy_text st (t ++ u)) :: r | r => SText (tidy_text st t) :: r end.
Proof. reflexivity. Qed.
Lemma tidy_elem_cons {ar : Arith} st br st' kids l : tidy st (SElem br st' kids :: l) = SElem br st' (tidy st' kids) :: tidy st l.
Proof. reflexivity. Qed.
Lemma tidy_prefix {ar : Arith} st l l1 l2 : tidy st l1 = tidy st l2 -> tidy st (l ++ l1) = tidy st (l ++ l2).
Proof.
  intros H. induction l as [|n l IH]; [exact H|]. cbn [app]. destruct n as [t| |br st' kids]; [rewrite !tidy_text_cons, IH; reflexivity|exact IH|].
  rewrite !tidy_elem_cons, IH. reflexivity.
Qed.

(** A comment may be put anywhere. *)
Theorem C85_comment {ar : Arith} : forall st before after, tidy st (before ++ SOther :: after) = tidy st (before ++ after).
Proof. intros st before after. apply tidy_prefix. reflexivity. Qed.
Print Assumptions C85_comment.

(** Where white space collapses, a run of it may be any other. *)
Theorem C85_white_space {ar : Arith} : forall st before t t' after, sv st Lwhite_space = WSNormal \/ sv st Lwhite_space = WSNowrap ->
  squeeze false t = squeeze false t' -> tidy st (before ++ SText t :: after) = tidy st (before ++ SText t' :: after).
Proof.
  intros st before t t' after W E. apply tidy_prefix. rewrite !tidy_text_cons.
  assert (S1 : forall u, tidy_text st (t ++ u) = tidy_text st (t' ++ u)).
  { intros u. unfold tidy_text. assert (X : squeeze false (t ++ u) = squeeze false (t' ++ u)).
    { change false with (at_boundary (Some false)). rewrite !squeeze_app. cbn [at_boundary]. rewrite E. reflexivity. }
    destruct W as [-> | ->]; exact X. }
  pose proof (S1 []) as S0. rewrite !app_nil_r in S0. destruct (tidy st after) as [|[u| |br st' ks] r]; rewrite ?S0, ?S1; reflexivity.
Qed.
Print Assumptions C85_white_space.

(** The same inside a child. *)
Theorem C85_inside {ar : Arith} : forall st before br st' kids kids' after, tidy st' kids = tidy st' kids' ->
  tidy st (before ++ SElem br st' kids :: after) = tidy st (before ++ SElem br st' kids' :: after).
Proof. intros st before br st' kids kids' after H. apply tidy_prefix. rewrite !tidy_elem_cons, H. reflexivity. Qed.
Print Assumptions C85_inside.

(* ------------------------------------------------------------------ *)
(** * It does not show *)

(** Two documents that differ in formatting only and can both be drawn get the same drawing calls.
    MISSING: that the one can be drawn if the other can (C85_refuted). *)
Theorem C85_same_drawing_partial {ar : Arith} : forall font_of width_of style_of style_of' d d' root root' page_size,
  root_style style_of root = root_style style_of' root' ->
  tidy (root_style style_of root) (root_kids style_of d root) = tidy (root_style style_of root) (root_kids style_of' d' root') ->
  snd (drawing_calls font_of width_of style_of d root page_size) = Finished ->
  snd (drawing_calls font_of width_of style_of' d' root' page_size) = Finished ->
  fst (drawing_calls font_of width_of style_of d root page_size) = fst (drawing_calls font_of width_of style_of' d' root' page_size).
Proof.
  intros font_of width_of style_of style_of' d d' [i ts] [i' ts'] page. cbn [root_style root_kids]. intros S1 T. unfold drawing_calls. cbn [construct_document].
  rewrite <- S1 in *.
  destruct (construct_root (style_of i None) (map (styled style_of d (style_of i None)) ts)) as [r| |] eqn:E; [|intros [=]..].
  destruct (construct_root (style_of i None) (map (styled style_of' d' (style_of i None)) ts')) as [r'| |] eqn:E'; [|intros _ [=]..].
  rewrite (same_boxes _ _ _ _ _ T E E'). reflexivity.
Qed.
Print Assumptions C85_same_drawing_partial.

(** If no element is hidden, formatting does not even change whether and how drawing fails. *)
Theorem C85_same_outcome {ar : Arith} : forall font_of width_of style_of style_of' d d' root root' page_size,
  root_style style_of root = root_style style_of' root' ->
  tidy (root_style style_of root) (root_kids style_of d root) = tidy (root_style style_of root) (root_kids style_of' d' root') ->
  Forall nothing_hidden (root_kids style_of d root) -> Forall nothing_hidden (root_kids style_of' d' root') ->
  drawing_calls font_of width_of style_of d root page_size = drawing_calls font_of width_of style_of' d' root' page_size.
Proof.
  intros font_of width_of style_of style_of' d d' [i ts] [i' ts'] page. cbn [root_style root_kids]. intros S1 T H H'. unfold drawing_calls. cbn [construct_document].
  rewrite <- S1 in *. rewrite (same_outcome _ _ _ T H H'). reflexivity.
Qed.
Print Assumptions C85_same_outcome.

(** FINDING: a comment can decide whether a document is drawn at all.  Behind a hidden last element it keeps the
    process from aborting (C43). *)
Definition hidden_doc (comment : bool) : doc :=
  Doc ([Node None None None (Some 1%nat) (Some 1%nat) DDocument;
        Node (Some 0%nat) None None (Some 2%nat) (Some (if comment then 4%nat else 3%nat)) (DElement (ex_elem "html"));
        Node (Some 1%nat) None (Some 3%nat) None None (DomModel.DText (txt "hi"));
        Node (Some 1%nat) (Some 2%nat) (if comment then Some 4%nat else None) None None (DElement (ex_elem "script"))] ++
       (if comment then [Node (Some 1%nat) (Some 3%nat) None None None DComment] else [])) [].
Definition hidden_root (comment : bool) : dtree := DT 1 ([DT 2 []; DT 3 []] ++ if comment then [DT 4 []] else []).
Definition hidden_styles {ar : Arith} (i : nat) (parent : option style) : style :=
  match i with 3%nat => css parent [prop "display" "none"] | _ => css parent [prop "display" "block"] end.
Theorem C85_refuted :
  root_kids hidden_styles (hidden_doc true) (hidden_root true) =
    root_kids hidden_styles (hidden_doc false) (hidden_root false) ++ [SOther] /\
  flat_map text_of (fst (drawing_calls ex_font_of ex_width hidden_styles (hidden_doc true) (hidden_root true) ex_page)) = ["hi"] /\
  snd (drawing_calls ex_font_of ex_width hidden_styles (hidden_doc true) (hidden_root true) ex_page) = Finished /\
  drawing_calls ex_font_of ex_width hidden_styles (hidden_doc false) (hidden_root false) ex_page = ([], Killed).
Proof. split; [reflexivity|]. split; [|split]; vm_compute; reflexivity. Qed.
Print Assumptions C85_refuted.

(** <html><p>hi  you</p></html> and, with line breaks and comments, the same page. *)
Definition plain_doc : doc :=
  Doc [Node None None None (Some 1%nat) (Some 1%nat) DDocument;
       Node (Some 0%nat) None None (Some 2%nat) (Some 2%nat) (DElement (ex_elem "html"));
       Node (Some 1%nat) None None (Some 3%nat) (Some 3%nat) (DElement (ex_elem "p"));
       Node (Some 2%nat) None None None None (DomModel.DText (txt "hi  you"))] [].
Definition plain_root : dtree := DT 1 [DT 2 [DT 3 []]].
Definition noted_doc : doc :=
  Doc [Node None None None (Some 1%nat) (Some 1%nat) DDocument;
       Node (Some 0%nat) None None (Some 2%nat) (Some 3%nat) (DElement (ex_elem "html"));
       Node (Some 1%nat) None (Some 3%nat) None None DComment;
       Node (Some 1%nat) (Some 2%nat) None (Some 4%nat) (Some 6%nat) (DElement (ex_elem "p"));
       Node (Some 3%nat) None (Some 5%nat) None None (DomModel.DText (txt "hi "));
       Node (Some 3%nat) (Some 4%nat) (Some 6%nat) None None DComment;
       Node (Some 3%nat) (Some 5%nat) None None None (DomModel.DText (nl :: txt " you"))] [].
Definition noted_root : dtree := DT 1 [DT 2 []; DT 3 [DT 4 []; DT 5 []; DT 6 []]].
Definition block_styles {ar : Arith} (i : nat) (parent : option style) : style := css parent [prop "display" "block"].
Example C85_case :
  tidy (root_style block_styles plain_root) (root_kids block_styles plain_doc plain_root) =
    tidy (root_style block_styles plain_root) (root_kids block_styles noted_doc noted_root) /\
  Forall nothing_hidden (root_kids block_styles plain_doc plain_root) /\ Forall nothing_hidden (root_kids block_styles noted_doc noted_root) /\
  root_kids block_styles plain_doc plain_root <> root_kids block_styles noted_doc noted_root /\
  flat_map text_of (fst (drawing_calls ex_font_of ex_width block_styles noted_doc noted_root ex_page)) = ["hi"; "you"] /\
  snd (drawing_calls ex_font_of ex_width block_styles plain_doc plain_root ex_page) = Finished /\
  snd (drawing_calls ex_font_of ex_width block_styles noted_doc noted_root ex_page) = Finished.
Proof.
  split; [vm_compute; reflexivity|]. split; [repeat (constructor; try (right; vm_compute; discriminate))|].
  split; [repeat (constructor; try (right; vm_compute; discriminate))|]. split; [intros H; discriminate|]. split; [|split]; vm_compute; reflexivity.
Qed.
