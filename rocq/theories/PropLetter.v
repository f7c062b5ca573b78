(** Letters matter only through their widths (C101). *)
From Verif Require Import StyleModel StyleSpec StyleExample GeomModel InlineModel BlockModel TreeModel TreeSpec PropStyle PropTree PaintModel PaintSpec PropPaint PropText PropAppend.
From Verif Require Import Base DomModel DomSpec GfxModel CStrModel LetterSpec LetterProofs.
Local Open Scope string_scope.
Local Open Scope list_scope.
Local Open Scope result_scope.

(** Write every text of a document in other letters, one for one, of another number of bytes or not: keep white space and
    hyphens, and let all texts be as wide as they were.  Then the same calls are made in the same order - the same boxes,
    lines and backgrounds, and the same texts in other letters, broken at the same places, at the same positions - and the
    rendering ends in the same way. *)
Theorem C101_letters {ar : Arith} : forall f font_of width_of style_of, keeps_special f -> as_wide f width_of ->
  forall d root page,
  Forall2 (relettered f) (fst (drawing_calls font_of width_of style_of d root page))
    (fst (drawing_calls font_of width_of style_of (reletter f d) root page)) /\
  snd (drawing_calls font_of width_of style_of (reletter f d) root page) = snd (drawing_calls font_of width_of style_of d root page).
Proof.
  intros f fo wo so Hf Hw d root page. apply (z_drawing f Hf so (Forall2 (relettered f))); auto.
  - intros a a' b b' A B. apply Forall2_app; assumption.
  - intros. repeat constructor.
  - intros st st' t x y fn <-. repeat constructor.
  - intros st st' ps w k <-. repeat constructor.
  - intros st st' b <-. unfold paint_background. cbv zeta. match goal with |- context [if ?x then _ else _] => destruct x end; repeat constructor.
  - intros s s' <-. reflexivity.
Qed.
Print Assumptions C101_letters.

(** An a of one byte becomes an e with an accent, of two bytes, and a b the euro sign, of three; the text is broken at a
    space and after a hyphen, where the layout returns to a break opportunity by the number of bytes. *)
Definition foreign (c : char) : char := if N.eqb c 97 then 233%N else if N.eqb c 98 then 8364%N else c.
Definition letter_doc : doc :=
  Doc [Node None None None (Some 1%nat) (Some 1%nat) DDocument;
       Node (Some 0%nat) None None (Some 2%nat) (Some 2%nat) (DElement (ex_elem "html"));
       Node (Some 1%nat) None None (Some 3%nat) (Some 3%nat) (DElement (ex_elem "p"));
       Node (Some 2%nat) None None None None (DomModel.DText (txt "ab aba b-aabb"))] [].
Definition letter_root : dtree := DT 1 [DT 2 [DT 3 []]].
Example C101_case : keeps_special foreign /\ as_wide foreign ex_width /\ styles_computed ex_ct spaced /\
  snd (drawing_calls ex_font_of ex_width spaced letter_doc letter_root ex_page) = Finished /\
  places (fst (drawing_calls ex_font_of ex_width spaced letter_doc letter_root ex_page)) =
    [("ab", 0, 118#5); ("aba b-", 0, 214#5); ("aabb", 0, 62)]%Q /\
  places (fst (drawing_calls ex_font_of ex_width spaced (reletter foreign letter_doc) letter_root ex_page)) =
    [("é€", 0, 118#5); ("é€é €-", 0, 214#5); ("éé€€", 0, 62)]%Q.
Proof.
  split.
  { intros c. unfold foreign, special. split.
    - cbn. intros [<-|[<-|[<-|[<-|[<-|[<-|[]]]]]]]; reflexivity.
    - intros H. destruct (N.eqb c 97); [cbn; intuition discriminate|]. destruct (N.eqb c 98); [cbn; intuition discriminate|exact H]. }
  split. { intros st t. unfold ex_width. rewrite map_length. reflexivity. }
  split.
  { intros i parent. apply css_computed. cbn [style_for_element]. destruct (parse_block _ _) eqn:E; [reflexivity|vm_compute in E; discriminate..]. }
  split; [vm_compute; reflexivity|]. split; vm_compute; reflexivity.
Qed.
