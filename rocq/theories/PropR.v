(** C74-C77: the R functions html_grob, draw_html and the measuring of grobs. *)
From Verif Require Import GfxModel Base Len InlineProofs RModel RSpec RProofs.
Local Open Scope list_scope.
Local Open Scope len_scope.
Local Open Scope result_scope.

(** C74.  Measuring and drawing an HTML grob never fail and leave the stack of viewports as it was, whatever the
    stack, whatever viewports the grob has of its own, and whatever the renderer answers. *)
Theorem C74_stack_unchanged : forall renderer g x, vp_ok (h_vp x) ->
  (exists m, make_context renderer g x = Ok (m, g)) /\
  (exists gs a, draw renderer g x = Ok (gs, a, g)).
Proof.
  intros renderer g x Hvp. destruct (draw_ok renderer g x Hvp) as (m & b & Em & Ed & _). split; eauto.
Qed.
Print Assumptions C74_stack_unchanged.

Definition device : area := Area l0 l0 (px 7) (px 7).
Definition half_viewport : viewport := Viewport (Unit (px (1#2)) l0) (Unit (px (1#2)) l0) (Unit (px (1#2)) l0) (Unit l0 (px 2)) (px (1#2)) (px (1#2)).
(** a renderer that fills 1 inch of the page, from the top, and draws one text *)
Definition one_line : text -> text -> Len -> Len -> list grob * option bbox :=
  fun t css w h => ([RectGrob l0 (- px (1#2)) w (px 1) l0 l0 (GPar "#000000" "#FFFFFF" "" 1 (px 12) (px 1) (LtyInt 1) (px 1) "butt")], Some (l0, - px 1, ldiv w (px 96), l0)).
Definition plain_grob (vp : option (list viewport)) (hjust vjust : Len) : html :=
  html_grob (fun n => Unit n l0) [Some (txt "Hello"); None] Null (Number (px (1#2))) (AUnit (Unit l0 (px 3))) Null
    hjust vjust [txt ""] vp.

(** two viewports of its own, at the top and inside another viewport *)
Example C74_case :
  vp_ok (h_vp (plain_grob (Some [half_viewport; half_viewport]) l0 l0)) /\
  (let g := push (Grid [] device) [half_viewport] in
   exists m, make_context one_line g (plain_grob (Some [half_viewport; half_viewport]) l0 l0) = Ok (m, g) /\
     m_width m = px 3 /\ m_height m = px 1 /\ length (m_vp m) = 3%nat).
Proof.
  split; [discriminate |]. eexists. split; [vm_compute; reflexivity |].
  repeat split; apply Qc_is_canon; vm_compute; reflexivity.
Qed.

(** C75.  The size of a grob: the page is as large as asked for, measured in the grob's own viewports, and where
    nothing is asked for as large as the viewport; the size reported afterwards is that asked for, else that of the
    bounding box of what was drawn, else that of the viewport.  The descent is zero, so the ascent is the height. *)
Theorem C75_sizes : forall renderer g x t ts css csss, vp_ok (h_vp x) ->
  h_text x = t :: ts -> h_css x = css :: csss ->
  let a := own_area g (h_vp x) in
  let page_width := available (h_width x) (a_width a) * px 96 in
  let page_height := available (h_height x) (a_height a) * px 96 in
  let '(grobs, bb) := renderer t css page_width page_height in
  exists m, make_context renderer g x = Ok (m, g) /\ m_children m = grobs /\
    width_details m = Unit l0 (reported (h_width x) (option_map box_width bb) (a_width a)) /\
    height_details m = Unit l0 (reported (h_height x) (option_map box_height bb) (a_height a)) /\
    ascent_details m = height_details m /\ descent_details m = Unit l0 l0.
Proof.
  intros renderer g x t ts css csss Hvp Et Ec. cbv zeta.
  destruct (make_ok renderer g x Hvp) as (m & E & Ech & Ew & Eh & _). rewrite Et, Ec in *. cbn [render_markdown] in *.
  destruct (renderer t css _ _) as [grobs bb]. cbn [fst snd] in *. exists m.
  unfold width_details, height_details, ascent_details, descent_details. rewrite Ew, Eh. repeat split; auto.
Qed.
Print Assumptions C75_sizes.
(** The arguments of html_grob: NULL positions are taken from the justification, numbers are in the default units. *)
Theorem C75_arguments : forall default text x y width height hjust vjust css vp,
  let h := html_grob default text x y width height hjust vjust css vp in
  (forall n, x = Number n -> h_x h = default n) /\ (forall u, x = AUnit u -> h_x h = u) /\ (x = Null -> h_x h = Unit hjust l0) /\
  (forall n, y = Number n -> h_y h = default n) /\ (forall u, y = AUnit u -> h_y h = u) /\ (y = Null -> h_y h = Unit vjust l0) /\
  (forall n, width = Number n -> h_width h = Some (default n)) /\ (forall u, width = AUnit u -> h_width h = Some u) /\
  (width = Null -> h_width h = None) /\
  (forall n, height = Number n -> h_height h = Some (default n)) /\ (forall u, height = AUnit u -> h_height h = Some u) /\
  (height = Null -> h_height h = None) /\
  h_hjust h = hjust /\ h_vjust h = vjust /\ h_css h = css /\ h_vp h = vp /\
  (forall n, nth_error (h_text h) n = match nth_error text n with
     | Some (Some t) => Some t | Some None => Some [] | None => None end).
Proof.
  intros default text x y width height hjust vjust css vp h. subst h.
  repeat split; intros; subst; try reflexivity.
  unfold html_grob. cbn [h_text]. revert n. induction text as [|[t|] r IH]; intros [|n]; cbn; auto.
Qed.
Print Assumptions C75_arguments.
Example C75_case : exists t ts css csss, let x := plain_grob (Some [half_viewport]) l0 l0 in vp_ok (h_vp x) /\
  h_text x = t :: ts /\ h_css x = css :: csss /\ ts = [[]] /\
  a_width (own_area (Grid [] device) (h_vp x)) = px (7#2).
Proof. do 4 eexists. split; [discriminate |]. repeat split; try reflexivity. Qed.

(** C76.  The place of a grob: the upper left corner of the page is where it would be if a box of the reported size had
    its reference point (hjust, vjust) at (x, y) of the grob's viewport. *)
Definition justification_respected renderer (g : grid) (x : html) : Prop :=
  let a := own_area g (h_vp x) in
  exists m b gs, make_context renderer g x = Ok (m, g) /\ draw renderer g x = Ok (gs, b, g) /\
    forall u v, drawn_at b u v =
      justified a (measured (h_x x) (a_width a)) (measured (h_y x) (a_height a)) (m_width m) (m_height m)
        (h_hjust x) (h_vjust x) u v.
Theorem C76_refuted : ~ (forall renderer g x, vp_ok (h_vp x) -> justification_respected renderer g x).
Proof.
  intros H. destruct (H one_line (Grid [] device) (plain_grob None (px (1#2)) (px (1#2))) ltac:(discriminate))
    as (m & b & gs & Em & Ed & Hp).
  specialize (Hp l0 l0). assert (F : forall m' b' gs',
    make_context one_line (Grid [] device) (plain_grob None (px (1#2)) (px (1#2))) = Ok (m', Grid [] device) ->
    draw one_line (Grid [] device) (plain_grob None (px (1#2)) (px (1#2))) = Ok (gs', b', Grid [] device) ->
    let a := device in let x := plain_grob None (px (1#2)) (px (1#2)) in
    andb (leqb (fst (drawn_at b' l0 l0)) (fst (justified a (measured (h_x x) (a_width a)) (measured (h_y x) (a_height a)) (m_width m') (m_height m') (h_hjust x) (h_vjust x) l0 l0)))
         (leqb (snd (drawn_at b' l0 l0)) (snd (justified a (measured (h_x x) (a_width a)) (measured (h_y x) (a_height a)) (m_width m') (m_height m') (h_hjust x) (h_vjust x) l0 l0))) = false).
  { intros m' b' gs' E1 E2. vm_compute in E1. vm_compute in E2. injection E1 as <-. injection E2 as _ <-. vm_compute. reflexivity. }
  specialize (F m b gs Em Ed). cbv zeta in F. change (own_area (Grid [] device) (h_vp (plain_grob None (px (1#2)) (px (1#2))))) with device in Hp.
  rewrite Hp in F. rewrite !(proj2 (leqb_iff _ _)) in F by reflexivity. discriminate F.
Qed.
Print Assumptions C76_refuted.
(** It is respected exactly if the box fills the viewport's width or is not justified horizontally, and the box is not
    justified vertically (or has minus the height of the viewport). *)
Theorem C76_exactly_partial : forall renderer g x m, vp_ok (h_vp x) -> make_context renderer g x = Ok (m, g) ->
  let a := own_area g (h_vp x) in
  (justification_respected renderer g x <->
   h_hjust x * (a_width a - m_width m) = l0 /\ (px 1 - h_vjust x) * (a_height a + m_height m) = l0).
Proof.
  intros renderer g x m Hvp Em a. destruct (draw_ok renderer g x Hvp) as (m' & b & Em' & Ed & El & Eb). fold a in El, Eb.
  assert (m' = m) by congruence. subst m'. unfold justification_respected. fold a. split.
  - intros (m1 & b1 & gs1 & E1 & E2 & Hp). assert (m1 = m) by congruence. assert (b1 = b) by congruence. subst m1 b1.
    specialize (Hp l0 l0). unfold drawn_at, justified in Hp. rewrite El, Eb in Hp.
    pose proof (f_equal fst Hp) as Hx. pose proof (f_equal snd Hp) as Hy. cbn [fst snd] in Hx, Hy.
    set (X := measured (h_x x) (a_width a)) in *. set (Y := measured (h_y x) (a_height a)) in *. split.
    + transitivity (a_left a + X - h_hjust x * m_width m + l0 - (a_left a + (X - h_hjust x * a_width a) + l0)); [lring |].
      rewrite Hx. lring.
    + transitivity (a_bottom a + Y + (px 1 - h_vjust x) * m_height m + l0
                    - (a_bottom a + (Y - (px 1 - h_vjust x) * a_height a) + l0)); [lring |].
      rewrite Hy. lring.
  - intros [Hx Hy]. exists m, b, (m_children m). split; [assumption |]. split; [assumption |]. intros u v.
    unfold drawn_at, justified. rewrite El, Eb.
    set (X := measured (h_x x) (a_width a)). set (Y := measured (h_y x) (a_height a)). f_equal.
    + transitivity (a_left a + X - h_hjust x * m_width m + u - h_hjust x * (a_width a - m_width m)); [lring |].
      rewrite Hx. lring.
    + transitivity (a_bottom a + Y + (px 1 - h_vjust x) * m_height m + v - (px 1 - h_vjust x) * (a_height a + m_height m)); [lring |].
      rewrite Hy. lring.
Qed.
Print Assumptions C76_exactly_partial.
(** In particular for hjust = 0 and vjust = 1, the defaults: the upper left corner of the page is at (x, y). *)
Theorem C76_default_partial : forall renderer g x, vp_ok (h_vp x) -> h_hjust x = l0 -> h_vjust x = px 1 ->
  justification_respected renderer g x /\
  exists b gs, draw renderer g x = Ok (gs, b, g) /\
    drawn_at b l0 l0 = (a_left (own_area g (h_vp x)) + measured (h_x x) (a_width (own_area g (h_vp x))),
                        a_bottom (own_area g (h_vp x)) + measured (h_y x) (a_height (own_area g (h_vp x)))).
Proof.
  intros renderer g x Hvp Hh Hv. destruct (draw_ok renderer g x Hvp) as (m & b & Em & Ed & El & Eb). split.
  - apply (C76_exactly_partial renderer g x m Hvp Em). rewrite Hh, Hv. split; lring.
  - exists b, (m_children m). split; [assumption |]. unfold drawn_at. rewrite El, Eb, Hh, Hv. f_equal; lring.
Qed.
Print Assumptions C76_default_partial.
Example C76_case : exists m, let x := plain_grob (Some [half_viewport]) l0 (px 1) in
  vp_ok (h_vp x) /\ h_hjust x = l0 /\ h_vjust x = px 1 /\ make_context one_line (Grid [] device) x = Ok (m, Grid [] device).
Proof. eexists. split; [discriminate |]. split; [reflexivity |]. split; [reflexivity |]. vm_compute. reflexivity. Qed.

(** C77.  Every text of a vector is rendered: adding texts to a vector changes what is drawn, if the renderer can tell.
    Refuted: only the first text, and the first style sheet, have any effect. *)
Theorem C77_refuted : exists default x y w h hj vj css vp t t',
  forall renderer g, draw renderer g (html_grob default [t; t'] x y w h hj vj css vp) =
                     draw renderer g (html_grob default [t] x y w h hj vj css vp).
Proof.
  exists (fun n => Unit n l0), Null, Null, Null, Null, l0, l0, [[]], None, (Some (txt "a")), (Some (txt "b")). reflexivity.
Qed.
Print Assumptions C77_refuted.
Theorem C77_first_only_partial : forall renderer g default t ts x y w h hj vj css csss vp,
  let all := html_grob default (t :: ts) x y w h hj vj (css :: csss) vp in
  let first := html_grob default [t] x y w h hj vj [css] vp in
  make_context renderer g all = make_context renderer g first /\ draw renderer g all = draw renderer g first.
Proof. intros. split; reflexivity. Qed.
Print Assumptions C77_first_only_partial.
(** Nothing is drawn, and the size is that of the viewport or as asked for, if there is no text or no style sheet;
    NA is rendered as the empty text. *)
Theorem C77_nothing_partial : forall renderer g x, vp_ok (h_vp x) -> h_text x = [] \/ h_css x = [] ->
  exists m, make_context renderer g x = Ok (m, g) /\ m_children m = [] /\
    m_width m = available (h_width x) (a_width (own_area g (h_vp x))) /\
    m_height m = available (h_height x) (a_height (own_area g (h_vp x))).
Proof.
  intros renderer g x Hvp He. destruct (make_ok renderer g x Hvp) as (m & E & Ech & Ew & Eh & _). exists m.
  replace (render_markdown renderer (h_text x) (h_css x) (available (h_width x) (a_width (own_area g (h_vp x))))
    (available (h_height x) (a_height (own_area g (h_vp x))))) with (@nil grob, @None bbox) in *
    by (destruct He as [He | He]; rewrite He; [|destruct (h_text x)]; reflexivity).
  cbn [fst snd option_map] in *. rewrite Ech, Ew, Eh. repeat split; auto.
Qed.
Print Assumptions C77_nothing_partial.
Example C77_case : let x := html_grob (fun n => Unit n l0) [] Null Null Null Null l0 l0 [[]] (Some [half_viewport]) in
  vp_ok (h_vp x) /\ (h_text x = [] \/ h_css x = []).
Proof. split; [discriminate | now left]. Qed.
