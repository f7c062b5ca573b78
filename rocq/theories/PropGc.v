(** C68, C69, C70: R's memory is used safely, whenever its garbage collector runs. *)
From Verif Require Import GcModel GcSpec GcProofs.
Local Open Scope prog_scope.

(** A state of R for the examples: the global environment and nothing else. *)
Definition ex_state : state :=
  State (fun j => if Nat.eqb j 0 then Some (Obj Env [] []) else None) 1 [] [] [0] [] 0.
Lemma ex_inv : inv ex_state.
Proof.
  split.
  - intros j H. rewrite app_nil_r in H. assert (j = 0) as ->; [|discriminate].
    induction H as [i [<-|[]]|i o j H -> Ho Hp]; [reflexivity|]. injection Ho as <-. destruct Hp as [[]|[]].
  - intros j H. cbn in *. destruct j; [lia | reflexivity].
Qed.

(* ------------------------------------------------------------------ *)
(** * C68: no call uses memory that was freed *)

(** Rendering, whatever is drawn and however often, whatever R code does in between and whenever the collector runs *)
Theorem C68_render : forall qs s, inv s -> ~ exec (C_render_markdown qs) s Faults.
Proof. intros qs s I E. exact (wp_sound _ _ _ _ (render_spec qs s I) E). Qed.
Print Assumptions C68_render.

Theorem C68_md_to_html : forall n s, inv s -> ~ exec (C_md_to_html n) s Faults.
Proof. intros n s I E. exact (wp_sound _ _ _ _ (md_spec n s I) E). Qed.
Print Assumptions C68_md_to_html.

(** The functions callable from R; R keeps their arguments alive. *)
Theorem C68_callbacks : forall s, inv s ->
  (forall label x y hjust vjust gp, incl [label; x; y; hjust; vjust; gp] (st_ext s) -> ~ exec (text_grob label x y hjust vjust gp) s Faults) /\
  (forall x y w h hjust vjust gp, incl [x; y; w; h; hjust; vjust; gp] (st_ext s) -> ~ exec (rect_grob x y w h hjust vjust gp) s Faults) /\
  (forall x y gp, incl [x; y; gp] (st_ext s) -> ~ exec (lines_grob x y gp) s Faults) /\
  (forall x, In x (st_ext s) -> ~ exec (unit_in x) s Faults) /\
  ~ exec gpar_empty s Faults /\ ~ exec gpar_gcontext s Faults /\
  (forall n, ~ exec (test_rdev_new_release n) s Faults).
Proof.
  intros s I. assert (X : forall l, incl l (st_ext s) -> incl l (roots s)) by (intros l H x Hx; apply in_or_app; right; apply in_or_app; right; auto).
  repeat split; intros.
  - intros E. exact (wp_sound _ _ _ _ (text_grob_spec label x y hjust vjust gp s I (X _ H)) E).
  - intros E. exact (wp_sound _ _ _ _ (rect_grob_spec x y w h hjust vjust gp s I (X _ H)) E).
  - intros E. exact (wp_sound _ _ _ _ (lines_grob_spec x y gp s I (X _ H)) E).
  - intros E. refine (wp_sound _ _ _ _ (unit_in_spec x s I (X [x] _)) E). intros z [<-|[]]; exact H.
  - intros E. exact (wp_sound _ _ _ _ (gpar_empty_spec s I (incl_nil_l _)) E).
  - intros E. exact (wp_sound _ _ _ _ (gpar_gcontext_spec s I (incl_nil_l _)) E).
  - intros E. exact (wp_sound _ _ _ _ (test_spec n s I) E).
Qed.
Print Assumptions C68_callbacks.

(** The model does notice an object that is not protected: a vector made, another allocation, and the vector used. *)
Example C68_unprotected_faults : exec (x <- alloc [None];; y <- alloc [];; set_ref x 0 y;; Ret x) ex_state Faults.
Proof.
  cbn [pbind alloc set_ref exec]. right; right. exists ex_state. split; [apply gc_id|].
  right; right. exists (with_heap ex_state (st_heap ex_state) 2). split.
  - exists (st_heap ex_state). split; [reflexivity|]. split.
    + intros j H. assert (j = 0) as ->; [|reflexivity]. induction H as [i [<-|[]]|i o j H -> Ho Hp]; [reflexivity|]. injection Ho as <-. destruct Hp as [[]|[]].
    + intros j. destruct j as [|[|j]]; [left; reflexivity | right; reflexivity | left; reflexivity].
  - reflexivity.
Qed.
(** and one UNPROTECT too many *)
Example C68_unbalanced_faults : exec (x <- alloc [None];; protect x;; unprotect 2;; Ret x) ex_state Faults.
Proof. cbn [pbind alloc protect unprotect exec]. right; right. exists ex_state. split; [apply gc_id | reflexivity]. Qed.

(* ------------------------------------------------------------------ *)
(** * C69: what a call returns *)

(** Rendering returns the list of all grobs drawn, in order; nothing stays protected, preserved or allocated. *)
Theorem C69_render : forall qs s r drawn s1, inv s -> exec (C_render_markdown qs) s (Returns (r, drawn) s1) ->
  length drawn = length (filter is_draw qs) /\ returned s r drawn (existsb is_bbox qs) s1.
Proof. intros qs s r drawn s1 I E. destruct (wp_sound _ _ _ _ (render_spec qs s I) E) as [H1 H2]. split; [exact H2 | exact H1]. Qed.
Print Assumptions C69_render.
(** There is such an execution, for all requests. *)
Theorem C69_render_returns : forall qs s g, inv s -> In g (st_ext s) -> exists r drawn s1, exec (C_render_markdown qs) s (Returns (r, drawn) s1).
Proof. intros qs s g I G. destruct (wp_runs _ g _ _ (render_spec qs s I) (proj2 I) G) as ([r drawn] & s1 & E & _). exists r, drawn, s1. exact E. Qed.
Print Assumptions C69_render_returns.

Theorem C69_md_to_html : forall n s r strings s1, inv s -> exec (C_md_to_html n) s (Returns (r, strings) s1) ->
  length strings = n /\ st_heap s1 r = Some (Obj Vec (map Some strings) []) /\ closed s1 r /\ inv s1 /\
  st_pstack s1 = st_pstack s /\ st_preserved s1 = st_preserved s /\ st_blocks s1 = st_blocks s.
Proof. intros n s r strings s1 I E. destruct (wp_sound _ _ _ _ (md_spec n s I) E) as (H1 & H2 & H3 & H4 & H5 & H6 & H7 & H8). cbn [fst snd] in *. auto 10. Qed.
Print Assumptions C69_md_to_html.

(** The functions that make single grobs leave everything as it was and return an object. *)
Theorem C69_callbacks : forall s, inv s -> forall (p : prog nat),
  (exists label x y hjust vjust gp, p = text_grob label x y hjust vjust gp /\ incl [label; x; y; hjust; vjust; gp] (st_ext s)) \/
  (exists x y w h hjust vjust gp, p = rect_grob x y w h hjust vjust gp /\ incl [x; y; w; h; hjust; vjust; gp] (st_ext s)) \/
  (exists x y gp, p = lines_grob x y gp /\ incl [x; y; gp] (st_ext s)) \/
  (exists x, p = unit_in x /\ In x (st_ext s)) \/ p = gpar_empty \/ p = gpar_gcontext ->
  forall r s1, exec p s (Returns r s1) ->
    closed s1 r /\ inv s1 /\ st_pstack s1 = st_pstack s /\ st_preserved s1 = st_preserved s /\ st_blocks s1 = st_blocks s.
Proof.
  intros s I p H r s1 E. assert (X : forall l, incl l (st_ext s) -> incl l (roots s)) by (intros l Hl x Hx; apply in_or_app; right; apply in_or_app; right; auto).
  assert (W : wp p (post s) s).
  { destruct H as [(a & b & c & d & e & f & -> & H)|[(a & b & c & d & e & f & g & -> & H)|[(a & b & c & -> & H)|[(a & -> & H)|[-> | ->]]]]].
    - apply text_grob_spec; auto.
    - apply rect_grob_spec; auto.
    - apply lines_grob_spec; auto.
    - apply unit_in_spec; auto. apply X. intros z [<-|[]]; exact H.
    - apply gpar_empty_spec; [exact I | apply incl_nil_l].
    - apply gpar_gcontext_spec; [exact I | apply incl_nil_l]. }
  destruct (wp_sound _ _ _ _ W E) as (H1 & H2 & (H3 & _ & H4 & _) & H5). auto 10.
Qed.
Print Assumptions C69_callbacks.

Example C69_case : exists r drawn s1,
  exec (C_render_markdown [RMetrics; RText; RRect; RText; RLine; RText; RText; RBBox; RText]) ex_state (Returns (r, drawn) s1) /\
  length drawn = 7 /\ grob_list s1 r drawn true.
Proof.
  destruct (C69_render_returns [RMetrics; RText; RRect; RText; RLine; RText; RText; RBBox; RText] ex_state 0 ex_inv (or_introl eq_refl)) as (r & drawn & s1 & E).
  exists r, drawn, s1. split; [exact E|]. destruct (C69_render _ _ _ _ _ ex_inv E) as [H1 H2]. split; [exact H1 | apply H2].
Qed.

(* ------------------------------------------------------------------ *)
(** * C70: what an error leaves behind *)

(** The full claim: after an R error, or an interrupt, in the middle of rendering nothing stays behind.  R itself
    drops what was protected, but not what was preserved or allocated. *)
Definition error_leaves_nothing : Prop := forall qs s s1, inv s -> exec (C_render_markdown qs) s (Errors s1) ->
  st_preserved s1 = st_preserved s /\ st_blocks s1 = st_blocks s.
(** It is false: an error while the first grob is made leaves the list of grobs and the device. *)
Theorem C70_error_leaks_refuted : ~ error_leaves_nothing.
Proof.
  intros H. set (s1 := State (upd (st_heap ex_state) 1 (Some (Obj Vec (nils 5) []))) 2 [] [1] [0] [0] 1).
  assert (E : exec (C_render_markdown [RText]) ex_state (Errors s1)).
  { unfold C_render_markdown, rdev_new. cbn [pbind new_block use_block alloc protect preserve unprotect exec].
    right. cbn [st_bfresh ex_state st_blocks set_blocks existsb Nat.eqb orb].
    right; right. eexists. split; [apply gc_id|]. right; right. eexists. split; [apply gc_id|].
    cbn -[upd nils serve_all]. right; left. reflexivity. }
  destruct (H _ _ _ ex_inv E) as [H1 _]. discriminate H1.
Qed.
Print Assumptions C70_error_leaks_refuted.

(** But no call can leave more than one object and one block, whatever it had drawn. *)
Theorem C70_render_partial : forall qs s s1, exec (C_render_markdown qs) s (Errors s1) ->
  (st_preserved s1 = st_preserved s \/ exists grobs, st_preserved s1 = grobs :: st_preserved s) /\
  (st_blocks s1 = st_blocks s \/ exists device, st_blocks s1 = device :: st_blocks s).
Proof. intros qs s s1 E. exact (bk_sound _ _ _ _ _ (bk_render (st_preserved s) (st_blocks s) qs) E). Qed.
Print Assumptions C70_render_partial.
Theorem C70_md_to_html_partial : forall n s s1, exec (C_md_to_html n) s (Errors s1) ->
  st_preserved s1 = st_preserved s /\ (st_blocks s1 = st_blocks s \/ exists str, st_blocks s1 = str :: st_blocks s).
Proof. intros n s s1 E. exact (bk_sound _ _ _ _ _ (bk_md (st_preserved s) (st_blocks s) n) E). Qed.
Print Assumptions C70_md_to_html_partial.
