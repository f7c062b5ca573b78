(** Properties of the graphics engine (C52-C60). *)
From Verif Require Import GfxModel GfxSpec GfxProofs GfxDevice CStrModel CStrProofs.
Local Open Scope len_scope.

(** A concrete program with two fonts' contexts, shared, changed and dropped, and a drawing of five objects. *)
Definition ex_gc : list gcop :=
  [GNew; GSet 0 (SetFontFamily "serif"); GClone 0; GSet 1 (SetFontWeight FWBold); GNewFrom 1; GDrop 1].
Definition ex_font : font := Font "serif" FSNormal FWNormal (px 16) l0 l0 l0 0.
Definition ex_red : rgba := RGBA (ascii_of_N 255) zero zero (ascii_of_N 128).
Definition ex_calls : list dcall :=
  [DBBox l0 l0 (px 100) (px 50); DRect l0 l0 (px 10) (px 20) ex_red; DText "hi" (px 3) (px 4) ex_font ex_red;
   DLine [(l0, l0); (px 5, px 6)] ex_red (px 2) LSDashed; DBBox (px 10) (px 60) (px 96) (px (-5));
   DRect l0 l0 (px 1) (px 1) ex_red; DRect l0 l0 (px 1) (px 1) ex_red; DRect l0 l0 (px 1) (px 1) ex_red].
Example Gfx_nonvacuous : exists vs gw, value_run [] ex_gc = Some vs /\ gc_run gworld0 ex_gc = Done gw /\ Forall (call_ok vs) ex_calls
  /\ recorded ex_calls <> [] /\ length (filter draws ex_calls) = 6%nat.
Proof.
  destruct (gc_value_semantics ex_gc _ eq_refl) as (gw & E & _).
  eexists _, gw. split; [reflexivity|]. split; [exact E|]. split; [|split; [discriminate|reflexivity]].
  repeat constructor. cbn. discriminate.
Qed.

(** C52 *)
Theorem C52_bbox_least : forall os vs gw y0 cs,
  value_run [] os = Some vs -> gc_run gworld0 os = Done gw -> Forall (call_ok vs) cs ->
  exists w gs bb, drun (DWorld (rdev_new y0) gw) cs = Done w /\ rdev_release (dw_dev w) = Done (gs, bb) /\
    match bb with
    | Some (x1, y1, x2, y2) => recorded cs <> [] /\ least_box (Box x1 y1 x2 y2) (map (on_device y0) (recorded cs))
    | None => recorded cs = []
    end.
Proof. exact dev_bbox. Qed.
Print Assumptions C52_bbox_least.
Theorem C52_least_box_unique : forall b b' pts, least_box b pts -> least_box b' pts -> b = b'.
Proof. exact least_box_unique. Qed.
Print Assumptions C52_least_box_unique.

(** C53 *)
Theorem C53_every_object_in_order : forall os vs gw y0 cs,
  value_run [] os = Some vs -> gc_run gworld0 os = Done gw -> Forall (call_ok vs) cs ->
  exists w gs bb, drun (DWorld (rdev_new y0) gw) cs = Done w /\ rdev_release (dw_dev w) = Done (map Some gs, bb) /\
    Forall2 (looks vs) (filter draws cs) gs.
Proof. exact dev_objects. Qed.
Print Assumptions C53_every_object_in_order.

(** C54 *)
Theorem C54_one_flip : forall os vs gw y0 cs,
  value_run [] os = Some vs -> gc_run gworld0 os = Done gw -> Forall (call_ok vs) cs ->
  exists w gs bb, drun (DWorld (rdev_new y0) gw) cs = Done w /\ rdev_release (dw_dev w) = Done (map Some gs, bb) /\
    Forall2 (flipped y0) (filter draws cs) gs.
Proof. exact dev_flip. Qed.
Print Assumptions C54_one_flip.

(** C55 *)
Theorem C55_private_values : forall os vs, value_run [] os = Some vs ->
  exists w, gc_run gworld0 os = Done w /\
    forall v, gc_view w v = match value_of vs v with Some g => Done (native g) | None => IllScoped end.
Proof. exact gc_value_semantics. Qed.
Print Assumptions C55_private_values.
Theorem C55_never_dangling : forall os, gc_run gworld0 os <> Dangling /\ gc_run gworld0 os <> OutOfRange.
Proof. exact gc_never_dangling. Qed.
Print Assumptions C55_never_dangling.
Theorem C55_no_leak : forall os w, gc_run gworld0 os = Done w ->
  (live (w_heap w) <= live (w_vars w))%nat /\ ((0 < live (w_vars w))%nat -> (0 < live (w_heap w))%nat).
Proof. exact gc_no_leak. Qed.
Print Assumptions C55_no_leak.
Theorem C55_drawing_keeps_contexts : forall os vs gw y0 cs,
  value_run [] os = Some vs -> gc_run gworld0 os = Done gw -> Forall (call_ok vs) cs ->
  exists w, drun (DWorld (rdev_new y0) gw) cs = Done w /\
    (forall v, gc_view (dw_gc w) v = gc_view gw v) /\ live (w_vars (dw_gc w)) = live (w_vars gw) /\
    (live (w_heap (dw_gc w)) <= live (w_vars (dw_gc w)))%nat.
Proof. exact dev_contexts. Qed.
Print Assumptions C55_drawing_keeps_contexts.

(** C56 *)
Theorem C56_face_any_order : forall ss,
  Forall (fun s => match s with SetFontStyle _ | SetFontWeight _ => True | _ => False end) ss ->
  exists w g, gc_run gworld0 (GNew :: map (GSet 0) ss) = Done w /\ gc_view w 0 = Done g /\
    g_fontface g = r_face (existsb (fun s => match s with SetFontWeight w => is_bold w | _ => false end) ss)
                          (existsb (fun s => match s with SetFontStyle st => is_italic st | _ => false end) ss).
Proof. exact face_any_order. Qed.
Print Assumptions C56_face_any_order.
Example C56_nonvacuous :
  Forall (fun s => match s with SetFontStyle _ | SetFontWeight _ => True | _ => False end) [SetFontWeight FWBold; SetFontStyle FSOblique].
Proof. repeat constructor. Qed.

(** C57 *)
Theorem C57_any_family_refuted : exists s, has_nul s = false /\
  gc_run gworld0 [GNew; GSet 0 (SetFontFamily s)] = Overrun /\
  forall ge st wt size, font_new ge gworld0 s st wt size = Overrun.
Proof. exists (many 201). exact many_overrun. Qed.
Print Assumptions C57_any_family_refuted.
Theorem C57_family_boundary_partial : forall os w v s,
  gc_run gworld0 os = Done w -> gc_view w v <> IllScoped -> has_nul s = false ->
  if (String.length s <=? 200)%nat then exists w', gc_set w v (SetFontFamily s) = Done w' else gc_set w v (SetFontFamily s) = Overrun.
Proof. exact family_boundary. Qed.
Print Assumptions C57_family_boundary_partial.
Example C57_nonvacuous : exists w, gc_run gworld0 ex_gc = Done w /\ gc_view w 0 <> IllScoped /\ gc_view w 1 = IllScoped.
Proof.
  destruct (gc_value_semantics ex_gc _ eq_refl) as (w & E & V). exists w. split; [exact E|]. rewrite !V. split; [discriminate|reflexivity].
Qed.

(** C58 *)
Theorem C58_colour_decodes : forall c, r_colour (rgba_to_string c) = Some c.
Proof. exact colour_roundtrip. Qed.
Print Assumptions C58_colour_decodes.
Theorem C58_colour_length : forall c,
  String.length (rgba_to_string c) = if (N_of_ascii (c_alpha c) =? 255)%N then 7%nat else 9%nat.
Proof. exact colour_length. Qed.
Print Assumptions C58_colour_length.

(** C59 *)
Theorem C59_width_current_refuted : exists width os s sv,
  seg_run width (seg_new, []) os = Done (s, sv) /\ fst (seg_advance width s) <> width (seg_glyphs s).
Proof.
  exists (fun t => px (inject_Z (Z.of_nat (length (filter (fun c => (c =? sp)%N) t))))),
    [SAppend 97%N; SAppend sp; SMeasure; SSave; SStrip; SAppend 98%N; SRestore 0].
  eexists _, _. split; [reflexivity|]. intros H. apply (f_equal this) in H. vm_compute in H. discriminate H.
Qed.
Print Assumptions C59_width_current_refuted.
Theorem C59_width_current_partial : forall width os t' saved', text_run ([], []) os = Some (t', saved') ->
  exists s sv, seg_run width (seg_new, []) os = Done (s, sv) /\ seg_glyphs s = t' /\ fst (seg_advance width s) = width t' /\
    (seg_empty s = true <-> t' = []).
Proof. exact seg_width_current. Qed.
Print Assumptions C59_width_current_partial.
Example C59_nonvacuous : exists saved, text_run ([], [])
  [SAppend 97%N; SSave; SAppend sp; SMeasure; SSave; SAppend 233%N; SRestore 1; SStrip; SRestore 0] = Some ([97%N], saved).
Proof. eexists. reflexivity. Qed.

(** C60 *)
Theorem C60_round_trip : forall m s, forallb is_scalar s = true -> ~ In 0%N s ->
  exists p m', str_to_cstring m s = (Some p, m') /\ cstring_to_str m' (Some p) = Done (Some s) /\
    (forall q, q <> p -> nth_error m' q = nth_error m q) /\
    exists m'', sinab_free_cstring m' (Some p) = Done m'' /\ (forall q, q <> p -> nth_error m'' q = nth_error m q) /\
      cstring_to_str m'' (Some p) = Dangling.
Proof. exact c_roundtrip. Qed.
Print Assumptions C60_round_trip.
Theorem C60_nul_is_null : forall m s, In 0%N s -> str_to_cstring m s = (None, m).
Proof. exact c_nul. Qed.
Print Assumptions C60_nul_is_null.
Theorem C60_null : forall m, sinab_free_cstring m None = Done m /\ cstring_to_str m None = RustPanic.
Proof. exact (fun m => conj eq_refl eq_refl). Qed.
Print Assumptions C60_null.
Example C60_nonvacuous : forallb is_scalar [97; 233; 8364; 128512]%N = true /\ ~ In 0%N [97; 233; 8364; 128512]%N /\
  length (utf8 [97; 233; 8364; 128512]%N) = 10%nat.
Proof. repeat split. intros H. repeat destruct H as [H|H]; try discriminate; contradiction. Qed.
