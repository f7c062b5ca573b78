(** Proofs about the model of the R code. *)
From Verif Require Import GfxModel Base Len InlineProofs RModel RSpec.
Local Open Scope list_scope.
Local Open Scope len_scope.
Local Open Scope result_scope.

Lemma push_stack : forall vs g, exists new, length new = length vs /\ push g vs = Grid (new ++ g_pushed g) (g_root g).
Proof.
  induction vs as [|v vs IH]; intros g; cbn [push].
  - exists []. now destruct g.
  - destruct (IH (Grid (place g v :: g_pushed g) (g_root g))) as (new & L & E). exists (new ++ [place g v]).
    split; [rewrite app_length; cbn; lia |]. rewrite E. cbn. now rewrite <- app_assoc.
Qed.
Lemma push_app : forall vs ws g, push g (vs ++ ws) = push (push g vs) ws.
Proof. induction vs as [|v vs IH]; intros ws g; cbn; [reflexivity | apply IH]. Qed.
Lemma pop_push : forall vs g, vs <> [] -> pop (push g vs) (length vs) = Ok g.
Proof.
  intros vs g Hv. destruct (push_stack vs g) as (new & L & E). rewrite E. unfold pop. cbn [g_pushed g_root].
  destruct (length vs) as [|n] eqn:Ev; [now destruct vs |]. rewrite app_length.
  destruct (Nat.ltb_spec (length new + length (g_pushed g)) (S n)) as [Hlt|_]; [lia |].
  rewrite <- L, skipn_app, skipn_all, Nat.sub_diag. now destruct g.
Qed.
Lemma measure_ok : forall convert g vp e, vp_ok vp ->
  current_extent convert g vp e =
  Ok (convert (push g match vp with Some vs => vs | None => [] end) match e with Some u => u | None => Unit (px 1) l0 end, g).
Proof.
  intros convert g [vs|] e Hvp; [|reflexivity]. unfold current_extent.
  assert (Hv : vs <> []) by (intros ->; now apply Hvp).
  destruct (push_stack vs g) as (new & L & E).
  replace (vp_path_n (push g vs)) with (Some (length vs + length (g_pushed g)))%nat.
  - replace (length vs + length (g_pushed g) - match vp_path_n g with Some n => n | None => O end)%nat with (length vs).
    + now rewrite pop_push.
    + unfold vp_path_n. destruct (g_pushed g); cbn; lia.
  - rewrite E. unfold vp_path_n. cbn [g_pushed]. destruct (new ++ g_pushed g) eqn:En.
    + exfalso. apply (f_equal (@length _)) in En. rewrite app_length in En. destruct vs; [easy | cbn in *; lia].
    + rewrite <- En, app_length. now rewrite L.
Qed.
Lemma one_times : forall a, px 1 * a = a.
Proof. intros a. change (px 1) with (Q2Qc 1). exact (Qcmult_1_l a). Qed.
Lemma available_convert : forall asked full,
  u_npc match asked with Some u => u | None => Unit (px 1) l0 end * full +
  u_in match asked with Some u => u | None => Unit (px 1) l0 end = available asked full.
Proof. intros [u|] full; [reflexivity |]. cbn [u_npc u_in available]. rewrite one_times. lring. Qed.

Lemma make_ok : forall renderer g x, vp_ok (h_vp x) ->
  let a := own_area g (h_vp x) in
  let out := render_markdown renderer (h_text x) (h_css x) (available (h_width x) (a_width a)) (available (h_height x) (a_height a)) in
  exists m, make_context renderer g x = Ok (m, g) /\ m_children m = fst out /\
    m_width m = reported (h_width x) (option_map box_width (snd out)) (a_width a) /\
    m_height m = reported (h_height x) (option_map box_height (snd out)) (a_height a) /\
    m_vp m = match h_vp x with Some vs => vs | None => [] end ++
             [Viewport (h_x x) (h_y x) (Unit (px 1) l0) (Unit (px 1) l0) (h_hjust x) (px 1 - h_vjust x)].
Proof.
  intros renderer g x Hvp a out. unfold make_context, current_width, current_height.
  rewrite (measure_ok convert_width) by assumption. cbn [bind]. rewrite (measure_ok convert_height) by assumption. cbn [bind].
  unfold convert_width, convert_height. rewrite !available_convert. fold (own_area g (h_vp x)). fold a.
  fold out. destruct out as [ch bb]. eexists. split; [reflexivity |]. cbn [m_children m_width m_height m_vp fst snd].
  split; [reflexivity |]. split; [|split].
  - destruct bb as [[[[? ?] ?] ?]|], (h_width x); reflexivity.
  - destruct bb as [[[[? ?] ?] ?]|], (h_height x); reflexivity.
  - now destruct (h_vp x).
Qed.
Lemma draw_ok : forall renderer g x, vp_ok (h_vp x) ->
  let a := own_area g (h_vp x) in
  exists m b, make_context renderer g x = Ok (m, g) /\ draw renderer g x = Ok (m_children m, b, g) /\
    a_left b = a_left a + (measured (h_x x) (a_width a) - h_hjust x * a_width a) /\
    a_bottom b = a_bottom a + (measured (h_y x) (a_height a) - (px 1 - h_vjust x) * a_height a).
Proof.
  intros renderer g x Hvp a. destruct (make_ok renderer g x Hvp) as (m & E & _ & _ & _ & Em).
  unfold draw. rewrite E. cbn [bind]. exists m, (current (push g (m_vp m))). split; [reflexivity |].
  rewrite pop_push by (rewrite Em; now destruct (match h_vp x with Some vs => vs | None => [] end)). cbn [bind].
  split; [reflexivity |].
  rewrite Em, push_app. cbn [push]. unfold current at 1 2. cbn [g_pushed]. unfold place. cbn [a_left a_bottom vp_w vp_h vp_x vp_y vp_hjust vp_vjust].
  unfold convert_width, convert_height. fold (own_area g (h_vp x)). fold a. cbn [u_npc u_in]. unfold measured.
  rewrite !one_times. split; lring.
Qed.
