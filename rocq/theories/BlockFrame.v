(** Layout never panics, and what a box is laid out as does not depend on its tree rank, on the absolutely
    positioned fragments met before, nor on whether there is a float context. *)
From Verif Require Import BlockModel InlineSpec InlineWrap InlineProofs InlineFacts GeomSpec BlockSpec.
Local Open Scope len_scope.
Section Any.
Context {ar : Arith} {Z : ZeroLaws ar}.

(* ------------------------------------------------------------------ *)
(** * Induction over box trees *)
Section Ind.
Variable P : blb -> Prop.
Variable Q : bcontainer -> Prop.
Variable R : bfc -> Prop.
Hypothesis H_same : forall st c, Q c -> P (SameFC st c).
Hypothesis H_abs : forall st c, R c -> P (BAbspos st c).
Hypothesis H_float : forall st c, R c -> P (BFloat st c).
Hypothesis H_indep : forall st c, R c -> P (Indep st c).
Hypothesis H_block : forall l, Forall P l -> Q (BlockLevelBoxes l).
Hypothesis H_inline : forall st l, Forall (ilb_every (fun _ => R)) l -> Q (InlineFC st l).
Hypothesis H_bfc : forall fl c, Q c -> R (BFC fl c).
Fixpoint blb_tree (b : blb) : P b :=
  match b with
  | SameFC st c => H_same st c (container_tree c)
  | BAbspos st c => H_abs st c (bfc_tree c)
  | BFloat st c => H_float st c (bfc_tree c)
  | Indep st c => H_indep st c (bfc_tree c)
  end
with container_tree (c : bcontainer) : Q c :=
  match c with
  | BlockLevelBoxes l => H_block l
      ((fix go (l : list blb) : Forall P l :=
          match l with [] => Forall_nil _ | b :: l' => Forall_cons _ (blb_tree b) (go l') end) l)
  | InlineFC st l => H_inline st l
      ((fix go (l : list (ilb bfc)) : Forall (ilb_every (fun _ => R)) l :=
          match l with
          | [] => Forall_nil _
          | b :: l' => Forall_cons _
              ((fix ilb_tree (b : ilb bfc) : ilb_every (fun _ => R) b :=
                  match b with
                  | InlineBox _ _ _ ch =>
                      (fix gos (ch : list (ilb bfc)) : fold_right (fun x Q => ilb_every (fun _ => R) x /\ Q) True ch :=
                         match ch with [] => I | x :: ch' => conj (ilb_tree x) (gos ch') end) ch
                  | TextRun _ _ _ => I
                  | IAbspos _ c => bfc_tree c
                  | IFloat _ _ => I
                  end) b) (go l')
          end) l)
  end
with bfc_tree (c : bfc) : R c := match c with BFC fl c' => H_bfc fl c' (container_tree c') end.
End Ind.

(* ------------------------------------------------------------------ *)
(** * Inline content *)
Definition with_rank (r : nat) (a : abs_frag) : abs_frag := AbsFrag (af_style a) r (af_inline a) (af_block a) (af_layout a).
Definition with_abs (s : ifc) (a : list abs_frag) : ifc := Ifc (is_lines s) (is_pos s) (is_stack s) (is_cur s) a.
Definition rmap {A B} (f : A -> B) (r : result A) : result B := match r with Ok a => Ok (f a) | Panic => Panic | OutOfFuel => OutOfFuel end.

Section Frame.
Variable m_ascent m_descent : style -> Len.
Variable m_width : style -> text -> Len.
Variable cb : cblock.
Variable ta : text_align.

Lemma finish_line_abs s a : finish_line cb ta (with_abs s a) = with_abs (finish_line cb ta s) a.
Proof.
  unfold finish_line, with_abs. cbn [is_stack is_cur is_pos is_lines is_abs].
  destruct (finish_partials (is_stack s) (is_cur s) (is_pos s)) as [[stk top] pos]. reflexivity.
Qed.
Lemma finish_line_is_abs s : is_abs (finish_line cb ta s) = is_abs s.
Proof. unfold finish_line. destruct (finish_partials (is_stack s) (is_cur s) (is_pos s)) as [[? ?] ?]. reflexivity. Qed.
Lemma add_text_abs st fo sh nlb s a : add_text m_ascent m_descent m_width st fo sh nlb (with_abs s a)
  = with_abs (add_text m_ascent m_descent m_width st fo sh nlb s) a.
Proof.
  unfold add_text, with_abs. destruct (seg_advance (m_width fo) sh) as [w sh']. unfold line_ascent_descent.
  cbn [is_stack is_cur is_pos is_lines is_abs]. destruct (negb (seg_empty sh')); reflexivity.
Qed.
Lemma wrap_abs fuel st fo a : forall chars sh lb s,
  wrap_loop m_ascent m_descent m_width fuel cb ta st fo chars sh lb (with_abs s a)
  = rmap (fun s => with_abs s a) (wrap_loop m_ascent m_descent m_width fuel cb ta st fo chars sh lb s).
Proof.
  induction fuel as [|fuel IH]; intros chars sh lb s; [reflexivity|]. cbn [wrap_loop with_abs is_pos].
  destruct (wrap_line m_width fo (cb_inline cb - is_pos s) chars sh lb) as [[[sh1 ch1] nlb]| |]; cbn [bind]; try reflexivity.
  fold (with_abs s a). rewrite add_text_abs, finish_line_abs, IH. destruct (negb match ch1 with [] => true | _ => false end || nlb); reflexivity.
Qed.
Lemma nowrap_abs fuel st fo a : forall chars s,
  nowrap_loop m_ascent m_descent m_width fuel cb ta st fo chars (with_abs s a)
  = rmap (fun s => with_abs s a) (nowrap_loop m_ascent m_descent m_width fuel cb ta st fo chars s).
Proof.
  induction fuel as [|fuel IH]; intros chars s; [reflexivity|]. cbn [nowrap_loop].
  destruct (nowrap_line chars seg_new) as [[sh1 ch1] nlb].
  rewrite add_text_abs, finish_line_abs, IH. destruct (negb match ch1 with [] => true | _ => false end || nlb); reflexivity.
Qed.
Lemma text_run_abs st fo t s a : text_run_layout m_ascent m_descent m_width cb ta st fo t (with_abs s a)
  = rmap (fun s => with_abs s a) (text_run_layout m_ascent m_descent m_width cb ta st fo t s).
Proof. unfold text_run_layout, layout_wrap. destruct (sv st Lwhite_space); auto using wrap_abs, nowrap_abs. Qed.
Lemma text_run_keeps_abs st fo t s s' : text_run_layout m_ascent m_descent m_width cb ta st fo t s = Ok s' -> is_abs s' = is_abs s.
Proof.
  intros H. assert (E : s = with_abs s (is_abs s)) by (destruct s; reflexivity).
  rewrite E, text_run_abs in H. destruct (text_run_layout m_ascent m_descent m_width cb ta st fo t s); cbn [rmap] in H; try discriminate.
  injection H as <-. reflexivity.
Qed.

Definition emb (A : list abs_frag) (rank : nat) (s : ifc) : ifc := with_abs s (A ++ map (with_rank rank) (is_abs s)).
Lemma frame_loop A rank fuel : forall rems s,
  ifc_loop m_ascent m_descent m_width fuel cb ta rank rems (emb A rank s)
  = rmap (emb A rank) (ifc_loop m_ascent m_descent m_width fuel cb ta 0 rems s).
Proof.
  induction fuel as [|fuel IH]; intros rems s; [reflexivity|]. cbn [ifc_loop].
  destruct (hd [] rems) as [|b rest].
  - cbn [emb with_abs is_stack is_cur is_pos is_lines is_abs]. destruct (is_stack s) as [|p stk] eqn:Es.
    + cbn [rmap]. f_equal. fold (with_abs s (A ++ map (with_rank rank) (is_abs s))). unfold emb.
      replace (Ifc (is_lines s) (is_pos s) [] (is_cur s) (A ++ map (with_rank rank) (is_abs s)))
        with (with_abs s (A ++ map (with_rank rank) (is_abs s))) by (unfold with_abs; rewrite Es; reflexivity).
      rewrite finish_line_abs, finish_line_is_abs. reflexivity.
    + destruct (finish_layout p (is_cur s) (is_pos s) false) as [p1 pos].
      rewrite <- IH. reflexivity.
  - destruct b as [st first last ch | st t fo | st lay | st lay].
    + rewrite <- IH. reflexivity.
    + unfold emb at 1. rewrite text_run_abs.
      destruct (text_run_layout m_ascent m_descent m_width cb ta st fo t s) as [s1| |] eqn:E; cbn [rmap bind]; try reflexivity.
      rewrite <- IH. unfold emb. rewrite (text_run_keeps_abs _ _ _ _ _ E). reflexivity.
    + unfold inline_static_corner. cbn [emb with_abs is_pos is_lines].
      destruct (s_specified_display st) as [| |[] ?]; cbn [rmap bind]; try reflexivity; rewrite <- IH; f_equal;
        unfold emb, push_abs, with_abs; cbn [is_lines is_pos is_stack is_cur is_abs]; rewrite map_app, app_assoc; reflexivity.
    + apply IH.
Qed.

(** every later layout of a fragment found in inline content is that of one of its boxes *)
Lemma loop_origin (Q : abs_lay -> Prop) fuel : forall rems s s',
  Forall (Forall (ilb_every (fun _ => Q))) rems -> Forall (fun a => Q (af_layout a)) (is_abs s) ->
  ifc_loop m_ascent m_descent m_width fuel cb ta 0 rems s = Ok s' -> Forall (fun a => Q (af_layout a)) (is_abs s').
Proof.
  induction fuel as [|fuel IH]; intros rems s s' Hr Ha H; [discriminate|]. cbn [ifc_loop] in H.
  assert (Hh : Forall (ilb_every (fun _ => Q)) (hd [] rems)) by (destruct Hr; [constructor | assumption]).
  assert (Ht : Forall (Forall (ilb_every (fun _ => Q))) (tl rems)) by (destruct Hr; [constructor | assumption]).
  destruct (hd [] rems) as [|b rest].
  - destruct (is_stack s) as [|p stk].
    + injection H as <-. rewrite finish_line_is_abs. exact Ha.
    + destruct (finish_layout p (is_cur s) (is_pos s) false) as [p1 pos]. eapply IH; [| |exact H]; assumption.
  - inversion Hh as [|? ? Hb Hrest]; subst. destruct b as [st first last ch | st t fo | st lay | st lay].
    + eapply IH; [| |exact H]; [|exact Ha]. constructor; [|constructor; assumption].
      clear - Hb. cbn [ilb_every] in Hb. induction ch as [|x ch IHc]; [constructor|]. destruct Hb as [H1 H2]. constructor; [exact H1 | exact (IHc H2)].
    + destruct (text_run_layout m_ascent m_descent m_width cb ta st fo t s) as [s1| |] eqn:E; cbn [bind] in H; try discriminate.
      eapply IH; [| |exact H]; [constructor; assumption|]. rewrite (text_run_keeps_abs _ _ _ _ _ E). exact Ha.
    + destruct (inline_static_corner st s) as [c| |]; cbn [bind] in H; try discriminate.
      eapply IH; [| |exact H]; [constructor; assumption|]. cbn [push_abs is_abs]. apply Forall_app. split; [exact Ha|].
      constructor; [exact Hb | constructor].
    + eapply IH; [| |exact H]; [constructor; assumption | exact Ha].
Qed.
End Frame.

Lemma ifc_frame ma md mw parent boxes cb (Q : abs_lay -> Prop) :
  abspos_oks boxes -> Forall (ilb_every (fun _ => Q)) boxes ->
  exists fl g, Forall (fun a => Q (af_layout a)) g /\
    forall rank abs, ifc_layout ma md mw parent boxes cb rank abs = Ok (fl, abs ++ map (with_rank rank) g).
Proof.
  intros Hok HQ. destruct (ifc_layout_any ma md mw parent boxes cb 0 [] Hok) as (fl & g & _ & _ & E & _).
  exists fl, g. unfold ifc_layout in E.
  destruct (ifc_loop ma md mw (S (boxes_steps boxes)) cb (sv parent Ltext_align) 0 [boxes] (ifc_start ma md parent [])) as [s| |] eqn:El;
    cbn [bind] in E; try discriminate. injection E as E1 E2. cbn [app] in E2.
  split.
  - rewrite <- E2. eapply (loop_origin _ _ _ _ _ Q); [| |exact El]; [constructor; [exact HQ | constructor] | constructor].
  - intros rank abs. unfold ifc_layout.
    change (ifc_start ma md parent abs) with (with_abs (ifc_start ma md parent []) abs).
    replace (with_abs (ifc_start ma md parent []) abs) with (emb abs rank (ifc_start ma md parent [])) by (unfold emb; cbn; rewrite app_nil_r; reflexivity).
    rewrite frame_loop, El. cbn [rmap bind emb with_abs is_lines is_abs]. rewrite E1, E2. reflexivity.
Qed.

(* ------------------------------------------------------------------ *)
(** * Block content *)
Definition total_lay (lay : abs_lay) : Prop := forall o1 o2 sz, exists f, lay o1 o2 sz = Ok f.
Definition total_abs (a : abs_frag) : Prop := total_lay (af_layout a).
Definition good (f : fragment) : Prop :=
  match f with FBox _ _ _ _ _ _ _ => True | FAnon r [] => v_block (r_size r) = l0 | _ => False end.
Definition framed_as (lay : nat -> list abs_frag -> bool -> result (fragment * list abs_frag)) (f : fragment) (g : list abs_frag) : Prop :=
  forall rank abs floats, lay rank abs floats = Ok (f, abs ++ map (with_rank rank) g).
Definition framed (lay : blb_lay) : Prop :=
  forall cb, exists f g, good f /\ Forall total_abs g /\ framed_as (lay cb) f g.
Definition flow_framed_as (lay : nat -> list abs_frag -> bool -> result (flow * list abs_frag)) (fl : flow) (g : list abs_frag) : Prop :=
  forall rank abs floats, lay rank abs floats = Ok (fl, abs ++ map (with_rank rank) g).
Definition flow_framed (lay : nat -> list abs_frag -> bool -> result (flow * list abs_frag)) : Prop :=
  exists fl g, Forall total_abs g /\ flow_framed_as lay fl g.

Lemma with_rank_twice r r' a : with_rank r (with_rank r' a) = with_rank r a. Proof. reflexivity. Qed.
Lemma mapR_ext {A B} (f g : A -> result B) l : (forall a, In a l -> f a = g a) -> mapR f l = mapR g l.
Proof. induction l as [|a l IH]; intros H; [reflexivity|]. cbn. rewrite (H a (or_introl eq_refl)), IH; [reflexivity|]. intros; apply H; right; assumption. Qed.
Lemma mapR_map {A B C} (f : B -> result C) (g : A -> B) l : mapR f (map g l) = mapR (fun a => f (g a)) l.
Proof. induction l as [|a l IH]; [reflexivity|]. cbn. rewrite IH. reflexivity. Qed.
Lemma mapR_total {A B} (f : A -> result B) l : (forall a, In a l -> exists b, f a = Ok b) -> exists bs, mapR f l = Ok bs.
Proof.
  induction l as [|a l IH]; intros H; [exists []; reflexivity|]. destruct (H a (or_introl eq_refl)) as (b & Hb).
  destruct IH as (bs & Hbs); [intros; apply H; right; assumption|]. exists (b :: bs). cbn. rewrite Hb. cbn. rewrite Hbs. reflexivity.
Qed.

(** placement *)
Definition pl_inv (s : placement) : Prop := pl_collapses s = true -> pl_margin s = cm_zero.
Lemma cm_zero_eqb : leqb (cm_solve cm_zero) l0 = true. Proof. unfold cm_solve; cbn. apply zero_twice. Qed.
Lemma place_ok f s : good f -> pl_inv s -> exists f1 s1, place f s = Ok (f1, s1) /\ pl_inv s1 /\ good f1.
Proof.
  intros Hg Hi. destruct f as [st ch r p b m cm | r ch | ]; cbn [good] in Hg; try contradiction.
  - cbn [place]. destruct (pl_collapses s) eqn:Ec.
    + rewrite (Hi Ec), cm_zero_eqb. destruct (cb_through cm); eexists _, _; (split; [reflexivity|]); (split; [|exact I]).
      * intros _. reflexivity.
      * intros H; discriminate.
    + destruct (cb_through cm); eexists _, _; (split; [reflexivity|]); (split; [|exact I]); intros H; discriminate.
  - destruct ch as [|? ?]; [|contradiction]. cbn [place]. rewrite Hg, zero_zero. eexists _, _; (split; [reflexivity|]). split; [exact Hi|].
    cbn [good shift_block r_size]. exact Hg.
Qed.
Lemma place_all_ok fs : forall s, Forall good fs -> pl_inv s ->
  exists fs1 s1, place_all fs s = Ok (fs1, s1) /\ Forall good fs1 /\ List.length fs1 = List.length fs.
Proof.
  induction fs as [|f fs IH]; intros s Hg Hi; [exists [], s; repeat split; constructor|].
  inversion Hg as [|? ? G1 G2]; subst. destruct (place_ok f s G1 Hi) as (f1 & s1 & E1 & Hi1 & Gf).
  destruct (IH s1 G2 Hi1) as (fs1 & s2 & E2 & Gs & L). exists (f1 :: fs1), s2. cbn [place_all]. rewrite E1. cbn [bind]. rewrite E2.
  cbn [bind]. split; [reflexivity|]. split; [constructor; assumption | cbn; congruence].
Qed.

(** children *)
Fixpoint ranked (r : nat) (gss : list (list abs_frag)) : list abs_frag :=
  match gss with [] => [] | g :: gss => map (with_rank r) g ++ ranked (S r) gss end.
Definition framed_list (lays : list blb_lay) (cb : cblock) (fs : list fragment) (gss : list (list abs_frag)) : Prop :=
  Forall2 (fun lay fg => framed_as (lay cb) (fst fg) (snd fg)) lays (combine fs gss) /\
  List.length fs = List.length lays /\ List.length gss = List.length lays.
Lemma framed_list_ex lays cb : Forall framed lays ->
  exists fs gss, framed_list lays cb fs gss /\ Forall good fs /\ Forall (Forall total_abs) gss.
Proof.
  induction 1 as [|lay lays H1 H2 (fs & gss & (F & L1 & L2) & G & T)].
  - exists [], []. repeat split; constructor.
  - destruct (H1 cb) as (f & g & Gf & Tg & Fr). exists (f :: fs), (g :: gss). split; [|split; constructor; assumption].
    split; [|cbn; split; congruence]. constructor; [exact Fr | exact F].
Qed.
Lemma children_layout_framed lays cb : forall fs gss, framed_list lays cb fs gss ->
  forall r abs, children_layout lays cb r abs = Ok (fs, abs ++ ranked r gss).
Proof.
  induction lays as [|lay lays IH]; intros fs gss (F & L1 & L2) r abs; destruct fs as [|f fs], gss as [|g gss]; try discriminate.
  - cbn. rewrite app_nil_r. reflexivity.
  - inversion F as [|? ? ? ? F1 F2]; subst. cbn [children_layout ranked fst snd] in *. rewrite F1. cbn [bind].
    rewrite (IH fs gss). { cbn [bind]. rewrite app_assoc. reflexivity. }
    repeat split; cbn in L1, L2; auto.
Qed.
Lemma children_floats_framed lays cb : forall fs gss, framed_list lays cb fs gss ->
  forall r abs s, children_floats lays cb r abs s =
    bind (place_all fs s) (fun '(fs1, s1) => Ok (fs1, abs ++ ranked r gss, s1)).
Proof.
  induction lays as [|lay lays IH]; intros fs gss (F & L1 & L2) r abs s; destruct fs as [|f fs], gss as [|g gss]; try discriminate.
  - cbn. rewrite app_nil_r. reflexivity.
  - inversion F as [|? ? ? ? F1 F2]; subst. cbn [children_floats ranked place_all fst snd] in *. rewrite F1. cbn [bind].
    destruct (place f s) as [[f1 s1]| |]; cbn [bind]; try reflexivity.
    rewrite (IH fs gss). 2: { repeat split; cbn in L1, L2; auto. }
    destruct (place_all fs s1) as [[fs1 s2]| |]; cbn [bind]; try reflexivity. rewrite app_assoc. reflexivity.
Qed.
Lemma ranked_range gss : forall r a, In a (ranked r gss) -> (r <= af_rank a < r + List.length gss)%nat.
Proof.
  induction gss as [|g gss IH]; intros r a H; [destruct H|]. cbn [ranked] in H. apply in_app_or in H. destruct H as [H|H].
  - apply in_map_iff in H. destruct H as (x & <- & _). cbn. lia.
  - apply IH in H. cbn [List.length]. lia.
Qed.
Lemma ranked_total gss : forall r, Forall (Forall total_abs) gss -> Forall total_abs (ranked r gss).
Proof.
  induction gss as [|g gss IH]; intros r H; [constructor|]. inversion H as [|? ? H1 H2]; subst. cbn [ranked]. apply Forall_app. split; [|apply IH; exact H2].
  apply Forall_forall. intros a Ha. apply in_map_iff in Ha. destruct Ha as (x & <- & Hx). rewrite Forall_forall in H1. exact (H1 x Hx).
Qed.
Lemma adjust_framed fs1 l : Forall good fs1 -> (forall a, In a l -> (af_rank a < List.length fs1)%nat) -> Forall total_abs l ->
  exists g, Forall total_abs g /\ forall rank, mapR (adjust_one fs1 rank) l = Ok (map (with_rank rank) g).
Proof.
  intros Hg. induction l as [|a l IH]; intros Hr Ht; [exists []; split; [constructor | reflexivity]|].
  inversion Ht as [|? ? T1 T2]; subst.
  destruct IH as (g & Tg & E); [intros; apply Hr; right; assumption | exact T2 |].
  pose proof (Hr a (or_introl eq_refl)) as Ha. destruct (nth_error fs1 (af_rank a)) as [f|] eqn:En; [|apply nth_error_None in En; lia].
  assert (Gf : good f). { rewrite Forall_forall in Hg. apply Hg. eapply nth_error_In; exact En. }
  assert (Hrect : exists r, frag_rect f = Ok r) by (destruct f as [| r []|]; try contradiction; eexists; reflexivity).
  destruct Hrect as (r & Hrect).
  exists (AbsFrag (af_style a) 0 (shift_static (v_inline (r_start r)) (af_inline a)) (shift_static (v_block (r_start r)) (af_block a)) (af_layout a) :: g).
  split; [constructor; assumption|]. intros rank. cbn [mapR]. unfold adjust_one at 1. rewrite En, Hrect. cbn [bind]. rewrite E. reflexivity.
Qed.
Lemma children_framed lays cb collapsible : Forall framed lays ->
  flow_framed (fun rank abs floats => layout_block_level_children lays cb rank abs floats collapsible).
Proof.
  intros H. destruct (framed_list_ex lays cb H) as (fs & gss & F & G & T).
  destruct (place_all_ok fs (placement_start collapsible) G) as (fs1 & s1 & E1 & G1 & L1); [intros _; reflexivity|].
  destruct (adjust_framed fs1 (ranked O gss) G1) as (g & Tg & Eg).
  - intros a Ha. apply ranked_range in Ha. destruct F as (_ & L2 & L3). lia.
  - apply ranked_total; exact T.
  - exists (Flow fs1 (pl_pos s1) (CBMargins (pl_collapses s1) (pl_start s1) (pl_margin s1))), g. split; [exact Tg|].
    intros rank abs floats. unfold layout_block_level_children.
    rewrite (children_floats_framed _ _ _ _ F), (children_layout_framed _ _ _ _ F). rewrite E1. cbn [bind]. rewrite E1. cbn [bind].
    assert (K : adjust_static_positions (List.length abs) (abs ++ ranked O gss) fs1 rank = Ok (abs ++ map (with_rank rank) g)).
    { unfold adjust_static_positions. rewrite skipn_app, firstn_app, Nat.sub_diag, skipn_all, firstn_all. cbn [skipn firstn app].
      rewrite Eg. cbn [bind]. rewrite app_nil_r. reflexivity. }
    destruct floats; cbn [bind]; rewrite K; reflexivity.
Qed.

(** in-flow blocks *)
Lemma positioned_rank abs fs size padding rank :
  in_positioned_containing_block (map (with_rank rank) abs) fs size padding = in_positioned_containing_block abs fs size padding.
Proof. unfold in_positioned_containing_block. destruct abs; [reflexivity|]. cbn [map]. rewrite <- map_cons, mapR_map. reflexivity. Qed.
Lemma positioned_ok abs fs size padding : Forall total_abs abs ->
  exists fs', in_positioned_containing_block abs fs size padding = Ok fs'.
Proof.
  intros H. unfold in_positioned_containing_block. destruct abs as [|a abs]; [eauto|].
  destruct (mapR_total (fun a => af_layout a (af_inline a) (af_block a) (r_size (inflate (Rect vec2_zero size) padding))) (a :: abs)) as (l & E).
  - intros x Hx. rewrite Forall_forall in H. apply (H x Hx).
  - rewrite E. cbn [bind]. eauto.
Qed.
Lemma in_flow_framed cb st same (lay : nat -> bool -> cblock -> list abs_frag -> bool -> result (flow * list abs_frag)) :
  (forall cb' col, flow_framed (fun rank abs floats => lay rank floats cb' abs col)) ->
  exists f g, good f /\ Forall total_abs g /\
    framed_as (fun rank abs floats => layout_in_flow cb st same abs (lay rank floats)) f g.
Proof.
  intros H. unfold framed_as, layout_in_flow.
  destruct (H (if_children_cb cb st) (if_start_collapse cb st same)) as (fl & g & Tg & E). unfold flow_framed_as in E.
  destruct (is_relatively_positioned (sv st Lposition)).
  - destruct (positioned_ok g (fl_fragments fl) (r_size (if_content cb st same fl)) (if_padding cb st) Tg) as (fs' & Ef).
    eexists _, []. split; [|split; [constructor|]].
    2: { intros rank abs floats. rewrite E. cbn [bind app]. rewrite positioned_rank, Ef. cbn [bind map]. rewrite app_nil_r. reflexivity. }
    exact I.
  - eexists _, g. split; [|split; [exact Tg|]].
    2: { intros rank abs floats. rewrite E. cbn [bind]. reflexivity. }
    exact I.
Qed.

Section Tree.
Variable m_ascent m_descent : style -> Len.
Variable m_width : style -> text -> Len.
Notation layout_blb := (layout_blb m_ascent m_descent m_width).
Notation layout_container := (layout_container m_ascent m_descent m_width).
Notation layout_bfc := (layout_bfc m_ascent m_descent m_width).

Lemma solve_axis_dec c p ms me sm o s : exists a b x y, solve_axis c p ms me sm o s = (a, b, x, y).
Proof. destruct (solve_axis c p ms me sm o s) as [[[a b] x] y]. eauto. Qed.
Lemma abs_layout_total st (lay : cblock -> result (flow * list abs_frag)) :
  (forall cb, exists fl g, Forall total_abs g /\ lay cb = Ok (fl, g)) -> total_lay (abs_layout st lay).
Proof.
  intros H o1 o2 sz. unfold abs_layout.
  match goal with |- context [solve_axis ?c ?p ?a ?b solve_margins_inline ?o ?s] => destruct (solve_axis_dec c p a b solve_margins_inline o s) as (i1 & i2 & i3 & i4 & ->) end.
  match goal with |- context [solve_axis ?c ?p ?a ?b solve_margins_block ?o ?s] => destruct (solve_axis_dec c p a b solve_margins_block o s) as (b1 & b2 & b3 & b4 & ->) end.
  match goal with |- context [lay ?c] => destruct (H c) as (fl & g & Tg & ->) end. cbn [bind].
  match goal with |- context [in_positioned_containing_block g ?fs ?s ?p] => destruct (positioned_ok g fs s p Tg) as (fs' & ->) end.
  cbn [bind]. eauto.
Qed.

Lemma ilb_map_ok (f : style -> bfc -> abs_lay) : forall b : ilb bfc,
  ilb_every (fun st c => generates_box st /\ wf_bfc c) b -> ilb_every (fun _ c => wf_bfc c -> forall st, total_lay (f st c)) b ->
  abspos_ok (ilb_map f b) /\ ilb_every (fun _ => total_lay) (ilb_map f b).
Proof.
  fix IH 1. intros b H1 H2. destruct b as [st fi la_ ch | st t fo | st c | st c].
  - cbn [ilb_map ilb_every abspos_ok] in *. induction ch as [|x ch IHc]; [split; exact I|].
    cbn [map fold_right] in *. destruct H1 as [A1 A2], H2 as [B1 B2]. destruct (IH x A1 B1) as [X1 X2]. destruct (IHc A2 B2) as [Y1 Y2].
    repeat split; assumption.
  - split; exact I.
  - cbn [ilb_every ilb_map abspos_ok] in *. destruct H1 as [H0 H1]. split; [exact H0 | apply H2; exact H1].
  - split; exact I.
Qed.

Theorem layout_framed :
  (forall b, wf_blb b -> framed (layout_blb b)) /\
  (forall c, wf_container c -> forall cb col, flow_framed (fun rank abs floats => layout_container c cb rank abs floats col)) /\
  (forall c, wf_bfc c -> forall cb, flow_framed (fun rank abs _ => layout_bfc c cb rank abs)).
Proof.
  set (P := fun b => wf_blb b -> framed (layout_blb b)).
  set (Q := fun c => wf_container c -> forall cb col, flow_framed (fun rank abs floats => layout_container c cb rank abs floats col)).
  set (R := fun c => wf_bfc c -> forall cb, flow_framed (fun rank abs (_ : bool) => layout_bfc c cb rank abs)).
  assert (H_abs : forall c, R c -> wf_bfc c -> forall st, total_lay (abs_layout st (fun cb' => layout_bfc c cb' O []))).
  { intros c Hc Hw st. apply abs_layout_total. intros cb. destruct (Hc Hw cb) as (fl & g & Tg & E).
    exists fl, (map (with_rank O) g). split; [|exact (E O [] false)].
    apply Forall_forall. intros a Ha. apply in_map_iff in Ha. destruct Ha as (x & <- & Hx). rewrite Forall_forall in Tg. exact (Tg x Hx). }
  assert (H1 : forall st c, Q c -> P (SameFC st c)).
  { intros st c Hc Hw cb. apply (in_flow_framed cb st true (fun rank floats cb' abs' col => layout_container c cb' rank abs' floats col)).
    intros cb' col. apply (Hc Hw). }
  assert (H2 : forall st c, R c -> P (BAbspos st c)).
  { intros st c Hc Hw cb. exists anon_no_op, [abs_box_layout st (abs_layout st (fun cb' => layout_bfc c cb' O [])) vec2_zero O].
    split; [reflexivity|]. split; [constructor; [exact (H_abs c Hc Hw st) | constructor]|]. intros rank abs floats. reflexivity. }
  assert (H3 : forall st c, R c -> P (BFloat st c)).
  { intros st c Hc Hw cb. exists anon_no_op, []. split; [reflexivity|]. split; [constructor|]. intros rank abs floats.
    cbn [BlockModel.layout_blb map]. rewrite app_nil_r. reflexivity. }
  assert (H4 : forall st c, R c -> P (Indep st c)).
  { intros st c Hc Hw cb. apply (in_flow_framed cb st false (fun rank floats cb' abs' (_ : bool) => layout_bfc c cb' rank abs')).
    intros cb' col. apply (Hc Hw). }
  assert (H5 : forall l, Forall P l -> Q (BlockLevelBoxes l)).
  { intros l Hl Hw cb col. apply children_framed. cbn [wf_container] in Hw. clear - Hl Hw.
    induction Hl as [|b l Hb Hl IH]; [constructor|]. destruct Hw as [W1 W2]. cbn [map]. constructor; [exact (Hb W1) | exact (IH W2)]. }
  assert (H6 : forall st l, Forall (ilb_every (fun _ => R)) l -> Q (InlineFC st l)).
  { intros st l Hl Hw cb col. cbn [wf_container] in Hw.
    set (f := fun st c' => abs_layout st (fun cb' => layout_bfc c' cb' O [])).
    assert (K : abspos_oks (map (ilb_map f) l) /\ Forall (ilb_every (fun _ => total_lay)) (map (ilb_map f) l)).
    { clear cb col. induction Hl as [|b l Hb Hl IH]; [split; [exact I | constructor]|]. destruct Hw as [W1 W2].
      destruct (IH W2) as [Y1 Y2]. destruct (ilb_map_ok f b W1) as [X1 X2].
      - clear - Hb H_abs. revert b Hb. fix IHb 1. intros b Hb. destruct b as [st fi la_ ch | st t fo | st c | st c]; try exact I.
        + cbn [ilb_every] in *. induction ch as [|x ch IHc]; [exact I|]. destruct Hb as [B1 B2]. split; [exact (IHb x B1) | exact (IHc B2)].
        + cbn [ilb_every] in *. intros Hw st'. exact (H_abs c Hb Hw st').
      - split; [split; assumption | constructor; assumption]. }
    destruct K as [K1 K2]. destruct (ifc_frame m_ascent m_descent m_width st _ cb total_lay K1 K2) as (fl & g & Tg & E).
    exists fl, g. split; [exact Tg|]. intros rank abs floats. apply E. }
  assert (H7 : forall fl c, Q c -> R (BFC fl c)).
  { intros fl c Hc Hw cb. destruct (Hc Hw cb false) as (fw & g & Tg & E).
    eexists _, g. split; [exact Tg|]. intros rank abs floats. cbn [BlockModel.layout_bfc]. unfold flow_framed_as in E. rewrite E. reflexivity. }
  split; [|split].
  - exact (blb_tree P Q R H1 H2 H3 H4 H5 H6 H7).
  - exact (container_tree P Q R H1 H2 H3 H4 H5 H6 H7).
  - exact (bfc_tree P Q R H1 H2 H3 H4 H5 H6 H7).
Qed.

Lemma layout_root_ok root viewport : wf_bfc root -> exists fs, layout_root m_ascent m_descent m_width root viewport = Ok fs.
Proof.
  intros Hw. destruct layout_framed as (_ & _ & H).
  destruct (H root Hw (CBlock (v_inline viewport) (LALen (v_block viewport)))) as (fl & g & Tg & E).
  unfold layout_root. rewrite (E O [] false). cbn [bind app]. rewrite mapR_map.
  destruct (mapR_total (fun a => af_layout (with_rank O a) (af_inline (with_rank O a)) (af_block (with_rank O a)) viewport) g) as (l & El).
  - intros a Ha. rewrite Forall_forall in Tg. exact (Tg a Ha _ _ _).
  - rewrite El. cbn [bind]. eauto.
Qed.
End Tree.
End Any.

(** in exact arithmetic *)
Lemma leqb_refl a : leqb a a = true. Proof. apply leqb_iff. reflexivity. Qed.
Lemma cm_solve_zero : cm_solve cm_zero = l0. Proof. unfold cm_solve; cbn. ring. Qed.
