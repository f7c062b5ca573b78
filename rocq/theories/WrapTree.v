(** Wrapping inline content in an inline element that adds nothing: box construction (C95). *)
From Verif Require Import Base Len StyleModel StyleSpec InlineModel BlockModel TreeModel WrapSpec WrapInline WrapBlock.
Local Open Scope list_scope.
Local Open Scope outcome_scope.

Lemma same_inh_of s s' : same_style s s' -> same_inherited s s'.
Proof. intros [H _] l _. symmetry. apply H. Qed.
Lemma inh_trans a b c : same_inherited a b -> same_inherited b c -> same_inherited a c.
Proof. intros H K l I. rewrite (K l I). apply H, I. Qed.
Lemma inh_sym a b : same_inherited a b -> same_inherited b a.
Proof. intros H l I. symmetry. apply H, I. Qed.
Lemma anonymous_same s s' : same_inherited s s' -> same_style (anonymous_inheriting_from (Some s)) (anonymous_inheriting_from (Some s')).
Proof.
  intros H. split; [|reflexivity]. intros l. destruct l; cbn; try reflexivity; match goal with |- sv _ ?l = _ => symmetry; apply (H l); cbn; tauto end.
Qed.

(* ------------------------------------------------------------------ *)
(** * Lists of inline boxes *)
Notation wi := (wis (fun _ _ => zbfc)).
Definition run_last {C} (l : list (ilb C)) : bool := match rev l with TextRun _ _ _ :: _ => true | _ => false end.
Lemma run_last_app {C} (l : list (ilb C)) x : run_last (l ++ [x]) = match x with TextRun _ _ _ => true | _ => false end.
Proof. unfold run_last. rewrite rev_app_distr. reflexivity. Qed.
Lemma run_last_true {C} (l : list (ilb C)) : run_last l = true -> exists l0 st t fo, l = l0 ++ [TextRun st t fo].
Proof.
  induction l as [|x l _] using rev_ind; [discriminate|]. rewrite run_last_app. destruct x; try discriminate. intros _. eexists _, _, _, _; reflexivity.
Qed.
Lemma append_run l st t fo out p : append_text (l ++ [TextRun st t fo]) out p = l ++ [TextRun st (t ++ out) fo].
Proof.
  induction l as [|x l IH]; [reflexivity|]. cbn [app append_text]. rewrite IH. destruct x; try reflexivity. destruct l; reflexivity.
Qed.
Lemma append_other l out p : run_last l = false -> append_text l out p = l ++ [TextRun p out p].
Proof.
  induction l as [|x l IH]; [reflexivity|]. intros H. destruct l as [|y l].
  - destruct x; cbn in H; try discriminate; reflexivity.
  - assert (K : run_last (y :: l) = false).
    { revert H. unfold run_last. cbn [rev]. destruct (rev l ++ [y]) eqn:E; [destruct (rev l); discriminate|]. cbn. auto. }
    specialize (IH K). change (append_text (x :: y :: l) out p) with (match x with TextRun _ _ _ | _ => x :: append_text (y :: l) out p end).
    rewrite IH. destruct x; reflexivity.
Qed.
Lemma append_last l out p : run_last (append_text l out p) = true.
Proof.
  destruct (run_last l) eqn:E.
  - destruct (run_last_true _ E) as (l0 & st & t & fo & ->). rewrite append_run, run_last_app. reflexivity.
  - rewrite (append_other _ _ _ E), run_last_app. reflexivity.
Qed.
Lemma append_after pre l out p : l <> [] \/ pre = [] -> append_text (pre ++ l) out p = pre ++ append_text l out p.
Proof.
  intros [H| ->]; [|reflexivity]. destruct (run_last l) eqn:E.
  - destruct (run_last_true _ E) as (l0 & st & t & fo & ->). rewrite append_run, !app_assoc, append_run. reflexivity.
  - rewrite (append_other l _ _ E), app_assoc, <- append_other; [reflexivity|].
    destruct l as [|x l _] using rev_ind; [congruence|]. rewrite run_last_app in E. rewrite app_assoc, run_last_app. exact E.
Qed.
Lemma search_inline st fi la_ ch : search_box (InlineBox st fi la_ ch) = search_back ch.
Proof. cbn. induction ch as [|x l IH]; [reflexivity|]. cbn. rewrite IH. reflexivity. Qed.
Lemma search_app l l' : search_back (l ++ l') = match search_back l' with Some r => Some r | None => search_back l end.
Proof. induction l as [|x l IH]; cbn; [destruct (search_back l'); reflexivity|]. rewrite IH. destruct (search_back l'); reflexivity. Qed.
Lemma search_append l out p : search_back (append_text l out p) <> None.
Proof.
  destruct (run_last_true _ (append_last l out p)) as (l0 & st & t & fo & ->). rewrite search_app. discriminate.
Qed.
Lemma wi_search ctx l l' : wi ctx l l' -> search_back l' = search_back l.
Proof.
  induction 1; try reflexivity.
  - cbn [search_back]. rewrite !search_inline. rewrite IHwis1, IHwis2. reflexivity.
  - cbn [search_back]. rewrite IHwis. reflexivity.
  - cbn [search_back]. rewrite IHwis. reflexivity.
  - cbn [search_back]. rewrite IHwis. reflexivity.
  - rewrite search_app. cbn [search_back]. rewrite search_inline, IHwis1, IHwis2. reflexivity.
Qed.
Lemma wi_run ctx l0 st t fo l' : wi ctx (l0 ++ [TextRun st t fo]) l' -> exists l0' st' fo',
  l' = l0' ++ [TextRun st' t fo'] /\ wi ctx l0 l0' /\ same_inherited st st' /\ same_inherited fo fo'.
Proof.
  revert l'. induction l0 as [|x l0 IH]; intros l' H; cbn [app] in H.
  - inversion H as [| |c s s' t0 f f' l l1 H1 H2 H3| | |]; subst. inversion H3; subst. exists [], s', f'. split; [reflexivity|]; split; [constructor|]; split; assumption.
  - inversion H as [|c s s' fi la_ ch ch' l l1 H1 H2 H3|c s s' t0 f f' l l1 H1 H2 H3|c s s' k k' l l1 H1 H2 H3|c s s' k k' l l1 H1 H2 H3|c s fi la_ ch ch' l l1 H1 H2 H3]; subst;
      destruct (IH _ H3) as (l0' & st' & fo' & -> & W & S & S').
    + exists (InlineBox s' fi la_ ch' :: l0'), st', fo'. split; [reflexivity|]; split; [constructor; assumption|]; split; assumption.
    + exists (TextRun s' t0 f' :: l0'), st', fo'. split; [reflexivity|]; split; [constructor; assumption|]; split; assumption.
    + exists (IAbspos s' k' :: l0'), st', fo'. split; [reflexivity|]; split; [constructor; assumption|]; split; assumption.
    + exists (IFloat s' k' :: l0'), st', fo'. split; [reflexivity|]; split; [constructor; assumption|]; split; assumption.
    + exists (ch' ++ l0'), st', fo'. rewrite app_assoc. split; [reflexivity|]; split; [constructor; assumption|]; split; assumption.
Qed.
Lemma wi_append ctx l l' out p p' : wi ctx l l' -> run_last l' = run_last l -> same_inherited p p' ->
  wi ctx (append_text l out p) (append_text l' out p').
Proof.
  intros W T S. destruct (run_last l) eqn:E.
  - destruct (run_last_true _ E) as (l0 & st & t & fo & ->). destruct (wi_run _ _ _ _ _ _ W) as (l0' & st' & fo' & -> & W0 & S1 & S2).
    rewrite !append_run. apply wis_app; [exact W0|]. constructor; [assumption..|constructor].
  - rewrite !append_other by assumption. apply wis_app; [exact W|]. constructor; [assumption..|constructor].
Qed.
(** Boxes that are on both sides *)
Inductive both : ilb bfc -> ilb bfc -> Prop :=
| B_box st st' fi la_ ch ch' : same_style st st' -> Forall2 both ch ch' -> both (InlineBox st fi la_ ch) (InlineBox st' fi la_ ch')
| B_run st st' t fo fo' : same_inherited st st' -> same_inherited fo fo' -> both (TextRun st t fo) (TextRun st' t fo').
Lemma both_wi1 : forall x y, both x y -> forall ctx l l', wi ctx l l' -> wi ctx (x :: l) (y :: l').
Proof.
  fix IH 3. intros x y H ctx l l' W. destruct H as [st st' fi la_ ch ch' S F|st st' t fo fo' S S']; constructor; auto.
  clear W. induction F as [|u v ch ch' Huv F IHF]; [constructor|]. apply (IH _ _ Huv). exact IHF.
Qed.
Lemma both_wi l l' ctx : Forall2 both l l' -> wi ctx l l'.
Proof. induction 1; [constructor|]. apply both_wi1; assumption. Qed.
Lemma both_run_last l l' : Forall2 both l l' -> run_last l' = run_last l.
Proof.
  intros H. unfold run_last. assert (K : Forall2 both (rev l) (rev l')).
  { induction H; cbn; [constructor|]. apply Forall2_app; [assumption|]. constructor; [assumption|constructor]. }
  destruct K as [|x y ? ? Hxy]; [reflexivity|]. destruct Hxy; reflexivity.
Qed.
Lemma both_append l l' out p p' : Forall2 both l l' -> same_inherited p p' -> Forall2 both (append_text l out p) (append_text l' out p').
Proof.
  intros H S. induction H as [|x y l l' Hxy F IH]; cbn [append_text].
  - constructor; [constructor; assumption|constructor].
  - assert (D : Forall2 both (x :: append_text l out p) (y :: append_text l' out p')) by (constructor; assumption).
    destruct Hxy; destruct F; try exact D. constructor; [constructor; assumption|constructor].
Qed.

(* ------------------------------------------------------------------ *)
(** * Text *)
Definition lead (L : list (ilb bfc)) (t : text) : bool * text :=
  match t with
  | c :: _ => if ascii_ws c then (match search_back L with Some x => x | None => false end, trim_start ascii_ws t) else (false, t)
  | [] => (false, t)
  end.
Definition collapsed (t : text) (L : list (ilb bfc)) : option (option text) :=
  let '(le, t) := lead L t in
  if le || match t with [] => false | _ => true end
  then match collapse_loop (S (List.length t)) t with Some out => Some (Some (if le then 32%N :: out else out)) | None => None end
  else Some None.
Definition preserved (t : text) : option (option text) := match t with [] => Some None | _ => Some (Some t) end.
(** what is appended: None on failure, Some None if nothing *)
Definition added (t : text) (p : style) (L : list (ilb bfc)) : option (option text) :=
  match sv p Lwhite_space with
  | WSNormal | WSNowrap => collapsed t L
  | WSPre | WSPreWrap => preserved t
  | _ => None
  end.
Definition line_text (t : text) (p : style) (L : list (ilb bfc)) : option (list (ilb bfc)) :=
  match added t p L with
  | Some (Some out) => Some (append_text L out p)
  | Some None => Some L
  | None => None
  end.
Definition fails {A} (r : outcome A) : Prop := match r with Done _ => False | _ => True end.
Lemma set_current_same b : set_current b (current b) = b.
Proof. destruct b as [st bx i [|[so fo c] s] f]; reflexivity. Qed.
Lemma set_current_twice b l l' : set_current (set_current b l) l' = set_current b l'.
Proof. destruct b as [st bx i [|[so fo c] s] f]; reflexivity. Qed.
Lemma current_set b l : current (set_current b l) = l.
Proof. destruct b as [st bx i [|[so fo c] s] f]; reflexivity. Qed.
Lemma handle_text_line t p b : match line_text t p (current b) with
  | Some M => handle_text t p b = Done (set_current b M) | None => fails (handle_text t p b) end.
Proof.
  unfold line_text, added, handle_text.
  assert (C : match collapsed t (current b) with
    | Some (Some out) => handle_text_collapse t p b = Done (set_current b (append_text (current b) out p))
    | Some None => handle_text_collapse t p b = Done (set_current b (current b))
    | None => fails (handle_text_collapse t p b) end).
  { unfold handle_text_collapse, collapsed. change (handle_leading_whitespace b t) with (lead (current b) t). destruct (lead (current b) t) as [le u].
    destruct (le || _); [|rewrite set_current_same; reflexivity]. destruct (collapse_loop _ u); [reflexivity|exact I]. }
  assert (P : match preserved t with
    | Some (Some out) => handle_text_preserve t p b = Done (set_current b (append_text (current b) out p))
    | Some None => handle_text_preserve t p b = Done (set_current b (current b))
    | None => fails (handle_text_preserve t p b) end).
  { unfold handle_text_preserve. destruct t; [cbn; rewrite set_current_same|]; reflexivity. }
  destruct (sv p Lwhite_space); try (destruct (collapsed t (current b)) as [[out|]|]; assumption); try (destruct (preserved t) as [[out|]|]; assumption);
    destruct (existsb has_real_slot (b_boxes b)); exact I.
Qed.
Lemma added_eq t p p' L L' : same_inherited p p' -> search_back L' = search_back L -> added t p' L' = added t p L.
Proof.
  intros S E. unfold added. rewrite (S Lwhite_space) by (cbn; tauto). replace (collapsed t L') with (collapsed t L); [reflexivity|].
  unfold collapsed. replace (lead L' t) with (lead L t); [reflexivity|]. unfold lead. rewrite E. reflexivity.
Qed.
Lemma ascii_ws_in c : ascii_ws c = true <-> In c [32; 9; 10; 12; 13]%N.
Proof.
  unfold ascii_ws. rewrite !Bool.orb_true_iff, !N.eqb_eq. cbn. intuition congruence.
Qed.
Lemma trim_shows t c : In c t -> ascii_ws c = false -> trim_start ascii_ws t <> [].
Proof.
  induction t as [|d t IH]; [intros []|]. intros [->|H] E; cbn; [rewrite E; discriminate|]. destruct (ascii_ws d); [auto|discriminate].
Qed.
Lemma shows_added t p L : shows_text (SText t) -> added t p L <> Some None.
Proof.
  intros H. inversion H as [t0 c Hc Hn|]; subst. assert (E : ascii_ws c = false).
  { destruct (ascii_ws c) eqn:E; [|reflexivity]. apply ascii_ws_in in E. contradiction. }
  assert (K : t <> []) by (intros ->; destruct Hc).
  assert (Le : snd (lead L t) <> []).
  { unfold lead. destruct t as [|d t]; [congruence|]. destruct (ascii_ws d); cbn [snd]; [apply (trim_shows _ c); assumption|discriminate]. }
  assert (C : collapsed t L <> Some None).
  { unfold collapsed. destruct (lead L t) as [le u]. cbn [snd] in Le. destruct u as [|d u]; [congruence|]. rewrite Bool.orb_true_r.
    destruct (collapse_loop _ _); discriminate. }
  assert (P : preserved t <> Some None) by (destruct t; [congruence|discriminate]).
  unfold added. destruct (sv p Lwhite_space); try assumption; discriminate.
Qed.

(* ------------------------------------------------------------------ *)
(** * The contents of a wrapper, in it and without it *)
Definition inv (pre L L' : list (ilb bfc)) : Prop := Forall2 both L L' /\ (pre = [] \/ (L' <> [] /\ search_back L <> None)).
Definition node_ok (n : snode) : Prop := forall n', same_node n n' -> forall p p' nx nx' bl br pre L L', same_inherited p p' ->
  inv pre L L' \/ (inline_element n /\ Forall2 both L L') ->
  (fails (handle_node p n nx (set_current bl L)) /\ fails (handle_node p' n' nx' (set_current br (pre ++ L')))) \/
  exists M M', handle_node p n nx (set_current bl L) = Done (set_current bl M) /\
    handle_node p' n' nx' (set_current br (pre ++ L')) = Done (set_current br (pre ++ M')) /\
    Forall2 both M M' /\ (L <> [] -> M <> []) /\ (search_back L <> None -> search_back M <> None) /\
    (inline_element n -> M <> [] /\ run_last M = false) /\ (shows_text n -> M <> [] /\ search_back M <> None).
Lemma nil_both l l' : Forall2 both l l' -> (l <> [] <-> l' <> []).
Proof. intros H. destruct H; split; congruence. Qed.
Lemma nodes_ok kids : Forall node_ok kids -> forall kids' rest', Forall2 same_node kids kids' -> forall p p' bl br pre L L', same_inherited p p' ->
  inv pre L L' \/ (exists n r, kids = n :: r /\ inline_element n /\ shows_text n /\ Forall2 both L L') ->
  (fails (traverse_with (handle_node p) kids (set_current bl L)) /\ fails (traverse_with (handle_node p') (kids' ++ rest') (set_current br (pre ++ L')))) \/
  exists M M', traverse_with (handle_node p) kids (set_current bl L) = Done (set_current bl M) /\
    traverse_with (handle_node p') (kids' ++ rest') (set_current br (pre ++ L')) = traverse_with (handle_node p') rest' (set_current br (pre ++ M')) /\
    Forall2 both M M' /\ (L <> [] -> M <> []) /\ (search_back L <> None -> search_back M <> None) /\
    (forall front n, kids = front ++ [n] -> inline_element n -> run_last M = false) /\
    (Exists (fun n => inline_element n \/ shows_text n) kids -> M <> []) /\ (Exists shows_text kids -> search_back M <> None).
Proof.
  induction 1 as [|n kids Hn _ IH]; intros kids' rest' S p p' bl br pre L L' Hp HI.
  - inversion S; subst. right. exists L, L'. cbn [app]. destruct HI as [[B _]|(n & r & E & _)]; [|discriminate].
    repeat split; auto. all: try (intros front n0 E; destruct front; discriminate). all: intros E; inversion E.
  - inversion S as [|? n' ? kids0' Sn Sk]; subst. cbn [app traverse_with].
    set (nx := match kids with [] => false | _ => true end). set (nx' := match kids0' ++ rest' with [] => false | _ => true end).
    assert (HN : inv pre L L' \/ (inline_element n /\ Forall2 both L L')).
    { destruct HI as [HI|(m & r & E & H1 & H2 & H3)]; [left; exact HI|]. injection E as -> ->. right. auto. }
    destruct (Hn n' Sn p p' nx nx' bl br pre L L' Hp HN) as [[F1 F2]|(M & M' & E1 & E2 & B & K1 & K2 & K3 & K4)].
    + left. destruct (handle_node p n nx (set_current bl L)), (handle_node p' n' nx' (set_current br (pre ++ L'))); cbn in *; try contradiction; auto.
    + rewrite E1, E2. cbn [obind].
      assert (I' : inv pre M M').
      { split; [exact B|]. destruct HI as [[_ [HI|[H1 H2]]]|(m & r & E & H1 & H2 & H3)]; [left; exact HI|right|right].
        - split; [|auto]. apply (nil_both _ _ B). apply K1. intros ->. destruct HN as [[HB _]|[_ HB]]; inversion HB; subst; congruence.
        - injection E as -> ->. destruct (K4 H2) as [N1 N2]. split; [apply (nil_both _ _ B), N1|exact N2]. }
      destruct (IH kids0' rest' Sk p p' bl br pre M M' Hp (or_introl I')) as [F|(N & N' & D1 & D2 & B' & J1 & J2 & J3 & J4 & J5)]; [left; exact F|].
      right. exists N, N'. split; [exact D1|]. split; [exact D2|]. split; [exact B'|].
      split; [auto|]. split; [auto|]. split; [|split].
      * intros front m E Hm. destruct front as [|x front]; cbn in E; injection E as -> E.
        -- subst kids. cbn [traverse_with] in D1. injection D1 as D1. apply (f_equal current) in D1. rewrite !current_set in D1. subst. apply K3, Hm.
        -- apply (J3 front m E Hm).
      * intros X. inversion X as [? ? Y|? ? Y]; subst; [|auto]. apply J1. destruct Y as [Y|Y]; [apply K3, Y|apply K4, Y].
      * intros X. inversion X as [? ? Y|? ? Y]; subst; [|auto]. apply J2. apply K4, Y.
Qed.
Lemma line_ok t p p' bl br pre L L' : same_inherited p p' -> inv pre L L' ->
  (fails (handle_text t p (set_current bl L)) /\ fails (handle_text t p' (set_current br (pre ++ L')))) \/
  exists M M', handle_text t p (set_current bl L) = Done (set_current bl M) /\
    handle_text t p' (set_current br (pre ++ L')) = Done (set_current br (pre ++ M')) /\
    Forall2 both M M' /\ (L <> [] -> M <> []) /\ (search_back L <> None -> search_back M <> None) /\
    (shows_text (SText t) -> M <> [] /\ search_back M <> None).
Proof.
  intros Hp [B C]. pose proof (handle_text_line t p (set_current bl L)) as T. pose proof (handle_text_line t p' (set_current br (pre ++ L'))) as T'.
  rewrite current_set in T, T'.
  assert (W : search_back L' = search_back L) by (apply (wi_search p); apply both_wi; exact B).
  assert (SB : search_back (pre ++ L') = search_back L).
  { rewrite search_app. destruct C as [->|[_ C]]; [rewrite W; destruct (search_back L); reflexivity|]. rewrite W. destruct (search_back L); congruence. }
  unfold line_text in T, T'. rewrite (added_eq t p p' _ _ Hp SB) in T'.
  destruct (added t p L) as [[out|]|] eqn:Ea; [| |left; auto]; right; rewrite set_current_twice in T, T'.
  - rewrite append_after in T' by (destruct C as [->|[C _]]; auto).
    exists (append_text L out p), (append_text L' out p'). split; [exact T|]. split; [exact T'|]. split; [apply both_append; assumption|].
    assert (N : append_text L out p <> []) by (intros E; pose proof (append_last L out p) as X; rewrite E in X; discriminate).
    pose proof (search_append L out p). auto.
  - exists L, L'. split; [exact T|]. split; [exact T'|]. split; [exact B|]. split; [auto|]. split; [auto|]. intros X. exfalso. exact (shows_added t p L X Ea).
Qed.
Lemma inline_ok n : inline_content n -> node_ok n.
Proof.
  revert n. fix IH 2. intros n H n' S p p' nx nx' bl br pre L L' Hp HI. destruct H as [t| |st kids|st kids D F].
  - inversion S; subst. cbn [handle_node]. assert (HI' : inv pre L L') by (destruct HI as [HI|[[] _]]; exact HI).
    destruct (line_ok t p p' bl br pre L L' Hp HI') as [X|(M & M' & E1 & E2 & B & K1 & K2 & K3)]; [left; exact X|].
    right. exists M, M'. do 5 (split; [assumption|]). split; [intros []|exact K3].
  - inversion S; subst. cbn [handle_node]. assert (HI' : inv pre L L') by (destruct HI as [HI|[[] _]]; exact HI).
    right. exists L, L'. destruct HI' as [B _]. do 5 (split; [auto|]). split; [intros []|intros X; inversion X].
  - inversion S as [| |? ? st' ? kids' Hs Hk]; subst. cbn [handle_node]. assert (HI' : inv pre L L') by (destruct HI as [HI|[[Hf _] _]]; [exact HI|discriminate]).
    destruct (line_ok [nl] st st' bl br pre L L' (same_inh_of _ _ Hs) HI') as [X|(M & M' & E1 & E2 & B & K1 & K2 & K3)]; [left; exact X|].
    right. exists M, M'. do 5 (split; [assumption|]). split; [intros [Hf _]; discriminate|intros X; inversion X].
  - inversion S as [| |? ? st' ? kids' Hs Hk]; subst. cbn [handle_node]. rewrite <- (proj1 Hs Ldisplay), D.
    assert (G : Forall node_ok kids) by (clear - F IH; induction F; constructor; [apply IH; assumption|assumption]).
    destruct (nodes_ok kids G kids' [] Hk st st' (push_inline st (set_current bl L)) (push_inline st' (set_current br (pre ++ L'))) [] [] [] (same_inh_of _ _ Hs)
        (or_introl (conj (Forall2_nil _) (or_introl eq_refl)))) as [[F1 F2]|(M & M' & E1 & E2 & B & K1 & K2 & K3 & K4 & K5)].
    + rewrite app_nil_r in F2. left.
      change (set_current (push_inline st (set_current bl L)) []) with (push_inline st (set_current bl L)) in F1.
      change (set_current (push_inline st' (set_current br (pre ++ L'))) ([] ++ [])) with (push_inline st' (set_current br (pre ++ L'))) in F2.
      destruct (traverse_with (handle_node st) kids _), (traverse_with (handle_node st') kids' _); cbn in F1, F2 |- *; try contradiction; auto.
    + rewrite app_nil_r in E2. cbn [traverse_with app] in E2.
      change (set_current (push_inline st (set_current bl L)) []) with (push_inline st (set_current bl L)) in E1.
      change (set_current (push_inline st' (set_current br (pre ++ L'))) []) with (push_inline st' (set_current br (pre ++ L'))) in E2.
      right. exists (L ++ [InlineBox st true true M]), (L' ++ [InlineBox st' true true M']). rewrite E1, E2. cbn [obind].
      assert (P : forall s b l, with_slot (pop_inline (set_current (push_inline s b) l)) = Done (set_current b (current b ++ [InlineBox s true true l]))).
      { intros s b l. destruct b as [u v w x y]; reflexivity. }
      rewrite !P, !current_set, !set_current_twice, <- app_assoc.
      assert (BL : Forall2 both L L') by (destruct HI as [[BL _]|[_ BL]]; exact BL).
      split; [reflexivity|]. split; [reflexivity|]. split; [apply Forall2_app; [exact BL|constructor; [constructor; assumption|constructor]]|].
      assert (N : L ++ [InlineBox st true true M] <> []) by (destruct L; discriminate).
      split; [auto|]. split; [rewrite search_app; cbn [search_back]; intros X; destruct (search_box _); [discriminate|exact X]|].
      split; [intros _; rewrite run_last_app; auto|]. intros X. split; [exact N|]. rewrite search_app. cbn [search_back]. rewrite search_inline.
      inversion X as [|? ? Y]; subst. specialize (K5 Y). destruct (search_back M); congruence.
Qed.

(* ------------------------------------------------------------------ *)
(** * Builders *)
Definition zout {A B} (R : A -> B -> Prop) (r : outcome A) (r' : outcome B) : Prop :=
  match r, r' with Done a, Done b => R a b | Done _, _ => False | _, Done _ => False | _, _ => True end.
Lemma zout_bind {A B C D} (R : A -> B -> Prop) (Q : C -> D -> Prop) r r' f f' :
  zout R r r' -> (forall a b, R a b -> zout Q (f a) (f' b)) -> zout Q (obind r f) (obind r' f').
Proof. destruct r, r'; cbn; try tauto. auto. Qed.
Lemma zout_slot {A B} (R : A -> B -> Prop) r r' : zout R r r' -> zout R (with_slot r) (with_slot r').
Proof. destruct r, r'; cbn; tauto. Qed.
Lemma zout_fails {A B} (R : A -> B -> Prop) r r' : fails r -> fails r' -> zout R r r'.
Proof. destruct r, r'; cbn; tauto. Qed.
Definition zcf (x y : bcontainer * bool) : Prop := zcont (fst x) (fst y) /\ snd y = snd x.
Inductive zong : ongoing -> ongoing -> Prop :=
| ZOng st st' f c c' : same_style st st' -> wi st c c' -> zong (Ongoing st f c) (Ongoing st' f c').
Inductive zinter : inter -> inter -> Prop :=
| ZMAnon st st' ps ps' l l' : same_style st st' -> same_inherited ps ps' -> wi ps l l' -> zinter (MAnon st ps l) (MAnon st' ps' l')
| ZMDef st st' r r' : same_style st st' -> zout zcf r r' -> zinter (MDeferred st r) (MDeferred st' r')
| ZMInd st st' r r' : same_style st st' -> zout zbfc r r' -> zinter (MIndep st r) (MIndep st' r')
| ZMAbs st st' r r' : same_style st st' -> zout zbfc r r' -> zinter (MAbspos st r) (MAbspos st' r')
| ZMFlo st st' r r' : same_style st st' -> zout zbfc r r' -> zinter (MFloat st r) (MFloat st' r').
Definition nils {A B} (l : list A) (l' : list B) : Prop := l = [] <-> l' = [].
Inductive zbuilder : builder -> builder -> Prop :=
| ZBuilder st st' b b' i i' s s' f : same_inherited st st' -> Forall2 zinter b b' -> wi st i i' -> nils i i' -> Forall2 zong s s' ->
    zbuilder (Builder st b i s f) (Builder st' b' i' s' f).
Definition cur_style (b : builder) : style := match b_stack b with o :: _ => og_style o | [] => b_style b end.
Definition styles (b : builder) : style * list style := (b_style b, map og_style (b_stack b)).
Lemma styles_cur b b' : styles b = styles b' -> cur_style b = cur_style b'.
Proof. unfold styles, cur_style. intros E. injection E as E1 E2. destruct (b_stack b), (b_stack b'); cbn in *; congruence. Qed.
Lemma styles_set b l : styles (set_current b l) = styles b.
Proof. destruct b as [st bx i [|[so fo c] s] f]; reflexivity. Qed.
Lemma z_current b b' : zbuilder b b' -> wi (cur_style b) (current b) (current b').
Proof. intros [st st' bx bx' i i' s s' f H1 H2 H3 H3' H4]. unfold current, cur_style; cbn. destruct H4 as [|o o' ? ? Ho]; [exact H3|]. destruct Ho; assumption. Qed.
Lemma z_set_current b b' l l' : zbuilder b b' -> wi (cur_style b) l l' -> nils l l' -> zbuilder (set_current b l) (set_current b' l').
Proof.
  intros [st st' bx bx' i i' s s' f H1 H2 H3 H3' H4] L N. unfold set_current, cur_style in *; cbn in *. destruct H4 as [|o o' ? ? Ho]; constructor; auto.
  constructor; [|assumption]. destruct Ho; constructor; assumption.
Qed.
Lemma nils_snoc {A B} (l : list A) (l' : list B) x y : nils (l ++ [x]) (l' ++ [y]).
Proof. split; intros E; [destruct l|destruct l']; discriminate. Qed.
Lemma z_push_box b b' m m' : zbuilder b b' -> zinter m m' -> zbuilder (push_box b m) (push_box b' m').
Proof. intros [st st' bx bx' i i' s s' f H1 H2 H3 H3' H4] M. unfold push_box; cbn. constructor; auto. apply Forall2_app; [assumption|constructor; [assumption|constructor]]. Qed.
(** the relation after a step *)
Definition tails (b b' : builder) : Prop := run_last (current b') = run_last (current b).
Definition step (b : builder) (c c' : builder) : Prop := zbuilder c c' /\ tails c c' /\ styles c = styles b.
Lemma z_handle_text t p p' b b' : same_inherited p p' -> zbuilder b b' -> tails b b' -> zout (step b) (handle_text t p b) (handle_text t p' b').
Proof.
  intros S B T. pose proof (z_current b b' B) as W.
  pose proof (handle_text_line t p b) as E. pose proof (handle_text_line t p' b') as E'. unfold line_text in E, E'.
  rewrite (added_eq t p p' _ _ S (wi_search _ _ _ W)) in E'.
  destruct (added t p (current b)) as [[out|]|].
  - rewrite E, E'. split; [|split; [|apply styles_set]].
    + apply z_set_current; [exact B|apply wi_append; assumption|].
      split; intros X; exfalso; [pose proof (append_last (current b) out p) as Y|pose proof (append_last (current b') out p') as Y]; rewrite X in Y; discriminate.
    + unfold tails. rewrite !current_set, !append_last. reflexivity.
  - rewrite E, E', !set_current_same. split; [exact B|split; [exact T|reflexivity]].
  - apply zout_fails; assumption.
Qed.
Lemma z_push_inline st st' b b' : same_style st st' -> zbuilder b b' -> zbuilder (push_inline st b) (push_inline st' b').
Proof. intros H [? ? ? ? ? ? ? ? ? H1 H2 H3 H3' H4]. unfold push_inline; cbn. constructor; auto. constructor; [constructor; [assumption|constructor]|assumption]. Qed.
Lemma z_snoc b b' x y : zbuilder b b' -> (forall ctx, wi ctx [x] [y]) -> match x with TextRun _ _ _ => False | _ => True end -> match y with TextRun _ _ _ => False | _ => True end ->
  step b (set_current b (current b ++ [x])) (set_current b' (current b' ++ [y])).
Proof.
  intros B W X Y. split; [|split; [|apply styles_set]].
  - apply z_set_current; [exact B| |apply nils_snoc]. apply wis_app; [apply z_current, B|apply W].
  - unfold tails. rewrite !current_set, !run_last_app. destruct x, y; tauto.
Qed.
Lemma z_pop_inline st b0 b b' : zbuilder b b' -> styles b = styles (push_inline st b0) -> zout (step b0) (pop_inline b) (pop_inline b').
Proof.
  intros [s0 st' bx bx' i i' s s' f H1 H2 H3 H3' H4] E. unfold styles in E. cbn in E. injection E as E1 E2. unfold pop_inline; cbn [b_stack].
  destruct H4 as [|o o' ? ? Ho H4]; [discriminate|]. cbn [b_style b_boxes b_inlines b_floats zout].
  destruct Ho as [so so' fo c c' Hso Hc]. cbn [og_style og_first og_children].
  assert (B : zbuilder (Builder s0 bx i l f) (Builder st' bx' i' l' f)) by (constructor; assumption).
  destruct (z_snoc _ _ (InlineBox so fo true c) (InlineBox so' fo true c') B) as (P1 & P2 & P3).
  { intros ctx. constructor; [assumption..|constructor]. } { exact I. } { exact I. }
  split; [exact P1|]. split; [exact P2|]. rewrite P3. unfold styles. cbn. cbn in E2. injection E2 as E2 E3. congruence.
Qed.
Lemma z_end_ifc b b' : zbuilder b b' -> zout (fun c c' => step b c c' /\ current c = [] /\ current c' = []) (end_ifc b) (end_ifc b').
Proof.
  intros [st st' bx bx' i i' s s' f H1 H2 H3 H3' H4]. unfold end_ifc; cbn [b_stack b_inlines]. destruct H4; [|exact I].
  destruct i as [|x i], i' as [|x' i']; try (exfalso; destruct H3' as [H3' H3'']; (discriminate (H3' eq_refl) || discriminate (H3'' eq_refl))); cbn [zout].
  - split; [|split; reflexivity]. split; [constructor; auto|split; reflexivity].
  - split; [|split; reflexivity]. split; [|split; reflexivity]. cbn [b_style b_boxes b_floats]. constructor; auto.
    + apply Forall2_app; [assumption|]. constructor; [|constructor]. constructor; [apply anonymous_same; assumption|assumption..].
    + constructor.
    + split; reflexivity.
Qed.
Definition zopt (i i' : option (ilb bfc)) : Prop := match i, i' with Some x, Some y => forall ctx, wi ctx [x] [y] | None, None => True | _, _ => False end.
Lemma z_fragmented s s' : Forall2 zong s s' -> forall i i', zopt i i' -> zopt (fragmented s i) (fragmented s' i').
Proof.
  induction 1 as [|o o' s s' Ho _ IH]; intros i i' Hi; cbn [fragmented]; [exact Hi|]. apply IH. destruct Ho as [so so' fo c c' Hso Hc]. cbn. intros ctx.
  constructor; [assumption| |constructor]. apply wis_app; [assumption|]. destruct i, i'; cbn in Hi; try tauto; [apply Hi|constructor].
Qed.
Lemma z_fragment_inlines b b' : zbuilder b b' -> zbuilder (fragment_inlines b) (fragment_inlines b') /\ styles (fragment_inlines b) = styles b.
Proof.
  intros [st st' bx bx' i i' s s' f H1 H2 H3 H3' H4]. unfold fragment_inlines; cbn. split.
  - pose proof (z_fragmented _ _ H4 None None I) as F. unfold zopt in F.
    constructor; auto.
    + apply wis_app; [assumption|]. destruct (fragmented s None), (fragmented s' None); try tauto; [apply F|constructor].
    + destruct (fragmented s None), (fragmented s' None); try tauto; [apply nils_snoc|]. rewrite !app_nil_r. exact H3'.
    + clear F H3. induction H4 as [|o o' ? ? Ho]; cbn; constructor; [|assumption]. destruct Ho. constructor; [assumption|constructor].
  - unfold styles. cbn. f_equal. rewrite map_map. reflexivity.
Qed.
Lemma z_handle_block st st' ins r r' b b' : same_style st st' -> zout zcf r r' -> zbuilder b b' ->
  zout (step b) (handle_block st ins r b) (handle_block st' ins r' b').
Proof.
  intros H R B. unfold handle_block. destruct (z_fragment_inlines b b' B) as [B1 E1].
  eapply zout_bind; [apply z_end_ifc, B1|]. intros c c' ((C1 & C2 & C3) & N1 & N2). cbn [zout].
  assert (Cu : forall d m, current (push_box d m) = current d) by (intros [? ? ? ? ?] m; reflexivity).
  split; [|split].
  - apply z_push_box; [exact C1|]. destruct ins; constructor; auto. eapply zout_bind; [exact R|]. intros [x fl] [y fl'] [X E]. cbn in *. subst. constructor. exact X.
  - unfold tails. rewrite !Cu, N1, N2. reflexivity.
  - rewrite <- E1, <- C3. reflexivity.
Qed.
Lemma z_finish_one m m' : zinter m m' -> zout (fun x y => zblb (fst x) (fst y) /\ snd y = snd x) (finish_one m) (finish_one m').
Proof.
  intros H. destruct H as [| st st' r r' H R|st st' r r' H R|st st' r r' H R|st st' r r' H R]; cbn [finish_one].
  - split; [|reflexivity]. constructor; [assumption|]. constructor; assumption.
  - apply zout_slot. eapply zout_bind; [exact R|]. intros [c fl] [c' fl'] [C E]. cbn in *. split; [constructor; assumption|assumption].
  - apply zout_slot. eapply zout_bind; [exact R|]. intros c c' C. cbn. split; [constructor; assumption|reflexivity].
  - apply zout_slot. eapply zout_bind; [exact R|]. intros c c' C. cbn. split; [constructor; assumption|reflexivity].
  - apply zout_slot. eapply zout_bind; [exact R|]. intros c c' C. cbn. split; [constructor; assumption|reflexivity].
Qed.
Lemma z_finish_all l l' : Forall2 zinter l l' -> forall fl,
  zout (fun x y => Forall2 zblb (fst x) (fst y) /\ snd y = snd x) (finish_all l fl) (finish_all l' fl).
Proof.
  induction 1 as [|m m' l l' Hm _ IH]; intros fl; cbn [finish_all]; [split; [constructor|reflexivity]|].
  eapply zout_bind; [apply z_finish_one, Hm|]. intros [x f] [x' f'] [X E]. cbn [fst snd] in *. subst f'.
  eapply zout_bind; [apply IH|]. intros [xs f2] [xs' f2'] [Xs E2]. cbn in *. split; [constructor; assumption|assumption].
Qed.
Lemma z_finish_container b b' : zbuilder b b' -> zout zcf (finish_container b) (finish_container b').
Proof.
  intros B. unfold finish_container.
  assert (G : forall c c', zbuilder c c' -> zout zcf (obind (finish_all (b_boxes c) (b_floats c)) (fun '(l, floats) => Done (BlockLevelBoxes l, floats)))
     (obind (finish_all (b_boxes c') (b_floats c')) (fun '(l, floats) => Done (BlockLevelBoxes l, floats)))).
  { intros c c' [? ? ? ? ? ? ? ? f H1 H2 H3 H3' H4]. cbn [b_boxes b_floats]. eapply zout_bind; [apply z_finish_all, H2|].
    intros [l fl] [l' fl'] [L E]. cbn in *. split; [constructor; assumption|assumption]. }
  pose proof (z_end_ifc b b' B) as E.
  assert (K : zout zcf (obind (end_ifc b) (fun b0 => obind (finish_all (b_boxes b0) (b_floats b0)) (fun '(l, floats) => Done (BlockLevelBoxes l, floats))))
     (obind (end_ifc b') (fun b0 => obind (finish_all (b_boxes b0) (b_floats b0)) (fun '(l, floats) => Done (BlockLevelBoxes l, floats))))).
  { eapply zout_bind; [exact E|]. intros c c' ((C & _) & _). apply G, C. }
  specialize (G b b' B). destruct B as [st st' bx bx' i i' s s' f H1 H2 H3 H3' H4]. cbn [b_inlines b_boxes b_style b_floats] in *.
  destruct i as [|x i], i' as [|x' i']; try (exfalso; destruct H3' as [H3' H3'']; (discriminate (H3' eq_refl) || discriminate (H3'' eq_refl)));
    destruct H2; first [exact K | exact G | idtac].
  split; cbn; [|reflexivity]. constructor; assumption.
Qed.
Lemma z_has_ongoing b b' : zbuilder b b' -> has_ongoing_ifc b' = has_ongoing_ifc b /\ (has_ongoing_ifc b = false -> current b = [] /\ current b' = []).
Proof.
  intros [st st' bx bx' i i' s s' f H1 H2 H3 H3' H4]. unfold has_ongoing_ifc; cbn.
  destruct i as [|x i], i' as [|x' i']; try (exfalso; destruct H3' as [H3' H3'']; (discriminate (H3' eq_refl) || discriminate (H3'' eq_refl))).
  - destruct H4; (split; [reflexivity|]); [auto|discriminate].
  - split; [reflexivity|discriminate].
Qed.
Lemma z_handle_abspos st st' r r' b b' : same_style st st' -> zout zbfc r r' -> zbuilder b b' -> zout (step b) (handle_abspos st r b) (handle_abspos st' r' b').
Proof.
  intros H R B. unfold handle_abspos. destruct (z_has_ongoing b b' B) as [E N]. rewrite E. destruct (has_ongoing_ifc b).
  - apply zout_slot. eapply zout_bind; [exact R|]. intros c c' C. cbn [zout]. apply z_snoc; [exact B| |exact I|exact I]. intros ctx. constructor; [assumption..|constructor].
  - cbn [zout]. destruct (N eq_refl) as [N1 N2]. split; [apply z_push_box; [exact B|constructor; assumption]|]. split; [|reflexivity].
    unfold tails. change (current (push_box b' (MAbspos st' r'))) with (current b'). change (current (push_box b (MAbspos st r))) with (current b). rewrite N1, N2. reflexivity.
Qed.
Lemma z_handle_float st st' r r' b b' : same_style st st' -> zout zbfc r r' -> zbuilder b b' -> zout (step b) (handle_float st r b) (handle_float st' r' b').
Proof.
  intros H R B. unfold handle_float. cbv zeta.
  set (b1 := Builder (b_style b) (b_boxes b) (b_inlines b) (b_stack b) true). set (b1' := Builder (b_style b') (b_boxes b') (b_inlines b') (b_stack b') true).
  assert (B1 : zbuilder b1 b1') by (destruct B; constructor; assumption).
  change (step b) with (step b1).
  destruct (z_has_ongoing _ _ B1) as [E N]. rewrite E. destruct (has_ongoing_ifc b1).
  - apply zout_slot. eapply zout_bind; [exact R|]. intros c c' C. cbn [zout]. apply z_snoc; [exact B1| |exact I|exact I]. intros ctx. constructor; [assumption..|constructor].
  - cbn [zout]. destruct (N eq_refl) as [N1 N2]. split; [apply z_push_box; [exact B1|constructor; assumption]|]. split; [|reflexivity].
    unfold tails. change (current (push_box b1' (MFloat st' r'))) with (current b1'). change (current (push_box b1 (MFloat st r))) with (current b1). rewrite N1, N2. reflexivity.
Qed.
Lemma z_builder_new st st' : same_inherited st st' -> zbuilder (builder_new st) (builder_new st').
Proof. intros H. constructor; [exact H|constructor|constructor|split; reflexivity|constructor]. Qed.

(* ------------------------------------------------------------------ *)
(** * Nodes *)
Definition zstep (b c c' : builder) : Prop := zbuilder c c' /\ styles c = styles b.
Definition kids_rel (st st' : style) (kids kids' : list snode) : Prop := forall c c', zbuilder c c' -> cur_style c = st -> current c = [] -> current c' = [] ->
  zout (zstep c) (traverse_with (handle_node st) kids c) (traverse_with (handle_node st') kids' c').
Lemma zout_impl {A B} (R Q : A -> B -> Prop) r r' : (forall a b, R a b -> Q a b) -> zout R r r' -> zout Q r r'.
Proof. destruct r, r'; cbn; auto. Qed.
Lemma step_trans b c c' d d' : step b c c' -> step c d d' -> step b d d'.
Proof. intros (_ & _ & E) (H1 & H2 & E2). split; [exact H1|]. split; [exact H2|congruence]. Qed.
Lemma z_element br st st' kids kids' p p' nx b b' : same_style st st' ->
  (br = false -> sv st Ldisplay = DispContents -> zout (step b) (traverse_with (handle_node st) kids b) (traverse_with (handle_node st') kids' b')) ->
  kids_rel st st' kids kids' -> zbuilder b b' -> (tails b b' \/ makes_box (SElem br st kids)) ->
  zout (step b) (handle_node p (SElem br st kids) nx b) (handle_node p' (SElem br st' kids') nx b').
Proof.
  intros Hs HC T B X. cbn [handle_node]. destruct br; [apply z_handle_text; [apply same_inh_of, Hs|exact B|destruct X as [X|[X _]]; [exact X|discriminate]]|].
  assert (K : zout zcf (obind (traverse_with (handle_node st) kids (builder_new st)) finish_container) (obind (traverse_with (handle_node st') kids' (builder_new st')) finish_container)).
  { eapply zout_bind; [apply T; [apply z_builder_new, same_inh_of, Hs|reflexivity..]|]. intros c c' (C & _). apply z_finish_container, C. }
  assert (F : zout zbfc (obind (obind (traverse_with (handle_node st) kids (builder_new st)) finish_container) (fun '(c, fl) => Done (BFC fl c)))
     (obind (obind (traverse_with (handle_node st') kids' (builder_new st')) finish_container) (fun '(c, fl) => Done (BFC fl c)))).
  { eapply zout_bind; [exact K|]. intros [c fl] [c' fl'] [C E]. cbn in *. subst. constructor. exact C. }
  rewrite <- (proj1 Hs Ldisplay), <- (proj1 Hs Lposition), <- (proj1 Hs Lfloat).
  destruct (sv st Ldisplay) as [| |[] ins] eqn:D.
  - assert (Tb : tails b b') by (destruct X as [X|(_ & o & i & X)]; [exact X|congruence]). destruct nx; [|exact I]. split; [exact B|split; [exact Tb|reflexivity]].
  - apply HC; reflexivity.
  - destruct ins; [|exact I]. apply zout_slot. eapply zout_bind; [apply T; [apply z_push_inline; assumption|reflexivity..]|].
    intros c c' (C1 & C3). apply (z_pop_inline st); assumption.
  - destruct (is_absolutely_positioned _); [apply z_handle_abspos; assumption|]. destruct (is_floating _); [apply z_handle_float; assumption|].
    apply zout_slot. apply z_handle_block; assumption.
Qed.
Lemma z_same n n' (H : same_node n n') : forall p p' nx b b', same_inherited p p' -> zbuilder b b' -> (tails b b' \/ makes_box n) ->
  zout (step b) (handle_node p n nx b) (handle_node p' n' nx b').
Proof.
  revert n n' H. fix IH 3. intros n n' H p p' nx b b' Hp B X. destruct H as [t| |br st st' l l' Hs F].
  - cbn [handle_node]. apply z_handle_text; [exact Hp|exact B|]. destruct X as [X|[]]. exact X.
  - cbn [handle_node]. destruct X as [X|[]]. split; [exact B|split; [exact X|reflexivity]].
  - assert (T : forall c c', zbuilder c c' -> tails c c' -> zout (step c) (traverse_with (handle_node st) l c) (traverse_with (handle_node st') l' c')).
    { clear B X b b' Hp. induction F as [|x y l l' Hxy F IHF]; intros c c' C TC; cbn [traverse_with]; [split; [exact C|split; [exact TC|reflexivity]]|].
      eapply zout_bind.
      - replace (match l' with [] => false | _ => true end) with (match l with [] => false | _ => true end) by (destruct F; reflexivity).
        exact (IH _ _ Hxy st st' _ c c' (same_inh_of _ _ Hs) C (or_introl TC)).
      - intros d d' D. pose proof D as (D1 & D2 & _). specialize (IHF d d' D1 D2).
        destruct (traverse_with (handle_node st) l d), (traverse_with (handle_node st') l' d'); cbn [zout] in *; try contradiction; auto.
        eapply step_trans; eassumption. }
    apply z_element; [exact Hs| | |exact B|exact X].
    + intros -> D. apply T; [exact B|]. destruct X as [X|(_ & o & i & X)]; [exact X|congruence].
    + intros c c' C _ N1 N2. eapply zout_impl; [|apply T]; [intros d d' (D1 & _ & D3); split; assumption| |]; [|unfold tails; rewrite N1, N2; reflexivity]. exact C.
Qed.
Scheme unwrapped_mind := Induction for unwrapped Sort Prop with unwrapped_node_mind := Induction for unwrapped_node Sort Prop.
Lemma unwrapped_nils parent first kids kids' : unwrapped parent first kids kids' -> nils kids kids'.
Proof.
  destruct 1 as [| |parent first st inner inner' kids kids' A C S Sa Ea U]; [split; reflexivity|split; discriminate|].
  split; [discriminate|]. intros E. apply app_eq_nil in E. destruct E as [-> _]. inversion S; subst.
  destruct Sa as [[_ X]|(n & r & X & _)]; [inversion X|discriminate].
Qed.
Definition next_ok (kids : list snode) (b b' : builder) : Prop := tails b b' \/ kids = [] \/ exists n r, kids = n :: r /\ makes_box n.
Definition kids_ok (parent : style) (first : bool) (kids kids' : list snode) : Prop := forall parent' b b', same_style parent parent' -> zbuilder b b' ->
  cur_style b = parent -> (first = true -> current b = [] /\ current b' = []) -> next_ok kids b b' ->
  zout (zstep b) (traverse_with (handle_node parent) kids b) (traverse_with (handle_node parent') kids' b').
Definition one_ok (n n' : snode) : Prop := forall p p' nx b b', same_inherited p p' -> zbuilder b b' -> (tails b b' \/ makes_box n) ->
  zout (step b) (handle_node p n nx b) (handle_node p' n' nx b').
Lemma after_first parent kids kids' parent' b c c' : kids_ok parent false kids kids' -> same_style parent parent' -> zstep b c c' ->
  cur_style b = parent -> next_ok kids c c' ->
  zout (zstep b) (traverse_with (handle_node parent) kids c) (traverse_with (handle_node parent') kids' c').
Proof.
  intros K S [C E] P N. assert (P' : cur_style c = parent) by (rewrite <- P; apply styles_cur, E).
  eapply zout_impl; [|apply (K parent' c c' S C P'); [discriminate|exact N]]. intros d d' [D E']. split; [exact D|congruence].
Qed.
Lemma u_wrapper parent first st inner inner' kids kids' : adds_nothing parent st -> Forall inline_content inner -> Forall2 same_node inner inner' ->
  starts_apart first inner -> ends_apart inner kids -> kids_ok parent false kids kids' ->
  kids_ok parent first (SElem false st inner :: kids) (inner' ++ kids').
Proof.
  intros An IC SN SA EA K parent' b b' Hp B P F1 _. cbn [traverse_with handle_node]. rewrite (an_inline _ _ An).
  assert (G : Forall node_ok inner) by (clear - IC; induction IC; constructor; [apply inline_ok; assumption|assumption]).
  assert (Hi : same_inherited st parent') by (eapply inh_trans; [apply inh_sym, (an_text _ _ An)|apply same_inh_of, Hp]).
  assert (HI : inv (current b') [] [] \/ (exists n r, inner = n :: r /\ inline_element n /\ shows_text n /\ Forall2 both [] [])).
  { destruct SA as [[Ef _]|(n & r & E1 & E2 & E3)].
    - left. split; [constructor|]. left. apply F1, Ef.
    - right. exists n, r. auto. }
  pose proof (nodes_ok inner G inner' kids' SN st parent' (push_inline st b) b' (current b') [] [] Hi HI) as N.
  change (set_current (push_inline st b) []) with (push_inline st b) in N. rewrite app_nil_r, set_current_same in N.
  destruct N as [[Fa Fb]|(M & M' & E1 & E2 & Bo & _ & _ & K3 & K4 & _)].
  - destruct (traverse_with (handle_node st) inner (push_inline st b)); [destruct Fa| |]; cbn [obind with_slot]; apply zout_fails; cbn; auto.
  - rewrite E1, E2. cbn [obind].
    replace (with_slot (pop_inline (set_current (push_inline st b) M))) with (Done (set_current b (current b ++ [InlineBox st true true M])))
      by (destruct b as [u v w x y]; reflexivity).
    cbn [obind].
    assert (Mn : M <> []).
    { apply K4. destruct SA as [[_ X]|(n & r & -> & X & _)]; [exact X|]. constructor. left. exact X. }
    assert (Mn' : M' <> []) by (apply (nil_both _ _ Bo), Mn).
    assert (W : wi (cur_style b) [InlineBox st true true M] M').
    { rewrite <- (app_nil_r M'). apply W_wrap; [rewrite P; exact An|apply both_wi; exact Bo|constructor]. }
    apply (after_first parent kids kids' parent' b _ _ K Hp); [split; [|apply styles_set]|exact P|].
    + apply z_set_current; [exact B|apply wis_app; [apply z_current, B|exact W]|].
      split; intros E; exfalso; apply app_eq_nil in E; destruct E; [discriminate|contradiction].
    + destruct EA as [(front & n & -> & Hn)|[->|(n & r & -> & Hn)]]; [left|right; left; reflexivity|right; right; exists n, r; auto].
      unfold tails. rewrite !current_set, run_last_app. specialize (K3 front n eq_refl Hn).
      rewrite <- (both_run_last _ _ Bo) in K3. destruct M' as [|x M' _] using rev_ind; [congruence|]. rewrite run_last_app in K3. rewrite app_assoc, run_last_app. exact K3.
Qed.
Lemma u_all parent first kids kids' (H : unwrapped parent first kids kids') : kids_ok parent first kids kids'.
Proof.
  revert parent first kids kids' H.
  apply (unwrapped_mind (fun parent first kids kids' _ => kids_ok parent first kids kids') (fun n n' _ => one_ok n n')).
  - intros parent first parent' b b' Hp B P _ _. cbn. split; [exact B|reflexivity].
  - intros parent first n n' kids kids' Hn IHn Hk IHk parent' b b' Hp B P _ N. cbn [traverse_with].
    replace (match kids' with [] => false | _ => true end) with (match kids with [] => false | _ => true end)
      by (destruct (unwrapped_nils _ _ _ _ Hk) as [X Y]; destruct kids, kids'; try reflexivity; [discriminate (X eq_refl)|discriminate (Y eq_refl)]).
    assert (X : tails b b' \/ makes_box n).
    { destruct N as [N|[N|(m & r & E & N)]]; [left; exact N|discriminate|]. injection E as -> ->. right; exact N. }
    eapply zout_bind; [apply (IHn parent parent' _ b b' (same_inh_of _ _ Hp) B X)|].
    intros c c' (C1 & C2 & C3). apply (after_first parent kids kids' parent' b c c' IHk Hp (conj C1 C3) P). left. exact C2.
  - intros parent first st inner inner' kids kids' An IC SN SA EA U IH. apply u_wrapper; assumption.
  - intros n n' H. exact (z_same n n' H).
  - intros br st st' kids kids' Hs D U IH p p' nx b b' _ B X. apply z_element; [exact Hs| | |exact B|exact X].
    + intros _ E. contradiction.
    + intros c c' C P N1 N2. apply IH; auto. left. unfold tails. rewrite N1, N2. reflexivity.
Qed.
Lemma u_construct_root st st' kids kids' : same_style st st' -> unwrapped st true kids kids' -> zout zbfc (construct_root st kids) (construct_root st' kids').
Proof.
  intros Hs U. unfold construct_root. rewrite <- (proj1 Hs Ldisplay), <- (proj1 Hs Lposition), <- (proj1 Hs Lfloat).
  assert (K : zout zbfc (construct_bfc st kids) (construct_bfc st' kids')).
  { unfold construct_bfc, construct_container. eapply (zout_bind zcf).
    - eapply zout_bind.
      + apply (u_all _ _ _ _ U st' (builder_new st) (builder_new st') Hs); [apply z_builder_new, same_inh_of, Hs|reflexivity|split; reflexivity|]. left. reflexivity.
      + intros c c' [C _]. apply z_finish_container, C.
    - intros [c fl] [c' fl'] [C E]. cbn in *. subst. constructor. exact C. }
  assert (G : zout zbfc
    (obind (construct_bfc st kids) (fun c => if is_absolutely_positioned (sv st Lposition) then Done (BFC false (BlockLevelBoxes [BAbspos st c]))
      else if is_floating (sv st Lfloat) then Done (BFC true (BlockLevelBoxes [BFloat st c])) else Done (BFC false (BlockLevelBoxes [Indep st c]))))
    (obind (construct_bfc st' kids') (fun c => if is_absolutely_positioned (sv st Lposition) then Done (BFC false (BlockLevelBoxes [BAbspos st' c]))
      else if is_floating (sv st Lfloat) then Done (BFC true (BlockLevelBoxes [BFloat st' c])) else Done (BFC false (BlockLevelBoxes [Indep st' c]))))).
  { eapply zout_bind; [exact K|]. intros c c' C.
    destruct (is_absolutely_positioned _); [|destruct (is_floating _)]; cbn; do 2 constructor; (constructor; [constructor; assumption|constructor]). }
  destruct (sv st Ldisplay); [do 3 constructor|exact G|exact G].
Qed.
