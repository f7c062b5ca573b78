(** The declaration applied last is the one with the highest priority (StyleSpec.outranks). *)
From Coq Require Import Sorting.Sorted.
From Verif Require Import StyleModel StyleSpec StyleCascade.
From Verif Require Import GfxModel.
Section Any.
Context {ar : Arith}.

Section Sort.
Variable selector : Type.
Variable specificity : selector -> N.
Notation fin := (finish selector specificity).
Notation ins := (insert_rule selector specificity).

Lemma insert_map {B C} (g : B -> C) x l :
  ins (fst x, g (snd x)) (map (fun y => (fst y, g (snd y))) l) = map (fun y => (fst y, g (snd y))) (ins x l).
Proof.
  induction l as [|y l IH]; cbn; [reflexivity|]. destruct (_ <=? _)%N; cbn; [reflexivity|]. rewrite IH. reflexivity.
Qed.
Lemma finish_map {B C} (g : B -> C) l :
  fin (map (fun y => (fst y, g (snd y))) l) = map (fun y => (fst y, g (snd y))) (fin l).
Proof.
  induction l as [|y l IH]; [reflexivity|]. unfold finish in *. cbn [fold_right map]. rewrite IH. apply (insert_map g y).
Qed.
Lemma insert_perm {B} x (l : list (selector * B)) : Permutation (x :: l) (ins x l).
Proof.
  induction l as [|y l IH]; cbn; [reflexivity|]. destruct (_ <=? _)%N; [reflexivity|].
  rewrite perm_swap. apply perm_skip. exact IH.
Qed.
Lemma finish_perm {B} (l : list (selector * B)) : Permutation l (fin l).
Proof.
  induction l as [|y l IH]; [reflexivity|]. unfold finish in *. cbn [fold_right].
  rewrite <- insert_perm. apply perm_skip. exact IH.
Qed.

Definition key_lt {B} (x y : selector * (nat * B)) : Prop :=
  (specificity (fst x) < specificity (fst y))%N \/
  specificity (fst x) = specificity (fst y) /\ fst (snd x) < fst (snd y).

Lemma insert_sorted {B} x (l : list (selector * (nat * B))) :
  Forall (fun y => fst (snd x) < fst (snd y)) l -> StronglySorted key_lt l -> StronglySorted key_lt (ins x l).
Proof.
  induction l as [|y l IH]; intros H S; cbn; [constructor; constructor|].
  inversion S as [|? ? S1 F1]; subst. inversion H as [|? ? H1 H2]; subst.
  destruct (_ <=? _)%N eqn:E.
  - apply N.leb_le in E. constructor; [exact S|]. constructor.
    + unfold key_lt. destruct (N.eq_dec (specificity (fst x)) (specificity (fst y))) as [e|n]; [right; auto|left; lia].
    + rewrite Forall_forall in *. intros z Hz. specialize (F1 z Hz). specialize (H2 z Hz). cbn in *. unfold key_lt in *.
      destruct (N.eq_dec (specificity (fst x)) (specificity (fst z))) as [e|n]; [right; auto|left].
      destruct F1 as [F1|[F1 _]]; lia.
  - apply N.leb_gt in E. constructor; [apply IH; assumption|].
    rewrite Forall_forall in *. intros z Hz. apply (Permutation_in _ (Permutation_sym (insert_perm x l))) in Hz.
    destruct Hz as [<-|Hz]; [left; lia|apply F1; exact Hz].
Qed.
Lemma finish_sorted {B} (l : list (selector * (nat * B))) :
  StronglySorted (fun x y => fst (snd x) < fst (snd y)) l -> StronglySorted key_lt (fin l).
Proof.
  induction l as [|y l IH]; intros S; [constructor|]. inversion S as [|? ? S1 F1]; subst.
  unfold finish in *. cbn [fold_right]. apply insert_sorted; [|apply IH; exact S1].
  rewrite Forall_forall in *. intros z Hz. apply F1. apply (Permutation_in _ (Permutation_sym (finish_perm l))). exact Hz.
Qed.

Fixpoint tag (i : nat) (rules : list (selector * block)) : list (selector * (nat * block)) :=
  match rules with [] => [] | (s, b) :: r => (s, (i, b)) :: tag (S i) r end.
Lemma tag_untag rules : forall i, map (fun y => (fst y, snd (snd y))) (tag i rules) = rules.
Proof. induction rules as [|[s b] r IH]; intros i; cbn; [reflexivity|]. rewrite IH. reflexivity. Qed.
Lemma tag_ge rules : forall i, Forall (fun y => i <= fst (snd y)) (tag i rules).
Proof.
  induction rules as [|[s b] r IH]; intros i; constructor; cbn; [lia|].
  specialize (IH (S i)). rewrite Forall_forall in *. intros z Hz. specialize (IH z Hz). lia.
Qed.
Lemma tag_sorted rules : forall i, StronglySorted (fun x y => fst (snd x) < fst (snd y)) (tag i rules).
Proof.
  induction rules as [|[s b] r IH]; intros i; constructor; cbn; [apply IH|].
  pose proof (tag_ge r (S i)) as G. rewrite Forall_forall in *. intros z Hz. specialize (G z Hz). cbn in *. lia.
Qed.

(** Sources of candidates: specificity, source position, block. *)
Definition source : Type := option N * nat * block.
Definition s_lt (x y : source) : Prop :=
  spec_lt (fst (fst x)) (fst (fst y)) \/ fst (fst x) = fst (fst y) /\ snd (fst x) < snd (fst y).
Definition src_of (matches : selector -> bool) (l : list (selector * (nat * block))) : list source :=
  map (fun y => (Some (specificity (fst y)), fst (snd y), snd (snd y))) (filter (fun y => matches (fst y)) l).

Lemma StronglySorted_filter {A} (R : A -> A -> Prop) f l : StronglySorted R l -> StronglySorted R (filter f l).
Proof.
  induction 1 as [|x l S IH F]; cbn; [constructor|]. destruct (f x); [|exact IH]. constructor; [exact IH|].
  rewrite Forall_forall in *. intros y Hy. apply F. apply filter_In in Hy. apply Hy.
Qed.
Lemma StronglySorted_map {A B} (R : A -> A -> Prop) (Q : B -> B -> Prop) g l :
  (forall x y, R x y -> Q (g x) (g y)) -> StronglySorted R l -> StronglySorted Q (map g l).
Proof.
  intros H. induction 1 as [|x l S IH F]; cbn; constructor; [exact IH|].
  rewrite Forall_forall in *. intros y Hy. apply in_map_iff in Hy. destruct Hy as (z & <- & Hz). apply H. apply F. exact Hz.
Qed.
Lemma StronglySorted_app {A} (R : A -> A -> Prop) l1 l2 : StronglySorted R l1 -> StronglySorted R l2 ->
  (forall x y, In x l1 -> In y l2 -> R x y) -> StronglySorted R (l1 ++ l2).
Proof.
  intros S1 S2 H. induction S1 as [|x l1 S1 IH F]; cbn; [exact S2|]. constructor.
  - apply IH. intros a b Ha Hb. apply H; [right; exact Ha|exact Hb].
  - rewrite Forall_forall in *. intros y Hy. apply in_app_or in Hy. destruct Hy as [Hy|Hy]; [apply F; exact Hy|].
    apply H; [left; reflexivity|exact Hy].
Qed.

Lemma src_sorted matches rules : StronglySorted s_lt (src_of matches (fin (tag 0 rules))).
Proof.
  unfold src_of. apply StronglySorted_map with (R := key_lt).
  - intros x y [H|[H1 H2]]; [left; exact H|right; cbn; rewrite H1; auto].
  - apply StronglySorted_filter. apply finish_sorted. apply tag_sorted.
Qed.
Lemma push_src matches rules : push_matching selector matches (fin rules) = map snd (src_of matches (fin (tag 0 rules))).
Proof.
  unfold push_matching, src_of.
  rewrite <- (tag_untag rules 0) at 1.
  rewrite (finish_map (fun p : nat * block => snd p) (tag 0 rules)).
  generalize (fin (tag 0 rules)) as l. clear. induction l as [|y l IH]; cbn; [reflexivity|].
  destruct (matches (fst y)); cbn; rewrite IH; reflexivity.
Qed.

Definition cands (ua : bool) (src : list source) : list cand :=
  flat_map (fun x => block_cands ua (fst (fst x)) (snd (fst x)) (snd x)) src.

Lemma sheet_cands_src ua matches rules : forall i,
  sheet_cands specificity matches ua i rules = cands ua (src_of matches (tag i rules)).
Proof.
  induction rules as [|[s b] r IH]; intros i; cbn; [reflexivity|]. rewrite IH. unfold src_of. cbn.
  destruct (matches s); reflexivity.
Qed.
Lemma cands_in ua matches rules c :
  In c (sheet_cands specificity matches ua 0 rules) <-> In c (cands ua (src_of matches (fin (tag 0 rules)))).
Proof.
  rewrite sheet_cands_src. unfold cands. rewrite !in_flat_map.
  assert (P : forall x, In x (src_of matches (tag 0 rules)) <-> In x (src_of matches (fin (tag 0 rules)))).
  { intros x. unfold src_of. rewrite !in_map_iff.
    split; intros (y & E & Hy); exists y; (split; [exact E|]); apply filter_In in Hy; apply filter_In; split; try apply Hy.
    - apply (Permutation_in _ (finish_perm _)). apply Hy.
    - apply (Permutation_in _ (Permutation_sym (finish_perm _))). apply Hy. }
  split; intros (x & Hx & Hc); exists x; (split; [apply P; exact Hx|exact Hc]).
Qed.
End Sort.

(* ------------- candidates of blocks ------------- *)
Lemma block_cands_props ua sp i es : forall pos c, In c (block_cands_from ua sp i pos es) ->
  c_ua c = ua /\ c_spec c = sp /\ c_rule c = i /\ pos <= c_pos c.
Proof.
  induction es as [|[d im] es IH]; intros pos c []; [subst; cbn; auto|].
  destruct (IH (S pos) c H) as (A & B & C & D). repeat split; auto. lia.
Qed.
Lemma block_cands_sorted ua sp i im es : forall pos,
  StronglySorted (fun a b => outranks b a) (filter (fun c => Bool.eqb (c_important c) im) (block_cands_from ua sp i pos es)).
Proof.
  induction es as [|[d im'] es IH]; intros pos; cbn; [constructor|].
  destruct (Bool.eqb im' im) eqn:E; [|apply IH]. constructor; [apply IH|].
  apply Forall_forall. intros c Hc. apply filter_In in Hc. destruct Hc as [Hc Hi].
  destruct (block_cands_props _ _ _ _ _ _ Hc) as (A & B & C & D).
  apply eqb_prop in E. apply eqb_prop in Hi. right. split.
  - unfold c_level. cbn. rewrite A, Hi, E. reflexivity.
  - right. split; [cbn; congruence|]. right. cbn. split; [congruence|lia].
Qed.
Lemma cands_sorted ua im src : StronglySorted s_lt src ->
  StronglySorted (fun a b => outranks b a) (filter (fun c => Bool.eqb (c_important c) im) (cands ua src)).
Proof.
  induction 1 as [|x src S IH F]; [constructor|]. unfold cands in *. cbn [flat_map]. rewrite filter_app.
  apply StronglySorted_app; [apply block_cands_sorted|exact IH|].
  intros a b Ha Hb. apply filter_In in Ha. apply filter_In in Hb. destruct Ha as [Ha Ia]. destruct Hb as [Hb Ib].
  apply in_flat_map in Hb. destruct Hb as (y & Hy & Hb).
  destruct (block_cands_props _ _ _ _ _ _ Ha) as (A1 & A2 & A3 & A4).
  destruct (block_cands_props _ _ _ _ _ _ Hb) as (B1 & B2 & B3 & B4).
  apply eqb_prop in Ia. apply eqb_prop in Ib.
  rewrite Forall_forall in F. specialize (F y Hy). right. split.
  - unfold c_level. rewrite A1, B1, Ia, Ib. reflexivity.
  - rewrite A2, A3, B2, B3. destruct F as [F|[F1 F2]]; [left; exact F|right; auto].
Qed.
Lemma pick_from ua sp i im es : forall pos,
  map c_decl (filter (fun c => Bool.eqb (c_important c) im) (block_cands_from ua sp i pos es)) =
  map fst (filter (fun e => Bool.eqb (snd e) im) es).
Proof.
  induction es as [|[d im'] es IH]; intros pos; cbn; [reflexivity|].
  destruct (Bool.eqb im' im); cbn; rewrite IH; reflexivity.
Qed.
Lemma cands_pick ua im src :
  map c_decl (filter (fun c => Bool.eqb (c_important c) im) (cands ua src)) = flat_map (pick im) (map snd src).
Proof.
  induction src as [|x src IH]; [reflexivity|]. unfold cands in *. cbn [flat_map map]. rewrite filter_app, map_app, IH.
  f_equal. apply pick_from.
Qed.

Definition applied (U A : list source) : list cand :=
  filter (fun c => Bool.eqb (c_important c) false) (cands true U) ++
  filter (fun c => Bool.eqb (c_important c) false) (cands false A) ++
  filter (fun c => Bool.eqb (c_important c) true) (cands false A) ++
  filter (fun c => Bool.eqb (c_important c) true) (cands true U).

Lemma applied_order U A : map c_decl (applied U A) = cascade_order (Matching (map snd U) (map snd A)).
Proof. unfold applied, cascade_order. rewrite !map_app, !cands_pick. reflexivity. Qed.

Lemma cands_level ua im src c : In c (filter (fun c => Bool.eqb (c_important c) im) (cands ua src)) ->
  c_ua c = ua /\ c_important c = im.
Proof.
  intros H. apply filter_In in H. destruct H as [H I]. apply eqb_prop in I. split; [|exact I].
  unfold cands in H. apply in_flat_map in H. destruct H as (x & _ & H). apply (block_cands_props _ _ _ _ _ _ H).
Qed.
Lemma applied_sorted U A : StronglySorted s_lt U -> StronglySorted s_lt A ->
  StronglySorted (fun a b => outranks b a) (applied U A).
Proof.
  intros SU SA. unfold applied.
  repeat match goal with |- StronglySorted _ (_ ++ _) => apply StronglySorted_app end;
    try (apply cands_sorted; assumption);
    intros a b Ha Hb; left; unfold c_level;
    repeat match goal with H : In _ (_ ++ _) |- _ => apply in_app_or in H; destruct H as [H|H] end;
    apply cands_level in Ha; apply cands_level in Hb; destruct Ha as [-> ->]; destruct Hb as [-> ->]; lia.
Qed.
Lemma applied_in U A c : In c (applied U A) <-> In c (cands true U) \/ In c (cands false A).
Proof.
  unfold applied. rewrite !in_app_iff, !filter_In.
  destruct (c_important c); cbn; intuition congruence.
Qed.

Lemma outranks_asym a b : outranks a b -> outranks b a -> False.
Proof.
  unfold outranks. intros H1 H2.
  assert (SA : forall x y, spec_lt x y -> spec_lt y x -> False) by (intros [x|] [y|]; cbn; lia || tauto).
  assert (SI : forall x, ~ spec_lt x x) by (intros [x|]; cbn; lia || tauto).
  destruct H1 as [H1|[E1 [H1|[F1 H1]]]]; destruct H2 as [H2|[E2 [H2|[F2 H2]]]]; try lia.
  - eapply SA; eassumption.
  - rewrite F2 in H1. eapply SI; eassumption.
  - rewrite F1 in H2. eapply SI; eassumption.
Qed.

Lemma sorted_mid {A} (R : A -> A -> Prop) x c y : StronglySorted R (x ++ c :: y) ->
  (forall a, In a x -> R a c) /\ (forall b, In b y -> R c b).
Proof.
  induction x as [|a x IH]; cbn; intros S; inversion S as [|? ? S1 F]; subst; rewrite Forall_forall in F.
  - split; [intros a []|exact F].
  - destruct (IH S1) as [I1 I2]. split; [|exact I2]. intros z [<-|Hz]; [|apply I1; exact Hz].
    apply F. apply in_or_app. right. left. reflexivity.
Qed.

Definition wins_in (cs : list cand) (c : cand) := wins cs c.
Lemma wins_last cs all c : StronglySorted (fun a b => outranks b a) cs -> (forall x, In x all <-> In x cs) -> wins all c ->
  exists x y, cs = x ++ c :: y /\ no_decl (decl_longhand (c_decl c)) (map c_decl y).
Proof.
  intros S E [Hin W]. apply E in Hin. apply in_split in Hin. destruct Hin as (x & y & ->).
  exists x, y. split; [reflexivity|]. apply sorted_mid in S. destruct S as [S1 S2].
  intros d Hd Hl. apply in_map_iff in Hd. destruct Hd as (c' & <- & Hc').
  pose proof (S2 c' Hc') as R. destruct (W c') as [->|O].
  - apply E. apply in_or_app. right. right. exact Hc'.
  - exact Hl.
  - eapply outranks_asym; exact R.
  - eapply outranks_asym; eassumption.
Qed.
Lemma last_wins cs all c x y : StronglySorted (fun a b => outranks b a) cs -> (forall x, In x all <-> In x cs) ->
  cs = x ++ c :: y -> no_decl (decl_longhand (c_decl c)) (map c_decl y) -> wins all c.
Proof.
  intros S E -> N. split; [apply E; apply in_or_app; right; left; reflexivity|].
  intros c' Hc' Hl. apply E in Hc'. apply sorted_mid in S. destruct S as [S1 S2].
  apply in_app_or in Hc'. destruct Hc' as [Hc'|[->|Hc']]; [right; apply S1; exact Hc'|left; reflexivity|].
  exfalso. apply (N (c_decl c')); [apply in_map; exact Hc'|exact Hl].
Qed.

Section Winner.
Variable ct : token -> option color.
Variable selector : Type.
Variable specificity : selector -> N.

Definition attr_src (attr : option block) : list source := match attr with Some b => [(None, 0, b)] | None => [] end.
Definition u_src matches ua := src_of selector specificity matches (finish selector specificity (tag selector 0 ua)).
Lemma u_sorted matches rules attr : StronglySorted s_lt (u_src matches rules ++ attr_src attr).
Proof.
  apply StronglySorted_app; [apply src_sorted| |].
  - destruct attr; repeat constructor.
  - intros a b Ha Hb. destruct attr as [bl|]; [|destruct Hb]. destruct Hb as [<-|[]].
    unfold u_src, src_of in Ha. apply in_map_iff in Ha. destruct Ha as (y & <- & _). left. exact I.
Qed.
Lemma applicable_in matches ua author attr c :
  In c (applicable specificity matches ua author attr) <->
  In c (applied (u_src matches ua) (u_src matches author ++ attr_src attr)).
Proof.
  rewrite applied_in. unfold applicable. rewrite !in_app_iff, !cands_in.
  unfold cands at 4. rewrite flat_map_app, in_app_iff. unfold u_src.
  destruct attr as [b|]; cbn [attr_src flat_map]; rewrite ?app_nil_r; cbn; tauto.
Qed.

Definition matching_of matches ua author (attr : option block) : matching :=
  Matching (push_matching selector matches (finish selector specificity ua))
    (push_matching selector matches (finish selector specificity author) ++ match attr with Some b => [b] | None => [] end).
Lemma matching_order_cands matches ua author attr :
  cascade_order (matching_of matches ua author attr) =
  map c_decl (applied (u_src matches ua) (u_src matches author ++ attr_src attr)).
Proof.
  rewrite applied_order. unfold matching_of. rewrite !push_src, map_app. unfold u_src.
  destruct attr; reflexivity.
Qed.

Lemma push_flags matches rules (P : block -> Prop) : (forall x, In x rules -> P (snd x)) ->
  forall b, In b (push_matching selector matches (finish selector specificity rules)) -> P b.
Proof.
  intros H b Hb. unfold push_matching in Hb. apply in_map_iff in Hb. destruct Hb as (x & <- & Hx).
  apply filter_In in Hx. apply H. apply (Permutation_in _ (Permutation_sym (finish_perm selector specificity _))). apply Hx.
Qed.

Section Fixed.
Variables (matches : selector -> bool) (ua author : list (selector * block)) (attr : option block) (parent : option style).
Hypothesis Hua : forall x, In x ua -> flags_ok (snd x).
Hypothesis Hau : forall x, In x author -> flags_ok (snd x).
Hypothesis Hat : forall b, attr = Some b -> flags_ok b.
Let m := matching_of matches ua author attr.
Let s := style_new parent (Some m).
Let all := applicable specificity matches ua author attr.

Lemma m_ok : ok_opt (Some m).
Proof.
  intros b [Hb|Hb]; cbn in Hb.
  - eapply push_flags; [exact Hua|exact Hb].
  - apply in_app_or in Hb. destruct Hb as [Hb|Hb].
    + eapply push_flags; [exact Hau|exact Hb].
    + apply Hat. destruct attr; [|destruct Hb]. destruct Hb as [<-|[]]. reflexivity.
Qed.
Lemma winner_value c : wins all c ->
  sv s (decl_longhand (c_decl c)) =
  adjusted s (decl_longhand (c_decl c)) (decl_value (parent_or_initial parent) (sv s Lfont_size) (c_decl c)).
Proof.
  intros W.
  destruct (wins_last _ _ c (applied_sorted _ _ (src_sorted selector specificity matches ua) (u_sorted matches author attr))
     (applicable_in matches ua author attr) W) as (x & y & E & N).
  unfold s. apply (new_last parent (Some m) (map c_decl x) (c_decl c) (map c_decl y)).
  - apply m_ok.
  - cbn [ds_of]. unfold m. rewrite matching_order_cands. unfold u_src at 1. rewrite E, map_app. reflexivity.
  - exact N.
Qed.
Lemma undeclared_value l : undeclared all l ->
  sv s l = adjusted s l (default_value (parent_or_initial parent) l).
Proof.
  intros U. unfold s. apply new_undeclared; [apply m_ok|].
  cbn [ds_of]. unfold m. rewrite matching_order_cands. intros d Hd. apply in_map_iff in Hd.
  destruct Hd as (c & <- & Hc). apply U. apply applicable_in. exact Hc.
Qed.
Lemma winner_exists l : undeclared all l \/ exists c, wins all c /\ decl_longhand (c_decl c) = l.
Proof.
  pose proof (applied_sorted _ _ (src_sorted selector specificity matches ua) (u_sorted matches author attr)) as S.
  destruct (last_decl_dec l (map c_decl (applied (u_src matches ua) (u_src matches author ++ attr_src attr)))) as [N|(a & d & b & E & Hl & N)].
  - left. intros c Hc. apply N. apply in_map. apply applicable_in. exact Hc.
  - right. apply map_eq_app in E. destruct E as (x & y & E & E1 & E2).
    destruct y as [|c y]; [discriminate|]. cbn in E2. injection E2 as E2 E3. subst d b.
    exists c. split; [|exact Hl]. eapply last_wins with (x := x) (y := y); [exact S|apply applicable_in|exact E|].
    rewrite Hl. exact N.
Qed.
End Fixed.
End Winner.
End Any.
