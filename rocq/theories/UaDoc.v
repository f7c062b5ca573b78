(** Proofs about the styles and the box tree of whole documents. *)
From Coq Require Import Permutation.
From Verif Require Import StyleModel StyleSpec StyleCascade StyleWinner StyleParse StyleFacts PropStyle.
From Verif Require Import GfxModel TreeModel TreeSpec PropTree TextSpec PropText Base DomModel DomSpec DomForest DomTraverse DomFacts PropDom SelModel SelSpec SelProofs PropSel UnsetModel UaModel UaSpec UaProofs.
Local Open Scope string_scope.
Local Open Scope list_scope.
Local Open Scope nat_scope.

(* ---------------- the tree below a node ---------------- *)
Lemma subtree_ok d s : Rep d s -> AWf s -> forall i t, tree_of s i t -> i < a_count s ->
  forall fuel, List.length (preorder t) <= fuel -> subtree fuel d i = Ok t.
Proof.
  intros HR HW i t Ht. induction Ht as [i ts Hts IH] using tree_of_ind'. intros Hi fuel Hf.
  destruct fuel as [|fuel]; [cbn in Hf; lia|]. cbn [subtree].
  destruct (kids_children d s i HR HW Hi) as (n & Hn & Hc). unfold getn. rewrite Hn. cbn [bind].
  rewrite (chain_following _ _ _ Hc).
  2:{ rewrite (rep_count _ _ HR). apply NoDup_bound; [apply HW|]. intros x Hx. apply (wf_range _ HW i x Hx). }
  cbn [bind].
  assert (K : forall k, In k (a_children s i) -> k < a_count s) by (intros k Hk; apply (wf_range _ HW i k Hk)).
  assert (E : mapR (subtree fuel d) (a_children s i) = Ok ts).
  { cbn [preorder List.length] in Hf. assert (Hf' : List.length (flat_map preorder ts) <= fuel) by lia. clear Hf Hts Hc.
    revert K. induction IH as [|k t l ts Hk _ IHl]; intros K; [reflexivity|]. cbn [flat_map] in Hf'. rewrite app_length in Hf'.
    cbn [mapR]. rewrite Hk; [|apply K; left; reflexivity|lia]. cbn [bind]. rewrite IHl; [reflexivity|lia|].
    intros; apply K; right; assumption. }
  rewrite E. reflexivity.
Qed.
Lemma subtree_arena d i fuel : reach d -> node_of d i -> List.length (nodes d) <= fuel ->
  exists t, subtree fuel d i = Ok t /\ arena_tree d i t.
Proof.
  intros Hd [Hi1 Hi2] Hf. destruct (reach_good d Hd) as (s & HR & HW). rewrite (rep_count _ _ HR) in Hi2.
  destruct (tree_exists s i HW) as (t & Ht); [split; [lia|exact Hi2]|]. exists t. split; [|exact (arena_tree_iff d s i t HR HW Hi2 Ht)].
  apply (subtree_ok d s HR HW i t Ht Hi2). rewrite <- Hf, (rep_count _ _ HR).
  apply NoDup_bound; [eapply tree_nodup; eassumption|]. intros x Hx.
  apply (tree_members _ _ _ Ht) in Hx. destruct Hx as [->|Ha]; [exact Hi2|]. apply (anc_live _ _ _ HW) in Ha. apply Ha.
Qed.

Lemma dtree_ind' (P : dtree -> Prop) : (forall i ts, Forall P ts -> P (DT i ts)) -> forall t, P t.
Proof.
  intros H. fix IH 1. intros [i ts]. apply H. induction ts as [|t ts IHts]; constructor; [apply IH|exact IHts].
Qed.
Lemma forall2_in_r {A B} (R : A -> B -> Prop) l l' : Forall2 R l l' -> forall y, In y l' -> exists x, In x l /\ R x y.
Proof.
  induction 1 as [|x y l l' H _ IH]; intros z [].
  - subst. exists x. split; [left; reflexivity|exact H].
  - destruct (IH z H0) as (w & Hw & Hr). exists w. split; [right; exact Hw|exact Hr].
Qed.

Section Doc.
Variable ct : token -> option color.
Variable read_sheet : text -> list (rule selector).
Variable attr_items : string -> list item.

Lemma user_agent_good : good_sheets ct [user_agent].
Proof.
  assert (B : forall sels items, In (RStyle sels items) (concat [user_agent]) ->
    Forall ua_selector sels /\ exists b, parse_block ct items = Ok b).
  { cbn [concat]. rewrite app_nil_r. intros sels items H. split.
    - apply Forall_forall. intros s Hs. pose proof user_agent_selectors as U. rewrite Forall_forall in U. apply (U (s, items)).
      unfold rules_of. apply in_flat_map. exists user_agent. split; [left; reflexivity|]. apply in_flat_map. exists (RStyle sels items).
      split; [exact H|]. apply in_map_iff. exists s. split; [reflexivity|exact Hs].
    - unfold user_agent in H. cbn [In] in H.
      repeat (destruct H as [H|H]; [first [discriminate H | injection H as <- <-; eexists; vm_compute; reflexivity]|]). destruct H. }
  intros sels items H. destruct (B sels items H) as [B1 [b B2]]. split.
  - eapply Forall_impl; [|exact B1]. intros s. apply ua_supported.
  - intros i Hi L. assert (P : parse_block ct items = Panic) by (apply C17_leftover_aborts; exists i; auto). congruence.
Qed.

Lemma rules_supported sheets r : good_sheets ct sheets -> add_stylesheets ct selector [] sheets = Ok r ->
  forall s b, In (s, b) (finish selector specificity r) -> supported (s_subject s) (s_rest s).
Proof.
  intros G H s b Hin. destruct (add_sheets_parses _ _ _ _ _ H) as (l & -> & F). cbn [app] in Hin.
  apply (Permutation_in _ (Permutation_sym (finish_perm selector specificity l))) in Hin.
  destruct (forall2_in_r _ _ _ F _ Hin) as ([s' items] & Hs & [E _]). cbn [fst] in E. subst s'.
  destruct (rules_of_in _ _ _ Hs) as (sels & Hr & Hsel). destruct (G _ _ Hr) as [G1 _]. rewrite Forall_forall in G1. exact (G1 _ Hsel).
Qed.
Lemma node_style_total fuel d e parent sheets ur ar : reach d -> List.length (nodes d) <= fuel -> node_of d e ->
  good_sheets ct sheets -> good_attributes ct attr_items d ->
  add_stylesheets ct selector [] [user_agent] = Ok ur -> add_stylesheets ct selector [] sheets = Ok ar ->
  exists s, node_style ct attr_items fuel (finish selector specificity ur) (finish selector specificity ar) d e parent = Ok s.
Proof.
  intros Hd Hf He G GA Hu Ha. unfold node_style, getn. destruct (nth_error (nodes d) e) as [n|] eqn:En.
  2:{ apply nth_error_None in En. destruct He. lia. }
  cbn [bind]. destruct (n_data n) as [ | | | | |] eqn:Ed; try (eexists; reflexivity).
  assert (Hx : data_of d e = Some (DElement e0)) by (unfold data_of; rewrite En; cbn; congruence).
  assert (M : forall sh r, good_sheets ct sh -> add_stylesheets ct selector [] sh = Ok r ->
     exists bs, push_matching_in fuel d e (finish selector specificity r) = Ok bs).
  { intros sh r Gs Hr. apply push_matching_in_total. intros s b Hin.
    destruct (C21_selectors d fuel Hd Hf s e He (ex_intro _ _ Hx) (rules_supported sh r Gs Hr s b Hin)) as (m & Hm & _). eauto. }
  destruct (M _ _ user_agent_good Hu) as [u ->]. destruct (M _ _ G Ha) as [a ->]. cbn [bind].
  rewrite style_attribute_inline. destruct (inline_style e0) as [v|] eqn:Ea; [|eexists; reflexivity].
  destruct (C17_invalid_declarations_are_ignored_partial ct (attr_items v)) as (b & -> & _).
  { intros i Hi. exact (GA e e0 v i Hx Ea Hi). }
  eexists. reflexivity.
Qed.

Lemma anonymous_element parent : element_style (selector := unit) ct (fun _ => 0%N) (fun _ => false) [] [] None parent (anonymous_inheriting_from parent).
Proof. exists [], []. split; [reflexivity|]. split; [reflexivity|]. reflexivity. Qed.

(** Everything the rendering of a document starts from. *)
Lemma document_input_ok fuel d user l r sources : reach d -> List.length (nodes d) <= fuel ->
  parse_stylesheets fuel d user = Ok sources -> good_sheets ct (map read_sheet sources) -> good_attributes ct attr_items d ->
  kids d document_node_id l ->
  (forall i, In i l -> exists dt, data_of d i = Some dt /\ match dt with DText _ | DDocument => False | _ => True end) ->
  In r l -> (forall i, In i l -> ((exists x, data_of d i = Some (DElement x)) <-> i = r)) ->
  exists style_of root, document_input ct read_sheet attr_items fuel d user = Ok (style_of, root) /\ arena_tree d r root.
Proof.
  intros Hd Hf Hp G GA Hl H1 H2 H3. unfold document_input, ua_style_set, author_style_set.
  destruct (all_sheets_ok ct [user_agent]) with (acc := @nil (selector * block)) as (ur & Eu).
  { intros sels items i Hr Hi. exact (proj2 (user_agent_good sels items Hr) i Hi). }
  cbn [add_stylesheets] in Eu. destruct (add_stylesheet ct selector [] user_agent) as [u| |] eqn:Eu'; try discriminate. cbn [bind].
  rewrite Hp. cbn [bind]. destruct (all_sheets_ok ct (map read_sheet sources)) with (acc := @nil (selector * block)) as (ar & Ea).
  { intros sels items i Hr Hi. exact (proj2 (G sels items Hr) i Hi). }
  rewrite Ea. cbn [bind].
  assert (Er : root_element fuel d = Ok r) by (apply (C07_root_element d r fuel l Hd Hl Hf); auto). rewrite Er. cbn [bind].
  assert (Nr : node_of d r).
  { destruct (H1 r H2) as (dt & Hdt & _). split.
    - destruct (reach_good d Hd) as (s & HR & HW). apply (kids_iff d s _ l HR HW) in Hl as [_ El]. subst l.
      destruct (wf_range _ HW _ _ H2); lia.
    - unfold data_of in Hdt. apply nth_error_Some. destruct (nth_error (nodes d) r); [discriminate|discriminate]. }
  destruct (subtree_arena d r fuel Hd Nr Hf) as (t & -> & Ht). cbn [bind]. eauto.
Qed.
Lemma document_input_styles fuel d user sources style_of root : reach d -> List.length (nodes d) <= fuel ->
  parse_stylesheets fuel d user = Ok sources -> good_sheets ct (map read_sheet sources) -> good_attributes ct attr_items d ->
  document_input ct read_sheet attr_items fuel d user = Ok (style_of, root) ->
  styles_computed ct style_of /\
  forall e x parent, node_of d e -> data_of d e = Some (DElement x) ->
    element_style ct specificity (matchb fuel d e) [user_agent] (map read_sheet sources) (option_map attr_items (inline_style x)) parent (style_of e parent).
Proof.
  intros Hd Hf Hp G GA H. unfold document_input in H.
  destruct (ua_style_set ct) as [ua| |] eqn:Eu; try discriminate. cbn [bind] in H.
  destruct (author_style_set ct read_sheet fuel d user) as [au| |] eqn:Ea; try discriminate. cbn [bind] in H.
  destruct (root_element fuel d) as [r| |] eqn:Er; try discriminate. cbn [bind] in H.
  destruct (subtree fuel d r) as [t| |] eqn:Et; try discriminate. cbn [bind] in H. injection H as <- <-.
  destruct (ua_sheets ct ua Eu) as (ur & Hu & ->).
  destruct (author_sheets ct read_sheet fuel d user au Ea) as (src & ar & Hs & Ha & ->).
  assert (src = sources) as -> by congruence.
  assert (K : forall e x parent, node_of d e -> data_of d e = Some (DElement x) ->
    element_style ct specificity (matchb fuel d e) [user_agent] (map read_sheet sources) (option_map attr_items (inline_style x)) parent
      (style_or_anonymous ct attr_items fuel (finish selector specificity ur) (finish selector specificity ar) d e parent)).
  { intros e x parent He Hx.
    destruct (node_style_total fuel d e parent _ ur ar Hd Hf He G GA Hu Ha) as (s & E). unfold style_or_anonymous. rewrite E.
    eapply node_style_element; try eassumption; reflexivity. }
  split; [|exact K]. intros e parent. unfold style_or_anonymous.
  destruct (node_style ct attr_items fuel (finish selector specificity ur) (finish selector specificity ar) d e parent) as [s| |] eqn:E;
    [|do 6 eexists; apply anonymous_element..].
  assert (A : s = anonymous_inheriting_from parent \/ exists x, data_of d e = Some (DElement x)).
  { unfold node_style, getn in E. unfold data_of. destruct (nth_error (nodes d) e) as [n|]; [|discriminate].
    cbn [bind option_map] in *. destruct (n_data n); try (left; injection E as <-; reflexivity). right. eauto. }
  destruct A as [->|[x Hx]]; [do 6 eexists; apply anonymous_element|].
  pose proof (node_style_element ct attr_items fuel _ _ d e parent s x ur ar (map read_sheet sources) Hu eq_refl Ha eq_refl Hx E) as Q.
  do 6 eexists. exact Q.
Qed.

Lemma document_input_root fuel d user style_of root : reach d -> List.length (nodes d) <= fuel ->
  document_input ct read_sheet attr_items fuel d user = Ok (style_of, root) ->
  exists r, root_element fuel d = Ok r /\ node_of d r /\ arena_tree d r root.
Proof.
  intros Hd Hf H. unfold document_input in H.
  destruct (ua_style_set ct) as [ua| |] eqn:Eu; try discriminate. cbn [bind] in H.
  destruct (author_style_set ct read_sheet fuel d user) as [au| |] eqn:Ea; try discriminate. cbn [bind] in H.
  destruct (root_element fuel d) as [r| |] eqn:Er; try discriminate. cbn [bind] in H.
  destruct (subtree fuel d r) as [t| |] eqn:Et; try discriminate. cbn [bind] in H. injection H as <- <-.
  exists r. split; [reflexivity|].
  destruct (reach_good d Hd) as (s & HR & HW).
  assert (Hl : kids d document_node_id (a_children s document_node_id)).
  { apply (kids_children d s _ HR HW). pose proof (wf_count _ HW). unfold document_node_id. lia. }
  destruct (proj1 (C07_root_element d r fuel _ Hd Hl Hf) Er) as (_ & Hr & _).
  assert (Nr : node_of d r) by (destruct (wf_range _ HW _ _ Hr); split; [lia|rewrite (rep_count _ _ HR); lia]).
  split; [exact Nr|]. destruct (subtree_arena d r fuel Hd Nr Hf) as (t' & Et' & Ht'). congruence.
Qed.

(* ---------------- default display ---------------- *)
Definition box_props : list longhand := [Ldisplay; Lposition; Lfloat; Lwhite_space].
Section Input.
Variables (fuel : nat) (d : doc) (user : option text) (sources : list text) (style_of : node_id -> option style -> style) (root : dtree).
Hypotheses (Hd : reach d) (Hf : List.length (nodes d) <= fuel) (Hp : parse_stylesheets fuel d user = Ok sources)
  (G : good_sheets ct (map read_sheet sources)) (GA : good_attributes ct attr_items d)
  (H : document_input ct read_sheet attr_items fuel d user = Ok (style_of, root))
  (U : unstyled ct attr_items d (map read_sheet sources) box_props).

Lemma element_default_display x :
  element_default x Ldisplay = Some (disp (default_display x)) \/
  element_default x Ldisplay = None /\ default_display x = DispBox OInline IFlow.
Proof.
  unfold element_default, default_display. cbn [html_default].
  destruct (hidden_field x); [left; reflexivity|]. destruct (marked_hidden x); [left; reflexivity|].
  destruct (one_of never_shown (name_of x)); [left; reflexivity|]. destruct (one_of blocks (name_of x)); [left; reflexivity|].
  right. split; reflexivity.
Qed.
Lemma default_box e x parent : node_of d e -> data_of d e = Some (DElement x) ->
  sv (style_of e parent) Lposition = PosStatic /\ sv (style_of e parent) Lfloat = FloatNone /\
  sv (style_of e parent) Ldisplay = default_display x /\
  (sv (style_of e parent) Lwhite_space = WSPre \/ sv (style_of e parent) Lwhite_space = sv (parent_or_initial parent) Lwhite_space).
Proof.
  intros He Hx.
  pose proof (proj2 (document_input_styles _ _ _ _ _ _ Hd Hf Hp G GA H) e x parent He Hx) as S.
  assert (G' : forall sels items, In (RStyle sels items) (concat (map read_sheet sources)) -> Forall (fun s => supported (s_subject s) (s_rest s)) sels)
    by (intros sels items Hr; apply (G sels items Hr)).
  pose proof (fun l Hl => default_style ct fuel d e x _ _ parent _ Hd Hf He Hx G' S l (U e x l Hx Hl)) as D.
  assert (P : sv (style_of e parent) Lposition = PosStatic).
  { destruct (D Lposition) as [_ D2]; [cbn; auto|]. rewrite (D2 eq_refl). reflexivity. }
  assert (F : sv (style_of e parent) Lfloat = FloatNone).
  { destruct (D Lfloat) as [_ D2]; [cbn; auto|]. rewrite (D2 eq_refl). reflexivity. }
  assert (O : ~ out_of_flow (style_of e parent)) by (unfold out_of_flow; rewrite P, F; intros [K|K]; congruence).
  split; [exact P|]. split; [exact F|]. split.
  - destruct (D Ldisplay) as [D1 D2]; [cbn; auto|]. destruct (element_default_display x) as [E|[E ->]].
    + destruct (D1 _ E) as [_ D3]. cbn [disp decl_longhand] in D3. rewrite D3. cbn [adjusted].
      destruct (out_of_flow_dec _) as [K|_]; [destruct (O K)|]. reflexivity.
    + rewrite (D2 E). cbn [adjusted]. destruct (out_of_flow_dec _) as [K|_]; [destruct (O K)|]. reflexivity.
  - destruct (D Lwhite_space) as [D1 D2]; [cbn; auto 10|]. destruct (element_default x Lwhite_space) as [dc|] eqn:E.
    + left. destruct (D1 _ eq_refl) as [D3 D4]. unfold element_default in E. cbn [html_default] in E.
      destruct (_ || _); [|discriminate]. injection E as <-. exact D4.
    + right. rewrite (D2 eq_refl). reflexivity.
Qed.

Lemma kid_node p k : kid d p k -> node_of d k.
Proof.
  intros (l & Hl & Hk). destruct (reach_good d Hd) as (s & HR & HW). apply (kids_iff d s _ l HR HW) in Hl as [_ El]. subst l.
  destruct (wf_range _ HW _ _ Hk). split; [lia|]. rewrite (rep_count _ _ HR). lia.
Qed.
Lemma shown_node r e : shown_under d r e -> node_of d e.
Proof. induction 1 as [? ? K|]; [exact (kid_node _ _ K)|assumption]. Qed.
Lemma shown_below r e : shown_under d r e -> below d r e.
Proof.
  induction 1 as [r e K|r k e K _ _ IH]; [apply Relation_Operators.t_step; exact K|].
  eapply Relation_Operators.t_trans; [apply Relation_Operators.t_step; exact K|exact IH].
Qed.
Lemma shown_step r e k : shown_under d r e -> shown_by_default d e -> kid d e k -> shown_under d r k.
Proof.
  induction 1 as [r e K|r k' e K Hs _ IH]; intros He Hk.
  - eapply Su_below; [exact K|exact He|]. constructor. exact Hk.
  - eapply Su_below; [exact K|exact Hs|]. auto.
Qed.
Lemma kids_unique i l l' : kids d i l -> kids d i l' -> l = l'.
Proof.
  intros (n & Hn & Hc) (n' & Hn' & Hc'). assert (n = n') as <- by congruence. exact (chain_fun _ _ _ Hc _ Hc').
Qed.
Lemma arena_kid i ts k : arena_tree d i (DT i ts) -> kid d i k -> exists us, In (DT k us) ts /\ arena_tree d k (DT k us).
Proof.
  intros Ht (l' & Hl' & Hk). inversion Ht as [i' l ts' Hl F]; subst. rewrite (kids_unique _ _ _ Hl' Hl) in Hk.
  clear - F Hk. induction F as [|x t l ts Ht _ IH]; [destruct Hk|]. destruct Hk as [->|Hk].
  - inversion Ht; subst. eexists. split; [left; reflexivity|exact Ht].
  - destruct (IH Hk) as (us & H1 & H2). exists us. split; [right; exact H1|exact H2].
Qed.
Lemma arena_last i ts l k : arena_tree d i (DT i ts) -> kids d i (l ++ [k]) -> exists a us, ts = a ++ [DT k us].
Proof.
  intros Ht Hl'. inversion Ht as [i' l' ts' Hl F]; subst. rewrite (kids_unique _ _ _ Hl Hl') in F.
  apply Forall2_app_inv_l in F as (a & b & _ & Fb & ->). inversion Fb as [|? t ? b' Hk Fn]; subst. inversion Fn; subst.
  inversion Hk; subst. eauto.
Qed.
Lemma styled_elem st e x us : data_of d e = Some (DElement x) -> name_of x <> "br" ->
  styled style_of d st (DT e us) =
  SElem false (style_of e (Some st)) (map (styled style_of d (style_of e (Some st))) us).
Proof. intros Hx Hn. cbn [styled]. rewrite Hx. apply String.eqb_neq in Hn. unfold name_of in Hn. rewrite Hn. reflexivity. Qed.
Lemma shown_display e parent : node_of d e -> shown_by_default d e -> sv (style_of e parent) Ldisplay <> DispNone.
Proof. intros He (x & Hx & _ & Hs). destruct (default_box e x parent He Hx) as (_ & _ & -> & _). exact Hs. Qed.

Lemma shown_rendered r e : shown_under d r e -> forall ts st, arena_tree d r (DT r ts) ->
  exists st' us, arena_tree d e (DT e us) /\ rendered (map (styled style_of d st) ts) (styled style_of d st' (DT e us)).
Proof.
  intros Su. induction Su as [r e K|r k e K Hs _ IH]; intros ts st Ht.
  - destruct (arena_kid r ts e Ht K) as (us & Hin & Hu). exists st, us. split; [exact Hu|]. apply Rn_here. apply in_map. exact Hin.
  - destruct (arena_kid r ts k Ht K) as (us & Hin & Hu). destruct (IH us (style_of k (Some st)) Hu) as (st' & vs & Hv & R).
    exists st', vs. split; [exact Hv|]. eapply Rn_below with (st := style_of k (Some st)); [|apply (shown_display k _ (kid_node _ _ K) Hs)|exact R].
    destruct Hs as (x & Hx & Hn & _). rewrite <- (styled_elem st k x us Hx Hn). apply in_map. exact Hin.
Qed.

Variable r : node_id.
Hypotheses (Ha : arena_tree d r root) (Nr : node_of d r) (Sr : shown_by_default d r).

(** A block right inside an inline element. *)
Lemma default_block_in_inline e k b : shown_under d r e -> inline_by_default d e -> kid d e k -> block_by_default d k ->
  construct_document style_of d root <> TreeModel.Done b.
Proof.
  intros Su (x & Hx & Hn & De) Hk (xk & Hxk & Hnk & Dk).
  inversion Ha as [r' l ts Hl F]; subst r'. rewrite <- H1 in Ha. cbn [construct_document].
  destruct (shown_rendered r e Su ts (style_of r None) Ha) as (st' & us & Hu & R).
  rewrite (styled_elem st' e x us Hx Hn) in R.
  destruct (arena_kid e us k Hu Hk) as (vs & Hin & Hv). apply (in_map (styled style_of d (style_of e (Some st')))) in Hin.
  rewrite (styled_elem _ k xk vs Hxk Hnk) in Hin. apply in_split in Hin as (A & B & Hin). rewrite Hin in R.
  destruct (default_box k xk (Some (style_of e (Some st'))) (kid_node _ _ Hk) Hxk) as (P1 & P2 & P3 & _).
  destruct (default_box e x (Some st') (shown_node _ _ Su) Hx) as (_ & _ & P4 & _).
  eapply C44_refuted; [|exact R|congruence|].
  - exact (shown_display r None Nr Sr).
  - split; [exists IFlow; congruence|]. rewrite P1, P2. split; reflexivity.
Qed.
(** A hidden element in the last place. *)
Lemma default_hidden_last e l k b : e = r \/ shown_under d r e -> shown_by_default d e -> kids d e (l ++ [k]) -> hidden_by_default d k ->
  construct_document style_of d root <> TreeModel.Done b.
Proof.
  intros Su Se Hk (xk & Hxk & Hnk & Dk).
  assert (Nk : node_of d k).
  { apply (kid_node e). exists (l ++ [k]). split; [exact Hk|]. apply in_or_app. right. left. reflexivity. }
  inversion Ha as [r' l0 ts Hl F]; subst r'. rewrite <- H1 in Ha. cbn [construct_document].
  set (str := style_of r None).
  assert (exists ste us, sv ste Ldisplay <> DispNone /\ arena_tree d e (DT e us) /\
    rendered [SElem false str (map (styled style_of d str) ts)] (SElem false ste (map (styled style_of d ste) us)))
    as (ste & us & De & Hu & R).
  { destruct Su as [->|Su].
    - exists str, ts. split; [exact (shown_display r None Nr Sr)|]. split; [exact Ha|].
      apply Rn_here. left. reflexivity.
    - destruct (shown_rendered r e Su ts str Ha) as (st' & us & Hu & R). destruct Se as (x & Hx & Hn & Ds).
      pose proof (shown_node _ _ Su) as Ne.
      rewrite (styled_elem st' e x us Hx Hn) in R. exists (style_of e (Some st')), us. split; [apply (shown_display e _ Ne); exists x; auto|]. split; [exact Hu|].
      eapply Rn_below; [left; reflexivity|exact (shown_display r None Nr Sr)|exact R]. }
  destruct (arena_last e us l k Hu Hk) as (a & vs & ->). rewrite map_app in R. cbn [map] in R.
  rewrite (styled_elem ste k xk vs Hxk Hnk) in R.
  eapply C43_refuted; [exact (shown_display r None Nr Sr)|exact R|exact De|].
  destruct (default_box k xk (Some ste) Nk Hxk) as (_ & _ & -> & _). exact Dk.
Qed.

(** Otherwise the document is rendered. *)
Definition calm (st : style) : Prop := sv st Lwhite_space = WSNormal \/ sv st Lwhite_space = WSPre.
Lemma calm_kid e x parent : node_of d e -> data_of d e = Some (DElement x) -> calm parent -> calm (style_of e (Some parent)).
Proof.
  intros He Hx C. destruct (default_box e x (Some parent) He Hx) as (_ & _ & _ & [E|E]); [right; exact E|].
  unfold calm. rewrite E. exact C.
Qed.
Lemma calm_supported st : calm st -> white_space_supported st.
Proof. intros [E|E]; unfold white_space_supported; rewrite E; exact I. Qed.
Lemma default_supported : renderable_by_default d r -> forall t i, arena_tree d i t ->
  forall p l a, (p = r \/ shown_under d r p) -> shown_by_default d p -> kids d p (a ++ i :: l) ->
  forall st inl, calm st -> (inl = true -> p <> r /\ inline_by_default d p) ->
  TreeSpec.supported st inl (match l with [] => false | _ => true end) (styled style_of d st t).
Proof.
  intros [R1 R2].
  fix IH 1. intros [i0 ts] i Ht p l a Hp' Sp Hk st inl Cs Hinl. inversion Ht as [i' li ts' Hli F]; subst i' ts' i0. clear Ht.
  assert (Ki : kid d p i) by (exists (a ++ i :: l); split; [exact Hk|apply in_or_app; right; left; reflexivity]).
  pose proof (kid_node _ _ Ki) as Ni.
  cbn [styled]. destruct (data_of d i) as [[| |u| |x|]|] eqn:Ed; try exact I.
  { cbn [TreeSpec.supported]. apply calm_supported. exact Cs. }
  cbn [TreeSpec.supported]. pose proof (calm_kid i x st Ni Ed Cs) as Ci. destruct (String.eqb (q_local (e_name x)) "br") eqn:Eb.
  { apply calm_supported. exact Ci. }
  apply String.eqb_neq in Eb. destruct (default_box i x (Some st) Ni Ed) as (P1 & P2 & P3 & _). rewrite P3, P1, P2. cbn [is_absolutely_positioned is_floating orb].
  assert (Sh : shown_under d r i).
  { destruct Hp' as [->|Hp']; [constructor; exact Ki|exact (shown_step _ _ _ Hp' Sp Ki)]. }
  assert (Q : default_display x <> DispNone -> forall inl', (inl' = true -> inline_by_default d i) ->
     supported_with (TreeSpec.supported (style_of i (Some st)) inl') (map (styled style_of d (style_of i (Some st))) ts)).
  { intros Dn inl' Hinl'.
    assert (Si : shown_by_default d i) by (exists x; auto).
    assert (Ne : i <> r).
    { intros ->. exact (reach_acyclic d r Hd (shown_below _ _ Sh)). }
    assert (W : forall pre suf, li = pre ++ suf -> Forall2 (arena_tree d) suf ts ->
       supported_with (TreeSpec.supported (style_of i (Some st)) inl') (map (styled style_of d (style_of i (Some st))) ts)).
    { clear F. induction ts as [|t ts IHts]; intros pre suf E F; [exact I|]. inversion F as [|k ? suf' ? Hk' Fk]; subst.
      cbn [map supported_with]. split; [|apply (IHts (pre ++ [k]) suf'); [rewrite <- app_assoc; reflexivity|exact Fk]].
      assert (E : match map (styled style_of d (style_of i (Some st))) ts with [] => false | _ => true end =
                  match suf' with [] => false | _ => true end) by (destruct Fk; reflexivity).
      rewrite E. apply (IH t k Hk' i suf' pre); auto. }
    exact (W [] li eq_refl F). }
  assert (Bi : forall v, default_display x = v -> by_default d i (fun w => w = v)) by (intros v Hv; exists x; auto).
  destruct (default_display x) as [| |o n] eqn:Dd.
  - destruct l as [|k l]; [|reflexivity]. exfalso. exact (R2 p a i Hp' Sp Hk (Bi _ eq_refl)).
  - exfalso. unfold default_display in Dd. repeat match type of Dd with (if ?c then _ else _) = _ => destruct c end; discriminate.
  - assert (n = IFlow) as -> by (unfold default_display in Dd; repeat match type of Dd with (if ?c then _ else _) = _ => destruct c end; congruence).
    destruct o.
    + apply Q; [discriminate|]. intros _. exact (Bi _ eq_refl).
    + split; [|apply Q; [discriminate|discriminate]]. destruct inl; [|reflexivity]. destruct (Hinl eq_refl) as [Hne Hi].
      destruct Hp' as [Hp'|Hp']; [contradiction|]. exfalso. exact (R1 p i Hp' Hi Ki (Bi _ eq_refl)).
Qed.

Theorem default_exactly : (exists b, construct_document style_of d root = TreeModel.Done b) <-> renderable_by_default d r.
Proof.
  split.
  - intros [b E]. split.
    + intros e k Su Hi Hk Hb. exact (default_block_in_inline e k b Su Hi Hk Hb E).
    + intros e l k Su Se Hk Hh. exact (default_hidden_last e l k b Su Se Hk Hh E).
  - intros R. inversion Ha as [r' l ts Hl F]; subst r'. cbn [construct_document]. apply (proj2 (root_succeeds _ _)). right.
    unfold supported_contents.
    assert (C : calm (style_of r None)).
    { destruct Sr as (x & Hx & _). destruct (default_box r x None Nr Hx) as (_ & _ & _ & [E|E]); [right; exact E|left; exact E]. }
    assert (W : forall pre suf us, l = pre ++ suf -> Forall2 (arena_tree d) suf us ->
       supported_with (TreeSpec.supported (style_of r None) false) (map (styled style_of d (style_of r None)) us)).
    { intros pre suf us E F'. revert pre E. induction F' as [|k t suf us Hk Fk IH]; intros pre E; [exact I|].
      cbn [map supported_with]. split; [|apply (IH (pre ++ [k])); rewrite <- app_assoc; exact E].
      assert (E' : match map (styled style_of d (style_of r None)) us with [] => false | _ => true end =
                  match suf with [] => false | _ => true end) by (destruct Fk; reflexivity).
      rewrite E'. apply (default_supported R t k Hk r suf pre); auto; [rewrite <- E; exact Hl|discriminate]. }
    exact (W [] l ts eq_refl F).
Qed.

(** The text of such a document. *)
Lemma default_unfloated t : forall i, arena_tree d i t -> node_of d i -> forall st, unfloated_text (styled style_of d st t) = default_text d t /\
  nothing_absolute (styled style_of d st t).
Proof.
  induction t as [i0 ts IH] using dtree_ind'. intros i Ht Ni st. inversion Ht as [i' li ts' Hli F]; subst i' ts' i0. clear Ht.
  cbn [styled default_text]. destruct (data_of d i) as [[| |u| |x|]|] eqn:Ed; try (split; [reflexivity|exact I]).
  cbn [unfloated_text nothing_absolute]. unfold name_of. destruct (String.eqb (q_local (e_name x)) "br"); [split; [reflexivity|left; reflexivity]|].
  destruct (default_box i x (Some st) Ni Ed) as (P1 & P2 & P3 & _). unfold floating_element. rewrite P3, P1, P2. cbn [is_absolutely_positioned is_floating negb andb].
  assert (K : forall k, In k li -> node_of d k) by (intros k Hk; apply (kid_node i); exists li; auto).
  assert (T : flat_map unfloated_text (map (styled style_of d (style_of i (Some st))) ts) = flat_map (default_text d) ts /\
     fold_right (fun k R => nothing_absolute k /\ R) True (map (styled style_of d (style_of i (Some st))) ts)).
  { clear Hli. induction F as [|k t li ts Hk Fk IHl]; [split; [reflexivity|exact I]|]. inversion IH as [|? ? I1 I2]; subst.
    destruct (I1 k Hk (K k (or_introl eq_refl)) (style_of i (Some st))) as [A B].
    destruct (IHl I2 (fun k' H' => K k' (or_intror H'))) as [A' B']. cbn [map flat_map fold_right]. rewrite A, A'. auto. }
  destruct T as [T1 T2]. destruct (default_display x) as [| |[|] n]; [split; [reflexivity|right; exact I]|..];
    (split; [exact T1|right; first [exact T2|split; [reflexivity|exact T2]]]).
Qed.
End Input.
End Doc.
