(** Facts about the text half of box construction. *)
From Verif Require Import TreeModel TreeSpec.

Section Any.
Context {ar : Arith}.

Lemma snode_ind' (P : snode -> Prop)
  (HT : forall t, P (SText t)) (HO : P SOther)
  (HE : forall br st kids, Forall P kids -> P (SElem br st kids)) : forall n, P n.
Proof.
  fix IH 1. intros [t| |br st kids]; [apply HT|apply HO|]. apply HE.
  induction kids as [|k ks IHk]; constructor; [apply IH|exact IHk].
Qed.
Lemma ilb_ind' {C} (P : ilb C -> Prop)
  (HB : forall st f l ch, Forall P ch -> P (InlineBox st f l ch)) (HT : forall st t font, P (TextRun st t font))
  (HA : forall st c, P (IAbspos st c)) (HF : forall st c, P (IFloat st c)) : forall x, P x.
Proof.
  fix IH 1. intros [st f l ch|st t font|st c|st c]; [|apply HT|apply HA|apply HF]. apply HB.
  induction ch as [|k ks IHk]; constructor; [apply IH|exact IHk].
Qed.

(* ------------------------------------------------------------------ *)
(** * Collapsing *)

Lemma ascii_ws_spec c : ascii_ws c = if ws_dec c then true else false.
Proof.
  unfold ascii_ws. destruct (ws_dec c) as [H|H]; unfold is_ws in H; cbn in H.
  - destruct H as [<-|[<-|[<-|[<-|[<-|[]]]]]]; reflexivity.
  - repeat rewrite orb_false_iff. rewrite !N.eqb_neq. intuition congruence.
Qed.
Lemma ends_spec t : ends_with_space_or_nl t = ends_in_space t.
Proof.
  unfold ends_with_space_or_nl, ends_in_space. destruct (rev t) as [|c l]; [reflexivity|].
  destruct (in_dec N.eq_dec c [32; 10]%N) as [H|H]; cbn in H.
  - destruct H as [<-|[<-|[]]]; reflexivity.
  - rewrite orb_false_iff, !N.eqb_neq. intuition congruence.
Qed.

Lemma split_first_some p t a b : split_first p t = Some (a, b) ->
  t = a ++ b /\ Forall (fun c => p c = false) a /\ exists c b', b = c :: b' /\ p c = true.
Proof.
  revert a b; induction t as [|c t IH]; cbn; intros a b H; [discriminate|].
  destruct (p c) eqn:E.
  - injection H as <- <-. repeat split; [constructor|]. exists c, t. auto.
  - destruct (split_first p t) as [[a' b']|]; [|discriminate]. injection H as <- <-.
    destruct (IH _ _ eq_refl) as (-> & F & R). repeat split; [constructor; assumption|exact R].
Qed.
Lemma split_first_none p t : split_first p t = None -> Forall (fun c => p c = false) t.
Proof.
  induction t as [|c t IH]; cbn; intros H; [constructor|].
  destruct (p c) eqn:E; [discriminate|]. constructor; [exact E|].
  apply IH. destruct (split_first p t) as [[a b]|]; [discriminate|reflexivity].
Qed.

Lemma squeeze_nonws a t after : Forall (fun c => ascii_ws c = false) a ->
  squeeze after (a ++ t) = a ++ squeeze (match a with [] => after | _ => false end) t.
Proof.
  intros H. revert after. induction H as [|c a Hc H IH]; intros after; [reflexivity|].
  cbn. rewrite ascii_ws_spec in Hc. destruct (ws_dec c); [discriminate|]. f_equal.
  rewrite IH. destruct a; reflexivity.
Qed.
Lemma squeeze_ws a t : Forall (fun c => negb (ascii_ws c) = false) a -> squeeze true (a ++ t) = squeeze true t.
Proof.
  intros H. induction H as [|c a Hc H IH]; [reflexivity|].
  cbn. rewrite ascii_ws_spec in Hc. destruct (ws_dec c); [exact IH|discriminate].
Qed.
(** A text that does not start with white space is treated the same in both states. *)
Lemma squeeze_start c t after : ascii_ws c = false -> squeeze after (c :: t) = squeeze false (c :: t).
Proof. intros H. cbn. rewrite ascii_ws_spec in H. destruct (ws_dec c); [discriminate|reflexivity]. Qed.

Lemma collapse_loop_spec fuel t : List.length t < fuel -> collapse_loop fuel t = Some (squeeze false t).
Proof.
  revert t. induction fuel as [|fuel IH]; intros t Hl; [lia|].
  cbn. destruct (split_first ascii_ws t) as [[a rest]|] eqn:E.
  - apply split_first_some in E as (-> & Fa & c & rest' & -> & Hc).
    rewrite squeeze_nonws by exact Fa.
    assert (Hsq : squeeze (match a with [] => false | _ => false end) (c :: rest') = 32%N :: squeeze true rest').
    { cbn. rewrite ascii_ws_spec in Hc. destruct (ws_dec c); [|discriminate]. destruct a; reflexivity. }
    rewrite Hsq.
    destruct (split_first (fun c0 => negb (ascii_ws c0)) (c :: rest')) as [[w t']|] eqn:E2.
    + apply split_first_some in E2 as (Ew & Fw & d & t2 & -> & Hd).
      rewrite app_length in Hl. cbn in Hl.
      assert (Hlen : List.length (d :: t2) <= List.length rest').
      { destruct w as [|w0 w]; cbn in Ew; injection Ew as -> ->.
        - rewrite Hc in Hd; discriminate.
        - rewrite app_length; lia. }
      rewrite IH by lia. do 3 f_equal.
      assert (Hr : rest' = tl w ++ d :: t2).
      { destruct w as [|w0 w]; cbn in Ew; injection Ew as -> ->; [rewrite Hc in Hd; discriminate|reflexivity]. }
      rewrite Hr. rewrite squeeze_ws.
      * symmetry; apply squeeze_start. destruct (ascii_ws d); [discriminate|reflexivity].
      * destruct Fw; [constructor|assumption].
    + apply split_first_none in E2. inversion E2 as [|? ? ? F]; subst.
      rewrite <- (app_nil_r rest'), squeeze_ws by exact F. reflexivity.
  - apply split_first_none in E. rewrite <- (app_nil_r t) at 2. rewrite squeeze_nonws by exact E.
    destruct t; cbn; rewrite ?app_nil_r; reflexivity.
Qed.
(** The fuel of the collapsing loop is never used up. *)
Lemma collapse_fuel t : collapse_loop (S (List.length t)) t <> None.
Proof. rewrite collapse_loop_spec by lia. discriminate. Qed.

Lemma trim_start_split p t : exists a, t = a ++ trim_start p t /\ Forall (fun c => negb (p c) = false) a /\
  match trim_start p t with [] => True | c :: _ => p c = false end.
Proof.
  induction t as [|c t IH]; cbn; [exists []; repeat split; constructor|].
  destruct (p c) eqn:E; [|exists []; repeat split; [constructor|exact E]].
  destruct IH as (a & Ht & F & S). exists (c :: a). repeat split; [cbn; congruence| |exact S].
  constructor; [rewrite E; reflexivity|exact F].
Qed.

(* ------------------------------------------------------------------ *)
(** * The text before *)

Lemma search_back_app l x : search_back (l ++ [x]) = match search_box x with Some r => Some r | None => search_back l end.
Proof.
  induction l as [|y l IH]; cbn; [destruct (search_box x); reflexivity|]. rewrite IH.
  destruct (search_box x); reflexivity.
Qed.
Lemma search_box_inline st f l ch : search_box (InlineBox st f l ch) = search_back ch.
Proof. cbn. induction ch as [|x ch IH]; cbn; [reflexivity|]. rewrite IH. reflexivity. Qed.

(** What the text at a level ends in, and the style of the run that more text is appended to. *)
Definition last_state (l : list (ilb bfc)) : text_state :=
  match search_back l with Some preserved => Some (negb preserved) | None => None end.
Fixpoint open_run (l : list (ilb bfc)) : option style :=
  match l with
  | [] => None
  | [TextRun st _ _] => Some st
  | _ :: l' => open_run l'
  end.
Lemma last_state_text st t font l : last_state (l ++ [TextRun st t font]) = Some (ends_in_space t).
Proof. unfold last_state. rewrite search_back_app. cbn. rewrite negb_involutive, ends_spec. reflexivity. Qed.
Lemma last_state_inline st f la ch l :
  last_state (l ++ [InlineBox st f la ch]) = match last_state ch with Some x => Some x | None => last_state l end.
Proof.
  unfold last_state. rewrite search_back_app, search_box_inline.
  destruct (search_back ch); reflexivity.
Qed.
Lemma last_state_abspos st c l : last_state (l ++ [IAbspos st c]) = last_state l.
Proof. unfold last_state. rewrite search_back_app. reflexivity. Qed.
Lemma last_state_float st c l : last_state (l ++ [IFloat st c]) = last_state l.
Proof. unfold last_state. rewrite search_back_app. reflexivity. Qed.
Lemma open_run_app l x : open_run (l ++ [x]) = match x with TextRun st _ _ => Some st | _ => None end.
Proof.
  induction l as [|y l IH]; [destruct x; reflexivity|].
  cbn [app]. destruct l as [|z l]; [destruct y; exact IH|]. destruct y; exact IH.
Qed.

(** Appending text: to the open run, or as a new run. *)
Lemma append_text_cases l out ps :
  (open_run l = None /\ append_text l out ps = l ++ [TextRun ps out ps]) \/
  (exists l' st t font, l = l' ++ [TextRun st t font] /\ open_run l = Some st /\
     append_text l out ps = l' ++ [TextRun st (t ++ out) font]).
Proof.
  induction l as [|x l IH].
  - left; split; reflexivity.
  - destruct l as [|y l].
    + destruct x as [st f la ch|st t font|st c|st c]; try (left; split; reflexivity).
      right. exists [], st, t, font. repeat split.
    + destruct IH as [[H1 H2]|(l' & st & t & font & H1 & H2 & H3)].
      * left. split; [destruct x; exact H1|].
        transitivity (x :: append_text (y :: l) out ps); [destruct x; reflexivity|]. rewrite H2. reflexivity.
      * right. exists (x :: l'), st, t, font. repeat split.
        -- rewrite H1; reflexivity.
        -- destruct x; exact H2.
        -- transitivity (x :: append_text (y :: l) out ps); [destruct x; reflexivity|]. rewrite H3. reflexivity.
Qed.

Lemma ends_in_space_app t out : out <> [] -> ends_in_space (t ++ out) = ends_in_space out.
Proof.
  intros H. unfold ends_in_space. rewrite rev_app_distr.
  destruct (rev out) as [|c l] eqn:E; [|reflexivity].
  apply (f_equal (@rev _)) in E. rewrite rev_involutive in E. contradiction.
Qed.
Lemma append_state l out ps : out <> [] -> last_state (append_text l out ps) = Some (ends_in_space out).
Proof.
  intros H. destruct (append_text_cases l out ps) as [[_ ->]|(l' & st & t & font & _ & _ & ->)].
  - apply last_state_text.
  - rewrite last_state_text, ends_in_space_app by exact H. reflexivity.
Qed.
Lemma append_run l out ps : open_run (append_text l out ps) = Some (match open_run l with Some st => st | None => ps end).
Proof.
  destruct (append_text_cases l out ps) as [[-> ->]|(l' & st & t & font & _ & -> & ->)]; apply open_run_app.
Qed.

(* ------------------------------------------------------------------ *)
(** * handle_text *)

Definition add_text (b : builder) (out : text) (ps : style) : builder :=
  match out with [] => b | _ => set_current b (append_text (current b) out ps) end.
Lemma handle_text_collapse_spec t ps b :
  handle_text_collapse t ps b = Done (add_text b (squeeze (at_boundary (last_state (current b))) t) ps).
Proof.
  unfold handle_text_collapse, handle_leading_whitespace.
  destruct t as [|c t]; [reflexivity|].
  destruct (ascii_ws c) eqn:E.
  - assert (Hb : at_boundary (last_state (current b)) =
                 negb (match search_back (current b) with Some p => p | None => false end)).
    { unfold last_state. destruct (search_back (current b)) as [[]|]; reflexivity. }
    rewrite Hb. set (p := match search_back (current b) with Some p => p | None => false end).
    destruct (trim_start_split ascii_ws (c :: t)) as (a & Ht & Fa & S).
    set (t' := trim_start ascii_ws (c :: t)) in *.
    assert (Hsq : squeeze (negb p) (c :: t) = (if p then [32%N] else []) ++ squeeze false t').
    { assert (Hn : squeeze true t' = squeeze false t').
      { destruct t' as [|d t2]; [reflexivity|]. apply squeeze_start; exact S. }
      destruct a as [|a0 a].
      { cbn [app] in Ht. rewrite <- Ht in S. congruence. }
      cbn [app] in Ht. injection Ht as <- Ht.
      cbn [squeeze]. rewrite ascii_ws_spec in E. destruct (ws_dec c); [|discriminate].
      rewrite Ht, squeeze_ws by (inversion Fa; assumption). rewrite Hn. destruct p; reflexivity. }
    rewrite Hsq, collapse_loop_spec by lia.
    destruct p; cbn [orb app].
    + reflexivity.
    + destruct t' as [|d t2]; [reflexivity|].
      unfold add_text. destruct (squeeze false (d :: t2)) as [|x y] eqn:Es; [|reflexivity].
      exfalso. cbn in Es. destruct (ws_dec d); discriminate.
  - cbn [orb]. rewrite collapse_loop_spec by lia. rewrite (squeeze_start c t (at_boundary _)) by exact E.
    unfold add_text. destruct (squeeze false (c :: t)) as [|x y] eqn:Es; [|reflexivity].
    exfalso. cbn in Es. destruct (ws_dec c); discriminate.
Qed.
Lemma handle_text_spec t ps b : white_space_supported ps ->
  handle_text t ps b = Done (add_text b (shown (sv ps Lwhite_space) (last_state (current b)) t) ps).
Proof.
  unfold white_space_supported, handle_text, shown.
  destruct (sv ps Lwhite_space); intros []; try apply handle_text_collapse_spec; destruct t; reflexivity.
Qed.
Lemma handle_text_done t ps b b' : handle_text t ps b = Done b' -> white_space_supported ps.
Proof.
  unfold white_space_supported, handle_text.
  destruct (sv ps Lwhite_space); try exact (fun _ => I); destruct (existsb _ _); discriminate.
Qed.
End Any.
