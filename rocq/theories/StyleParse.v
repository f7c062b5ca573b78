(** Proofs about the CSS value parsers and declaration blocks. *)
From Verif Require Import StyleModel StyleSpec StyleCascade.
From Verif Require Import GfxModel.
Section Any.
Context {ar : Arith}.

(* ------------- one-token parsers ------------- *)
Definition lifted {A} (f : token -> option A) : parser A :=
  fun ts => match ts with t :: r => match f t with Some v => Some (v, r) | None => None end | [] => None end.
Definition single {A} (p : parser A) : Prop := exists f, forall ts, p ts = lifted f ts.

Lemma single_pmap {A B} (g : A -> B) p : single p -> single (pmap g p).
Proof.
  intros [f H]. exists (fun t => option_map g (f t)). intros ts. unfold pmap. rewrite H.
  destruct ts as [|t r]; cbn; [reflexivity|]. destruct (f t); reflexivity.
Qed.
Lemma single_keyword {A} (u : list (string * A)) : single (keyword u).
Proof.
  exists (fun t => match t with TIdent s => lookup_variant s u | _ => None end).
  intros [|[]]; cbn; reflexivity.
Qed.
Lemma single_try {A B} (p : parser A) (g : A -> B) q : single p -> single q -> single (try_or p g q).
Proof.
  intros [f Hf] [h Hh]. exists (fun t => match f t with Some v => Some (g v) | None => h t end).
  intros ts. unfold try_or. rewrite Hf, Hh. destruct ts as [|t r]; cbn; [reflexivity|]. destruct (f t); reflexivity.
Qed.
Lemma single_derive {A} fields (u : list (string * A)) : Forall single fields -> single (derive_parse fields u).
Proof.
  unfold derive_parse. induction 1; cbn; [apply single_keyword|]. apply single_try; assumption.
Qed.
Lemma single_length : single parse_length.
Proof.
  exists (fun t => match parse_length [t] with Some (v, _) => Some v | None => None end).
  intros [|[s|s|v|v|v u|c| |k] r]; try reflexivity; cbn.
  - destruct (leqb v l0); reflexivity.
  - repeat (destruct (String.eqb (lower u) _); [reflexivity|]). reflexivity.
Qed.
Lemma single_pct : single parse_percentage.
Proof. exists (fun t => match t with TPercent v => Some v | _ => None end). intros [|[] r]; reflexivity. Qed.
Lemma single_num : single parse_number.
Proof. exists (fun t => match t with TNumber v => Some v | _ => None end). intros [|[] r]; reflexivity. Qed.
#[local] Hint Resolve single_length single_pct single_num single_pmap single_derive single_keyword : single.
Ltac sing := apply single_derive; repeat constructor; auto with single.
Lemma single_lp : single parse_lp. Proof. sing. Qed.
Lemma single_lpa : single parse_lpa. Proof. sing. Qed.
Lemma single_lpn : single parse_lpn. Proof. sing. Qed.
Lemma single_line_style : single parse_line_style. Proof. sing. Qed.
Lemma single_line_width : single parse_line_width.
Proof. apply single_derive. repeat constructor. apply single_lp. Qed.
Lemma single_wide : single parse_wide. Proof. sing. Qed.
Lemma single_color ct : single (parse_color ct).
Proof. exists ct. intros [|t r]; reflexivity. Qed.
Lemma single_display : single parse_display.
Proof.
  exists (fun t => match parse_display [t] with Some (v, _) => Some v | None => None end).
  intros [|[s|s|v|v|v u|c| |k] r]; try reflexivity; cbn.
  repeat (destruct (String.eqb s _); [reflexivity|]). reflexivity.
Qed.
Lemma single_longhand ct l : l <> Lfont_family -> single (parse_longhand ct l).
Proof.
  destruct l; intros H; try congruence; cbn [parse_longhand];
    first [ apply single_length | apply single_lp | apply single_lpa | apply single_lpn | apply single_line_style
          | apply single_line_width | apply single_color | apply single_display | sing ].
Qed.

Lemma single_head {A} (p : parser A) t r v rest : single p -> p (t :: r) = Some (v, rest) -> rest = r /\ forall r', p (t :: r') = Some (v, r').
Proof.
  intros [f H] E. rewrite H in E. cbn in E. destruct (f t) as [v0|] eqn:F; [|discriminate]. injection E as -> ->.
  split; [reflexivity|]. intros r'. rewrite H. cbn. rewrite F. reflexivity.
Qed.
Lemma single_nil {A} (p : parser A) : single p -> p [] = None.
Proof. intros [f H]. rewrite H. reflexivity. Qed.
Lemma single_none {A} (p : parser A) t r : single p -> p (t :: r) = None -> forall r', p (t :: r') = None.
Proof. intros [f H] E r'. rewrite H in *. cbn in *. destruct (f t); [discriminate|reflexivity]. Qed.
Lemma single_one {A} (p : parser A) ts v : single p -> p ts = Some (v, []) -> exists t, ts = [t].
Proof.
  intros [f H] E. rewrite H in E. destruct ts as [|t r]; cbn in E; [discriminate|]. destruct (f t); [|discriminate].
  injection E as _ ->. eauto.
Qed.

(* ------------- the declared longhands ------------- *)
Lemma parse_property_longhands ct p ts ds r : parse_property ct p ts = Some (ds, r) ->
  map decl_longhand ds = property_longhands p.
Proof.
  assert (O : forall l o, decl_longhand (or_initial l o) = l) by (intros l []; reflexivity).
  destruct p as [l|s]; cbn; unfold pmap.
  - destruct (parse_longhand ct l ts) as [[v r0]|]; [|discriminate]. intros E. injection E as <- _. reflexivity.
  - destruct s; cbn [parse_shorthand]; unfold pmap;
    match goal with |- context [match ?e with Some _ => _ | None => None end] => destruct e as [[v r0]|]; [|discriminate] end;
    intros E; injection E as <- _; cbn [map]; rewrite ?O; reflexivity.
Qed.
Lemma split_longhands ct p ts ds r : split_value ct p ts = Some (ds, r) -> map decl_longhand ds = property_longhands p.
Proof.
  unfold split_value. destruct (parse_wide ts) as [[k r0]|].
  - intros E. injection E as <- _. rewrite map_map. cbn. apply map_id.
  - apply parse_property_longhands.
Qed.
Lemma property_longhands_nonempty p : property_longhands p <> [].
Proof. destruct p as [l|[]]; discriminate. Qed.
Lemma split_nonempty ct p ts ds r : split_value ct p ts = Some (ds, r) -> length ds <> 0.
Proof.
  intros H. apply split_longhands in H. destruct ds; [|discriminate]. cbn in H. symmetry in H.
  apply property_longhands_nonempty in H. tauto.
Qed.

(* ------------- parse_value ------------- *)
Definition imp_split (r : list token) : bool * list token :=
  match parse_important r with Some (_, r') => (true, r') | None => (false, r) end.
Definition add_entries (b : block) (p : property) (ds : list decl) (important : bool) : block :=
  let ph := phases_of (property_longhands p) in
  Block (b_decls b ++ ds) (b_important b ++ repeat important (length ds))
    (if important then ph_or (b_any_important b) ph else b_any_important b)
    (if important then b_any_normal b else ph_or (b_any_normal b) ph).
Lemma parse_value_eq ct b name ts : parse_value ct b name ts =
  Ok match property_by_name name with
     | None => None
     | Some p => match split_value ct p ts with
                 | None => None
                 | Some (ds, r) => Some (add_entries b p ds (fst (imp_split r)), snd (imp_split r))
                 end
     end.
Proof.
  unfold parse_value. destruct (property_by_name name) as [p|]; [|reflexivity].
  fold (split_value ct p ts). destruct (split_value ct p ts) as [[ds r]|] eqn:E; [|reflexivity].
  unfold imp_split, add_entries. destruct (parse_important r) as [[u r']|]; cbn [fst snd];
    (destruct (Nat.eqb (length ds) 0) eqn:L; [apply Nat.eqb_eq in L; apply split_nonempty in E; contradiction|reflexivity]).
Qed.

Lemma imp_split_nil r : snd (imp_split r) = [] <-> r = [] \/ is_important r = true.
Proof.
  unfold imp_split, is_important, parse_important, eq_ignore_ascii_case.
  destruct r as [|t1 r]; [cbn; tauto|]. destruct t1; try (cbn; intuition discriminate).
  destruct r as [|t2 r]; [cbn; intuition discriminate|]. destruct t2; try (cbn; intuition discriminate).
  change (lower "important"%string) with "important"%string.
  destruct (Ascii.eqb c "!" && String.eqb (lower s) "important")%bool eqn:E; cbn.
  - destruct r; [tauto|]. intuition discriminate.
  - destruct r; intuition discriminate.
Qed.
Lemma imp_split_flag r : snd (imp_split r) = [] -> fst (imp_split r) = match r with [] => false | _ => true end.
Proof.
  unfold imp_split, parse_important. destruct r as [|[] [|[] r]]; cbn; try discriminate; try reflexivity.
  destruct (_ && _)%bool; cbn; [reflexivity|discriminate].
Qed.

Lemma entries_add b p ds im : flags_ok b ->
  entries (add_entries b p ds im) = entries b ++ map (fun d => (d, im)) ds.
Proof.
  intros [L _ _]. unfold entries, add_entries. cbn [b_decls b_important].
  revert L. generalize (b_important b). induction (b_decls b) as [|d l IH]; intros [|i is] L; try discriminate.
  - cbn. clear. induction ds; cbn; [reflexivity|]. f_equal. exact IHds.
  - cbn in *. f_equal. apply IH. lia.
Qed.
Lemma existsb_has im im' ph (ds : list decl) : existsb (has im ph) (map (fun d => (d, im')) ds) =
  (Bool.eqb im' im && existsb (fun l => match ph with Early => is_early l | Late => negb (is_early l) end) (map decl_longhand ds))%bool.
Proof.
  induction ds as [|d ds IH]; cbn; [rewrite andb_false_r; reflexivity|]. rewrite IH. unfold has. cbn.
  destruct (Bool.eqb im' im); reflexivity.
Qed.
Lemma phases_select ph ls : ph_select ph (phases_of ls) =
  existsb (fun l => match ph with Early => is_early l | Late => negb (is_early l) end) ls.
Proof. destruct ph; reflexivity. Qed.
Lemma ph_select_or ph a b : ph_select ph (ph_or a b) = (ph_select ph a || ph_select ph b)%bool.
Proof. destruct ph; reflexivity. Qed.

Lemma add_flags b p ds im : flags_ok b -> map decl_longhand ds = property_longhands p -> flags_ok (add_entries b p ds im).
Proof.
  intros F E. pose proof (entries_add b p ds im F) as EA. destruct F as [L N I]. constructor.
  - unfold add_entries. cbn. rewrite !app_length, repeat_length. lia.
  - intros ph. rewrite EA, existsb_app, existsb_has, E. cbn. destruct im; cbn.
    + rewrite orb_false_r. apply N.
    + rewrite ph_select_or, N, phases_select. reflexivity.
  - intros ph. rewrite EA, existsb_app, existsb_has, E. cbn. destruct im; cbn.
    + rewrite ph_select_or, I, phases_select. reflexivity.
    + rewrite orb_false_r. apply I.
Qed.

Lemma parse_item_leftover ct b i : flags_ok b -> leftover ct i -> parse_item ct b i = Panic.
Proof.
  intros F (name & ts & p & ds & r & -> & Hp & Hs & Hr & Hi). cbn. rewrite parse_value_eq, Hp, Hs.
  destruct (snd (imp_split r)) eqn:E.
  - apply imp_split_nil in E. destruct E; congruence.
  - apply split_nonempty in Hs. destruct (Nat.eqb _ _) eqn:Q; [|reflexivity].
    apply Nat.eqb_eq in Q. unfold add_entries in Q. cbn in Q. rewrite app_length in Q. lia.
Qed.
Lemma flags_len b : flags_ok b -> Nat.eqb (length (b_decls b)) (length (b_important b)) = true.
Proof. intros [L _ _]. apply Nat.eqb_eq. exact L. Qed.
Lemma parse_item_ok ct b i : flags_ok b -> ~ leftover ct i -> exists b', parse_item ct b i = Ok b' /\ flags_ok b' /\
  entries b' = entries b ++ item_entries ct i.
Proof.
  intros F NL.
  assert (SK : exists b', (if Nat.eqb (length (b_decls b)) (length (b_important b)) then Ok b else Panic) = Ok b' /\ flags_ok b' /\ entries b' = entries b ++ []).
  { exists b. rewrite flags_len by exact F. rewrite app_nil_r. auto. }
  destruct i as [name [|[] ts]|]; cbn [parse_item item_entries]; try exact SK.
  rewrite parse_value_eq. destruct (property_by_name name) as [p|] eqn:Hp; [|exact SK].
  destruct (split_value ct p ts) as [[ds r]|] eqn:Hs; [|exact SK].
  destruct (snd (imp_split r)) eqn:E.
  - pose proof (imp_split_flag r E) as FL. rewrite FL.
    assert (G := add_flags b p ds (match r with [] => false | _ => true end) F (split_longhands _ _ _ _ _ Hs)).
    exists (add_entries b p ds (match r with [] => false | _ => true end)). rewrite flags_len by exact G.
    split; [reflexivity|]. split; [exact G|]. rewrite entries_add by exact F. f_equal.
    apply imp_split_nil in E. destruct E as [->|E]; [reflexivity|]. destruct r; [discriminate|]. rewrite E. reflexivity.
  - exfalso. apply NL. exists name, ts, p, ds, r. repeat split; auto.
    + intros ->. cbn in E. discriminate.
    + destruct (is_important r) eqn:Q; [|reflexivity]. assert (snd (imp_split r) = []) by (apply imp_split_nil; auto). congruence.
Qed.

Lemma leftover_dec ct i : leftover ct i \/ ~ leftover ct i.
Proof.
  destruct i as [name ts|]; [|right; intros (n & t & p & ds & r & E & _); discriminate].
  destruct ts as [|t ts]; [right; intros (n & t & p & ds & r & E & _); discriminate|].
  destruct t; try (right; intros (n & t & p & ds & r & E & _); discriminate).
  destruct (property_by_name name) as [p|] eqn:Hp.
  2:{ right. intros (n & t & p & ds & r & E & Hp' & _). injection E as <- <-. congruence. }
  destruct (split_value ct p ts) as [[ds r]|] eqn:Hs.
  2:{ right. intros (n & t & p' & ds & r & E & Hp' & Hs' & _). injection E as <- <-. congruence. }
  destruct r as [|t r].
  { right. intros (n & t & p' & ds' & r' & E & Hp' & Hs' & Hr & _). injection E as <- <-. congruence. }
  destruct (is_important (t :: r)) eqn:I.
  { right. intros (n & t' & p' & ds' & r' & E & Hp' & Hs' & Hr & Hi). injection E as <- <-.
    assert (p' = p) by congruence. subst p'. rewrite Hs' in Hs. injection Hs as -> ->. congruence. }
  left. exists name, ts, p, ds, (t :: r). repeat split; auto. discriminate.
Qed.

Lemma parse_items_ok ct items : (forall i, In i items -> ~ leftover ct i) -> forall b, flags_ok b ->
  exists b', parse_items ct b items = Ok b' /\ flags_ok b' /\ entries b' = entries b ++ flat_map (item_entries ct) items.
Proof.
  induction items as [|i items IH]; intros H b F; cbn.
  - exists b. rewrite app_nil_r. auto.
  - destruct (parse_item_ok ct b i F (H i (or_introl eq_refl))) as (b1 & E1 & F1 & N1). rewrite E1. cbn.
    destruct (IH (fun j Hj => H j (or_intror Hj)) b1 F1) as (b2 & E2 & F2 & N2).
    exists b2. rewrite E2, N2, N1, app_assoc. auto.
Qed.
Lemma parse_items_panic ct items : (exists i, In i items /\ leftover ct i) -> forall b, flags_ok b -> parse_items ct b items = Panic.
Proof.
  induction items as [|i items IH]; intros (j & Hj & L) b F; [destruct Hj|]. cbn.
  destruct (leftover_dec ct i) as [Li|Li].
  - rewrite parse_item_leftover by assumption. reflexivity.
  - destruct (parse_item_ok ct b i F Li) as (b1 & E1 & F1 & N1). rewrite E1. cbn. apply IH; [|exact F1].
    destruct Hj as [->|Hj]; [contradiction|]. eauto.
Qed.
Lemma flags_empty : flags_ok block_empty.
Proof. constructor; [reflexivity| |]; intros []; reflexivity. Qed.

Lemma combine_forall (ds : list decl) is (f : bool -> bool) : length ds = length is ->
  forallb f is = forallb (fun e : decl * bool => f (snd e)) (combine ds is).
Proof. revert is. induction ds as [|d ds IH]; intros [|i is] L; try discriminate; cbn; [reflexivity|]. rewrite <- IH by (cbn in L; lia). reflexivity. Qed.
Lemma both_phases im es : (existsb (has im Early) es || existsb (has im Late) es)%bool =
  negb (forallb (fun e : decl * bool => negb (Bool.eqb (snd e) im)) es).
Proof.
  induction es as [|e es IH]; cbn; [reflexivity|]. rewrite negb_andb, <- IH. unfold has at 1 3. cbn.
  destruct (Bool.eqb (snd e) im), (is_early (decl_longhand (fst e))); cbn; rewrite ?orb_true_r; try reflexivity.
Qed.
Lemma final_asserts b : flags_ok b ->
  (Bool.eqb (ph_early (b_any_normal b) || ph_late (b_any_normal b)) (negb (forallb (fun x => x) (b_important b)))
   && Bool.eqb (ph_early (b_any_important b) || ph_late (b_any_important b)) (negb (forallb negb (b_important b))))%bool = true.
Proof.
  intros [L N I]. pose proof (N Early) as N1. pose proof (N Late) as N2. pose proof (I Early) as I1. pose proof (I Late) as I2.
  cbn [ph_select] in *. rewrite N1, N2, I1, I2, !both_phases, !(combine_forall _ _ _ L).
  fold (entries b). clear. apply andb_true_intro. split; apply eqb_true_iff; f_equal;
    (induction (entries b) as [|[d i] es IH]; cbn; [reflexivity|]; rewrite IH; destruct i; reflexivity).
Qed.

Lemma parse_block_ok ct items : (forall i, In i items -> ~ leftover ct i) ->
  exists b, parse_block ct items = Ok b /\ flags_ok b /\ entries b = flat_map (item_entries ct) items.
Proof.
  intros H. destruct (parse_items_ok ct items H block_empty flags_empty) as (b & E & F & N).
  exists b. unfold parse_block. rewrite E. cbn [bind]. rewrite final_asserts by exact F. auto.
Qed.
Lemma parse_block_panic ct items : (exists i, In i items /\ leftover ct i) -> parse_block ct items = Panic.
Proof. intros H. unfold parse_block. rewrite parse_items_panic; auto. apply flags_empty. Qed.
Lemma leftover_list_dec ct items : (exists i, In i items /\ leftover ct i) \/ (forall i, In i items -> ~ leftover ct i).
Proof.
  induction items as [|i items [(j & Hj & L)|IH]].
  - right. intros i [].
  - left. exists j. split; [right; exact Hj|exact L].
  - destruct (leftover_dec ct i) as [L|L]; [left; exists i; split; [left; reflexivity|exact L]|].
    right. intros j [<-|Hj]; auto.
Qed.
Lemma parse_block_cases ct items :
  ((exists i, In i items /\ leftover ct i) /\ parse_block ct items = Panic) \/
  ((forall i, In i items -> ~ leftover ct i) /\ exists b, parse_block ct items = Ok b /\ flags_ok b /\ entries b = flat_map (item_entries ct) items).
Proof.
  destruct (leftover_list_dec ct items) as [H|H]; [left|right]; (split; [exact H|]).
  - apply parse_block_panic; exact H.
  - apply parse_block_ok; exact H.
Qed.
Lemma parsed_flags ct b : parsed ct b -> flags_ok b.
Proof.
  intros [items E]. destruct (parse_block_cases ct items) as [[_ P]|[_ (b' & E' & F & _)]]; congruence.
Qed.
Lemma parsed_entries ct items b : parse_block ct items = Ok b -> entries b = flat_map (item_entries ct) items.
Proof. intros E. destruct (parse_block_cases ct items) as [[_ P]|[_ (b' & E' & F & N)]]; congruence. Qed.

Lemma parsed_cascade ct b : parsed ct b -> forall p inh this,
  cascade_normal p inh this b = fold_left (ph_cascade p inh) (map fst (filter (fun e => negb (snd e)) (entries b))) this /\
  cascade_important p inh this b = fold_left (ph_cascade p inh) (map fst (filter snd (entries b))) this.
Proof.
  intros P p inh this. apply parsed_flags in P. destruct P as [L N I]. split.
  - unfold cascade_normal. rewrite cascade_flag by apply N. unfold pick.
    rewrite (filter_ext _ (fun e : decl * bool => negb (snd e))) by (intros [d []]; reflexivity). reflexivity.
  - unfold cascade_important. rewrite cascade_flag by apply I. unfold pick.
    rewrite (filter_ext _ (fun e : decl * bool => snd e)) by (intros [d []]; reflexivity). reflexivity.
Qed.

(* ------------- property names ------------- *)
Lemma property_by_name_lower s : property_by_name s =
  find (fun p => String.eqb (lower s) (lower (property_name p))) (map PLong all_longhands ++ map PShort all_shorthands).
Proof. reflexivity. Qed.
Lemma name_found s p : lower s = property_name p -> property_by_name s = Some p.
Proof. intros H. rewrite property_by_name_lower, H. destruct p as [[]|[]]; vm_compute; reflexivity. Qed.
Lemma property_name_lower p : lower (property_name p) = property_name p.
Proof. destruct p as [[]|[]]; reflexivity. Qed.
Lemma found_name s p : property_by_name s = Some p -> lower s = property_name p.
Proof.
  intros H. rewrite property_by_name_lower in H. apply find_some in H. destruct H as [_ H]. apply String.eqb_eq in H.
  rewrite property_name_lower in H. exact H.
Qed.
Lemma css_name_lookup s l : l <> Lborder_right_color -> (property_by_name s = Some (PLong l) <-> lower s = css_name l).
Proof.
  intros H. split; intros E.
  - apply found_name in E. rewrite E. destruct l; try reflexivity. congruence.
  - apply name_found. rewrite E. destruct l; try reflexivity. congruence.
Qed.

(* ------------- !important ------------- *)
Definition imp_tail (s : string) : list token := [TDelim "!"; TIdent s].

Lemma single_app {A} (p : parser A) ts v r tl : single p -> p ts = Some (v, r) -> p (ts ++ tl) = Some (v, r ++ tl).
Proof.
  intros S H. destruct ts as [|t ts]; [rewrite single_nil in H by exact S; discriminate|].
  destruct (single_head p t ts v r S H) as [-> G]. cbn. apply G.
Qed.
Lemma single_app_none {A} (p : parser A) ts tl : single p -> p ts = None -> p tl = None -> p (ts ++ tl) = None.
Proof.
  intros S H H2. destruct ts as [|t ts]; [exact H2|]. cbn. eapply single_none; eassumption.
Qed.
Lemma four_sides_app {T} (p : parser T) ts v r tl : single p -> p tl = None ->
  parse_four_sides p ts = Some (v, r) -> parse_four_sides p (ts ++ tl) = Some (v, r ++ tl).
Proof.
  intros S N. unfold parse_four_sides.
  destruct (p ts) as [[t1 r1]|] eqn:E1; [|discriminate]. rewrite (single_app p ts t1 r1 tl S E1).
  destruct (p r1) as [[t2 r2]|] eqn:E2.
  2:{ rewrite (single_app_none p r1 tl S E2 N). intros E. injection E as <- <-. reflexivity. }
  rewrite (single_app p r1 t2 r2 tl S E2).
  destruct (p r2) as [[t3 r3]|] eqn:E3.
  2:{ rewrite (single_app_none p r2 tl S E3 N). intros E. injection E as <- <-. reflexivity. }
  rewrite (single_app p r2 t3 r3 tl S E3).
  destruct (p r3) as [[t4 r4]|] eqn:E4.
  2:{ rewrite (single_app_none p r3 tl S E4 N). intros E. injection E as <- <-. reflexivity. }
  rewrite (single_app p r3 t4 r4 tl S E4). intros E. injection E as <- <-. reflexivity.
Qed.
Definition loop_app (x : border_side * bool * list token) (tl : list token) : border_side * bool * list token :=
  (fst (fst x), snd (fst x), snd x ++ tl).
Lemma border_loop_app ct tl : parse_line_style tl = None -> parse_color ct tl = None -> parse_line_width tl = None ->
  forall fuel v any ts, border_side_loop ct fuel v any (ts ++ tl) = loop_app (border_side_loop ct fuel v any ts) tl.
Proof.
  intros N1 N2 N3. induction fuel as [|f IH]; intros v any ts; [reflexivity|]. cbn [border_side_loop].
  assert (A1 : forall o : option line_style, match o with None => parse_line_style (ts ++ tl) | Some _ => None end =
     match (match o with None => parse_line_style ts | Some _ => None end) with Some (x, r) => Some (x, r ++ tl) | None => None end).
  { intros [|]; [reflexivity|]. destruct (parse_line_style ts) as [[x r]|] eqn:E.
    - apply single_app; [apply single_line_style|exact E].
    - apply single_app_none; [apply single_line_style|exact E|exact N1]. }
  assert (A2 : forall o : option color, match o with None => parse_color ct (ts ++ tl) | Some _ => None end =
     match (match o with None => parse_color ct ts | Some _ => None end) with Some (x, r) => Some (x, r ++ tl) | None => None end).
  { intros [|]; [reflexivity|]. destruct (parse_color ct ts) as [[x r]|] eqn:E.
    - apply single_app; [apply single_color|exact E].
    - apply single_app_none; [apply single_color|exact E|exact N2]. }
  assert (A3 : forall o : option (lp slength), match o with None => parse_line_width (ts ++ tl) | Some _ => None end =
     match (match o with None => parse_line_width ts | Some _ => None end) with Some (x, r) => Some (x, r ++ tl) | None => None end).
  { intros [|]; [reflexivity|]. destruct (parse_line_width ts) as [[x r]|] eqn:E.
    - apply single_app; [apply single_line_width|exact E].
    - apply single_app_none; [apply single_line_width|exact E|exact N3]. }
  rewrite A1. destruct (match bs_style v with Some _ => None | None => parse_line_style ts end) as [[x r]|]; [apply IH|].
  rewrite A2. destruct (match bs_color v with Some _ => None | None => parse_color ct ts end) as [[x r]|]; [apply IH|].
  rewrite A3. destruct (match bs_width v with Some _ => None | None => parse_line_width ts end) as [[x r]|]; [apply IH|].
  reflexivity.
Qed.
Lemma border_side_app ct tl ts v r : parse_line_style tl = None -> parse_color ct tl = None -> parse_line_width tl = None ->
  parse_border_side ct ts = Some (v, r) -> parse_border_side ct (ts ++ tl) = Some (v, r ++ tl).
Proof.
  intros N1 N2 N3. unfold parse_border_side. rewrite (border_loop_app ct tl N1 N2 N3).
  destruct (border_side_loop ct 4 _ false ts) as [[v0 any] r0]. unfold loop_app. cbn [fst snd].
  destruct any; [|discriminate]. intros E. injection E as -> ->. reflexivity.
Qed.
Lemma pmap_app {A B} (g : A -> B) (p : parser A) ts tl :
  (forall v r, p ts = Some (v, r) -> p (ts ++ tl) = Some (v, r ++ tl)) ->
  forall v r, pmap g p ts = Some (v, r) -> pmap g p (ts ++ tl) = Some (v, r ++ tl).
Proof.
  intros H v r. unfold pmap. destruct (p ts) as [[a r0]|]; [|discriminate]. intros E. injection E as <- <-.
  rewrite (H a r0 eq_refl). reflexivity.
Qed.
Lemma property_app ct p ts ds r s : (forall c, ct (TDelim c) = None) -> p <> PLong Lfont_family ->
  parse_property ct p ts = Some (ds, r) -> parse_property ct p (ts ++ imp_tail s) = Some (ds, r ++ imp_tail s).
Proof.
  intros C Hp.
  assert (NC : parse_color ct (imp_tail s) = None) by (cbn; rewrite C; reflexivity).
  assert (NS : parse_line_style (imp_tail s) = None) by reflexivity.
  assert (NW : parse_line_width (imp_tail s) = None) by reflexivity.
  destruct p as [l|sh]; cbn [parse_property].
  - apply pmap_app. intros v r0. apply single_app. apply single_longhand. congruence.
  - destruct sh; cbn [parse_shorthand]; apply pmap_app; intros v r0;
      first [ apply four_sides_app; [first [apply single_lpa|apply single_lp|apply single_line_style|apply single_color|apply single_line_width]|first [exact NC|reflexivity]]
            | apply border_side_app; assumption
            | apply single_app; apply single_color ].
Qed.
Lemma split_app ct p ts ds s : (forall c, ct (TDelim c) = None) -> p <> PLong Lfont_family ->
  split_value ct p ts = Some (ds, []) -> split_value ct p (ts ++ imp_tail s) = Some (ds, imp_tail s).
Proof.
  intros C Hp. unfold split_value. destruct (parse_wide ts) as [[k r]|] eqn:E.
  - rewrite (single_app parse_wide ts k r _ single_wide E). intros H. injection H as <- ->. reflexivity.
  - rewrite (single_app_none parse_wide ts (imp_tail s) single_wide E eq_refl). intros H.
    rewrite (property_app ct p ts ds [] s C Hp H). reflexivity.
Qed.
Lemma important_item ct p name ts ds s : (forall c, ct (TDelim c) = None) -> p <> PLong Lfont_family ->
  property_by_name name = Some p -> split_value ct p ts = Some (ds, []) -> lower s = "important"%string ->
  item_entries ct (IDecl name (TColon :: ts ++ imp_tail s)) = map (fun d => (d, true)) ds /\
  ~ leftover ct (IDecl name (TColon :: ts ++ imp_tail s)).
Proof.
  intros C Hp Hn Hs Hi. pose proof (split_app ct p ts ds s C Hp Hs) as E.
  assert (I : is_important (imp_tail s) = true) by (cbn; rewrite Hi; reflexivity).
  split.
  - cbn [item_entries]. rewrite Hn, E. unfold imp_tail in *. rewrite I. reflexivity.
  - intros (n & t & p' & ds' & r & Q & Hn' & Hs' & _ & Hi'). injection Q as <- <-.
    assert (p' = p) by congruence. subst. rewrite E in Hs'. injection Hs' as <- <-. congruence.
Qed.

(* ------------- values are not css-wide keywords ------------- *)
Lemma lookup_variant_in {A} s (u : list (string * A)) v : lookup_variant s u = Some v -> exists n, In (n, v) u /\ s = kebab n.
Proof.
  induction u as [|[n w] u IH]; cbn; [discriminate|]. destruct (String.eqb s (kebab n)) eqn:E.
  - intros H. injection H as ->. apply String.eqb_eq in E. eauto.
  - intros H. destruct (IH H) as (m & Hm & Hs). eauto.
Qed.
Lemma long_not_wide ct l t d : colour_contract ct -> l <> Lfont_family -> long_value ct l t d -> parse_wide [t] = None.
Proof.
  intros C Hl (v & H & _). destruct (parse_wide [t]) as [[k r]|] eqn:E; [|reflexivity]. exfalso.
  assert (T : exists s, t = TIdent s /\ (s = "inherit" \/ s = "initial" \/ s = "unset")%string).
  { unfold parse_wide, derive_parse in E. cbn in E. destruct t; try discriminate. exists s. split; [reflexivity|].
    change (kebab "Inherit") with "inherit"%string in E. change (kebab "Initial") with "initial"%string in E.
    change (kebab "Unset") with "unset"%string in E.
    destruct (String.eqb s "inherit") eqn:E1; [apply String.eqb_eq in E1; auto|].
    destruct (String.eqb s "initial") eqn:E2; [apply String.eqb_eq in E2; auto|].
    destruct (String.eqb s "unset") eqn:E3; [apply String.eqb_eq in E3; auto|]. discriminate. }
  destruct T as (s & -> & Hs).
  assert (CC : ct (TIdent s) = None).
  { destruct (ct (TIdent s)) eqn:Q; [|reflexivity]. pose proof (cc_not_wide ct C _ _ Q). congruence. }
  destruct l; try congruence; cbn [parse_longhand] in H;
    try (unfold parse_color in H; rewrite CC in H; discriminate);
    destruct Hs as [-> | [-> | ->]]; vm_compute in H; discriminate.
Qed.

(* ------------- four sides ------------- *)
Lemma single_tok {A} (p : parser A) t v : single p -> p [t] = Some (v, []) -> forall r, p (t :: r) = Some (v, r).
Proof. intros S H. apply (single_head p t [] v [] S H). Qed.
Lemma four_sides_css {T} (p : parser T) toks t1 t2 t3 t4 v1 v2 v3 v4 : single p ->
  css_sides toks t1 t2 t3 t4 -> p [t1] = Some (v1, []) -> p [t2] = Some (v2, []) -> p [t3] = Some (v3, []) -> p [t4] = Some (v4, []) ->
  parse_four_sides p toks = Some (FourSides v1 v2 v3 v4, []).
Proof.
  intros S C H1 H2 H3 H4. pose proof (single_nil p S) as N.
  pose proof (single_tok p t1 v1 S H1) as G1. pose proof (single_tok p t2 v2 S H2) as G2.
  pose proof (single_tok p t3 v3 S H3) as G3. pose proof (single_tok p t4 v4 S H4) as G4.
  unfold parse_four_sides. inversion C; subst.
  - rewrite G1, N. congruence.
  - rewrite G1, G2, N. congruence.
  - rewrite G1, G2, G3, N. congruence.
  - rewrite G1, G2, G3, G4. reflexivity.
Qed.
Lemma css_sides_head {A} (l : list A) a b c d : css_sides l a b c d -> exists r, l = a :: r.
Proof. intros C. inversion C; eauto. Qed.

Lemma four_sides_split ct s tp rg bt lf toks t1 t2 t3 t4 d1 d2 d3 d4 : colour_contract ct ->
  sides_of s = Some (tp, rg, bt, lf) -> css_sides toks t1 t2 t3 t4 ->
  long_value ct tp t1 d1 -> long_value ct rg t2 d2 -> long_value ct bt t3 d3 -> long_value ct lf t4 d4 ->
  split_value ct (PShort s) toks = Some ([d1; d4; d3; d2], []).
Proof.
  intros C Hs Hc L1 L2 L3 L4.
  assert (W : parse_wide toks = None).
  { destruct (css_sides_head _ _ _ _ _ Hc) as (r & ->). eapply single_none; [apply single_wide|].
    eapply long_not_wide; [exact C| |exact L1]. destruct s; cbn in Hs; try discriminate; injection Hs as <- <- <- <-; discriminate. }
  unfold split_value. rewrite W. cbn [parse_property].
  destruct L1 as (v1 & L1 & ->). destruct L2 as (v2 & L2 & ->). destruct L3 as (v3 & L3 & ->). destruct L4 as (v4 & L4 & ->).
  destruct s; cbn in Hs; try discriminate; injection Hs as <- <- <- <-; cbn [parse_shorthand parse_longhand] in *; unfold pmap;
    match goal with |- context [parse_four_sides ?p] =>
      rewrite (four_sides_css p toks t1 t2 t3 t4 v1 v2 v3 v4) by (assumption || (first [apply single_lpa|apply single_lp|apply single_line_style|apply single_color|apply single_line_width])) end;
    reflexivity.
Qed.
Lemma split_item ct p name ts ds : property_by_name name = Some p -> split_value ct p ts = Some (ds, []) ->
  item_entries ct (IDecl name (TColon :: ts)) = map (fun d => (d, false)) ds /\ ~ leftover ct (IDecl name (TColon :: ts)).
Proof.
  intros Hn Hs. split.
  - cbn [item_entries]. rewrite Hn, Hs. reflexivity.
  - intros (n & t & p' & ds' & r & Q & Hn' & Hs' & Hr & _). injection Q as <- <-.
    assert (p' = p) by congruence. subst. rewrite Hs in Hs'. injection Hs' as <- <-. congruence.
Qed.
Lemma block_of_item ct i es : item_entries ct i = es -> ~ leftover ct i ->
  exists b, parse_block ct [i] = Ok b /\ entries b = es.
Proof.
  intros E L. destruct (parse_block_ok ct [i]) as (b & B & _ & N).
  - intros j [<-|[]]. exact L.
  - exists b. split; [exact B|]. rewrite N. cbn. rewrite app_nil_r. exact E.
Qed.

(* ------------- border shorthands ------------- *)
Lemma perm3 {A} (a b c : A) l : Permutation [a; b; c] l ->
  l = [a;b;c] \/ l = [a;c;b] \/ l = [b;a;c] \/ l = [b;c;a] \/ l = [c;a;b] \/ l = [c;b;a].
Proof.
  intros P. assert (I : In a l) by (apply (Permutation_in _ P); left; reflexivity).
  apply in_split in I. destruct I as (x & y & ->). apply Permutation_cons_app_inv in P.
  apply Permutation_length_2_inv in P.
  destruct x as [|x1 [|x2 [|x3 x]]]; cbn in P; destruct P as [P|P]; inversion P; subst; cbn; auto 10.
Qed.
Section Border.
Variable ct : token -> option color.
Hypothesis C : colour_contract ct.

Lemma width_not_style t v : parse_line_width [t] = Some (v, []) -> parse_line_style [t] = None.
Proof.
  intros H. destruct (parse_line_style [t]) as [[x r]|] eqn:E; [|reflexivity]. exfalso.
  destruct t as [s| | | | | | | ]; try discriminate. cbn in E, H.
  repeat match type of E with context [if String.eqb s ?k then _ else _] =>
    destruct (String.eqb s k) eqn:?; [match goal with Q : String.eqb s k = true |- _ => apply String.eqb_eq in Q; subst s end;
      vm_compute in H; discriminate|] end.
  discriminate.
Qed.

Definition tstyle (t : token) (v : line_style) := parse_line_style [t] = Some (v, []).
Definition tcolor (t : token) (v : color) := parse_color ct [t] = Some (v, []).
Definition twidth (t : token) (v : lp slength) := parse_line_width [t] = Some (v, []).

Lemma style_step t v : tstyle t v -> forall r, parse_line_style (t :: r) = Some (v, r) /\ parse_color ct (t :: r) = None /\ parse_line_width (t :: r) = None.
Proof.
  intros H r. unfold tstyle in H. split; [apply single_tok; [apply single_line_style|exact H]|]. split.
  - cbn. destruct (ct t) eqn:E; [|reflexivity]. pose proof (cc_not_style ct C _ _ E). congruence.
  - apply single_none with (r := []); [apply single_line_width|].
    destruct (parse_line_width [t]) as [[w r0]|] eqn:E; [|reflexivity].
    destruct (single_head _ _ _ _ _ single_line_width E) as [-> _]. apply width_not_style in E. congruence.
Qed.
Lemma color_step t v : tcolor t v -> forall r, parse_line_style (t :: r) = None /\ parse_color ct (t :: r) = Some (v, r) /\ parse_line_width (t :: r) = None.
Proof.
  intros H r. unfold tcolor in H. cbn in H. destruct (ct t) as [c|] eqn:E; [|discriminate]. injection H as ->. split; [|split].
  - apply single_none with (r := []); [apply single_line_style|]. eapply cc_not_style; eassumption.
  - cbn. rewrite E. reflexivity.
  - apply single_none with (r := []); [apply single_line_width|]. eapply cc_not_width; eassumption.
Qed.
Lemma width_step t v : twidth t v -> forall r, parse_line_style (t :: r) = None /\ parse_color ct (t :: r) = None /\ parse_line_width (t :: r) = Some (v, r).
Proof.
  intros H r. unfold twidth in H. split; [|split].
  - apply single_none with (r := []); [apply single_line_style|]. eapply width_not_style; exact H.
  - cbn. destruct (ct t) eqn:E; [|reflexivity]. pose proof (cc_not_width ct C _ _ E). congruence.
  - apply single_tok; [apply single_line_width|exact H].
Qed.
Definition opt_rel {A B} (R : A -> B -> Prop) (a : option A) (b : option B) : Prop :=
  match a, b with Some x, Some y => R x y | None, None => True | _, _ => False end.
Lemma loop_nil fuel v any : border_side_loop ct fuel v any [] = (v, any, []).
Proof.
  destruct fuel as [|f]; [reflexivity|]. cbn [border_side_loop].
  rewrite (single_nil _ single_line_style), (single_nil _ single_line_width). cbn [parse_color].
  destruct (bs_style v), (bs_color v), (bs_width v); reflexivity.
Qed.
Lemma loop_style f v any t r x : bs_style v = None -> tstyle t x ->
  border_side_loop ct (S f) v any (t :: r) = border_side_loop ct f (BorderSide (Some x) (bs_color v) (bs_width v)) true r.
Proof. intros N H. destruct (style_step t x H r) as (A & B & D). cbn [border_side_loop]. rewrite N, A. reflexivity. Qed.
Lemma loop_color f v any t r x : bs_color v = None -> tcolor t x ->
  border_side_loop ct (S f) v any (t :: r) = border_side_loop ct f (BorderSide (bs_style v) (Some x) (bs_width v)) true r.
Proof.
  intros N H. destruct (color_step t x H r) as (A & B & D). cbn [border_side_loop]. rewrite N, A, B.
  destruct (bs_style v); reflexivity.
Qed.
Lemma loop_width f v any t r x : bs_width v = None -> twidth t x ->
  border_side_loop ct (S f) v any (t :: r) = border_side_loop ct f (BorderSide (bs_style v) (bs_color v) (Some x)) true r.
Proof.
  intros N H. destruct (width_step t x H r) as (A & B & D). cbn [border_side_loop]. rewrite N, A, B, D.
  destruct (bs_style v), (bs_color v); reflexivity.
Qed.
Ltac lp := repeat (first [ erewrite loop_style by (reflexivity || eassumption)
                         | erewrite loop_color by (reflexivity || eassumption)
                         | erewrite loop_width by (reflexivity || eassumption) ]; cbn [bs_style bs_color bs_width]);
           rewrite loop_nil; reflexivity.
Lemma border_side_perm st co wi vs vc vw toks :
  opt_rel tstyle st vs -> opt_rel tcolor co vc -> opt_rel twidth wi vw ->
  Permutation (opt_list st ++ opt_list co ++ opt_list wi) toks -> toks <> [] ->
  parse_border_side ct toks = Some (BorderSide vs vc vw, []).
Proof.
  intros Hs Hc Hw P NE. unfold parse_border_side.
  destruct st as [ts|], vs as [vs|]; cbn in Hs; try tauto;
  destruct co as [tc|], vc as [vc|]; cbn in Hc; try tauto;
  destruct wi as [tw|], vw as [vw|]; cbn in Hw; try tauto; cbn in P;
  try (apply Permutation_nil in P; congruence);
  try (apply Permutation_length_1_inv in P; subst; lp);
  try (apply Permutation_length_2_inv in P; destruct P as [-> | ->]; lp).
  apply perm3 in P. destruct P as [-> | [-> | [-> | [-> | [-> | ->]]]]]; lp.
Qed.

Lemma border_wide st co wi vs vc vw toks :
  opt_rel tstyle st vs -> opt_rel tcolor co vc -> opt_rel twidth wi vw ->
  Permutation (opt_list st ++ opt_list co ++ opt_list wi) toks -> parse_wide toks = None.
Proof.
  intros Hs Hc Hw P. destruct toks as [|t r]; [reflexivity|]. apply single_none with (r := []); [apply single_wide|].
  assert (I : In t (opt_list st ++ opt_list co ++ opt_list wi)) by (apply (Permutation_in _ (Permutation_sym P)); left; reflexivity).
  apply in_app_or in I. destruct I as [I|I]; [|apply in_app_or in I; destruct I as [I|I]].
  - destruct st as [t0|]; [|destruct I]. destruct I as [<-|[]]. destruct vs as [v|]; [|destruct Hs].
    apply (long_not_wide ct Lborder_top_style t0 (DVal Lborder_top_style v) C); [discriminate|]. exists v. auto.
  - destruct co as [t0|]; [|destruct I]. destruct I as [<-|[]]. destruct vc as [v|]; [|destruct Hc].
    apply (long_not_wide ct Lborder_top_color t0 (DVal Lborder_top_color v) C); [discriminate|]. exists v. auto.
  - destruct wi as [t0|]; [|destruct I]. destruct I as [<-|[]]. destruct vw as [v|]; [|destruct Hw].
    apply (long_not_wide ct Lborder_top_width t0 (DVal Lborder_top_width v) C); [discriminate|]. exists v. auto.
Qed.

Definition parts (s : shorthand) (st co wi : option token) : list (longhand * option token) :=
  flat_map (fun x => [(fst (fst x), st); (snd (fst x), co); (snd x, wi)]) (border_longhands s).

Lemma border_split s st co wi vs vc vw toks : border_longhands s <> [] ->
  opt_rel tstyle st vs -> opt_rel tcolor co vc -> opt_rel twidth wi vw ->
  Permutation (opt_list st ++ opt_list co ++ opt_list wi) toks -> toks <> [] ->
  exists ds ds', split_value ct (PShort s) toks = Some (ds, []) /\ Permutation ds ds' /\
    Forall2 (fun lo d => border_part ct (fst lo) (snd lo) d) (parts s st co wi) ds'.
Proof.
  intros B Hs Hc Hw P NE.
  pose proof (border_side_perm st co wi vs vc vw toks Hs Hc Hw P NE) as E.
  pose proof (border_wide st co wi vs vc vw toks Hs Hc Hw P) as W.
  assert (S1 : border_part ct Lborder_top_style st (or_initial Lborder_top_style vs)).
  { destruct st, vs; cbn in Hs; try tauto; cbn; [eexists; split; [exact Hs|reflexivity]|reflexivity]. }
  assert (S2 : border_part ct Lborder_right_style st (or_initial Lborder_right_style vs)).
  { destruct st, vs; cbn in Hs; try tauto; cbn; [eexists; split; [exact Hs|reflexivity]|reflexivity]. }
  assert (S3 : border_part ct Lborder_bottom_style st (or_initial Lborder_bottom_style vs)).
  { destruct st, vs; cbn in Hs; try tauto; cbn; [eexists; split; [exact Hs|reflexivity]|reflexivity]. }
  assert (S4 : border_part ct Lborder_left_style st (or_initial Lborder_left_style vs)).
  { destruct st, vs; cbn in Hs; try tauto; cbn; [eexists; split; [exact Hs|reflexivity]|reflexivity]. }
  assert (C1 : border_part ct Lborder_top_color co (or_initial Lborder_top_color vc)).
  { destruct co, vc; cbn in Hc; try tauto; cbn; [eexists; split; [exact Hc|reflexivity]|reflexivity]. }
  assert (C2 : border_part ct Lborder_right_color co (or_initial Lborder_right_color vc)).
  { destruct co, vc; cbn in Hc; try tauto; cbn; [eexists; split; [exact Hc|reflexivity]|reflexivity]. }
  assert (C3 : border_part ct Lborder_bottom_color co (or_initial Lborder_bottom_color vc)).
  { destruct co, vc; cbn in Hc; try tauto; cbn; [eexists; split; [exact Hc|reflexivity]|reflexivity]. }
  assert (C4 : border_part ct Lborder_left_color co (or_initial Lborder_left_color vc)).
  { destruct co, vc; cbn in Hc; try tauto; cbn; [eexists; split; [exact Hc|reflexivity]|reflexivity]. }
  assert (W1 : border_part ct Lborder_top_width wi (or_initial Lborder_top_width vw)).
  { destruct wi, vw; cbn in Hw; try tauto; cbn; [eexists; split; [exact Hw|reflexivity]|reflexivity]. }
  assert (W2 : border_part ct Lborder_right_width wi (or_initial Lborder_right_width vw)).
  { destruct wi, vw; cbn in Hw; try tauto; cbn; [eexists; split; [exact Hw|reflexivity]|reflexivity]. }
  assert (W3 : border_part ct Lborder_bottom_width wi (or_initial Lborder_bottom_width vw)).
  { destruct wi, vw; cbn in Hw; try tauto; cbn; [eexists; split; [exact Hw|reflexivity]|reflexivity]. }
  assert (W4 : border_part ct Lborder_left_width wi (or_initial Lborder_left_width vw)).
  { destruct wi, vw; cbn in Hw; try tauto; cbn; [eexists; split; [exact Hw|reflexivity]|reflexivity]. }
  unfold split_value. rewrite W. cbn [parse_property].
  destruct s; cbn in B; try congruence; cbn [parse_shorthand]; unfold pmap; rewrite E; cbn [bs_style bs_color bs_width].
  1-4: (eexists; eexists; split; [reflexivity|]; split; [apply Permutation_refl|]; unfold parts; cbn [border_longhands flat_map app fst snd];
        repeat constructor; cbn [fst snd]; assumption).
  exists [or_initial Lborder_top_style vs; or_initial Lborder_right_style vs; or_initial Lborder_bottom_style vs; or_initial Lborder_left_style vs;
          or_initial Lborder_top_color vc; or_initial Lborder_right_color vc; or_initial Lborder_bottom_color vc; or_initial Lborder_left_color vc;
          or_initial Lborder_top_width vw; or_initial Lborder_right_width vw; or_initial Lborder_bottom_width vw; or_initial Lborder_left_width vw].
  exists [or_initial Lborder_top_style vs; or_initial Lborder_top_color vc; or_initial Lborder_top_width vw;
          or_initial Lborder_right_style vs; or_initial Lborder_right_color vc; or_initial Lborder_right_width vw;
          or_initial Lborder_bottom_style vs; or_initial Lborder_bottom_color vc; or_initial Lborder_bottom_width vw;
          or_initial Lborder_left_style vs; or_initial Lborder_left_color vc; or_initial Lborder_left_width vw].
  split; [reflexivity|]. split.
  - clear. generalize (or_initial Lborder_top_style vs) (or_initial Lborder_right_style vs) (or_initial Lborder_bottom_style vs) (or_initial Lborder_left_style vs)
      (or_initial Lborder_top_color vc) (or_initial Lborder_right_color vc) (or_initial Lborder_bottom_color vc) (or_initial Lborder_left_color vc)
      (or_initial Lborder_top_width vw) (or_initial Lborder_right_width vw) (or_initial Lborder_bottom_width vw) (or_initial Lborder_left_width vw).
    intros a1 a2 a3 a4 b1 b2 b3 b4 c1 c2 c3 c4.
    apply perm_skip.
    apply (Permutation_cons_app [b1; c1]). apply (Permutation_cons_app [b1; c1; b2; c2]).
    apply (Permutation_cons_app [b1; c1; b2; c2; b3; c3]). cbn.
    apply perm_skip. apply (Permutation_cons_app [c1]). apply (Permutation_cons_app [c1; c2]).
    apply (Permutation_cons_app [c1; c2; c3]). reflexivity.
  - unfold parts. cbn [border_longhands flat_map app fst snd]. repeat constructor; cbn [fst snd]; assumption.
Qed.
End Border.

(* ------------- keywords ------------- *)
Lemma lower_case_keywords ct : Forall (fun x => forall r, parse_property ct (PLong (fst (fst x))) (TIdent (snd (fst x)) :: r) =
    match fst (fst x), r with Lfont_family, _ :: _ => None | _, _ => Some ([snd x], r) end) keyword_values.
Proof. unfold keyword_values. cbn [app]. repeat apply Forall_cons; try apply Forall_nil; intros [|]; reflexivity. Qed.

(* ------------- units ------------- *)
Lemma unit_unknown v u r : ~ known_unit (lower u) -> parse_length (TDim v u :: r) = None.
Proof.
  intros H. cbn [parse_length].
  repeat match goal with |- (if String.eqb (lower u) ?x then _ else _) = None =>
    let E := fresh in destruct (String.eqb (lower u) x) eqn:E;
    [apply String.eqb_eq in E; exfalso; apply H; rewrite E; first [left; reflexivity|right; eexists; cbn; eauto 10]|] end.
  reflexivity.
Qed.

(* ------------- keyword case ------------- *)
Definition colour_longhand (l : longhand) : bool :=
  match l with
  | Lcolor | Lbackground_color | Lborder_top_color | Lborder_right_color | Lborder_bottom_color | Lborder_left_color => true
  | _ => false
  end.
Lemma keyword_lower_only ct l s v r : l <> Lfont_family -> colour_longhand l = false ->
  parse_longhand ct l (TIdent s :: r) = Some (v, r) -> lower s = s.
Proof.
  intros Hf Hc H. destruct l; try discriminate Hc; try congruence; clear Hf Hc; cbn in H;
  repeat match type of H with context [String.eqb s ?k] =>
    destruct (String.eqb s k) eqn:?; [match goal with Q : String.eqb s k = true |- _ => apply String.eqb_eq in Q; subst s; reflexivity end|] end;
  discriminate.
Qed.
Lemma wide_lower_only s k r : parse_wide (TIdent s :: r) = Some (k, r) -> lower s = s.
Proof.
  intros H. cbn in H.
  repeat match type of H with context [String.eqb s ?k] =>
    destruct (String.eqb s k) eqn:?; [match goal with Q : String.eqb s k = true |- _ => apply String.eqb_eq in Q; subst s; reflexivity end|] end;
  discriminate.
Qed.
Lemma keyword_block ct name l k d : In (l, k, d) keyword_values -> lower name = css_name l ->
  exists b, parse_block ct [IDecl name [TColon; TIdent k]] = Ok b /\ entries b = [(d, false)].
Proof.
  intros H N. pose proof (lower_case_keywords ct) as F. rewrite Forall_forall in F. specialize (F _ H []). cbn [fst snd] in F.
  assert (P : parse_property ct (PLong l) [TIdent k] = Some ([d], [])) by (rewrite F; destruct l; reflexivity).
  assert (B : l <> Lborder_right_color).
  { intros ->. clear -H. cbn in H. repeat (destruct H as [H|H]; [discriminate|]). exact H. }
  apply (css_name_lookup name l B) in N.
  assert (W : parse_wide [TIdent k] = None).
  { clear -H. cbn in H. repeat (destruct H as [H|H]; [inversion H; reflexivity|]). destruct H. }
  assert (S : split_value ct (PLong l) [TIdent k] = Some ([d], [])) by (unfold split_value; rewrite W; exact P).
  destruct (split_item ct _ _ _ _ N S) as [E L]. apply (block_of_item ct _ _ E L).
Qed.
Lemma family_case s t r : lower s = lower t -> (exists k f, In (Lfont_family, k, DVal Lfont_family f) keyword_values /\ lower t = k) ->
  parse_font_family (TIdent s :: r) = parse_font_family (TIdent t :: r).
Proof.
  intros E (k & f & H & K). unfold parse_font_family. replace (family_of_ident s) with (family_of_ident t); [reflexivity|].
  unfold family_of_ident. rewrite E, K.
  assert (Q : (k = "serif" \/ k = "sans-serif" \/ k = "monospace" \/ k = "cursive" \/ k = "fantasy")%string).
  { clear -H. cbn in H. repeat (destruct H as [H|H]; [inversion H; auto 10|]). destruct H. }
  destruct Q as [-> | [-> | [-> | [-> | ->]]]]; reflexivity.
Qed.
Lemma em_conv v u r : lower u = "em"%string -> parse_length (TDim v u :: r) = Some (SEm v, r).
Proof. intros H. cbn [parse_length]. rewrite H. reflexivity. Qed.
End Any.

(* ------------- with exact arithmetic ------------- *)
Lemma ldiv_mul a b : ~ Qeq b 0%Q -> Qeq (this (ldiv a (px b))) (Qdiv (this a) b).
Proof.
  intros H. change (ldiv a (px b)) with (Qcmult a (Qcinv (@px Exact b))). unfold Qcmult, Qcinv. cbn [this Q2Qc]. rewrite !Qred_correct. rewrite this_px. reflexivity.
Qed.
Lemma unit_conv v u f r : In (lower u, f) unit_px -> parse_length (TDim v u :: r) = Some (SAbs (lmul v (px f)), r).
Proof.
  intros H. cbn [unit_px In] in H. cbn [parse_length].
  assert (EQ : forall a b : Len, Qeq (this a) (this b) -> Some (SAbs a, r) = Some (SAbs b, r)) by (intros a b Q; apply Qc_eq_iff in Q; subst; reflexivity).
  destruct H as [H|[H|[H|[H|[H|[H|[]]]]]]]; injection H as H1 H2; rewrite <- H1; cbn [String.eqb Ascii.eqb Bool.eqb]; subst f; apply EQ;
    rewrite ?ldiv_mul by discriminate; autorewrite with qcq; rewrite ?ldiv_mul by discriminate; autorewrite with qcq; try field.
Qed.
Lemma unitless v r :
  (v = l0 -> parse_length (TNumber v :: r) = Some (SAbs l0, r)) /\ (v <> l0 -> parse_length (TNumber v :: r) = None).
Proof.
  split; intros H; cbn [parse_length].
  - subst. reflexivity.
  - destruct (leqb v l0) eqn:E; [|reflexivity]. apply leqb_iff in E. contradiction.
Qed.
Lemma inch r :
  parse_length (TDim (px 1) "in" :: r) = parse_length (TDim (px (254#100)) "cm" :: r) /\
  parse_length (TDim (px 1) "in" :: r) = parse_length (TDim (px (254#10)) "mm" :: r) /\
  parse_length (TDim (px 1) "in" :: r) = parse_length (TDim (px 6) "pc" :: r) /\
  parse_length (TDim (px 1) "in" :: r) = parse_length (TDim (px 72) "pt" :: r) /\
  parse_length (TDim (px 1) "in" :: r) = parse_length (TDim (px 96) "px" :: r).
Proof.
  rewrite (unit_conv (px 1) "in" (96#1)) by (cbn; tauto).
  rewrite (unit_conv _ "cm" (9600#254)) by (cbn; tauto). rewrite (unit_conv _ "mm" (960#254)) by (cbn; tauto).
  rewrite (unit_conv _ "pc" (96#6)) by (cbn; tauto). rewrite (unit_conv _ "pt" (96#72)) by (cbn; tauto).
  rewrite (unit_conv _ "px" (1#1)) by (cbn; tauto).
  repeat split; f_equal; f_equal; f_equal; apply Qc_is_canon; rewrite !this_mul, !this_px; reflexivity.
Qed.
