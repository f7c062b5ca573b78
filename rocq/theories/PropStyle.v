(** Properties of the style engine (C09-C19, C22-C24). *)
From Coq Require Import Permutation.
From Verif Require Import StyleModel StyleSpec StyleCascade StyleWinner StyleParse StyleFacts StyleExample.
From Verif Require Import GfxModel.

(** C09.  [candidates] lists every valid declaration of every rule whose selector matches and of the style
    attribute; [wins] picks the one nothing outranks; [adjusted] is the identity except for border widths
    (C12) and display (C13). *)
Theorem C09_winner_takes_effect {ar : Arith} :
  forall selector (ct : token -> option color) (specificity : selector -> N) (matches : selector -> bool)
         ua author attr parent s,
  element_style ct specificity matches ua author attr parent s ->
  forall c, wins (candidates ct specificity matches ua author attr) c ->
  sv s (decl_longhand (c_decl c)) =
  adjusted s (decl_longhand (c_decl c)) (decl_value (parent_or_initial parent) (sv s Lfont_size) (c_decl c)).
Proof. exact (fun sel ct sp m ua au at_ p s H c W => top_winner ct sel sp m ua au at_ p s H c W). Qed.
Print Assumptions C09_winner_takes_effect.
Theorem C09_winner_exists_and_is_unique {ar : Arith} :
  forall selector (ct : token -> option color) (specificity : selector -> N) (matches : selector -> bool)
         ua author attr parent s,
  element_style ct specificity matches ua author attr parent s ->
  (forall l, undeclared (candidates ct specificity matches ua author attr) l \/
     exists c, wins (candidates ct specificity matches ua author attr) c /\ decl_longhand (c_decl c) = l) /\
  (forall c c', wins (candidates ct specificity matches ua author attr) c ->
     wins (candidates ct specificity matches ua author attr) c' ->
     decl_longhand (c_decl c) = decl_longhand (c_decl c') -> c = c').
Proof.
  exact (fun sel ct sp m ua au at_ p s H => conj (fun l => top_exists ct sel sp m ua au at_ p s H l)
           (fun c c' W W' E => wins_unique _ c c' W W' E)).
Qed.
Print Assumptions C09_winner_exists_and_is_unique.
Example C09_case :
  element_style ex_ct N.of_nat ex_matches ex_ua ex_author (Some ex_attr) (Some ex_parent) ex_style /\
  wins (candidates ex_ct N.of_nat ex_matches ex_ua ex_author (Some ex_attr)) ex_color_winner /\
  sv ex_style Lcolor = ex_red.
Proof.
  split; [exact ex_element_style|]. split; [exact ex_color_wins|].
  exact (C09_winner_takes_effect _ _ _ _ _ _ _ _ _ ex_element_style _ ex_color_wins).
Qed.

(** C10 *)
Theorem C10_inherited_property_without_declaration {ar : Arith} :
  forall selector (ct : token -> option color) (specificity : selector -> N) (matches : selector -> bool)
         ua author attr parent s,
  element_style ct specificity matches ua author attr (Some parent) s ->
  forall l, In l css_inherited -> undeclared (candidates ct specificity matches ua author attr) l -> sv s l = sv parent l.
Proof. exact (fun sel ct sp m ua au at_ p s H l I U => inherits ct sp m ua au at_ (Some p) s H l I U). Qed.
Print Assumptions C10_inherited_property_without_declaration.
Theorem C10_other_property_without_declaration {ar : Arith} :
  forall selector (ct : token -> option color) (specificity : selector -> N) (matches : selector -> bool)
         ua author attr parent s,
  element_style ct specificity matches ua author attr parent s ->
  forall l, ~ In l css_inherited -> undeclared (candidates ct specificity matches ua author attr) l ->
  sv s l = adjusted s l (initial_value l).
Proof. exact (fun sel ct sp m ua au at_ p s H l I U => takes_initial ct sp m ua au at_ p s H l I U). Qed.
Print Assumptions C10_other_property_without_declaration.
Theorem C10_root {ar : Arith} :
  forall selector (ct : token -> option color) (specificity : selector -> N) (matches : selector -> bool)
         ua author attr s,
  element_style ct specificity matches ua author attr None s ->
  forall l, In l css_inherited -> undeclared (candidates ct specificity matches ua author attr) l -> sv s l = initial_value l.
Proof. exact (fun sel ct sp m ua au at_ s H l I U => inherits ct sp m ua au at_ None s H l I U). Qed.
Print Assumptions C10_root.
Theorem C10_wide_keywords {ar : Arith} :
  forall selector (ct : token -> option color) (specificity : selector -> N) (matches : selector -> bool)
         ua author attr parent s,
  element_style ct specificity matches ua author attr parent s ->
  forall c l k, wins (candidates ct specificity matches ua author attr) c -> c_decl c = DWide l k ->
  sv s l = adjusted s l (match k with
                         | KInitial => initial_value l
                         | KInherit => sv (parent_or_initial parent) l
                         | KUnset => if in_dec longhand_eq_dec l css_inherited
                                     then sv (parent_or_initial parent) l else initial_value l
                         end).
Proof. exact (fun sel ct sp m ua au at_ p s H c l k W E => wide_winner ct sp m ua au at_ p s H c l k W E). Qed.
Print Assumptions C10_wide_keywords.
Theorem C10_wide_keyword_sets_every_longhand {ar : Arith} : forall (ct : token -> option color) name longhands keyword w,
  In (lower name, longhands) css_properties -> lower name <> "border-right-color"%string -> In (keyword, w) wide_keywords ->
  exists b, parse_block ct [IDecl name [TColon; TIdent keyword]] = Ok b /\
    Permutation (entries b) (map (fun l => (DWide l w, false)) longhands).
Proof. exact wide_named. Qed.
Print Assumptions C10_wide_keyword_sets_every_longhand.
Theorem C10_anonymous_boxes {ar : Arith} : forall parent l,
  sv (anonymous_inheriting_from parent) l =
  adjusted (anonymous_inheriting_from parent) l
    (if in_dec longhand_eq_dec l css_inherited then sv (parent_or_initial parent) l else initial_value l).
Proof. exact anonymous_value. Qed.
Print Assumptions C10_anonymous_boxes.
Example C10_case : sv ex_style Ltext_align = TACenter /\ sv ex_style Lposition = PosStatic.
Proof.
  split.
  - exact (C10_inherited_property_without_declaration _ _ _ _ _ _ _ _ _ ex_element_style Ltext_align
             ltac:(cbn; tauto) (proj1 ex_undeclared)).
  - exact (C10_other_property_without_declaration _ _ _ _ _ _ _ _ _ ex_element_style Lposition
             ltac:(cbn; intuition discriminate) (proj2 ex_undeclared)).
Qed.
Example C10_shorthand_case : exists b, parse_block ex_ct [IDecl "BORDER" [TColon; TIdent "inherit"]] = Ok b /\ length (entries b) = 12.
Proof.
  eexists. split; [vm_compute; reflexivity|reflexivity].
Qed.

(** C11 *)
Theorem C11_font_size_em {ar : Arith} : forall selector (ct : token -> option color) (specificity : selector -> N)
    (matches : selector -> bool) ua author attr parent s,
  element_style ct specificity matches ua author attr parent s ->
  forall c v, wins (candidates ct specificity matches ua author attr) c -> c_decl c = DVal Lfont_size (SEm v) ->
  sv s Lfont_size = (sv (parent_or_initial parent) Lfont_size * v)%len.
Proof. exact (fun sel ct sp m ua au at_ p s H => fs_em ct sp m ua au at_ p s H). Qed.
Print Assumptions C11_font_size_em.
Theorem C11_other_em {ar : Arith} : forall selector (ct : token -> option color) (specificity : selector -> N)
    (matches : selector -> bool) ua author attr parent s,
  element_style ct specificity matches ua author attr parent s ->
  forall c l v, wins (candidates ct specificity matches ua author attr) c -> c_decl c = DVal l v ->
  sv s l = adjusted s l (computed (parent_or_initial parent) (sv s Lfont_size) l v).
Proof. exact (fun sel ct sp m ua au at_ p s H => own_value ct sp m ua au at_ p s H). Qed.
Print Assumptions C11_other_em.
(** Two ways of writing the rules in which every property has the same winning declaration give the same style. *)
Theorem C11_only_winners_matter {ar : Arith} :
  forall sel1 sel2 ct (sp1 : sel1 -> N) (sp2 : sel2 -> N) m1 m2 ua1 au1 ua2 au2 at1 at2 parent s1 s2,
  element_style ct sp1 m1 ua1 au1 at1 parent s1 -> element_style ct sp2 m2 ua2 au2 at2 parent s2 ->
  (forall l,
     (undeclared (candidates ct sp1 m1 ua1 au1 at1) l /\ undeclared (candidates ct sp2 m2 ua2 au2 at2) l) \/
     exists c1 c2, wins (candidates ct sp1 m1 ua1 au1 at1) c1 /\ wins (candidates ct sp2 m2 ua2 au2 at2) c2 /\
       c_decl c1 = c_decl c2 /\ decl_longhand (c_decl c1) = l) ->
  same_style s1 s2.
Proof. exact (@only_winners_matter _). Qed.
Print Assumptions C11_only_winners_matter.
Example C11_case : sv ex_style Lfont_size = px 20 /\ sv ex_style Lwidth = LPALen (px 100).
Proof. split; vm_compute; reflexivity. Qed.

(** C12 *)
Theorem C12_no_border_no_width {ar : Arith} : forall selector (ct : token -> option color) (specificity : selector -> N)
    (matches : selector -> bool) ua author attr parent s,
  element_style ct specificity matches ua author attr parent s ->
  (sv s Lborder_top_style = LSNone -> sv s Lborder_top_width = LPLen l0) /\
  (sv s Lborder_right_style = LSNone -> sv s Lborder_right_width = LPLen l0) /\
  (sv s Lborder_bottom_style = LSNone -> sv s Lborder_bottom_width = LPLen l0) /\
  (sv s Lborder_left_style = LSNone -> sv s Lborder_left_width = LPLen l0).
Proof. exact (fun sel ct sp m ua au at_ p s H => border_zero ct sp m ua au at_ p s H). Qed.
Print Assumptions C12_no_border_no_width.
Theorem C12_border_keeps_its_width {ar : Arith} : forall selector (ct : token -> option color) (specificity : selector -> N)
    (matches : selector -> bool) ua author attr parent s,
  element_style ct specificity matches ua author attr parent s ->
  (forall c st, wins (candidates ct specificity matches ua author attr) c ->
     governing_style s (decl_longhand (c_decl c)) = Some st -> st <> LSNone ->
     sv s (decl_longhand (c_decl c)) = decl_value (parent_or_initial parent) (sv s Lfont_size) (c_decl c)) /\
  (forall l st, governing_style s l = Some st -> st <> LSNone ->
     undeclared (candidates ct specificity matches ua author attr) l -> sv s l = initial_value l).
Proof.
  exact (fun sel ct sp m ua au at_ p s H => conj
    (fun c st W G N => border_declared ct sp m ua au at_ p s H c W (ex_intro _ st (conj G N)))
    (fun l st G N U => border_default ct sp m ua au at_ p s H l (ex_intro _ st (conj G N)) U)).
Qed.
Print Assumptions C12_border_keeps_its_width.
Example C12_case : sv ex_style Lborder_top_style = LSSolid /\ sv ex_style Lborder_top_width = LPLen (px 3) /\
  sv initial_style Lborder_top_style = LSNone.
Proof. split; [vm_compute; reflexivity|]. split; [|reflexivity]. vm_compute. reflexivity. Qed.

(** C13 *)
Theorem C13_out_of_flow_is_block_level {ar : Arith} : forall selector (ct : token -> option color) (specificity : selector -> N)
    (matches : selector -> bool) ua author attr parent s,
  element_style ct specificity matches ua author attr parent s ->
  sv s Ldisplay = (if out_of_flow_dec s then block_level (s_specified_display s) else s_specified_display s).
Proof. exact (fun sel ct sp m ua au at_ p s H => display_value ct sp m ua au at_ p s H). Qed.
Print Assumptions C13_out_of_flow_is_block_level.
Theorem C13_specified_display_is_remembered {ar : Arith} : forall selector (ct : token -> option color) (specificity : selector -> N)
    (matches : selector -> bool) ua author attr parent s,
  element_style ct specificity matches ua author attr parent s ->
  (forall c v, wins (candidates ct specificity matches ua author attr) c ->
     declared_display (parent_or_initial parent) (c_decl c) = Some v -> s_specified_display s = v) /\
  (undeclared (candidates ct specificity matches ua author attr) Ldisplay -> s_specified_display s = DispBox OInline IFlow).
Proof.
  exact (fun sel ct sp m ua au at_ p s H => conj (specified_winner ct sp m ua au at_ p s H)
                                                 (specified_undeclared ct sp m ua au at_ p s H)).
Qed.
Print Assumptions C13_specified_display_is_remembered.
Example C13_case : sv ex_style Lfloat = FloatLeft /\ s_specified_display ex_style = DispBox OInline IFlow /\
  sv ex_style Ldisplay = DispBox OBlock IFlow.
Proof. repeat split; vm_compute; reflexivity. Qed.

(** C14 *)
Theorem C14_four_sides {ar : Arith} : forall (ct : token -> option color) name top rgt bot lft toks t1 t2 t3 t4 d1 d2 d3 d4,
  colour_contract ct -> In (lower name, (top, rgt, bot, lft)) four_sided ->
  css_sides toks t1 t2 t3 t4 ->
  long_value ct top t1 d1 -> long_value ct rgt t2 d2 -> long_value ct bot t3 d3 -> long_value ct lft t4 d4 ->
  exists b, parse_block ct [IDecl name (TColon :: toks)] = Ok b /\
    Permutation (entries b) [(d1, false); (d2, false); (d3, false); (d4, false)].
Proof. exact four_sides_named. Qed.
Print Assumptions C14_four_sides.
Example C14_case :
  colour_contract ex_ct /\ In (lower "Margin", (Lmargin_top, Lmargin_right, Lmargin_bottom, Lmargin_left)) four_sided /\
  css_sides [TNumber l0; TIdent "auto"; TPercent (px 5)] (TNumber l0) (TIdent "auto") (TPercent (px 5)) (TIdent "auto") /\
  long_value ex_ct Lmargin_left (TIdent "auto") (DVal Lmargin_left LPAAuto).
Proof.
  split; [exact ex_ct_contract|]. split; [left; reflexivity|]. split; [constructor|]. exists LPAAuto. split; reflexivity.
Qed.

(** C15 *)
Theorem C15_border_parts_in_any_order {ar : Arith} : forall (ct : token -> option color) name sides style_t color_t width_t toks,
  colour_contract ct -> In (lower name, sides) border_sided ->
  (forall t, style_t = Some t -> exists v, parse_line_style [t] = Some (v, [])) ->
  (forall t, color_t = Some t -> exists v, parse_color ct [t] = Some (v, [])) ->
  (forall t, width_t = Some t -> exists v, parse_line_width [t] = Some (v, [])) ->
  Permutation (opt_list style_t ++ opt_list color_t ++ opt_list width_t) toks -> toks <> [] ->
  exists b ds, parse_block ct [IDecl name (TColon :: toks)] = Ok b /\
    Permutation (entries b) (map (fun d => (d, false)) ds) /\
    Forall2 (fun lo d => border_part ct (fst lo) (snd lo) d)
      (flat_map (fun x => [(fst (fst x), style_t); (snd (fst x), color_t); (snd x, width_t)]) sides) ds.
Proof. exact border_named. Qed.
Print Assumptions C15_border_parts_in_any_order.
Example C15_case : exists b, parse_block ex_ct [IDecl "border-top" [TColon; TDim (px 2) "px"; TIdent "solid"]] = Ok b /\
  map fst (entries b) = [DVal Lborder_top_style LSSolid; DWide Lborder_top_color KInitial; DVal Lborder_top_width (LPLen (SAbs (px 2)))].
Proof. eexists. split; vm_compute; reflexivity. Qed.

(** C16 *)
Theorem C16_flags_never_hide_a_declaration {ar : Arith} : forall (ct : token -> option color) b, parsed ct b ->
  forall phase inherited this,
  cascade_normal phase inherited this b = cascade_normal phase inherited this (never_skipped b) /\
  cascade_important phase inherited this b = cascade_important phase inherited this (never_skipped b).
Proof. exact never_skipped_eq. Qed.
Print Assumptions C16_flags_never_hide_a_declaration.
Theorem C16_every_declaration_is_applied {ar : Arith} : forall (ct : token -> option color) b, parsed ct b ->
  forall phase inherited this,
  cascade_normal phase inherited this b =
    fold_left (ph_cascade phase inherited) (map fst (filter (fun e => negb (snd e)) (entries b))) this /\
  cascade_important phase inherited this b =
    fold_left (ph_cascade phase inherited) (map fst (filter snd (entries b))) this.
Proof. exact parsed_cascade. Qed.
Print Assumptions C16_every_declaration_is_applied.
Example C16_case : exists b, parsed ex_ct b /\ b_any_normal b = Phases false true /\ b_any_important b = Phases true false.
Proof.
  eexists. split; [exists [idecl "width" [TIdent "auto"]; idecl "font-size" [TDim (px 2) "em"; TDelim "!"; TIdent "important"]]; vm_compute; reflexivity|].
  split; vm_compute; reflexivity.
Qed.

(** C17.  Full statement: every block parses to the valid declarations in it. *)
Theorem C17_refuted {ar : Arith} : exists items, forall ct : token -> option color, parse_block ct items = Panic.
Proof. exact leftover_witness. Qed.
Print Assumptions C17_refuted.
(** What is missing: blocks with a declaration whose value is followed by tokens other than `!important`. *)
Theorem C17_invalid_declarations_are_ignored_partial {ar : Arith} : forall (ct : token -> option color) items,
  (forall i, In i items -> ~ leftover ct i) ->
  exists b, parse_block ct items = Ok b /\ entries b = flat_map (item_entries ct) items.
Proof.
  exact (fun ct items H => match parse_block_ok ct items H with
    ex_intro _ b (conj E (conj _ N)) => ex_intro _ b (conj E N) end).
Qed.
Print Assumptions C17_invalid_declarations_are_ignored_partial.
Theorem C17_leftover_aborts {ar : Arith} : forall (ct : token -> option color) items,
  (exists i, In i items /\ leftover ct i) <-> parse_block ct items = Panic.
Proof. exact leftover_iff. Qed.
Print Assumptions C17_leftover_aborts.
Theorem C17_styles_are_always_computed_partial {ar : Arith} : forall selector (ct : token -> option color) (specificity : selector -> N)
    (matches : selector -> bool) ua author attr parent,
  (forall sels items i, In (RStyle sels items) (concat ua ++ concat author) -> In i items -> ~ leftover ct i) ->
  (forall items i, attr = Some items -> In i items -> ~ leftover ct i) ->
  exists s, element_style ct specificity matches ua author attr parent s.
Proof. exact (fun sel ct sp m ua au at_ p H Ha => style_always ct sp m ua au at_ p H Ha). Qed.
Print Assumptions C17_styles_are_always_computed_partial.
Example C17_case : exists b,
  parse_block ex_ct [idecl "color" [TIdent "red"]; IBad; idecl "colour" [TIdent "red"]; IDecl "width" [TIdent "auto"];
                     idecl "width" [TNumber (px 5)]; idecl "height" [TIdent "auto"]] = Ok b /\
  entries b = [(DVal Lcolor (CRGBA ex_red), false); (DVal Lheight LPAAuto, false)].
Proof. eexists. split; vm_compute; reflexivity. Qed.

(** C18.  Full statement: every longhand is found under its CSS name. *)
Theorem C18_refuted : exists l, property_by_name (css_name l) = None.
Proof. exact name_witness. Qed.
Print Assumptions C18_refuted.
(** What is missing: border-right-color, which is registered as border-color-right. *)
Theorem C18_names_partial : forall name l, l <> Lborder_right_color ->
  (property_by_name name = Some (PLong l) <-> lower name = css_name l).
Proof. exact css_name_lookup. Qed.
Print Assumptions C18_names_partial.
Theorem C18_property_names_partial : forall name ls, In (lower name, ls) css_properties -> lower name <> "border-right-color"%string ->
  exists p, property_by_name name = Some p /\ Permutation ls (property_longhands p).
Proof.
  exact (fun name ls H N => match css_property_found name ls H N with
    ex_intro _ p (conj E P) => ex_intro _ p (conj (name_found name p E) P) end).
Qed.
Print Assumptions C18_property_names_partial.
Example C18_case : property_by_name "Border-Left-COLOR" = Some (PLong Lborder_left_color).
Proof. reflexivity. Qed.

(** C19.  Full statement: every keyword is accepted in any case. *)
Theorem C19_refuted {ar : Arith} : exists l k d k', In (l, k, d) keyword_values /\ lower k' = k /\
  forall ct : token -> option color, exists b, parse_block ct [IDecl (css_name l) [TColon; TIdent k']] = Ok b /\ entries b = [].
Proof. exact upper_case_witness. Qed.
Print Assumptions C19_refuted.
(** What is missing: keywords with upper-case letters (only lower-case spelling is accepted, next theorem). *)
Theorem C19_lower_case_keywords_partial {ar : Arith} : forall (ct : token -> option color) name l k d,
  In (l, k, d) keyword_values -> lower name = css_name l ->
  exists b, parse_block ct [IDecl name [TColon; TIdent k]] = Ok b /\ entries b = [(d, false)].
Proof. exact keyword_block. Qed.
Print Assumptions C19_lower_case_keywords_partial.
Theorem C19_only_lower_case {ar : Arith} : forall (ct : token -> option color) l s v r,
  l <> Lfont_family -> colour_longhand l = false ->
  (parse_longhand ct l (TIdent s :: r) = Some (v, r) -> lower s = s) /\
  (forall k, parse_wide (TIdent s :: r) = Some (k, r) -> lower s = s).
Proof. exact (fun ct l s v r F C => conj (keyword_lower_only ct l s v r F C) (fun k => wide_lower_only s k r)). Qed.
Print Assumptions C19_only_lower_case.
Theorem C19_generic_families_any_case {ar : Arith} : forall (ct : token -> option color) s t r, lower s = lower t ->
  (exists k f, In (Lfont_family, k, DVal Lfont_family f) keyword_values /\ lower t = k) ->
  parse_longhand ct Lfont_family (TIdent s :: r) = parse_longhand ct Lfont_family (TIdent t :: r).
Proof. exact (fun ct => family_case). Qed.
Print Assumptions C19_generic_families_any_case.
Example C19_case : In (Lwhite_space, "pre-wrap"%string, DVal Lwhite_space WSPreWrap) keyword_values.
Proof. cbn. tauto. Qed.

(** C22.  Full statement: `value !important` is an important declaration of the value, for every property. *)
Theorem C22_refuted {ar : Arith} : exists name ts, forall ct : token -> option color,
  (exists b, parse_block ct [IDecl name (TColon :: ts)] = Ok b /\ entries b = [(DVal Lfont_family FamSerif, false)]) /\
  (exists b, parse_block ct [IDecl name (TColon :: ts ++ [TDelim "!"; TIdent "important"])] = Ok b /\ entries b = []).
Proof. exact family_important_witness. Qed.
Print Assumptions C22_refuted.
(** What is missing: font-family. *)
Theorem C22_important_partial {ar : Arith} : forall (ct : token -> option color) p name ts ds s,
  (forall c, ct (TDelim c) = None) -> p <> PLong Lfont_family ->
  lower name = property_name p -> split_value ct p ts = Some (ds, []) -> lower s = "important"%string ->
  exists b, parse_block ct [IDecl name (TColon :: ts ++ [TDelim "!"; TIdent s])] = Ok b /\
    entries b = map (fun d => (d, true)) ds.
Proof. exact important_block. Qed.
Print Assumptions C22_important_partial.
Example C22_case : split_value ex_ct (PShort Sborder) [TIdent "red"; TIdent "solid"] <> None.
Proof. vm_compute. discriminate. Qed.

(** C23 *)
Theorem C23_absolute_units : forall v u f r, In (lower u, f) unit_px ->
  parse_length (TDim v u :: r) = Some (SAbs (v * px f)%len, r).
Proof. exact unit_conv. Qed.
Print Assumptions C23_absolute_units.
Theorem C23_em {ar : Arith} : forall v u r, lower u = "em"%string -> parse_length (TDim v u :: r) = Some (SEm v, r).
Proof. exact em_conv. Qed.
Print Assumptions C23_em.
Theorem C23_unknown_units_rejected {ar : Arith} : forall v u r, ~ known_unit (lower u) -> parse_length (TDim v u :: r) = None.
Proof. exact unit_unknown. Qed.
Print Assumptions C23_unknown_units_rejected.
Theorem C23_unitless : forall v r,
  (v = l0 -> parse_length (TNumber v :: r) = Some (SAbs l0, r)) /\ (v <> l0 -> parse_length (TNumber v :: r) = None).
Proof. exact unitless. Qed.
Print Assumptions C23_unitless.
Theorem C23_inch : forall r,
  parse_length (TDim (px 1) "in" :: r) = parse_length (TDim (px (254#100)) "cm" :: r) /\
  parse_length (TDim (px 1) "in" :: r) = parse_length (TDim (px (254#10)) "mm" :: r) /\
  parse_length (TDim (px 1) "in" :: r) = parse_length (TDim (px 6) "pc" :: r) /\
  parse_length (TDim (px 1) "in" :: r) = parse_length (TDim (px 72) "pt" :: r) /\
  parse_length (TDim (px 1) "in" :: r) = parse_length (TDim (px 96) "px" :: r).
Proof. exact inch. Qed.
Print Assumptions C23_inch.
Example C23_case : In (lower "Pt", (96#72)%Q) unit_px /\ ~ known_unit (lower "vw").
Proof.
  split; [cbn; tauto|]. intros [H|[f H]]; [discriminate|]. cbn in H.
  repeat (destruct H as [H|H]; [discriminate|]). destruct H.
Qed.

(** C24 *)
Theorem C24_currentcolor_of_color {ar : Arith} : forall selector (ct : token -> option color) (specificity : selector -> N)
    (matches : selector -> bool) ua author attr parent s,
  element_style ct specificity matches ua author attr parent s ->
  forall c, wins (candidates ct specificity matches ua author attr) c -> c_decl c = DVal Lcolor CCurrent ->
  sv s Lcolor = sv (parent_or_initial parent) Lcolor.
Proof. exact (fun sel ct sp m ua au at_ p s H => currentcolor_own ct sp m ua au at_ p s H). Qed.
Print Assumptions C24_currentcolor_of_color.
Theorem C24_currentcolor_elsewhere {ar : Arith} : forall selector (ct : token -> option color) (specificity : selector -> N)
    (matches : selector -> bool) ua author attr parent s,
  element_style ct specificity matches ua author attr parent s ->
  (forall c l, In l [Lborder_top_color; Lborder_right_color; Lborder_bottom_color; Lborder_left_color; Lbackground_color] ->
     wins (candidates ct specificity matches ua author attr) c -> decl_longhand (c_decl c) = l ->
     forall v, colour_of_decl (c_decl c) = Some v ->
     option_map (to_rgba s) (colour_of_style s l) =
       Some (match v with CCurrent => sv s Lcolor | CRGBA r => r end)) /\
  (forall l, In l [Lborder_top_color; Lborder_right_color; Lborder_bottom_color; Lborder_left_color] ->
     undeclared (candidates ct specificity matches ua author attr) l ->
     option_map (to_rgba s) (colour_of_style s l) = Some (sv s Lcolor)).
Proof. exact (fun sel ct sp m ua au at_ p s H => colours_elsewhere ct sp m ua au at_ p s H). Qed.
Print Assumptions C24_currentcolor_elsewhere.
Example C24_case : to_rgba ex_style (sv ex_style Lborder_left_color) = ex_red.
Proof. vm_compute. reflexivity. Qed.
