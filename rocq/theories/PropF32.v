(** Properties in the arithmetic of the code, [f32] (C83, C84). *)
From Coq Require Import SpecFloat Sorting.Permutation.
From Verif Require Import StyleModel StyleSpec StyleExample GeomModel InlineModel BlockModel BlockSpec TreeModel TreeSpec PropTree PropBlock.
From Verif Require Import Base Len DomModel DomSpec UnsetModel CStrModel GfxModel PaintModel PaintSpec PropPaint.
From Verif Require Import TreeInv InlineSpec PropInline PageSpec TextSpec TextProofs PropText F32 F32Facts BlockGen PageProofs.
Local Open Scope string_scope.
Local Open Scope list_scope.
(** From here on lengths are [f32]: rounded, possibly infinite or NaN. *)
Local Existing Instance F32.

(* ------------------------------------------------------------------ *)
(** * C83: text, termination and the absence of panics do not depend on exact arithmetic *)

(** Whatever the numbers in the style sheets, the metrics of the fonts and the size of the page - also if they are
    infinite or NaN or the sums overflow - a document whose boxes can be made is painted to the end, and the ink of
    its text is drawn exactly once (in document order, if nothing is absolutely positioned). *)
Theorem C83_rendered_f32 : forall font_of width_of ct style_of d root page_size r, styles_computed ct style_of ->
  construct_document style_of d root = TreeModel.Done r ->
  exists calls pieces, drawing_calls font_of width_of style_of d root page_size = (calls, Finished) /\
    flat_map text_of calls = map label_of pieces /\
    Permutation (ink (concat pieces)) (ink (document_text (root_style style_of root) (root_kids style_of d root))) /\
    (is_absolutely_positioned (sv (root_style style_of root) Lposition) = false ->
     Forall nothing_absolute (root_kids style_of d root) ->
     ink (concat pieces) = ink (document_text (root_style style_of root) (root_kids style_of d root))).
Proof.
  intros font_of width_of ct style_of d root page r C E.
  destruct (drawn_texts font_of width_of ct style_of d root page r C E) as (pieces & e & H1 & H0 & (_ & H2 & _) & He & t & H3 & H4 & H5).
  exists (fst (drawing_calls font_of width_of style_of d root page)), pieces.
  split; [rewrite <- H0; destruct (drawing_calls _ _ _ _ _ _); reflexivity|]. split; [exact H1|].
  split; [rewrite <- H2, <- (deletes_ink _ _ H3); apply permutation_filter; exact H4|].
  intros A1 A2. rewrite <- H2, <- (deletes_ink _ _ H3), H5; [reflexivity|]. rewrite He.
  apply root_text; [exact A1|]. apply fold_forall. exact A2.
Qed.
Print Assumptions C83_rendered_f32.
(** Layout of any box tree ends with fragments, whatever the numbers in the styles. *)
Theorem C83_layout_f32 : forall m_ascent m_descent m_width b viewport, wf_bfc b ->
  exists fs, layout_root m_ascent m_descent m_width b viewport = Ok fs.
Proof. exact C31_layout_never_fails. Qed.
Print Assumptions C83_layout_f32.
(** Lines are filled as far as the rounded sums allow; text is cut only at break opportunities; unless the width of a
    text is not above the room for it - so if it is NaN - it is broken where it can be. *)
Theorem C83_lines_f32_partial : forall m_ascent m_descent m_width floats c viewport fs, wf_container c ->
  (forall font avail p, fits avail (m_width font (p ++ [sp])) -> fits avail (m_width font p)) ->
  layout_root m_ascent m_descent m_width (BFC floats c) viewport = Ok fs ->
  page_laid_with (fun _ _ _ => True) (fun _ _ _ => True)
    (fun cb _ l lines => exists es pos,
       boxes_events m_width (fun font avail p =>
           fits avail (m_width font p) \/ no_break_char p \/ (exists q, p = q ++ [hyphen] /\ fits avail (m_width font q)))
         (cb_inline cb) l0 l es pos /\ map line_marks lines = cut [] es) viewport c fs.
Proof. exact C37_everywhere_partial. Qed.
Print Assumptions C83_lines_f32_partial.
(** The document of C65_case with margins and padding of 1e39px, which is infinite as an [f32], a font without
    metrics, and a page that is not a number wide: everything but the float is drawn, each paragraph on one line. *)
Definition wild_style (i : nat) (parent : option style) : style :=
  match i with
  | 4%nat => css parent [prop "display" "block"; prop "float" "left"]
  | 6%nat => css parent [prop "display" "block"; prop "position" "absolute"; idecl "left" [TDim (S754_infinity true) "px"]]
  | _ => css parent [prop "display" "block"; idecl "margin" [TDim (S754_infinity false) "px"]; idecl "padding" [TDim (S754_infinity false) "px"]]
  end.
Definition wild_font (st : style) : font := Font "serif" FSNormal FWNormal S754_nan S754_nan S754_nan S754_nan 0.
Example C83_case : styles_computed ex_ct wild_style /\
  (exists r, construct_document wild_style mixed_doc mixed_root = TreeModel.Done r) /\
  flat_map text_of (fst (drawing_calls wild_font ex_width wild_style mixed_doc mixed_root (Vec2 S754_nan (px 100)))) =
    ["hi you"; "end-of"; "up"] /\
  flat_map text_of (fst (drawing_calls ex_font_of ex_width mixed_style mixed_doc mixed_root (Vec2 (px 40) (px 100)))) =
    ["hi"; "you"; "end-"; "of"; "up"].
Proof.
  split.
  { assert (D : forall l parent, (match parse_block ex_ct l with Ok _ => true | _ => false end) = true -> exists (selector : Set) (specificity : selector -> N) (matches : selector -> bool) ua author attr,
      element_style ex_ct specificity matches ua author attr parent (css parent l)).
    { intros l parent H. apply css_computed. cbn [style_for_element]. destruct (parse_block _ _); [reflexivity|discriminate..]. }
    intros i parent. unfold wild_style. do 7 (destruct i as [|i]; [apply D; vm_compute; reflexivity|]). apply D. vm_compute. reflexivity. }
  split.
  { destruct (construct_document wild_style mixed_doc mixed_root) as [r| |] eqn:E; [eexists; reflexivity|exfalso..];
      apply (f_equal (fun o => match o with TreeModel.Done _ => true | _ => false end)) in E; vm_compute in E; discriminate. }
  split; vm_compute; reflexivity.
Qed.

(* ------------------------------------------------------------------ *)
(** * C84: lengths in f32 are rounded *)

(** The number a finite [f32] stands for. *)
Definition number_of (x : f32) : option Q :=
  match x with
  | S754_zero _ => Some 0%Q
  | S754_finite s m e =>
      let z := if s then Zneg m else Zpos m in
      Some (match e with Z0 => inject_Z z | Zpos p => inject_Z (z * 2 ^ Zpos p) | Zneg p => (z # 2 ^ p)%Q end)
  | _ => None
  end.
(** The extents of the only box. *)
Definition inline_numbers (fs : list fragment) : option (option Q * option Q * list (option Q)) :=
  match fs with
  | [FBox _ _ r p bd m _] => Some (number_of (s_inline_start p), number_of (v_inline (r_size r)),
      map number_of [s_inline_end p; s_inline_start bd; s_inline_end bd; s_inline_start m; s_inline_end m])
  | _ => None
  end.
Definition padded : style := css None [prop "display" "block"; idecl "padding-left" [TDim (px (1#10)) "px"]].

(** What the units are multiplied with. *)
Lemma f32_units v r :
  parse_length (TDim v "px" :: r) = Some (SAbs v, r) /\
  parse_length (TDim v "pt" :: r) = Some (SAbs (lmul (ldiv v (px 72)) (px 96)), r) /\
  parse_length (TDim v "in" :: r) = Some (SAbs (lmul v (px 96)), r) /\
  parse_length (TDim v "cm" :: r) = Some (SAbs (ldiv (lmul v (px 96)) (px (254#100))), r) /\
  parse_length (TDim v "mm" :: r) = Some (SAbs (ldiv (lmul v (px 96)) (px (254#10))), r) /\
  parse_length (TDim v "pc" :: r) = Some (SAbs (lmul v (px 16)), r).
Proof. split; [|split; [|split; [|split; [|split]]]]; reflexivity. Qed.
(** The inch of C23 is exact in [f32] ... *)
Theorem C84_inch_f32 : forall r,
  parse_length (TDim (px 1) "in" :: r) = parse_length (TDim (px (254#100)) "cm" :: r) /\
  parse_length (TDim (px 1) "in" :: r) = parse_length (TDim (px (254#10)) "mm" :: r) /\
  parse_length (TDim (px 1) "in" :: r) = parse_length (TDim (px 6) "pc" :: r) /\
  parse_length (TDim (px 1) "in" :: r) = parse_length (TDim (px 72) "pt" :: r) /\
  parse_length (TDim (px 1) "in" :: r) = parse_length (TDim (px 96) "px" :: r) /\
  (exists x, parse_length (TDim (px 1) "in" :: r) = Some (SAbs x, r) /\ number_of x = Some (12582912 # 131072)%Q) /\
  (12582912 # 131072 == 96)%Q.
Proof.
  intros r.
  destruct (f32_units (px 1) r) as (_ & _ & -> & _). destruct (f32_units (px (254#100)) r) as (_ & _ & _ & -> & _).
  destruct (f32_units (px (254#10)) r) as (_ & _ & _ & _ & -> & _). destruct (f32_units (px 6) r) as (_ & _ & _ & _ & _ & ->).
  destruct (f32_units (px 72) r) as (_ & -> & _). destruct (f32_units (px 96) r) as (-> & _).
  assert (E : forall x y : f32, x = y -> Some (@SAbs F32 x, r) = Some (@SAbs F32 y, r)) by (intros x y ->; reflexivity).
  do 5 (split; [apply E; vm_compute; reflexivity|]). split; [|reflexivity].
  eexists. split; [reflexivity|]. vm_compute. reflexivity.
Qed.
Print Assumptions C84_inch_f32.
(** ... but not every length is the same in every unit: 7in is not 17.78cm. *)
Theorem C84_units_refuted : forall r, exists x y,
  parse_length (TDim (px 7) "in" :: r) = Some (SAbs x, r) /\ parse_length (TDim (px (1778#100)) "cm" :: r) = Some (SAbs y, r) /\
  x <> y /\ (7 == (1778#100) * (100#254))%Q.
Proof.
  intros r. eexists. eexists. split; [exact (proj1 (proj2 (proj2 (f32_units _ r))))|]. split; [exact (proj1 (proj2 (proj2 (proj2 (f32_units _ r)))))|].
  split; [vm_compute; discriminate|reflexivity].
Qed.
Print Assumptions C84_units_refuted.
(** The extents of a box need not add up to the width of its containing block: with a padding of 0.1px in 100px of
    room the content is not exactly 99.9px wide. *)
Theorem C84_box_equation_refuted : exists c viewport fs f, wf_container c /\ viewport = Vec2 (px 100) (px 100) /\
  layout_root (fun _ => l0) (fun _ => l0) (fun _ _ => l0) (BFC false c) viewport = Ok fs /\ In f fs /\
  match f with
  | FBox _ _ r p bd m _ =>
      exists q w, number_of (s_inline_start p) = Some q /\ number_of (v_inline (r_size r)) = Some w /\ ~ (q + w == 100)%Q /\
        number_of (s_inline_end p) = Some 0%Q /\ number_of (s_inline_start bd) = Some 0%Q /\ number_of (s_inline_end bd) = Some 0%Q /\
        number_of (s_inline_start m) = Some 0%Q /\ number_of (s_inline_end m) = Some 0%Q
  | _ => False
  end.
Proof.
  set (c := BlockLevelBoxes [SameFC padded (BlockLevelBoxes [])]).
  destruct (C83_layout_f32 (fun _ => l0) (fun _ => l0) (fun _ _ => l0) (BFC false c) (Vec2 (px 100) (px 100))) as (fs & E); [cbn; tauto|].
  assert (O : inline_numbers fs = Some (Some (13421773#134217728), Some (13094093#131072), [Some 0; Some 0; Some 0; Some 0; Some 0])%Q).
  { transitivity (match layout_root (fun _ => l0) (fun _ => l0) (fun _ _ => l0) (BFC false c) (Vec2 (px 100) (px 100)) with Ok fs => inline_numbers fs | _ => None end);
      [rewrite E; reflexivity|vm_compute; reflexivity]. }
  destruct fs as [|[st ch r p bd m cm| |] [|]]; try discriminate O. cbn [inline_numbers] in O. injection O as O1 O2 O3 O4 O5 O6 O7.
  exists c, (Vec2 (px 100) (px 100)). eexists. eexists. split; [cbn; tauto|]. split; [reflexivity|]. split; [exact E|]. split; [left; reflexivity|]. cbv beta iota.
  eexists. eexists. split; [exact O1|]. split; [exact O2|]. split; [vm_compute; discriminate|].
  split; [exact O3|]. split; [exact O4|]. split; [exact O5|]. split; [exact O6|exact O7].
Qed.
Print Assumptions C84_box_equation_refuted.
(** They do add up where they are whole numbers of pixels, up to 2^20 of them. *)
Definition whole (x : f32) (n : Z) : Prop := x = f32_int n /\ (Z.abs n <= 2 ^ 20)%Z.
Definition whole_length (v : lpa Len) : Prop := match v with LPALen l => exists n, whole l n | LPAPct _ => False | LPAAuto => True end.
Definition whole_edge (v : lp Len) : Prop := match v with LPLen l => exists n, whole l n | LPPct _ => False end.
Definition whole_style (st : style) : Prop :=
  whole_length (sv st Lwidth) /\ whole_length (sv st Lmargin_left) /\ whole_length (sv st Lmargin_right) /\
  whole_edge (sv st Lpadding_left) /\ whole_edge (sv st Lpadding_right) /\
  whole_edge (s_inline_start (style_border_width st)) /\ whole_edge (s_inline_end (style_border_width st)).
(** Not centred: half of an odd number of pixels is not whole. *)
Definition not_centred (st : style) : Prop :=
  sv st Lwidth = LPAAuto \/ sv st Lmargin_left <> LPAAuto \/ sv st Lmargin_right <> LPAAuto.
Definition adds_up (cb : cblock) (f : fragment) : Prop :=
  match f with
  | FBox _ _ r p bd m _ => exists ml bl pl w pr br mr : Z,
      s_inline_start m = f32_int ml /\ s_inline_start bd = f32_int bl /\ s_inline_start p = f32_int pl /\
      v_inline (r_size r) = f32_int w /\
      s_inline_end p = f32_int pr /\ s_inline_end bd = f32_int br /\ s_inline_end m = f32_int mr /\
      cb_inline cb = f32_int (ml + bl + pl + w + pr + br + mr)
  | _ => False
  end.
Lemma number_of_int n : small n -> exists q, number_of (f32_int n) = Some q /\ (q == inject_Z n)%Q.
Proof.
  intros S. destruct (Z.eq_dec n 0) as [->|N]; [exists 0%Q; split; reflexivity|].
  destruct (int_form n S N) as (s & p & E & D & ->). unfold number_of.
  destruct (dig p - 24)%Z as [|e|e] eqn:T.
  - eexists. split; [reflexivity|]. rewrite E. unfold Qeq, inject_Z. cbn [Qnum Qden]. unfold up. replace (24 - dig p)%Z with 0%Z by lia. cbn. destruct s; cbn; lia.
  - lia.
  - eexists. split; [reflexivity|]. unfold Qeq, inject_Z. cbn [Qnum Qden]. rewrite E.
    assert (V : Zpos (sh (up p) p) = (Zpos p * Zpos (2 ^ e))%Z) by (rewrite sh_value; f_equal; rewrite Pos2Z.inj_pow; f_equal; unfold up; lia).
    destruct s; cbn [cond_Zopp]; [change (Zneg (sh (up p) p)) with (- Zpos (sh (up p) p))%Z|]; rewrite V; lia.
Qed.
Lemma add_whole a b : small a -> small b -> small (a + b) -> ladd (f32_int a) (f32_int b) = f32_int (a + b).
Proof. exact (int_add a b). Qed.
Lemma sub_whole a b : small a -> small b -> small (a - b) -> lsub (f32_int a) (f32_int b) = f32_int (a - b).
Proof. exact (int_sub a b). Qed.
Ltac sm := unfold small in *; lia.
Lemma zero_whole : (l0 : f32) = f32_int 0. Proof. reflexivity. Qed.
Lemma adds_up_in_flow cb st same fl ch cm : (exists c, whole (cb_inline cb) c) -> whole_style st -> not_centred st ->
  no_forgotten_margin (cb_inline cb) st ->
  adds_up cb (FBox st ch (if_content cb st same fl) (if_padding cb st) (if_border cb st) (if_margin cb st) cm).
Proof.
  intros (c & Ec & Bc) (Hw & Hml & Hmr & Hpl & Hpr & Hbl & Hbr) NC NF. unfold adds_up.
  assert (Pl : s_inline_start (if_padding cb st) = lp_rel (sv st Lpadding_left) (cb_inline cb)) by reflexivity.
  assert (Pr : s_inline_end (if_padding cb st) = lp_rel (sv st Lpadding_right) (cb_inline cb)) by reflexivity.
  assert (Bl : s_inline_start (if_border cb st) = lp_rel (s_inline_start (style_border_width st)) (cb_inline cb)) by reflexivity.
  assert (Br : s_inline_end (if_border cb st) = lp_rel (s_inline_end (style_border_width st)) (cb_inline cb)) by reflexivity.
  destruct (sv st Lpadding_left) as [x|]; [|contradiction]. destruct Hpl as (pl & -> & Bpl). cbn [lp_rel] in Pl.
  destruct (sv st Lpadding_right) as [x|]; [|contradiction]. destruct Hpr as (pr & -> & Bpr). cbn [lp_rel] in Pr.
  destruct (s_inline_start (style_border_width st)) as [x|]; [|contradiction]. destruct Hbl as (bl & -> & Bbl). cbn [lp_rel] in Bl.
  destruct (s_inline_end (style_border_width st)) as [x|]; [|contradiction]. destruct Hbr as (br & -> & Bbr). cbn [lp_rel] in Br.
  assert (PB : inline_sum (if_pb cb st) = f32_int (pl + bl + (pr + br))).
  { unfold inline_sum, if_pb, sides_add. cbn [s_inline_start s_inline_end]. rewrite Pl, Pr, Bl, Br. rewrite !add_whole by sm. reflexivity. }
  assert (Rw : if_computed_inline_size cb st = lpa_rel (sv st Lwidth) (cb_inline cb)) by reflexivity.
  assert (Rml : s_inline_start (sides_lpa_rel (style_margin st) (cb_inline cb)) = lpa_rel (sv st Lmargin_left) (cb_inline cb)) by reflexivity.
  assert (Rmr : s_inline_end (sides_lpa_rel (style_margin st) (cb_inline cb)) = lpa_rel (sv st Lmargin_right) (cb_inline cb)) by reflexivity.
  cbn [if_content r_size v_inline]. unfold if_inline_size. rewrite PB, Pl, Pr, Bl, Br, Ec.
  unfold if_margin. rewrite Rw. unfold solve_inline_margins.
  unfold no_forgotten_margin in NF. unfold not_centred in NC.
  destruct (sv st Lwidth) as [x|x|]; [|contradiction|].
  - destruct Hw as (w & -> & Bw). cbn [lpa_rel auto_is sides_auto_is sides_map]. rewrite Rml, Rmr, PB, Ec.
    destruct (sv st Lmargin_left) as [x|x|]; [|contradiction|]; (destruct (sv st Lmargin_right) as [y|y|]; [|contradiction|]);
      cbn [lpa_rel resolve sides_auto_is sides_map s_inline_start s_inline_end auto_is] in *; destruct NF as [NF|NF]; try discriminate.
    + subst x. rewrite !sub_whole by sm. exists 0%Z, bl, pl, w, pr, br, (c - w - (pl + bl + (pr + br)))%Z. repeat split. f_equal. lia.
    + subst x. rewrite !sub_whole by sm. exists 0%Z, bl, pl, w, pr, br, (c - w - (pl + bl + (pr + br)))%Z. repeat split. f_equal. lia.
    + subst y. rewrite !sub_whole by sm. exists (c - w - (pl + bl + (pr + br)))%Z, bl, pl, w, pr, br, 0%Z. repeat split. f_equal. lia.
    + destruct NC as [NC|[NC|NC]]; congruence.
  - cbn [lpa_rel auto_is]. unfold inline_sum at 1, sides_auto_is, sides_map. cbn [s_inline_start s_inline_end]. rewrite Rml, Rmr, Ec.
    assert (M : forall v, whole_length v -> exists n, auto_is (lpa_rel v (f32_int c)) l0 = f32_int n /\ (Z.abs n <= 2 ^ 20)%Z).
    { intros v Hv. destruct v as [x|x|]; [|contradiction|exists 0%Z; split; [reflexivity|lia]]. destruct Hv as (n & -> & B). exists n. split; [reflexivity|exact B]. }
    destruct (M _ Hml) as (ml & -> & Bml). destruct (M _ Hmr) as (mr & -> & Bmr).
    rewrite add_whole by sm. rewrite !sub_whole by sm.
    exists ml, bl, pl, (c - (pl + bl + (pr + br)) - (ml + mr))%Z, pr, br, mr. repeat split. f_equal. lia.
Qed.
Theorem C84_whole_pixels_partial : forall m_ascent m_descent m_width floats c viewport fs, wf_container c ->
  layout_root m_ascent m_descent m_width (BFC floats c) viewport = Ok fs ->
  everywhere (fun cb b f => (exists n, whole (cb_inline cb) n) -> whole_style (box_style b) -> not_centred (box_style b) ->
      no_forgotten_margin (cb_inline cb) (box_style b) -> adds_up cb f)
    viewport c fs.
Proof.
  intros ma md mw floats c viewport fs W E. eapply page_everywhere; [| | | |exact W|exact E]; try (intros; exact I).
  - intros cb b f d H H1 H2 H3 H4. specialize (H H1 H2 H3 H4). destruct f as [st ch r p bd m cm| |]; try contradiction. exact H.
  - intros b cb rank abs fl f abs' _ Hb Eb. destruct b as [st c0|st c0|st c0|st c0]; try discriminate; cbn [layout_blb] in Eb; apply in_flow_inv in Eb;
      destruct Eb as (fl1 & abs1 & extra & _ & -> & _); cbn [box_style]; intros; apply adds_up_in_flow; assumption.
Qed.
Print Assumptions C84_whole_pixels_partial.
(** [f32_int n] is the number n, if it is below 2^24. *)
Theorem C84_whole_numbers : forall n, (Z.abs n < 2 ^ 24)%Z -> exists q, number_of (f32_int n) = Some q /\ (q == inject_Z n)%Q.
Proof. exact number_of_int. Qed.
Print Assumptions C84_whole_numbers.
(** A box 50px wide with padding of 10px and 5px on the left and the right and a left margin of 0, in 100px. *)
Definition whole_box : style := css None [prop "display" "block"; idecl "width" [TDim (px 50) "px"];
  idecl "padding-left" [TDim (px 10) "px"]; idecl "padding-right" [TDim (px 5) "px"]].
Example C84_case : whole_style whole_box /\ not_centred whole_box /\ no_forgotten_margin (px 100) whole_box /\ whole (px 100) 100 /\
  match layout_root (fun _ => l0) (fun _ => l0) (fun _ _ => l0) (BFC false (BlockLevelBoxes [SameFC whole_box (BlockLevelBoxes [])])) (Vec2 (px 100) (px 100)) with
  | Ok [FBox _ _ _ _ _ m _] => number_of (s_inline_end m) = Some (9175040 # 262144)%Q
  | _ => False
  end.
Proof.
  assert (W : forall n, (Z.abs n <= 2 ^ 20)%Z -> exists k, whole (f32_int n) k) by (intros n H; exists n; split; [reflexivity|exact H]).
  assert (V1 : sv whole_box Lwidth = LPALen (f32_int 50)) by (vm_cast_no_check (@eq_refl (vty Lwidth) (LPALen (f32_int 50)))).
  assert (V2 : sv whole_box Lmargin_left = LPALen (f32_int 0)) by (vm_cast_no_check (@eq_refl (vty Lmargin_left) (LPALen (f32_int 0)))).
  assert (V3 : sv whole_box Lmargin_right = LPALen (f32_int 0)) by (vm_cast_no_check (@eq_refl (vty Lmargin_right) (LPALen (f32_int 0)))).
  split; [|split; [|split; [|split; [split; [vm_compute; reflexivity|lia]|]]]].
  - assert (C : forall v n, v = LPALen (f32_int n) -> (Z.abs n <= 2 ^ 20)%Z -> whole_length v) by (intros v n -> H; exact (W n H)).
    assert (D : forall v n, v = LPLen (f32_int n) -> (Z.abs n <= 2 ^ 20)%Z -> whole_edge v) by (intros v n -> H; exact (W n H)).
    split; [apply (C _ 50%Z); [exact V1|lia]|].
    split; [apply (C _ 0%Z); [exact V2|lia]|]. split; [apply (C _ 0%Z); [exact V3|lia]|].
    split; [apply (D _ 10%Z); [vm_cast_no_check (@eq_refl (vty Lpadding_left) (LPLen (f32_int 10)))|lia]|].
    split; [apply (D _ 5%Z); [vm_cast_no_check (@eq_refl (vty Lpadding_left) (LPLen (f32_int 5)))|lia]|].
    split; (apply (D _ 0%Z); [vm_cast_no_check (@eq_refl (vty Lpadding_left) (LPLen (f32_int 0)))|lia]).
  - right. left. rewrite V2. discriminate.
  - right. rewrite V2. reflexivity.
  - vm_compute. reflexivity.
Qed.
