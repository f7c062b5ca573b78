(** A concrete element with two sheets and a style attribute. *)
From Verif Require Import StyleModel StyleSpec StyleCascade StyleWinner StyleParse StyleFacts.
From Verif Require Import GfxModel.
Local Open Scope string_scope.

Definition ex_red : rgba := RGBA "255" "000" "000" "255".
Definition ex_blue : rgba := RGBA "000" "000" "255" "255".
Definition ex_ct {ar : Arith} (t : token) : option color :=
  match t with
  | TIdent s => if String.eqb (lower s) "red" then Some (CRGBA ex_red)
                else if String.eqb (lower s) "blue" then Some (CRGBA ex_blue)
                else if String.eqb (lower s) "currentcolor" then Some CCurrent else None
  | _ => None
  end.
Lemma ex_ct_contract : colour_contract ex_ct.
Proof.
  assert (L : forall t c, ex_ct t = Some c -> exists s, t = TIdent s /\ (lower s = "red" \/ lower s = "blue" \/ lower s = "currentcolor")).
  { intros t c H. destruct t as [s| | | | | | |]; try discriminate. exists s. split; [reflexivity|]. cbn in H.
    destruct (String.eqb (lower s) "red") eqn:E1; [apply String.eqb_eq in E1; auto|].
    destruct (String.eqb (lower s) "blue") eqn:E2; [apply String.eqb_eq in E2; auto|].
    destruct (String.eqb (lower s) "currentcolor") eqn:E3; [apply String.eqb_eq in E3; auto|]. discriminate. }
  assert (K : forall A (u : list (string * A)) s, (forall n v, In (n, v) u -> lower (kebab n) <> lower s) -> lookup_variant s u = None).
  { intros A u s H. destruct (lookup_variant s u) as [v|] eqn:E; [|reflexivity]. apply lookup_variant_in in E.
    destruct E as (n & Hn & ->). exfalso. exact (H n v Hn eq_refl). }
  constructor; try reflexivity; intros t c H; destruct (L t c H) as (s & -> & Hs).
  all: unfold parse_line_style, parse_line_width, parse_wide, derive_parse, keyword; cbn [fold_right].
  - rewrite K; [reflexivity|]. intros n v Hn. cbn in Hn.
    destruct Hs as [->|[->| ->]]; repeat (destruct Hn as [Hn|Hn]; [injection Hn as <- <-; vm_compute; discriminate|]); destruct Hn.
  - unfold try_or. cbn [parse_lp derive_parse fold_right pmap parse_length parse_percentage try_or keyword lookup_variant].
    unfold parse_lp, derive_parse, try_or, pmap. cbn. destruct (String.eqb s "thin") eqn:E1;
      [apply String.eqb_eq in E1; subst; destruct Hs as [Hs|[Hs|Hs]]; discriminate|].
    destruct (String.eqb s "medium") eqn:E2; [apply String.eqb_eq in E2; subst; destruct Hs as [Hs|[Hs|Hs]]; discriminate|].
    destruct (String.eqb s "thick") eqn:E3; [apply String.eqb_eq in E3; subst; destruct Hs as [Hs|[Hs|Hs]]; discriminate|]. reflexivity.
  - rewrite K; [reflexivity|]. intros n v Hn. cbn in Hn.
    destruct Hs as [->|[->| ->]]; repeat (destruct Hn as [Hn|Hn]; [injection Hn as <- <-; vm_compute; discriminate|]); destruct Hn.
Qed.

Definition idecl {ar : Arith} (n : string) (ts : list token) : item := IDecl n (TColon :: ts).
(** user agent: p { display: block; margin: 1em 0; color: blue }
    author: #b { color: blue; width: 3em; color } .a { font-size: 2em; color: red !important; border: solid }
    style attribute: float: left; width: 5em *)
Definition ex_ua : list (list (rule nat)) :=
  [[RStyle [1] [idecl "display" [TIdent "inline"]; idecl "margin" [TDim (px 1) "em"; TNumber l0]; idecl "color" [TIdent "blue"]]]].
Definition ex_author : list (list (rule nat)) :=
  [[RStyle [100; 7] [idecl "color" [TIdent "blue"]; idecl "width" [TDim (px 3) "EM"]; IDecl "color" []; IBad];
    RErr];
   [RStyle [10] [idecl "font-size" [TDim (px 2) "em"]; idecl "color" [TIdent "red"; TDelim "!"; TIdent "Important"];
                 idecl "border" [TIdent "solid"]; idecl "no-such" [TIdent "x"]]]].
Definition ex_attr : list item := [idecl "float" [TIdent "left"]; idecl "width" [TDim (px 5) "em"]].
Definition ex_matches (n : nat) : bool := negb (Nat.eqb n 7).
Definition ex_parent : style := set_sv (set_sv initial_style Lfont_size (px 10)) Ltext_align TACenter.
Definition ex_result : result style :=
  bind (add_stylesheets ex_ct nat [] ex_ua) (fun u =>
  bind (add_stylesheets ex_ct nat [] ex_author) (fun a =>
  style_for_element ex_ct nat (finish nat N.of_nat u) (finish nat N.of_nat a) ex_matches (Some ex_attr) (Some ex_parent))).
Definition ex_style : style := match ex_result with Ok s => s | _ => initial_style end.
Lemma ex_result_ok : exists s, ex_result = Ok s.
Proof.
  destruct ex_result eqn:E; [eauto| |]; exfalso;
  assert (H : match ex_result with Ok _ => true | _ => false end = true) by (vm_compute; reflexivity); rewrite E in H; discriminate.
Qed.
Lemma ex_element_style : element_style ex_ct N.of_nat ex_matches ex_ua ex_author (Some ex_attr) (Some ex_parent) ex_style.
Proof.
  destruct ex_result_ok as (s & E). unfold ex_style. rewrite E. unfold ex_result in E.
  destruct (add_stylesheets ex_ct nat [] ex_ua) as [u| |] eqn:Eu; try discriminate. cbn [bind] in E.
  destruct (add_stylesheets ex_ct nat [] ex_author) as [a| |] eqn:Ea; try discriminate. cbn [bind] in E.
  exists u, a. auto.
Qed.
Definition ex_cands : list cand := candidates ex_ct N.of_nat ex_matches ex_ua ex_author (Some ex_attr).
Definition ex_color_winner : cand := Cand false true (Some 10%N) 2 1 (DVal Lcolor (CRGBA ex_red)).
Definition ex_width_winner : cand := Cand false false None 0 1 (DVal Lwidth (LPALen (SEm (px 5)))).
Lemma ex_cands_eq : ex_cands = ltac:(let x := eval vm_compute in ex_cands in exact x).
Proof. vm_compute. reflexivity. Qed.
Lemma ex_color_wins : wins ex_cands ex_color_winner.
Proof.
  rewrite ex_cands_eq. split.
  - cbn [In]. unfold ex_color_winner, ex_red. repeat (first [left; reflexivity|right]).
  - intros c' H. cbn [In] in H. repeat (destruct H as [<-|H]; [cbn; intros E; try discriminate E;
      first [left; reflexivity|right; unfold outranks; cbn; lia]|]). destruct H.
Qed.
Lemma ex_width_wins : wins ex_cands ex_width_winner.
Proof.
  rewrite ex_cands_eq. split.
  - cbn [In]. unfold ex_width_winner. repeat (first [left; vm_compute; reflexivity|right]).
  - intros c' H. cbn [In] in H. repeat (destruct H as [<-|H]; [cbn; intros E; try discriminate E;
      first [left; vm_compute; reflexivity|right; unfold outranks; cbn; first [lia|right; split; [reflexivity|left; exact I]]]|]). destruct H.
Qed.
Lemma ex_undeclared : undeclared ex_cands Ltext_align /\ undeclared ex_cands Lposition.
Proof.
  rewrite ex_cands_eq. split; intros c' H; cbn [In] in H; repeat (destruct H as [<-|H]; [cbn; discriminate|]); destruct H.
Qed.
