(** C78: sharing style structs between elements cannot be observed. *)
From Verif Require Import Base Len StyleModel ShareModel ShareSpec ShareProofs.
Local Open Scope list_scope.
Local Open Scope result_scope.

(** C78.  For every history of making styles (inheriting from live ones) and dropping them: nothing freed is ever
    touched, and every live style has exactly the values it would have if every style were a private copy. *)
Theorem C78_as_if_private : forall os, exists w, world_run world0 os = Ok w /\
  length (w_styles w) = length (private_run [Some initial_style] os) /\
  forall i, match nth_error (w_styles w) i, nth_error (private_run [Some initial_style] os) i with
            | Some (Some c), Some (Some s) => same (view (w_heap w) c) s
            | Some None, Some None | None, None => True
            | _, _ => False
            end.
Proof.
  intros os. destruct (run_ok os world0 _ rel0) as (w & E & _ & _ & L & H). exists w. split; [exact E |]. now split.
Qed.
Print Assumptions C78_as_if_private.

(** Making or dropping a style changes no other: a style alive before and after has the same values before and after. *)
Theorem C78_others_unchanged : forall os o w w' i c c', world_run world0 os = Ok w -> world_op w o = Ok w' ->
  nth_error (w_styles w) i = Some (Some c) -> nth_error (w_styles w') i = Some (Some c') ->
  same (view (w_heap w') c') (view (w_heap w) c).
Proof.
  intros os o w w' i c c' E Eo Hi Hi'. destruct (run_ok os world0 _ rel0) as (w1 & E1 & HR).
  assert (w1 = w) by congruence. subst w1. destruct (op_ok w _ o HR) as (w2 & E2 & HR').
  assert (w2 = w') by congruence. subst w2. set (v := private_run [Some initial_style] os) in *.
  destruct HR as (_ & _ & _ & H). destruct HR' as (_ & _ & _ & H'). specialize (H i). specialize (H' i). rewrite Hi in H. rewrite Hi' in H'.
  destruct (nth_error v i) as [[s|]|] eqn:Ev; try easy. destruct (nth_error (private_op v o) i) as [[s'|]|] eqn:Ev'; try easy.
  assert (s' = s).
  { assert (Hlt : (i < length v)%nat) by (apply nth_error_Some; congruence).
    destruct o as [[j|] m | [|j]]; cbn [private_op] in Ev'.
    - destruct (nth_error v j) as [[?|]|]; try congruence. rewrite nth_error_app1 in Ev' by assumption. congruence.
    - rewrite nth_error_app1 in Ev' by assumption. congruence.
    - congruence.
    - rewrite nth_forget in Ev'. destruct (Nat.eqb (Datatypes.S j) i); rewrite Ev in Ev'; congruence. }
  subst s'. destruct H as [A B], H' as [A' B']. split; [intros l; now rewrite A, A' | now rewrite B, B'].
Qed.
Print Assumptions C78_others_unchanged.

(** Memory is freed exactly when the last style using it is dropped: the count of every struct is the number of pointers
    live styles hold to it. *)
Theorem C78_no_leak : forall os w, world_run world0 os = Ok w ->
  forall a x, nth_error (w_heap w) a = Some x -> rc x = count_occ Nat.eq_dec (pointers (w_styles w)) a.
Proof.
  intros os w E. destruct (run_ok os world0 _ rel0) as (w1 & E1 & (H & _) & _). assert (w1 = w) by congruence. now subst w1.
Qed.
Print Assumptions C78_no_leak.

(** A parent with a colour, two children (one with a font size, one floating), the first of which is dropped.  The
    children share the parent's colour and the second still shares its font. *)
Definition with_decl (d : decl) : option matching :=
  Some (Matching [] [Block [d] [false] no_phase (Phases true true)]).
Definition family : list op :=
  [New None (with_decl (DVal Lcolor (CRGBA transparent)));
   New (Some 1) (with_decl (DVal Lfont_size (SEm (px 2))));
   New (Some 1) (with_decl (DVal Lfloat FloatLeft));
   Drop 2].
Example C78_case : exists w p c, world_run world0 family = Ok w /\
  nth_error (w_styles w) 1 = Some (Some p) /\ nth_error (w_styles w) 2 = Some None /\ nth_error (w_styles w) 3 = Some (Some c) /\
  ptr c Gcolor = ptr p Gcolor /\ ptr c Gfont = ptr p Gfont /\ ptr c Gbox <> ptr p Gbox /\
  sv (view (w_heap w) c) Lcolor = transparent /\
  sv (view (w_heap w) c) Ldisplay = DispBox OBlock IFlow /\ sv (view (w_heap w) p) Ldisplay = DispBox OInline IFlow.
Proof.
  destruct (world_run world0 family) as [w| |] eqn:E; [|vm_compute in E; discriminate E|vm_compute in E; discriminate E].
  exists w. vm_compute in E. injection E as <-. cbn [w_styles nth_error]. do 2 eexists.
  split; [reflexivity |]. repeat (split; [reflexivity |]). split; [vm_compute; discriminate |]. now repeat split.
Qed.
