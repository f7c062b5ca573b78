(** A concrete reachable document used to show that the hypotheses of the document properties are met:
    <!doctype><html><style>p</style><!-- --><p id=x>ab<b></b></p></html> *)
From Coq Require Import List Arith Lia Bool NArith String Relations.
From Verif Require Import Base DomModel DomSpec DomFacts.
Import ListNotations.
Local Open Scope nat_scope.

Definition html_name (s : string) : qname := QName html_ns s.
Definition ex_ops : list op :=
  [ OAppendDoctype                                            (* 2 *)
  ; OCreateElement (html_name "html") []                      (* 3 *)
  ; OAppend 1 (CNode 3)
  ; OCreateElement (html_name "style") []                     (* 4 *)
  ; OAppend 3 (CNode 4)
  ; OAppend 4 (CText (txt "p"))                               (* 5 *)
  ; OCreateElement (html_name "p") [Attr (QName "" "id") "x"] (* 6 *)
  ; OAppend 3 (CNode 6)
  ; OAppend 6 (CText (txt "a"))                               (* 7 *)
  ; OAppend 6 (CText (txt "b"))
  ; OCreateElement (html_name "b") []                         (* 8 *)
  ; OAppend 6 (CNode 8)
  ; OCreateComment                                            (* 9 *)
  ; OAppendBefore 6 (CNode 9) ].
Definition ex_doc : doc := match run doc_new ex_ops with Ok d => d | _ => doc_new end.

(** A sufficient boolean test for [allowed] (only childless nodes are inserted). *)
Definition nodeb (d : doc) (i : nat) : bool := (1 <=? i) && (i <? length (nodes d)).
Definition leafb (d : doc) (k : nat) : bool :=
  match nth_error (nodes d) k with Some n => is_none (n_first n) | None => false end.
Definition okb (d : doc) (o : op) : bool :=
  match o with
  | OCreateElement _ _ | OCreateComment | OCreatePI | OAppendDoctype => true
  | OAppend p c =>
    nodeb d p && match c with
                 | CNode k => nodeb d k && negb (Nat.eqb k 1) && negb (Nat.eqb k p) && leafb d k
                 | CText _ => true
                 end
  | OAppendBefore s c =>
    nodeb d s && negb (is_none (parent_of d s)) &&
      match c with
      | CNode k => nodeb d k && negb (Nat.eqb k 1) && negb (Nat.eqb k s) && leafb d k
      | CText _ => true
      end
  | ORemove t => nodeb d t
  | _ => false
  end.
Fixpoint okrun (d : doc) (ops : list op) : bool :=
  match ops with
  | [] => true
  | o :: os => okb d o && match step d o with Ok d1 => okrun d1 os | _ => false end
  end.

Lemma nodeb_spec d i : nodeb d i = true -> node_of d i.
Proof. unfold nodeb. rewrite andb_true_iff, Nat.leb_le, Nat.ltb_lt. auto. Qed.
Lemma leafb_spec d k p : reach d -> leafb d k = true -> ~ below d k p.
Proof.
  intros Hd H. apply not_below_leaf; [exact Hd|]. unfold leafb in H.
  destruct (nth_error (nodes d) k) as [n|] eqn:E; [|discriminate]. exists n. split; [exact E|].
  destruct (n_first n); [discriminate|constructor].
Qed.
Ltac bools := repeat match goal with
  | H : (_ && _)%bool = true |- _ => apply andb_true_iff in H; destruct H
  | H : negb _ = true |- _ => apply negb_true_iff in H
  | H : Nat.eqb _ _ = false |- _ => apply Nat.eqb_neq in H
  | H : nodeb _ _ = true |- _ => apply nodeb_spec in H
  end.
Lemma okb_allowed d o : reach d -> okb d o = true -> allowed d o.
Proof.
  intros Hd. destruct o as [name attrs| | |p c|sib c|e p c| |t attrs|t|n p]; cbn [okb allowed]; intros H; try exact I; try discriminate; bools.
  - split; [assumption|]. destruct c; [|exact I]. bools. auto using leafb_spec.
  - split.
    + destruct (parent_of d sib) as [q|] eqn:Ep; [|discriminate]. exists q.
      assert (node_of d q) as Hq.
      { destruct (reach_links d Hd) as [_ _ _ _ H5]. unfold parent_of in Ep. destruct (nth_error (nodes d) sib) as [n|] eqn:En; [|discriminate].
        destruct (H5 sib n q En Ep) as (m & Hm & _). split; [|apply nth_error_Some; congruence].
        destruct q; [|lia]. exfalso. destruct (reach_good d Hd) as (s & HR & HW).
        assert (DomForest.a_parent s sib = Some 0) as E0.
        { rewrite <- (DomTraverse.parent_of_rep d s sib HR HW). 2:{ rewrite <- (DomForest.rep_count _ _ HR). apply nth_error_Some. congruence. }
          unfold parent_of. rewrite En. exact Ep. }
        apply DomProofs.a_parent_Some in E0. destruct (DomForest.wf_range _ HW _ _ E0) as [[H6 _] _]. lia. }
      destruct (reach_kids d q Hd Hq) as (l & Hl & _ & Hin). exists l. split; [exact Hl|]. apply Hin. auto.
    + destruct c; [|exact I]. bools. auto using leafb_spec.
  - assumption.
Qed.
Lemma okrun_reach ops : forall d d', reach d -> okrun d ops = true -> run d ops = Ok d' -> reach d'.
Proof.
  induction ops as [|o ops IH]; intros d d' Hd Hok Hr; cbn [run okrun] in *.
  - injection Hr as <-. exact Hd.
  - apply andb_true_iff in Hok. destruct Hok as [Ho Hok].
    destruct (step d o) as [d1| |] eqn:Es; try discriminate. cbn [bind] in Hr.
    apply (IH d1); [|exact Hok|exact Hr]. eapply reach_step; [exact Hd|apply okb_allowed; [exact Hd|exact Ho]|exact Es].
Qed.

Lemma ex_reach : reach ex_doc.
Proof. apply (okrun_reach ex_ops doc_new); [apply reach_new|vm_compute; reflexivity|vm_compute; reflexivity]. Qed.

Lemma ex_reparent : reach ex_doc /\ allowed ex_doc (OReparent 6 4) /\ kids ex_doc 6 [7; 8] /\ kids ex_doc 4 [5] /\
  forall d', step ex_doc (OReparent 6 4) = Ok d' -> ~ (kids d' 4 ([5] ++ [7; 8]) /\ kids d' 6 []).
Proof.
  split; [exact ex_reach|]. split; [|split; [kids_tac|split; [kids_tac|]]].
  - split; [node_tac|]. split; [node_tac|]. split; [discriminate|].
    apply (not_below_step ex_doc 6 4 3); [exact ex_reach|vm_compute; reflexivity|discriminate|].
    apply (not_below_step ex_doc 6 3 1); [exact ex_reach|vm_compute; reflexivity|discriminate|].
    apply not_below_root; [exact ex_reach|vm_compute; reflexivity].
  - intros d' E [_ H2].
    assert (match step ex_doc (OReparent 6 4) with Ok d1 => read_kids d1 6 = Ok [8] | _ => True end) as Hk by (vm_compute; reflexivity).
    rewrite E in Hk. apply read_kids_ok in Hk. pose proof (kids_fun _ _ _ _ H2 Hk). discriminate.
Qed.
