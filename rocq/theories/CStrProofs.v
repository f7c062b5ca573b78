From Verif Require Import CStrModel GfxSpec GfxProofs.
Local Open Scope N_scope.
Local Open Scope outcome_scope.
Ltac bcases := repeat match goal with
  | |- context [?a <? ?b] => destruct (N.ltb_spec a b); try lia
  | |- context [?a <=? ?b] => destruct (N.leb_spec a b); try lia
  | |- context [?a =? ?b] => destruct (N.eqb_spec a b); try lia
  end.

Lemma split2 c : exists a d, c / 64 = a /\ c mod 64 = d /\ c = a * 64 + d /\ d < 64.
Proof. exists (c / 64), (c mod 64). pose proof (N.div_mod c 64). pose proof (N.mod_lt c 64). lia. Qed.
Lemma split3 c : exists a b d, c / 4096 = a /\ (c / 64) mod 64 = b /\ c mod 64 = d /\ c = a * 4096 + b * 64 + d /\ b < 64 /\ d < 64.
Proof.
  exists (c / 4096), ((c / 64) mod 64), (c mod 64). repeat (split; [reflexivity|]).
  pose proof (N.div_mod c 64). pose proof (N.mod_lt c 64). pose proof (N.div_mod (c / 64) 64). pose proof (N.mod_lt (c / 64) 64).
  assert (c / 64 / 64 = c / 4096) as E by (rewrite N.div_div by lia; reflexivity). rewrite E in *. lia.
Qed.
Lemma split4 c : exists e a b d, c / 262144 = e /\ (c / 4096) mod 64 = a /\ (c / 64) mod 64 = b /\ c mod 64 = d /\
  c = e * 262144 + a * 4096 + b * 64 + d /\ a < 64 /\ b < 64 /\ d < 64.
Proof.
  destruct (split3 c) as (a & b & d & E1 & E2 & E3 & E4 & E5 & E6).
  exists (c / 262144), ((c / 4096) mod 64), b, d. repeat (split; [reflexivity || assumption|]).
  pose proof (N.div_mod (c / 4096) 64). pose proof (N.mod_lt (c / 4096) 64).
  assert (c / 4096 / 64 = c / 262144) as E by (rewrite N.div_div by lia; reflexivity). rewrite E in *. lia.
Qed.

Lemma next_encode c r : is_scalar c = true -> utf8_next (utf8_char c ++ r) = Some (c, r).
Proof.
  unfold is_scalar, utf8_char. intros H.
  destruct (N.ltb_spec c 128) as [|G1].
  { cbn. bcases. reflexivity. }
  destruct (N.ltb_spec c 2048) as [|G2].
  { destruct (split2 c) as (a & d & -> & -> & E & D). cbn [app utf8_next]. unfold rng, cont. bcases; cbn [andb]; f_equal; f_equal; lia. }
  destruct (N.ltb_spec c 65536) as [|G3].
  { destruct (split3 c) as (a & b & d & -> & -> & -> & E & B & D). cbn [app utf8_next]. unfold rng, cont.
    destruct (N.ltb_spec (224 + a) 128); [lia|].
    destruct (N.leb_spec 194 (224 + a)); [|lia]. destruct (N.leb_spec (224 + a) 223); [lia|]. cbn [andb].
    match goal with |- (if ?t then _ else _) = _ => assert (t = true) as -> end.
    { destruct (N.ltb_spec c 55296); cbn [orb] in H.
      - clear H. bcases; reflexivity.
      - apply andb_true_iff in H as [H _]. apply N.leb_le in H. bcases; reflexivity. }
    bcases; cbn [andb]; f_equal; f_equal; lia. }
  destruct (N.ltb_spec c 55296); [lia|]. cbn [orb] in H. apply andb_true_iff in H as [_ H]. apply N.ltb_lt in H.
  destruct (split4 c) as (e & a & b & d & -> & -> & -> & -> & E & A & B & D). cbn [app utf8_next]. unfold rng, cont.
  destruct (N.ltb_spec (240 + e) 128); [lia|].
  destruct (N.leb_spec 194 (240 + e)); [|lia]. destruct (N.leb_spec (240 + e) 223); [lia|]. cbn [andb].
  match goal with |- (if ?t then _ else _) = _ => assert (t = false) as -> by (clear - H G3 E A B D; bcases; reflexivity) end.
  match goal with |- (if ?t then _ else _) = _ => assert (t = true) as -> by (clear - H G3 E A B D; bcases; reflexivity) end.
  bcases; cbn [andb]; f_equal; f_equal; lia.
Qed.

Lemma utf8_char_length c : length (utf8_char c) = utf8_len c.
Proof. unfold utf8_char, utf8_len. bcases; reflexivity. Qed.

Lemma from_utf8_encode s : forallb is_scalar s = true -> forall n, (length (utf8 s) <= n)%nat -> from_utf8_fuel n (utf8 s) = Some s.
Proof.
  induction s as [|c s IH]; intros H n L; cbn [utf8 flat_map] in *.
  - destruct n; reflexivity.
  - cbn [forallb] in H. apply andb_true_iff in H as [Hc Hs]. rewrite app_length in L.
    pose proof (utf8_char_length c) as Lc. assert (1 <= utf8_len c)%nat as Pos by (unfold utf8_len; bcases; lia).
    destruct n as [|n]; [lia|]. cbn [from_utf8_fuel].
    destruct (utf8_char c ++ flat_map utf8_char s) as [|b bs] eqn:E.
    { apply app_eq_nil in E as [E _]. rewrite E in Lc. cbn in Lc. lia. }
    rewrite <- E, (next_encode c _ Hc). fold (utf8 s). rewrite IH; [reflexivity|exact Hs|]. fold (utf8 s) in L. lia.
Qed.
Lemma utf8_roundtrip s : forallb is_scalar s = true -> from_utf8 (utf8 s) = Some s.
Proof. intros H. apply from_utf8_encode; [exact H|reflexivity]. Qed.

Lemma nul_char c : existsb (fun b => b =? 0) (utf8_char c) = (c =? 0).
Proof. unfold utf8_char. destruct (N.eqb_spec c 0) as [->|]; [reflexivity|]. bcases; cbn [existsb];
  generalize (c / 64) ((c / 64) mod 64) (c mod 64) (c / 4096) ((c / 4096) mod 64) (c / 262144); intros; bcases; reflexivity. Qed.
Lemma nul_utf8 s : existsb (fun b => b =? 0) (utf8 s) = existsb (fun c => c =? 0) s.
Proof.
  induction s as [|c s IH]; [reflexivity|]. cbn [utf8 flat_map]. rewrite existsb_app, nul_char. fold (utf8 s). rewrite IH. reflexivity.
Qed.
Lemma until_nul_id bs : existsb (fun b => b =? 0) bs = false -> until_nul (bs ++ [0]) = bs.
Proof.
  induction bs as [|b bs IH]; [reflexivity|]. cbn [existsb app until_nul]. intros H. apply orb_false_iff in H as [-> H].
  rewrite IH by exact H. reflexivity.
Qed.
Lemma no_nul_iff s : existsb (fun c : N => c =? 0) s = false <-> ~ In 0%N s.
Proof.
  split.
  - intros H I. assert (existsb (fun c : N => c =? 0) s = true) as E by (apply existsb_exists; exists 0; auto). congruence.
  - intros H. destruct (existsb (fun c : N => c =? 0) s) eqn:E; [|reflexivity]. apply existsb_exists in E as (x & I & X).
    apply N.eqb_eq in X. subst. contradiction.
Qed.

Lemma c_roundtrip m s : forallb is_scalar s = true -> ~ In 0%N s ->
  exists p m', str_to_cstring m s = (Some p, m') /\ cstring_to_str m' (Some p) = Done (Some s) /\
    (forall q, q <> p -> nth_error m' q = nth_error m q) /\
    exists m'', sinab_free_cstring m' (Some p) = Done m'' /\ (forall q, q <> p -> nth_error m'' q = nth_error m q) /\
      cstring_to_str m'' (Some p) = Dangling.
Proof.
  intros S N. apply no_nul_iff in N. unfold str_to_cstring. rewrite nul_utf8, N.
  exists (length m), (m ++ [Some (utf8 s)]). split; [reflexivity|].
  assert (nth_error (m ++ [Some (utf8 s)]) (length m) = Some (Some (utf8 s))) as E by (rewrite nth_error_app2, Nat.sub_diag by lia; reflexivity).
  assert (forall q, q <> length m -> nth_error (m ++ [Some (utf8 s)]) q = nth_error m q) as O.
  { intros q Hq. destruct (Nat.lt_ge_cases q (length m)); [apply nth_error_app1; exact H|].
    rewrite (proj2 (nth_error_None m q)) by lia. apply nth_error_None. rewrite app_length; cbn. lia. }
  split; [|split].
  - unfold cstring_to_str. rewrite E, until_nul_id by (rewrite nul_utf8; exact N). rewrite utf8_roundtrip by exact S. reflexivity.
  - exact O.
  - unfold sinab_free_cstring. rewrite E. eexists; split; [reflexivity|]. split.
    + intros q Hq. rewrite upd_nth. destruct (Nat.eqb_spec (length m) q); [congruence|]. apply O. exact Hq.
    + unfold cstring_to_str. rewrite upd_nth, Nat.eqb_refl, E. reflexivity.
Qed.
Lemma c_nul m s : In 0%N s -> str_to_cstring m s = (None, m).
Proof.
  intros I. unfold str_to_cstring. rewrite nul_utf8.
  destruct (existsb (fun c : N => c =? 0) s) eqn:E; [reflexivity|]. apply no_nul_iff in E. contradiction.
Qed.

(** labels *)
Lemma utf8_bytes s : forallb is_scalar s = true -> forall b, In b (utf8 s) -> b < 256.
Proof.
  intros H b I. unfold utf8 in I. apply in_flat_map in I as (c & Ic & Ib).
  rewrite forallb_forall in H. apply H in Ic. unfold is_scalar in Ic. unfold utf8_char in Ib.
  apply orb_true_iff in Ic. rewrite andb_true_iff, !N.ltb_lt, N.leb_le in Ic.
  destruct (split2 c) as (a1 & d1 & E1 & E2 & E3 & E4), (split3 c) as (a2 & b2 & d2 & F1 & F2 & F3 & F4 & F5 & F6),
    (split4 c) as (e & a & b3 & d & G1 & G2 & G3 & G4 & G5 & G6 & G7 & G8).
  rewrite G2, F2, E2, F1, G1, E1 in Ib. destruct (c <? 128) eqn:L1; [|destruct (c <? 2048) eqn:L2; [|destruct (c <? 65536) eqn:L3]];
    rewrite ?N.ltb_lt, ?N.ltb_ge in *; cbn [In] in Ib; repeat destruct Ib as [Ib|Ib]; try contradiction; subst b; lia.
Qed.
Lemma label_nul t : forallb is_scalar t = true -> ~ In 0%N t -> has_nul (label_of t) = false.
Proof.
  intros S H. apply no_nul_iff in H. rewrite <- nul_utf8 in H. unfold label_of.
  pose proof (utf8_bytes t S) as B. revert H B. generalize (utf8 t) as bs.
  induction bs as [|b bs IH]; [reflexivity|]. cbn [existsb bytes_string has_nul]. intros E B. apply orb_false_iff in E as [E1 E2].
  apply N.eqb_neq in E1.
  destruct (Ascii.eqb_spec (ascii_of_N b) zero) as [Z|_].
  - exfalso. apply E1. rewrite <- (N_ascii_embedding b) by (apply B; left; reflexivity). rewrite Z. reflexivity.
  - apply IH; [exact E2|]. intros b' I. apply B. right. exact I.
Qed.
