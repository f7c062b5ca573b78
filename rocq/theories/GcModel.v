(** Model of the use the C code makes of R's memory: /repo/src/r_callbacks.c, /repo/src/render_device.c,
    /repo/src/render_markdown.c, /repo/src/markdown.c.  R's garbage collector may run whenever R allocates, and
    may then free every object that is not reachable from a root.  Definitions only. *)
From Coq Require Export List Arith Bool Lia.
Export ListNotations.
Local Open Scope list_scope.

(* ------------------------------------------------------------------ *)
(** * R's heap (the part of R that is assumed, "Writing R Extensions", 5.9.1) *)

(** An object: [Vec] are vectors, pairlists and calls built by C; [Env] is everything R code may change behind our
    back (environments and what they hold).  [o_refs] are its slots, None is R_NilValue; [o_attrs] its attributes.
    SIMPLIFICATION: a call of n cells is one object with n slots; tags are symbols, which are never collected, and
    are left out; so are the characters and numbers in a vector. *)
(** external: R's memory manager, as called in render_device.c:4-242, r_callbacks.c:3-262, markdown.c:7-22, render_markdown.c:9-29 *)
Inductive kind := Vec | Env.
(** external: R's memory manager, as called in render_device.c:4-242, r_callbacks.c:3-262, markdown.c:7-22, render_markdown.c:9-29 *)
Record obj := Obj { o_kind : kind; o_refs : list (option nat); o_attrs : list nat }.
(** external: R's memory manager, as called in render_device.c:4-242, r_callbacks.c:3-262, markdown.c:7-22, render_markdown.c:9-29 *)
Definition heap := nat -> option obj.
(** [st_ext]: what R itself keeps alive during a .Call: its arguments, R_GlobalEnv, loaded namespaces.
    [st_blocks]: memory from Calloc, or strings owned by Rust. *)
(** external: R's memory manager, as called in render_device.c:4-242, r_callbacks.c:3-262, markdown.c:7-22, render_markdown.c:9-29 *)
Record state := State {
  st_heap : heap;
  st_fresh : nat;              (* no object at or above it *)
  st_pstack : list nat;        (* PROTECT stack, top first *)
  st_preserved : list nat;     (* R_PreserveObject *)
  st_ext : list nat;
  st_blocks : list nat;
  st_bfresh : nat
}.
(** external: R's memory manager, as called in render_device.c:4-242, r_callbacks.c:3-262, markdown.c:7-22, render_markdown.c:9-29 *)
Definition roots (s : state) : list nat := st_pstack s ++ st_preserved s ++ st_ext s.

(** external: R's memory manager, as called in render_device.c:4-242, r_callbacks.c:3-262, markdown.c:7-22, render_markdown.c:9-29 *)
Inductive points_to (o : obj) (j : nat) : Prop :=
| pt_slot : In (Some j) (o_refs o) -> points_to o j
| pt_attr : In j (o_attrs o) -> points_to o j.
(** external: R's memory manager, as called in render_device.c:4-242, r_callbacks.c:3-262, markdown.c:7-22, render_markdown.c:9-29 *)
Inductive reach (h : heap) (rs : list nat) : nat -> Prop :=
| re_root i : In i rs -> reach h rs i
| re_step i o j : reach h rs i -> h i = Some o -> points_to o j -> reach h rs j.
(** reached through vectors only *)
(** external: R's memory manager, as called in render_device.c:4-242, r_callbacks.c:3-262, markdown.c:7-22, render_markdown.c:9-29 *)
Inductive vreach (h : heap) (rs : list nat) : nat -> Prop :=
| vre_root i : In i rs -> vreach h rs i
| vre_step i o j : vreach h rs i -> h i = Some o -> o_kind o = Vec -> points_to o j -> vreach h rs j.

(** The collector can run: everything it visits is there. *)
(** external: R's memory manager, as called in render_device.c:4-242, r_callbacks.c:3-262, markdown.c:7-22, render_markdown.c:9-29 *)
Definition gc_safe (s : state) (temps : list nat) : Prop := forall j, reach (st_heap s) (roots s ++ temps) j -> st_heap s j <> None.
(** What the collector may do; [temps] are objects R itself protects during the call. *)
(** external: R's memory manager, as called in render_device.c:4-242, r_callbacks.c:3-262, markdown.c:7-22, render_markdown.c:9-29 *)
Definition with_heap (s : state) (h : heap) (fresh : nat) : state :=
  State h fresh (st_pstack s) (st_preserved s) (st_ext s) (st_blocks s) (st_bfresh s).
(** external: R's memory manager, as called in render_device.c:4-242, r_callbacks.c:3-262, markdown.c:7-22, render_markdown.c:9-29 *)
Definition gc (s : state) (temps : list nat) (s1 : state) : Prop := exists h,
  s1 = with_heap s h (st_fresh s) /\
  (forall j, reach (st_heap s) (roots s ++ temps) j -> h j = st_heap s j) /\
  (forall j, h j = st_heap s j \/ h j = None).
(** What evaluating R code may do: collect, allocate, change everything but the vectors C holds on to; its result
    and what the roots reach are there afterwards. *)
(** external: eval, called at r_callbacks.c:8, 48, 92, 120, 145, 159 *)
Definition evals (s s1 : state) (r : nat) : Prop := exists h fresh,
  s1 = with_heap s h fresh /\ (st_fresh s <= fresh)%nat /\ (forall j, (fresh <= j)%nat -> h j = None) /\
  (forall j o, vreach (st_heap s) (roots s) j -> st_heap s j = Some o -> o_kind o = Vec -> h j = Some o) /\
  gc_safe s1 [r].

(** external: R's memory manager, as called in render_device.c:4-242, r_callbacks.c:3-262, markdown.c:7-22, render_markdown.c:9-29 *)
Definition upd (h : heap) (i : nat) (o : option obj) : heap := fun j => if Nat.eqb j i then o else h j.
(** external: R's memory manager, as called in render_device.c:4-242, r_callbacks.c:3-262, markdown.c:7-22, render_markdown.c:9-29 *)
Definition set_slot {A} (l : list A) (i : nat) (x : A) : list A := firstn i l ++ x :: skipn (S i) l.
(** external: R's memory manager, as called in render_device.c:4-242, r_callbacks.c:3-262, markdown.c:7-22, render_markdown.c:9-29 *)
Definition new_object (s : state) (refs : list (option nat)) : state :=
  with_heap s (upd (st_heap s) (st_fresh s) (Some (Obj Vec refs []))) (S (st_fresh s)).
(** external: R's memory manager, as called in render_device.c:4-242, r_callbacks.c:3-262, markdown.c:7-22, render_markdown.c:9-29 *)
Definition set_pstack (s : state) (ps : list nat) : state :=
  State (st_heap s) (st_fresh s) ps (st_preserved s) (st_ext s) (st_blocks s) (st_bfresh s).
(** external: R's memory manager, as called in render_device.c:4-242, r_callbacks.c:3-262, markdown.c:7-22, render_markdown.c:9-29 *)
Definition set_preserved (s : state) (pr : list nat) : state :=
  State (st_heap s) (st_fresh s) (st_pstack s) pr (st_ext s) (st_blocks s) (st_bfresh s).
(** external: R's memory manager, as called in render_device.c:4-242, r_callbacks.c:3-262, markdown.c:7-22, render_markdown.c:9-29 *)
Definition set_blocks (s : state) (bs : list nat) (bf : nat) : state :=
  State (st_heap s) (st_fresh s) (st_pstack s) (st_preserved s) (st_ext s) bs bf.
(** external: R's memory manager, as called in render_device.c:4-242, r_callbacks.c:3-262, markdown.c:7-22, render_markdown.c:9-29 *)
Definition set_object (s : state) (i : nat) (o : obj) : state := with_heap s (upd (st_heap s) i (Some o)) (st_fresh s).
(** external: R's memory manager, as called in render_device.c:4-242, r_callbacks.c:3-262, markdown.c:7-22, render_markdown.c:9-29 *)
Fixpoint remove_one (x : nat) (l : list nat) : list nat :=
  match l with [] => [] | y :: l => if Nat.eqb x y then l else y :: remove_one x l end.
(** external: R's memory manager, as called in render_device.c:4-242, r_callbacks.c:3-262, markdown.c:7-22, render_markdown.c:9-29 *)
Fixpoint refs_of (l : list (option nat)) : list nat :=
  match l with [] => [] | Some x :: l => x :: refs_of l | None :: l => refs_of l end.

(* ------------------------------------------------------------------ *)
(** * Programs that use it *)

(** No type of the code: sequences of calls of R's C interface, of Calloc and of Free, as in these files *)
Inductive prog (A : Type) : Type :=
| Ret (a : A)
| Install (k : prog A)                                  (* install(): may allocate, so may anything that is no more than that *)
| Alloc (refs : list (option nat)) (k : nat -> prog A)  (* allocVector, mkString, Scalar*, lang1, lang2, mkNamed, mkChar *)
| Evaluate (x : nat) (k : nat -> prog A)                    (* eval(x, R_GlobalEnv); findFun(sym, x), which may force a promise *)
| Protect (x : nat) (k : prog A)
| Unprotect (n : nat) (k : prog A)
| Preserve (x : nat) (k : prog A)                       (* R_PreserveObject, which allocates *)
| Release (x : nat) (k : prog A)
| SetRef (x i y : nat) (k : prog A)                     (* SETCAR, SET_VECTOR_ELT, SET_STRING_ELT *)
| GetRef (x i : nat) (k : option nat -> prog A)         (* VECTOR_ELT *)
| SetAttr (x y : nat) (k : prog A)                      (* setAttrib, classgets: allocate *)
| NewBlock (k : nat -> prog A)
| UseBlock (b : nat) (k : prog A)
| FreeBlock (b : nat) (k : prog A).
Arguments Ret {A}. Arguments Install {A}. Arguments Alloc {A}. Arguments Evaluate {A}. Arguments Protect {A}. Arguments Unprotect {A}.
Arguments Preserve {A}. Arguments Release {A}. Arguments SetRef {A}. Arguments GetRef {A}. Arguments SetAttr {A}.
Arguments NewBlock {A}. Arguments UseBlock {A}. Arguments FreeBlock {A}.

(** No function of the code: one statement after another *)
Fixpoint pbind {A B} (p : prog A) (f : A -> prog B) : prog B :=
  match p with
  | Ret a => f a
  | Install k => Install (pbind k f)
  | Alloc refs k => Alloc refs (fun x => pbind (k x) f)
  | Evaluate x k => Evaluate x (fun r => pbind (k r) f)
  | Protect x k => Protect x (pbind k f)
  | Unprotect n k => Unprotect n (pbind k f)
  | Preserve x k => Preserve x (pbind k f)
  | Release x k => Release x (pbind k f)
  | SetRef x i y k => SetRef x i y (pbind k f)
  | GetRef x i k => GetRef x i (fun r => pbind (k r) f)
  | SetAttr x y k => SetAttr x y (pbind k f)
  | NewBlock k => NewBlock (fun b => pbind (k b) f)
  | UseBlock b k => UseBlock b (pbind k f)
  | FreeBlock b k => FreeBlock b (pbind k f)
  end.
Declare Scope prog_scope.
Delimit Scope prog_scope with prog.
Notation "x <- p ;; k" := (pbind p (fun x => k)) (at level 100, p at next level, right associativity) : prog_scope.
Notation "p ;; k" := (pbind p (fun _ => k)) (at level 100, right associativity) : prog_scope.
Local Open Scope prog_scope.
(** external: install, translateCharUTF8 and others that may allocate, e.g. r_callbacks.c:7 *)
Definition install : prog unit := Install (Ret tt).
(** external: allocVector, mkString, ScalarReal, lang2, e.g. r_callbacks.c:6-7, render_device.c:8 *)
Definition alloc (refs : list (option nat)) : prog nat := Alloc refs Ret.
(** external: eval, r_callbacks.c:8, 48, 92, 120, 145, 159 *)
Definition eval (x : nat) : prog nat := Evaluate x Ret.
(** PROTECT returns its argument *)
(** external: PROTECT, e.g. r_callbacks.c:6 *)
Definition protect (x : nat) : prog nat := Protect x (Ret x).
(** external: UNPROTECT, e.g. r_callbacks.c:10 *)
Definition unprotect (n : nat) : prog unit := Unprotect n (Ret tt).
(** external: R_PreserveObject, render_device.c:9, 88 *)
Definition preserve (x : nat) : prog unit := Preserve x (Ret tt).
(** external: R_ReleaseObject, render_device.c:38, 87 *)
Definition release (x : nat) : prog unit := Release x (Ret tt).
(** external: SETCAR, SET_VECTOR_ELT, e.g. render_device.c:35, 103 *)
Definition set_ref (x i y : nat) : prog unit := SetRef x i y (Ret tt).
(** external: VECTOR_ELT, render_device.c:35, 84 *)
Definition get_ref (x i : nat) : prog (option nat) := GetRef x i Ret.
(** external: setAttrib, classgets, render_device.c:55, 61 *)
Definition set_attr (x y : nat) : prog unit := SetAttr x y (Ret tt).
(** external: Calloc, render_device.c:5; strings from Rust, markdown.c:13 *)
Definition new_block : prog nat := NewBlock Ret.
(** Access through rdev, render_device.c:31-106, or to a string, markdown.c:14 *)
Definition use_block (b : nat) : prog unit := UseBlock b (Ret tt).
(** external: Free, render_device.c:64; sinab_free_cstring, markdown.c:15 *)
Definition free_block (b : nat) : prog unit := FreeBlock b (Ret tt).

(** How a program can end.  [Faults]: an object or block that was freed, or was never there, is used, a slot out of
    range is accessed, or more is unprotected than was protected.  [Errors]: R raised an error, or the user
    interrupted, and control jumped out of the program. *)
(** No type of the code: how a call can end *)
Inductive ending (A : Type) := Returns (a : A) (s : state) | Faults | Errors (s : state).
Arguments Returns {A}. Arguments Faults {A}. Arguments Errors {A}.

(** [exec p s e]: started in [s], [p] can end with [e]. *)
(** No definition of the code: the meaning of such programs *)
Fixpoint exec {A} (p : prog A) (s : state) (e : ending A) : Prop :=
  match p with
  | Ret a => e = Returns a s
  | Install k => (~ gc_safe s [] /\ e = Faults) \/ e = Errors s \/ exists s1, gc s [] s1 /\ exec k s1 e
  | Alloc refs k =>
      (~ gc_safe s (refs_of refs) /\ e = Faults) \/ e = Errors s \/
      exists s1, gc s (refs_of refs) s1 /\ exec (k (st_fresh s1)) (new_object s1 refs) e
  | Evaluate x k =>
      (~ gc_safe s [] /\ e = Faults) \/
      (* the collector runs and takes something the evaluation needs *)
      (exists s1 j, gc s [] s1 /\ reach (st_heap s1) [x] j /\ st_heap s1 j = None /\ e = Faults) \/
      e = Errors s \/ exists s1 r, evals s s1 r /\ exec (k r) s1 e
  | Protect x k => exec k (set_pstack s (x :: st_pstack s)) e
  | Unprotect n k =>
      if Nat.leb n (length (st_pstack s)) then exec k (set_pstack s (skipn n (st_pstack s))) e else e = Faults
  | Preserve x k =>
      (~ gc_safe s [x] /\ e = Faults) \/ e = Errors s \/
      exists s1, gc s [x] s1 /\ exec k (set_preserved s1 (x :: st_preserved s1)) e
  | Release x k => exec k (set_preserved s (remove_one x (st_preserved s))) e
  | SetRef x i y k =>
      match st_heap s x, st_heap s y with
      | Some (Obj Vec l a), Some _ =>
          if Nat.ltb i (length l) then exec k (set_object s x (Obj Vec (set_slot l i (Some y)) a)) e else e = Faults
      | _, _ => e = Faults
      end
  | GetRef x i k =>
      match st_heap s x with
      | Some (Obj Vec l _) => match nth_error l i with Some r => exec (k r) s e | None => e = Faults end
      | _ => e = Faults
      end
  | SetAttr x y k =>
      match st_heap s x, st_heap s y with
      | Some (Obj Vec l a), Some _ =>
          (~ gc_safe s [x; y] /\ e = Faults) \/ e = Errors s \/
          exists s1, gc s [x; y] s1 /\ exec k (set_object s1 x (Obj Vec l (a ++ [y]))) e
      | _, _ => e = Faults
      end
  | NewBlock k => e = Errors s \/ exec (k (st_bfresh s)) (set_blocks s (st_bfresh s :: st_blocks s) (S (st_bfresh s))) e
  | UseBlock b k => if existsb (Nat.eqb b) (st_blocks s) then exec k s e else e = Faults
  | FreeBlock b k =>
      if existsb (Nat.eqb b) (st_blocks s) then exec k (set_blocks s (remove_one b (st_blocks s)) (st_bfresh s)) e else e = Faults
  end.

(* ------------------------------------------------------------------ *)
(** * r_callbacks.c *)

(** get_namespace, r_callbacks.c:3-12 *)
Definition get_namespace : prog nat :=
  namesp_sexp <- alloc [];; protect namesp_sexp;;
  install;; call <- alloc [None; Some namesp_sexp];; protect call;;
  out <- eval call;;
  unprotect 2;; Ret out.

(** The runs of SETCAR(s, x); SET_TAG(s, install(..)); s = CDR(s) that fill a call from slot [i] on, e.g. 24-46 *)
(** r_callbacks.c:24-46, 64-90, 108-118 *)
Fixpoint set_args (call i : nat) (args : list nat) : prog unit :=
  match args with
  | [] => Ret tt
  | x :: args => set_ref call i x;; install;; set_args call (S i) args
  end.
(** allocVector(LANGSXP, n), allocVector(VECSXP, n): all slots R_NilValue *)
(** external: render_device.c:8, 32, 80, r_callbacks.c:21, 61, 105, 134 *)
Definition nils (n : nat) : list (option nat) := repeat None n.

(** text_grob, r_callbacks.c:15-52 *)
Definition text_grob (label x y hjust vjust gp : nat) : prog nat :=
  grid <- get_namespace;; protect grid;;
  install;; fn <- eval grid;; protect fn;;
  call <- alloc (nils 7);; protect call;;
  set_ref call 0 fn;;
  set_args call 1 [label; x; y; hjust; vjust; gp];;
  out <- eval call;;
  unprotect 3;; Ret out.
(** rect_grob, r_callbacks.c:55-96 *)
Definition rect_grob (x y width height hjust vjust gp : nat) : prog nat :=
  grid <- get_namespace;; protect grid;;
  install;; fn <- eval grid;; protect fn;;
  call <- alloc (nils 8);; protect call;;
  set_ref call 0 fn;;
  set_args call 1 [x; y; width; height; hjust; vjust; gp];;
  out <- eval call;;
  unprotect 3;; Ret out.
(** lines_grob, r_callbacks.c:99-124 *)
Definition lines_grob (x y gp : nat) : prog nat :=
  grid <- get_namespace;; protect grid;;
  install;; fn <- eval grid;; protect fn;;
  call <- alloc (nils 4);; protect call;;
  set_ref call 0 fn;;
  set_args call 1 [x; y; gp];;
  out <- eval call;;
  unprotect 3;; Ret out.
(** unit_in, r_callbacks.c:128-149 *)
Definition unit_in (x : nat) : prog nat :=
  grid <- get_namespace;; protect grid;;
  install;; fn <- eval grid;; protect fn;;
  call <- alloc (nils 3);; protect call;;
  set_ref call 0 fn;;
  set_ref call 1 x;;
  unit <- alloc [];; protect unit;;
  set_ref call 2 unit;; install;;
  out <- eval call;;
  unprotect 4;; Ret out.
(** gpar_empty, r_callbacks.c:153-163 *)
Definition gpar_empty : prog nat :=
  grid <- get_namespace;; protect grid;;
  install;; fn <- eval grid;; protect fn;;
  call <- alloc [Some fn];; protect call;;
  out <- eval call;;
  unprotect 3;; Ret out.
(** gpar_gcontext, r_callbacks.c:168-245; the three branches of the switch allocate alike *)
Definition gpar_gcontext : prog nat :=
  col <- alloc [];; protect col;;
  fill <- alloc [];; protect fill;;
  fontfamily <- alloc [];; protect fontfamily;;
  fontface <- alloc [];; protect fontface;;
  fontsize <- alloc [];; protect fontsize;;
  lineheight <- alloc [];; protect lineheight;;
  linewidth <- alloc [];; protect linewidth;;
  linetype <- alloc [];; protect linetype;;
  lineend <- alloc [];; protect lineend;;
  grid <- get_namespace;; protect grid;;
  install;; fn <- eval grid;; protect fn;;
  call <- alloc (nils 10);; protect call;;
  set_ref call 0 fn;;
  set_args call 1 [col; fill; fontfamily; fontface; fontsize; lineheight; linetype; linewidth; lineend];;
  out <- eval call;;
  unprotect 12;; Ret out.

(* ------------------------------------------------------------------ *)
(** * render_device.c *)

(** RenderDevice, renderer.h:19-26: the struct is in the block [rd_block]; the fields about memory.
    SIMPLIFICATION: y0 and the numbers of the bounding box are in GfxDevice.v. *)
Record rdev := RDev { rd_block : nat; rd_grobs : nat; rd_size : nat; rd_cap : nat; rd_bb : bool }.

(** rdev_new, render_device.c:4-23 *)
Definition rdev_new : prog rdev :=
  b <- new_block;;
  use_block b;; grobs <- alloc (nils 5);; protect grobs;;
  preserve grobs;;
  unprotect 1;;
  use_block b;; Ret (RDev b grobs 0 5 false).

(** for (i = 0; i < n; i++) SET_VECTOR_ELT(new, i, VECTOR_ELT(old, i)), render_device.c:34-36, 83-85.
    A slot of the old vector below size is never R_NilValue; storing R_NilValue would be no allocation either. *)
Fixpoint copy_slots (new old i n : nat) : prog unit :=
  match n with
  | O => Ret tt
  | S n => r <- get_ref old i;; (match r with Some x => set_ref new i x | None => Ret tt end);; copy_slots new old (S i) n
  end.

(** rdev_release, render_device.c:26-70 *)
Definition rdev_release (d : rdev) : prog nat :=
  use_block (rd_block d);;
  new <- alloc (nils (rd_size d));; protect new;;
  copy_slots new (rd_grobs d) 0 (rd_size d);;
  release (rd_grobs d);;
  use_block (rd_block d);;
  (if rd_bb d then
     bb_xmin <- alloc [];; protect bb_xmin;;
     bb_ymin <- alloc [];; protect bb_ymin;;
     bb_xmax <- alloc [];; protect bb_xmax;;
     bb_ymax <- alloc [];; protect bb_ymax;;
     bbox <- alloc (nils 4);; protect bbox;;
     set_ref bbox 0 bb_xmin;;
     set_ref bbox 1 bb_ymin;;
     set_ref bbox 2 bb_xmax;;
     set_ref bbox 3 bb_ymax;;
     install;; set_attr new bbox;;
     unprotect 5
   else Ret tt);;
  cl <- alloc [];; protect cl;;
  set_attr new cl;;
  free_block (rd_block d);;
  unprotect 2;;
  Ret new.

(** rdev_grow_capacity, render_device.c:73-92 *)
Definition rdev_grow_capacity (d : rdev) : prog rdev :=
  use_block (rd_block d);;
  new <- alloc (nils (2 * rd_cap d));; protect new;;
  copy_slots new (rd_grobs d) 0 (rd_size d);;
  release (rd_grobs d);;
  preserve new;;
  use_block (rd_block d);;
  unprotect 1;;
  Ret (RDev (rd_block d) new (rd_size d) (2 * rd_cap d) (rd_bb d)).

(** rdev_add_SEXP, render_device.c:95-105 *)
Definition rdev_add_SEXP (d : rdev) (s : nat) : prog rdev :=
  use_block (rd_block d);;
  d <- (if Nat.eqb (rd_size d) (rd_cap d) then rdev_grow_capacity d else Ret d);;
  set_ref (rd_grobs d) (rd_size d) s;;
  Ret (RDev (rd_block d) (rd_grobs d) (S (rd_size d)) (rd_cap d) (rd_bb d)).

(** rdev_draw_text, render_device.c:107-124.  The C function returns nothing; the new grob is returned here, too, to
    be able to talk about it. *)
Definition rdev_draw_text (d : rdev) : prog (rdev * nat) :=
  slabel <- alloc [];; protect slabel;;
  sx <- alloc [];; protect sx;;
  sxu <- unit_in sx;; protect sxu;;
  use_block (rd_block d);; sy <- alloc [];; protect sy;;
  syu <- unit_in sy;; protect syu;;
  hjust <- alloc [];; protect hjust;;
  vjust <- alloc [];; protect vjust;;
  gp <- gpar_gcontext;; protect gp;;
  grob <- text_grob slabel sxu syu hjust vjust gp;; protect grob;;
  d <- rdev_add_SEXP d grob;;
  unprotect 9;;
  Ret (d, grob).
(** rdev_draw_rect, render_device.c:127-147 *)
Definition rdev_draw_rect (d : rdev) : prog (rdev * nat) :=
  sx <- alloc [];; protect sx;;
  sxu <- unit_in sx;; protect sxu;;
  use_block (rd_block d);; sy <- alloc [];; protect sy;;
  syu <- unit_in sy;; protect syu;;
  sw <- alloc [];; protect sw;;
  swu <- unit_in sw;; protect swu;;
  sh <- alloc [];; protect sh;;
  shu <- unit_in sh;; protect shu;;
  hjust <- alloc [];; protect hjust;;
  vjust <- alloc [];; protect vjust;;
  gp <- gpar_gcontext;; protect gp;;
  grob <- rect_grob sxu syu swu shu hjust vjust gp;; protect grob;;
  d <- rdev_add_SEXP d grob;;
  unprotect 12;;
  Ret (d, grob).
(** rdev_draw_line, render_device.c:150-174 *)
Definition rdev_draw_line (d : rdev) : prog (rdev * nat) :=
  sx <- alloc [];; protect sx;;
  sy <- alloc [];; protect sy;;
  use_block (rd_block d);;
  sxu <- unit_in sx;; protect sxu;;
  syu <- unit_in sy;; protect syu;;
  gp <- gpar_gcontext;; protect gp;;
  grob <- lines_grob sxu syu gp;; protect grob;;
  d <- rdev_add_SEXP d grob;;
  unprotect 6;;
  Ret (d, grob).
(** rdev_record_bbox, render_device.c:184-214 *)
Definition rdev_record_bbox (d : rdev) : prog rdev :=
  use_block (rd_block d);;
  Ret (RDev (rd_block d) (rd_grobs d) (rd_size d) (rd_cap d) true).
(** rdev_string_metrics, render_device.c:221-242: GEStrMetric and the device behind it may allocate *)
Definition rdev_string_metrics : prog unit := install.

(** What the Rust code asks of the device while it renders; any sequence of it *)
(** The functions at render_device.c:107-242 *)
Inductive request := RText | RRect | RLine | RBBox | RMetrics.
(** render_device.c:107-242 *)
Definition serve (d : rdev) (q : request) : prog (rdev * list nat) :=
  match q with
  | RText => r <- rdev_draw_text d;; Ret (fst r, [snd r])
  | RRect => r <- rdev_draw_rect d;; Ret (fst r, [snd r])
  | RLine => r <- rdev_draw_line d;; Ret (fst r, [snd r])
  | RBBox => d <- rdev_record_bbox d;; Ret (d, [])
  | RMetrics => rdev_string_metrics;; Ret (d, [])
  end.
(** What happens in sinab_test_renderer, render_markdown.c:20-25 *)
Fixpoint serve_all (d : rdev) (qs : list request) : prog (rdev * list nat) :=
  match qs with
  | [] => Ret (d, [])
  | q :: qs => r <- serve d q;; r' <- serve_all (fst r) qs;; Ret (fst r', snd r ++ snd r')
  end.
(** C_render_markdown, render_markdown.c:9-29; the two translateCharUTF8 may allocate.  When there is no text or no
    style sheet neither runs and nothing is drawn, which is one of the executions for [qs = []].  The grobs drawn are returned,
    too, to be able to talk about them. *)
Definition C_render_markdown (qs : list request) : prog (nat * list nat) :=
  d <- rdev_new;;
  install;; install;;
  r <- serve_all d qs;;
  out <- rdev_release (fst r);;
  Ret (out, snd r).
(** test_rdev_new_release, render_device.c:252-265 *)
Fixpoint add_tests (d : rdev) (n : nat) : prog (rdev * list nat) :=
  match n with
  | O => Ret (d, [])
  | S n => s <- alloc [];; protect s;; d <- rdev_add_SEXP d s;; unprotect 1;; r <- add_tests d n;; Ret (fst r, s :: snd r)
  end.
Definition test_rdev_new_release (n : nat) : prog (nat * list nat) :=
  d <- rdev_new;;
  r <- add_tests d n;;
  out <- rdev_release (fst r);;
  Ret (out, snd r).

(* ------------------------------------------------------------------ *)
(** * markdown.c *)

(** C_md_to_html, markdown.c:7-22; the strings made are returned, too *)
Fixpoint md_loop (out i n : nat) : prog (list nat) :=
  match n with
  | O => Ret []
  | S n =>
      install;; (* translateCharUTF8 *)
      s <- new_block;;
      use_block s;; rs <- alloc [];; protect rs;;
      free_block s;;
      set_ref out i rs;;
      unprotect 1;;
      l <- md_loop out (S i) n;; Ret (rs :: l)
  end.
(** C_md_to_html, markdown.c:7-22 *)
Definition C_md_to_html (n : nat) : prog (nat * list nat) :=
  out <- alloc (nils n);; protect out;;
  l <- md_loop out 0 n;;
  unprotect 1;;
  Ret (out, l).
