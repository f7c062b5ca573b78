(** Common definitions: outcomes of modelled Rust/C functions, text, list helpers. *)
From Coq Require Export String Ascii.
From Coq Require Export List Arith ZArith NArith Bool Lia Permutation.
Export ListNotations.

(** Outcome of a modelled function.  [Panic] stands for every Rust panic (assert!,
    unwrap on None, unreachable!, unimplemented!, index out of range, RefCell borrow
    error, ...).  [OutOfFuel] is the explicit error of fuelled loops: it never stands
    for a value the code would return. *)
(** No definition of the code: how a Rust function can end *)
Inductive result (A : Type) : Type :=
| Ok (a : A)
| Panic
| OutOfFuel.
Arguments Ok {A} a.
Arguments Panic {A}.
Arguments OutOfFuel {A}.

(** No definition of the code: sequencing of calls *)
Definition bind {A B} (r : result A) (f : A -> result B) : result B :=
  match r with
  | Ok a => f a
  | Panic => Panic
  | OutOfFuel => OutOfFuel
  end.

Declare Scope result_scope.
Delimit Scope result_scope with result.
Notation "'do' x <- r ; k" := (bind r (fun x => k))
  (at level 200, x pattern, r at level 100, k at level 200) : result_scope.

(** Sequential [map] of a fallible function. *)
(** No definition of the code: a loop over calls that can fail *)
Fixpoint mapR {A B} (f : A -> result B) (l : list A) : result (list B) :=
  match l with
  | [] => Ok []
  | x :: xs => bind (f x) (fun y => bind (mapR f xs) (fun ys => Ok (y :: ys)))
  end.

(** Text: list of Unicode scalar values. *)
(** No definition of the code: the Rust type char *)
Definition char := N.
(** No definition of the code: the Rust type str *)
Definition text := list char.

(** Literal text for examples (ASCII only). *)
(** No definition of the code: literals *)
Fixpoint txt (s : string) : text :=
  match s with
  | EmptyString => []
  | String c s' => N_of_ascii c :: txt s'
  end.

(** No definition of the code: the literal ' ' *)
Definition sp : char := 32%N.     (* ' ' *)
(** No definition of the code: the literal '\n' *)
Definition nl : char := 10%N.     (* '\n' *)
(** No definition of the code: the literal '-' *)
Definition hyphen : char := 45%N. (* '-' *)

(** Overwrite index [i] of a list (no effect when out of range; callers guard). *)
(** No definition of the code: v[i] = x *)
Fixpoint upd {A} (i : nat) (f : A -> A) (l : list A) : list A :=
  match l, i with
  | [], _ => []
  | x :: xs, O => f x :: xs
  | x :: xs, S i' => x :: upd i' f xs
  end.
