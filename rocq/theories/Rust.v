(** Small pieces of Rust semantics shared by the model. *)
From Coq Require Import List Arith.
Import ListNotations.

(** Outcome of a Rust call: a value, or a panic ([expect], [unwrap], [assert!], index out of
    bounds). *)
Inductive result (A : Type) : Type :=
| Ok (a : A)
| Panic.
Arguments Ok {A} _.
Arguments Panic {A}.

Definition bind {A B} (m : result A) (f : A -> result B) : result B :=
  match m with Ok a => f a | Panic => Panic end.

Declare Scope rust_scope.
Delimit Scope rust_scope with rust.
Notation "'do' x <- m ; k" := (bind m (fun x => k))
  (at level 200, x pattern, m at level 100, k at level 200, right associativity) : rust_scope.
Open Scope rust_scope.

(** [assert!] *)
Definition rassert (b : bool) : result unit := if b then Ok tt else Panic.

(** [Option::unwrap] / [expect] *)
Definition unwrap {A} (o : option A) : result A :=
  match o with Some a => Ok a | None => Panic end.

(** [vec[i]], panics when out of bounds *)
Definition index {A} (l : list A) (i : nat) : result A := unwrap (nth_error l i).

(** [a[i] = x] where [i] is in bounds *)
Fixpoint upd {A} (l : list A) (i : nat) (x : A) : list A :=
  match l, i with
  | [], _ => []
  | _ :: l', O => x :: l'
  | y :: l', S i' => y :: upd l' i' x
  end.

(** [for (w, v) in a.iter_mut().zip(b) { *w = f w v }]: the shorter side ends the loop *)
Fixpoint zip_mut {A B} (f : A -> B -> A) (a : list A) (b : list B) : list A :=
  match a, b with
  | x :: a', y :: b' => f x y :: zip_mut f a' b'
  | _, _ => a
  end.

(** the same with a loop body that may panic *)
Fixpoint zip_mut_r {A B} (f : A -> B -> result A) (a : list A) (b : list B) : result (list A) :=
  match a, b with
  | x :: a', y :: b' => do x' <- f x y; do r <- zip_mut_r f a' b'; Ok (x' :: r)
  | _, _ => Ok a
  end.

(** [for x in l { acc = f acc x }] with a body that may panic *)
Fixpoint fold_r {A B} (f : B -> A -> result B) (l : list A) (b : B) : result B :=
  match l with
  | [] => Ok b
  | x :: l' => do b' <- f b x; fold_r f l' b'
  end.

Fixpoint map_r {A B} (f : A -> result B) (l : list A) : result (list B) :=
  match l with
  | [] => Ok []
  | x :: l' => do y <- f x; do r <- map_r f l'; Ok (y :: r)
  end.
