(** Vocabulary for subspace trails: linear subspaces of states, and rounds that map every coset of one into a coset of
    another.  Specification, not a model of code. *)
From Coq Require Import List Arith.
From Verif Require Import Field SpecHash.
Import ListNotations.

Section Use.
  Context {F : Type} {FO : FieldOps F}.

  Record subspace (T : nat) (U : list F -> Prop) : Prop := {
    sub_length : forall x, U x -> length x = T;
    sub_zero : U (repeat fzero T);
    sub_add : forall x y, U x -> U y -> U (vadd x y);
    sub_scale : forall a x, U x -> U (map (fmul a) x)
  }.

  Definition vminus (x y : list F) : list F := vadd x (map fopp y).
  (** states that differ by an element of [U] go to states that differ by an element of [V] *)
  Definition maps_cosets (T : nat) (f : list F -> list F) (U V : list F -> Prop) : Prop :=
    forall x y, length x = T -> length y = T -> U (vminus x y) -> V (vminus (f x) (f y)).
  (** rounds one after the other, with some subspace after each *)
  Fixpoint subspace_trail (T : nat) (rounds : list (list F -> list F)) (U V : list F -> Prop) : Prop :=
    match rounds with
    | [] => forall x, U x -> V x
    | f :: rounds' => exists W, subspace T W /\ maps_cosets T f U W /\ subspace_trail T rounds' W V
    end.

  Definition partial_rounds_of (m : list (list F)) (rcs : list (list F)) : list (list F -> list F) :=
    map (fun rc st => spec_partial m st rc) rcs.
  Definition full_rounds_of (m : list (list F)) (rcs : list (list F)) : list (list F -> list F) :=
    map (fun rc st => spec_full m st rc) rcs.

  (** every trail of [n] rounds, whatever their constants, that starts with some difference ends with every difference *)
  Definition spreads (T n : nat) (rounds : list (list F) -> list (list F -> list F)) : Prop :=
    forall rcs U V, length rcs = n -> Forall (fun rc => length rc = T) rcs -> subspace T U -> subspace T V ->
    subspace_trail T (rounds rcs) U V ->
    forall x, U x -> x <> repeat fzero T -> forall y, length y = T -> V y.
End Use.
