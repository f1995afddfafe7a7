(** Vocabulary for the uniqueness of witnesses.  Specification, not a model of code. *)
From Coq Require Import ZArith List Arith.
From Verif Require Import Field Halo2.
Import ListNotations.
Local Open Scope nat_scope.

Section Use.
  Context {F : Type} {FO : FieldOps F}.

  (** the advice cells, column and row, assigned on the way from layout [L0] to layout [L1] *)
  Definition written (L0 L1 : layout F) (c r : nat) : Prop :=
    exists v, In (c, r, v) (skipn (length (lo_adv L0)) (lo_adv L1)).
End Use.
