(** Vocabulary for differential trails: two runs of consecutive rounds whose states differ by given amounts.
    Specification, not a model of code. *)
From Coq Require Import List Arith.
From Verif Require Import Field SpecHash.
Import ListNotations.

Section Use.
  Context {F : Type} {FO : FieldOps F}.

  (** the states of the run from [y] are those of the run from [x] plus [ds], after each of the rounds [step] with constants
      [rcs]; both lists are read to the end of the shorter one *)
  Fixpoint follows (step : list F -> list F -> list F) (rcs ds : list (list F)) (x y : list F) : Prop :=
    match rcs, ds with
    | rc :: rcs', d :: ds' => step y rc = vadd (step x rc) d /\ follows step rcs' ds' (step x rc) (step y rc)
    | _, _ => True
    end.
End Use.
