(** The textbook permutation with any S-box in place of x^5 (SpecHash.v), and what a [Spec] has to provide apart from
    its S-box.  Specification, not a model of code. *)
From Coq Require Import List Arith.
From Verif Require Import Field SpecHash Primitives.
Import ListNotations.

Section Spec.
  Context {F : Type} {FO : FieldOps F}.

  Definition hades_full (f : F -> F) (m : list (list F)) (st rc : list F) : list F := mat_vec m (map f (vadd st rc)).
  Definition hades_partial (f : F -> F) (m : list (list F)) (st rc : list F) : list F :=
    mat_vec m (match vadd st rc with [] => [] | x :: t => f x :: t end).
  Definition hades (f : F -> F) (m : list (list F)) (half partial : nat) (rcs : list (list F)) (st : list F) : list F :=
    fold_left (hades_full f m) (firstn half (skipn (half + partial) rcs))
      (fold_left (hades_partial f m) (firstn partial (skipn half rcs))
        (fold_left (hades_full f m) (firstn half rcs) st)).

  (** a T x T matrix, one constant per word and round, any S-box *)
  Definition tables_ok (T : nat) (s : spec F) : Prop :=
    (length (mds s) = T /\ Forall (fun r => length r = T) (mds s))
    /\ Forall (fun r => length r = T) (round_constants s)
    /\ Nat.div2 (full_rounds s) + partial_rounds s + Nat.div2 (full_rounds s) <= length (round_constants s).
  (** the permutation with the tables of a spec and an S-box *)
  Definition hades_of (f : F -> F) (s : spec F) : list F -> list F :=
    hades f (mds s) (Nat.div2 (full_rounds s)) (partial_rounds s) (round_constants s).
End Spec.
