(** Vocabulary for key generation: the same circuit laid out with other values.  Specification, not a model of code. *)
From Coq Require Import List.
From Verif Require Import Field Rust Halo2 Pow5.
Import ListNotations.

Section Use.
  Context {F : Type}.

  (** layouts that differ only in the values of advice cells: they have the same keys, and what is laid out next goes to
      the same place *)
  Definition same_key (L L' : layout F) : Prop :=
    lo_starts L = lo_starts L' /\ (forall c, lo_next L c = lo_next L' c) /\ map fst (lo_adv L) = map fst (lo_adv L')
    /\ lo_fix L = lo_fix L' /\ lo_sel L = lo_sel L' /\ lo_copy L = lo_copy L' /\ lo_tables L = lo_tables L' /\ lo_const L = lo_const L'.
  (** the same cell, with any two values, known or not *)
  Definition same_cell (w w' : acell F) : Prop := ac_cell w = ac_cell w'.
  Definition same_padded (w w' : padded_word F) : Prop :=
    match w, w' with
    | Message a, Message b => same_cell a b
    | Padding v, Padding v' => v = v'
    | _, _ => False
    end.
  (** both calls fail, or both succeed with the same keys and related results *)
  Definition same_outcome {A B} (R : A -> B -> Prop) (x : result (layout F * A)) (y : result (layout F * B)) : Prop :=
    match x, y with
    | Ok (L, a), Ok (L', b) => same_key L L' /\ R a b
    | Panic, Panic => True
    | _, _ => False
    end.
End Use.
