(** Vocabulary for the properties of the in-circuit sponge.  Specification, not a model of code. *)
From Coq Require Import ZArith List Arith.
From Verif Require Import Field SpecHash Halo2 ChipUse Built Pow5.
Import ListNotations.
Local Open Scope nat_scope.

Section Use.
  Context {F : Type} {FO : FieldOps F}.

  (** the value of an absorbed word in an assignment *)
  Definition padded_at (L : layout F) (adv : nat -> nat -> F) (w : padded_word F) : F :=
    match w with Message a => word_at L adv a | Padding x => x end.
  (** absorbed words that live in regions laid out so far *)
  Definition padded_in (L : layout F) (ws : list (padded_word F)) : Prop :=
    forall w, In (Message w) ws -> ce_region (ac_cell w) < length (lo_starts L).

  (** the first [k] words of output of a sponge over [perm] of width [T] that has absorbed [msg], a whole number of
      blocks, from word [off] on, starting from capacity [cap] in word [pos] *)
  Definition sponge_stream (perm : list F -> list F) (T rate off pos : nat) (cap : F) (msg : list F) (k : nat) : list F :=
    let st := absorb_blocks perm off (blocks rate msg) (init_state T pos cap) in
    map (fun i => nth (i mod rate) (Nat.iter (i / rate) perm st) fzero) (seq 0 k).
End Use.
