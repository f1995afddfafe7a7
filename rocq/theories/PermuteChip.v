(** Model of the interface of permutation chips, poseidon-circuit/src/poseidon.rs:36-84. *)
From Coq Require Import List Arith.
From Verif Require Import Field Rust Halo2 Septidon.
Import ListNotations.

(** [PermuteChip] and [PoseidonInstructions] (poseidon.rs:36-84) for width 3; [construct] only wraps the
    configuration and words are assigned cells.  [pc_permute_batch] also gets the number of worker
    threads. *)
Record permute_chip (F : Type) : Type := {
  pc_config : Type;
  pc_configure : cs F -> pc_config * cs F;
  pc_permute : pc_config -> list (acell F) -> Layouter F (list (acell F));
  pc_permute_batch : nat -> pc_config -> list (list (acell F)) -> Layouter F (list (list (acell F)))
}.
Arguments pc_config {F} _.
Arguments pc_configure {F} _ _.
Arguments pc_permute {F} _ _ _.
Arguments pc_permute_batch {F} _ _ _ _.

(** the default [permute_batch] (poseidon.rs:74-83) *)
Definition default_batch {F C} (permute : C -> list (acell F) -> Layouter F (list (acell F)))
           (threads : nat) (cfg : C) (states : list (list (acell F)))
  : Layouter F (list (list (acell F))) := lmap (permute cfg) states.

(** [SeptidonChip] as a permutation chip (septidon/instruction.rs:17-164) *)
Definition septidon_chip {F} {FO : FieldOps F} (rcs m : list (list F)) : permute_chip F :=
  {| pc_config := septidon;
     pc_configure := septidon_configure rcs m;
     pc_permute := septidon_permute rcs m;
     pc_permute_batch := fun threads chip states => septidon_permute_batch rcs m threads chip states |}.
(** the same chip compiled with [GATE_DEGREE_5 = true] (septidon/params.rs:3) *)
Definition septidon_degree_5_chip {F} {FO : FieldOps F} (rcs m : list (list F)) : permute_chip F :=
  {| pc_config := septidon;
     pc_configure := septidon_configure_as rcs m true;
     pc_permute := septidon_permute rcs m;
     pc_permute_batch := fun threads chip states => septidon_permute_batch rcs m threads chip states |}.
