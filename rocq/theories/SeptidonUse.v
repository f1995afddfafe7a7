(** Model of a circuit with nothing but Septidon permutations, [TestCircuit] (poseidon-circuit/src/poseidon/septidon/tests.rs:20-67).
    The circuit of the tests permutes one fixed state over and over; here the states are parameters, and unknown at key generation. *)
From Coq Require Import ZArith List Arith.
From Verif Require Import Field Rust Halo2 Septidon.
Import ListNotations.
Local Open Scope nat_scope.

(** a state as a list of its three words *)
Definition state_words {A} (a : arr3 A) : list A := let '(x, y, z) := a in [x; y; z].

Section Model.
  Context {F : Type} {FO : FieldOps F}.
  Variable rcs m : list (list F).

  (** [configure] (tests.rs:33-35): the chip's own [SeptidonChip::configure], which enables no column for equality *)
  Definition test_configure : septidon * cs F := septidon_configure_chip_as rcs m gate_degree_5 cs_empty.
  (** [synthesize] (tests.rs:37-66): a region for each permutation, and the final states it returns; the test's comparison of these
      with a known vector is left to the theorems *)
  Definition test_synthesize (cfg : septidon) (states : list (arr3 (option F))) : Layouter F (list (arr3 (option F))) :=
    lmap (fun state => assign_region (assign_permutation rcs m cfg state 0)) states.

  (** what a prover puts into the cells of the first and the last state of permutation [i] ([initial_state_cells] and
      [final_state_cells], septidon_chip.rs:100-113, in a block of 8 rows) *)
  Definition first_state (adv : nat -> nat -> F) (i : nat) : list F := [adv 0 (8 * i); adv 1 (8 * i); adv 2 (8 * i)].
  Definition last_state (adv : nat -> nat -> F) (i : nat) : list F := [adv 12 (5 + 8 * i); adv 12 (6 + 8 * i); adv 12 (7 + 8 * i)].
End Model.
