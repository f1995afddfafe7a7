(** A complete circuit around a graph of in-circuit hashes (a chain, a Merkle tree, ...), laid out with the calls and regions of
    [HashCircuit] (poseidon-circuit/src/poseidon/pow5.rs:838-939): it shows knowledge of leaves with an expected root.  A circuit of a
    user of the crate, not of the crate itself: only the calls it makes (CostUse.v, Gadget.v, PreimageUse.v) are models of code. *)
From Coq Require Import ZArith List Arith.
From Verif Require Import Field Rust Primitives Halo2 Pow5 Gadget CostUse ProgramUse PreimageUse.
Import ListNotations.
Local Open Scope nat_scope.
Local Open Scope rust_scope.

Section Model.
  Context {F : Type} {FO : FieldOps F}.
  Variable T : nat.
  Variable s : spec F.

  (** the [N] leaves in a region of their own, one below the other (the region "load message" of pow5.rs:890-913 puts them side by side,
      which limits their number to the width) *)
  Definition load_leaves (cfg : pow5) (N : nat) (leaves : option (list F)) : Region F (list (acell F)) :=
    rmap (fun i => rdo c <- rlift (index (p5_state cfg) 0);
                   assign_advice c i (option_map (fun m => nth i m fzero) leaves)) (seq 0 N).
  (** the hashes, each with [Hash::init] and [Hash::hash] as at pow5.rs:915-919; the last word is the root, and is constrained as the
      output at pow5.rs:921-937 *)
  Definition graph_synthesize (cfg : pow5) (prog : program) (N : nat) (leaves : option (list F)) (expected : option F) : Layouter F unit :=
    ldo ws <- assign_region (load_leaves cfg N leaves);
    ldo all <- circuit_program T (T - 1) s cfg prog ws;
    ldo root <- llift (index all (length all - 1));
    assign_region (constrain_output cfg root expected).

  (** the blocks of a program *)
  Definition program_blocks (prog : program) : nat := list_sum (map (fun op => (length op + (T - 1) - 1) / (T - 1)) prog).
  (** rows that are enough: the leaves, an initial state per hash, the blocks, the output *)
  Definition graph_rows (prog : program) (N : nat) : nat := N + length prog * T + program_blocks prog * block_rows s + 1.
  (** what a prover puts into the cells of the leaves *)
  Definition leaves_of (N : nat) (adv : nat -> nat -> F) : list F := map (fun i => adv 0 i) (seq 0 N).
  (** the root of the graph over the leaves, with the hash [H] *)
  Definition root_of (H : list F -> F) (prog : program) (xs : list F) : F := last (evaluate H prog xs) fzero.
End Model.

(** the Merkle tree over [2 ^ d] leaves: [level from n] hashes [n] pairs of the words from [from] on, whose digests begin at [from + 2 n] *)
Definition level (from n : nat) : program := map (fun i => [from + 2 * i; from + 2 * i + 1]) (seq 0 n).
Fixpoint merkle_from (from d : nat) : program :=
  match d with 0 => [] | S d' => level from (2 ^ d') ++ merkle_from (from + 2 ^ d) d' end.
Definition merkle (d : nat) : program := merkle_from 0 d.
(** the root by halves, the usual definition *)
Fixpoint merkle_root {F} {FO : FieldOps F} (H : list F -> F) (d : nat) (xs : list F) : F :=
  match d with
  | 0 => nth 0 xs fzero
  | S d' => H [merkle_root H d' (firstn (2 ^ d') xs); merkle_root H d' (skipn (2 ^ d') xs)]
  end.
