(** Model of a complete circuit around the in-circuit hash, [HashCircuit] (poseidon-circuit/src/poseidon/pow5.rs:838-939):
    it shows knowledge of a message with an expected hash.  Also the vocabulary for its properties. *)
From Coq Require Import ZArith List Arith.
From Verif Require Import Field Rust Primitives Halo2 Pow5 Gadget CostUse.
Import ListNotations.
Local Open Scope nat_scope.
Local Open Scope rust_scope.

Section Model.
  Context {F : Type} {FO : FieldOps F}.
  Variable T : nat.
  Variable s : spec F.

  (** the columns of [configure] (pow5.rs:865-872): advice 0 .. T, fixed 0 .. 2T, the constants go to rc_b[0] *)
  Definition preimage_host : cs F :=
    enable_constant T {| cs_adv := T + 1; cs_fix := T + T; cs_sel := 0; cs_gates := []; cs_lookups := []; cs_eq := []; cs_const := [] |}.
  (** [configure] (pow5.rs:865-881) *)
  Definition preimage_configure : pow5 * cs F :=
    pow5_configure T (T - 1) s (seq 0 T) T (seq 0 T) (seq T T) preimage_host.

  (** region "load message" (pow5.rs:890-913); [None] is the circuit without witnesses *)
  Definition load_message (cfg : pow5) (N : nat) (message : option (list F)) : Region F (list (acell F)) :=
    rmap (fun i => rdo c <- rlift (index (p5_state cfg) i);
                   assign_advice c 0 (option_map (fun m => nth i m fzero) message)) (seq 0 N).
  (** region "constrain output" (pow5.rs:921-937) *)
  Definition constrain_output (cfg : pow5) (out : acell F) (expected : option F) : Region F unit :=
    rdo c <- rlift (index (p5_state cfg) 0);
    rdo e <- assign_advice c 0 expected;
    constrain_equal (ac_cell out) (ac_cell e).
  (** [synthesize] (pow5.rs:883-938) for messages of [N] words *)
  Definition preimage_synthesize (cfg : pow5) (N : nat) (message : option (list F)) (expected : option F) : Layouter F unit :=
    ldo msg <- assign_region (load_message cfg N message);
    ldo h <- circuit_hash_init (T - 1) cfg N;
    ldo out <- circuit_hash T (T - 1) s cfg N h msg;
    assign_region (constrain_output cfg out expected).

  (** rows that are enough for a message of [N] words: the message, the initial state, the blocks, the output *)
  Definition preimage_rows (N : nat) : nat := 1 + T + (N + (T - 1) - 1) / (T - 1) * block_rows s + 1.
  (** what a prover puts into the message cells, and into the output cell of a circuit laid out as [K] *)
  Definition message_of (N : nat) (adv : nat -> nat -> F) : list F := map (fun i => adv i 0) (seq 0 N).
  Definition output_of (K : layout F) (adv : nat -> nat -> F) : F := adv 0 (last (lo_starts K) 0).
End Model.
