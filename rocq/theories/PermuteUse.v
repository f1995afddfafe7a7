(** Model of a complete circuit around one permutation, [PermuteCircuit] (poseidon-circuit/src/poseidon/pow5.rs:732-828): it shows
    knowledge of a state with an expected permutation.  The circuit of the tests has fixed states; here they are parameters. *)
From Coq Require Import ZArith List Arith.
From Verif Require Import Field Rust Primitives Halo2 Pow5 CostUse PreimageUse.
Import ListNotations.
Local Open Scope nat_scope.
Local Open Scope rust_scope.

Section Model.
  Context {F : Type} {FO : FieldOps F}.
  Variable T : nat.
  Variable s : spec F.

  (** the columns of [configure] (pow5.rs:748-752): advice 0 .. T, fixed 0 .. 2T, no constants column *)
  Definition permute_host : cs F :=
    {| cs_adv := T + 1; cs_fix := T + T; cs_sel := 0; cs_gates := []; cs_lookups := []; cs_eq := []; cs_const := [] |}.
  (** [configure] (pow5.rs:747-761) *)
  Definition permute_configure : pow5 * cs F :=
    pow5_configure T (T - 1) s (seq 0 T) T (seq 0 T) (seq T T) permute_host.

  (** region "constrain final state" (pow5.rs:807-826) *)
  Definition constrain_final (cfg : pow5) (final : list (acell F)) (expected : option (list F)) : Region F unit :=
    rdo _ <- rmap (fun i => rdo c <- rlift (index (p5_state cfg) i);
                            rdo e <- assign_advice c 0 (option_map (fun m => nth i m fzero) expected);
                            rdo w <- rlift (index final i);
                            constrain_equal (ac_cell w) (ac_cell e)) (seq 0 T);
    rret tt.
  (** [synthesize] (pow5.rs:763-827); the region "prepare initial state" (pow5.rs:768-785) is the region "load message" for [T] words *)
  Definition permute_synthesize (cfg : pow5) (initial expected : option (list F)) : Layouter F unit :=
    ldo state <- assign_region (load_message cfg T initial);
    ldo final <- p5_permute s cfg state;
    assign_region (constrain_final cfg final expected).

  (** what a prover puts into the cells of the final state of a circuit laid out as [K] *)
  Definition final_of (K : layout F) (adv : nat -> nat -> F) : list F := map (fun i => adv i (last (lo_starts K) 0)) (seq 0 T).
End Model.
