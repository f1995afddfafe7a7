(** Vocabulary for whole runs of the hash table circuit: the expected digests of builder calls, and the stand-alone circuit.
    Specification, not a model of code, except [standalone]. *)
From Coq Require Import ZArith NArith List.
From Verif Require Import Field Rust Primitives BaseHash Halo2 PermuteChip SpongeTable TableUse.
Import ListNotations.

Section Use.
  Context {F : Type} {FO : FieldOps F}.

  (** the words of a message, in order *)
  Definition words_of (src : list (F * F)) : list F := flat_map (fun '(a, b) => [a; b]) src.
  (** every digest that a call expects is the one of the hash API *)
  Definition checks_right (legacy : bool) (s : spec F) (b : builder_call (F := F)) : Prop :=
    match b with
    | ConstantInputsWithCheck src => forall x ck, In (x, ck) src -> hash_with_domain s x fzero = Ok ck
    | FixedInputs src => forall x d ck, In (x, d, Some ck) src -> hash_with_domain s x d = Ok ck
    | StreamInputs src (Some ck) c _ => hash_msg legacy s (words_of src) (Some (c * (if legacy then 1 else 2 ^ 64))%N) = Ok ck
    | _ => True
    end.
  (** the start of a stream is a u64 (hash.rs:282 and 293) *)
  Definition start_u64 (b : builder_call (F := F)) : Prop :=
    match b with
    | StreamInputs _ _ c _ | StreamInputsUnchecked _ c _ => (c < 2 ^ 64)%N
    | _ => True
    end.

  (** a circuit with nothing but the hash table: [TestCircuit] (tests/hash_proving.rs:25-51, and hash.rs:999-1043 with the fixed
      column first).  The 6 advice columns and the fixed column are its own, STEP is the step of [configure_sub], and
      [synthesize] is [load]. *)
  Definition standalone_host : cs F :=
    {| cs_adv := 6; cs_fix := 1; cs_sel := 0; cs_gates := []; cs_lookups := []; cs_eq := []; cs_const := [] |}.
  Definition standalone (P : permute_chip F) (s : spec F) (legacy : bool) (step : nat) : hash_circuit F :=
    {| hc_legacy := legacy; hc_chip := P; hc_spec := s; hc_range := step; hc_host := standalone_host; hc_enable := 0;
       hc_table := [0; 1; 2; 3; 4; 5]; hc_step := step |}.
  Definition synthesize (P : permute_chip F) (s : spec F) (legacy : bool) (step : nat) (mode : assignment_mode) (calcs : nat) (t : hash_table F)
    : result (layout F * unit) := hc_load (standalone P s legacy step) mode calcs t (layout_empty standalone_host).
End Use.
