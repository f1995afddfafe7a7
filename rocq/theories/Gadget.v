(** Model of the in-circuit sponge and hash of poseidon-circuit/src/poseidon.rs over the Pow5 chip.
    The [Spec] in the types of [Sponge] and [Hash] is taken to be the one the chip was configured with; for calls where
    it is not see C57. *)
From Coq Require Import ZArith List Arith.
From Verif Require Import Field Rust Primitives Halo2 Pow5.
Import ListNotations.
Local Open Scope nat_scope.

Section Model.
  Context {F : Type} {FO : FieldOps F}.
  Variable T RATE : nat.
  Variable s : spec F.
  Variable cfg : pow5.
  Notation word := (acell F).
  Notation padded := (padded_word F).

  (** [poseidon_sponge] (poseidon.rs:144-162): the state after the call and the words [get_output] returns *)
  Definition circuit_sponge (st : list word) (input : option (list (option padded)))
    : Layouter F (list word * list (option word)) :=
    lbind (match input with Some m => p5_add_input T RATE cfg st m | None => lret st end)
          (fun st => lbind (p5_permute s cfg st) (fun st => lret (st, p5_get_output RATE st))).

  (** [Sponge] (poseidon.rs:166-179) in its two modes *)
  Record c_absorbing : Type := { ab_mode : list (option padded); ab_state : list word }.
  Record c_squeezing : Type := { sq_mode : list (option word); sq_state : list word }.

  (** [Sponge::new] (poseidon.rs:191-204) for a domain with initial capacity element [cap].  The chip's
      [initial_state] does not look at the domain's [layout]. *)
  Definition circuit_new (cap : F) : Layouter F c_absorbing :=
    lbind (p5_initial_state RATE cfg cap) (fun st => lret {| ab_mode := repeat None RATE; ab_state := st |}).

  (** the loop at poseidon.rs:212-217 *)
  Fixpoint put_first (v : padded) (l : list (option padded)) : option (list (option padded)) :=
    match l with
    | [] => None
    | None :: l' => Some (Some v :: l')
    | Some x :: l' => option_map (cons (Some x)) (put_first v l')
    end.

  (** [Sponge::absorb] (poseidon.rs:207-229); [Absorbing::init_with] as in the primitives *)
  Definition circuit_absorb (sp : c_absorbing) (v : padded) : Layouter F c_absorbing :=
    match put_first v (ab_mode sp) with
    | Some m => lret {| ab_mode := m; ab_state := ab_state sp |}
    | None =>
      lbind (circuit_sponge (ab_state sp) (Some (ab_mode sp))) (fun '(st, _) =>
      lbind (llift (let l := Some v :: repeat None (RATE - 1) in if length l =? RATE then Ok l else Panic)) (fun m =>
      lret {| ab_mode := m; ab_state := st |}))
    end.

  (** [Sponge::finish_absorbing] (poseidon.rs:233-251) *)
  Definition circuit_finish (sp : c_absorbing) : Layouter F c_squeezing :=
    lbind (circuit_sponge (ab_state sp) (Some (ab_mode sp))) (fun '(st, out) =>
    lret {| sq_mode := out; sq_state := st |}).

  (** the loop at poseidon.rs:266-270 *)
  Fixpoint pop_first (l : list (option word)) : option (word * list (option word)) :=
    match l with
    | [] => None
    | Some x :: l' => Some (x, None :: l')
    | None :: l' => option_map (fun '(x, r) => (x, None :: r)) (pop_first l')
    end.

  (** [Sponge::squeeze] (poseidon.rs:264-280); like the primitive it would not terminate for RATE = 0, shown as
      [Panic] *)
  Definition circuit_squeeze (sp : c_squeezing) : Layouter F (word * c_squeezing) :=
    match pop_first (sq_mode sp) with
    | Some (x, m) => lret (x, {| sq_mode := m; sq_state := sq_state sp |})
    | None =>
      lbind (circuit_sponge (sq_state sp) None) (fun '(st, out) =>
      match pop_first out with
      | Some (x, m) => lret (x, {| sq_mode := m; sq_state := st |})
      | None => fun _ => Panic
      end)
    end.

  (** [Hash::init] (poseidon.rs:306-308) for [ConstantLength<L>]; a [Hash] is its sponge *)
  Definition circuit_hash_init (L : nat) : Layouter F c_absorbing :=
    circuit_new (initial_capacity_element (constant_length RATE L)).

  (** [Hash::hash] (poseidon.rs:321-338) for [ConstantLength<L>]; the message has [L] words *)
  Definition circuit_hash (L : nat) (h : c_absorbing) (message : list word) : Layouter F word :=
    lbind (llift (constant_length_padding RATE L L)) (fun pad =>
    lbind (lfold circuit_absorb (map Message message ++ map Padding pad) h) (fun sp =>
    lbind (circuit_finish sp) (fun sp =>
    lbind (circuit_squeeze sp) (fun '(x, _) => lret x)))).

  (** A use of the sponge from start to end: absorb some words, finish, squeeze [k] words. *)
  Fixpoint circuit_squeezes (k : nat) (sp : c_squeezing) : Layouter F (list word) :=
    match k with
    | O => lret []
    | S k' => lbind (circuit_squeeze sp) (fun '(x, sp) => lbind (circuit_squeezes k' sp) (fun r => lret (x :: r)))
    end.
  Definition circuit_session (cap : F) (input : list padded) (k : nat) : Layouter F (list word) :=
    lbind (circuit_new cap) (fun sp =>
    lbind (lfold circuit_absorb input sp) (fun sp =>
    lbind (circuit_finish sp) (fun sp => circuit_squeezes k sp))).
End Model.

(** The same use of the primitive sponge (primitives.rs:235-314). *)
Section Primitive.
  Context {F : Type} {FO : FieldOps F}.
  Fixpoint squeezes (T RATE : nat) (s : spec F) (k : nat) (sp : sponge F) : result (list F) :=
    match k with
    | O => Ok []
    | S k' => do (x, sp) <- squeeze T RATE s sp; do r <- squeezes T RATE s k' sp; Ok (x :: r)
    end.
  Definition session (T RATE : nat) (s : spec F) (cap : F) (layout : nat) (input : list F) (k : nat) : result (list F) :=
    do sp <- absorb_all T RATE s input (sponge_new T RATE cap layout);
    do sp <- finish_absorbing T RATE s sp;
    squeezes T RATE s k sp.
End Primitive.
