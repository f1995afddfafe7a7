(** Vocabulary for circuits that use the instructions of the Pow5 chip.  Specification, not a model of code. *)
From Coq Require Import ZArith List Arith.
From Verif Require Import Field Rust Primitives Specs Halo2 Built Pow5.
Import ListNotations.
Local Open Scope nat_scope.

Section Use.
  Context {F : Type} {FO : FieldOps F}.

  (** columns for a chip of width [T]: all different *)
  Definition columns_ok (T : nat) (state : list nat) (sbox : nat) (rc_a rc_b : list nat) : Prop :=
    length state = T /\ length rc_a = T /\ length rc_b = T
    /\ NoDup (sbox :: state) /\ NoDup (rc_a ++ rc_b).

  Definition p5_selectors (cfg : pow5) : list nat := [p5_full cfg; p5_partial cfg; p5_single cfg; p5_pad cfg].

  (** value of a padded word *)
  Definition padded_carries (L : layout F) (w : padded_word F) (v : F) : Prop :=
    match w with Message a => carries L a v | Padding x => v = x end.

  (** a successful call of an instruction on words with known values *)
  Inductive p5_instruction (T RATE : nat) (s : spec F) (cfg : pow5) : layout F -> layout F -> Prop :=
  | do_permute : forall L L' ws xs out,
      length ws = T -> Forall2 (carries L) ws xs -> p5_permute s cfg ws L = Ok (L', out) ->
      p5_instruction T RATE s cfg L L'
  | do_initial_state : forall L L' cap out,
      p5_initial_state RATE cfg cap L = Ok (L', out) -> p5_instruction T RATE s cfg L L'
  | do_add_input : forall L L' ws xs input ys out,
      length ws = T -> Forall2 (carries L) ws xs -> length input = RATE ->
      Forall2 (fun i y => forall w, i = Some w -> padded_carries L w y) input ys ->
      p5_add_input T RATE cfg ws input L = Ok (L', out) ->
      p5_instruction T RATE s cfg L L'.
End Use.
