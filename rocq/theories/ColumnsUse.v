(** The accessors of the hash table's columns (hash.rs:64-73), and the lines a user expects in these columns. *)
From Coq Require Import ZArith NArith List Arith.
From Verif Require Import Field Rust Primitives BaseHash Halo2 PermuteChip SpongeTable TableUse.
Import ListNotations.
Local Open Scope nat_scope.

Section Model.
  Context {F : Type} {FO : FieldOps F} {P : permute_chip F}.
  (** [hash_tbl_cols] (hash.rs:70-72) *)
  Definition hash_tbl_cols (cfg : sponge_config P) : list column := map Adv (sc_table cfg).
  (** [commitment_index] (hash.rs:65-67): [index()] of each column; an advice column is its index here *)
  Definition commitment_index (cfg : sponge_config P) : list nat :=
    map (fun c => match c with Adv i => i | Fix i => i | Sel i => i end) (hash_tbl_cols cfg).
End Model.

(** Specification *)
Section Lines.
  Context {F : Type} {FO : FieldOps F}.
  (** what is committed to in row [r] of some advice columns *)
  Definition line (cols : list nat) (adv : nat -> nat -> F) (r : nat) : list F := map (fun c => adv c r) cols.
  (** a line of zeros *)
  Definition blank : list F := [fzero; fzero; fzero; fzero; fzero; fzero].
  (** digest, two words, length code, domain, and whether a message starts here *)
  Definition filled (legacy : bool) (d : result F) (row : table_row) (first : bool) : result (list F) :=
    let '(x, n, dom, _) := row in
    match d with
    | Ok v => Ok [v; fst x; snd x; length_code legacy n; dom; if first then fone else fzero]
    | Panic => Panic
    end.
  (** in a stream the first row starts a message; otherwise each row does *)
  Definition starts (b : builder_call (F := F)) : list bool :=
    match b with
    | StreamInputs src _ _ _ | StreamInputsUnchecked src _ _ => map (fun i => i =? 0) (seq 0 (length src))
    | _ => map (fun _ => true) (builder_rows b)
    end.
  (** the lines of a builder call, with the digests of the hash API *)
  Definition call_lines (legacy : bool) (s : spec F) (b : builder_call (F := F)) : list (result (list F)) :=
    map (fun '(d, (row, first)) => filled legacy d row first) (combine (api_hashes legacy s b) (combine (builder_rows b) (starts b))).
End Lines.
