(** Byte messages as spec/hash-table.md ("Var-Len Mode") lays them out: words of [k] bytes (half a step), least
    significant byte first, two words per row, zero padding, and the length in bytes as capacity. *)
From Coq Require Import ZArith NArith List Arith.
From Coq.Init Require Import Byte.
From Verif Require Import Field Rust Primitives BaseHash SpongeTable TableUse LookupUse.
Import ListNotations.
Local Open Scope nat_scope.

(** the number written in bytes, least significant first; missing bytes count as zeros *)
Definition word_value (l : list byte) : Z := fold_right (fun b v => Z.of_N (Byte.to_N b) + 256 * v)%Z 0%Z l.

(** rows of 2 [k] bytes needed for a message *)
Definition byte_row_count (k : nat) (l : list byte) : nat := (length l + (2 * k - 1)) / (2 * k).

Section Use.
  Context {F : Type} {FO : FieldOps F}.

  (** word [j] of a message *)
  Definition byte_word (k : nat) (l : list byte) (j : nat) : F := of_Z (word_value (firstn k (skipn (j * k) l))).
  Definition byte_rows (k : nat) (l : list byte) : list (F * F) :=
    map (fun i => (byte_word k l (2 * i), byte_word k l (2 * i + 1))) (seq 0 (byte_row_count k l)).
  (** the words in order, and the capacity (times 2^64, except in legacy mode) *)
  Definition byte_words (k : nat) (l : list byte) : list F := flat_map (fun '(a, b) => [a; b]) (byte_rows k l).
  Definition byte_capacity (legacy : bool) (l : list byte) : N := (N.of_nat (length l) * (if legacy then 1 else 2 ^ 64))%N.
  (** the digest of a byte message through the hash API *)
  Definition byte_hash (legacy : bool) (s : spec F) (k : nat) (l : list byte) : result F :=
    hash_msg legacy s (byte_words k l) (Some (byte_capacity legacy l)).
  (** the call that adds a byte message to the table *)
  Definition stream_bytes (k : nat) (l : list byte) : builder_call (F := F) :=
    StreamInputsUnchecked (byte_rows k l) (N.of_nat (length l)) (2 * k).
  (** a circuit that finds the message [l] with digest [d] in the table: row [row i] for its [i]-th pair of words, the
      first row being the head of a message *)
  Definition looks_up (C : hash_circuit F) (adv : nat -> nat -> F) (calcs k : nat) (l : list byte) (d : F) (row : nat -> nat) : Prop :=
    head C adv (row 0) = fone
    /\ forall i, i < byte_row_count k l -> 1 <= row i <= calcs
       /\ table_tuple C adv (row i)
          = [d; byte_word k l (2 * i); byte_word k l (2 * i + 1); length_code (hc_legacy C) (N.of_nat (length l - i * (2 * k))); fzero;
             head C adv (row i)].
End Use.
