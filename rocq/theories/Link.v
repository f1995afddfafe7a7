(** Small vocabulary of the property statements: when a [Spec] is a Poseidon specification, and its
    textbook permutation. *)
From Coq Require Import ZArith List Arith.
From Verif Require Import Field Rust Primitives Specs SpecHash.
Import ListNotations.

Section Link.
  Context {F : Type} {FO : FieldOps F}.

  (** the trait laws of [Spec] (primitives.rs:43-63): x^5 S-box, T x T matrix, one constant per word and
      round *)
  Definition poseidon_spec (T : nat) (s : spec F) : Prop :=
    (forall x, sbox s x = power5 x)
    /\ (length (mds s) = T /\ Forall (fun r => length r = T) (mds s))
    /\ Forall (fun r => length r = T) (round_constants s)
    /\ Nat.div2 (full_rounds s) + partial_rounds s + Nat.div2 (full_rounds s)
       <= length (round_constants s).

  (** the textbook permutation with the constants of a spec *)
  Definition textbook (s : spec F) : list F -> list F :=
    spec_permute (mds s) (Nat.div2 (full_rounds s)) (partial_rounds s) (round_constants s).

  (** tables for width 3 with 8 full rounds *)
  Definition constants_ok (c : p128_constants F) : Prop :=
    (length (pc_mds c) = 3 /\ Forall (fun r => length r = 3) (pc_mds c))
    /\ Forall (fun r => length r = 3) (pc_round_constants c)
    /\ length (pc_round_constants c) = 8 + pc_partial_rounds c.

  (** the textbook permutation of a set of tables *)
  Definition poseidon_permutation (c : p128_constants F) : list F -> list F :=
    spec_permute (pc_mds c) 4 (pc_partial_rounds c) (pc_round_constants c).

  (** what a two-word call and a message call must return *)
  Definition two_word_hash (c : p128_constants F) (a b d : F) : F :=
    nth 0 (poseidon_permutation c [d; a; b]) fzero.
  Definition message_hash (c : p128_constants F) (cap : F) (msg : list F) : F :=
    sponge_hash (poseidon_permutation c) 3 2 1 0 cap msg.
End Link.
