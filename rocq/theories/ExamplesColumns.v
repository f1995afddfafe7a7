(** Cases that meet the hypotheses of PropertiesColumns.v. *)
From Coq Require Import ZArith NArith List Arith.
From Verif Require Import Field ZpField Primes Rust Primitives Specs BaseHash Bn256 Link PermuteChip ChipUse SpongeTable TableUse ColumnsUse ExamplesTable ExamplesBase.
Import ListNotations.
Local Open Scope nat_scope.

(** a hash of two words and a message of two rows *)
Lemma ex_starts : flat_map starts demo_calls = [true; true; false].
Proof. reflexivity. Qed.
(** the lines of one call, in a build without "legacy": the two rows carry the digest of the message, the lengths that remain, and where it starts *)
Lemma ex_lines : forall (s : spec Fr) v, hash_msg false s [fr 3; fr 4; fr 5; fr 6] (Some (100 * 2 ^ 64)%N) = Ok v ->
  call_lines false s (StreamInputsUnchecked [(fr 3, fr 4); (fr 5, fr 6)] 100%N 62)
  = [Ok [v; fr 3; fr 4; length_code false 100; fzero; fone]; Ok [v; fr 5; fr 6; length_code false 38; fzero; fzero]].
Proof.
  intros s v H. unfold call_lines, api_hashes. cbn [flat_map app length repeat]. rewrite H. reflexivity.
Qed.
