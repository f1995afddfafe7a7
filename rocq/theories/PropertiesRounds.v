(** Property C56: the Septidon chip and the number of partial rounds. *)
From Coq Require Import ZArith List Arith.
From Verif Require Import Field ZpField Primes Rust Primitives Specs Pasta SpecHash Link Halo2 PermuteChip ChipUse
  Rounds_claims ExamplesPow5 ExamplesGadget ExamplesSept ExamplesRounds ExamplesBase.
Import ListNotations.
Local Open Scope nat_scope.

(** fewer than 57: no permutation can be laid out *)
Theorem C56_fewer_rounds : forall F (FO : FieldOps F) (PF : PrimeField F) (c : p128_constants F) s,
  constants_ok c -> pc_partial_rounds c < 57 -> compact_spec c = Ok s ->
  let P := septidon_chip (round_constants s) (mds s) in
  (forall cfg ws L, pc_permute P cfg ws L = Panic)
  /\ (forall cfg threads wss L, wss <> [] -> pc_permute_batch P threads cfg wss L = Panic).
Proof. exact (fun F FO PF => fewer_rounds_claim). Qed.
Print Assumptions C56_fewer_rounds.
Example C56_instance_fewer : exists s, constants_ok pasta_constants /\ pc_partial_rounds pasta_constants < 57
  /\ compact_spec pasta_constants = Ok s.
Proof. exact ex_fewer_rounds. Qed.

(** 57 or more: the circuit computes 4 full, 57 partial and 4 full rounds with the first 65 constants of the cached table *)
Theorem C56_more_rounds : forall F (FO : FieldOps F) (PF : PrimeField F) (c : p128_constants F) s (cs0 : cs F) L calls other n adv,
  constants_ok c -> 57 <= pc_partial_rounds c -> compact_spec c = Ok s ->
  let P := septidon_chip (round_constants s) (mds s) in
  let cfg := fst (pc_configure P cs0) in let cs1 := snd (pc_configure P cs0) in
  chip_used P cfg (added cs0 cs1) L calls other -> 8 * length calls <= n ->
  gates_hold n L adv (cs_gates cs1) -> copies_hold L adv ->
  forall ws out, In (ws, out) calls ->
  map (word_at L adv) out = spec_permute (mds s) 4 57 (round_constants s) (map (word_at L adv) ws).
Proof. exact (fun F FO PF => more_rounds_claim). Qed.
Print Assumptions C56_more_rounds.

(** so with more than 57 it accepts, without any error, words that are not the permutation of the constants *)
Theorem C56_any_rounds_refuted : exists s, constants_ok toy58 /\ pc_partial_rounds toy58 = 58 /\ compact_spec toy58 = Ok s
  /\ let P := septidon_chip (round_constants s) (mds s) in
     let cfg := fst (pc_configure P (host (F := F19))) in let cs1 := snd (pc_configure P host) in
     exists L ws out out2 adv, let calls := [(ws, out); (out, out2)] in
       chip_used P cfg (added host cs1) L calls [] /\ 8 * length calls <= 19
       /\ gates_hold 19 L adv (cs_gates cs1) /\ copies_hold L adv
       /\ map (word_at L adv) ws = [g 1; g 2; g 3]
       /\ map (word_at L adv) out <> poseidon_permutation toy58 (map (word_at L adv) ws).
Proof. exact ex_more_rounds. Qed.
Print Assumptions C56_any_rounds_refuted.
