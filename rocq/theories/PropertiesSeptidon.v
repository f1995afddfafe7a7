(** Property C79: a circuit with nothing but Septidon permutations.  The vocabulary is in SeptidonUse.v. *)
From Coq Require Import ZArith List Arith.
From Verif Require Import Field ZpField Primes Rust Primitives Specs Bn256 Const_proof BaseHash SpecHash Link Halo2 Septidon Base_claims SeptidonUse Septidon_claims
  ExamplesSeptidon.
Import ListNotations.
Local Open Scope nat_scope.

(** C79: the key made without witnesses accepts only cells where each final state is the permutation of its initial state; from any
    states the honest prover is told the permuted ones, and the witness holds both and is accepted *)
Theorem C79_exact : forall F (FO : FieldOps F) (PF : PrimeField F) (c : p128_constants F) s,
  constants_ok c -> pc_partial_rounds c = 57 -> compact_spec c = Ok s ->
  let rcs := round_constants s in let m := mds s in let cfg := fst (test_configure rcs m) in let cs1 := snd (test_configure rcs m) in
  forall k n u, 8 * k <= u -> u <= n ->
  exists K outs, test_synthesize rcs m cfg (repeat (None, None, None) k) (layout_empty cs1) = Ok (K, outs)
    /\ fits u K /\ copies_enabled cs1 K
    /\ (forall adv, satisfied n u cs1 K adv -> forall i, i < k -> last_state adv i = poseidon_permutation c (first_state adv i))
    /\ (forall states, length states = k ->
         exists L finals, test_synthesize rcs m cfg (map (map3 Some) states) (layout_empty cs1) = Ok (L, map (map3 Some) finals)
           /\ map state_words finals = map (fun st => poseidon_permutation c (state_words st)) states
           /\ fits u L
           /\ forall blind, let adv := honest u L blind in
              satisfied n u cs1 K adv
              /\ map (first_state adv) (seq 0 k) = map state_words states /\ map (last_state adv) (seq 0 k) = map state_words finals).
Proof. exact (fun F FO PF => septidon_exact). Qed.
Print Assumptions C79_exact.

(** over the scalar field of BN254 any final states can be shown, and from just one list of initial states *)
Theorem C79_bn254_inverse : forall s, compact_spec bn256_c = Ok s ->
  let rcs := round_constants s in let m := mds s in let cfg := fst (test_configure rcs m) in let cs1 := snd (test_configure rcs m) in
  forall k n u, 8 * k <= u -> u <= n ->
  exists K outs, test_synthesize rcs m cfg (repeat (None, None, None) k) (layout_empty cs1) = Ok (K, outs)
    /\ forall finals, length finals = k -> exists states, length states = k
       /\ (exists adv, satisfied n u cs1 K adv /\ map (last_state adv) (seq 0 k) = map state_words finals)
       /\ forall adv, satisfied n u cs1 K adv ->
          (map (last_state adv) (seq 0 k) = map state_words finals <-> map (first_state adv) (seq 0 k) = map state_words states).
Proof. exact septidon_inverse. Qed.
Print Assumptions C79_bn254_inverse.

(** whatever the states, known or not, it can be laid out, and takes 8 rows for each *)
Theorem C79_rows : forall F (FO : FieldOps F) (PF : PrimeField F) (c : p128_constants F) s,
  constants_ok c -> pc_partial_rounds c = 57 -> compact_spec c = Ok s ->
  let rcs := round_constants s in let m := mds s in let cfg := fst (test_configure rcs m) in let cs1 := snd (test_configure rcs m) in
  forall states, exists L outs, test_synthesize rcs m cfg states (layout_empty cs1) = Ok (L, outs)
    /\ forall u, fits u L <-> 8 * length states <= u.
Proof. exact (fun F FO PF => septidon_rows). Qed.
Print Assumptions C79_rows.

(** the circuit of the repository's test: three permutations of one state in the 26 usable rows of [k = 5] *)
Example C79_instance : constants_ok bn256_c /\ pc_partial_rounds bn256_c = 57 /\ (exists s, compact_spec bn256_c = Ok s)
  /\ 26 / 8 = 3 /\ 8 * 3 <= 26 /\ 26 <= 2 ^ 5 /\ length [test_state; test_state; test_state] = 3.
Proof. exact ex_septidon. Qed.
