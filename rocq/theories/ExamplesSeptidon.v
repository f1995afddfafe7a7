(** A concrete case that meets the hypotheses of the theorems of PropertiesSeptidon.v: the circuit of the repository's own test
    [septidon_permutation] (poseidon-circuit/src/poseidon/septidon/tests.rs:8-18), with the vector it expects (tests.rs:58-60). *)
From Coq Require Import ZArith List Arith Lia Bool.
From Verif Require Import Field ZpField Primes Rust Primitives Specs Bn256 BaseHash SpecHash Link Const_proof Base_claims Halo2 Septidon SeptidonUse
  ExamplesBase.
Import ListNotations.
Local Open Scope nat_scope.

Definition test_state : arr3 Fr := (fr 0, fr 1, fr 2).

Lemma ex_septidon : constants_ok bn256_c /\ pc_partial_rounds bn256_c = 57 /\ (exists s, compact_spec bn256_c = Ok s)
  /\ 26 / 8 = 3 /\ 8 * 3 <= 26 /\ 26 <= 2 ^ 5 /\ length [test_state; test_state; test_state] = 3.
Proof.
  split; [exact bn256_ok|]. split; [reflexivity|]. split; [apply compact_spec_exists, bn256_ok|].
  split; [reflexivity|]. split; [apply Nat.leb_le; reflexivity|]. split; [apply Nat.leb_le; reflexivity|]. reflexivity.
Qed.

(** the vector is a test, evaluated when the file is built, as those of ExamplesBase.v: what the theorems say is permuted, and what the
    circuit returns *)
Definition test_result : list Z := [
  0x115cc0f5e7d690413df64c6b9662e9cf2a3617f2743245519e19607a4417189a;
  0x0fca49b798923ab0239de1c9e7a4a9a2210312b6a2f616d18b5a87f9b628ae29;
  0x0e7ae82e40091e63cbd4f16a6d16310b3729d4b6e138fcf54110e2867045a30c]%Z.
Definition is_result (l : list Fr) : bool := forallb (fun '(x, z) => Z.eqb (to_Z x) z) (combine l test_result) && (length l =? 3).
Definition is_known (v : arr3 (option Fr)) : bool :=
  match v with (Some x, Some y, Some z) => is_result [x; y; z] | _ => false end.
Definition test_permutation : True := ltac:(evaluates_to_true (is_result (poseidon_permutation bn256_c (state_words test_state)))).
Definition test_circuit : True := ltac:(evaluates_to_true (match compact_spec bn256_c with
  | Ok s => let rcs := round_constants s in let m := mds s in
      match test_synthesize rcs m (fst (test_configure rcs m)) (repeat (map3 Some test_state) 3) (layout_empty (snd (test_configure rcs m))) with
      | Ok (_, outs) => forallb is_known outs && (length outs =? 3)
      | Panic => false
      end
  | Panic => false
  end)).
