(** Concrete cases that meet the hypotheses of the theorems of PropertiesPermute.v: the circuit of the repository's own test
    [poseidon_permute] (poseidon-circuit/src/poseidon/pow5.rs:829-835), and a specification over a field where 5 is prime to p - 1. *)
From Coq Require Import ZArith Znumtheory List Arith Lia.
From Verif Require Import Field ZpField Primes Rust BigSum Perm_proof Primitives Specs Pasta BaseHash SpecHash Link Const_proof Base_claims Bij_claims
  Halo2 Pow5 Pow5Use Gadget CostUse PreimageUse PermuteUse ExamplesPreimage ExamplesMore ExamplesBase.
Import ListNotations.
Local Open Scope nat_scope.

Lemma ex_permute : poseidon_spec 3 orchard /\ mat_prod_id 3 (mds orchard) (mds_inv orchard) /\ mat_prod_id 3 (mds_inv orchard) (mds orchard)
  /\ rel_prime 5 (modulus (F := Pallas) - 1) /\ permute_rows orchard + 2 = 39 /\ permute_rows orchard + 2 <= 2 ^ 6 - 6 /\ 2 ^ 5 - 6 < permute_rows orchard + 2.
Proof.
  destruct ex_preimage as (A & B & C & _). split; [exact A|]. split; [exact B|]. split; [exact C|].
  split; [exact pallas_5|]. split; [reflexivity|].
  split; [apply Nat.leb_le; reflexivity|]. apply Nat.ltb_lt. reflexivity.
Qed.
