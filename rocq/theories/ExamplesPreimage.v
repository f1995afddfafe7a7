(** Concrete cases that meet the hypotheses of the theorems of PropertiesPreimage.v: the circuits of the repository's own tests,
    [poseidon_hash], [poseidon_hash_longer_input] and [hash_test_vectors] (poseidon-circuit/src/poseidon/pow5.rs:941-1002). *)
From Coq Require Import ZArith List Arith Lia.
From Verif Require Import Field ZpField Primes Rust BigSum Perm_proof Primitives Specs Pasta BaseHash SpecHash Link Const_proof Base_claims Bij_claims Halo2 Pow5 Pow5Use Gadget CostUse
  ProgramUse PreimageUse Preimage_claims.
Import ListNotations.
Local Open Scope nat_scope.

(** message words and k of the tests *)
Definition preimage_tests : list (nat * nat) := [(2, 6); (3, 7)].
Notation orchard := (p128_spec pasta_constants).

Lemma ex_preimage : poseidon_spec 3 orchard /\ mat_prod_id 3 (mds orchard) (mds_inv orchard) /\ mat_prod_id 3 (mds_inv orchard) (mds orchard)
  /\ block_rows orchard = 40
  /\ forall N k, In (N, k) preimage_tests -> 0 < N /\ N <= 3 /\ preimage_rows 3 orchard N <= 2 ^ k - 6 /\ 2 ^ k - 6 <= 2 ^ k.
Proof.
  destruct pasta_inverse as [I1 I2]. split; [exact (p128_spec_ok pasta_constants pasta_ok)|]. split; [exact I1|]. split; [exact I2|].
  split; [reflexivity|]. intros N k [H|[H|[]]]; injection H as <- <-; (split; [lia|]; split; [lia|]; split; [|cbn; lia]);
    apply Nat.leb_le; reflexivity.
Qed.

Lemma ex_least : forall N k, In (N, k) preimage_tests -> 2 ^ (k - 1) - 6 < 3 + (N + 1) / 2 * block_rows orchard.
Proof. intros N k [H|[H|[]]]; injection H as <- <-; apply Nat.ltb_lt; reflexivity. Qed.
