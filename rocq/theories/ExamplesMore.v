(** Instances for PropertiesMore.v. *)
From Coq Require Import ZArith Znumtheory List Arith.
From Verif Require Import Field ZpField Primes Rust BigSum Primitives Specs Link Halo2 Pow5 DegreeUse ExamplesPow5 ExamplesGadget.
Import ListNotations.
Local Open Scope nat_scope.

Lemma ex_tri_bijection : rel_prime 5 (modulus (F := F19) - 1) /\ poseidon_spec 3 tri
  /\ mat_prod_id 3 (mds tri) (mds_inv tri) /\ mat_prod_id 3 (mds_inv tri) (mds tri).
Proof.
  split; [apply Zgcd_1_rel_prime; vm_compute; reflexivity|]. split; [exact tri_spec_ok|exact tri_inv].
Qed.
Lemma ex_degree : pow5_configure 3 2 tri [0; 1; 2] 3 [0; 1; 2] [3; 4; 5] tri_host = (tri_cfg, tri_cs)
  /\ required_degree tri_host = 3 /\ required_degree tri_cs = 6.
Proof. split; [reflexivity|]. split; vm_compute; reflexivity. Qed.
