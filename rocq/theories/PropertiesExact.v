(** Property C63: which exposed tables a prover can make the hash table circuit accept. *)
From Coq Require Import ZArith NArith List Arith.
From Verif Require Import Field Primes Rust Primitives Specs BaseHash SpecHash Bn256 Link Const_proof Halo2 Septidon PermuteChip ChipUse SpongeTable TableUse
  ExactUse Exact_claims ExamplesTable ExamplesExact ExamplesBase.
Import ListNotations.
Local Open Scope nat_scope.

(** C63: with a host that does not look into the columns [configure_sub] adds *)
Theorem C63_exactly : forall F (FO : FieldOps F) (PF : PrimeField F) c (C : hash_circuit F) mode calcs t L0 L1 L copies n u adv,
  set_up c C mode calcs t L0 L1 L copies n u ->
  (Z.of_nat (calcs * hc_step C + hc_range C) * (if hc_legacy C then 1 else 2 ^ 64) < modulus (F := F))%Z ->
  host_apart C L0 L copies n u ->
  ((exists adv', same_outside C adv adv' /\ satisfied n u (hc_cs C) L adv')
   <-> table_relation (poseidon_permutation c) C n u calcs adv /\ host_ok C L0 L copies n u adv).
Proof. exact (fun F FO PF => exact_claim). Qed.
Print Assumptions C63_exactly.

(** C63: with any host *)
Theorem C63_any_host : forall F (FO : FieldOps F) (PF : PrimeField F) c (C : hash_circuit F) mode calcs t L0 L1 L copies n u adv,
  set_up c C mode calcs t L0 L1 L copies n u ->
  (Z.of_nat (calcs * hc_step C + hc_range C) * (if hc_legacy C then 1 else 2 ^ 64) < modulus (F := F))%Z ->
  (satisfied n u (hc_cs C) L adv ->
     table_relation (poseidon_permutation c) C n u calcs adv /\ host_ok C L0 L copies n u adv)
  /\ (table_relation (poseidon_permutation c) C n u calcs adv ->
      exists adv', same_outside C adv adv' /\ (host_ok C L0 L copies n u adv' -> satisfied n u (hc_cs C) L adv')).
Proof. exact (fun F FO PF => any_host_claim). Qed.
Print Assumptions C63_any_host.

(** C63: whatever the permutation chip, the assignment mode, the table the circuit was laid out with and the host, the
    exposed tables that one circuit accepts are accepted by the other *)
Theorem C63_same_tables : forall F (FO : FieldOps F) (PF : PrimeField F) c (C C' : hash_circuit F) mode mode' calcs t t'
    L0 L1 L L0' L1' L' copies copies' n u adv adv0,
  set_up c C mode calcs t L0 L1 L copies n u -> set_up c C' mode' calcs t' L0' L1' L' copies' n u ->
  same_reading C C' ->
  (Z.of_nat (calcs * hc_step C + hc_range C) * (if hc_legacy C then 1 else 2 ^ 64) < modulus (F := F))%Z ->
  satisfied n u (hc_cs C) L adv ->
  (forall j r, j < 6 -> tcell C' adv0 j r = tcell C adv j r) ->
  exists adv', same_outside C' adv0 adv' /\ (host_ok C' L0' L' copies' n u adv' -> satisfied n u (hc_cs C') L' adv').
Proof. exact (fun F FO PF => same_tables_claim). Qed.
Print Assumptions C63_same_tables.

(** BN254, both builds: 3 rows laid out with an empty table, and an exposed table with two hashes *)
Example C63_instance : forall mode, mode_ok mode -> exists (C C' : hash_circuit Fr) L0 L L' n u,
  build bn256_c true (hc_spec C) (hc_chip C) 8 /\ build bn256_c false (hc_spec C') (hc_chip C') 38
  /\ set_up bn256_c C mode 3 empty_table L0 L L [] n u /\ set_up bn256_c C' mode 3 empty_table L0 L' L' [] n u
  /\ same_reading C C'
  /\ (Z.of_nat (3 * hc_step C + hc_range C) * (if hc_legacy C then 1 else 2 ^ 64) < modulus (F := Fr))%Z
  /\ host_apart C L0 L [] n u /\ host_apart C' L0 L' [] n u
  /\ (forall adv, host_ok C L0 L [] n u adv) /\ (forall adv, host_ok C' L0 L' [] n u adv)
  /\ table_relation (poseidon_permutation bn256_c) C n u 3 ex_shown
  /\ message C ex_shown 3 1 1 /\ message C ex_shown 3 2 2
  /\ (forall j r, tcell C' ex_shown j r = tcell C ex_shown j r)
  /\ exists adv, same_outside C ex_shown adv /\ satisfied n u (hc_cs C) L adv.
Proof. exact ex_exact. Qed.
