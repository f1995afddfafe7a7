(** Properties C49 and C50, and further theorems on C08 and C15.  The vocabulary is in WitnessUse.v and DegreeUse.v. *)
From Coq Require Import ZArith Znumtheory List Arith Bool.
From Verif Require Import Field ZpField Primes Rust BigSum SpecHash Primitives Specs Grain Mds Pasta BaseHash Link Mds_proof Bij_claims Halo2
  Septidon PermuteChip ChipUse Pow5 Built Pow5Use Gadget GadgetUse WitnessUse GadgetUnique_proof SpongeTable TableUse DegreeUse Degree_claims
  Sept_claims Const_proof ExamplesPow5 ExamplesGadget ExamplesMore ExamplesBase.
Import ListNotations.
Local Open Scope nat_scope.

(** C08: every Poseidon permutation of every width, over a field in which x^5 is a bijection *)
Theorem C08_permutation_bijection : forall F (FO : FieldOps F) (PF : PrimeField F) T (s : spec F) mi,
  rel_prime 5 (modulus (F := F) - 1) -> poseidon_spec T s -> mat_prod_id T (mds s) mi -> mat_prod_id T mi (mds s) ->
  (forall x, length x = T -> length (hash_permute T s x) = T)
  /\ (forall x y, length x = T -> length y = T -> hash_permute T s x = hash_permute T s y -> x = y)
  /\ (forall y, length y = T -> exists x, length x = T /\ hash_permute T s x = y).
Proof. exact (fun F FO PF => permutation_bijective_claim). Qed.
Print Assumptions C08_permutation_bijection.
Example C08_instance : rel_prime 5 (modulus (F := F19) - 1) /\ poseidon_spec 3 tri
  /\ mat_prod_id 3 (mds tri) (mds_inv tri) /\ mat_prod_id 3 (mds_inv tri) (mds tri).
Proof. exact ex_tri_bijection. Qed.
Theorem C08_pallas_bijection : forall short s, cached_hash_spec short pasta_constants = Ok s ->
  (forall x y, length x = 3 -> length y = 3 -> hash_permute 3 s x = hash_permute 3 s y -> x = y)
  /\ (forall y, length y = 3 -> exists x, length x = 3 /\ hash_permute 3 s x = y).
Proof. exact pasta_bijective_claim. Qed.
Print Assumptions C08_pallas_bijection.
Example C08_pallas_instance : exists s, cached_hash_spec true pasta_constants = Ok s.
Proof. exact ex_pasta. Qed.

(** C15 *)
Theorem C15_pallas_inverse : mat_prod_id 3 pasta_mds pasta_mds_inv /\ mat_prod_id 3 pasta_mds_inv pasta_mds.
Proof. exact pasta_inverse. Qed.
Print Assumptions C15_pallas_inverse.
Theorem C15_pallas_separable : forall k rows cols, indices 3 k rows -> indices 3 k cols ->
  exists inv, mat_prod_id k (submatrix pasta_mds rows cols) inv /\ mat_prod_id k inv (submatrix pasta_mds rows cols).
Proof. exact pasta_minors. Qed.
Print Assumptions C15_pallas_separable.
(** instance: [C14_instance_indices] in PropertiesBase.v *)

(** C49 *)
Theorem C49_permute_unique : forall F (FO : FieldOps F) (PF : PrimeField F) T (s : spec F) state sbox rc_a rc_b (cs0 cs1 : cs F) cfg m L0 L1 L ws out n adv1 adv2,
  poseidon_spec T s -> 1 < T -> mat_prod_id T (mds s) (mds_inv s) -> mat_prod_id T (mds_inv s) (mds s) ->
  columns_ok T state sbox rc_a rc_b -> pow5_configure T (T - 1) s state sbox rc_a rc_b cs0 = (cfg, cs1) ->
  grows (layout_empty m) L0 -> words_in L0 ws -> length ws = T -> p5_permute s cfg ws L0 = Ok (L1, out) ->
  grows L1 L -> fits n L ->
  gates_hold n L adv1 (cs_gates cs1) -> copies_hold L adv1 -> gates_hold n L adv2 (cs_gates cs1) -> copies_hold L adv2 ->
  map (word_at L adv1) ws = map (word_at L adv2) ws ->
  forall c r, written L0 L1 c r -> adv1 c r = adv2 c r.
Proof. exact (fun F FO PF => permute_unique_claim). Qed.
Print Assumptions C49_permute_unique.
Theorem C49_sponge_unique : forall F (FO : FieldOps F) (PF : PrimeField F) T (s : spec F) state sbox rc_a rc_b (cs0 cs1 : cs F) cfg m L0 L1 L cap input k out n adv1 adv2,
  poseidon_spec T s -> 1 < T -> mat_prod_id T (mds s) (mds_inv s) -> mat_prod_id T (mds_inv s) (mds s) ->
  columns_ok T state sbox rc_a rc_b -> pow5_configure T (T - 1) s state sbox rc_a rc_b cs0 = (cfg, cs1) ->
  grows (layout_empty m) L0 -> padded_in L0 input -> circuit_session T (T - 1) s cfg cap input k L0 = Ok (L1, out) ->
  grows L1 L -> fits n L ->
  gates_hold n L adv1 (cs_gates cs1) -> copies_hold L adv1 -> gates_hold n L adv2 (cs_gates cs1) -> copies_hold L adv2 ->
  map (padded_at L adv1) input = map (padded_at L adv2) input ->
  forall c r, written L0 L1 c r -> adv1 c r = adv2 c r.
Proof. exact (fun F FO PF => session_unique_claim). Qed.
Print Assumptions C49_sponge_unique.
(** instance: [C42_instance] with two values of [blind] *)
Theorem C49_hash_unique : forall F (FO : FieldOps F) (PF : PrimeField F) T (s : spec F) state sbox rc_a rc_b (cs0 cs1 : cs F) cfg m N L0 L1 L2 L3 L h msg out n adv1 adv2,
  poseidon_spec T s -> 1 < T -> mat_prod_id T (mds s) (mds_inv s) -> mat_prod_id T (mds_inv s) (mds s) ->
  columns_ok T state sbox rc_a rc_b -> pow5_configure T (T - 1) s state sbox rc_a rc_b cs0 = (cfg, cs1) ->
  grows (layout_empty m) L0 -> circuit_hash_init (T - 1) cfg N L0 = Ok (L1, h) -> grows L1 L2 ->
  words_in L2 msg -> circuit_hash T (T - 1) s cfg N h msg L2 = Ok (L3, out) -> grows L3 L -> fits n L ->
  gates_hold n L adv1 (cs_gates cs1) -> copies_hold L adv1 -> gates_hold n L adv2 (cs_gates cs1) -> copies_hold L adv2 ->
  map (word_at L adv1) msg = map (word_at L adv2) msg ->
  forall c r, written L0 L1 c r \/ written L2 L3 c r -> adv1 c r = adv2 c r.
Proof. exact (fun F FO PF => hash_unique_claim). Qed.
Print Assumptions C49_hash_unique.
Example C49_instance : poseidon_spec 3 tri /\ mat_prod_id 3 (mds tri) (mds_inv tri) /\ mat_prod_id 3 (mds_inv tri) (mds tri)
  /\ columns_ok 3 [0; 1; 2] 3 [0; 1; 2] [3; 4; 5] /\ pow5_configure 3 2 tri [0; 1; 2] 3 [0; 1; 2] [3; 4; 5] tri_host = (tri_cfg, tri_cs)
  /\ tri_circuit (layout_empty tri_cs) no_copy /\ lo_const (layout_empty tri_cs) <> None
  /\ exists L1 L2 L3 h msg out, grows (layout_empty tri_cs) (layout_empty tri_cs)
     /\ circuit_hash_init 2 tri_cfg 3 (layout_empty tri_cs) = Ok (L1, h) /\ grows L1 L2 /\ tri_circuit L2 no_copy
     /\ words_in L2 msg /\ length msg = 3 /\ Forall2 (carries L2) msg [g 7; g 11; g 5]
     /\ circuit_hash 3 2 tri tri_cfg 3 h msg L2 = Ok (L3, out) /\ fits 20 L3
     /\ (exists r, written L2 L3 3 r)
     /\ forall blind, let adv := honest 20 L3 blind in
        gates_hold 23 L3 adv (cs_gates tri_cs) /\ copies_hold L3 adv
        /\ map (word_at L3 adv) msg = [g 7; g 11; g 5] /\ word_at L3 adv out = tri_digest.
Proof. exact ex_circuit_hash_written. Qed.

(** C50 *)
Theorem C50_pow5_degree : forall F (FO : FieldOps F) (PF : PrimeField F) T (s : spec F) state sbox rc_a rc_b (cs0 cs1 : cs F) cfg,
  pow5_configure T (T - 1) s state sbox rc_a rc_b cs0 = (cfg, cs1) ->
  adds_gates cs0 cs1 6 (-1) 1 /\ adds_columns cs0 cs1 0 0 4 /\ cs_lookups cs1 = cs_lookups cs0
  /\ required_degree cs1 = max (required_degree cs0) 6.
Proof. exact (fun F FO PF => pow5_degree_claim). Qed.
Print Assumptions C50_pow5_degree.
Theorem C50_septidon_degree : forall F (FO : FieldOps F) (PF : PrimeField F) rcs m (cs0 cs1 : cs F) cfg,
  septidon_configure rcs m cs0 = (cfg, cs1) ->
  adds_gates cs0 cs1 6 (-3) 7 /\ adds_columns cs0 cs1 13 11 0 /\ cs_lookups cs1 = cs_lookups cs0
  /\ required_degree cs1 = max (required_degree cs0) 6.
Proof. exact (fun F FO PF => septidon_degree_claim). Qed.
Print Assumptions C50_septidon_degree.
Theorem C50_table_degree : forall F (FO : FieldOps F) (PF : PrimeField F) c short s chip h (C : hash_circuit F),
  build c short s chip h -> host_columns C -> hc_chip C = chip ->
  (if short then adds_gates (hc_host C) (hc_cs C) 6 (-3) 7 else adds_gates (hc_host C) (hc_cs C) 6 (-1) 1)
  /\ (if short then adds_columns (hc_host C) (hc_cs C) 21 12 1 else adds_columns (hc_host C) (hc_cs C) 12 7 5)
  /\ (exists l, cs_lookups (hc_cs C) = cs_lookups (hc_host C) ++ [l] /\ degree (fst l) = 2)
  /\ required_degree (hc_cs C) = max (required_degree (hc_host C)) 6.
Proof. exact (fun F FO PF => table_degree_claim). Qed.
Print Assumptions C50_table_degree.
(** instance: [C26_instance] *)
Example C50_instance : pow5_configure 3 2 tri [0; 1; 2] 3 [0; 1; 2] [3; 4; 5] tri_host = (tri_cfg, tri_cs)
  /\ required_degree tri_host = 3 /\ required_degree tri_cs = 6.
Proof. exact ex_degree. Qed.
