(** Property C58: a [Spec] with another S-box than x^5.  [hades_of f s] is the textbook permutation with the tables of [s]
    and S-box [f]; the vocabulary for circuits is that of C21. *)
From Coq Require Import ZArith List Arith.
From Verif Require Import Field ZpField Primes Rust BigSum Primitives Specs SpecHash SboxSpec Halo2 ChipUse Pow5 Built Pow5Use
  SboxSpec_claims ExamplesPow5 ExamplesSboxSpec ExamplesBase.
Import ListNotations.
Local Open Scope nat_scope.

(** the API uses the S-box of the spec *)
Theorem C58_api : forall F (FO : FieldOps F) (PF : PrimeField F) T (s : spec F) st,
  tables_ok T s -> length st = T -> hash_permute T s st = hades_of (sbox s) s st.
Proof. exact (fun F FO PF => api_sbox_claim). Qed.
Print Assumptions C58_api.

(** the Pow5 chip accepts any spec and uses x^5 *)
Theorem C58_chip : forall F (FO : FieldOps F) (PF : PrimeField F) T (s : spec F) state sbox rc_a rc_b (cs0 cs1 : cs F) cfg m L0 L1 L ws out n adv,
  tables_ok T s -> 1 < T -> mat_prod_id T (mds s) (mds_inv s) -> mat_prod_id T (mds_inv s) (mds s) ->
  columns_ok T state sbox rc_a rc_b -> pow5_configure T (T - 1) s state sbox rc_a rc_b cs0 = (cfg, cs1) ->
  grows (layout_empty m) L0 -> words_in L0 ws -> length ws = T -> p5_permute s cfg ws L0 = Ok (L1, out) ->
  grows L1 L -> fits n L -> gates_hold n L adv (cs_gates cs1) -> copies_hold L adv ->
  map (word_at L adv) out = hades_of power5 s (map (word_at L adv) ws).
Proof. exact (fun F FO PF => chip_sbox_claim). Qed.
Print Assumptions C58_chip.
Example C58_instance : tables_ok 2 toy7 /\ mat_prod_id 2 (mds toy7) (mds_inv toy7) /\ mat_prod_id 2 (mds_inv toy7) (mds toy7)
  /\ columns_ok 2 [0; 1] 2 [0; 1] [2; 3] /\ pow5_configure 2 1 toy7 [0; 1] 2 [0; 1] [2; 3] toy_host = (toy_cfg, toy_cs)
  /\ grows (layout_empty toy_cs) toy_L0 /\ words_in toy_L0 toy_ws /\ length toy_ws = 2
  /\ p5_permute toy7 toy_cfg toy_ws toy_L0 = Ok (toy_L1, toy_out) /\ grows toy_L1 toy_L /\ fits 14 toy_L
  /\ forall blind, gates_hold 14 toy_L (honest 14 toy_L blind) (cs_gates toy_cs) /\ copies_hold toy_L (honest 14 toy_L blind).
Proof. exact ex_toy7. Qed.

(** so for a spec whose S-box is another bijection the circuit proves another permutation than the API computes, and the
    honest prover does not notice *)
Theorem C58_same_permutation_refuted : (forall x y, sbox toy7 x = sbox toy7 y -> x = y) /\ tables_ok 2 toy7
  /\ pow5_configure 2 1 toy7 [0; 1] 2 [0; 1] [2; 3] toy_host = (toy_cfg, toy_cs)
  /\ exists L0 ws L1 out L, grows (layout_empty toy_cs) L0 /\ words_in L0 ws /\ length ws = 2
     /\ p5_permute toy7 toy_cfg ws L0 = Ok (L1, out) /\ grows L1 L /\ fits 14 L
     /\ forall blind, let adv := honest 14 L blind in
        gates_hold 14 L adv (cs_gates toy_cs) /\ copies_hold L adv
        /\ map (word_at L adv) out <> hash_permute 2 toy7 (map (word_at L adv) ws).
Proof. exact ex_sbox_ignored. Qed.
Print Assumptions C58_same_permutation_refuted.
