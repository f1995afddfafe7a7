(** Property C75: from builder calls to an accepted circuit.  The vocabulary is in TableUse.v and SessionUse.v. *)
From Coq Require Import ZArith NArith List Arith.
From Verif Require Import Field ZpField Primes Rust Primitives Specs BaseHash Bn256 SpecHash Link Const_proof Halo2 PermuteChip SpongeTable TableUse SessionUse
  Session_claims ExamplesTable ExamplesBase ExamplesSession.
Import ListNotations.
Local Open Scope nat_scope.

(** C75: in any host circuit, what builder calls have made is loaded exactly if its expected digests are those of the hash API *)
Theorem C75_load : forall F (FO : FieldOps F) (PF : PrimeField F) c (C : hash_circuit F) short h mode calcs bs t L0,
  build c short (hc_spec C) (hc_chip C) h -> host_columns C -> table_free C L0 ->
  mode_ok mode -> builder_runs bs empty_table = Ok t -> Forall (sized (hc_range C) (hc_step C)) bs -> hc_range C <= hc_step C -> table_size t <= calcs ->
  ((exists L1, hc_load C mode calcs t L0 = Ok (L1, tt)) <-> Forall (checks_right (hc_legacy C) (hc_spec C)) bs).
Proof. exact (fun F FO PF => session_load_claim). Qed.
Print Assumptions C75_load.
Example C75_checks : forall legacy short, exists s, cached_hash_spec short bn256_c = Ok s /\ exists a h : Fr,
  checks_right legacy s (StreamInputs [(fr 1, fr 2)] (Some h) 13%N 32) /\ ~ checks_right legacy s (StreamInputs [(fr 1, fr 2)] (Some a) 13%N 32).
Proof. exact ex_checks. Qed.
(** its honest witness is accepted exactly if the host's own constraints are met and, when it fills all the rows, the last one is empty *)
Theorem C75_accepted : forall F (FO : FieldOps F) (PF : PrimeField F) c (C : hash_circuit F) mode calcs bs t L0 L1 L copies n u blind,
  set_up c C mode calcs t L0 L1 L copies n u ->
  builder_runs bs empty_table = Ok t -> Forall (sized (hc_range C) (hc_step C)) bs -> table_size t <= calcs ->
  (forall i, (Z.of_N (row_control t i + N.of_nat (hc_step C)) * (if hc_legacy C then 1 else 2 ^ 64) < modulus (F := F))%Z) ->
  let adv := honest u L blind in
  satisfied n u (hc_cs C) L adv
  <-> (table_size t = calcs -> 0 < calcs -> row_input t (calcs - 1) = (fzero, fzero) /\ row_control t (calcs - 1) = 0%N) /\ host_ok C L0 L copies n u adv.
Proof. exact (fun F FO PF => session_accepted_claim). Qed.
Print Assumptions C75_accepted.
(** instance: [C38_instance] in PropertiesTable.v, whose table has 3 rows of 4 *)

(** the circuit with nothing but the hash table, for BN254: the key from an empty table serves every session of builder calls *)
Theorem C75_standalone : forall short legacy s P h step mode mode' bs (t : hash_table Fr) calcs n u,
  build bn256_c short s P h -> mode_ok mode -> mode_ok mode' ->
  builder_runs bs empty_table = Ok t -> Forall (sized step step) bs -> Forall start_u64 bs -> (Z.of_nat step < 2 ^ 64)%Z ->
  Forall (checks_right legacy s) bs ->
  table_size t < calcs -> calcs < u -> (if short then 8 else 38) * calcs <= u -> step < u -> u <= n ->
  let C := standalone P s legacy step in
  exists K L, synthesize P s legacy step mode' calcs empty_table = Ok (K, tt) /\ synthesize P s legacy step mode calcs t = Ok (L, tt)
    /\ fits u K /\ fits u L /\ copies_enabled (hc_cs C) K
    /\ (forall blind, satisfied n u (hc_cs C) K (honest u L blind)
        /\ map (fun i => Ok (digest C (honest u L blind) (S i))) (seq 0 (table_size t)) = flat_map (api_hashes legacy s) bs)
    /\ (forall adv, satisfied n u (hc_cs C) K adv -> accepted bn256_c C calcs adv).
Proof. exact standalone_claim. Qed.
Print Assumptions C75_standalone.
(** the tables of the repository's tests *)
Example C75_instance : forall bs calcs k, In (bs, calcs, k) repo_tests -> forall legacy (s : spec Fr), exists t,
  builder_runs bs empty_table = Ok t /\ Forall (sized 32 32) bs /\ Forall start_u64 bs /\ Forall (checks_right legacy s) bs
  /\ table_size t < calcs /\ calcs < 2 ^ k - 6 /\ 38 * calcs <= 2 ^ k - 6 /\ 8 * calcs <= 2 ^ k - 6 /\ 32 < 2 ^ k - 6.
Proof. exact ex_repo_tests. Qed.
(** [build]: [C40_instance] in PropertiesTable.v *)
