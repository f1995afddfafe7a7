(** Property C61: hash trees through the table.  Trees and what it means to find a path are in PathUse.v, the rest of the
    vocabulary in TableUse.v and LookupUse.v. *)
From Coq Require Import ZArith NArith List Arith Bool.
From Verif Require Import Field ZpField Primes Rust BigSum Primitives Specs BaseHash Bn256 SpecHash Link Const_proof Halo2 Septidon PermuteChip
  ChipUse Pow5 SpongeTable TableUse LookupUse PathUse Path_claims ExamplesTable ExamplesPath ExamplesBase.
Import ListNotations.
Local Open Scope nat_scope.

(** a path that is found node by node leads from the leaf to the root *)
Theorem C61_path : forall F (FO : FieldOps F) (PF : PrimeField F) c (C : hash_circuit F) calcs adv root path words dom, accepted c C calcs adv ->
  (Z.of_nat (calcs * hc_step C + hc_range C) * (if hc_legacy C then 1 else 2 ^ 64) < modulus (F := F))%Z ->
  entry_found C adv calcs root path words dom ->
  path_root (hc_spec C) path (hash_with_domain (hc_spec C) words dom) = Ok root.
Proof. exact (fun F FO PF => entry_claim). Qed.
Print Assumptions C61_path.

(** one root has one leaf at a position (the directions [bits]), whatever the depths, if leaves and nodes have different
    domains *)
Theorem C61_one_leaf : forall F (FO : FieldOps F) (PF : PrimeField F) c (C : hash_circuit F) calcs adv bits root path1 path2 words1 words2 dom1 dom2,
  accepted c C calcs adv ->
  (Z.of_nat (calcs * hc_step C + hc_range C) * (if hc_legacy C then 1 else 2 ^ 64) < modulus (F := F))%Z ->
  directions path1 = firstn (length path1) bits -> directions path2 = firstn (length path2) bits ->
  Forall (fun st => step_domain st <> dom2) path1 -> Forall (fun st => step_domain st <> dom1) path2 ->
  entry_found C adv calcs root path1 words1 dom1 -> entry_found C adv calcs root path2 words2 dom2 ->
  (path1 = path2 /\ words1 = words2 /\ dom1 = dom2) \/ pair_collision C adv calcs (hc_spec C).
Proof. exact (fun F FO PF => entries_claim). Qed.
Print Assumptions C61_one_leaf.

(** and every path can be found in a table made for it *)
Theorem C61_complete : forall F (FO : FieldOps F) (PF : PrimeField F) c (C : hash_circuit F) mode calcs path words dom rows t L0 L1 L copies n u blind,
  path_rows (hc_spec C) path words dom = Ok rows -> Forall (fun x => fst x <> (fzero, fzero)) rows ->
  builder_runs [FixedInputs (map (fun '(w, m) => (w, m, None)) rows)] empty_table = Ok t -> length rows <= calcs ->
  set_up c C mode calcs t L0 L1 L copies n u ->
  exists root, path_root (hc_spec C) path (hash_with_domain (hc_spec C) words dom) = Ok root
    /\ entry_found C (honest u L blind) calcs root path words dom.
Proof. exact (fun F FO PF => entry_complete_claim). Qed.
Print Assumptions C61_complete.

(** a leaf two levels below the root *)
Example C61_instance : forall short mode, mode_ok mode -> exists (C : hash_circuit Fr) h rows t L0 L1 n u root,
  build bn256_c short (hc_spec C) (hc_chip C) h /\ hc_range C = 62 /\ hc_step C = 62 /\ hc_legacy C = false
  /\ path_rows (hc_spec C) demo_path (fr 10, fr 20) (fr 5) = Ok rows /\ Forall (fun x => fst x <> (fr 0, fr 0)) rows
  /\ builder_runs [FixedInputs (map (fun '(w, m) => (w, m, None)) rows)] empty_table = Ok t /\ length rows <= 4
  /\ set_up bn256_c C mode 4 t L0 L1 L1 [] n u
  /\ directions demo_path = firstn (length demo_path) [true; false; true]
  /\ Forall (fun st => step_domain st <> fr 5) demo_path
  /\ forall blind, accepted bn256_c C 4 (honest u L1 blind)
     /\ (Z.of_nat (4 * hc_step C + hc_range C) * (if hc_legacy C then 1 else 2 ^ 64) < modulus (F := Fr))%Z
     /\ entry_found C (honest u L1 blind) 4 root demo_path (fr 10, fr 20) (fr 5).
Proof. exact ex_path. Qed.
