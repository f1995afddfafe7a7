(** Property C81: the columns of the hash table that the configuration hands out, and what a prover commits to in them. *)
From Coq Require Import ZArith NArith List Arith.
From Verif Require Import Field ZpField Primes Rust Primitives Specs BaseHash Bn256 SpecHash Link Const_proof Halo2 PermuteChip Sept_claims ChipUse SpongeTable TableUse ColumnsUse
  Columns_claims ExamplesTable ExamplesColumns ExamplesBase.
Import ListNotations.
Local Open Scope nat_scope.

(** C81: both accessors give the six columns of the host, in its order, and none that [configure_sub] added *)
Theorem C81_columns : forall F (FO : FieldOps F) (PF : PrimeField F) (C : hash_circuit F), host_columns C ->
  hash_tbl_cols (hc_config C) = map Adv (hc_table C) /\ commitment_index (hc_config C) = hc_table C
  /\ length (commitment_index (hc_config C)) = 6 /\ NoDup (commitment_index (hc_config C))
  /\ forall c, In c (hash_tbl_cols (hc_config C)) -> ~ added (hc_host C) (hc_cs C) c.
Proof. exact (fun F FO PF => columns_claim). Qed.
Print Assumptions C81_columns.

(** after a session of builder calls, the honest prover's six columns hold the lines of these calls, then lines of the hash of two zeros
    up to the capacity; row 0 and the rows after the capacity are blank *)
Theorem C81_lines : forall F (FO : FieldOps F) (PF : PrimeField F) c (C : hash_circuit F) mode calcs bs t L0 L1 L copies n u blind step,
  builder_runs bs empty_table = Ok t -> Forall (sized (hc_range C) step) bs -> hc_range C <= step -> table_size t <= calcs ->
  set_up c C mode calcs t L0 L1 L copies n u ->
  let here := line (commitment_index (hc_config C)) (honest u L blind) in
  map (fun i => Ok (here (S i))) (seq 0 (table_size t)) = flat_map (call_lines (hc_legacy C) (hc_spec C)) bs
  /\ (forall i, table_size t <= i < calcs -> Ok (here (S i)) = filled (hc_legacy C) (hash_with_domain (hc_spec C) (fzero, fzero) fzero) no_row true)
  /\ forall r, r < u -> r = 0 \/ calcs < r -> here r = blank.
Proof. exact (fun F FO PF => lines_claim). Qed.
Print Assumptions C81_lines.
Example C81_instance : builder_runs demo_calls empty_table = Ok demo_table /\ Forall (sized 62 62) demo_calls
  /\ table_size demo_table = 3
  /\ forall short mode, mode_ok mode -> exists (C : hash_circuit Fr) h L0 L1 n u,
       build bn256_c short (hc_spec C) (hc_chip C) h /\ hc_range C = 62 /\ hc_step C = 62 /\ set_up bn256_c C mode 4 demo_table L0 L1 L1 [] n u.
Proof. exact ex_contents. Qed.
Example C81_starts_instance : flat_map starts demo_calls = [true; true; false].
Proof. exact ex_starts. Qed.
Example C81_lines_instance : forall (s : spec Fr) v, hash_msg false s [fr 3; fr 4; fr 5; fr 6] (Some (100 * 2 ^ 64)%N) = Ok v ->
  call_lines false s (StreamInputsUnchecked [(fr 3, fr 4); (fr 5, fr 6)] 100%N 62)
  = [Ok [v; fr 3; fr 4; length_code false 100; fzero; fone]; Ok [v; fr 5; fr 6; length_code false 38; fzero; fzero]].
Proof. exact ex_lines. Qed.
