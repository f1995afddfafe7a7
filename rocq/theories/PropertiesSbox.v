(** Property C55: differences cannot avoid the S-boxes.  The vocabulary is in SboxUse.v, the textbook permutation in
    SpecHash.v. *)
From Coq Require Import ZArith Znumtheory List Arith.
From Verif Require Import Field ZpField Primes Rust Primitives Specs Bn256 Pasta Mds Grain BaseHash SpecHash Link Perm_proof BigSum Mds_proof Const_proof SboxUse
  Sbox_claims ExamplesPow5 ExamplesGadget ExamplesSbox.
Import ListNotations.
Local Open Scope nat_scope.

(** every generated matrix: a difference in w words leaves a difference in at least T + 1 - w words *)
Theorem C55_branch_number : forall F (FO : FieldOps F) (PF : PrimeField F) tries fuel T select g (m mi : list (list F)),
  generate_mds tries fuel T select g = Some (Ok (m, mi)) -> square T m ->
  forall v, length v = T -> v <> repeat fzero T -> T + 1 <= weight v + weight (mat_vec m v).
Proof. exact (fun F FO PF => branch_claim). Qed.
Print Assumptions C55_branch_number.
Example C55_instance_branch : exists g m mi, generate_mds (F := Fr) 10 80 3 0 g = Some (Ok (m, mi)) /\ square 3 m.
Proof. exact ex_branch. Qed.

(** the matrices in use are secure without skipping any: no difference passes three partial rounds beside the S-box *)
Theorem C55_bn254_no_trail : no_quiet_trail 3 3 bn256_mds.
Proof. exact bn254_trail. Qed.
Print Assumptions C55_bn254_no_trail.
Theorem C55_pallas_no_trail : no_quiet_trail 3 3 pasta_mds.
Proof. exact pallas_trail. Qed.
Print Assumptions C55_pallas_no_trail.
(** and no linear combination of the state passes three partial rounds beside the S-box *)
Theorem C55_bn254_no_blind_sum : no_blind_sum 3 3 bn256_mds.
Proof. exact bn254_sums. Qed.
Print Assumptions C55_bn254_no_blind_sum.
Theorem C55_pallas_no_blind_sum : no_blind_sum 3 3 pasta_mds.
Proof. exact pallas_sums. Qed.
Print Assumptions C55_pallas_no_blind_sum.
(** two rounds can be passed by a difference, whatever the matrix *)
Theorem C55_two_rounds : forall F (FO : FieldOps F) (PF : PrimeField F) (m : list (list F)), square 3 m -> fnth (nth 0 m []) 1 <> fzero ->
  ~ no_quiet_trail 3 2 m.
Proof. exact (fun F FO PF => two_rounds_claim). Qed.
Print Assumptions C55_two_rounds.
Example C55_instance_two_rounds : square 3 bn256_mds /\ fnth (nth 0 bn256_mds []) 1 <> fzero.
Proof. exact ex_two_rounds. Qed.

(** any Poseidon permutation *)
Theorem C55_active_sboxes : forall F (FO : FieldOps F) (PF : PrimeField F) T n (s : spec F),
  rel_prime 5 (modulus (F := F) - 1) -> poseidon_spec T s ->
  (forall k rows cols, indices T k rows -> indices T k cols ->
    exists inv, mat_prod_id k (submatrix (mds s) rows cols) inv /\ mat_prod_id k inv (submatrix (mds s) rows cols)) ->
  0 < n -> no_quiet_trail T n (mds s) ->
  forall x y, length x = T -> length y = T -> x <> y ->
  2 * ((T + 1) * (Nat.div2 (full_rounds s) / 2)) + partial_rounds s / n
    <= differences (sbox_inputs (mds s) (Nat.div2 (full_rounds s)) (partial_rounds s) (round_constants s) x)
                   (sbox_inputs (mds s) (Nat.div2 (full_rounds s)) (partial_rounds s) (round_constants s) y).
Proof. exact (fun F FO PF => active_claim). Qed.
Print Assumptions C55_active_sboxes.
(** what is counted *)
Example C55_instance_trace :
  let inputs := sbox_inputs (mds tri) (Nat.div2 (full_rounds tri)) (partial_rounds tri) (round_constants tri) in
  length (inputs [g 1; g 2; g 3]) = 8 /\ differences (inputs [g 1; g 2; g 3]) (inputs [g 1; g 2; g 4]) = 6
  /\ differences (inputs [g 1; g 2; g 3]) (inputs [g 1; g 2; g 1]) = 5.
Proof. exact ex_trace. Qed.

(** the two permutations in use *)
Theorem C55_bn254_active : forall short s, cached_hash_spec short bn256_c = Ok s ->
  forall x y, length x = 3 -> length y = 3 -> x <> y ->
  hash_permute 3 s x = spec_permute bn256_mds 4 57 bn256_round_constants x
  /\ hash_permute 3 s y = spec_permute bn256_mds 4 57 bn256_round_constants y
  /\ 35 <= differences (sbox_inputs bn256_mds 4 57 bn256_round_constants x) (sbox_inputs bn256_mds 4 57 bn256_round_constants y).
Proof. exact bn254_active_claim. Qed.
Print Assumptions C55_bn254_active.
Example C55_instance_bn254 : exists s, cached_hash_spec true bn256_c = Ok s
  /\ let x := [of_Z 1; of_Z 2; of_Z 3] : list Fr in let y := [of_Z 1; of_Z 2; of_Z 4] : list Fr in length x = 3 /\ length y = 3 /\ x <> y.
Proof. exact ex_active_bn. Qed.
Theorem C55_pallas_active : forall short s, cached_hash_spec short pasta_constants = Ok s ->
  forall x y, length x = 3 -> length y = 3 -> x <> y ->
  hash_permute 3 s x = spec_permute pasta_mds 4 56 pasta_round_constants x
  /\ hash_permute 3 s y = spec_permute pasta_mds 4 56 pasta_round_constants y
  /\ 34 <= differences (sbox_inputs pasta_mds 4 56 pasta_round_constants x) (sbox_inputs pasta_mds 4 56 pasta_round_constants y).
Proof. exact pallas_active_claim. Qed.
Print Assumptions C55_pallas_active.
Example C55_instance_pallas : exists s, cached_hash_spec false pasta_constants = Ok s
  /\ let x := [of_Z 1; of_Z 2; of_Z 3] : list Pallas in let y := [of_Z 0; of_Z 2; of_Z 3] : list Pallas in length x = 3 /\ length y = 3 /\ x <> y.
Proof. exact ex_active_pallas. Qed.
