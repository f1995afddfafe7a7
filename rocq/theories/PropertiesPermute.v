(** Property C78: the circuit that shows knowledge of a state with a given permutation.  The vocabulary is in PermuteUse.v and
    PreimageUse.v. *)
From Coq Require Import ZArith Znumtheory List Arith.
From Verif Require Import Field ZpField Primes Rust BigSum Primitives Specs Pasta Link Const_proof Halo2 Pow5 Gadget CostUse ProgramUse PreimageUse
  PermuteUse Permute_claims ExamplesPreimage ExamplesPermute.
Import ListNotations.
Local Open Scope nat_scope.

(** C78: the key made without witnesses accepts only cells whose final state is the permuted initial state; from an initial state and an
    expected one an honest prover's witness holds just those, and is accepted exactly if the expected state is the right one *)
Theorem C78_exact : forall F (FO : FieldOps F) (PF : PrimeField F) T (s : spec F) cfg (cs1 : cs F),
  poseidon_spec T s -> 1 < T -> mat_prod_id T (mds s) (mds_inv s) -> mat_prod_id T (mds_inv s) (mds s) -> permute_configure T s = (cfg, cs1) ->
  forall n u, permute_rows s + 2 <= u -> u <= n ->
  exists K, permute_synthesize T s cfg None None (layout_empty cs1) = Ok (K, tt) /\ fits u K /\ copies_enabled cs1 K
    /\ (forall adv, satisfied n u cs1 K adv -> final_of T K adv = textbook s (message_of T adv))
    /\ (forall xs y, length xs = T -> length y = T -> exists L, permute_synthesize T s cfg (Some xs) (Some y) (layout_empty cs1) = Ok (L, tt)
         /\ fits u L
         /\ forall blind, let adv := honest u L blind in
            message_of T adv = xs /\ final_of T K adv = y /\ (satisfied n u cs1 K adv <-> y = textbook s xs)).
Proof. exact (fun F FO PF => permute_accepts). Qed.
Print Assumptions C78_exact.

(** for every final state there is exactly one initial state that can be shown, and it can be shown *)
Theorem C78_inverse : forall F (FO : FieldOps F) (PF : PrimeField F) T (s : spec F) cfg (cs1 : cs F),
  poseidon_spec T s -> 1 < T -> mat_prod_id T (mds s) (mds_inv s) -> mat_prod_id T (mds_inv s) (mds s) -> permute_configure T s = (cfg, cs1) ->
  forall n u, rel_prime 5 (modulus (F := F) - 1) -> permute_rows s + 2 <= u -> u <= n ->
  exists K, permute_synthesize T s cfg None None (layout_empty cs1) = Ok (K, tt)
    /\ forall y, length y = T -> exists xs, length xs = T
       /\ (exists adv, satisfied n u cs1 K adv /\ final_of T K adv = y)
       /\ forall adv, satisfied n u cs1 K adv -> (final_of T K adv = y <-> message_of T adv = xs).
Proof. exact (fun F FO PF => permute_inverse). Qed.
Print Assumptions C78_inverse.

(** just so many rows are enough *)
Theorem C78_rows : forall F (FO : FieldOps F) (PF : PrimeField F) T (s : spec F) cfg (cs1 : cs F),
  poseidon_spec T s -> 1 < T -> mat_prod_id T (mds s) (mds_inv s) -> mat_prod_id T (mds_inv s) (mds s) -> permute_configure T s = (cfg, cs1) ->
  forall m y K u, permute_synthesize T s cfg m y (layout_empty cs1) = Ok (K, tt) -> (fits u K <-> permute_rows s + 2 <= u).
Proof. exact (fun F FO PF => permute_size). Qed.
Print Assumptions C78_rows.

(** it can always be laid out, although there is no column for constants *)
Theorem C78_no_panic : forall F (FO : FieldOps F) (PF : PrimeField F) T (s : spec F) cfg (cs1 : cs F),
  poseidon_spec T s -> 1 < T -> mat_prod_id T (mds s) (mds_inv s) -> mat_prod_id T (mds_inv s) (mds s) -> permute_configure T s = (cfg, cs1) ->
  forall m y, exists K, permute_synthesize T s cfg m y (layout_empty cs1) = Ok (K, tt).
Proof. exact (fun F FO PF => permute_never_panics). Qed.
Print Assumptions C78_no_panic.

(** the circuit of the repository's test: its [k = 6] is the least *)
Example C78_instance : poseidon_spec 3 orchard /\ mat_prod_id 3 (mds orchard) (mds_inv orchard) /\ mat_prod_id 3 (mds_inv orchard) (mds orchard)
  /\ rel_prime 5 (modulus (F := Pallas) - 1) /\ permute_rows orchard + 2 = 39 /\ permute_rows orchard + 2 <= 2 ^ 6 - 6
  /\ 2 ^ 5 - 6 < permute_rows orchard + 2.
Proof. exact ex_permute. Qed.
