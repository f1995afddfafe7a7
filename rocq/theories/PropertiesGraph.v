(** Property C77: circuits that show knowledge of leaves with a given root, for Merkle trees and any other graph of hashes.  The
    vocabulary is in GraphUse.v and ProgramUse.v. *)
From Coq Require Import ZArith List Arith.
From Verif Require Import Field ZpField Primes Rust BigSum Primitives Specs Pasta Link Const_proof Halo2 Pow5 Gadget CostUse ProgramUse PreimageUse
  GraphUse Graph_claims ExamplesPreimage ExamplesGraph.
Import ListNotations.
Local Open Scope nat_scope.

(** C77: the key made without witnesses accepts only cells whose output is the root over the leaves; from leaves and an expected root an
    honest prover's witness holds just those, and is accepted exactly if the expected root is the right one *)
Theorem C77_exact : forall F (FO : FieldOps F) (PF : PrimeField F) T (s : spec F) cfg (cs1 : cs F),
  poseidon_spec T s -> 1 < T -> mat_prod_id T (mds s) (mds_inv s) -> mat_prod_id T (mds_inv s) (mds s) -> preimage_configure T s = (cfg, cs1) ->
  forall prog N n u, 0 < N -> well_formed N prog -> graph_rows T s prog N <= u -> u <= n ->
  exists K, graph_synthesize T s cfg prog N None None (layout_empty cs1) = Ok (K, tt) /\ fits u K /\ copies_enabled cs1 K
    /\ (forall adv, satisfied n u cs1 K adv -> root_of (fixed_hash T s) prog (leaves_of N adv) = output_of K adv)
    /\ (forall xs y, length xs = N -> exists L, graph_synthesize T s cfg prog N (Some xs) (Some y) (layout_empty cs1) = Ok (L, tt) /\ fits u L
         /\ forall blind, let adv := honest u L blind in
            leaves_of N adv = xs /\ output_of K adv = y /\ (satisfied n u cs1 K adv <-> y = root_of (fixed_hash T s) prog xs)).
Proof. exact (fun F FO PF => graph_exact). Qed.
Print Assumptions C77_exact.

(** the Merkle tree of depth [d]: the root is the usual one, and two proofs of one root show the same leaves or a collision *)
Theorem C77_merkle : forall F (FO : FieldOps F) (PF : PrimeField F) T (s : spec F) cfg (cs1 : cs F),
  poseidon_spec T s -> 2 < T -> mat_prod_id T (mds s) (mds_inv s) -> mat_prod_id T (mds_inv s) (mds s) -> preimage_configure T s = (cfg, cs1) ->
  forall d n u, 2 ^ d + (2 ^ d - 1) * (T + block_rows s) + 1 <= u -> u <= n ->
  exists K, graph_synthesize T s cfg (merkle d) (2 ^ d) None None (layout_empty cs1) = Ok (K, tt) /\ fits u K /\ copies_enabled cs1 K
    /\ (forall adv, satisfied n u cs1 K adv -> merkle_root (fixed_hash T s) d (leaves_of (2 ^ d) adv) = output_of K adv)
    /\ (forall adv adv', satisfied n u cs1 K adv -> satisfied n u cs1 K adv' -> output_of K adv = output_of K adv' ->
         leaves_of (2 ^ d) adv = leaves_of (2 ^ d) adv'
         \/ exists a b a' b', [a; b] <> [a'; b'] /\ fixed_hash T s [a; b] = fixed_hash T s [a'; b'])
    /\ (forall xs y, length xs = 2 ^ d -> exists L, graph_synthesize T s cfg (merkle d) (2 ^ d) (Some xs) (Some y) (layout_empty cs1) = Ok (L, tt)
         /\ fits u L
         /\ forall blind, let adv := honest u L blind in
            leaves_of (2 ^ d) adv = xs /\ output_of K adv = y /\ (satisfied n u cs1 K adv <-> y = merkle_root (fixed_hash T s) d xs)).
Proof. exact (fun F FO PF => merkle_exact). Qed.
Print Assumptions C77_merkle.

(** fewer rows than this are not enough *)
Theorem C77_least : forall F (FO : FieldOps F) (PF : PrimeField F) T (s : spec F) cfg (cs1 : cs F),
  poseidon_spec T s -> 1 < T -> mat_prod_id T (mds s) (mds_inv s) -> mat_prod_id T (mds_inv s) (mds s) -> preimage_configure T s = (cfg, cs1) ->
  forall prog N K u, 0 < N -> well_formed N prog -> graph_synthesize T s cfg prog N None None (layout_empty cs1) = Ok (K, tt) -> fits u K ->
  N + length prog + program_blocks T prog * block_rows s + 1 <= u.
Proof. exact (fun F FO PF => graph_least). Qed.
Print Assumptions C77_least.

(** it cannot be laid out without leaves, with a hash of nothing, or with a hash of a word that is not there yet; all else can *)
Theorem C77_panics : forall F (FO : FieldOps F) (PF : PrimeField F) T (s : spec F) cfg (cs1 : cs F),
  poseidon_spec T s -> 1 < T -> mat_prod_id T (mds s) (mds_inv s) -> mat_prod_id T (mds_inv s) (mds s) -> preimage_configure T s = (cfg, cs1) ->
  forall prog N m y, (match m with Some xs => length xs = N | None => True end) ->
  (graph_synthesize T s cfg prog N m y (layout_empty cs1) = Panic <-> N = 0 \/ ~ well_formed N prog).
Proof. exact (fun F FO PF => graph_panics). Qed.
Print Assumptions C77_panics.

(** a graph that is no tree, a graph with a word that is not there, and the Merkle tree over eight leaves, for which [k = 9] is the least *)
Example C77_instance : poseidon_spec 3 orchard /\ mat_prod_id 3 (mds orchard) (mds_inv orchard) /\ mat_prod_id 3 (mds_inv orchard) (mds orchard)
  /\ well_formed 3 knot /\ graph_rows 3 orchard knot 3 = 130 /\ graph_rows 3 orchard knot 3 <= 2 ^ 8 - 6
  /\ ~ well_formed 3 [[0; 1]; [2; 4]]
  /\ merkle 3 = [[0; 1]; [2; 3]; [4; 5]; [6; 7]; [8; 9]; [10; 11]; [12; 13]]
  /\ 2 ^ 3 + (2 ^ 3 - 1) * (3 + block_rows orchard) + 1 = 310 /\ 310 <= 2 ^ 9 - 6
  /\ 2 ^ 8 - 6 < 2 ^ 3 + length (merkle 3) + program_blocks 3 (merkle 3) * block_rows orchard + 1.
Proof. exact ex_graph. Qed.
