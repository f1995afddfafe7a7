(** Property C76: the circuit that shows knowledge of a message with a given hash.  The vocabulary is in PreimageUse.v. *)
From Coq Require Import ZArith List Arith.
From Verif Require Import Field ZpField Primes Rust BigSum Primitives Specs Pasta Link Const_proof Halo2 Pow5 Gadget CostUse ProgramUse PreimageUse
  Preimage_claims ExamplesPreimage.
Import ListNotations.
Local Open Scope nat_scope.

(** C76: the key made without witnesses accepts only cells whose output is the hash of the message; from a message and an expected hash
    an honest prover's witness holds just those, and is accepted exactly if the expected hash is the right one *)
Theorem C76_exact : forall F (FO : FieldOps F) (PF : PrimeField F) T (s : spec F) cfg (cs1 : cs F),
  poseidon_spec T s -> 1 < T -> mat_prod_id T (mds s) (mds_inv s) -> mat_prod_id T (mds_inv s) (mds s) -> preimage_configure T s = (cfg, cs1) ->
  forall N n u, 0 < N -> N <= T -> preimage_rows T s N <= u -> u <= n ->
  exists K, preimage_synthesize T s cfg N None None (layout_empty cs1) = Ok (K, tt) /\ fits u K /\ copies_enabled cs1 K
    /\ (forall adv, satisfied n u cs1 K adv -> fixed_hash T s (message_of N adv) = output_of K adv)
    /\ (forall xs y, length xs = N -> exists L, preimage_synthesize T s cfg N (Some xs) (Some y) (layout_empty cs1) = Ok (L, tt) /\ fits u L
         /\ forall blind, let adv := honest u L blind in
            message_of N adv = xs /\ output_of K adv = y /\ (satisfied n u cs1 K adv <-> y = fixed_hash T s xs)).
Proof. exact (fun F FO PF => preimage_exact). Qed.
Print Assumptions C76_exact.
(** the circuits of the repository's tests *)
Example C76_instance : poseidon_spec 3 orchard /\ mat_prod_id 3 (mds orchard) (mds_inv orchard) /\ mat_prod_id 3 (mds_inv orchard) (mds orchard)
  /\ block_rows orchard = 40
  /\ forall N k, In (N, k) preimage_tests -> 0 < N /\ N <= 3 /\ preimage_rows 3 orchard N <= 2 ^ k - 6 /\ 2 ^ k - 6 <= 2 ^ k.
Proof. exact ex_preimage. Qed.
(** that [fixed_hash] is what the hash API returns: [C02_constant_length_hash] in PropertiesBase.v *)

(** fewer rows than this are not enough *)
Theorem C76_least : forall F (FO : FieldOps F) (PF : PrimeField F) T (s : spec F) cfg (cs1 : cs F),
  poseidon_spec T s -> 1 < T -> mat_prod_id T (mds s) (mds_inv s) -> mat_prod_id T (mds_inv s) (mds s) -> preimage_configure T s = (cfg, cs1) ->
  forall N K u, 0 < N -> N <= T -> preimage_synthesize T s cfg N None None (layout_empty cs1) = Ok (K, tt) -> fits u K ->
  3 + (N + (T - 1) - 1) / (T - 1) * block_rows s <= u.
Proof. exact (fun F FO PF => preimage_least). Qed.
Print Assumptions C76_least.
(** the k of the repository's tests are the smallest *)
Example C76_least_instance : forall N k, In (N, k) preimage_tests -> 2 ^ (k - 1) - 6 < 3 + (N + 1) / 2 * block_rows orchard.
Proof. exact ex_least. Qed.

(** it cannot be laid out for the empty message or for one that is longer than a row of the state *)
Theorem C76_panics : forall F (FO : FieldOps F) (PF : PrimeField F) T (s : spec F) cfg (cs1 : cs F),
  poseidon_spec T s -> 1 < T -> mat_prod_id T (mds s) (mds_inv s) -> mat_prod_id T (mds_inv s) (mds s) -> preimage_configure T s = (cfg, cs1) ->
  forall N m y, (match m with Some xs => length xs = N | None => True end) ->
  (preimage_synthesize T s cfg N m y (layout_empty cs1) = Panic <-> N = 0 \/ T < N).
Proof. exact (fun F FO PF => preimage_panics). Qed.
Print Assumptions C76_panics.
