(** Property C62: subspace trails.  The vocabulary is in SubspaceUse.v, the rounds in SpecHash.v. *)
From Coq Require Import List Arith.
From Verif Require Import Field Primes Rust Primitives Specs BaseHash Bn256 Pasta SpecHash Const_proof SubspaceUse Subspace_claims.
Import ListNotations.
Local Open Scope nat_scope.

(** the permutation of the hash API is a sequence of such rounds *)
Theorem C62_bn254_rounds : forall short s, cached_hash_spec short bn256_c = Ok s -> forall x, length x = 3 ->
  hash_permute 3 s x
  = fold_left (fun st r => r st)
      (full_rounds_of bn256_mds (firstn 4 bn256_round_constants) ++ partial_rounds_of bn256_mds (firstn 57 (skipn 4 bn256_round_constants))
       ++ full_rounds_of bn256_mds (firstn 4 (skipn 61 bn256_round_constants))) x.
Proof. exact bn254_rounds_claim. Qed.
Print Assumptions C62_bn254_rounds.
Theorem C62_pallas_rounds : forall short s, cached_hash_spec short pasta_constants = Ok s -> forall x, length x = 3 ->
  hash_permute 3 s x
  = fold_left (fun st r => r st)
      (full_rounds_of pasta_mds (firstn 4 pasta_round_constants) ++ partial_rounds_of pasta_mds (firstn 56 (skipn 4 pasta_round_constants))
       ++ full_rounds_of pasta_mds (firstn 4 (skipn 60 pasta_round_constants))) x.
Proof. exact pallas_rounds_claim. Qed.
Print Assumptions C62_pallas_rounds.
(** instances: [C04_instance] and [C08_pallas_instance] *)

(** two full rounds, whatever their constants *)
Theorem C62_bn254_full : spreads 3 2 (full_rounds_of bn256_mds).
Proof. exact bn254_full. Qed.
Print Assumptions C62_bn254_full.
Theorem C62_pallas_full : spreads 3 2 (full_rounds_of pasta_mds).
Proof. exact pallas_full. Qed.
Print Assumptions C62_pallas_full.

(** four partial rounds *)
Theorem C62_bn254_partial : spreads 3 4 (partial_rounds_of bn256_mds).
Proof. exact bn254_partial. Qed.
Print Assumptions C62_bn254_partial.
Theorem C62_pallas_partial : spreads 3 4 (partial_rounds_of pasta_mds).
Proof. exact pallas_partial. Qed.
Print Assumptions C62_pallas_partial.
(** a trail of four partial rounds, for any constants *)
Example C62_instance : forall rcs, length rcs = 4 -> Forall (fun rc => length rc = 3) rcs ->
  exists U x, subspace 3 U /\ subspace 3 (fun x : list Fr => length x = 3)
    /\ subspace_trail 3 (partial_rounds_of bn256_mds rcs) U (fun x => length x = 3)
    /\ U x /\ x <> repeat fzero 3.
Proof. exact ex_subspace. Qed.

(** three are too few, whatever their constants *)
Theorem C62_bn254_three : forall rcs, length rcs = 3 -> Forall (fun rc => length rc = 3) rcs ->
  exists U V x y, subspace 3 U /\ subspace 3 V /\ subspace_trail 3 (partial_rounds_of bn256_mds rcs) U V
    /\ U x /\ x <> repeat fzero 3 /\ length y = 3 /\ ~ V y.
Proof. exact bn254_three. Qed.
Print Assumptions C62_bn254_three.
Theorem C62_pallas_three : forall rcs, length rcs = 3 -> Forall (fun rc => length rc = 3) rcs ->
  exists U V x y, subspace 3 U /\ subspace 3 V /\ subspace_trail 3 (partial_rounds_of pasta_mds rcs) U V
    /\ U x /\ x <> repeat fzero 3 /\ length y = 3 /\ ~ V y.
Proof. exact pallas_three. Qed.
Print Assumptions C62_pallas_three.
