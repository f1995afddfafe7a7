(** Property C69: how digests are distributed. *)
From Coq Require Import ZArith List Arith.
From Verif Require Import Field ZpField Primes Rust Primitives Specs Bn256 Pasta BaseHash Link Const_proof Dist_claims ExamplesDist.
Import ListNotations.
Local Open Scope nat_scope.

(** over domains and pairs of words each digest occurs equally often *)
Theorem C69_bn254_balance : forall short s h, cached_hash_spec short bn256_c = Ok s -> exists l, NoDup l /\ Z.of_nat (length l) = (bn254_r ^ 2)%Z
  /\ forall a b d, In (a, b, d) l <-> hash_with_domain s (a, b) d = Ok h.
Proof. exact bn254_balance. Qed.
Print Assumptions C69_bn254_balance.
Theorem C69_pallas_balance : forall short s h, cached_hash_spec short pasta_constants = Ok s -> exists l, NoDup l /\ Z.of_nat (length l) = (pallas_p ^ 2)%Z
  /\ forall a b d, In (a, b, d) l <-> hash_with_domain s (a, b) d = Ok h.
Proof. exact pallas_balance. Qed.
Print Assumptions C69_pallas_balance.
(** instances: [C04_instance] and [C08_pallas_instance] *)

(** with the domain fixed, no digest is hit by more than one pair in 2^102 *)
Theorem C69_pairs : forall short s d h xs, cached_hash_spec short bn256_c = Ok s -> NoDup xs ->
  (forall a b, In (a, b) xs -> hash_with_domain s (a, b) d = Ok h) -> (2 ^ 102 * Z.of_nat (length xs) <= bn254_r ^ 2)%Z.
Proof. exact bn254_pairs. Qed.
Print Assumptions C69_pairs.
Example C69_instance_pair : forall short (a b d : Fr), exists s h, cached_hash_spec short bn256_c = Ok s /\ NoDup [(a, b)]
  /\ forall a' b', In (a', b') [(a, b)] -> hash_with_domain s (a', b') d = Ok h.
Proof. exact ex_pair. Qed.
(** messages of any length *)
Theorem C69_messages : forall short legacy s cap n h xs, cached_hash_spec short bn256_c = Ok s -> 0 < n -> NoDup xs ->
  (forall m, In m xs -> length m = n /\ hash_msg legacy s m cap = Ok h) -> (2 ^ 102 * Z.of_nat (length xs) <= bn254_r ^ Z.of_nat n)%Z.
Proof. exact bn254_messages. Qed.
Print Assumptions C69_messages.
Example C69_instance_message : forall short legacy (m : list Fr) cap, m <> [] -> exists s h, cached_hash_spec short bn256_c = Ok s /\ NoDup [m]
  /\ forall m', In m' [m] -> length m' = length m /\ hash_msg legacy s m' cap = Ok h.
Proof. exact ex_message. Qed.
