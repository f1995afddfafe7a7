(** Property C70: whether a two-word hash can be taken for a message hash.  The vocabulary is in CollisionUse.v. *)
From Coq Require Import ZArith NArith List Arith.
From Verif Require Import Field ZpField Primes Rust Primitives Specs Bn256 BaseHash SpecHash Link Const_proof CollisionUse Cross_claims ExamplesCollision ExamplesCross
  ExamplesBase.
Import ListNotations.
Local Open Scope nat_scope.

(** a two-word hash and a message hash that agree *)
Theorem C70_cross_collision : forall F (FO : FieldOps F) (PF : PrimeField F) short legacy c s a b m cap (D h : F),
  constants_ok c -> cached_hash_spec short c = Ok s ->
  hash_with_domain s (a, b) D = Ok h -> hash_msg legacy s m cap = Ok h ->
  let P := poseidon_permutation c in
  let K := match cap with Some n => of_Z (Z.of_N n) | None => of_Z (Z.of_nat (length m) * (if legacy then 1 else 2 ^ 64)) end in
  let calls1 := hash_calls P 3 2 1 0 D [a; b] in
  let calls2 := hash_calls P 3 2 1 0 K m in
  (D = K /\ (m = [a; b] \/ (m = [a] /\ b = fzero)))
  \/ inner_collision P 3 2 1 calls1 calls2
  \/ capacity_preimage P 3 2 1 0 calls1 K
  \/ capacity_preimage P 3 2 1 0 calls2 D.
Proof. exact (fun F FO PF => cross_collision_claim). Qed.
Print Assumptions C70_cross_collision.
(** the domains that no message without explicit capacity has *)
Theorem C70_separated : forall F (FO : FieldOps F) (PF : PrimeField F) short (legacy : bool) c s a b m (n : Z) (h : F),
  constants_ok c -> cached_hash_spec short c = Ok s ->
  (2 ^ 128 <= modulus (F := F))%Z -> (Z.of_nat (length m) < 2 ^ 64)%Z -> (0 <= n < modulus (F := F))%Z ->
  (n <> (if legacy then 1 else 2 ^ 64))%Z -> (n <> 2 * (if legacy then 1 else 2 ^ 64))%Z ->
  hash_with_domain s (a, b) (of_Z n) = Ok h -> hash_msg legacy s m None = Ok h ->
  let P := poseidon_permutation c in
  let K := of_Z (Z.of_nat (length m) * (if legacy then 1 else 2 ^ 64)) in
  let calls1 := hash_calls P 3 2 1 0 (of_Z n) [a; b] in
  let calls2 := hash_calls P 3 2 1 0 K m in
  inner_collision P 3 2 1 calls1 calls2
  \/ capacity_preimage P 3 2 1 0 calls1 K
  \/ capacity_preimage P 3 2 1 0 calls2 (of_Z n).
Proof. exact (fun F FO PF => separated_claim). Qed.
Print Assumptions C70_separated.
Example C70_instance : exists s h, constants_ok weak_tables /\ cached_hash_spec false weak_tables = Ok s /\ (2 ^ 128 <= modulus (F := Fr))%Z
  /\ (Z.of_nat (length [fr 3; fr 2]) < 2 ^ 64)%Z /\ (0 <= 7 < modulus (F := Fr))%Z
  /\ hash_with_domain s (fr 1, fr 2) (of_Z 7) = Ok h /\ hash_msg false s [fr 3; fr 2] None = Ok h.
Proof. exact ex_cross. Qed.

(** the two other domains: every pair of words clashes with a message *)
Theorem C70_clash : forall F (FO : FieldOps F) (PF : PrimeField F) short (legacy : bool) c s a b, constants_ok c -> cached_hash_spec short c = Ok s ->
  let u := (if legacy then 1 else 2 ^ 64)%Z in
  hash_with_domain (F := F) s (a, b) (of_Z (2 * u)) = hash_msg legacy s [a; b] None
  /\ hash_with_domain s (a, fzero) (of_Z u) = hash_msg legacy s [a] None.
Proof. exact (fun F FO PF => clash_claim). Qed.
Print Assumptions C70_clash.
(** instance: [C04_instance] *)
(** so a domain that is not zero does not keep the two apart, even a small one *)
Theorem C70_domains_refuted : exists short legacy (s : spec Fr) a b D m h, cached_hash_spec short bn256_c = Ok s /\ D <> fzero
  /\ hash_with_domain s (a, b) D = Ok h /\ hash_msg legacy s m None = Ok h.
Proof. exact domains_refutation. Qed.
Print Assumptions C70_domains_refuted.
