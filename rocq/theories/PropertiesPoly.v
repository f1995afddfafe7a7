(** Property C66: the degree of the hash in one word, and how many inputs share a digest.  The vocabulary is in PolyUse.v,
    the textbook permutation in SpecHash.v. *)
From Coq Require Import ZArith List Arith.
From Verif Require Import Field ZpField Primes Rust Primitives Specs Bn256 Pasta BaseHash SpecHash Link Const_proof PolyUse Poly_claims ExamplesPow5
  ExamplesGadget ExamplesPoly.
Import ListNotations.
Local Open Scope nat_scope.

(** any Poseidon permutation, along any line on which the leading coefficient does not vanish *)
Theorem C66_degree : forall F (FO : FieldOps F) (PF : PrimeField F) T (s : spec F) st v j, poseidon_spec T s -> length st = T -> length v = T ->
  nth j (lead_permute (mds s) (Nat.div2 (full_rounds s)) (partial_rounds s) v) fzero <> fzero ->
  degree (5 ^ (2 * Nat.div2 (full_rounds s) + partial_rounds s)) (fun x => nth j (hash_permute T s (on_line st v x)) fzero).
Proof. exact (fun F FO PF => degree_claim). Qed.
Print Assumptions C66_degree.
Example C66_instance_degree : poseidon_spec 3 tri
  /\ nth 1 (lead_permute (mds tri) (Nat.div2 (full_rounds tri)) (partial_rounds tri) [g 0; g 1; g 2]) fzero <> fzero.
Proof. exact ex_degree. Qed.
(** what the words mean *)
Example C66_instance_words : with_word 1 [g 4; g 5; g 6] (g 9) = [g 4; g 9; g 6] /\ on_line [g 4; g 5; g 6] [g 0; g 1; g 2] (g 3) = [g 4; g 8; g 12].
Proof. exact ex_word. Qed.
Example C66_instance_polynomial : map (polynomial [g 0; g 0; g 0; g 1]) [g 1; g 7; g 11] = [g 1; g 1; g 1] /\ NoDup [g 1; g 7; g 11].
Proof. exact ex_polynomial. Qed.

(** the permutations in use: every word of the output in every word of the input *)
Theorem C66_bn254_degree : forall short s i j st, cached_hash_spec short bn256_c = Ok s -> i < 3 -> j < 3 -> length st = 3 ->
  degree (5 ^ 65) (fun x => nth j (hash_permute 3 s (with_word i st x)) fzero).
Proof. exact bn254_degree. Qed.
Print Assumptions C66_bn254_degree.
Theorem C66_pallas_degree : forall short s i j st, cached_hash_spec short pasta_constants = Ok s -> i < 3 -> j < 3 -> length st = 3 ->
  degree (5 ^ 64) (fun x => nth j (hash_permute 3 s (with_word i st x)) fzero).
Proof. exact pallas_degree. Qed.
Print Assumptions C66_pallas_degree.
(** instances: [C04_instance] and [C08_pallas_instance] *)

(** the hash API: how many inputs share a digest *)
Theorem C66_preimages : forall short s u v h xs, cached_hash_spec short bn256_c = Ok s -> NoDup xs ->
  (forall x, In x xs -> hash_with_domain s (x, u) v = Ok h) \/ (forall x, In x xs -> hash_with_domain s (u, x) v = Ok h)
  \/ (forall x, In x xs -> hash_with_domain s (u, v) x = Ok h) ->
  (Z.of_nat (length xs) <= 5 ^ 65)%Z.
Proof. exact bn254_preimages. Qed.
Print Assumptions C66_preimages.
Theorem C66_message_preimages : forall short legacy s p y cap h xs, cached_hash_spec short bn256_c = Ok s -> Nat.even (length p) = true -> NoDup xs ->
  (forall x, In x xs -> hash_msg legacy s (p ++ [x]) cap = Ok h) \/ (forall x, In x xs -> hash_msg legacy s (p ++ [x; y]) cap = Ok h)
  \/ (forall x, In x xs -> hash_msg legacy s (p ++ [y; x]) cap = Ok h) ->
  (Z.of_nat (length xs) <= 5 ^ 65)%Z.
Proof. exact bn254_message_preimages. Qed.
Print Assumptions C66_message_preimages.
(** and how many digests there are *)
Theorem C66_digests : forall short s u v l, cached_hash_spec short bn256_c = Ok s ->
  (forall x, exists h, In h l /\ hash_with_domain s (x, u) v = Ok h) \/ (forall x, exists h, In h l /\ hash_with_domain s (u, x) v = Ok h)
  \/ (forall x, exists h, In h l /\ hash_with_domain s (u, v) x = Ok h) ->
  (2 ^ 102 < Z.of_nat (length l))%Z.
Proof. exact bn254_digests. Qed.
Print Assumptions C66_digests.
Example C66_instance_digests : forall short (u v : Fr), exists s l, cached_hash_spec short bn256_c = Ok s
  /\ forall x, exists h, In h l /\ hash_with_domain s (x, u) v = Ok h.
Proof. exact ex_digests. Qed.
