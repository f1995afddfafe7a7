(** Property C68: how many inputs give a chosen difference of outputs.  The vocabulary is in DiffUse.v, SboxUse.v and
    PolyUse.v; the rounds are those of the permutation in Primitives.v. *)
From Coq Require Import ZArith Znumtheory List Arith.
From Verif Require Import Field ZpField Primes Rust BigSum Primitives Specs Bn256 Pasta BaseHash SpecHash Link Perm_proof Mds_proof Const_proof SboxUse PolyUse DiffUse
  Diff_claims ExamplesPow5 ExamplesGadget ExamplesPoly ExamplesDiff.
Import ListNotations.
Local Open Scope nat_scope.

(** one S-box *)
Theorem C68_sbox : forall F (FO : FieldOps F) (PF : PrimeField F) (s : spec F) k e xs,
  (5 < modulus (F := F))%Z -> (forall x, sbox s x = power5 x) -> k <> fzero -> NoDup xs ->
  (forall x, In x xs -> sbox s (fadd x k) = fadd (sbox s x) e) -> length xs <= 4.
Proof. exact (fun F FO PF => sbox_claim). Qed.
Print Assumptions C68_sbox.
(** four words do occur *)
Example C68_instance_sbox : (5 < modulus (F := F19))%Z /\ (forall x, sbox toy x = power5 x) /\ g 1 <> fzero /\ NoDup [g 0; g 7; g 11; g 18]
  /\ forall x, In x [g 0; g 7; g 11; g 18] -> sbox toy (fadd x (g 1)) = fadd (sbox toy x) (g 1).
Proof. exact ex_sbox. Qed.

(** one full round *)
Theorem C68_round : forall F (FO : FieldOps F) (PF : PrimeField F) T (s : spec F),
  (5 < modulus (F := F))%Z -> rel_prime 5 (modulus (F := F) - 1) -> (forall x, sbox s x = power5 x) -> square T (mds s) ->
  (forall k rows cols, indices T k rows -> indices T k cols ->
    exists inv, mat_prod_id k (submatrix (mds s) rows cols) inv /\ mat_prod_id k inv (submatrix (mds s) rows cols)) ->
  forall rc d e xs, length rc = T -> length d = T -> length e = T -> NoDup xs ->
  (forall x, In x xs -> length x = T /\ full_round T (sbox s) (mds s) (vadd x d) rc = vadd (full_round T (sbox s) (mds s) x rc) e) ->
  (Z.of_nat (length xs) <= 4 ^ Z.of_nat (weight d) * modulus (F := F) ^ Z.of_nat (T - weight d))%Z.
Proof. exact (fun F FO PF => round_claim). Qed.
Print Assumptions C68_round.
Example C68_instance_field : (5 < modulus (F := F19))%Z /\ rel_prime 5 (modulus (F := F19) - 1).
Proof. exact ex_5_19. Qed.
(** the bound is met *)
Example C68_instance_round : let xs := map state round_states in
  square 2 (mds toy)
  /\ (forall k rows cols, indices 2 k rows -> indices 2 k cols ->
      exists inv, mat_prod_id k (submatrix (mds toy) rows cols) inv /\ mat_prod_id k inv (submatrix (mds toy) rows cols))
  /\ NoDup xs
  /\ (forall x, In x xs -> length x = 2
      /\ full_round 2 (sbox toy) (mds toy) (vadd x [g 1; g 1]) [g 3; g 1] = vadd (full_round 2 (sbox toy) (mds toy) x [g 3; g 1]) [g 3; g 8])
  /\ length xs = 16 /\ weight [g 1; g 1] = 2.
Proof. exact ex_round. Qed.

(** two or more full rounds with given differences after each *)
Theorem C68_full_trail : forall F (FO : FieldOps F) (PF : PrimeField F) T (s : spec F),
  (5 < modulus (F := F))%Z -> rel_prime 5 (modulus (F := F) - 1) -> (forall x, sbox s x = power5 x) -> square T (mds s) ->
  (forall k rows cols, indices T k rows -> indices T k cols ->
    exists inv, mat_prod_id k (submatrix (mds s) rows cols) inv /\ mat_prod_id k inv (submatrix (mds s) rows cols)) ->
  forall rcs d ds xs, 2 <= length rcs -> 2 <= length ds -> Forall (fun r => length r = T) rcs -> Forall (fun r => length r = T) ds ->
  length d = T -> d <> repeat fzero T -> NoDup xs ->
  (forall x, In x xs -> length x = T /\ follows (full_round T (sbox s) (mds s)) rcs ds x (vadd x d)) ->
  (Z.of_nat (length xs) <= 4 ^ Z.of_nat (S (T / 2)) * modulus (F := F) ^ Z.of_nat (T - S (T / 2)))%Z.
Proof. exact (fun F FO PF => full_trail_claim). Qed.
Print Assumptions C68_full_trail.
Example C68_instance_full_trail : let step := full_round 2 (sbox toy) (mds toy) in
  let rcs := [[g 3; g 1]; [g 4; g 1]] in let ds := [[g 14; g 0]; [g 1; g 3]] in let d := [g 1; g 15] in
  let xs := map state full_states in
  d <> repeat fzero 2 /\ NoDup xs /\ (forall x, In x xs -> length x = 2 /\ follows step rcs ds x (vadd x d)) /\ length xs = 7.
Proof. exact ex_full_trail. Qed.
(** as many partial rounds as no difference can pass beside the S-box *)
Theorem C68_partial_trail : forall F (FO : FieldOps F) (PF : PrimeField F) T (s : spec F),
  (5 < modulus (F := F))%Z -> rel_prime 5 (modulus (F := F) - 1) -> (forall x, sbox s x = power5 x) -> square T (mds s) ->
  (forall k rows cols, indices T k rows -> indices T k cols ->
    exists inv, mat_prod_id k (submatrix (mds s) rows cols) inv /\ mat_prod_id k inv (submatrix (mds s) rows cols)) ->
  forall n rcs d ds xs, no_quiet_trail T n (mds s) -> n <= length rcs -> n <= length ds ->
  Forall (fun r => length r = T) rcs -> Forall (fun r => length r = T) ds -> length d = T -> d <> repeat fzero T -> NoDup xs ->
  (forall x, In x xs -> length x = T /\ follows (part_round T (sbox s) (mds s)) rcs ds x (vadd x d)) ->
  (Z.of_nat (length xs) <= 4 * modulus (F := F) ^ Z.of_nat (T - 1))%Z.
Proof. exact (fun F FO PF => partial_trail_claim). Qed.
Print Assumptions C68_partial_trail.
(** the bound is met *)
Example C68_instance_partial_trail : let step := part_round 2 (sbox toy) (mds toy) in
  let rcs := [[g 3; g 1]; [g 4; g 1]] in let ds := [[g 2; g 5]; [g 17; g 8]] in let d := [g 0; g 1] in
  let xs := map state partial_states in
  no_quiet_trail 2 2 (mds toy) /\ d <> repeat fzero 2 /\ NoDup xs /\ (forall x, In x xs -> length x = 2 /\ follows step rcs ds x (vadd x d)) /\ length xs = 76.
Proof. exact ex_partial_trail. Qed.

(** the whole permutation, along any line on which the leading coefficient does not vanish *)
Theorem C68_differential : forall F (FO : FieldOps F) (PF : PrimeField F) T (s : spec F) st v j k e xs,
  (5 < modulus (F := F))%Z -> poseidon_spec T s -> length st = T -> length v = T ->
  0 < 2 * Nat.div2 (full_rounds s) + partial_rounds s ->
  nth j (lead_permute (mds s) (Nat.div2 (full_rounds s)) (partial_rounds s) v) fzero <> fzero -> k <> fzero -> NoDup xs ->
  (forall x, In x xs -> nth j (hash_permute T s (on_line st v (fadd x k))) fzero = fadd (nth j (hash_permute T s (on_line st v x)) fzero) e) ->
  length xs < 5 ^ (2 * Nat.div2 (full_rounds s) + partial_rounds s).
Proof. exact (fun F FO PF => differential_claim). Qed.
Print Assumptions C68_differential.
Example C68_instance_differential : poseidon_spec 3 tri
  /\ nth 1 (lead_permute (mds tri) (Nat.div2 (full_rounds tri)) (partial_rounds tri) [g 0; g 1; g 2]) fzero <> fzero.
Proof. exact ex_degree. Qed.

(** the permutations in use *)
Theorem C68_bn254_full_trail : forall short s, cached_hash_spec short bn256_c = Ok s ->
  forall rcs d ds xs, 2 <= length rcs -> 2 <= length ds -> Forall (fun r => length r = 3) rcs -> Forall (fun r => length r = 3) ds ->
  length d = 3 -> d <> repeat fzero 3 -> NoDup xs ->
  (forall x, In x xs -> length x = 3 /\ follows (full_round 3 (sbox s) (mds s)) rcs ds x (vadd x d)) ->
  (Z.of_nat (length xs) <= 16 * bn254_r)%Z.
Proof. exact bn254_full_trail. Qed.
Print Assumptions C68_bn254_full_trail.
Theorem C68_bn254_partial_trail : forall short s, cached_hash_spec short bn256_c = Ok s ->
  forall rcs d ds xs, 3 <= length rcs -> 3 <= length ds -> Forall (fun r => length r = 3) rcs -> Forall (fun r => length r = 3) ds ->
  length d = 3 -> d <> repeat fzero 3 -> NoDup xs ->
  (forall x, In x xs -> length x = 3 /\ follows (part_round 3 (sbox s) (mds s)) rcs ds x (vadd x d)) ->
  (Z.of_nat (length xs) <= 4 * bn254_r ^ 2)%Z.
Proof. exact bn254_partial_trail. Qed.
Print Assumptions C68_bn254_partial_trail.
Theorem C68_bn254_differential : forall short s i j st k e xs, cached_hash_spec short bn256_c = Ok s -> i < 3 -> j < 3 -> length st = 3 -> k <> fzero -> NoDup xs ->
  (forall x, In x xs -> nth j (hash_permute 3 s (with_word i st (fadd x k))) fzero = fadd (nth j (hash_permute 3 s (with_word i st x)) fzero) e) ->
  length xs < 5 ^ 65.
Proof. exact bn254_differential. Qed.
Print Assumptions C68_bn254_differential.
Theorem C68_pallas_differential : forall short s i j st k e xs, cached_hash_spec short pasta_constants = Ok s -> i < 3 -> j < 3 -> length st = 3 -> k <> fzero -> NoDup xs ->
  (forall x, In x xs -> nth j (hash_permute 3 s (with_word i st (fadd x k))) fzero = fadd (nth j (hash_permute 3 s (with_word i st x)) fzero) e) ->
  length xs < 5 ^ 64.
Proof. exact pallas_differential. Qed.
Print Assumptions C68_pallas_differential.
(** instances: [C04_instance] and [C08_pallas_instance] *)

(** the hash API *)
Theorem C68_hash_differential : forall short s u v k e xs, cached_hash_spec short bn256_c = Ok s -> k <> fzero -> NoDup xs ->
  (forall x, In x xs -> exists h, hash_with_domain s (x, u) v = Ok h /\ hash_with_domain s (fadd x k, u) v = Ok (fadd h e))
  \/ (forall x, In x xs -> exists h, hash_with_domain s (u, x) v = Ok h /\ hash_with_domain s (u, fadd x k) v = Ok (fadd h e))
  \/ (forall x, In x xs -> exists h, hash_with_domain s (u, v) x = Ok h /\ hash_with_domain s (u, v) (fadd x k) = Ok (fadd h e)) ->
  (Z.of_nat (length xs) < 5 ^ 65)%Z /\ (2 ^ 102 * Z.of_nat (length xs) < bn254_r)%Z.
Proof. exact bn254_hash_differential. Qed.
Print Assumptions C68_hash_differential.
Theorem C68_message_differential : forall short legacy s p y cap k e xs, cached_hash_spec short bn256_c = Ok s -> Nat.even (length p) = true -> k <> fzero -> NoDup xs ->
  (forall x, In x xs -> exists h, hash_msg legacy s (p ++ [x]) cap = Ok h /\ hash_msg legacy s (p ++ [fadd x k]) cap = Ok (fadd h e))
  \/ (forall x, In x xs -> exists h, hash_msg legacy s (p ++ [x; y]) cap = Ok h /\ hash_msg legacy s (p ++ [fadd x k; y]) cap = Ok (fadd h e))
  \/ (forall x, In x xs -> exists h, hash_msg legacy s (p ++ [y; x]) cap = Ok h /\ hash_msg legacy s (p ++ [y; fadd x k]) cap = Ok (fadd h e)) ->
  (Z.of_nat (length xs) < 5 ^ 65)%Z /\ (2 ^ 102 * Z.of_nat (length xs) < bn254_r)%Z.
Proof. exact bn254_message_differential. Qed.
Print Assumptions C68_message_differential.
Example C68_instance_hash : forall short (u v x k : Fr), exists s e, cached_hash_spec short bn256_c = Ok s /\ NoDup [x]
  /\ forall x', In x' [x] -> exists h, hash_with_domain s (x', u) v = Ok h /\ hash_with_domain s (fadd x' k, u) v = Ok (fadd h e).
Proof. exact ex_hash. Qed.
