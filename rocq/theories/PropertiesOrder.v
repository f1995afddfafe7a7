(** Properties C73 and C74: whether the place of a word matters.  The vocabulary is in PolyUse.v, Built.v and Pow5Use.v. *)
From Coq Require Import ZArith NArith List Arith.
From Verif Require Import Field ZpField Primes Rust Primitives Specs Bn256 Pasta BaseHash SpecHash Link Const_proof PolyUse Halo2 ChipUse Pow5 Built Pow5Use Gadget
  Order_claims Fixed_claims ExamplesPow5 ExamplesGadget ExamplesOrder.
Import ListNotations.
Local Open Scope nat_scope.

(** C73: any Poseidon permutation, along two lines with different leading coefficients *)
Theorem C73_lines : forall F (FO : FieldOps F) (PF : PrimeField F) T (s : spec F) st st' v w j xs, poseidon_spec T s ->
  length st = T -> length st' = T -> length v = T -> length w = T ->
  nth j (lead_permute (mds s) (Nat.div2 (full_rounds s)) (partial_rounds s) v) fzero
    <> nth j (lead_permute (mds s) (Nat.div2 (full_rounds s)) (partial_rounds s) w) fzero -> NoDup xs ->
  (forall x, In x xs -> nth j (hash_permute T s (on_line st v x)) fzero = nth j (hash_permute T s (on_line st' w x)) fzero) ->
  length xs <= 5 ^ (2 * Nat.div2 (full_rounds s) + partial_rounds s).
Proof. exact (fun F FO PF => lines_claim). Qed.
Print Assumptions C73_lines.
Example C73_instance_lines : poseidon_spec 3 tri
  /\ nth 1 (lead_permute (mds tri) (Nat.div2 (full_rounds tri)) (partial_rounds tri) [g 0; g 1; g 2]) fzero
     <> nth 1 (lead_permute (mds tri) (Nat.div2 (full_rounds tri)) (partial_rounds tri) [g 1; g 0; g 2]) fzero.
Proof. exact ex_lines. Qed.

(** the permutations in use: a word in one place of one state and in another place of another *)
Theorem C73_bn254_words : forall short s i k j st st' xs, cached_hash_spec short bn256_c = Ok s ->
  i < 3 -> k < 3 -> i <> k -> j < 3 -> length st = 3 -> length st' = 3 -> NoDup xs ->
  (forall x, In x xs -> nth j (hash_permute 3 s (with_word i st x)) fzero = nth j (hash_permute 3 s (with_word k st' x)) fzero) ->
  (Z.of_nat (length xs) <= 5 ^ 65)%Z.
Proof. exact bn254_words. Qed.
Print Assumptions C73_bn254_words.
Theorem C73_pallas_words : forall short s i k j st st' xs, cached_hash_spec short pasta_constants = Ok s ->
  i < 3 -> k < 3 -> i <> k -> j < 3 -> length st = 3 -> length st' = 3 -> NoDup xs ->
  (forall x, In x xs -> nth j (hash_permute 3 s (with_word i st x)) fzero = nth j (hash_permute 3 s (with_word k st' x)) fzero) ->
  (Z.of_nat (length xs) <= 5 ^ 64)%Z.
Proof. exact pallas_words. Qed.
Print Assumptions C73_pallas_words.
Example C73_instance_words : forall short (b d : Fr), exists s, cached_hash_spec short bn256_c = Ok s /\ NoDup [b]
  /\ forall x j, In x [b] -> nth j (hash_permute 3 s (with_word 1 [d; b; b] x)) fzero = nth j (hash_permute 3 s (with_word 2 [d; b; b] x)) fzero.
Proof. exact ex_words. Qed.

(** the hash API: two words exchanged *)
Theorem C73_swapped : forall short s b d xs, cached_hash_spec short bn256_c = Ok s -> NoDup xs ->
  (forall a, In a xs -> hash_with_domain s (a, b) d = hash_with_domain s (b, a) d) -> (Z.of_nat (length xs) <= 5 ^ 65)%Z.
Proof. exact bn254_swapped. Qed.
Print Assumptions C73_swapped.
Example C73_instance : forall short (b d : Fr), exists s, cached_hash_spec short bn256_c = Ok s /\ NoDup [b]
  /\ forall a, In a [b] -> hash_with_domain s (a, b) d = hash_with_domain s (b, a) d.
Proof. exact ex_swapped. Qed.
(** a word or the domain moved to another place, whatever the other words are *)
Theorem C73_two_words : forall short s u v u' v' xs, cached_hash_spec short bn256_c = Ok s -> NoDup xs ->
  (forall x, In x xs -> hash_with_domain s (x, u) v = hash_with_domain s (u', x) v')
  \/ (forall x, In x xs -> hash_with_domain s (x, u) v = hash_with_domain s (u', v') x)
  \/ (forall x, In x xs -> hash_with_domain s (u, x) v = hash_with_domain s (u', v') x) ->
  (Z.of_nat (length xs) <= 5 ^ 65)%Z.
Proof. exact bn254_two_words. Qed.
Print Assumptions C73_two_words.
(** messages: a word of the last block moved to the other place in it *)
Theorem C73_messages : forall short legacy s p y cap legacy' p' y' cap' xs, cached_hash_spec short bn256_c = Ok s ->
  Nat.even (length p) = true -> Nat.even (length p') = true -> length y <= 1 -> NoDup xs ->
  (forall x, In x xs -> hash_msg legacy s (p ++ x :: y) cap = hash_msg legacy' s (p' ++ [y'; x]) cap') ->
  (Z.of_nat (length xs) <= 5 ^ 65)%Z.
Proof. exact bn254_messages. Qed.
Print Assumptions C73_messages.
Example C73_instance_messages : forall short legacy cap (p : list Fr) b, exists s, cached_hash_spec short bn256_c = Ok s /\ NoDup [b]
  /\ forall x, In x [b] -> hash_msg legacy s (p ++ x :: [b]) cap = hash_msg legacy s (p ++ [b; x]) cap.
Proof. exact ex_messages. Qed.

(** C74: the fixed-length hash is not the message hash *)
Theorem C74_fixed_length_refuted : exists short legacy (s : spec Fr) m cap h h', cached_hash_spec short bn256_c = Ok s /\ m <> []
  /\ hash_constant_length 3 2 (length m) s (hash_init 3 2 (constant_length 2 (length m))) m = Ok h
  /\ hash_msg legacy s m cap = Ok h' /\ h <> h'.
Proof. exact bn254_fixed_refuted. Qed.
Print Assumptions C74_fixed_length_refuted.
(** for any first words and any capacity: more than 5^65 last words include one for which they differ *)
Theorem C74_fixed_length : forall short legacy s p cap xs, cached_hash_spec short bn256_c = Ok s -> NoDup xs -> (5 ^ 65 < Z.of_nat (length xs))%Z ->
  exists x h h', In x xs
  /\ hash_constant_length 3 2 (length (p ++ [x])) s (hash_init 3 2 (constant_length 2 (length (p ++ [x])))) (p ++ [x]) = Ok h
  /\ hash_msg legacy s (p ++ [x]) cap = Ok h' /\ h <> h'.
Proof. exact bn254_fixed. Qed.
Print Assumptions C74_fixed_length.
Example C74_instance : exists xs : list Fr, NoDup xs /\ (5 ^ 65 < Z.of_nat (length xs))%Z.
Proof. exact many_words. Qed.
(** in a circuit *)
Theorem C74_circuit_refuted : exists short (s : spec Fr) cfg (cs0 cs1 : cs Fr) L0 L1 L2 h w out n adv v, cached_hash_spec short bn256_c = Ok s
  /\ pow5_configure 3 2 s [0; 1; 2] 3 [0; 1; 2] [3; 4; 5] cs0 = (cfg, cs1)
  /\ grows (layout_empty cs1) L0 /\ circuit_hash_init 2 cfg 1 L0 = Ok (L1, h) /\ words_in L1 [w] /\ circuit_hash 3 2 s cfg 1 h [w] L1 = Ok (L2, out)
  /\ fits n L2 /\ gates_hold n L2 adv (cs_gates cs1) /\ copies_hold L2 adv
  /\ hash_msg false s [word_at L2 adv w] None = Ok v /\ word_at L2 adv out <> v.
Proof. exact gadget_refuted. Qed.
Print Assumptions C74_circuit_refuted.
(** no circuit can make up for it: for any first words there is a last word with which no satisfying assignment has the message
    hash in the cell that the in-circuit hash returns *)
Theorem C74_circuit : forall short legacy s p cap, cached_hash_spec short bn256_c = Ok s ->
  exists x v, hash_msg legacy s (p ++ [x]) cap = Ok v
  /\ forall state sbox rc_a rc_b (cs0 cs1 : cs Fr) cfg m L0 L1 L2 L3 L h msg out n adv,
     columns_ok 3 state sbox rc_a rc_b -> pow5_configure 3 2 s state sbox rc_a rc_b cs0 = (cfg, cs1) ->
     grows (layout_empty m) L0 -> circuit_hash_init 2 cfg (length msg) L0 = Ok (L1, h) -> grows L1 L2 ->
     words_in L2 msg -> circuit_hash 3 2 s cfg (length msg) h msg L2 = Ok (L3, out) ->
     grows L3 L -> fits n L -> gates_hold n L adv (cs_gates cs1) -> copies_hold L adv ->
     map (word_at L adv) msg = p ++ [x] -> word_at L adv out <> v.
Proof. exact gadget_differs. Qed.
Print Assumptions C74_circuit.
(** instance: [C74_circuit_refuted] *)
