(** Properties C51 and C52: what a collision of a hash means, and what keeps the exposed table free of forged
    digests.  The vocabulary is in CollisionUse.v, TableUse.v and LookupUse.v. *)
From Coq Require Import ZArith NArith List Arith Bool.
From Verif Require Import Field ZpField Primes Rust BigSum Primitives Specs BaseHash Bn256 SpecHash Link Const_proof Halo2 Septidon PermuteChip Sept_claims
  ChipUse Pow5 SpongeTable TableUse LookupUse CollisionUse Collision_claims TableForge_claims ExamplesPow5 ExamplesTable ExamplesGadget
  ExamplesCollision ExamplesBase.
Import ListNotations.
Local Open Scope nat_scope.

(** C51: [hash_msg] with any capacities *)
Theorem C51_message_collision : forall F (FO : FieldOps F) (PF : PrimeField F) short legacy c s m1 m2 cap1 cap2 (d : F),
  constants_ok c -> cached_hash_spec short c = Ok s ->
  hash_msg legacy s m1 cap1 = Ok d -> hash_msg legacy s m2 cap2 = Ok d ->
  let P := poseidon_permutation c in
  let K1 := match cap1 with Some n => of_Z (Z.of_N n) | None => of_Z (Z.of_nat (length m1) * (if legacy then 1 else 2 ^ 64)) end in
  let K2 := match cap2 with Some n => of_Z (Z.of_N n) | None => of_Z (Z.of_nat (length m2) * (if legacy then 1 else 2 ^ 64)) end in
  let calls1 := hash_calls P 3 2 1 0 K1 m1 in
  let calls2 := hash_calls P 3 2 1 0 K2 m2 in
  (K1 = K2 /\ blocks 2 (pad_zeros 2 m1) = blocks 2 (pad_zeros 2 m2))
  \/ inner_collision P 3 2 1 calls1 calls2
  \/ capacity_preimage P 3 2 1 0 calls1 K2
  \/ capacity_preimage P 3 2 1 0 calls2 K1.
Proof. exact (fun F FO PF => message_collision_claim). Qed.
Print Assumptions C51_message_collision.
Example C51_message_instance : exists s, constants_ok toy_tables /\ cached_hash_spec true toy_tables = Ok s
  /\ hash_msg true s [g 2; g 1; g 5] None = Ok (g 1) /\ hash_msg true s [g 4; g 1; g 5] None = Ok (g 1)
  /\ hash_msg true s [g 1; g 1; g 5; g 7] None = Ok (g 1).
Proof. exact ex_msg_collision. Qed.

(** without explicit capacities, over a large field *)
Theorem C51_default_collision : forall F (FO : FieldOps F) (PF : PrimeField F) short legacy c s m1 m2 (d : F),
  constants_ok c -> cached_hash_spec short c = Ok s ->
  (2 ^ 128 <= modulus (F := F))%Z -> (Z.of_nat (length m1) < 2 ^ 64)%Z -> (Z.of_nat (length m2) < 2 ^ 64)%Z ->
  hash_msg legacy s m1 None = Ok d -> hash_msg legacy s m2 None = Ok d -> m1 <> m2 ->
  let P := poseidon_permutation c in
  let K (m : list F) := of_Z (Z.of_nat (length m) * (if legacy then 1 else 2 ^ 64)) in
  let calls m := hash_calls P 3 2 1 0 (K m) m in
  inner_collision P 3 2 1 (calls m1) (calls m2)
  \/ length m1 <> length m2
     /\ (capacity_preimage P 3 2 1 0 (calls m1) (K m2) \/ capacity_preimage P 3 2 1 0 (calls m2) (K m1)).
Proof. exact (fun F FO PF => default_collision_claim). Qed.
Print Assumptions C51_default_collision.
Example C51_default_instance : exists s, constants_ok weak_tables /\ cached_hash_spec false weak_tables = Ok s
  /\ (2 ^ 128 <= modulus (F := Fr))%Z
  /\ hash_msg false s [fr 1; fr 2] None = hash_msg false s [fr 3; fr 2] None
  /\ hash_msg false s [fr 1; fr 2] None <> Panic.
Proof. exact ex_default_collision. Qed.

(** [ConstantLength] *)
Theorem C51_constant_length_collision : forall F (FO : FieldOps F) (PF : PrimeField F) T RATE L (s : spec F) m1 m2 d,
  0 < RATE < T -> poseidon_spec T s ->
  length m1 = L -> length m2 = L -> m1 <> m2 ->
  hash_constant_length T RATE L s (hash_init T RATE (constant_length RATE L)) m1 = Ok d ->
  hash_constant_length T RATE L s (hash_init T RATE (constant_length RATE L)) m2 = Ok d ->
  let P := textbook s in
  let calls m := hash_calls P T RATE 0 RATE (of_Z (Z.of_nat L * 2 ^ 64)) m in
  last_collision P (calls m1) (calls m2) \/ inner_collision P T RATE 0 (calls m1) (calls m2).
Proof. exact (fun F FO PF => constant_length_collision_claim). Qed.
Print Assumptions C51_constant_length_collision.
Example C51_constant_length_instance : 0 < 2 < 3 /\ poseidon_spec 3 tri
  /\ hash_constant_length 3 2 3 tri (hash_init 3 2 (constant_length 2 3)) [g 0; g 1; g 5] = Ok (g 10)
  /\ hash_constant_length 3 2 3 tri (hash_init 3 2 (constant_length 2 3)) [g 4; g 1; g 5] = Ok (g 10).
Proof. exact ex_constant_collision. Qed.

(** [ConstantLengthIden3]: the domain is part of what is hashed *)
Theorem C51_iden3_collision : forall F (FO : FieldOps F) (PF : PrimeField F) T RATE L (s : spec F) m1 m2 d1 d2 h,
  0 < RATE < T -> poseidon_spec T s ->
  length m1 = L -> length m2 = L -> (d1, m1) <> (d2, m2) ->
  hash_constant_length_iden3 T RATE L s (hash_init T RATE (constant_length_iden3 RATE L)) m1 d1 = Ok h ->
  hash_constant_length_iden3 T RATE L s (hash_init T RATE (constant_length_iden3 RATE L)) m2 d2 = Ok h ->
  let P := textbook s in
  let calls d m := hash_calls P T RATE (T - RATE) 0 d m in
  last_collision P (calls d1 m1) (calls d2 m2) \/ inner_collision P T RATE (T - RATE) (calls d1 m1) (calls d2 m2).
Proof. exact (fun F FO PF => iden3_collision_claim). Qed.
Print Assumptions C51_iden3_collision.
Example C51_iden3_instance : 0 < 2 < 3 /\ poseidon_spec 3 tri
  /\ hash_constant_length_iden3 3 2 3 tri (hash_init 3 2 (constant_length_iden3 2 3)) [g 1; g 1; g 5] (g 4) = Ok (g 4)
  /\ hash_constant_length_iden3 3 2 3 tri (hash_init 3 2 (constant_length_iden3 2 3)) [g 6; g 1; g 5] (g 1) = Ok (g 4).
Proof. exact ex_iden3_collision. Qed.

(** C52 fails: the rows looked up show the words of [forged_words] with domain 0, but not their hash *)
Theorem C52_free_domain_refuted : exists (short : bool) (C : hash_circuit Fr) h adv d,
  build bn256_c short (hc_spec C) (hc_chip C) h /\ accepted bn256_c C 5 adv
  /\ (Z.of_nat (5 * hc_step C + hc_range C) * (if hc_legacy C then 1 else 2 ^ 64) < modulus (F := Fr))%Z
  /\ hc_range C <= hc_step C
  /\ (length forged_words - 1) * hc_step C < 100 <= (length forged_words - 1) * hc_step C + hc_range C
  /\ (Z.of_nat 100 * (if hc_legacy C then 1 else 2 ^ 64) < modulus (F := Fr))%Z
  /\ (forall i, i < length forged_words -> 1 <= forged_row i <= 5
     /\ digest C adv (forged_row i) = d /\ (in1 C adv (forged_row i), in2 C adv (forged_row i)) = nth i forged_words (fr 0, fr 0)
     /\ control C adv (forged_row i) = length_code (hc_legacy C) (N.of_nat (100 - i * hc_step C))
     /\ domain C adv (forged_row i) = fr 0)
  /\ head C adv (forged_row 0) = fr 1
  /\ hash_msg (hc_legacy C) (hc_spec C) (flat_map (fun '(a, b) => [a; b]) forged_words)
       (Some (N.of_nat 100 * (if hc_legacy C then 1 else 2 ^ 64))%N) <> Ok d.
Proof. exact (ex_intro _ true (forged_refutation true)). Qed.
Print Assumptions C52_free_domain_refuted.
(** in fact any two pairs of words can be given any digest *)
Theorem C52_any_digest : forall short w0 w1 d len, (62 < len <= 124)%N -> exists (C : hash_circuit Fr) h adv,
  build bn256_c short (hc_spec C) (hc_chip C) h /\ hc_range C = 62 /\ hc_step C = 62 /\ hc_legacy C = false
  /\ accepted bn256_c C 5 adv
  /\ table_tuple C adv 1 = [d; fst w0; snd w0; length_code false len; fr 0; fr 1]
  /\ table_tuple C adv 4 = [d; fst w1; snd w1; length_code false (len - 62); fr 0; fr 0].
Proof. exact forged_witness. Qed.
Print Assumptions C52_any_digest.
(** instance: [C52_free_domain_refuted] *)

Local Open Scope F_scope.
(** it holds when the host makes the domains of the continuing rows zero, up to attacks on the permutation *)
Theorem C52_zero_domains : forall F (FO : FieldOps F) (PF : PrimeField F) c (C : hash_circuit F) calcs adv d len (ws : list (F * F)) (row : nat -> nat),
  accepted c C calcs adv ->
  (Z.of_nat (calcs * hc_step C + hc_range C) * (if hc_legacy C then 1 else 2 ^ 64) < modulus (F := F))%Z ->
  (hc_range C <= hc_step C)%nat ->
  (forall r, (1 <= r <= calcs)%nat -> head C adv r = 0 -> domain C adv r = 0) ->
  ws <> [] -> ((length ws - 1) * hc_step C < len <= (length ws - 1) * hc_step C + hc_range C)%nat ->
  (Z.of_nat len * (if hc_legacy C then 1 else 2 ^ 64) < modulus (F := F))%Z ->
  (forall i, (i < length ws)%nat -> (1 <= row i <= calcs)%nat
     /\ digest C adv (row i) = d /\ (in1 C adv (row i), in2 C adv (row i)) = nth i ws (0, 0)
     /\ control C adv (row i) = length_code (hc_legacy C) (N.of_nat (len - i * hc_step C))
     /\ domain C adv (row i) = 0) ->
  head C adv (row 0%nat) = 1 ->
  hash_msg (hc_legacy C) (hc_spec C) (flat_map (fun '(a, b) => [a; b]) ws)
    (Some (N.of_nat len * (if hc_legacy C then 1 else 2 ^ 64))%N) = Ok d
  \/ table_collision C (poseidon_permutation c) adv calcs
  \/ exists i, (1 <= i < length ws)%nat
       /\ table_hits C (poseidon_permutation c) adv calcs (length_code (hc_legacy C) (N.of_nat (len - i * hc_step C))).
Proof. exact (fun F FO PF => zero_domain_claim). Qed.
Print Assumptions C52_zero_domains.
Local Open Scope nat_scope.
(** the table of [C45_instance]: its rows 2 and 3 are a message *)
Example C52_instance : forall short mode, mode_ok mode -> exists (C : hash_circuit Fr) h adv,
  build bn256_c short (hc_spec C) (hc_chip C) h /\ hc_range C = 62 /\ hc_step C = 62 /\ hc_legacy C = false
  /\ accepted bn256_c C 4 adv
  /\ (forall r, 1 <= r <= 4 -> head C adv r = fr 0 -> domain C adv r = fr 0)
  /\ head C adv 2 = fr 1 /\ head C adv 3 = fr 0 /\ (in1 C adv 3, in2 C adv 3) = (fr 5, fr 6).
Proof. exact ex_zero_domains. Qed.
