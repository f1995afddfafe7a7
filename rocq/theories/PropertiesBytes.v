(** Property C60: byte messages laid out as spec/hash-table.md says.  The layout of bytes is in BytesUse.v, the rest of
    the vocabulary in TableUse.v, LookupUse.v and CollisionUse.v. *)
From Coq Require Import ZArith NArith List Arith Bool.
From Coq.Init Require Import Byte.
From Verif Require Import Field ZpField Primes Rust BigSum Primitives Specs BaseHash Bn256 SpecHash Link Const_proof Halo2 Septidon PermuteChip Sept_claims
  ChipUse Pow5 SpongeTable TableUse LookupUse CollisionUse BytesUse Bytes_claims ExamplesTable ExamplesLookup ExamplesCollision ExamplesBytes ExamplesBase.
Import ListNotations.
Local Open Scope nat_scope.

(** the words, and what they determine *)
Theorem C60_encoding : forall F (FO : FieldOps F) (PF : PrimeField F) k l, 0 < k -> l <> [] ->
  length (byte_words (F := F) k l) = 2 * length (byte_rows (F := F) k l)
  /\ (length (byte_rows (F := F) k l) - 1) * (2 * k) < length l <= length (byte_rows (F := F) k l) * (2 * k)
  /\ ((256 ^ Z.of_nat k <= modulus (F := F))%Z -> forall l', length l' = length l -> byte_words (F := F) k l' = byte_words k l -> l' = l).
Proof. exact (fun F FO PF => encoding_claim). Qed.
Print Assumptions C60_encoding.
Example C60_encoding_instance : (256 ^ Z.of_nat 16 <= modulus (F := Fr))%Z /\ (256 ^ Z.of_nat 31 <= modulus (F := Fr))%Z
  /\ byte_words 16 [x01; x02; x03] = [fr 197121; fr 0]
  (** the message of 2000 bytes in spec/hash-table.md: 63 rows, 16 bytes in the last *)
  /\ (forall l : list byte, length l = 2000 -> byte_row_count 16 l = 63 /\ length l - 62 * (2 * 16) = 16)
  (** the words alone do not determine the message *)
  /\ byte_words (F := Fr) 16 [x00] = byte_words 16 [x00; x00].
Proof. exact ex_encoding. Qed.

(** different byte messages with one digest *)
Theorem C60_collision : forall F (FO : FieldOps F) (PF : PrimeField F) short legacy c s k l1 l2 (d : F),
  constants_ok c -> cached_hash_spec short c = Ok s -> 0 < k -> (256 ^ Z.of_nat k <= modulus (F := F))%Z ->
  (Z.of_N (byte_capacity legacy l1) < modulus (F := F))%Z -> (Z.of_N (byte_capacity legacy l2) < modulus (F := F))%Z ->
  byte_hash legacy s k l1 = Ok d -> byte_hash legacy s k l2 = Ok d -> l1 <> l2 ->
  let P := poseidon_permutation c in
  let K l := of_Z (Z.of_N (byte_capacity legacy l)) in
  let calls l := hash_calls P 3 2 1 0 (K l) (byte_words k l) in
  inner_collision P 3 2 1 (calls l1) (calls l2)
  \/ capacity_preimage P 3 2 1 0 (calls l1) (K l2) \/ capacity_preimage P 3 2 1 0 (calls l2) (K l1).
Proof. exact (fun F FO PF => byte_collision_claim). Qed.
Print Assumptions C60_collision.
Example C60_collision_instance : exists s, constants_ok weak_tables /\ cached_hash_spec false weak_tables = Ok s
  /\ (256 ^ Z.of_nat 16 <= modulus (F := Fr))%Z /\ (Z.of_N (byte_capacity false (one_word x01)) < modulus (F := Fr))%Z
  /\ one_word x01 <> one_word x03
  /\ exists d, byte_hash false s 16 (one_word x01) = Ok d /\ byte_hash false s 16 (one_word x03) = Ok d.
Proof. exact ex_byte_collision. Qed.

(** the rows that the builder makes of byte messages: row [i] of message [l] carries its two words and the number of
    bytes from there on *)
Theorem C60_rows : forall F (FO : FieldOps F) (PF : PrimeField F) k msgs, 0 < k -> Forall (fun l => l <> []) msgs ->
  exists t, builder_runs (map (stream_bytes (F := F) k) msgs) empty_table = Ok t
    /\ let rows := flat_map (fun l => map (fun i => (l, i)) (seq 0 (byte_row_count k l))) msgs in
       table_size t = length rows
       /\ forall r l i, nth_error rows r = Some (l, i) ->
            row_of t r = ((byte_word k l (2 * i), byte_word k l (2 * i + 1)), N.of_nat (length l - i * (2 * k)), fzero, None)
            /\ (0 < length l - i * (2 * k) /\ (S i = byte_row_count k l -> length l - i * (2 * k) <= 2 * k)).
Proof. exact (fun F FO PF => byte_table_claim). Qed.
Print Assumptions C60_rows.

(** the digests that the circuit puts beside them *)
Theorem C60_digests : forall F (FO : FieldOps F) (PF : PrimeField F) c (C : hash_circuit F) mode calcs k msgs t L0 L1 L copies n u blind,
  0 < k -> Forall (fun l => l <> []) msgs -> hc_range C = 2 * k ->
  builder_runs (map (stream_bytes (F := F) k) msgs) empty_table = Ok t -> table_size t <= calcs ->
  set_up c C mode calcs t L0 L1 L copies n u ->
  map (fun i => Ok (digest C (honest u L blind) (S i))) (seq 0 (table_size t))
  = flat_map (fun l => repeat (byte_hash (hc_legacy C) (hc_spec C) k l) (byte_row_count k l)) msgs.
Proof. exact (fun F FO PF => byte_contents_claim). Qed.
Print Assumptions C60_digests.
Example C60_rows_instance : hundred_bytes <> [] /\ length hundred_bytes = 100
  /\ builder_runs (map (stream_bytes 31) [hundred_bytes; hundred_bytes]) empty_table = Ok twice_table.
Proof. exact hundred_table. Qed.

(** a byte message looked up in the table; [collision_free] is about the messages in this table only *)
Theorem C60_lookup : forall F (FO : FieldOps F) (PF : PrimeField F) c (C : hash_circuit F) calcs adv k l d row, accepted c C calcs adv ->
  (Z.of_nat (calcs * hc_step C + hc_range C) * (if hc_legacy C then 1 else 2 ^ 64) < modulus (F := F))%Z ->
  hc_step C = 2 * k -> hc_range C = 2 * k -> collision_free C adv calcs ->
  (Z.of_N (byte_capacity (hc_legacy C) l) < modulus (F := F))%Z ->
  0 < k -> l <> [] -> looks_up C adv calcs k l d row ->
  byte_hash (hc_legacy C) (hc_spec C) k l = Ok d.
Proof. exact (fun F FO PF => byte_lookup_claim). Qed.
Print Assumptions C60_lookup.

(** byte messages looked up with one digest are the same message *)
Theorem C60_digest_determines : forall F (FO : FieldOps F) (PF : PrimeField F) c (C : hash_circuit F) calcs adv k l1 l2 d row1 row2, accepted c C calcs adv ->
  (Z.of_nat (calcs * hc_step C + hc_range C) * (if hc_legacy C then 1 else 2 ^ 64) < modulus (F := F))%Z ->
  hc_step C = 2 * k -> hc_range C = 2 * k -> collision_free C adv calcs -> (256 ^ Z.of_nat k <= modulus (F := F))%Z ->
  (Z.of_N (byte_capacity (hc_legacy C) l1) < modulus (F := F))%Z -> (Z.of_N (byte_capacity (hc_legacy C) l2) < modulus (F := F))%Z ->
  0 < k -> l1 <> [] -> l2 <> [] -> looks_up C adv calcs k l1 d row1 -> looks_up C adv calcs k l2 d row2 -> l1 = l2.
Proof. exact (fun F FO PF => byte_lookups_claim). Qed.
Print Assumptions C60_digest_determines.
Example C60_instance : forall short mode, mode_ok mode -> exists (C : hash_circuit Fr) h L0 L1 n u adv d,
  build bn256_c short (hc_spec C) (hc_chip C) h /\ hc_range C = 2 * 31 /\ hc_step C = 2 * 31 /\ hc_legacy C = false
  /\ set_up bn256_c C mode 5 twice_table L0 L1 L1 [] n u /\ table_size twice_table <= 5
  /\ satisfied n u (hc_cs C) L1 adv /\ collision_free C adv 5
  /\ (Z.of_nat (5 * hc_step C + hc_range C) * 2 ^ 64 < modulus (F := Fr))%Z
  /\ (Z.of_N (byte_capacity false hundred_bytes) < modulus (F := Fr))%Z
  /\ looks_up C adv 5 31 hundred_bytes d (fun i => 3 + i).
Proof. exact ex_byte_table. Qed.
