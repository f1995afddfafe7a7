(** Concrete byte messages for PropertiesBytes.v. *)
From Coq Require Import ZArith NArith List Arith Lia Bool.
From Coq.Init Require Import Byte.
From Verif Require Import Field ZpField Primes Rust ListAux Primitives Specs BaseHash Bn256 SpecHash Link Base_claims Const_proof Halo2 Septidon PermuteChip Sept_claims
  ChipUse Pow5 SpongeTable TableUse LookupUse CollisionUse BytesUse Bytes_claims ExamplesTable ExamplesLookup ExamplesCollision ExamplesBase.
Import ListNotations.
Local Open Scope nat_scope.

(** 100 bytes, in words of 31 *)
Definition hundred_bytes : list byte :=
  let word b := b :: repeat x00 30 in word x03 ++ word x04 ++ word x05 ++ x06 :: repeat x00 6.
Lemma hundred_rows : byte_rows 31 hundred_bytes = [(fr 3, fr 4); (fr 5, fr 6)].
Proof. reflexivity. Qed.

Lemma ex_encoding : (256 ^ Z.of_nat 16 <= modulus (F := Fr))%Z /\ (256 ^ Z.of_nat 31 <= modulus (F := Fr))%Z
  /\ byte_words 16 [x01; x02; x03] = [fr 197121; fr 0]
  (** the message of 2000 bytes in spec/hash-table.md: 63 rows, 16 bytes in the last *)
  /\ (forall l : list byte, length l = 2000 -> byte_row_count 16 l = 63 /\ length l - 62 * (2 * 16) = 16)
  (** the words alone do not determine the message *)
  /\ byte_words (F := Fr) 16 [x00] = byte_words 16 [x00; x00].
Proof.
  split; [vm_compute; discriminate|]. split; [vm_compute; discriminate|]. split; [reflexivity|]. split; [|reflexivity].
  intros l H. unfold byte_row_count. rewrite H. split; reflexivity.
Qed.

Lemma hundred_table : hundred_bytes <> [] /\ length hundred_bytes = 100
  /\ builder_runs (map (stream_bytes 31) [hundred_bytes; hundred_bytes]) empty_table = Ok twice_table.
Proof.
  split; [discriminate|]. split; [reflexivity|]. cbn [map]. unfold stream_bytes. rewrite hundred_rows. exact twice_built.
Qed.

Lemma ex_byte_table : forall short mode, mode_ok mode -> exists (C : hash_circuit Fr) h L0 L1 n u adv d,
  build bn256_c short (hc_spec C) (hc_chip C) h /\ hc_range C = 2 * 31 /\ hc_step C = 2 * 31 /\ hc_legacy C = false
  /\ set_up bn256_c C mode 5 twice_table L0 L1 L1 [] n u /\ table_size twice_table <= 5
  /\ satisfied n u (hc_cs C) L1 adv /\ collision_free C adv 5
  /\ (Z.of_nat (5 * hc_step C + hc_range C) * 2 ^ 64 < modulus (F := Fr))%Z
  /\ (Z.of_N (byte_capacity false hundred_bytes) < modulus (F := Fr))%Z
  /\ looks_up C adv 5 31 hundred_bytes d (fun i => 3 + i).
Proof.
  intros short mode Hm. destruct (ex_lookup_message short mode Hm) as (C & h & L0 & L1 & n & u & adv & B & R & S & G & SU & SA & CF & d & T3 & T4).
  exists C, h, L0, L1, n, u, adv, d. split; [exact B|]. split; [exact R|]. split; [exact S|]. split; [exact G|]. split; [exact SU|].
  split; [cbn; lia|]. split; [exact SA|]. split; [exact CF|]. split; [rewrite S, R; exact twice_bound|]. split; [vm_compute; reflexivity|].
  unfold looks_up. assert (H3 : head C adv 3 = fr 1) by (exact (f_equal (fun l => nth 5 l fzero) T3)).
  assert (H4 : head C adv 4 = fr 0) by (exact (f_equal (fun l => nth 5 l fzero) T4)).
  split; [exact H3|]. intros i Hi. change (i < 2) in Hi. split; [lia|]. rewrite G.
  assert (K : i = 0 \/ i = 1) by lia. destruct K; subst i; cbn [Nat.add].
  - rewrite T3, H3. reflexivity.
  - rewrite T4, H4. reflexivity.
Qed.

(** with tables that mix nothing, two messages collide *)
Definition one_word (b : byte) : list byte := b :: repeat x00 15 ++ x02 :: repeat x00 15.
Lemma ex_byte_collision : exists s, constants_ok weak_tables /\ cached_hash_spec false weak_tables = Ok s
  /\ (256 ^ Z.of_nat 16 <= modulus (F := Fr))%Z /\ (Z.of_N (byte_capacity false (one_word x01)) < modulus (F := Fr))%Z
  /\ one_word x01 <> one_word x03
  /\ exists d, byte_hash false s 16 (one_word x01) = Ok d /\ byte_hash false s 16 (one_word x03) = Ok d.
Proof.
  destruct ex_default_collision as (s & K & E & _). exists s. split; [exact K|]. split; [exact E|]. split; [vm_compute; discriminate|].
  split; [vm_compute; reflexivity|]. split; [discriminate|].
  unfold byte_hash. change (byte_words 16 (one_word x01)) with [fr 1; fr 2]. change (byte_words 16 (one_word x03)) with [fr 3; fr 2].
  change (byte_capacity false (one_word x01)) with (32 * 2 ^ 64)%N. change (byte_capacity false (one_word x03)) with (32 * 2 ^ 64)%N.
  rewrite !(hash_msg_claim false false weak_tables s _ (Some (32 * 2 ^ 64)%N) K E).
  assert (X : forall k, k = of_Z (Z.of_N (32 * 2 ^ 64)) -> message_hash weak_tables k [fr 1; fr 2] = message_hash weak_tables k [fr 3; fr 2]).
  { intros k ->. apply feqb_eq. vm_compute. reflexivity. }
  rewrite (X _ eq_refl). eexists. split; reflexivity.
Qed.
