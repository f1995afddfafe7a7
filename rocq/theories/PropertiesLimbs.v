(** Property C82: the 64-bit limb arithmetic of poseidon-base. *)
From Coq Require Import ZArith List.
From Verif Require Import Rust Limbs LimbsSpec Limbs_claims ExamplesLimbs.
Import ListNotations.
Local Open Scope Z_scope.

(** C82: none of the word operations overflows, and their two words are the exact result *)
Theorem C82_adc : forall a b carry, word a -> word b -> word carry ->
  exists lo hi, adc a b carry = Ok (lo, hi) /\ word lo /\ 0 <= hi <= 2 /\ number [lo; hi] = a + b + carry /\ (carry <= 1 -> hi <= 1).
Proof. exact adc_claim. Qed.
Print Assumptions C82_adc.
Theorem C82_mac : forall a b c carry, word a -> word b -> word c -> word carry ->
  (exists lo hi, mac a b c carry = Ok (lo, hi) /\ word lo /\ word hi /\ number [lo; hi] = a + b * c + carry) /\ macx a b c = mac a b c 0.
Proof. exact mac_claim. Qed.
Print Assumptions C82_mac.
Theorem C82_sbb : forall a b (bit : bool), word a -> word b ->
  exists d (bit' : bool), sbb a b (if bit then 2 ^ 64 - 1 else 0) = Ok (d, if bit' then 2 ^ 64 - 1 else 0)
  /\ word d /\ d = a - b - Z.b2z bit + (if bit' then 2 ^ 64 else 0) /\ (bit' = true <-> a < b + Z.b2z bit).
Proof. exact sbb_claim. Qed.
Print Assumptions C82_sbb.
Example C82_words_instance : word top_word /\ mac top_word top_word top_word top_word = Ok (top_word, top_word)
  /\ adc top_word top_word top_word = Ok (2 ^ 64 - 3, 2) /\ sbb 0 top_word top_word = Ok (0, top_word).
Proof. exact ex_words. Qed.

(** [sbb] subtracts only the top bit of its borrow, not the borrow *)
Theorem C82_borrow_refuted : exists a b borrow, word a /\ word b /\ word borrow /\ sbb a b borrow = Ok (a - b, 0) /\ 0 < borrow <= a - b.
Proof. exact ex_borrow. Qed.
Print Assumptions C82_borrow_refuted.

(** the product of two numbers of four words is exact, in eight words *)
Theorem C82_mul : forall a b, length a = 4%nat -> length b = 4%nat -> Forall word a -> Forall word b ->
  exists r, mul_512 a b = Ok r /\ length r = 8%nat /\ Forall word r /\ number r = number a * number b.
Proof. exact mul_claim. Qed.
Print Assumptions C82_mul.
Example C82_mul_instance : length top_number = 4%nat /\ Forall word top_number
  /\ mul_512 top_number top_number = Ok [1; 0; 0; 0; 2 ^ 64 - 2; top_word; top_word; top_word].
Proof. exact ex_product. Qed.

(** along numbers of any length, [adc] adds and [sbb] subtracts and compares *)
Theorem C82_chains : forall a b, length a = length b -> Forall word a -> Forall word b ->
  let top := 2 ^ (64 * Z.of_nat (length a)) in
  (exists r out, along adc 0 a b = Ok (r, out) /\ length r = length a /\ Forall word r /\ 0 <= out <= 1 /\ number r + top * out = number a + number b)
  /\ exists r (out : bool), along sbb 0 a b = Ok (r, if out then 2 ^ 64 - 1 else 0) /\ length r = length a /\ Forall word r
     /\ number r = number a - number b + (if out then top else 0) /\ (out = true <-> number a < number b).
Proof. exact chains_claim. Qed.
Print Assumptions C82_chains.
Example C82_chains_instance : along adc 0 [top_word; top_word] [1; 0] = Ok ([0; 0], 1) /\ along sbb 0 [0; 1] [1; 0] = Ok ([top_word; 0], 0).
Proof. exact ex_chain. Qed.
