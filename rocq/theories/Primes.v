(** Primality certificates (generated) for the BN254 scalar field and the Pallas base field. *)
From Coq Require Import ZArith Znumtheory List.
From Verif Require Import NumTheory Field ZpField.
Import ListNotations.
Open Scope Z_scope.

(** modulus of halo2curves::bn256::Fr (dependency; checked against the repo's constants) *)
Definition bn254_r : Z := 21888242871839275222246405745257275088548364400416034343698204186575808495617.
(** modulus of pasta Fp, poseidon-base/src/primitives/pasta/mod.rs *)
Definition pallas_p : Z := 28948022309329048855892746252171976963363056481941560715954676764349967630337.

Lemma prime_1637 : prime 1637.
Proof. apply (small_prime _ 41%nat). vm_compute. reflexivity. Qed.
Lemma prime_853 : prime 853.
Proof. apply (small_prime _ 30%nat). vm_compute. reflexivity. Qed.
Lemma prime_639533339 : prime 639533339.
Proof.
  apply (pock_prime _ [(1637, 2); (853, 2)]); [vm_compute; reflexivity|].
  cbn [map fst]. apply Forall_cons; [apply prime_1637|]. apply Forall_cons; [apply prime_853|]. apply Forall_nil.
Qed.
Lemma prime_65865678001877903 : prime 65865678001877903.
Proof.
  apply (pock_prime _ [(639533339, 2)]); [vm_compute; reflexivity|].
  cbn [map fst]. apply Forall_cons; [apply prime_639533339|]. apply Forall_nil.
Qed.
Lemma prime_13818364434197438864469338081 : prime 13818364434197438864469338081.
Proof.
  apply (pock_prime _ [(65865678001877903, 2)]); [vm_compute; reflexivity|].
  cbn [map fst]. apply Forall_cons; [apply prime_65865678001877903|]. apply Forall_nil.
Qed.
Lemma prime_93001 : prime 93001.
Proof. apply (small_prime _ 305%nat). vm_compute. reflexivity. Qed.
Lemma prime_661 : prime 661.
Proof. apply (small_prime _ 26%nat). vm_compute. reflexivity. Qed.
Lemma prime_12048837557 : prime 12048837557.
Proof.
  apply (pock_prime _ [(93001, 2); (661, 2)]); [vm_compute; reflexivity|].
  cbn [map fst]. apply Forall_cons; [apply prime_93001|]. apply Forall_cons; [apply prime_661|]. apply Forall_nil.
Qed.
Lemma prime_5156902474397 : prime 5156902474397.
Proof.
  apply (pock_prime _ [(12048837557, 2)]); [vm_compute; reflexivity|].
  cbn [map fst]. apply Forall_cons; [apply prime_12048837557|]. apply Forall_nil.
Qed.
Lemma prime_1670836401704629 : prime 1670836401704629.
Proof.
  apply (pock_prime _ [(5156902474397, 2)]); [vm_compute; reflexivity|].
  cbn [map fst]. apply Forall_cons; [apply prime_5156902474397|]. apply Forall_nil.
Qed.
Lemma bn254_r_prime : prime bn254_r.
Proof.
  apply (pock_prime _ [(13818364434197438864469338081, 2); (1670836401704629, 2)]); [vm_compute; reflexivity|].
  cbn [map fst]. apply Forall_cons; [apply prime_13818364434197438864469338081|]. apply Forall_cons; [apply prime_1670836401704629|]. apply Forall_nil.
Qed.
Lemma prime_772231 : prime 772231.
Proof. apply (small_prime _ 879%nat). vm_compute. reflexivity. Qed.
Lemma prime_413527 : prime 413527.
Proof. apply (small_prime _ 644%nat). vm_compute. reflexivity. Qed.
Lemma prime_325086459374267 : prime 325086459374267.
Proof.
  apply (pock_prime _ [(772231, 2); (413527, 2)]); [vm_compute; reflexivity|].
  cbn [map fst]. apply Forall_cons; [apply prime_772231|]. apply Forall_cons; [apply prime_413527|]. apply Forall_nil.
Qed.
Lemma prime_977 : prime 977.
Proof. apply (small_prime _ 32%nat). vm_compute. reflexivity. Qed.
Lemma prime_19 : prime 19.
Proof. apply (small_prime _ 5%nat). vm_compute. reflexivity. Qed.
Lemma prime_6942563 : prime 6942563.
Proof.
  apply (pock_prime _ [(977, 2); (19, 2)]); [vm_compute; reflexivity|].
  cbn [map fst]. apply Forall_cons; [apply prime_977|]. apply Forall_cons; [apply prime_19|]. apply Forall_nil.
Qed.
Lemma prime_41655379 : prime 41655379.
Proof.
  apply (pock_prime _ [(6942563, 2)]); [vm_compute; reflexivity|].
  cbn [map fst]. apply Forall_cons; [apply prime_6942563|]. apply Forall_nil.
Qed.
Lemma prime_22160661629 : prime 22160661629.
Proof.
  apply (pock_prime _ [(41655379, 2)]); [vm_compute; reflexivity|].
  cbn [map fst]. apply Forall_cons; [apply prime_41655379|]. apply Forall_nil.
Qed.
Lemma prime_8999194758858563409123804352480028797519453 : prime 8999194758858563409123804352480028797519453.
Proof.
  apply (pock_prime _ [(325086459374267, 2); (22160661629, 2)]); [vm_compute; reflexivity|].
  cbn [map fst]. apply Forall_cons; [apply prime_325086459374267|]. apply Forall_cons; [apply prime_22160661629|]. apply Forall_nil.
Qed.
Lemma pallas_p_prime : prime pallas_p.
Proof.
  apply (pock_prime _ [(8999194758858563409123804352480028797519453, 2)]); [vm_compute; reflexivity|].
  cbn [map fst]. apply Forall_cons; [apply prime_8999194758858563409123804352480028797519453|]. apply Forall_nil.
Qed.

(** the field of the hash: bn256::Fr *)
Notation Fr := (Fp bn254_r).
#[global] Instance Fr_field : PrimeField Fr := FpField_of_prime bn254_r bn254_r_prime.

(** pasta::Fp *)
Notation Pallas := (Fp pallas_p).
#[global] Instance Pallas_field : PrimeField Pallas := FpField_of_prime pallas_p pallas_p_prime.
