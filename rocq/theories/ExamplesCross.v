(** Concrete cases for C70. *)
From Coq Require Import ZArith List Arith Lia.
From Verif Require Import Field ZpField Primes Rust Primitives Specs Bn256 BaseHash SpecHash Link Const_proof BaseHash_proof Base_claims ExamplesCollision ExamplesBase.
Import ListNotations.
Local Open Scope nat_scope.

(** tables so weak that a two-word hash and a message hash agree *)
Lemma ex_cross : exists s h, constants_ok weak_tables /\ cached_hash_spec false weak_tables = Ok s /\ (2 ^ 128 <= modulus (F := Fr))%Z
  /\ (Z.of_nat (length [fr 3; fr 2]) < 2 ^ 64)%Z /\ (0 <= 7 < modulus (F := Fr))%Z
  /\ hash_with_domain s (fr 1, fr 2) (of_Z 7) = Ok h /\ hash_msg false s [fr 3; fr 2] None = Ok h.
Proof.
  assert (K : constants_ok weak_tables).
  { split; [split; [reflexivity|repeat constructor]|]. split; [repeat constructor|reflexivity]. }
  destruct (cached_spec_exists false weak_tables K) as [s E]. exists s, (two_word_hash weak_tables (fr 1) (fr 2) (of_Z 7)).
  split; [exact K|]. split; [exact E|]. split; [exact ex_modulus|]. split; [reflexivity|]. split; [split; [discriminate|reflexivity]|].
  split; [exact (proj1 (two_word_claim false false weak_tables s (fr 1) (fr 2) K E) (of_Z 7))|].
  rewrite (hash_msg_claim false false weak_tables s _ None K E). cbn [length].
  assert (X : forall k, k = of_Z (Z.of_nat 2 * 2 ^ 64) -> message_hash weak_tables k [fr 3; fr 2] = two_word_hash weak_tables (fr 1) (fr 2) (of_Z 7)).
  { intros k ->. apply feqb_eq. vm_compute. reflexivity. }
  now rewrite (X _ eq_refl).
Qed.
