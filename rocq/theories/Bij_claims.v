(** The lemmas behind the theorems of PropertiesMore.v about C08 and C15: any Poseidon permutation, and the Pallas tables. *)
From Coq Require Import ZArith Znumtheory List Arith Lia.
From Verif Require Import Field Rust ZpField Primes BigSum Primitives Specs Grain Mds Pasta BaseHash SpecHash Link Mds_proof Bij_proof
  BaseHash_proof Perm_proof Const_proof.
Import ListNotations.
Local Open Scope nat_scope.

Section Generic.
  Context {F : Type} {FO : FieldOps F} {PF : PrimeField F}.

  Theorem permutation_bijective_claim : forall T (s : spec F) mi,
    rel_prime 5 (modulus (F := F) - 1) -> poseidon_spec T s -> mat_prod_id T (mds s) mi -> mat_prod_id T mi (mds s) ->
    (forall x, length x = T -> length (hash_permute T s x) = T)
    /\ (forall x y, length x = T -> length y = T -> hash_permute T s x = hash_permute T s y -> x = y)
    /\ (forall y, length y = T -> exists x, length x = T /\ hash_permute T s x = y).
  Proof.
    intros T s mi H5 (Hb & _ & Hr & Hl) I1 I2. unfold hash_permute.
    exact (permute_bijective T s (mds s) mi (round_constants s) H5 Hb I1 I2 Hr Hl).
  Qed.

  Theorem tables_bijective_claim : forall (c : p128_constants F) mi short s,
    rel_prime 5 (modulus (F := F) - 1) -> constants_ok c -> mat_prod_id 3 (pc_mds c) mi -> mat_prod_id 3 mi (pc_mds c) ->
    cached_hash_spec short c = Ok s ->
    (forall x y, length x = 3 -> length y = 3 -> hash_permute 3 s x = hash_permute 3 s y -> x = y)
    /\ (forall y, length y = 3 -> exists x, length x = 3 /\ hash_permute 3 s x = y).
  Proof.
    intros c mi short s H5 Hc I1 I2 Hs.
    assert (B : bij 3 (hash_permute 3 s)).
    { apply (bij_ext 3 (hash_permute 3 (p128_spec c))).
      - intros x Hx. symmetry. exact (cached_permute short c s Hc Hs x Hx).
      - destruct Hc as (_ & Hr & Hl). unfold hash_permute. apply permute_bijective with (mi := mi); auto.
        + apply sbox_pow_power5.
        + cbn [round_constants p128_spec full_rounds partial_rounds Nat.div2]. rewrite Hl. lia. }
    destruct B as (_ & B1 & B2). split; assumption.
  Qed.
End Generic.

Lemma pallas_5 : rel_prime 5 (modulus (F := Pallas) - 1).
Proof. apply Zgcd_1_rel_prime. vm_compute. reflexivity. Qed.
Lemma pasta_ok : constants_ok pasta_constants.
Proof.
  split; [split; [reflexivity|repeat constructor]|]. split.
  - apply forallb_length. vm_compute. reflexivity.
  - cbn [pasta_constants pc_round_constants pc_partial_rounds]. unfold pasta_round_constants. rewrite map_length. reflexivity.
Qed.
Theorem pasta_inverse : mat_prod_id 3 pasta_mds pasta_mds_inv /\ mat_prod_id 3 pasta_mds_inv pasta_mds.
Proof.
  destruct (gen_constants_mds _ _ _ _ _ _ _ _ _ pasta_generated) as [g E].
  destruct (generate_mds_inverse _ _ _ _ _ _ _ E) as (A & B & _). split; assumption.
Qed.
Theorem pasta_minors : forall k rows cols, indices 3 k rows -> indices 3 k cols ->
  exists inv, mat_prod_id k (submatrix pasta_mds rows cols) inv /\ mat_prod_id k inv (submatrix pasta_mds rows cols).
Proof.
  destruct (gen_constants_mds _ _ _ _ _ _ _ _ _ pasta_generated) as [g E].
  exact (generate_mds_minors _ _ _ _ _ _ _ E).
Qed.
Theorem pasta_bijective_claim : forall short s, cached_hash_spec short pasta_constants = Ok s ->
  (forall x y, length x = 3 -> length y = 3 -> hash_permute 3 s x = hash_permute 3 s y -> x = y)
  /\ (forall y, length y = 3 -> exists x, length x = 3 /\ hash_permute 3 s x = y).
Proof.
  intros short s Hs. destruct pasta_inverse as [I1 I2].
  exact (tables_bijective_claim pasta_constants pasta_mds_inv short s pallas_5 pasta_ok I1 I2 Hs).
Qed.
Lemma ex_pasta : exists s, cached_hash_spec true pasta_constants = Ok s.
Proof. exact (cached_spec_exists true pasta_constants pasta_ok). Qed.
