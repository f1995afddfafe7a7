(** Concrete cases that meet the hypotheses of the theorems of PropertiesOrder.v. *)
From Coq Require Import ZArith NArith List Arith.
From Verif Require Import Field ZpField Primes Rust Primitives Specs Bn256 BaseHash SpecHash Link BaseHash_proof Const_proof PolyUse Order_claims Base_claims ExamplesPow5 ExamplesGadget.
Import ListNotations.
Local Open Scope nat_scope.

(** instances of C73: the words that are equal *)
Lemma ex_swapped : forall short (b d : Fr), exists s, cached_hash_spec short bn256_c = Ok s /\ NoDup [b]
  /\ forall a, In a [b] -> hash_with_domain s (a, b) d = hash_with_domain s (b, a) d.
Proof.
  intros short b d. destruct (cached_spec_exists short bn256_c bn256_ok) as [s Hs]. exists s. split; [exact Hs|].
  split; [repeat constructor; intros []|]. intros a [<-|[]]. reflexivity.
Qed.
Lemma ex_messages : forall short legacy cap (p : list Fr) b, exists s, cached_hash_spec short bn256_c = Ok s /\ NoDup [b]
  /\ forall x, In x [b] -> hash_msg legacy s (p ++ x :: [b]) cap = hash_msg legacy s (p ++ [b; x]) cap.
Proof.
  intros short legacy cap p b. destruct (cached_spec_exists short bn256_c bn256_ok) as [s Hs]. exists s. split; [exact Hs|].
  split; [repeat constructor; intros []|]. intros a [<-|[]]. reflexivity.
Qed.

Lemma ex_words : forall short (b d : Fr), exists s, cached_hash_spec short bn256_c = Ok s /\ NoDup [b]
  /\ forall x j, In x [b] -> nth j (hash_permute 3 s (with_word 1 [d; b; b] x)) fzero = nth j (hash_permute 3 s (with_word 2 [d; b; b] x)) fzero.
Proof.
  intros short b d. destruct (cached_spec_exists short bn256_c bn256_ok) as [s Hs]. exists s. split; [exact Hs|].
  split; [repeat constructor; intros []|]. intros a j [<-|[]]. reflexivity.
Qed.
Lemma ex_lines : poseidon_spec 3 tri
  /\ nth 1 (lead_permute (mds tri) (Nat.div2 (full_rounds tri)) (partial_rounds tri) [g 0; g 1; g 2]) fzero
     <> nth 1 (lead_permute (mds tri) (Nat.div2 (full_rounds tri)) (partial_rounds tri) [g 1; g 0; g 2]) fzero.
Proof. split; [exact tri_spec_ok|]. intros E. apply (f_equal to_Z) in E. vm_compute in E. discriminate E. Qed.
