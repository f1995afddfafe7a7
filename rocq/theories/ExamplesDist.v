(** Concrete cases for C69. *)
From Coq Require Import ZArith List Arith Lia.
From Verif Require Import Field ZpField Primes Rust Primitives Specs Bn256 Pasta BaseHash SpecHash Link Const_proof BaseHash_proof Base_claims Bij_claims Poly_claims ExamplesBase.
Import ListNotations.
Local Open Scope nat_scope.

(** every pair of words and every message has a digest; the lists of all others with the same digest are bounded *)
Lemma ex_pair : forall short (a b d : Fr), exists s h, cached_hash_spec short bn256_c = Ok s /\ NoDup [(a, b)]
  /\ forall a' b', In (a', b') [(a, b)] -> hash_with_domain s (a', b') d = Ok h.
Proof.
  intros short a b d. destruct (cached_spec_exists short bn256_c bn256_ok) as [s Hs]. exists s, (nth 0 (hash_permute 3 s [d; a; b]) fzero).
  split; [exact Hs|]. split; [repeat constructor; auto|]. intros a' b' [E|[]]. injection E as <- <-. exact (domain_hash short bn256_c s bn256_ok Hs a b d).
Qed.
Lemma ex_message : forall short legacy (m : list Fr) cap, m <> [] -> exists s h, cached_hash_spec short bn256_c = Ok s /\ NoDup [m]
  /\ forall m', In m' [m] -> length m' = length m /\ hash_msg legacy s m' cap = Ok h.
Proof.
  intros short legacy m cap N. destruct (cached_spec_exists short bn256_c bn256_ok) as [s Hs].
  destruct (hash_msg legacy s m cap) as [h|] eqn:E.
  - exists s, h. split; [exact Hs|]. split; [repeat constructor; auto|]. intros m' [<-|[]]. now split.
  - exfalso. apply N. exact (proj1 (proj1 (no_panic_claim short legacy bn256_c s bn256_ok Hs) m cap) E).
Qed.
