(** Concrete cases for C66. *)
From Coq Require Import ZArith List Arith Lia.
From Verif Require Import Field ZpField Primes Rust Primitives Specs Bn256 Pasta Mds BaseHash SpecHash Link Perm_proof Mds_proof Const_proof BaseHash_proof Base_claims Bij_claims
  PolyUse Poly_proof Poly_claims ExamplesPow5 ExamplesGadget ExamplesBase.
Import ListNotations.
Local Open Scope nat_scope.

(** the line through two words of a permutation over F19 *)
Lemma ex_degree : poseidon_spec 3 tri /\ nth 1 (lead_permute (mds tri) (Nat.div2 (full_rounds tri)) (partial_rounds tri) [g 0; g 1; g 2]) fzero <> fzero.
Proof. split; [exact tri_spec_ok|]. apply feqb_neq. vm_compute. reflexivity. Qed.
(** over F19 x^3 takes the value 1 three times *)
Lemma ex_polynomial : map (polynomial [g 0; g 0; g 0; g 1]) [g 1; g 7; g 11] = [g 1; g 1; g 1] /\ NoDup [g 1; g 7; g 11].
Proof.
  split; [vm_compute; reflexivity|].
  repeat constructor; cbn [In]; intros H; repeat (destruct H as [H|H]); try contradiction; revert H; apply feqb_neq; vm_compute; reflexivity.
Qed.
Lemma ex_word : with_word 1 [g 4; g 5; g 6] (g 9) = [g 4; g 9; g 6] /\ on_line [g 4; g 5; g 6] [g 0; g 1; g 2] (g 3) = [g 4; g 8; g 12].
Proof. vm_compute. split; reflexivity. Qed.

(** a list with all digests of two words, one of which is fixed *)
Lemma ex_digests : forall short (u v : Fr), exists s l, cached_hash_spec short bn256_c = Ok s
  /\ forall x, exists h, In h l /\ hash_with_domain s (x, u) v = Ok h.
Proof.
  intros short u v. destruct (cached_spec_exists short bn256_c bn256_ok) as [s Hs].
  exists s, (map (fun n => nth 0 (hash_permute 3 s [v; of_Z (Z.of_nat n); u]) fzero) (seq 0 (Z.to_nat bn254_r))). split; [exact Hs|].
  intros x. exists (nth 0 (hash_permute 3 s [v; x; u]) fzero). split.
  - apply in_map_iff. exists (Z.to_nat (to_Z x)). pose proof (to_Z_range x) as R. split.
    + rewrite Z2Nat.id by lia. now rewrite of_to_Z.
    + apply in_seq. change (modulus (F := Fr)) with bn254_r in R. split; [lia|]. cbn [Nat.add]. apply Z2Nat.inj_lt; [lia| |apply R]. lia.
  - exact (domain_hash short bn256_c s bn256_ok Hs x u v).
Qed.
