(** Concrete cases for C55. *)
From Coq Require Import ZArith Znumtheory List Arith Lia.
From Verif Require Import Field ZpField Primes Rust Primitives Specs Bn256 Pasta Mds BaseHash SpecHash Link Perm_proof Mds_proof Const_proof BaseHash_proof Base_claims Bij_claims
  SboxUse ExamplesPow5 ExamplesGadget ExamplesBase.
Import ListNotations.
Local Open Scope nat_scope.

(** two runs of a permutation with 2 + 2 rounds over F19: 8 S-boxes, of which 6 get different inputs *)
Lemma ex_trace :
  let inputs := sbox_inputs (mds tri) (Nat.div2 (full_rounds tri)) (partial_rounds tri) (round_constants tri) in
  length (inputs [g 1; g 2; g 3]) = 8 /\ differences (inputs [g 1; g 2; g 3]) (inputs [g 1; g 2; g 4]) = 6
  /\ differences (inputs [g 1; g 2; g 3]) (inputs [g 1; g 2; g 1]) = 5.
Proof. vm_compute. repeat split. Qed.

Lemma ex_active_bn : exists s, cached_hash_spec true bn256_c = Ok s
  /\ let x := [of_Z 1; of_Z 2; of_Z 3] : list Fr in let y := [of_Z 1; of_Z 2; of_Z 4] : list Fr in length x = 3 /\ length y = 3 /\ x <> y.
Proof.
  destruct (cached_spec_exists true bn256_c bn256_ok) as [s Hs]. exists s. split; [exact Hs|]. split; [reflexivity|]. split; [reflexivity|].
  intros E. apply (f_equal (fun l => nth 2 l fzero)) in E. revert E. change ((of_Z 3 : Fr) <> of_Z 4). apply feqb_neq. vm_compute. reflexivity.
Qed.
Lemma ex_active_pallas : exists s, cached_hash_spec false pasta_constants = Ok s
  /\ let x := [of_Z 1; of_Z 2; of_Z 3] : list Pallas in let y := [of_Z 0; of_Z 2; of_Z 3] : list Pallas in length x = 3 /\ length y = 3 /\ x <> y.
Proof.
  destruct (cached_spec_exists false pasta_constants pasta_ok) as [s Hs]. exists s. split; [exact Hs|]. split; [reflexivity|]. split; [reflexivity|].
  intros E. apply (f_equal (fun l => nth 0 l fzero)) in E. revert E. change ((of_Z 1 : Pallas) <> of_Z 0). apply feqb_neq. vm_compute. reflexivity.
Qed.
Lemma ex_branch : exists g m mi, generate_mds (F := Fr) 10 80 3 0 g = Some (Ok (m, mi)) /\ square 3 m.
Proof. destruct (gen_constants_mds _ _ _ _ _ _ _ _ _ bn256_generated) as [g E]. exists g, bn256_mds, bn256_mds_inv. split; [exact E|exact bn256_square]. Qed.
Lemma ex_two_rounds : square 3 bn256_mds /\ fnth (nth 0 bn256_mds []) 1 <> fzero.
Proof. split; [exact bn256_square|]. apply feqb_neq. vm_compute. reflexivity. Qed.
