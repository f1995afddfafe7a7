(** Concrete cases for C56. *)
From Coq Require Import ZArith List Arith Lia.
From Verif Require Import Field ZpField Primes Rust Primitives Specs Pasta SpecHash Link Const_proof Base_claims Bij_claims Halo2 Septidon PermuteChip
  ChipUse SeptVal_proof Contract SeptChip_proof Stack_proof Sept_claims Rounds_claims ExamplesPow5 ExamplesGadget ExamplesSept ExamplesBase.
Import ListNotations.
Local Open Scope nat_scope.

(** tables of 58 partial rounds over the field of 19 elements *)
Definition toy58 : p128_constants F19 :=
  {| pc_partial_rounds := 58; pc_round_constants := map (fun i => map (fun j => g (Z.of_nat (i * i + 3 * j + 1))) (seq 0 3)) (seq 0 66);
     pc_mds := mds tri; pc_mds_inv := mds_inv tri |}.
Lemma toy58_ok : constants_ok toy58.
Proof. split; [split; [reflexivity|repeat constructor]|]. split; [repeat constructor|reflexivity]. Qed.

Lemma toy58_differs : exists s, compact_spec toy58 = Ok s
  /\ spec_permute (mds s) 4 57 (round_constants s) [g 1; g 2; g 3] <> poseidon_permutation toy58 [g 1; g 2; g 3].
Proof.
  destruct (compact_spec toy58) as [s|] eqn:E; [|exfalso; revert E; vm_compute; discriminate].
  exists s. split; [reflexivity|].
  assert (X : match compact_spec toy58 with
    | Ok s => negb (feqb (nth 0 (spec_permute (mds s) 4 57 (round_constants s) [g 1; g 2; g 3]) fzero)
                         (nth 0 (poseidon_permutation toy58 [g 1; g 2; g 3]) fzero))
    | Panic => false end = true) by (vm_compute; reflexivity).
  rewrite E in X. apply Bool.negb_true_iff, feqb_neq in X. intros Y. apply X. now rewrite Y.
Qed.

(** the circuit of 58 partial rounds: two permutations, the first of which is not the Poseidon permutation *)
Lemma ex_more_rounds : exists s, constants_ok toy58 /\ pc_partial_rounds toy58 = 58 /\ compact_spec toy58 = Ok s
  /\ let P := septidon_chip (round_constants s) (mds s) in
     let cfg := fst (pc_configure P (host (F := F19))) in let cs1 := snd (pc_configure P host) in
     exists L ws out out2 adv, let calls := [(ws, out); (out, out2)] in
       chip_used P cfg (added host cs1) L calls [] /\ 8 * length calls <= 19
       /\ gates_hold 19 L adv (cs_gates cs1) /\ copies_hold L adv
       /\ map (word_at L adv) ws = [g 1; g 2; g 3]
       /\ map (word_at L adv) out <> poseidon_permutation toy58 (map (word_at L adv) ws).
Proof.
  destruct toy58_differs as (s & Hs & N). exists s. split; [exact toy58_ok|]. split; [reflexivity|]. split; [exact Hs|].
  assert (H57 : 57 <= pc_partial_rounds toy58) by (cbn; lia).
  pose proof (septidon_correct _ _ (long_table toy58 s toy58_ok H57 Hs)) as PC.
  destruct (two_calls _ _ 8 PC (g 1) (g 2) (g 3)) as (L & out & out2 & U & Hn & H).
  destruct (H (fun _ _ => fzero)) as (_ & W & G & C).
  exists L. eexists. exists out, out2. eexists. cbv zeta. split; [exact U|]. split; [exact Hn|].
  split; [exact G|]. split; [exact C|]. split; [exact W|].
  rewrite (more_rounds_claim toy58 s host L _ [] 19 _ toy58_ok H57 Hs U Hn G C _ out (or_introl eq_refl)). rewrite W. exact N.
Qed.

(** the published tables of Pallas have 56 partial rounds *)
Lemma ex_fewer_rounds : exists s, constants_ok pasta_constants /\ pc_partial_rounds pasta_constants < 57
  /\ compact_spec pasta_constants = Ok s.
Proof.
  destruct (compact_spec_exists pasta_constants pasta_ok) as [s Hs]. exists s. split; [exact pasta_ok|]. split; [cbn; lia|exact Hs].
Qed.
