(** Concrete cases for C59. *)
From Coq Require Import ZArith List Arith Lia.
From Verif Require Import Field ZpField Primes Rust Primitives Specs Bn256 Const_proof Link Base_claims BaseHash_proof Halo2 Septidon PermuteChip
  ChipUse DegreeUse SeptVal_proof Contract SeptChip_proof Stack_proof Sept_claims Degree5_claims ExamplesSept ExamplesBase.
Import ListNotations.
Local Open Scope nat_scope.

(** two permutations on 16 rows: accepted; on 19 rows: rejected, though the variant in the repository accepts *)
Lemma ex_degree_5 : exists s, compact_spec bn256_c = Ok s /\ constants_ok bn256_c /\ pc_partial_rounds bn256_c = 57
  /\ let P := septidon_degree_5_chip (round_constants s) (mds s) in let P0 := septidon_chip (round_constants s) (mds s) in
     let cfg := fst (pc_configure P (host (F := Fr))) in let cs1 := snd (pc_configure P host) in
     exists L ws out out2, let calls := [(ws, out); (out, out2)] in
       chip_used P cfg (added host cs1) L calls []
       /\ (let adv := honest 16 L (fun _ _ => fzero) in
           known L adv calls /\ map (word_at L adv) ws = [fr 5; fr 7; fr 11]
           /\ gates_hold 16 L adv (cs_gates cs1) /\ copies_hold L adv)
       /\ (let adv := honest 19 L (fun _ _ => fzero) in
           known L adv calls /\ map (word_at L adv) ws = [fr 5; fr 7; fr 11]
           /\ gates_hold 19 L adv (cs_gates (snd (pc_configure P0 host))) /\ copies_hold L adv
           /\ ~ gates_hold 19 L adv (cs_gates cs1)).
Proof.
  destruct (compact_spec_exists bn256_c bn256_ok) as [s Hs]. exists s. split; [exact Hs|].
  split; [exact bn256_ok|]. split; [reflexivity|]. intros P P0 cfg cs1.
  destruct (two_calls_in _ _ 8 (septidon_poseidon bn256_c s bn256_ok eq_refl Hs) (fr 5) (fr 7) (fr 11)) as (L & out & out2 & U & H).
  exists L. eexists. exists out, out2. cbv zeta. apply used_degree_5_back in U.
  split; [exact U|]. split.
  - destruct (H 16 ltac:(lia) ltac:(cbn; lia) (fun _ _ => fzero)) as (K & W & G & C). split; [exact K|]. split; [exact W|]. split; [|exact C].
    apply (proj2 (degree_5_full_claim bn256_c s host L _ [] 16 _ bn256_ok eq_refl Hs U eq_refl)). exact G.
  - destruct (H 19 ltac:(lia) ltac:(cbn; lia) (fun _ _ => fzero)) as (K & W & G & C). split; [exact K|]. split; [exact W|]. split; [exact G|].
    split; [exact C|]. apply (degree_5_rejects bn256_c s host L _ [] 19 (fun _ _ => fzero) bn256_ok eq_refl Hs U ltac:(cbn; lia) C _ out eq_refl).
    rewrite W. intros E. apply (f_equal (fun l => nth 0 l fzero)) in E. cbn [nth] in E. revert E. apply feqb_neq. vm_compute. reflexivity.
Qed.

Lemma ex_degree_6 : exists s, compact_spec bn256_c = Ok s
  /\ 5 < required_degree (snd (septidon_configure_as (round_constants s) (mds s) true (cs_empty (F := Fr)))).
Proof.
  destruct (compact_spec_exists bn256_c bn256_ok) as [s Hs]. exists s. split; [exact Hs|].
  destruct (septidon_configure_as (round_constants s) (mds s) true cs_empty) as [cfg cs1] eqn:E.
  destruct (degree_5_degree_claim _ _ _ _ _ E) as (_ & _ & _ & D). cbn [snd]. rewrite D. lia.
Qed.
