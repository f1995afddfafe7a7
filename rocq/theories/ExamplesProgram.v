(** A circuit that meets the hypotheses of C65: the toy chip of ExamplesGadget.v hashes three words, then the digest
    with the first word, then the new digest twice. *)
From Coq Require Import ZArith List Arith Lia Bool.
From Verif Require Import Field ZpField Primes Rust ListAux BigSum Perm_proof SpecHash Primitives Specs Link
  Halo2 ChipUse Pow5 Built Pow5Use Gadget GadgetUse WitnessUse Trace_proof Pow5_claims Gadget_claims ProgramUse Program_claims
  ExamplesPow5 ExamplesGadget.
Import ListNotations.
Local Open Scope nat_scope.

Definition tri_program : program := [[0; 1; 2]; [3; 0]; [4; 4]].

Lemma ex_program : exists L1 L2 msg ws, tri_message (layout_empty tri_cs) = Ok (L1, msg)
  /\ tri_circuit L1 no_copy /\ lo_const L1 <> None /\ grows (layout_empty tri_cs) L1 /\ words_in L1 msg
  /\ Forall2 (carries L1) msg [g 7; g 11; g 5] /\ well_formed 3 tri_program
  /\ circuit_program 3 2 tri tri_cfg tri_program msg L1 = Ok (L2, ws) /\ calls 3 2 tri tri_cfg tri_program msg L1 ws L2
  /\ fits 60 L2 /\ depends 3 tri_program 5 1
  /\ forall blind, let adv := honest 60 L2 blind in
     gates_hold 63 L2 adv (cs_gates tri_cs) /\ copies_hold L2 adv
     /\ map (word_at L2 adv) ws = evaluate (fixed_hash 3 tri) tri_program [g 7; g 11; g 5].
Proof.
  destruct tri_inv as [I1 I2].
  destruct (tri_message (layout_empty tri_cs)) as [[L1 msg]|] eqn:E1; [|vm_compute in E1; discriminate E1].
  assert (G1 : grows (layout_empty tri_cs) L1) by (eapply grows_one; exact E1).
  assert (V1 := E1). vm_compute in V1. injection V1 as VL Vm.
  assert (M1 : tri_circuit L1 no_copy).
  { change no_copy with (no_copy ++ []). eapply made_region; [apply made_start|exact tri_message_quiet|exact E1|]. rewrite <- VL. reflexivity. }
  assert (K1 : lo_const L1 <> None) by (rewrite <- VL; discriminate).
  assert (C1 : Forall2 (carries L1) msg [g 7; g 11; g 5]).
  { rewrite <- VL, <- Vm. repeat (constructor; [split; [cbn; lia|split; reflexivity]|]). constructor. }
  assert (W : well_formed 3 tri_program) by (cbn; repeat split; try discriminate; repeat constructor).
  destruct (program_complete_claim 3 tri [0; 1; 2] 3 [0; 1; 2] [3; 4; 5] tri_host tri_cs tri_cfg tri_program msg _ L1 no_copy
    tri_spec_ok ltac:(lia) I1 I2 tri_columns eq_refl M1 K1 C1) as [_ R].
  destruct (R W) as (L2 & ws & E2 & C2 & M2 & G2 & K2). clear R. cbn [Nat.sub] in E2, C2.
  assert (F2 : fits 60 L2).
  { assert (X : L2 = layout_of (circuit_program 3 2 tri tri_cfg tri_program msg L1)) by (rewrite E2; reflexivity).
    rewrite X, <- VL, <- Vm. apply rows_below_fits. vm_compute. reflexivity. }
  exists L1, L2, msg, ws. split; [reflexivity|]. split; [exact M1|]. split; [exact K1|]. split; [exact G1|].
  split. { clear - C1. unfold words_in. induction C1 as [|w v l y H]; constructor; [apply H|assumption]. }
  split; [exact C1|]. split; [exact W|]. split; [exact E2|]. split; [exact C2|]. split; [exact F2|]. split.
  { apply (depends_step 3 tri_program 2 [4; 4] 4 1 eq_refl); [left; reflexivity|].
    apply (depends_step 3 tri_program 1 [3; 0] 3 1 eq_refl); [left; reflexivity|].
    apply (depends_step 3 tri_program 0 [0; 1; 2] 1 1 eq_refl); [right; left; reflexivity|apply depends_self]. }
  intros blind adv. destruct (K2 L2 no_copy 60 63 blind (grows_refl _) M2 F2 ltac:(lia)) as (X & Y & _ & Z); [intros a b []|intros gt r []|].
  split; [exact X|]. split; [exact Y|exact Z].
Qed.
