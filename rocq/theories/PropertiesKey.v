(** Property C54: in-circuit hashing lays out the same circuit whatever the values are, known or not.  The vocabulary is
    in KeyUse.v. *)
From Coq Require Import ZArith List Arith.
From Verif Require Import Field ZpField Primes Rust Primitives Specs Halo2 Pow5 Pow5Use Gadget GadgetUse KeyUse Key_claims ExamplesPow5 ExamplesGadget ExamplesKey.
Import ListNotations.
Local Open Scope nat_scope.

Theorem C54_permute : forall F (FO : FieldOps F) (s : spec F) cfg L L' ws ws', same_key L L' -> Forall2 same_cell ws ws' ->
  same_outcome (Forall2 same_cell) (p5_permute s cfg ws L) (p5_permute s cfg ws' L').
Proof. exact (fun F FO => key_permute_claim). Qed.
Print Assumptions C54_permute.

Theorem C54_sponge : forall F (FO : FieldOps F) T RATE (s : spec F) cfg L L' cap input input' k,
  same_key L L' -> Forall2 same_padded input input' ->
  same_outcome (Forall2 same_cell) (circuit_session T RATE s cfg cap input k L) (circuit_session T RATE s cfg cap input' k L').
Proof. exact (fun F FO => key_session_claim). Qed.
Print Assumptions C54_sponge.
(** three unknown words and a constant, as in key generation *)
Example C54_instance : exists L1 L1' msg msg' L2 L2' out out',
  tri_message (layout_empty tri_cs) = Ok (L1, msg) /\ unknown_message (layout_empty tri_cs) = Ok (L1', msg')
  /\ same_key L1 L1' /\ lo_adv L1 <> lo_adv L1'
  /\ let input m := map Message m ++ [Padding (g 1)] in
     Forall2 same_padded (input msg) (input msg')
     /\ circuit_session 3 2 tri tri_cfg (g 9) (input msg) 5 L1 = Ok (L2, out)
     /\ circuit_session 3 2 tri tri_cfg (g 9) (input msg') 5 L1' = Ok (L2', out')
     /\ Forall (fun w => ac_val w <> None) out /\ Forall (fun w => ac_val w = None) out'.
Proof. exact ex_key_session. Qed.

Theorem C54_hash_init : forall F (FO : FieldOps F) RATE cfg N (L L' : layout F), same_key L L' ->
  same_outcome (fun _ _ => True) (circuit_hash_init RATE cfg N L) (circuit_hash_init RATE cfg N L').
Proof. exact (fun F FO => key_hash_init_claim). Qed.
Print Assumptions C54_hash_init.
Theorem C54_hash : forall F (FO : FieldOps F) T RATE (s : spec F) cfg N L0 L0' L1 L1' h h' L2 L2' msg msg',
  same_key L0 L0' -> circuit_hash_init RATE cfg N L0 = Ok (L1, h) -> circuit_hash_init RATE cfg N L0' = Ok (L1', h') ->
  same_key L1 L1' /\ (same_key L2 L2' -> Forall2 same_cell msg msg' ->
    same_outcome same_cell (circuit_hash T RATE s cfg N h msg L2) (circuit_hash T RATE s cfg N h' msg' L2')).
Proof. exact (fun F FO => key_hash_claim). Qed.
Print Assumptions C54_hash.

(** such layouts accept the same assignments *)
Theorem C54_same_circuit : forall F (FO : FieldOps F) (L L' : layout F), same_key L L' -> forall n u m adv,
  (satisfied n u m L adv <-> satisfied n u m L' adv) /\ (fits u L <-> fits u L').
Proof. exact (fun F FO => key_accepts_claim). Qed.
Print Assumptions C54_same_circuit.
