(** Property C65: circuits that hash digests again.  The vocabulary is in ProgramUse.v. *)
From Coq Require Import ZArith List Arith.
From Verif Require Import Field ZpField Primes Rust BigSum SpecHash Primitives Specs Link Halo2 ChipUse Pow5 Built Pow5Use
  Gadget GadgetUse ProgramUse Program_claims ExamplesPow5 ExamplesGadget ExamplesProgram.
Import ListNotations.
Local Open Scope nat_scope.

(** C65: any prover; the host lays out what it likes before, between and after the calls *)
Theorem C65_sound : forall F (FO : FieldOps F) (PF : PrimeField F) T (s : spec F) state sbox rc_a rc_b (cs0 cs1 : cs F) cfg m prog ws La ws' Lb L n adv,
  poseidon_spec T s -> 1 < T -> mat_prod_id T (mds s) (mds_inv s) -> mat_prod_id T (mds_inv s) (mds s) ->
  columns_ok T state sbox rc_a rc_b -> pow5_configure T (T - 1) s state sbox rc_a rc_b cs0 = (cfg, cs1) ->
  grows (layout_empty m) La -> words_in La ws -> calls T (T - 1) s cfg prog ws La ws' Lb ->
  grows Lb L -> fits n L -> gates_hold n L adv (cs_gates cs1) -> copies_hold L adv ->
  map (word_at L adv) ws' = evaluate (fixed_hash T s) prog (map (word_at L adv) ws).
Proof. exact (fun F FO PF => program_sound_claim). Qed.
Print Assumptions C65_sound.

(** C65: the calls run exactly for well-formed programs, and the honest assignment satisfies the circuit *)
Theorem C65_complete : forall F (FO : FieldOps F) (PF : PrimeField F) T (s : spec F) state sbox rc_a rc_b (cs0 cs1 : cs F) cfg prog ws xs L0 other,
  poseidon_spec T s -> 1 < T -> mat_prod_id T (mds s) (mds_inv s) -> mat_prod_id T (mds_inv s) (mds s) ->
  columns_ok T state sbox rc_a rc_b -> pow5_configure T (T - 1) s state sbox rc_a rc_b cs0 = (cfg, cs1) ->
  let circuit := made (p5_selectors cfg) (p5_instruction T (T - 1) s cfg) in
  circuit L0 other -> lo_const L0 <> None -> Forall2 (carries L0) ws xs ->
  (~ well_formed (length xs) prog -> circuit_program T (T - 1) s cfg prog ws L0 = Panic)
  /\ (well_formed (length xs) prog -> exists L1 ws', circuit_program T (T - 1) s cfg prog ws L0 = Ok (L1, ws')
       /\ calls T (T - 1) s cfg prog ws L0 ws' L1 /\ circuit L1 other /\ grows L0 L1
       /\ forall L other' u n blind, grows L1 L -> circuit L other' -> fits u L -> u <= n ->
          let adv := honest u L blind in
          (forall a b, In (a, b) other' -> cell_at L adv a = cell_at L adv b) -> gates_hold n L adv (cs_gates cs0) ->
          gates_hold n L adv (cs_gates cs1) /\ copies_hold L adv
          /\ map (word_at L adv) ws = xs /\ map (word_at L adv) ws' = evaluate (fixed_hash T s) prog xs).
Proof. exact (fun F FO PF => program_complete_claim). Qed.
Print Assumptions C65_complete.

(** C65: a digest binds every word it was computed from, in two circuits that make the same calls *)
Theorem C65_binding : forall F (FO : FieldOps F) (PF : PrimeField F) T (s : spec F) state sbox rc_a rc_b (cs0 cs1 : cs F) cfg m prog ws La ws' Lb L n adv
    m2 ws2 La2 ws2' Lb2 L2 n2 adv2 i,
  poseidon_spec T s -> 1 < T -> mat_prod_id T (mds s) (mds_inv s) -> mat_prod_id T (mds_inv s) (mds s) ->
  columns_ok T state sbox rc_a rc_b -> pow5_configure T (T - 1) s state sbox rc_a rc_b cs0 = (cfg, cs1) ->
  grows (layout_empty m) La -> words_in La ws -> calls T (T - 1) s cfg prog ws La ws' Lb ->
  grows Lb L -> fits n L -> gates_hold n L adv (cs_gates cs1) -> copies_hold L adv ->
  grows (layout_empty m2) La2 -> words_in La2 ws2 -> calls T (T - 1) s cfg prog ws2 La2 ws2' Lb2 ->
  grows Lb2 L2 -> fits n2 L2 -> gates_hold n2 L2 adv2 (cs_gates cs1) -> copies_hold L2 adv2 -> length ws = length ws2 ->
  let v := map (word_at L adv) ws' in let v2 := map (word_at L2 adv2) ws2' in
  nth i v fzero = nth i v2 fzero ->
  (forall j, depends (length ws) prog i j -> nth j v fzero = nth j v2 fzero)
  \/ exists k msg msg2,
       nth_error (messages (fixed_hash T s) prog (map (word_at L adv) ws)) k = Some msg
       /\ nth_error (messages (fixed_hash T s) prog (map (word_at L2 adv2) ws2)) k = Some msg2
       /\ length msg = length msg2 /\ msg <> msg2 /\ fixed_hash T s msg = fixed_hash T s msg2.
Proof. exact (fun F FO PF => program_binding_claim). Qed.
Print Assumptions C65_binding.

(** C65: the hash in these statements is the one of the API *)
Theorem C65_api_hash : forall F (FO : FieldOps F) (PF : PrimeField F) T (s : spec F) msg,
  poseidon_spec T s -> 1 < T -> msg <> [] ->
  hash_constant_length T (T - 1) (length msg) s (hash_init T (T - 1) (constant_length (T - 1) (length msg))) msg = Ok (fixed_hash T s msg).
Proof. exact (fun F FO PF => fixed_hash_claim). Qed.
Print Assumptions C65_api_hash.

(** the chip and configuration are those of [C23_instance] *)
Example C65_instance : exists L1 L2 msg ws, tri_message (layout_empty tri_cs) = Ok (L1, msg)
  /\ tri_circuit L1 no_copy /\ lo_const L1 <> None /\ grows (layout_empty tri_cs) L1 /\ words_in L1 msg
  /\ Forall2 (carries L1) msg [g 7; g 11; g 5] /\ well_formed 3 tri_program
  /\ circuit_program 3 2 tri tri_cfg tri_program msg L1 = Ok (L2, ws) /\ calls 3 2 tri tri_cfg tri_program msg L1 ws L2
  /\ fits 60 L2 /\ depends 3 tri_program 5 1
  /\ forall blind, let adv := honest 60 L2 blind in
     gates_hold 63 L2 adv (cs_gates tri_cs) /\ copies_hold L2 adv
     /\ map (word_at L2 adv) ws = evaluate (fixed_hash 3 tri) tri_program [g 7; g 11; g 5].
Proof. exact ex_program. Qed.
