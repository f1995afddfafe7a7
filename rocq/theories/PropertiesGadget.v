(** Properties C23, C24, C42 and C43: the in-circuit hash and sponge over the Pow5 chip.  As for the chip itself the
    caller may lay out any regions before, between and after the calls (Built.v, Pow5Use.v, GadgetUse.v). *)
From Coq Require Import ZArith List Arith.
From Verif Require Import Field ZpField Primes Rust BigSum SpecHash Primitives Specs Link Halo2 ChipUse Pow5 Built Pow5Use
  Gadget GadgetUse Gadget_claims ExamplesPow5 ExamplesGadget.
Import ListNotations.
Local Open Scope nat_scope.

(** C23 *)
Theorem C23_circuit_hash_sound : forall F (FO : FieldOps F) (PF : PrimeField F) T (s : spec F) state sbox rc_a rc_b (cs0 cs1 : cs F) cfg m N L0 L1 L2 L3 L h msg out n adv,
  poseidon_spec T s -> 1 < T -> mat_prod_id T (mds s) (mds_inv s) -> mat_prod_id T (mds_inv s) (mds s) ->
  columns_ok T state sbox rc_a rc_b -> pow5_configure T (T - 1) s state sbox rc_a rc_b cs0 = (cfg, cs1) ->
  grows (layout_empty m) L0 -> circuit_hash_init (T - 1) cfg N L0 = Ok (L1, h) -> grows L1 L2 ->
  words_in L2 msg -> length msg = N -> circuit_hash T (T - 1) s cfg N h msg L2 = Ok (L3, out) ->
  grows L3 L -> fits n L -> gates_hold n L adv (cs_gates cs1) -> copies_hold L adv ->
  hash_constant_length T (T - 1) N s (hash_init T (T - 1) (constant_length (T - 1) N)) (map (word_at L adv) msg)
    = Ok (word_at L adv out)
  /\ word_at L adv out
     = sponge_hash (textbook s) T (T - 1) 0 (T - 1) (of_Z (Z.of_nat N * 2 ^ 64)) (map (word_at L adv) msg).
Proof. exact (fun F FO PF => circuit_hash_sound_claim). Qed.
Print Assumptions C23_circuit_hash_sound.
Example C23_instance : poseidon_spec 3 tri /\ mat_prod_id 3 (mds tri) (mds_inv tri) /\ mat_prod_id 3 (mds_inv tri) (mds tri)
  /\ columns_ok 3 [0; 1; 2] 3 [0; 1; 2] [3; 4; 5] /\ pow5_configure 3 2 tri [0; 1; 2] 3 [0; 1; 2] [3; 4; 5] tri_host = (tri_cfg, tri_cs)
  /\ tri_circuit (layout_empty tri_cs) no_copy /\ lo_const (layout_empty tri_cs) <> None
  /\ exists L1 L2 L3 h msg out, grows (layout_empty tri_cs) (layout_empty tri_cs)
     /\ circuit_hash_init 2 tri_cfg 3 (layout_empty tri_cs) = Ok (L1, h) /\ grows L1 L2 /\ tri_circuit L2 no_copy
     /\ words_in L2 msg /\ length msg = 3 /\ Forall2 (carries L2) msg [g 7; g 11; g 5]
     /\ circuit_hash 3 2 tri tri_cfg 3 h msg L2 = Ok (L3, out) /\ fits 20 L3
     /\ forall blind, let adv := honest 20 L3 blind in
        gates_hold 23 L3 adv (cs_gates tri_cs) /\ copies_hold L3 adv
        /\ map (word_at L3 adv) msg = [g 7; g 11; g 5] /\ word_at L3 adv out = tri_digest.
Proof. exact ex_circuit_hash. Qed.

(** C24 *)
Theorem C24_circuit_hash_complete : forall F (FO : FieldOps F) (PF : PrimeField F) T (s : spec F) state sbox rc_a rc_b (cs0 cs1 : cs F) cfg N L0 other0,
  poseidon_spec T s -> 1 < T -> mat_prod_id T (mds s) (mds_inv s) -> mat_prod_id T (mds_inv s) (mds s) ->
  columns_ok T state sbox rc_a rc_b -> pow5_configure T (T - 1) s state sbox rc_a rc_b cs0 = (cfg, cs1) ->
  let circuit := made (p5_selectors cfg) (p5_instruction T (T - 1) s cfg) in
  circuit L0 other0 -> lo_const L0 <> None ->
  exists L1 h, circuit_hash_init (T - 1) cfg N L0 = Ok (L1, h) /\ circuit L1 other0 /\ grows L0 L1
    /\ forall L2 other msg xs, grows L1 L2 -> circuit L2 other -> length msg = N -> Forall2 (carries L2) msg xs ->
       let digest := sponge_hash (textbook s) T (T - 1) 0 (T - 1) (of_Z (Z.of_nat N * 2 ^ 64)) xs in
       (N = 0 -> circuit_hash T (T - 1) s cfg N h msg L2 = Panic)
       /\ (N <> 0 -> exists L3 out, circuit_hash T (T - 1) s cfg N h msg L2 = Ok (L3, out)
            /\ circuit L3 other /\ grows L2 L3 /\ carries L3 out digest
            /\ forall L other' u n blind, grows L3 L -> circuit L other' -> fits u L -> u <= n ->
               let adv := honest u L blind in
               (forall a b, In (a, b) other' -> cell_at L adv a = cell_at L adv b) ->
               gates_hold n L adv (cs_gates cs0) ->
               gates_hold n L adv (cs_gates cs1) /\ copies_hold L adv
               /\ map (word_at L adv) msg = xs /\ word_at L adv out = digest).
Proof. exact (fun F FO PF => circuit_hash_complete_claim). Qed.
Print Assumptions C24_circuit_hash_complete.
(** instance: [C23_instance] *)

(** C42 *)
Theorem C42_circuit_sponge : forall F (FO : FieldOps F) (PF : PrimeField F) T (s : spec F) state sbox rc_a rc_b (cs0 cs1 : cs F) cfg,
  poseidon_spec T s -> 1 < T -> mat_prod_id T (mds s) (mds_inv s) -> mat_prod_id T (mds_inv s) (mds s) ->
  columns_ok T state sbox rc_a rc_b -> pow5_configure T (T - 1) s state sbox rc_a rc_b cs0 = (cfg, cs1) ->
  let circuit := made (p5_selectors cfg) (p5_instruction T (T - 1) s cfg) in
  (forall m L0 L1 L cap input k out n adv, grows (layout_empty m) L0 -> padded_in L0 input ->
     circuit_session T (T - 1) s cfg cap input k L0 = Ok (L1, out) -> grows L1 L -> fits n L ->
     gates_hold n L adv (cs_gates cs1) -> copies_hold L adv ->
     session T (T - 1) s cap 0 (map (padded_at L adv) input) k = Ok (map (word_at L adv) out)
     /\ map (word_at L adv) out = sponge_stream (textbook s) T (T - 1) 0 (T - 1) cap (map (padded_at L adv) input) k)
  /\ (forall L0 other cap input vs k, circuit L0 other -> lo_const L0 <> None -> Forall2 (padded_carries L0) input vs ->
     match session T (T - 1) s cap 0 vs k with
     | Panic => circuit_session T (T - 1) s cfg cap input k L0 = Panic
     | Ok ys => exists L1 out, circuit_session T (T - 1) s cfg cap input k L0 = Ok (L1, out) /\ circuit L1 other
                  /\ grows L0 L1 /\ Forall2 (carries L1) out ys
     end)
  /\ (forall cap vs k, session T (T - 1) s cap 0 vs k = Panic <-> length vs = 0 \/ length vs mod (T - 1) <> 0).
Proof. exact (fun F FO PF => circuit_sponge_claim). Qed.
Print Assumptions C42_circuit_sponge.
Example C42_instance : exists L1 L2 msg out, tri_message (layout_empty tri_cs) = Ok (L1, msg)
  /\ tri_circuit L1 no_copy /\ lo_const L1 <> None
  /\ let input := map Message msg ++ [Padding (g 1)] in
     padded_in L1 input /\ Forall2 (padded_carries L1) input [g 7; g 11; g 5; g 1]
     /\ circuit_session 3 2 tri tri_cfg (g 9) input 5 L1 = Ok (L2, out) /\ fits 40 L2
     /\ forall blind, let adv := honest 40 L2 blind in
        gates_hold 43 L2 adv (cs_gates tri_cs) /\ copies_hold L2 adv
        /\ map (word_at L2 adv) out = sponge_stream (textbook tri) 3 2 0 2 (g 9) [g 7; g 11; g 5; g 1] 5.
Proof. exact ex_circuit_sponge. Qed.

(** C43: agreement with the primitive sponge for every domain is refuted: under [ConstantLengthIden3] a satisfying
    assignment gives another output. *)
Theorem C43_domain_layout_refuted : exists (s : spec F19) (cfg : pow5) (cs0 cs1 : cs F19) L0 L1 ws out adv v,
  let d := constant_length_iden3 2 2 in
  poseidon_spec 3 s /\ mat_prod_id 3 (mds s) (mds_inv s) /\ mat_prod_id 3 (mds_inv s) (mds s)
  /\ pow5_configure 3 2 s [0; 1; 2] 3 [0; 1; 2] [3; 4; 5] cs0 = (cfg, cs1)
  /\ grows (layout_empty cs1) L0 /\ words_in L0 ws
  /\ circuit_session 3 2 s cfg (initial_capacity_element d) (map Message ws) 1 L0 = Ok (L1, [out])
  /\ fits 20 L1 /\ gates_hold 20 L1 adv (cs_gates cs1) /\ copies_hold L1 adv
  /\ session 3 2 s (initial_capacity_element d) (Primitives.layout d 3) (map (word_at L1 adv) ws) 1 = Ok [v]
  /\ word_at L1 adv out <> v.
Proof. exact iden3_sponge_claim. Qed.
Print Assumptions C43_domain_layout_refuted.
