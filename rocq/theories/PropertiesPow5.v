(** Properties C21, C22 and C25: the Pow5 permutation chip.  [grows] and [made] describe circuits that lay out any
    regions before and after a call of the chip, in its own columns or others (Built.v, Pow5Use.v); [chip_used] is the
    interface through which the hash circuit uses a chip (ChipUse.v). *)
From Coq Require Import ZArith List Arith.
From Verif Require Import Field ZpField Primes Rust BigSum Primitives Specs Bn256 Const_proof Link Halo2 Septidon PermuteChip
  ChipUse Pow5 Built Pow5Use Pow5_claims ExamplesSept ExamplesPow5 ExamplesBase.
Import ListNotations.
Local Open Scope nat_scope.

(** C21 *)
Theorem C21_pow5_sound : forall F (FO : FieldOps F) (PF : PrimeField F) T (s : spec F) state sbox rc_a rc_b (cs0 cs1 : cs F) cfg m L0 L1 L ws out n adv,
  poseidon_spec T s -> 1 < T -> mat_prod_id T (mds s) (mds_inv s) -> mat_prod_id T (mds_inv s) (mds s) ->
  columns_ok T state sbox rc_a rc_b -> pow5_configure T (T - 1) s state sbox rc_a rc_b cs0 = (cfg, cs1) ->
  grows (layout_empty m) L0 -> words_in L0 ws -> length ws = T -> p5_permute s cfg ws L0 = Ok (L1, out) ->
  grows L1 L -> fits n L -> gates_hold n L adv (cs_gates cs1) -> copies_hold L adv ->
  map (word_at L adv) out = textbook s (map (word_at L adv) ws).
Proof. exact (fun F FO PF => pow5_sound_claim). Qed.
Print Assumptions C21_pow5_sound.
Example C21_instance : poseidon_spec 2 toy /\ mat_prod_id 2 (mds toy) (mds_inv toy) /\ mat_prod_id 2 (mds_inv toy) (mds toy)
  /\ columns_ok 2 [0; 1] 2 [0; 1] [2; 3] /\ pow5_configure 2 1 toy [0; 1] 2 [0; 1] [2; 3] toy_host = (toy_cfg, toy_cs)
  /\ grows (layout_empty toy_cs) toy_L0 /\ words_in toy_L0 toy_ws /\ length toy_ws = 2
  /\ p5_permute toy toy_cfg toy_ws toy_L0 = Ok (toy_L1, toy_out) /\ grows toy_L1 toy_L /\ fits 14 toy_L
  /\ made (p5_selectors toy_cfg) (p5_instruction 2 1 toy toy_cfg) toy_L0 []
  /\ made (p5_selectors toy_cfg) (p5_instruction 2 1 toy toy_cfg) toy_L []
  /\ Forall2 (carries toy_L0) toy_ws [g 7; g 11]
  /\ forall blind, gates_hold 14 toy_L (honest 14 toy_L blind) (cs_gates toy_cs) /\ copies_hold toy_L (honest 14 toy_L blind).
Proof. exact ex_toy. Qed.

(** C22 *)
Theorem C22_pow5_complete : forall F (FO : FieldOps F) (PF : PrimeField F) T (s : spec F) state sbox rc_a rc_b (cs0 cs1 : cs F) cfg,
  poseidon_spec T s -> 1 < T -> mat_prod_id T (mds s) (mds_inv s) -> mat_prod_id T (mds_inv s) (mds s) ->
  columns_ok T state sbox rc_a rc_b -> pow5_configure T (T - 1) s state sbox rc_a rc_b cs0 = (cfg, cs1) ->
  let circuit := made (p5_selectors cfg) (p5_instruction T (T - 1) s cfg) in
  (forall L ws, length ws = T -> exists L1 out, p5_permute s cfg ws L = Ok (L1, out))
  /\ (forall L other u n blind, circuit L other -> fits u L -> u <= n -> let adv := honest u L blind in
        (gates_hold n L adv (cs_gates cs0) -> gates_hold n L adv (cs_gates cs1))
        /\ ((forall a b, In (a, b) other -> cell_at L adv a = cell_at L adv b) -> copies_hold L adv))
  /\ (forall L0 other L1 L ws xs out u blind, circuit L0 other -> length ws = T -> Forall2 (carries L0) ws xs ->
        p5_permute s cfg ws L0 = Ok (L1, out) -> grows L1 L -> fits u L -> let adv := honest u L blind in
        Forall2 (carries L) out (textbook s xs)
        /\ map (word_at L adv) ws = xs /\ map (word_at L adv) out = textbook s xs).
Proof. exact (fun F FO PF => pow5_complete_claim). Qed.
Print Assumptions C22_pow5_complete.
(** instance: [C21_instance] *)

(** C22: the widths, rates and round numbers that [configure] does not panic on *)
Theorem C22_configurable : forall F (FO : FieldOps F) (PF : PrimeField F) T RATE (s : spec F),
  pow5_asserts T RATE s = true <-> RATE + 1 = T /\ 1 <= RATE /\ Nat.Even (full_rounds s).
Proof. exact (fun F FO PF => pow5_asserts_claim). Qed.
Print Assumptions C22_configurable.
Example C22_configurable_instance : pow5_asserts 2 1 toy = true /\ pow5_asserts 3 1 toy = false.
Proof. exact (conj eq_refl eq_refl). Qed.

(** C25 *)
Theorem C25_chips_interchangeable : forall F (FO : FieldOps F) (PF : PrimeField F) (c : p128_constants F) s s' (csA csB : cs F) LA callsA otherA nA advA LB callsB otherB nB advB,
  constants_ok c -> pc_partial_rounds c = 57 ->
  mat_prod_id 3 (pc_mds c) (pc_mds_inv c) -> mat_prod_id 3 (pc_mds_inv c) (pc_mds c) ->
  compact_spec c = Ok s -> s' = p128_spec c \/ s' = s ->
  let A := septidon_chip (round_constants s) (mds s) in let B := pow5_chip s' in
  chip_used A (fst (pc_configure A csA)) (added csA (snd (pc_configure A csA))) LA callsA otherA -> 8 * length callsA <= nA ->
  chip_used B (fst (pc_configure B csB)) (added csB (snd (pc_configure B csB))) LB callsB otherB -> 38 * length callsB <= nB ->
  gates_hold nA LA advA (cs_gates (snd (pc_configure A csA))) -> copies_hold LA advA ->
  gates_hold nB LB advB (cs_gates (snd (pc_configure B csB))) -> copies_hold LB advB ->
  forall wsA outA wsB outB, In (wsA, outA) callsA -> In (wsB, outB) callsB ->
  map (word_at LA advA) wsA = map (word_at LB advB) wsB -> map (word_at LA advA) outA = map (word_at LB advB) outB.
Proof. exact (fun F FO PF => chips_interchangeable_claim). Qed.
Print Assumptions C25_chips_interchangeable.
Example C25_instance : mat_prod_id 3 (pc_mds bn256_c) (pc_mds_inv bn256_c) /\ mat_prod_id 3 (pc_mds_inv bn256_c) (pc_mds bn256_c)
  /\ let P := pow5_chip (p128_spec bn256_c) in
     let cfg := fst (pc_configure P (host (F := Fr))) in let cs1 := snd (pc_configure P host) in
     exists L ws out out2, let calls := [(ws, out); (out, out2)] in
       chip_used P cfg (added host cs1) L calls [] /\ 38 * length calls <= 79
       /\ forall blind, let adv := honest 79 L blind in
          known L adv calls /\ map (word_at L adv) ws = [fr 5; fr 7; fr 11]
          /\ gates_hold 79 L adv (cs_gates cs1) /\ copies_hold L adv.
Proof. exact ex_bn_pow5. Qed.
(** the Septidon side: [C16_instance], with the same words 5, 7, 11 *)
