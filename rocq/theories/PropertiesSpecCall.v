(** Property C57: a Pow5 chip configured with one spec and called with another.  The vocabulary is that of C21. *)
From Coq Require Import ZArith List Arith.
From Verif Require Import Field ZpField Primes Rust BigSum Primitives Specs SpecHash Link Halo2 ChipUse Pow5 Built Pow5Use
  SpecCall_claims ExamplesPow5 ExamplesSpecCall ExamplesBase.
Import ListNotations.
Local Open Scope nat_scope.

(** the constants are those of the configuration, the number of partial rounds is that of the configuration rounded down
    to an even number, plus the parity of the call's *)
Theorem C57_spec_of_call : forall F (FO : FieldOps F) (PF : PrimeField F) T (s : spec F) state sbox rc_a rc_b (cs0 cs1 : cs F) cfg rp m L0 L1 L ws out n adv,
  poseidon_spec T s -> 1 < T -> mat_prod_id T (mds s) (mds_inv s) -> mat_prod_id T (mds_inv s) (mds s) ->
  columns_ok T state sbox rc_a rc_b -> pow5_configure T (T - 1) s state sbox rc_a rc_b cs0 = (cfg, cs1) ->
  let h := partial_rounds s / 2 in let k := 2 * h + rp mod 2 in let half := Nat.div2 (full_rounds s) in
  (2 * h < rp <-> rp mod 2 = 1) -> half + k + half <= length (round_constants s) ->
  grows (layout_empty m) L0 -> words_in L0 ws -> length ws = T -> p5_permute_as s cfg rp ws L0 = Ok (L1, out) ->
  grows L1 L -> fits n L -> gates_hold n L adv (cs_gates cs1) -> copies_hold L adv ->
  map (word_at L adv) out = spec_permute (mds s) half k (round_constants s) (map (word_at L adv) ws).
Proof. exact (fun F FO PF => spec_call_claim). Qed.
Print Assumptions C57_spec_of_call.
Example C57_instance : let h := partial_rounds toy / 2 in
  (2 * h < 2 <-> 2 mod 2 = 1) /\ 1 + (2 * h + 2 mod 2) + 1 <= length (round_constants toy)
  /\ exists L1 out, p5_permute_as toy toy_cfg 2 toy_ws toy_L0 = Ok (L1, out).
Proof. exact ex_even_call. Qed.
(** the remaining hypotheses: [C21_instance] *)

(** with the number of partial rounds of the configuration it is the call of C21-C25 *)
Theorem C57_same_rounds : forall F (FO : FieldOps F) (PF : PrimeField F) (s : spec F) cfg ws L,
  p5_permute_as s cfg (partial_rounds s) ws L = p5_permute s cfg ws L.
Proof. exact (fun F FO PF s cfg ws L => eq_refl). Qed.
Print Assumptions C57_same_rounds.

(** a call with too many rounds for the constants of the configuration panics *)
Theorem C57_too_many_rounds : forall F (FO : FieldOps F) (PF : PrimeField F) (s : spec F) cfg rp ws L, let h := partial_rounds s / 2 in
  0 < full_rounds s / 2 ->
  length (round_constants s) < full_rounds s / 2 + (2 * h + rp mod 2) + full_rounds s / 2 ->
  p5_permute_as s cfg rp ws L = Panic.
Proof. exact (fun F FO PF => spec_call_short_claim). Qed.
Print Assumptions C57_too_many_rounds.
Example C57_instance_too_many : let s := with_rounds toy 4 in
  0 < full_rounds s / 2
  /\ length (round_constants s) < full_rounds s / 2 + (2 * (partial_rounds s / 2) + 5 mod 2) + full_rounds s / 2.
Proof. exact (conj (le_n 1) (le_S _ _ (le_n 6))). Qed.

(** the spec of the call is not what is computed *)
Theorem C57_spec_of_call_refuted : let rp := partial_rounds toy_other in
  poseidon_spec 2 toy /\ poseidon_spec 2 toy_other /\ pow5_configure 2 1 toy [0; 1] 2 [0; 1] [2; 3] toy_host = (toy_cfg, toy_cs)
  /\ exists L0 ws L1 out L adv, grows (layout_empty toy_cs) L0 /\ words_in L0 ws /\ length ws = 2
     /\ p5_permute_as toy toy_cfg rp ws L0 = Ok (L1, out) /\ grows L1 L /\ fits 14 L
     /\ gates_hold 14 L adv (cs_gates toy_cs) /\ copies_hold L adv
     /\ map (word_at L adv) out <> textbook toy_other (map (word_at L adv) ws).
Proof. exact ex_other_spec. Qed.
Print Assumptions C57_spec_of_call_refuted.

(** an odd number of rounds below that of the configuration: the output is not determined by the input *)
Theorem C57_determined_refuted : let rp := partial_rounds toy_less in
  poseidon_spec 2 toy /\ poseidon_spec 2 toy_less /\ pow5_configure 2 1 toy [0; 1] 2 [0; 1] [2; 3] toy_host = (toy_cfg, toy_cs)
  /\ exists L0 ws L out adv adv', grows (layout_empty toy_cs) L0 /\ words_in L0 ws /\ length ws = 2
     /\ p5_permute_as toy toy_cfg rp ws L0 = Ok (L, out) /\ fits 14 L
     /\ gates_hold 14 L adv (cs_gates toy_cs) /\ copies_hold L adv
     /\ gates_hold 14 L adv' (cs_gates toy_cs) /\ copies_hold L adv'
     /\ map (word_at L adv) ws = map (word_at L adv') ws /\ map (word_at L adv) out <> map (word_at L adv') out.
Proof. exact ex_gap. Qed.
Print Assumptions C57_determined_refuted.
