(** Property C59: the Septidon chip compiled with [GATE_DEGREE_5 = true].  The vocabulary for circuits is that of C16, the
    one for degrees that of C50. *)
From Coq Require Import ZArith List Arith.
From Verif Require Import Field ZpField Primes Rust Primitives Specs SpecHash Bn256 Const_proof Link Halo2 Septidon PermuteChip
  ChipUse DegreeUse Degree5_claims ExamplesSept ExamplesDegree5 ExamplesBase.
Import ListNotations.
Local Open Scope nat_scope.

(** a satisfying assignment computes the permutation *)
Theorem C59_sound : forall F (FO : FieldOps F) (PF : PrimeField F) (c : p128_constants F) s (cs0 : cs F) L calls other n adv,
  constants_ok c -> pc_partial_rounds c = 57 -> compact_spec c = Ok s ->
  let P := septidon_degree_5_chip (round_constants s) (mds s) in
  let cfg := fst (pc_configure P cs0) in let cs1 := snd (pc_configure P cs0) in
  chip_used P cfg (added cs0 cs1) L calls other -> 8 * length calls <= n ->
  gates_hold n L adv (cs_gates cs1) -> copies_hold L adv ->
  forall ws out, In (ws, out) calls ->
  map (word_at L adv) out = poseidon_permutation c (map (word_at L adv) ws).
Proof. exact (fun F FO PF => degree_5_sound_claim). Qed.
Print Assumptions C59_sound.

(** when the permutations fill all rows, the gates accept exactly what those of the other mode accept *)
Theorem C59_all_rows : forall F (FO : FieldOps F) (PF : PrimeField F) (c : p128_constants F) s (cs0 : cs F) L calls other n adv,
  constants_ok c -> pc_partial_rounds c = 57 -> compact_spec c = Ok s ->
  let P := septidon_degree_5_chip (round_constants s) (mds s) in
  let cfg := fst (pc_configure P cs0) in let cs1 := snd (pc_configure P cs0) in
  chip_used P cfg (added cs0 cs1) L calls other -> 8 * length calls = n ->
  (gates_hold n L adv (cs_gates cs1)
   <-> gates_hold n L adv (cs_gates (snd (pc_configure (septidon_chip (round_constants s) (mds s)) cs0)))).
Proof. exact (fun F FO PF => degree_5_full_claim). Qed.
Print Assumptions C59_all_rows.

(** otherwise the input of the first permutation has to be a full round, without constants, of what is in the last row *)
Theorem C59_inactive_rows : forall F (FO : FieldOps F) (PF : PrimeField F) (c : p128_constants F) s (cs0 : cs F) L calls other n adv,
  constants_ok c -> pc_partial_rounds c = 57 -> compact_spec c = Ok s ->
  let P := septidon_degree_5_chip (round_constants s) (mds s) in
  let cfg := fst (pc_configure P cs0) in let cs1 := snd (pc_configure P cs0) in
  chip_used P cfg (added cs0 cs1) L calls other -> 8 * length calls < n ->
  gates_hold n L adv (cs_gates cs1) -> copies_hold L adv ->
  forall ws out, hd_error calls = Some (ws, out) ->
  map (word_at L adv) ws = mat_vec (pc_mds c) (map (fun j => power5 (adv (j + cs_adv cs0) (n - 1))) [0; 1; 2]).
Proof. exact (fun F FO PF => degree_5_forced_claim). Qed.
Print Assumptions C59_inactive_rows.

(** an honest prover is rejected then, unless that input is zero *)
Theorem C59_honest_rejected : forall F (FO : FieldOps F) (PF : PrimeField F) (c : p128_constants F) s (cs0 : cs F) L calls other n blind,
  constants_ok c -> pc_partial_rounds c = 57 -> compact_spec c = Ok s ->
  let P := septidon_degree_5_chip (round_constants s) (mds s) in
  let cfg := fst (pc_configure P cs0) in let cs1 := snd (pc_configure P cs0) in
  chip_used P cfg (added cs0 cs1) L calls other -> 8 * length calls < n ->
  let adv := honest n L blind in copies_hold L adv ->
  forall ws out, hd_error calls = Some (ws, out) -> map (word_at L adv) ws <> [fzero; fzero; fzero] ->
  ~ gates_hold n L adv (cs_gates cs1).
Proof. exact (fun F FO PF => degree_5_rejects). Qed.
Print Assumptions C59_honest_rejected.

(** two permutations: on 16 rows both modes accept, on 19 rows only the mode of the repository does *)
Example C59_instance : exists s, compact_spec bn256_c = Ok s /\ constants_ok bn256_c /\ pc_partial_rounds bn256_c = 57
  /\ let P := septidon_degree_5_chip (round_constants s) (mds s) in let P0 := septidon_chip (round_constants s) (mds s) in
     let cfg := fst (pc_configure P (host (F := Fr))) in let cs1 := snd (pc_configure P host) in
     exists L ws out out2, let calls := [(ws, out); (out, out2)] in
       chip_used P cfg (added host cs1) L calls []
       /\ (let adv := honest 16 L (fun _ _ => fzero) in
           known L adv calls /\ map (word_at L adv) ws = [fr 5; fr 7; fr 11]
           /\ gates_hold 16 L adv (cs_gates cs1) /\ copies_hold L adv)
       /\ (let adv := honest 19 L (fun _ _ => fzero) in
           known L adv calls /\ map (word_at L adv) ws = [fr 5; fr 7; fr 11]
           /\ gates_hold 19 L adv (cs_gates (snd (pc_configure P0 host))) /\ copies_hold L adv
           /\ ~ gates_hold 19 L adv (cs_gates cs1)).
Proof. exact ex_degree_5. Qed.

(** the degree is 6 in this mode too *)
Theorem C59_degree : forall F (FO : FieldOps F) rcs m (cs0 cs1 : cs F) cfg, septidon_configure_as rcs m true cs0 = (cfg, cs1) ->
  adds_gates cs0 cs1 6 (-3) 4 /\ adds_columns cs0 cs1 13 11 0 /\ cs_lookups cs1 = cs_lookups cs0
  /\ required_degree cs1 = max (required_degree cs0) 6.
Proof. exact (fun F FO => degree_5_degree_claim). Qed.
Print Assumptions C59_degree.
Theorem C59_degree_5_refuted : exists s, compact_spec bn256_c = Ok s
  /\ 5 < required_degree (snd (septidon_configure_as (round_constants s) (mds s) true (cs_empty (F := Fr)))).
Proof. exact ex_degree_6. Qed.
Print Assumptions C59_degree_5_refuted.
