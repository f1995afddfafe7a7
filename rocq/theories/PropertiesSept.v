(** Properties C16-C20: the Septidon permutation chip.  [chip_used] is any circuit that configures the chip,
    lays out calls of it in any order and does anything else in other columns (ChipUse.v). *)
From Coq Require Import ZArith List Arith.
From Verif Require Import Field ZpField Primes Rust Primitives Specs Bn256 Const_proof Link Halo2 Septidon PermuteChip
  ChipUse Sept_claims ExamplesSept ExamplesBase.
Import ListNotations.
Local Open Scope nat_scope.

(** C16 *)
Theorem C16_septidon_sound : forall F (FO : FieldOps F) (PF : PrimeField F) (c : p128_constants F) s (cs0 : cs F) L calls other n adv,
  constants_ok c -> pc_partial_rounds c = 57 -> compact_spec c = Ok s ->
  let P := septidon_chip (round_constants s) (mds s) in
  let cfg := fst (pc_configure P cs0) in let cs1 := snd (pc_configure P cs0) in
  chip_used P cfg (added cs0 cs1) L calls other -> 8 * length calls <= n ->
  gates_hold n L adv (cs_gates cs1) -> copies_hold L adv ->
  forall ws out, In (ws, out) calls ->
  map (word_at L adv) out = poseidon_permutation c (map (word_at L adv) ws).
Proof. exact (fun F FO PF => septidon_sound_claim). Qed.
Print Assumptions C16_septidon_sound.
Example C16_instance : exists s, compact_spec bn256_c = Ok s /\ constants_ok bn256_c /\ pc_partial_rounds bn256_c = 57
  /\ let P := septidon_chip (round_constants s) (mds s) in
     let cfg := fst (pc_configure P (host (F := Fr))) in let cs1 := snd (pc_configure P host) in
     exists L ws out out2, let calls := [(ws, out); (out, out2)] in
       chip_used P cfg (added host cs1) L calls [] /\ 8 * length calls <= 19
       /\ forall blind, let adv := honest 19 L blind in
          known L adv calls /\ map (word_at L adv) ws = [fr 5; fr 7; fr 11]
          /\ gates_hold 19 L adv (cs_gates cs1) /\ copies_hold L adv.
Proof. exact ex_bn_septidon. Qed.

(** C17 *)
Theorem C17_septidon_complete : forall F (FO : FieldOps F) (PF : PrimeField F) (c : p128_constants F) s (cs0 : cs F) L calls other u n blind,
  constants_ok c -> pc_partial_rounds c = 57 -> compact_spec c = Ok s ->
  let P := septidon_chip (round_constants s) (mds s) in
  let cfg := fst (pc_configure P cs0) in let cs1 := snd (pc_configure P cs0) in
  chip_used P cfg (added cs0 cs1) L calls other -> 8 * length calls <= u -> u <= n ->
  let adv := honest u L blind in
  (forall i ws out, nth_error calls i = Some (ws, out) ->
     Forall (fun w => ac_val w = Some (word_at L adv w)
               \/ exists j ws' out', j < i /\ nth_error calls j = Some (ws', out') /\ In w out') ws) ->
  (gates_hold n L adv (cs_gates cs0) -> gates_hold n L adv (cs_gates cs1))
  /\ (forall ws out, In (ws, out) calls ->
        map ac_val out = map Some (poseidon_permutation c (map (word_at L adv) ws))
        /\ map (word_at L adv) out = poseidon_permutation c (map (word_at L adv) ws))
  /\ ((forall a b, In (a, b) other -> cell_at L adv a = cell_at L adv b) -> copies_hold L adv)
  /\ (forall ws, three_words L ws -> exists L' out, pc_permute P cfg ws L = Ok (L', out)).
Proof. exact (fun F FO PF => septidon_complete_claim). Qed.
Print Assumptions C17_septidon_complete.
(** instance: [C16_instance] with [u = n = 19] *)

(** C18 *)
Theorem C18_septidon_unique : forall F (FO : FieldOps F) (PF : PrimeField F) (c : p128_constants F) s (cs0 : cs F) L calls other n,
  constants_ok c -> pc_partial_rounds c = 57 -> compact_spec c = Ok s ->
  let chip := fst (septidon_configure (round_constants s) (mds s) cs0) in
  let cs1 := snd (septidon_configure (round_constants s) (mds s) cs0) in
  let a := cs_adv cs0 in
  chip_used (septidon_chip (round_constants s) (mds s)) chip (added cs0 cs1) L calls other -> 8 * length calls <= n ->
  forall G, cs_gates cs1 = cs_gates cs0 ++ G ->
  (forall adv adv' i, gates_hold n L adv G -> gates_hold n L adv' G -> i < length calls ->
    (forall j, j < 3 -> adv (j + a) (8 * i) = adv' (j + a) (8 * i)) ->
    forall k o, k < 13 -> o < 8 -> ~ (k = 12 /\ (o = 0 \/ o = 4)) ->
    adv (k + a) (o + 8 * i) = adv' (k + a) (o + 8 * i))
  /\ (forall adv i o v, gates_hold n L adv G -> i < length calls -> o = 0 \/ o = 4 ->
      gates_hold n L (set_cell adv (12 + a) (o + 8 * i) v) G).
Proof. exact (fun F FO PF => septidon_unique_claim). Qed.
Print Assumptions C18_septidon_unique.
(** instance: [C16_instance] with the assignments for any two [blind] *)

(** C19 *)
Theorem C19_septidon_scattered : forall F (FO : FieldOps F) (PF : PrimeField F) (c : p128_constants F) s (cs0 : cs F) blocks L0 L outs n,
  constants_ok c -> pc_partial_rounds c = 57 -> compact_spec c = Ok s ->
  let rcs := round_constants s in let m := mds s in
  let chip := fst (septidon_configure rcs m cs0) in let cs1 := snd (septidon_configure rcs m cs0) in
  let a := cs_adv cs0 in
  unused (added cs0 cs1) L0 -> Forall (fun '(_, ws) => length ws = 3) blocks ->
  lmap (fun '(row, ws) => place row (permute_at rcs m chip ws 0)) blocks L0 = Ok (L, outs) ->
  disjoint_blocks 8 (map fst blocks) -> (forall row, In row (map fst blocks) -> row + 8 <= n) ->
  forall G, cs_gates cs1 = cs_gates cs0 ++ G ->
  (forall adv row, gates_hold n L adv G -> In row (map fst blocks) ->
     [adv (12 + a) (5 + row); adv (12 + a) (6 + row); adv (12 + a) (7 + row)]
     = poseidon_permutation c [adv a row; adv (1 + a) row; adv (2 + a) row])
  /\ (forall adv,
       (forall row, In row (map fst blocks) -> exists adv', gates_hold n L adv' G
          /\ forall k o, k < 13 -> o < 8 -> adv (k + a) (o + row) = adv' (k + a) (o + row)) ->
       gates_hold n L adv G).
Proof. exact (fun F FO PF => septidon_scattered_claim). Qed.
Print Assumptions C19_septidon_scattered.
Example C19_instance : exists s, compact_spec bn256_c = Ok s
  /\ let cs1 := snd (septidon_configure (round_constants s) (mds s) (host (F := Fr))) in
     let blocks := [(40, [host_word 0 (fr 5); host_word 1 (fr 7); host_word 2 (fr 11)]);
                    (16, [host_word 0 (fr 5); host_word 1 (fr 7); host_word 2 (fr 11)])] in
     unused (added host cs1) (hosted (fr 5) (fr 7) (fr 11))
     /\ Forall (fun '(_, ws) => length ws = 3) blocks
     /\ (exists L outs, lmap (fun '(row, ws) => place row (permute_at (round_constants s) (mds s)
          (fst (septidon_configure (round_constants s) (mds s) host)) ws 0)) blocks (hosted (fr 5) (fr 7) (fr 11)) = Ok (L, outs))
     /\ disjoint_blocks 8 (map fst blocks) /\ (forall row, In row (map fst blocks) -> row + 8 <= 64).
Proof. exact ex_scattered. Qed.

(** C20 *)
Theorem C20_septidon_batch : forall F (FO : FieldOps F) (PF : PrimeField F) (c : p128_constants F) s (cs0 : cs F) L calls other,
  constants_ok c -> pc_partial_rounds c = 57 -> compact_spec c = Ok s ->
  let P := septidon_chip (round_constants s) (mds s) in
  let cfg := fst (pc_configure P cs0) in let cs1 := snd (pc_configure P cs0) in
  chip_used P cfg (added cs0 cs1) L calls other ->
  (forall threads wss, 0 < threads -> Forall (three_words L) wss ->
     exists L1 o1 L2 o2,
       lmap (pc_permute P cfg) wss L = Ok (L1, o1) /\ pc_permute_batch P threads cfg wss L = Ok (L2, o2)
       /\ lo_adv L1 = lo_adv L2 /\ lo_fix L1 = lo_fix L2 /\ lo_sel L1 = lo_sel L2
       /\ lo_copy L1 = lo_copy L2 /\ lo_tables L1 = lo_tables L2 /\ length o2 = length wss
       /\ map (map (fun w => (abs_cell (lo_starts L1) (ac_cell w), ac_val w))) o1
          = map (map (fun w => (abs_cell (lo_starts L2) (ac_cell w), ac_val w))) o2)
  /\ (forall threads, pc_permute_batch P threads cfg [] L = Ok (L, [])).
Proof. exact (fun F FO PF => septidon_batch_claim). Qed.
Print Assumptions C20_septidon_batch.
(** instance: [C16_instance] *)
