(** Property C53: what in-circuit hashing costs in rows, and that every equality constraint it records is between
    columns of the permutation argument.  The vocabulary is in CostUse.v. *)
From Coq Require Import ZArith List Arith.
From Verif Require Import Field ZpField Primes Rust BigSum Primitives Specs Bn256 Const_proof Link Halo2 Septidon PermuteChip
  ChipUse Pow5 Built Pow5Use Gadget GadgetUse TableUse CostUse Cost_claims ExamplesSept ExamplesPow5 ExamplesGadget ExamplesCost ExamplesBase.
Import ListNotations.
Local Open Scope nat_scope.

Theorem C53_permute : forall F (FO : FieldOps F) (PF : PrimeField F) T (s : spec F) state sbox rc_a rc_b (cs0 cs1 : cs F) cfg (m : cs F),
  poseidon_spec T s -> 1 < T -> mat_prod_id T (mds s) (mds_inv s) -> mat_prod_id T (mds_inv s) (mds s) ->
  columns_ok T state sbox rc_a rc_b -> pow5_configure T (T - 1) s state sbox rc_a rc_b cs0 = (cfg, cs1) -> incl (cs_eq cs1) (cs_eq m) ->
  forall L0 L1 ws out,
  length ws = T -> Forall (copyable m) ws -> p5_permute s cfg ws L0 = Ok (L1, out) ->
  let cols := p5_columns cfg in let rows := permute_rows s in
  top cols L1 <= top cols L0 + rows
  /\ (forall c, In c state -> lo_next L0 (Adv c) + rows <= lo_next L1 (Adv c))
  /\ (forall c, ~ In c cols -> lo_next L1 c = lo_next L0 c)
  /\ (forall u, fits u L0 -> top cols L0 + rows <= u -> fits u L1)
  /\ (copies_enabled m L0 -> copies_enabled m L1) /\ Forall (copyable m) out.
Proof. exact (fun F FO PF => permute_cost_claim). Qed.
Print Assumptions C53_permute.

Theorem C53_add_input : forall F (FO : FieldOps F) (PF : PrimeField F) T (s : spec F) state sbox rc_a rc_b (cs0 cs1 : cs F) cfg (m : cs F),
  poseidon_spec T s -> 1 < T -> mat_prod_id T (mds s) (mds_inv s) -> mat_prod_id T (mds_inv s) (mds s) ->
  columns_ok T state sbox rc_a rc_b -> pow5_configure T (T - 1) s state sbox rc_a rc_b cs0 = (cfg, cs1) -> incl (cs_eq cs1) (cs_eq m) ->
  forall L0 L1 ws input out,
  length ws = T -> Forall (copyable m) ws -> (forall w, In (Some w) input -> padded_copyable m w) ->
  p5_add_input T (T - 1) cfg ws input L0 = Ok (L1, out) ->
  let cols := p5_columns cfg in
  top cols L1 <= top cols L0 + 3
  /\ (forall c, In c state -> lo_next L0 (Adv c) + 3 <= lo_next L1 (Adv c))
  /\ (forall c, ~ In c cols -> lo_next L1 c = lo_next L0 c)
  /\ (forall u, fits u L0 -> top cols L0 + 3 <= u -> fits u L1)
  /\ (copies_enabled m L0 -> copies_enabled m L1) /\ Forall (copyable m) out.
Proof. exact (fun F FO PF => add_input_cost_claim). Qed.
Print Assumptions C53_add_input.

Theorem C53_sponge : forall F (FO : FieldOps F) (PF : PrimeField F) T (s : spec F) state sbox rc_a rc_b (cs0 cs1 : cs F) cfg (m : cs F),
  poseidon_spec T s -> 1 < T -> mat_prod_id T (mds s) (mds_inv s) -> mat_prod_id T (mds_inv s) (mds s) ->
  columns_ok T state sbox rc_a rc_b -> pow5_configure T (T - 1) s state sbox rc_a rc_b cs0 = (cfg, cs1) -> incl (cs_eq cs1) (cs_eq m) ->
  forall kc L0 L1 cap input k out,
  lo_const L0 = Some kc -> In (Fix kc) (cs_eq m) ->
  Forall (padded_copyable m) input -> circuit_session T (T - 1) s cfg cap input k L0 = Ok (L1, out) ->
  let cols := p5_columns cfg in let rows := session_rows s (T - 1) (length input) k in
  0 < length input /\ length input mod (T - 1) = 0
  /\ (forall c, In c state -> lo_next L0 (Adv c) + rows <= lo_next L1 (Adv c))
  /\ (~ In (Fix kc) cols -> top cols L1 <= top cols L0 + rows /\ lo_next L1 (Fix kc) = lo_next L0 (Fix kc) + T)
  /\ (forall c, ~ In c cols -> c <> Fix kc -> lo_next L1 c = lo_next L0 c)
  /\ (forall u, fits u L0 -> top (Fix kc :: cols) L0 + (T - 1) + rows <= u
                \/ (~ In (Fix kc) cols /\ top cols L0 + rows <= u /\ lo_next L0 (Fix kc) + T <= u) -> fits u L1)
  /\ (copies_enabled m L0 -> copies_enabled m L1) /\ Forall (copyable m) out /\ length out = k.
Proof. exact (fun F FO PF => session_cost_claim). Qed.
Print Assumptions C53_sponge.
(** two blocks of input with a constant word, five words of output *)
Example C53_instance : exists L1 L2 msg out, tri_message (layout_empty tri_cs) = Ok (L1, msg)
  /\ poseidon_spec 3 tri /\ mat_prod_id 3 (mds tri) (mds_inv tri) /\ mat_prod_id 3 (mds_inv tri) (mds tri)
  /\ columns_ok 3 [0; 1; 2] 3 [0; 1; 2] [3; 4; 5] /\ pow5_configure 3 2 tri [0; 1; 2] 3 [0; 1; 2] [3; 4; 5] tri_host = (tri_cfg, tri_cs)
  /\ lo_const L1 = Some 6 /\ In (Fix 6) (cs_eq tri_cs) /\ ~ In (Fix 6) (p5_columns tri_cfg)
  /\ let input := map Message msg ++ [Padding (g 1)] in
     Forall (padded_copyable tri_cs) input /\ circuit_session 3 2 tri tri_cfg (g 9) input 5 L1 = Ok (L2, out)
     /\ fits 26 L1 /\ top (p5_columns tri_cfg) L1 = 3 /\ lo_next L1 (Fix 6) = 0 /\ copies_enabled tri_cs L1
     /\ permute_rows tri = 4 /\ session_rows tri 2 4 5 = 23
     /\ top (p5_columns tri_cfg) L2 = 26 /\ lo_next L2 (Fix 6) = 3 /\ fits 26 L2 /\ ~ fits 25 L2
     /\ copies_enabled tri_cs L2 /\ lo_copy L2 <> [].
Proof. exact ex_session_cost. Qed.
(** instance of the other three: the calls made in this session and in [C41_instance] *)

(** the constants column of a host that called [enable_constant] once, before configuring the chip, meets both hypotheses *)
Theorem C53_constants_column : forall F (FO : FieldOps F) (PF : PrimeField F) T RATE (s : spec F) state sbox rc_a rc_b (cs0 cs1 : cs F) cfg kc,
  cs_const cs0 = [] -> pow5_configure T RATE s state sbox rc_a rc_b (enable_constant kc cs0) = (cfg, cs1) ->
  lo_const (layout_empty cs1) = Some kc /\ In (Fix kc) (cs_eq cs1) /\ incl (cs_eq cs0) (cs_eq cs1).
Proof. exact (fun F FO PF => constants_column_claim). Qed.
Print Assumptions C53_constants_column.
(** instance: [tri_host] of ExamplesGadget.v, used in [C53_instance] *)

Theorem C53_hash : forall F (FO : FieldOps F) (PF : PrimeField F) T (s : spec F) state sbox rc_a rc_b (cs0 cs1 : cs F) cfg (m : cs F),
  poseidon_spec T s -> 1 < T -> mat_prod_id T (mds s) (mds_inv s) -> mat_prod_id T (mds_inv s) (mds s) ->
  columns_ok T state sbox rc_a rc_b -> pow5_configure T (T - 1) s state sbox rc_a rc_b cs0 = (cfg, cs1) -> incl (cs_eq cs1) (cs_eq m) ->
  forall kc N L0 L1 L2 L3 h msg out,
  lo_const L0 = Some kc -> In (Fix kc) (cs_eq m) ->
  0 < N -> length msg = N -> Forall (copyable m) msg ->
  circuit_hash_init (T - 1) cfg N L0 = Ok (L1, h) -> circuit_hash T (T - 1) s cfg N h msg L2 = Ok (L3, out) ->
  let cols := p5_columns cfg in let rows := (N + (T - 1) - 1) / (T - 1) * block_rows s in
  (forall c, In c state -> lo_next L0 (Adv c) + 1 <= lo_next L1 (Adv c) /\ lo_next L2 (Adv c) + rows <= lo_next L3 (Adv c))
  /\ (~ In (Fix kc) cols -> top cols L1 <= top cols L0 + 1 /\ lo_next L1 (Fix kc) = lo_next L0 (Fix kc) + T)
  /\ top cols L3 <= top cols L2 + rows
  /\ (forall c, ~ In c cols -> (c <> Fix kc -> lo_next L1 c = lo_next L0 c) /\ lo_next L3 c = lo_next L2 c)
  /\ (forall u, fits u L0 -> top (Fix kc :: cols) L0 + T <= u
                \/ (~ In (Fix kc) cols /\ top cols L0 + 1 <= u /\ lo_next L0 (Fix kc) + T <= u) -> fits u L1)
  /\ (forall u, fits u L2 -> top cols L2 + rows <= u -> fits u L3)
  /\ (copies_enabled m L0 -> copies_enabled m L1) /\ (copies_enabled m L2 -> copies_enabled m L3) /\ copyable m out.
Proof. exact (fun F FO PF => hash_cost_claim). Qed.
Print Assumptions C53_hash.

Theorem C53_chips : forall F (FO : FieldOps F) (PF : PrimeField F) (c : p128_constants F) short s (P : permute_chip F) h (cs0 m : cs F) L calls other,
  build c short s P h ->
  let cfg := fst (pc_configure P cs0) in let cs1 := snd (pc_configure P cs0) in
  chip_used P cfg (added cs0 cs1) L calls other -> incl (cs_eq cs1) (cs_eq m) ->
  (forall ws out, In (ws, out) calls -> Forall (copyable m) out)
  /\ ((forall a b, In (a, b) other -> In (fst a) (cs_eq m) /\ In (fst b) (cs_eq m)) ->
      (forall ws out, In (ws, out) calls -> Forall (copyable m) ws) -> copies_enabled m L)
  /\ (forall col r, added cs0 cs1 col ->
        (exists i v, col = Adv i /\ In (i, r, v) (lo_adv L)) \/ (exists i v, col = Fix i /\ In (i, r, v) (lo_fix L))
        \/ (exists i, col = Sel i /\ In (i, r) (lo_sel L)) -> r < h * length calls).
Proof. exact (fun F FO PF => chip_layout_claim). Qed.
Print Assumptions C53_chips.
Example C53_chips_instance : forall short, exists s P h L ws out out2, build bn256_c short s P h
  /\ let cfg := fst (pc_configure P (host (F := Fr))) in let cs1 := snd (pc_configure P host) in let m := enable_equality (Adv 0) cs1 in
     let calls := [(ws, out); (out, out2)] in
     chip_used P cfg (added host cs1) L calls [] /\ incl (cs_eq cs1) (cs_eq m)
     /\ (forall ws out, In (ws, out) calls -> Forall (copyable m) ws) /\ copies_enabled m L /\ length ws = 3.
Proof. exact ex_chip_layout. Qed.

(** the numbers for BN254 *)
Theorem C53_bn254_rows : forall F (FO : FieldOps F) (PF : PrimeField F) (s : spec F), full_rounds s = 8 -> partial_rounds s = 57 ->
  permute_rows s = 38 /\ block_rows s = 41.
Proof. exact (fun F FO PF => bn254_rows). Qed.
Print Assumptions C53_bn254_rows.
