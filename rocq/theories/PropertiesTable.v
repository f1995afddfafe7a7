(** Properties C26-C40 and C44: the hash table circuit.  [hash_circuit], [accepted], [set_up] and the rest of the
    vocabulary are in TableUse.v; [build] stands for the two builds, with the Septidon chip (feature "short") and with
    the Pow5 chip. *)
From Coq Require Import ZArith NArith List Arith.
From Verif Require Import Field ZpField Primes Rust BigSum Primitives Specs BaseHash Bn256 SpecHash Link Const_proof Halo2 Septidon PermuteChip Sept_claims
  ChipUse Pow5 SpongeTable TableUse
  Table_claims TableLayout_claims TableBuild_claims ExamplesTable ExamplesBase.
Import ListNotations.


Local Open Scope F_scope.
(** C26 *)
Theorem C26_two_word_rows : forall F (FO : FieldOps F) (PF : PrimeField F) c (C : hash_circuit F) calcs adv r,
  accepted c C calcs adv -> (1 <= r < calcs)%nat -> head C adv r = 1 -> head C adv (S r) = 1 ->
  digest C adv r = two_word_hash c (in1 C adv r) (in2 C adv r) (control C adv r + domain C adv r)
  /\ hash_with_domain (hc_spec C) (in1 C adv r, in2 C adv r) (control C adv r + domain C adv r) = Ok (digest C adv r)
  /\ (control C adv r = 0 ->
      hash_with_domain (hc_spec C) (in1 C adv r, in2 C adv r) (domain C adv r) = Ok (digest C adv r)).
Proof. exact (fun F FO PF => two_word_row_claim). Qed.
Print Assumptions C26_two_word_rows.

Local Open Scope nat_scope.
(** a circuit of 4 rows filled with a message of one row and a message of two: an instance of the hypotheses of C26
    to C32, for both builds and both assignment modes *)
Example C26_instance : forall short mode, mode_ok mode -> exists (C : hash_circuit Fr) h L0 L1 n u,
  build bn256_c short (hc_spec C) (hc_chip C) h /\ hc_range C = 62 /\ hc_step C = 62 /\ hc_legacy C = false
  /\ set_up bn256_c C mode 4 demo_table L0 L1 L1 [] n u
  /\ forall blind, let adv := honest u L1 blind in
     satisfied n u (hc_cs C) L1 adv /\ accepted bn256_c C 4 adv
     /\ map (fun r => (in1 C adv r, in2 C adv r, domain C adv r, head C adv r)) [1; 2; 3; 4]
        = [(fr 1, fr 2, fr 7, fr 1); (fr 3, fr 4, fr 0, fr 1); (fr 5, fr 6, fr 0, fr 0); (fr 0, fr 0, fr 0, fr 1)]
     /\ message C adv 4 1 1 /\ message C adv 4 2 3
     /\ (forall adv', host_ok C L0 L1 [] n u adv').
Proof. exact ex_table. Qed.

Local Open Scope F_scope.
(** C27 *)
Theorem C27_messages : forall F (FO : FieldOps F) (PF : PrimeField F) c (C : hash_circuit F) calcs adv s e,
  accepted c C calcs adv -> message C adv calcs s e ->
  (forall i, (s <= i <= e)%nat -> digest C adv i = nth 0 (absorbed C adv (poseidon_permutation c) s e) 0)
  /\ ((forall i, (s < i <= e)%nat -> domain C adv i = 0) ->
      let cap := control C adv s + domain C adv s in
      digest C adv s = message_hash c cap (words C adv s e)
      /\ forall legacy k, of_Z (Z.of_N k) = cap -> hash_msg legacy (hc_spec C) (words C adv s e) (Some k) = Ok (digest C adv s)).
Proof. exact (fun F FO PF => message_claim). Qed.
Print Assumptions C27_messages.
(** instance: [C26_instance] *)

(** C28 *)
Theorem C28_control : forall F (FO : FieldOps F) (PF : PrimeField F) c (C : hash_circuit F) calcs adv,
  accepted c C calcs adv ->
  (forall s e, message C adv calcs s e ->
     exists x, (x <= hc_range C)%nat /\ ((s < e)%nat -> (0 < x)%nat)
       /\ forall i, (s <= i <= e)%nat -> control C adv i = length_code (hc_legacy C) (N.of_nat (x + (e - i) * hc_step C)))
  /\ ((hc_range C <= hc_step C)%nat ->
      forall c' calcs' adv' s e s' e', accepted c' C calcs' adv' ->
      (forall k, (k = calcs \/ k = calcs')%nat ->
         (Z.of_nat (k * hc_step C + hc_range C) * (if hc_legacy C then 1 else 2 ^ 64) < modulus (F := F))%Z) ->
      message C adv calcs s e -> message C adv' calcs' s' e' -> control C adv s = control C adv' s' ->
      (e - s = e' - s')%nat).
Proof. exact (fun F FO PF => control_claim). Qed.
Print Assumptions C28_control.
Local Open Scope nat_scope.
Example C28_instance : (Z.of_nat (4 * 62 + 62) * 2 ^ 64 < modulus (F := Fr))%Z.
Proof. exact demo_bound. Qed.
(** the circuit: [C26_instance] *)

Local Open Scope F_scope.
(** C29 *)
Theorem C29_first_row : forall F (FO : FieldOps F) (PF : PrimeField F) c (C : hash_circuit F) calcs adv, accepted c C calcs adv ->
  (Z.of_nat (calcs * hc_step C + hc_range C) * (if hc_legacy C then 1 else 2 ^ 64) < modulus (F := F))%Z ->
  (1 <= calcs)%nat -> head C adv 1 = 1.
Proof. exact (fun F FO PF => first_row_claim). Qed.
Print Assumptions C29_first_row.
(** instance: [C26_instance] and [C28_instance] *)

(** C30: all rows but the last *)
Theorem C30_every_row_but_last : forall F (FO : FieldOps F) (PF : PrimeField F) c (C : hash_circuit F) calcs adv r, accepted c C calcs adv ->
  (Z.of_nat (calcs * hc_step C + hc_range C) * (if hc_legacy C then 1 else 2 ^ 64) < modulus (F := F))%Z ->
  (1 <= r < calcs)%nat ->
  exists s e, message C adv calcs s e /\ (s <= r <= e)%nat
    /\ digest C adv r = nth 0 (absorbed C adv (poseidon_permutation c) s e) 0.
Proof. exact (fun F FO PF => every_row_claim). Qed.
Print Assumptions C30_every_row_but_last.
Theorem C30_last_row : forall F (FO : FieldOps F) (PF : PrimeField F) c (C : hash_circuit F) calcs adv, accepted c C calcs adv -> (1 <= calcs)%nat ->
  in1 C adv calcs = 0 /\ in2 C adv calcs = 0 /\ control C adv calcs = 0 /\ head C adv calcs = 1.
Proof. exact (fun F FO PF => last_row_claim). Qed.
Print Assumptions C30_last_row.
(** the digest of the last row is free *)
Theorem C30_last_digest_free : forall F (FO : FieldOps F) (PF : PrimeField F) c (C : hash_circuit F) mode calcs t L0 L1 L copies n u adv d,
  set_up c C mode calcs t L0 L1 L copies n u -> (1 <= calcs)%nat -> satisfied n u (hc_cs C) L adv ->
  let adv' := set_cell adv (nth 0 (hc_table C) 0%nat) calcs d in
  host_ok C L0 L copies n u adv' -> satisfied n u (hc_cs C) L adv'.
Proof. exact (fun F FO PF => last_digest_claim). Qed.
Print Assumptions C30_last_digest_free.
Local Open Scope nat_scope.
(** so the property fails for that row *)
Theorem C30_last_row_refuted : exists (short : bool) (C : hash_circuit Fr) h adv,
  build bn256_c short (hc_spec C) (hc_chip C) h /\ accepted bn256_c C 4 adv /\ head C adv 4 = fr 1
  /\ hash_with_domain (hc_spec C) (in1 C adv 4, in2 C adv 4) (fadd (control C adv 4) (domain C adv 4)) <> Ok (digest C adv 4).
Proof. exact (ex_intro _ true (last_row_witness true)). Qed.
Print Assumptions C30_last_row_refuted.
Example C30_both_builds : forall short, exists (C : hash_circuit Fr) h adv,
  build bn256_c short (hc_spec C) (hc_chip C) h /\ accepted bn256_c C 4 adv /\ head C adv 4 = fr 1
  /\ hash_with_domain (hc_spec C) (in1 C adv 4, in2 C adv 4) (fadd (control C adv 4) (domain C adv 4)) <> Ok (digest C adv 4).
Proof. exact last_row_witness. Qed.

Local Open Scope F_scope.
(** C31 *)
Theorem C31_custom_row : forall F (FO : FieldOps F) (PF : PrimeField F) c (C : hash_circuit F) mode calcs t L0 L1 L copies n u adv,
  set_up c C mode calcs t L0 L1 L copies n u -> satisfied n u (hc_cs C) L adv ->
  in1 C adv 0 = 0 /\ in2 C adv 0 = 0 /\ control C adv 0 = 0
  /\ ((Z.of_nat (calcs * hc_step C + hc_range C) * (if hc_legacy C then 1 else 2 ^ 64) < modulus (F := F))%Z ->
      forall d dom hd, hd = head C adv 0 \/ control C adv (n - 1) = 0 ->
      exists adv',
        digest C adv' 0 = d /\ domain C adv' 0 = dom /\ head C adv' 0 = hd
        /\ (forall col r, (col < cs_adv (hc_host C))%nat ->
             (r <> 0 \/ ~ In col (map (fun j => nth j (hc_table C) 0) [0; 4; 5]))%nat -> adv' col r = adv col r)
        /\ (host_ok C L0 L copies n u adv' -> satisfied n u (hc_cs C) L adv')).
Proof. exact (fun F FO PF => custom_row_claim). Qed.
Print Assumptions C31_custom_row.
(** instance: [C26_instance] and [C28_instance] *)

(** C32 *)
Theorem C32_complete_exactly : forall F (FO : FieldOps F) (PF : PrimeField F) c (C : hash_circuit F) mode calcs t L0 L1 L copies n u blind,
  set_up c C mode calcs t L0 L1 L copies n u ->
  (forall i, (Z.of_N (row_control t i + N.of_nat (hc_step C)) * (if hc_legacy C then 1 else 2 ^ 64) < modulus (F := F))%Z) ->
  let adv := honest u L blind in
  satisfied n u (hc_cs C) L adv <-> well_formed (hc_range C) (hc_step C) calcs t /\ host_ok C L0 L copies n u adv.
Proof. exact (fun F FO PF => complete_claim). Qed.
Print Assumptions C32_complete_exactly.
(** instance: [C26_instance]; its controls are at most 100 *)

Local Open Scope nat_scope.
(** C33: serial assignment *)
Theorem C33_serial_capacity : forall F (FO : FieldOps F) (PF : PrimeField F) c (C : hash_circuit F) short h calcs t L0,
  build c short (hc_spec C) (hc_chip C) h -> host_columns C -> table_free C L0 ->
  calcs < table_size t \/ calcs < length (ht_controls t) -> hc_load C Serial calcs t L0 = Panic.
Proof. exact (fun F FO PF => serial_capacity_claim). Qed.
Print Assumptions C33_serial_capacity.
(** parallel assignment ignores the excess *)
Theorem C33_parallel_cut : forall F (FO : FieldOps F) (PF : PrimeField F) (C : hash_circuit F) threads calcs t L0,
  hc_load C (Parallel threads) calcs t L0 = hc_load C (Parallel threads) calcs (cut_table calcs t) L0.
Proof. exact (fun F FO PF => parallel_capacity_claim). Qed.
Print Assumptions C33_parallel_cut.
(** so the property fails there *)
Theorem C33_parallel_refuted : exists (short : bool) (threads : nat) (C : hash_circuit Fr) h L0 L1,
  build bn256_c short (hc_spec C) (hc_chip C) h /\ host_columns C /\ table_free C L0
  /\ 2 < table_size demo_table /\ hc_load C (Parallel threads) 2 demo_table L0 = Ok (L1, tt).
Proof. exact (ex_intro _ true (ex_intro _ 1 (excess_witness true 1 (le_n 1)))). Qed.
Print Assumptions C33_parallel_refuted.
Example C33_both_builds : forall short threads, 0 < threads -> exists (C : hash_circuit Fr) h L0 L1,
  build bn256_c short (hc_spec C) (hc_chip C) h /\ host_columns C /\ table_free C L0
  /\ 2 < table_size demo_table /\ hc_load C (Parallel threads) 2 demo_table L0 = Ok (L1, tt).
Proof. exact excess_witness. Qed.

(** C34 *)
Theorem C34_parallel_serial : forall F (FO : FieldOps F) (PF : PrimeField F) c (C : hash_circuit F) short h calcs t L0 threads,
  build c short (hc_spec C) (hc_chip C) h -> host_columns C -> table_free C L0 -> 0 < threads ->
  table_size t <= calcs -> length (ht_controls t) <= calcs ->
  match hc_load C Serial calcs t L0, hc_load C (Parallel threads) calcs t L0 with
  | Ok (L1, _), Ok (L2, _) =>
    lo_adv L1 = lo_adv L2 /\ lo_fix L1 = lo_fix L2 /\ lo_copy L1 = lo_copy L2 /\ lo_tables L1 = lo_tables L2
    /\ (forall q r, In (q, r) (lo_sel L1) <-> In (q, r) (lo_sel L2))
  | Panic, Panic => True
  | _, _ => False
  end.
Proof. exact (fun F FO PF => parallel_claim). Qed.
Print Assumptions C34_parallel_serial.
(** instance: [C38_instance] *)

(** C35: the table *)
Theorem C35_key_of_table : forall F (FO : FieldOps F) (PF : PrimeField F) c (C : hash_circuit F) short h mode mode' calcs t t' L0 L0' L1 L1',
  build c short (hc_spec C) (hc_chip C) h -> host_columns C -> table_free C L0 -> table_free C L0' -> mode_ok mode -> mode_ok mode' ->
  lo_fix L0 = lo_fix L0' -> lo_sel L0 = lo_sel L0' -> lo_copy L0 = lo_copy L0' -> lo_tables L0 = lo_tables L0' ->
  hc_load C mode calcs t L0 = Ok (L1, tt) -> hc_load C mode' calcs t' L0' = Ok (L1', tt) ->
  lo_fix L1 = lo_fix L1' /\ lo_copy L1 = lo_copy L1' /\ lo_tables L1 = lo_tables L1'
  /\ (forall q r, In (q, r) (lo_sel L1) <-> In (q, r) (lo_sel L1')).
Proof. exact (fun F FO PF => key_claim). Qed.
Print Assumptions C35_key_of_table.
Example C35_instance : forall short mode mode', mode_ok mode -> mode_ok mode' -> exists (C : hash_circuit Fr) h L0 L1 L1',
  build bn256_c short (hc_spec C) (hc_chip C) h /\ host_columns C /\ table_free C L0
  /\ hc_load C mode 4 demo_table L0 = Ok (L1, tt) /\ hc_load C mode' 4 empty_table L0 = Ok (L1', tt).
Proof. exact ex_key. Qed.
(** the chips *)
Theorem C35_key_of_chips : forall F (FO : FieldOps F) (PF : PrimeField F) c short s (P : permute_chip F) h host L calls other wss wss' threads,
  build c short s P h ->
  let cfg := fst (pc_configure P host) in
  chip_used P cfg (added host (snd (pc_configure P host))) L calls other ->
  Forall (three_words L) wss -> Forall (three_words L) wss' -> map (map ac_cell) wss = map (map ac_cell) wss' -> 0 < threads ->
  exists L1 o1 L2 o2,
    lmap (pc_permute P cfg) wss L = Ok (L1, o1) /\ pc_permute_batch P threads cfg wss' L = Ok (L2, o2)
    /\ lo_fix L1 = lo_fix L2 /\ lo_sel L1 = lo_sel L2 /\ lo_copy L1 = lo_copy L2 /\ lo_tables L1 = lo_tables L2
    /\ map (map (fun w => abs_cell (lo_starts L1) (ac_cell w))) o1 = map (map (fun w => abs_cell (lo_starts L2) (ac_cell w))) o2.
Proof. exact (fun F FO PF => key_chip_claim). Qed.
Print Assumptions C35_key_of_chips.
(** instances: [C16_instance] and [C25_instance] *)

(** C36 *)
Theorem C36_builder_rows : forall F (FO : FieldOps F) (PF : PrimeField F) bs t, builder_runs bs empty_table = Ok t ->
  table_size t = length (flat_map builder_rows bs)
  /\ forall i, row_of t i = nth i (flat_map builder_rows bs) no_row.
Proof. exact (fun F FO PF => builder_claim). Qed.
Print Assumptions C36_builder_rows.
(** instance: [C38_instance] *)

(** C37 *)
Theorem C37_stream_inputs : forall F (FO : FieldOps F) (PF : PrimeField F) src check c step (t : hash_table F),
  let k := length src in let n := table_size t in
  ((exists t', stream_inputs_with_check src check c step t = Ok t') <->
    length (ht_controls t) = n /\ 0 < k /\ (k = 1 \/ (N.of_nat ((k - 1) * step) < c)%N))
  /\ (forall t', stream_inputs_with_check src check c step t = Ok t' ->
      (forall i, i < k -> row_control t' (n + i) = (c - N.of_nat (i * step))%N)
      /\ ((row_control t' (n + (k - 1)) <= N.of_nat step)%N <-> (c <= N.of_nat (k * step))%N)).
Proof. exact (fun F FO PF => stream_claim). Qed.
Print Assumptions C37_stream_inputs.
Example C37_instance : exists t', stream_inputs_with_check [(fr 3, fr 4)] None 200%N 62 (@empty_table Fr) = Ok t'
  /\ row_control t' 0 = 200%N /\ (62 < 200)%N.
Proof. exact ex_stream. Qed.
(** the message of the README; it says 298 for 289 *)
Example C37_readme : forall src : list (Fr * Fr), length src = 10 ->
  (exists t, stream_inputs src 19 2 empty_table = Ok t /\ row_control t 9 = 1%N)
  /\ forall c, (exists t, stream_inputs src c 32 empty_table = Ok t /\ (row_control t 9 <= 32)%N) <-> (289 <= c <= 320)%N.
Proof. exact ex_readme. Qed.

(** C37: which sessions of builder calls do not panic *)
Theorem C37_sessions : forall F (FO : FieldOps F) (PF : PrimeField F) (bs : list (builder_call (F := F))),
  (exists t, builder_runs bs empty_table = Ok t) <-> session_ok true bs.
Proof. exact (fun F FO PF => session_claim). Qed.
Print Assumptions C37_sessions.
Example C37_sessions_instance :
  let msg := StreamInputsUnchecked [(fr 3, fr 4); (fr 5, fr 6)] 100%N 62 in let two := ConstantInputs [(fr 1, fr 2)] in
  (exists t, builder_runs [msg; two] empty_table = Ok t) /\ builder_runs [two; msg] empty_table = Panic
  /\ exists t, builder_runs [two; FixedInputs []; msg] empty_table = Ok t.
Proof. exact ex_session. Qed.

(** C38 *)
Theorem C38_contents : forall F (FO : FieldOps F) (PF : PrimeField F) c (C : hash_circuit F) mode calcs bs t L0 L1 L copies n u blind step,
  builder_runs bs empty_table = Ok t -> Forall (sized (hc_range C) step) bs -> hc_range C <= step -> table_size t <= calcs ->
  set_up c C mode calcs t L0 L1 L copies n u ->
  map (fun i => Ok (digest C (honest u L blind) (S i))) (seq 0 (table_size t))
  = flat_map (api_hashes (hc_legacy C) (hc_spec C)) bs.
Proof. exact (fun F FO PF => contents_claim). Qed.
Print Assumptions C38_contents.
Example C38_instance : builder_runs demo_calls empty_table = Ok demo_table /\ Forall (sized 62 62) demo_calls
  /\ table_size demo_table = 3
  /\ forall short mode, mode_ok mode -> exists (C : hash_circuit Fr) h L0 L1 n u,
       build bn256_c short (hc_spec C) (hc_chip C) h /\ hc_range C = 62 /\ hc_step C = 62 /\ set_up bn256_c C mode 4 demo_table L0 L1 L1 [] n u.
Proof. exact ex_contents. Qed.

(** C39 *)
Theorem C39_checks : forall F (FO : FieldOps F) (PF : PrimeField F) c (C : hash_circuit F) short h mode calcs t L0,
  build c short (hc_spec C) (hc_chip C) h -> host_columns C -> table_free C L0 -> mode_ok mode ->
  (mode = Serial -> table_size t <= calcs /\ length (ht_controls t) <= calcs) ->
  let state := row_state (poseidon_permutation c) (hc_legacy C) (hc_range C) t in
  ((exists L1, hc_load C mode calcs t L0 = Ok (L1, tt)) \/ hc_load C mode calcs t L0 = Panic)
  /\ (hc_load C mode calcs t L0 = Panic <->
      exists i ck, i < calcs /\ row_check t i = Some ck /\ ck <> nth 0 (state i) fzero)
  /\ (forall L1 L copies u blind, loaded C mode calcs t L0 L1 L copies -> calcs < u ->
      forall i ck, i < calcs -> row_check t i = Some ck -> (row_control t i <= N.of_nat (hc_range C))%N ->
      digest C (honest u L blind) (S i) = ck).
Proof. exact (fun F FO PF => checks_claim). Qed.
Print Assumptions C39_checks.
Example C39_instance : forall short mode, mode_ok mode -> exists (C : hash_circuit Fr) h L0,
  build bn256_c short (hc_spec C) (hc_chip C) h /\ host_columns C /\ table_free C L0
  /\ (exists L1, hc_load C mode 2 (check_table (two_word_hash bn256_c (fr 1) (fr 2) (fr 0))) L0 = Ok (L1, tt))
  /\ forall ck, ck <> two_word_hash bn256_c (fr 1) (fr 2) (fr 0) -> hc_load C mode 2 (check_table ck) L0 = Panic.
Proof. exact ex_check. Qed.

(** C40: [short] is the feature of poseidon-circuit, [base] the one of poseidon-base *)
Theorem C40_row_budget : forall F (FO : FieldOps F) (PF : PrimeField F) c (C : hash_circuit F) short base h mode calcs t L0 L1,
  build c short (hc_spec C) (hc_chip C) h -> host_columns C -> table_free C L0 -> mode_ok mode ->
  hc_load C mode calcs t L0 = Ok (L1, tt) ->
  (short = true -> h = 8) /\ (short = false -> h = 9 + (pc_partial_rounds c + 1) / 2)
  /\ hash_block_size base (hc_spec C) = (if base then 9 else 9 + (pc_partial_rounds c + 1) / 2)
  /\ minimum_row_require base (hc_spec C) t = table_size t * hash_block_size base (hc_spec C)
  /\ table_size t = length (ht_inputs t)
  /\ ((base = true -> short = true) ->
      h * calcs <= calcs * hash_block_size base (hc_spec C) /\ h * table_size t <= minimum_row_require base (hc_spec C) t)
  /\ (exists col, added (hc_host C) (hc_cs C) col /\ lo_next L1 col = h * calcs)
  /\ (forall u, fits u L1 <-> fits u L0 /\ calcs < u /\ h * calcs <= u /\ hc_range C < u)
  /\ (forall j r, 1 <= j < 6 -> ((exists v, In (nth j (hc_table C) 0, r, v) (lo_adv L1)) <-> r <= calcs))
  /\ (copies_enabled (hc_host C) L0 -> copies_enabled (hc_cs C) L1).
Proof. exact (fun F FO PF => budget_claim). Qed.
Print Assumptions C40_row_budget.
Example C40_instance : forall base short, exists s, cached_hash_spec base bn256_c = Ok s /\ exists P, build bn256_c short s P (if short then 8 else 38).
Proof. exact bn_builds. Qed.
(** the circuit without "short" on a poseidon-base with it: what minimum_row_require says is not enough *)
Theorem C40_row_budget_refuted : forall mode, mode_ok mode -> exists (C : hash_circuit Fr) L0 L1,
  cached_hash_spec true bn256_c = Ok (hc_spec C) /\ build bn256_c false (hc_spec C) (hc_chip C) 38
  /\ host_columns C /\ table_free C L0 /\ hc_load C mode 3 demo_table L0 = Ok (L1, tt)
  /\ table_size demo_table = 3 /\ minimum_row_require true (hc_spec C) demo_table = 27
  /\ (forall u, fits u L0) /\ forall u, fits u L1 <-> 114 <= u.
Proof. exact ex_budget. Qed.
Print Assumptions C40_row_budget_refuted.
(** the circuit: [C38_instance] *)

(** C44: serial assignment *)
Theorem C44_serial_rows_kept : forall F (FO : FieldOps F) (PF : PrimeField F) c (C : hash_circuit F) short h calcs t L0 L1 L2,
  build c short (hc_spec C) (hc_chip C) h -> host_columns C -> table_free C L0 ->
  hc_load C Serial calcs t L0 = Ok (L1, tt) -> later_regions L1 L2 ->
  forall j r, j < 6 -> r <= calcs ->
  last_write (lo_adv L2) (nth j (hc_table C) 0) r = last_write (lo_adv L1) (nth j (hc_table C) 0) r.
Proof. exact (fun F FO PF => reserved_claim). Qed.
Print Assumptions C44_serial_rows_kept.
Example C44_instance : forall short v, exists (C : hash_circuit Fr) h L0 L1 L2,
  build bn256_c short (hc_spec C) (hc_chip C) h /\ host_columns C /\ table_free C L0
  /\ hc_load C Serial 4 demo_table L0 = Ok (L1, tt) /\ later_regions L1 L2
  /\ exists r, In (nth 0 (hc_table C) 0, r, v) (lo_adv L2).
Proof. exact ex_reserved. Qed.
(** parallel assignment *)
Theorem C44_parallel_overwritten : forall F (FO : FieldOps F) (PF : PrimeField F) c (C : hash_circuit F) short h threads calcs t L0 L1 v,
  build c short (hc_spec C) (hc_chip C) h -> host_columns C -> table_free C L0 -> 0 < threads ->
  hc_load C (Parallel threads) calcs t L0 = Ok (L1, tt) ->
  exists L2 a, assign_region (assign_advice (nth 0 (hc_table C) 0) 0 v) L1 = Ok (L2, a)
    /\ last_write (lo_adv L2) (nth 0 (hc_table C) 0) 1 = Some v.
Proof. exact (fun F FO PF => overwritten_claim). Qed.
Print Assumptions C44_parallel_overwritten.
Theorem C44_parallel_refuted : exists (short : bool) (threads : nat) (C : hash_circuit Fr) h L0 L1 L2 n u,
  build bn256_c short (hc_spec C) (hc_chip C) h
  /\ set_up bn256_c C (Parallel threads) 4 demo_table L0 L1 L1 [] n u
  /\ later_regions L1 L2
  /\ forall blind, satisfied n u (hc_cs C) L1 (honest u L1 blind)
     /\ digest C (honest u L2 blind) 1 <> digest C (honest u L1 blind) 1.
Proof. exact (ex_intro _ true (ex_intro _ 1 (overwritten_witness true 1 (le_n 1)))). Qed.
Print Assumptions C44_parallel_refuted.
Example C44_both_builds : forall short threads, 0 < threads -> exists (C : hash_circuit Fr) h L0 L1 L2 n u,
  build bn256_c short (hc_spec C) (hc_chip C) h
  /\ set_up bn256_c C (Parallel threads) 4 demo_table L0 L1 L1 [] n u
  /\ later_regions L1 L2
  /\ forall blind, satisfied n u (hc_cs C) L1 (honest u L1 blind)
     /\ digest C (honest u L2 blind) 1 <> digest C (honest u L1 blind) 1.
Proof. exact overwritten_witness. Qed.
