(** Property C71: how the work is split over threads.  [split_rows] is defined in Workers.v. *)
From Coq Require Import ZArith NArith List Arith.
From Verif Require Import Field Rust Primes ZpField Primitives Specs BaseHash Bn256 SpecHash Link Const_proof Halo2 Septidon PermuteChip ChipUse Pow5
  SpongeTable TableUse Workers Workers_claims ExamplesPow5 ExamplesTable ExamplesWorkers.
Import ListNotations.
Local Open Scope nat_scope.

(** C71: the rows of the table *)
Theorem C71_table_workers : forall F (FO : FieldOps F) (PF : PrimeField F) c (C : hash_circuit F) short h threads calcs t L0,
  build c short (hc_spec C) (hc_chip C) h -> host_columns C -> table_free C L0 -> 0 < threads ->
  let rows := load_rows (hc_legacy C) (hc_chip C) (hc_range C) (hc_spec C) (hc_config C) (Parallel threads) calcs t in
  exists L ps parts,
    rows L0 = lbind (assign_regions ps) (fun ret => lret (concat (map fst ret), concat (map snd ret))) L
    /\ split_rows threads 1 (map (@length raw_row) parts) ps L
    /\ concat parts = raw_rows calcs t /\ length (raw_rows calcs t) = calcs
    /\ forall i x, S i < length parts -> nth_error parts i = Some x ->
         exists y r, x = y ++ [r] /\ (unwrap_or (snd (fst r)) 0 <= N.of_nat (hc_range C))%N.
Proof. exact (fun F FO PF => table_workers_claim). Qed.
Print Assumptions C71_table_workers.
Example C71_instance : forall short, exists (C : hash_circuit Fr) h L0,
  build bn256_c short (hc_spec C) (hc_chip C) h /\ host_columns C /\ table_free C L0 /\ hc_range C = 62.
Proof. exact ex_workers. Qed.
(** the message of two rows stays with one worker: 4 rows, 4 threads, two parts *)
Example C71_parts : map (@length _) (SpongeTable.chunks 62 (4 / 4 + 1) [] (raw_rows 4 demo_table)) = [3; 1].
Proof. exact ex_parts. Qed.

(** C71: the permutations of the Septidon chip (the Pow5 chip permutes one after the other) *)
Theorem C71_batch_workers : forall F (FO : FieldOps F) (PF : PrimeField F) (rcs m : list (list F)) host threads wss (L : layout F),
  65 <= length rcs -> 0 < threads -> Forall (fun ws => length ws = 3) wss ->
  let P := septidon_chip rcs m in
  let cfg := fst (pc_configure P host) in
  exists t sizes ps,
    pc_permute_batch P threads cfg wss L = lbind (assign_regions ps) (fun r => lret (concat r)) L
    /\ split_rows threads t (map (Nat.mul 8) sizes) ps L
    /\ list_sum sizes = length wss /\ (exists col, added host (snd (pc_configure P host)) (Adv col) /\ t = lo_next L (Adv col)).
Proof. exact (fun F FO PF => batch_workers_claim). Qed.
Print Assumptions C71_batch_workers.
Example C71_batch_instance : exists s, compact_spec bn256_c = Ok s /\ 65 <= length (round_constants s)
  /\ forall w : acell Fr, Forall (fun ws => length ws = 3) [[w; w; w]; [w; w; w]].
Proof. exact ex_wide. Qed.
