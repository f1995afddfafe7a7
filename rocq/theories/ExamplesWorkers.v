(** Instances for PropertiesWorkers.v. *)
From Coq Require Import ZArith NArith List Arith Lia Bool.
From Verif Require Import Field Rust ListAux ZpField Primes Primitives Specs BaseHash Bn256 SpecHash BigSum Link Const_proof Base_claims BaseHash_proof
  Halo2 Layout_proof Septidon PermuteChip ChipUse Pow5 Contract Sept_claims SpongeTable TableUse TableInv_proof TableLoad_proof TableState_proof
  Table_claims TableLayout_claims TableBuild_claims Workers Rounds_claims ExamplesPow5 ExamplesTable ExamplesBase.
Import ListNotations.
Local Open Scope nat_scope.
Local Opaque hc_config hc_cs hc_load.

Lemma ex_workers : forall short, exists (C : hash_circuit Fr) h L0,
  build bn256_c short (hc_spec C) (hc_chip C) h /\ host_columns C /\ table_free C L0 /\ hc_range C = 62.
Proof.
  intros short. destruct (bn_build short) as (s & P & h & B & _).
  exists (demo P s false 62 62), h, (layout_empty demo_host). split; [exact B|]. split; [apply demo_columns|].
  split; [apply empty_free|reflexivity].
Qed.

(** the message of two rows stays with one worker: 4 rows, 4 threads, two parts *)
Lemma ex_parts : map (@length _) (SpongeTable.chunks 62 (4 / 4 + 1) [] (raw_rows 4 demo_table)) = [3; 1].
Proof. vm_compute. reflexivity. Qed.

(** the chip of BN254 and two states *)
Lemma ex_wide : exists s, compact_spec bn256_c = Ok s /\ 65 <= length (round_constants s)
  /\ forall w : acell Fr, Forall (fun ws => length ws = 3) [[w; w; w]; [w; w; w]].
Proof.
  destruct (compact_spec_exists bn256_c bn256_ok) as (s & Hs). exists s. split; [exact Hs|]. split; [|intros w; repeat constructor].
  rewrite (compact_rows bn256_c s bn256_ok Hs). change (pc_partial_rounds bn256_c) with 57. lia.
Qed.
