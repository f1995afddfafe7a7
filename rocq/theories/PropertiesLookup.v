(** Properties C45-C47 and a counterexample for C28: what a host circuit learns from looking up rows of the exposed
    table.  The vocabulary is in TableUse.v and LookupUse.v. *)
From Coq Require Import ZArith NArith List Arith Bool.
From Verif Require Import Field ZpField Primes Rust BigSum Primitives Specs BaseHash Bn256 SpecHash Link Const_proof Halo2 Septidon PermuteChip Sept_claims
  ChipUse Pow5 SpongeTable TableUse LookupUse TableLookup_claims TableRange_claims ExamplesTable ExamplesLookup ExamplesBase.
Import ListNotations.

Local Open Scope nat_scope.
(** C28: with STEP above the step the control does not fix the number of rows *)
Theorem C28_larger_range_refuted : exists (short : bool) (C : hash_circuit Fr) h adv adv',
  build bn256_c short (hc_spec C) (hc_chip C) h /\ hc_range C = 63 /\ hc_step C = 62
  /\ accepted bn256_c C 3 adv /\ accepted bn256_c C 3 adv'
  /\ message C adv 3 1 1 /\ message C adv' 3 1 2 /\ control C adv 1 = control C adv' 1.
Proof. exact (ex_intro _ true (range_witness true)). Qed.
Print Assumptions C28_larger_range_refuted.
Example C28_both_builds : forall short, exists (C : hash_circuit Fr) h adv adv',
  build bn256_c short (hc_spec C) (hc_chip C) h /\ hc_range C = 63 /\ hc_step C = 62
  /\ accepted bn256_c C 3 adv /\ accepted bn256_c C 3 adv'
  /\ message C adv 3 1 1 /\ message C adv' 3 1 2 /\ control C adv 1 = control C adv' 1.
Proof. exact range_witness. Qed.

(** C45: the enabled rows *)
Theorem C45_enabled_rows : forall F (FO : FieldOps F) (PF : PrimeField F) c (C : hash_circuit F) mode calcs t L0 L1 L copies n u,
  set_up c C mode calcs t L0 L1 L copies n u ->
  forall r, fixed_at L (hc_enable C) r = if (1 <=? r) && (r <=? calcs) then fone else fzero.
Proof. exact (fun F FO PF => enabled_claim). Qed.
Print Assumptions C45_enabled_rows.
Local Open Scope F_scope.
(** a lookup of two words *)
Theorem C45_lookup_two_words : forall F (FO : FieldOps F) (PF : PrimeField F) c (C : hash_circuit F) mode calcs t L0 L1 L copies n u adv r d a b dom,
  set_up c C mode calcs t L0 L1 L copies n u -> satisfied n u (hc_cs C) L adv ->
  (Z.of_nat (calcs * hc_step C + hc_range C) * (if hc_legacy C then 1 else 2 ^ 64) < modulus (F := F))%Z ->
  fixed_at L (hc_enable C) r = 1 -> table_tuple C adv r = [d; a; b; 0; dom; 1] ->
  (a, b) <> (0, 0) -> hash_with_domain (hc_spec C) (a, b) dom = Ok d.
Proof. exact (fun F FO PF => lookup_claim). Qed.
Print Assumptions C45_lookup_two_words.
Local Open Scope nat_scope.
Example C45_instance : forall short mode, mode_ok mode -> exists (C : hash_circuit Fr) h L0 L1 n u adv,
  build bn256_c short (hc_spec C) (hc_chip C) h /\ hc_range C = 62 /\ hc_step C = 62 /\ hc_legacy C = false
  /\ set_up bn256_c C mode 4 demo_table L0 L1 L1 [] n u /\ satisfied n u (hc_cs C) L1 adv
  /\ fixed_at L1 (hc_enable C) 1 = fr 1
  /\ exists d, table_tuple C adv 1 = [d; fr 1; fr 2; fr 0; fr 7; fr 1].
Proof. exact ex_lookup. Qed.
(** for the words (0, 0) it fails: any digest can be looked up *)
Theorem C45_zero_words_refuted : exists (short : bool) (d dom : Fr) (C : hash_circuit Fr) h t L0 L1 n u adv,
  build bn256_c short (hc_spec C) (hc_chip C) h
  /\ set_up bn256_c C Serial 1 t L0 L1 L1 [] n u /\ satisfied n u (hc_cs C) L1 adv
  /\ fixed_at L1 (hc_enable C) 1 = fr 1 /\ table_tuple C adv 1 = [d; fr 0; fr 0; fr 0; dom; fr 1]
  /\ hash_with_domain (hc_spec C) (fr 0, fr 0) dom <> Ok d.
Proof. exact (ex_intro _ true zero_words_refutation). Qed.
Print Assumptions C45_zero_words_refuted.
Example C45_any_digest : forall short d dom, exists (C : hash_circuit Fr) h t L0 L1 n u adv,
  build bn256_c short (hc_spec C) (hc_chip C) h
  /\ set_up bn256_c C Serial 1 t L0 L1 L1 [] n u /\ satisfied n u (hc_cs C) L1 adv
  /\ fixed_at L1 (hc_enable C) 1 = fr 1 /\ table_tuple C adv 1 = [d; fr 0; fr 0; fr 0; dom; fr 1].
Proof. exact zero_words_witness. Qed.

Local Open Scope F_scope.
(** C46 *)
Theorem C46_lookup_message : forall F (FO : FieldOps F) (PF : PrimeField F) c (C : hash_circuit F) calcs adv d len (ws : list (F * F)) (row : nat -> nat),
  accepted c C calcs adv ->
  (Z.of_nat (calcs * hc_step C + hc_range C) * (if hc_legacy C then 1 else 2 ^ 64) < modulus (F := F))%Z ->
  (hc_range C <= hc_step C)%nat -> collision_free C adv calcs ->
  ws <> [] -> ((length ws - 1) * hc_step C < len <= (length ws - 1) * hc_step C + hc_range C)%nat ->
  (Z.of_nat len * (if hc_legacy C then 1 else 2 ^ 64) < modulus (F := F))%Z ->
  (forall i, (i < length ws)%nat -> (1 <= row i <= calcs)%nat
     /\ digest C adv (row i) = d /\ (in1 C adv (row i), in2 C adv (row i)) = nth i ws (0, 0)
     /\ control C adv (row i) = length_code (hc_legacy C) (N.of_nat (len - i * hc_step C))
     /\ domain C adv (row i) = 0) ->
  head C adv (row 0%nat) = 1 ->
  hash_msg (hc_legacy C) (hc_spec C) (flat_map (fun '(a, b) => [a; b]) ws)
    (Some (N.of_nat len * (if hc_legacy C then 1 else 2 ^ 64))%N) = Ok d.
Proof. exact (fun F FO PF => message_lookup_claim). Qed.
Print Assumptions C46_lookup_message.
(** a message of length 100, twice *)
Local Open Scope nat_scope.
Example C46_instance : forall short mode, mode_ok mode -> exists (C : hash_circuit Fr) h L0 L1 n u adv,
  build bn256_c short (hc_spec C) (hc_chip C) h /\ hc_range C = 62 /\ hc_step C = 62 /\ hc_legacy C = false
  /\ set_up bn256_c C mode 5 twice_table L0 L1 L1 [] n u /\ satisfied n u (hc_cs C) L1 adv
  /\ collision_free C adv 5
  /\ exists d, table_tuple C adv 3 = [d; fr 3; fr 4; length_code false 100%N; fr 0; fr 1]
     /\ table_tuple C adv 4 = [d; fr 5; fr 6; length_code false 38%N; fr 0; fr 0].
Proof. exact ex_lookup_message. Qed.

Local Open Scope F_scope.
(** C47 *)
Theorem C47_determined : forall F (FO : FieldOps F) (PF : PrimeField F) c (C : hash_circuit F) calcs adv adv', accepted c C calcs adv -> accepted c C calcs adv' ->
  (Z.of_nat (calcs * hc_step C + hc_range C) * (if hc_legacy C then 1 else 2 ^ 64) < modulus (F := F))%Z ->
  (hc_range C <= hc_step C)%nat -> same_inputs C calcs adv adv' ->
  (forall r, (1 <= r <= calcs)%nat -> head C adv r = head C adv' r)
  /\ (forall r, (1 <= r < calcs)%nat -> digest C adv r = digest C adv' r).
Proof. exact (fun F FO PF => determined_claim). Qed.
Print Assumptions C47_determined.
Local Open Scope nat_scope.
Example C47_instance : forall short, exists (C : hash_circuit Fr) h adv adv',
  build bn256_c short (hc_spec C) (hc_chip C) h /\ hc_range C = 62 /\ hc_step C = 62 /\ hc_legacy C = false
  /\ accepted bn256_c C 4 adv /\ accepted bn256_c C 4 adv' /\ same_inputs C 4 adv adv' /\ digest C adv 4 <> digest C adv' 4.
Proof. exact ex_determined. Qed.
