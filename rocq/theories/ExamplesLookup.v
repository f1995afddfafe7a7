(** Instances of the hypotheses of PropertiesLookup.v and the witnesses of its refuted properties. *)
From Coq Require Import ZArith NArith List Arith Lia Bool.
From Verif Require Import Field Rust ListAux ZpField Primes Primitives Specs BaseHash Bn256 SpecHash BigSum Link Const_proof Base_claims BaseHash_proof
  Halo2 Layout_proof Septidon PermuteChip ChipUse Pow5 Contract Sept_claims SpongeTable TableUse LookupUse TableInv_proof TableLoad_proof TableState_proof
  Table_claims TableLayout_claims TableBuild_claims TableLookup_claims TableRange_claims ExamplesPow5 ExamplesTable ExamplesBase.
Import ListNotations.
Local Open Scope nat_scope.

(** ** C28: STEP = 63 with step 62 *)

(** the circuit with STEP 63 and step 62 accepts a message of one row and a message of two rows with the same control *)
Definition table_one : hash_table Fr :=
  {| ht_inputs := [(fr 1, fr 2)]; ht_controls := [63%N]; ht_domain := []; ht_checks := [] |}.
Definition table_two : hash_table Fr :=
  {| ht_inputs := [(fr 1, fr 2); (fr 3, fr 4)]; ht_controls := [63; 1]%N; ht_domain := []; ht_checks := [] |}.
Lemma one_control_big : forall i, (row_control table_one i <= 63)%N.
Proof. intros i. unfold row_control, table_one. cbn [ht_controls]. destruct i as [|i]; [cbn; lia|]. destruct i; cbn; lia. Qed.
Lemma two_control_big : forall i, (row_control table_two i <= 63)%N.
Proof. intros i. unfold row_control, table_two. cbn [ht_controls]. do 2 (destruct i as [|i]; [cbn; lia|]). destruct i; cbn; lia. Qed.
Lemma one_wf : well_formed 63 62 3 table_one.
Proof.
  split.
  - intros i _ H. pose proof (one_control_big i). exfalso. change (N.of_nat 63) with 63%N in H. lia.
  - intros _. split; reflexivity.
Qed.
Lemma two_wf : well_formed 62 62 3 table_two.
Proof.
  split.
  - intros i Hi H. assert (K : i = 0 \/ i = 1) by lia. destruct K as [K|K]; subst i; [|exfalso; cbn in H; lia].
    split; [reflexivity|]. split; [discriminate|reflexivity].
  - intros _. split; reflexivity.
Qed.
Lemma range_bound : (Z.of_nat (3 * 62 + 63) * 2 ^ 64 < modulus (F := Fr))%Z.
Proof. eapply Z.lt_le_trans; [|exact ex_modulus]. reflexivity. Qed.

Lemma range_witness : forall short, exists (C : hash_circuit Fr) h adv adv',
  build bn256_c short (hc_spec C) (hc_chip C) h /\ hc_range C = 63 /\ hc_step C = 62
  /\ accepted bn256_c C 3 adv /\ accepted bn256_c C 3 adv'
  /\ message C adv 3 1 1 /\ message C adv' 3 1 2 /\ control C adv 1 = control C adv' 1.
Proof.
  intros short. destruct (bn_build short) as (s & P & h & B & _).
  destruct (demo_loads bn256_c short s P h false 63 62 Serial 3 table_one B I) as (L1 & E1 & SU1 & HO1).
  { intros _. cbn. lia. } { intros [|i] ck _ H; discriminate H. }
  destruct (demo_loads bn256_c short s P h false 63 62 Serial 3 table_two B I) as (L2 & E2 & SU2 & HO2).
  { intros _. cbn. lia. } { intros [|i] ck _ H; discriminate H. }
  destruct (demo_loads bn256_c short s P h false 62 62 Serial 3 table_two B I) as (L3 & E3 & SU3 & HO3).
  { intros _. cbn. lia. } { intros [|i] ck _ H; discriminate H. }
  set (C := demo P s false 63 62) in *. set (A := demo P s false 62 62) in *.
  set (u := demo_rows h 3 63) in *. set (u3 := demo_rows h 3 62) in *.
  assert (Uu : u3 <= u) by (unfold u, u3, demo_rows; lia).
  assert (Ur : 63 < u) by (unfold u, demo_rows; lia).
  set (L0 := layout_empty (demo_host (F := Fr))) in *.
  assert (SU3' : set_up bn256_c A Serial 3 table_two L0 L3 L3 [] u u).
  { destruct SU3 as (X1 & X2 & (sh & hh & X3 & X3') & X4 & X5 & _). split; [exact X1|]. split; [exact X2|].
    split; [exists sh, hh; split; [exact X3|lia]|]. split; [lia|]. split; [|lia]. cbn [A demo hc_range]. lia. }
  set (blind := fun _ _ : nat => fzero (F := Fr)).
  assert (SAT1 : satisfied u u (hc_cs C) L1 (honest u L1 blind)).
  { apply (complete_claim bn256_c C Serial 3 table_one L0 L1 L1 [] u u blind SU1).
    - intros i. pose proof (one_control_big i) as Hb. cbn [C demo hc_step hc_legacy].
      eapply Z.le_lt_trans; [|exact range_bound]. apply Z.mul_le_mono_nonneg_r; [lia|]. lia.
    - split; [exact one_wf|apply HO1]. }
  assert (SAT3 : satisfied u u (hc_cs A) L3 (honest u L3 blind)).
  { apply (complete_claim bn256_c A Serial 3 table_two L0 L3 L3 [] u u blind SU3').
    - intros i. pose proof (two_control_big i) as Hb. cbn [A demo hc_step hc_legacy].
      eapply Z.le_lt_trans; [|exact range_bound]. apply Z.mul_le_mono_nonneg_r; [lia|]. lia.
    - split; [exact two_wf|]. split; [intros g r []|]. split; [intros e tt r []|intros a b []]. }
  assert (HA : host_columns A) by apply demo_columns. assert (TA : table_free A L0) by apply empty_free.
  assert (SAT2 : satisfied u u (hc_cs A) L2 (honest u L3 blind)).
  { refine (larger_range_claim bn256_c A 63 short h Serial 3 table_two table_two L0 L3 L2 u u _ B HA TA I E3 E2 _ Ur eq_refl SAT3).
    cbn [A demo hc_range]. lia. }
  assert (ECS : hc_cs A = hc_cs C).
  { unfold hc_cs, A, C, demo. cbn [hc_legacy hc_chip hc_enable hc_table hc_step hc_host]. reflexivity. }
  rewrite ECS in SAT2. clear ECS.
  destruct (build_facts _ _ _ _ _ B) as (_ & _ & HP & HS & _).
  pose proof (fun i => honest_rows C _ h (proj1 SU1) HP HS Serial 3 table_one L0 L1 L1 [] u blind (proj1 (proj2 SU1)) ltac:(unfold u, demo_rows; lia) i) as R1.
  pose proof (fun i => honest_rows A _ h HA HP HS Serial 3 table_two L0 L3 L3 [] u blind (proj1 (proj2 SU3')) ltac:(unfold u, demo_rows; lia) i) as R3.
  cbv zeta in R1, R3.
  destruct (R1 0 ltac:(lia)) as (_ & _ & K0 & _ & H0 & _). destruct (R1 1 ltac:(lia)) as (_ & _ & _ & _ & H1 & _).
  destruct (R3 0 ltac:(lia)) as (_ & _ & J0 & _ & G0 & _). destruct (R3 1 ltac:(lia)) as (_ & _ & _ & _ & G1 & _).
  destruct (R3 2 ltac:(lia)) as (_ & _ & _ & _ & G2 & _). clear R1 R3.
  set (adv := honest u L1 blind) in *. set (adv' := honest u L3 blind) in *.
  assert (ACC1 : accepted bn256_c C 3 adv).
  { exists Serial, table_one, L0, L1, L1, [], u, u. split; [exact SU1|exact SAT1]. }
  assert (ACC2 : accepted bn256_c C 3 adv').
  { exists Serial, table_two, L0, L2, L2, [], u, u. split; [exact SU2|exact SAT2]. }
  exists C, h, adv, adv'. split; [exact B|]. split; [reflexivity|]. split; [reflexivity|]. split; [exact ACC1|]. split; [exact ACC2|].
  clear ACC1 ACC2 SAT1 SAT2 SAT3 SU1 SU2 SU3 SU3' HO1 HO2 HO3 E1 E2 E3. clearbody adv adv'.
  split. { split; [lia|]. split; [lia|]. split; [lia|]. split; [exact H0|]. split; [intros i Hi; lia|exact H1]. }
  split. { split; [lia|]. split; [lia|]. split; [lia|]. split; [exact G0|]. split; [|exact G2]. intros i Hi. replace i with 2 by lia. exact G1. }
  transitivity (length_code (F := Fr) false 63%N); [exact K0|symmetry; exact J0].
Qed.

(** ** C45: the last row *)
Definition table_zero (dom : Fr) : hash_table Fr :=
  {| ht_inputs := [(fr 0, fr 0)]; ht_controls := [0%N]; ht_domain := [Some dom]; ht_checks := [None] |}.
Lemma zero_wf : forall dom, well_formed 62 62 1 (table_zero dom).
Proof. intros dom. split; [intros i Hi; lia|]. intros _. split; reflexivity. Qed.
Lemma zero_control : forall dom i, row_control (table_zero dom) i = 0%N.
Proof. intros dom [|[|i]]; reflexivity. Qed.

Lemma zero_words_witness : forall short d dom, exists (C : hash_circuit Fr) h t L0 L1 n u adv,
  build bn256_c short (hc_spec C) (hc_chip C) h
  /\ set_up bn256_c C Serial 1 t L0 L1 L1 [] n u /\ satisfied n u (hc_cs C) L1 adv
  /\ fixed_at L1 (hc_enable C) 1 = fr 1 /\ table_tuple C adv 1 = [d; fr 0; fr 0; fr 0; dom; fr 1].
Proof.
  intros short d dom. destruct (bn_build short) as (s & P & h & B & _).
  destruct (demo_loads bn256_c short s P h false 62 62 Serial 1 (table_zero dom) B I) as (L1 & E & SU & HO).
  { intros _. cbn. lia. } { intros [|i] ck _ H; [discriminate H|]. destruct i; discriminate H. }
  set (C := demo P s false 62 62) in *. set (u := demo_rows h 1 62) in *.
  set (L0 := layout_empty (demo_host (F := Fr))) in *. set (blind := fun _ _ : nat => fzero (F := Fr)).
  assert (SAT : satisfied u u (hc_cs C) L1 (honest u L1 blind)).
  { apply (complete_claim bn256_c C Serial 1 (table_zero dom) L0 L1 L1 [] u u blind SU).
    - intros i. rewrite zero_control. cbn [C demo hc_step hc_legacy].
      eapply Z.le_lt_trans; [|exact demo_bound]. apply Z.mul_le_mono_nonneg_r; [lia|]. cbn. lia.
    - split; [exact (zero_wf dom)|apply HO]. }
  pose proof (last_digest_claim bn256_c C Serial 1 (table_zero dom) L0 L1 L1 [] u u _ d SU ltac:(lia) SAT (HO _)) as SAT'.
  cbv zeta in SAT'.
  destruct (build_facts _ _ _ _ _ B) as (_ & _ & HP & HS & _).
  assert (HC : host_columns C) by exact (proj1 SU).
  pose proof (honest_rows C _ h HC HP HS Serial 1 (table_zero dom) L0 L1 L1 [] u blind (proj1 (proj2 SU)) ltac:(unfold u, demo_rows; lia) 0 ltac:(lia)) as R.
  cbv zeta in R. destruct R as (R1 & R2 & R3 & R4 & R5 & _).
  set (adv := honest u L1 blind) in *. clearbody adv. set (adv' := set_cell adv (nth 0 (hc_table C) 0) 1 d) in *.
  assert (T : forall j, j < 6 -> j <> 0 -> tcell C adv' j 1 = tcell C adv j 1).
  { intros j Hj Hn. unfold tcell, adv', set_cell.
    destruct (Nat.eqb_spec (nth j (hc_table C) 0) (nth 0 (hc_table C) 0)) as [Q|Q]; [|reflexivity].
    exfalso. exact (table_cols_apart C HC j 0 Hj ltac:(lia) Hn Q). }
  exists C, h, (table_zero dom), L0, L1, u, u, adv'. split; [exact B|]. split; [exact SU|]. split; [exact SAT'|].
  split. { exact (enabled_claim bn256_c C Serial 1 (table_zero dom) L0 L1 L1 [] u u SU 1). }
  unfold table_tuple. cbn [map]. rewrite (T 1), (T 2), (T 3), (T 4), (T 5) by lia.
  assert (D : tcell C adv' 0 1 = d). { unfold tcell, adv', set_cell. rewrite !Nat.eqb_refl. reflexivity. }
  rewrite D.
  change (tcell C adv 1 1) with (in1 C adv 1). change (tcell C adv 2 1) with (in2 C adv 1).
  change (tcell C adv 3 1) with (control C adv 1). change (tcell C adv 4 1) with (domain C adv 1).
  change (tcell C adv 5 1) with (head C adv 1). rewrite R1, R2, R3, R4, R5. reflexivity.
Qed.

Lemma zero_words_refutation : exists (d dom : Fr) (C : hash_circuit Fr) h t L0 L1 n u adv,
  build bn256_c true (hc_spec C) (hc_chip C) h
  /\ set_up bn256_c C Serial 1 t L0 L1 L1 [] n u /\ satisfied n u (hc_cs C) L1 adv
  /\ fixed_at L1 (hc_enable C) 1 = fr 1 /\ table_tuple C adv 1 = [d; fr 0; fr 0; fr 0; dom; fr 1]
  /\ hash_with_domain (hc_spec C) (fr 0, fr 0) dom <> Ok d.
Proof.
  set (d := fadd (two_word_hash bn256_c (fr 0) (fr 0) (fr 0)) fone). exists d, (fr 0).
  destruct (zero_words_witness true d (fr 0)) as (C & h & t & L0 & L1 & n & u & adv & B & SU & SAT & En & Tu).
  exists C, h, t, L0, L1, n, u, adv. split; [exact B|]. split; [exact SU|]. split; [exact SAT|]. split; [exact En|]. split; [exact Tu|].
  destruct (build_facts _ _ _ _ _ B) as (Hc & (base & Hs) & _).
  destruct (two_word_claim base false bn256_c (hc_spec C) (fr 0) (fr 0) Hc Hs) as (Q & _).
  intros X. rewrite (Q (fr 0)) in X. unfold d in X. clear - X. set (v := two_word_hash bn256_c (fr 0) (fr 0) (fr 0)) in X. clearbody v.
  injection X as X. exact (bump v (eq_sym X)).
Qed.

(** ** Instances of C45, C46, C47: the table of C26_instance *)
Lemma ex_lookup : forall short mode, mode_ok mode -> exists (C : hash_circuit Fr) h L0 L1 n u adv,
  build bn256_c short (hc_spec C) (hc_chip C) h /\ hc_range C = 62 /\ hc_step C = 62 /\ hc_legacy C = false
  /\ set_up bn256_c C mode 4 demo_table L0 L1 L1 [] n u /\ satisfied n u (hc_cs C) L1 adv
  /\ fixed_at L1 (hc_enable C) 1 = fr 1
  /\ exists d, table_tuple C adv 1 = [d; fr 1; fr 2; fr 0; fr 7; fr 1].
Proof.
  intros short mode Hm. destruct (bn_build short) as (s & P & h & B & _).
  destruct (demo_loads bn256_c short s P h false 62 62 mode 4 demo_table B Hm) as (L1 & E & SU & HO).
  { intros _. cbn. lia. }
  { intros i ck _ H. rewrite demo_no_check in H. discriminate. }
  set (C := demo P s false 62 62) in *. set (u := demo_rows h 4 62) in *.
  set (L0 := layout_empty (demo_host (F := Fr))) in *. set (blind := fun _ _ : nat => fzero (F := Fr)).
  assert (SAT : satisfied u u (hc_cs C) L1 (honest u L1 blind)).
  { apply (complete_claim bn256_c C mode 4 demo_table L0 L1 L1 [] u u blind SU).
    - intros i. pose proof (demo_control_big i) as Hb. cbn [C demo hc_step hc_legacy].
      eapply Z.le_lt_trans; [|exact demo_bound]. apply Z.mul_le_mono_nonneg_r; [lia|]. lia.
    - split; [exact demo_wf|apply HO]. }
  destruct (build_facts _ _ _ _ _ B) as (_ & _ & HP & HS & _).
  assert (HC : host_columns C) by exact (proj1 SU).
  pose proof (fun i => honest_rows C _ h HC HP HS mode 4 demo_table L0 L1 L1 [] u blind (proj1 (proj2 SU)) ltac:(unfold u, demo_rows; lia) i) as R.
  cbv zeta in R.
  destruct (R 0 ltac:(lia)) as (A0 & B0 & C0 & D0 & H0 & _). clear R HP HS.
  pose proof (enabled_claim bn256_c C mode 4 demo_table L0 L1 L1 [] u u SU 1) as En.
  set (adv := honest u L1 blind) in *. exists C, h, L0, L1, u, u, adv.
  split; [exact B|]. split; [reflexivity|]. split; [reflexivity|]. split; [reflexivity|]. split; [exact SU|].
  split; [exact SAT|]. split; [exact En|]. clear SU SAT En HO E HC. clearbody adv.
  assert (TT : forall r, table_tuple C adv r = [digest C adv r; in1 C adv r; in2 C adv r; control C adv r; domain C adv r; head C adv r]) by reflexivity.
  assert (K0 : head C adv 1 = fone) by exact H0.
  exists (digest C adv 1). rewrite TT, A0, B0, C0, D0, K0. reflexivity.
Qed.

(** C46: a message of two rows, twice *)
Definition twice_table : hash_table Fr :=
  {| ht_inputs := [(fr 3, fr 4); (fr 5, fr 6); (fr 3, fr 4); (fr 5, fr 6)]; ht_controls := [100; 38; 100; 38]%N;
     ht_domain := [None; None; None; None]; ht_checks := [None; None; None; None] |}.
Lemma twice_built : builder_runs [StreamInputs [(fr 3, fr 4); (fr 5, fr 6)] None 100%N 62; StreamInputs [(fr 3, fr 4); (fr 5, fr 6)] None 100%N 62] empty_table
  = Ok twice_table.
Proof. reflexivity. Qed.
Lemma twice_no_check : forall i, row_check twice_table i = None.
Proof. intros i. unfold row_check, twice_table. cbn [ht_checks]. do 4 (destruct i as [|i]; [reflexivity|]). destruct i; reflexivity. Qed.
Lemma twice_control_big : forall i, (row_control twice_table i <= 100)%N.
Proof. intros i. unfold row_control, twice_table. cbn [ht_controls]. do 4 (destruct i as [|i]; [cbn; lia|]). destruct i; cbn; lia. Qed.
Lemma twice_wf : well_formed 62 62 5 twice_table.
Proof.
  split.
  - intros i Hi. assert (K : i = 0 \/ i = 1 \/ i = 2 \/ i = 3) by lia. destruct K as [K|[K|[K|K]]]; subst i; unfold row_control, twice_table;
      cbn [ht_controls nth]; intros H; try (exfalso; cbn in H; lia); (split; [reflexivity|]; split; [discriminate|reflexivity]).
  - intros _. split; reflexivity.
Qed.
Lemma twice_bound : (Z.of_nat (5 * 62 + 62) * 2 ^ 64 < modulus (F := Fr))%Z.
Proof. eapply Z.lt_le_trans; [|exact ex_modulus]. reflexivity. Qed.

Lemma ex_lookup_message : forall short mode, mode_ok mode -> exists (C : hash_circuit Fr) h L0 L1 n u adv,
  build bn256_c short (hc_spec C) (hc_chip C) h /\ hc_range C = 62 /\ hc_step C = 62 /\ hc_legacy C = false
  /\ set_up bn256_c C mode 5 twice_table L0 L1 L1 [] n u /\ satisfied n u (hc_cs C) L1 adv
  /\ collision_free C adv 5
  /\ exists d, table_tuple C adv 3 = [d; fr 3; fr 4; length_code false 100%N; fr 0; fr 1]
     /\ table_tuple C adv 4 = [d; fr 5; fr 6; length_code false 38%N; fr 0; fr 0].
Proof.
  intros short mode Hm. destruct (bn_build short) as (s & P & h & B & _).
  destruct (demo_loads bn256_c short s P h false 62 62 mode 5 twice_table B Hm) as (L1 & E & SU & HO).
  { intros _. cbn. lia. }
  { intros i ck _ H. rewrite twice_no_check in H. discriminate. }
  set (C := demo P s false 62 62) in *. set (u := demo_rows h 5 62) in *.
  set (L0 := layout_empty (demo_host (F := Fr))) in *. set (blind := fun _ _ : nat => fzero (F := Fr)).
  assert (SAT : satisfied u u (hc_cs C) L1 (honest u L1 blind)).
  { apply (complete_claim bn256_c C mode 5 twice_table L0 L1 L1 [] u u blind SU).
    - intros i. pose proof (twice_control_big i) as Hb. cbn [C demo hc_step hc_legacy].
      eapply Z.le_lt_trans; [|exact twice_bound]. apply Z.mul_le_mono_nonneg_r; [lia|]. lia.
    - split; [exact twice_wf|apply HO]. }
  destruct (build_facts _ _ _ _ _ B) as (_ & _ & HP & HS & _).
  assert (HC : host_columns C) by exact (proj1 SU).
  pose proof (fun i => honest_rows C _ h HC HP HS mode 5 twice_table L0 L1 L1 [] u blind (proj1 (proj2 SU)) ltac:(unfold u, demo_rows; lia) i) as R.
  cbv zeta in R.
  destruct (R 0 ltac:(lia)) as (A0 & B0 & C0 & D0 & H0 & _). destruct (R 1 ltac:(lia)) as (A1 & B1 & C1 & D1 & H1 & _).
  destruct (R 2 ltac:(lia)) as (A2 & B2 & C2 & D2 & H2 & G2 & _). destruct (R 3 ltac:(lia)) as (A3 & B3 & C3 & D3 & H3 & G3 & _).
  destruct (R 4 ltac:(lia)) as (_ & _ & _ & _ & H4 & _).
  clear R HP HS.
  specialize (G2 1 ltac:(lia) ltac:(intros j Hj; replace j with 2 by lia; reflexivity) ltac:(discriminate)).
  specialize (G3 0 ltac:(lia) ltac:(intros j Hj; lia) ltac:(discriminate)).
  cbn [C demo hc_legacy hc_range] in G2, G3. cbn [Nat.add] in G2, G3.
  rewrite <- G2 in G3. clear G2.
  set (adv := honest u L1 blind) in *. exists C, h, L0, L1, u, u, adv.
  split; [exact B|]. split; [reflexivity|]. split; [reflexivity|]. split; [reflexivity|]. split; [exact SU|].
  split; [exact SAT|]. clear SU SAT HO E HC. clearbody adv.
  assert (TT : forall r, table_tuple C adv r = [digest C adv r; in1 C adv r; in2 C adv r; control C adv r; domain C adv r; head C adv r]) by reflexivity.
  assert (K0 : head C adv 1 = fone) by exact H0. assert (K1 : head C adv 2 = fzero) by exact H1.
  assert (K2 : head C adv 3 = fone) by exact H2. assert (K3 : head C adv 4 = fzero) by exact H3. assert (K4 : head C adv 5 = fone) by exact H4.
  split.
  { assert (NZ : fzero (F := Fr) <> fone) by (intros X; apply f_1_neq_0; now symmetry).
    assert (MS : forall a b, message C adv 5 a b -> (a = 1 /\ b = 2) \/ (a = 3 /\ b = 4)).
    { intros a b (M1 & M2 & M3 & M4 & M5 & M6).
      assert (Ka : a = 1 \/ a = 2 \/ a = 3 \/ a = 4) by lia. destruct Ka as [Ka|[Ka|[Ka|Ka]]]; subst a.
      - assert (Kb : b = 1 \/ b = 2 \/ 2 < b) by lia. destruct Kb as [Kb|[Kb|Kb]].
        + subst b. exfalso. apply NZ. rewrite <- K1. exact M6.
        + now left.
        + exfalso. apply NZ. rewrite <- K2. symmetry. apply M5. lia.
      - exfalso. apply NZ. rewrite <- K1. exact M4.
      - assert (Kb : b = 3 \/ b = 4) by lia. destruct Kb as [Kb|Kb]; subst b; [|now right]. exfalso. apply NZ. rewrite <- K3. exact M6.
      - exfalso. apply NZ. rewrite <- K3. exact M4. }
    assert (SI : sponge_input C adv 1 2 = sponge_input C adv 3 4).
    { unfold sponge_input. cbn [Nat.sub seq map Nat.eqb]. rewrite A0, A1, A2, A3, B0, B1, B2, B3, C0, C2, D0, D1, D2, D3. reflexivity. }
    intros a b a' b' M M' _. apply MS in M, M'.
    destruct M as [[Ea Eb]|[Ea Eb]]; destruct M' as [[Ea' Eb']|[Ea' Eb']]; subst; first [reflexivity|exact SI|symmetry; exact SI]. }
  exists (digest C adv 3). split; [rewrite TT, A2, B2, C2, D2, K2; reflexivity|rewrite TT, A3, B3, C3, D3, K3, G3; reflexivity].
Qed.

(** C47: the same inputs with two different digests on the last row *)
Lemma ex_determined : forall short, exists (C : hash_circuit Fr) h adv adv',
  build bn256_c short (hc_spec C) (hc_chip C) h /\ hc_range C = 62 /\ hc_step C = 62 /\ hc_legacy C = false
  /\ accepted bn256_c C 4 adv /\ accepted bn256_c C 4 adv' /\ same_inputs C 4 adv adv' /\ digest C adv 4 <> digest C adv' 4.
Proof.
  intros short. destruct (ex_table short Serial I) as (C & h & L0 & L1 & n & u & B & R1 & R2 & R3 & SU & H).
  destruct (H (fun _ _ => fzero)) as (SAT & ACC & _ & _ & _ & HO). clear H. set (adv := honest u L1 (fun _ _ => fzero)) in *. clearbody adv.
  set (d := fadd (digest C adv 4) fone).
  pose proof (last_digest_claim bn256_c C Serial 4 demo_table L0 L1 L1 [] n u adv d SU ltac:(lia) SAT (HO _)) as SAT'.
  cbv zeta in SAT'. set (adv' := set_cell adv (nth 0 (hc_table C) 0) 4 d) in *.
  assert (HC : host_columns C) by exact (proj1 SU).
  exists C, h, adv, adv'. split; [exact B|]. split; [exact R1|]. split; [exact R2|]. split; [exact R3|]. split; [exact ACC|].
  split. { exists Serial, demo_table, L0, L1, L1, [], n, u. split; [exact SU|exact SAT']. }
  split.
  { intros r j Hr Hj. unfold tcell, adv', set_cell.
    destruct (Nat.eqb_spec (nth j (hc_table C) 0) (nth 0 (hc_table C) 0)) as [Q|Q]; [|reflexivity].
    exfalso. exact (table_cols_apart C HC j 0 ltac:(lia) ltac:(lia) ltac:(lia) Q). }
  assert (D : digest C adv' 4 = d). { unfold digest, tcell, adv', set_cell. rewrite !Nat.eqb_refl. reflexivity. }
  rewrite D. unfold d. intros X. exact (bump _ (eq_sym X)).
Qed.
