(** Concrete circuits with a hash table: instances of the hypotheses of PropertiesTable.v, and the witnesses of its
    refuted properties. *)
From Coq Require Import ZArith NArith List Arith Lia Bool.
From Verif Require Import Field Rust ListAux ZpField Primes Primitives Specs BaseHash Bn256 SpecHash BigSum Link Const_proof Base_claims BaseHash_proof
  Halo2 Layout_proof Septidon PermuteChip ChipUse Pow5 Contract Sept_claims SpongeTable TableUse TableInv_proof TableLoad_proof TableState_proof
  Table_claims TableLayout_claims TableBuild_claims ExamplesPow5 ExamplesBase.
Import ListNotations.
Local Open Scope nat_scope.

Section Demo.
  Context {F : Type} {FO : FieldOps F} {PF : PrimeField F}.

  (** a host with the 6 advice columns and the fixed column of the table, and nothing else *)
  Definition demo_host : cs F :=
    {| cs_adv := 6; cs_fix := 1; cs_sel := 0; cs_gates := []; cs_lookups := []; cs_eq := []; cs_const := [] |}.
  Definition demo (P : permute_chip F) (s : spec F) (legacy : bool) (range step : nat) : hash_circuit F :=
    {| hc_legacy := legacy; hc_chip := P; hc_spec := s; hc_range := range; hc_host := demo_host; hc_enable := 0;
       hc_table := [0; 1; 2; 3; 4; 5]; hc_step := step |}.

  Lemma demo_columns : forall P s legacy range step, host_columns (demo P s legacy range step).
  Proof.
    intros. unfold host_columns. cbn [demo hc_enable hc_host demo_host cs_fix cs_adv hc_table]. split; [lia|]. split; [reflexivity|].
    split; [|repeat (apply Forall_cons; [lia|]); apply Forall_nil].
    repeat (constructor; [cbn [In]; lia|]). constructor.
  Qed.
  Lemma empty_free : forall (C : hash_circuit F), table_free C (layout_empty demo_host).
  Proof.
    intros C. split; [|intros v []]. split; [reflexivity|]. split; [intros ? ? ? []|]. split; [intros ? ? ? []|intros ? ? []].
  Qed.

  Add Field Ffield : f_field.
  Lemma bump : forall x : F, fadd x fone <> x.
  Proof.
    intros x E. apply f_1_neq_0. apply (fadd_cancel_l _ _ x). rewrite E. ring.
  Qed.

  Definition demo_rows (h calcs range : nat) : nat := h * calcs + calcs + range + 1.

  Lemma demo_loads : forall c short s P h legacy range step mode calcs t, build c short s P h -> mode_ok mode ->
    (mode = Serial -> table_size t <= calcs /\ length (ht_controls t) <= calcs) ->
    (forall i ck, i < calcs -> row_check t i = Some ck -> ck = nth 0 (row_state (poseidon_permutation c) legacy range t i) fzero) ->
    let C := demo P s legacy range step in let u := demo_rows h calcs range in
    exists L1, hc_load C mode calcs t (layout_empty demo_host) = Ok (L1, tt)
      /\ set_up c C mode calcs t (layout_empty demo_host) L1 L1 [] u u
      /\ forall adv, host_ok C (layout_empty demo_host) L1 [] u u adv.
  Proof.
    intros c short s P h legacy range step mode calcs t B Hm Hf Hck C u.
    assert (HC : host_columns C) by apply demo_columns.
    assert (TF : table_free C (layout_empty demo_host)) by apply empty_free.
    destruct (checks_claim c C short h mode calcs t (layout_empty demo_host) B HC TF Hm Hf) as (Q1 & Q2 & _).
    destruct Q1 as [[L1 E]|Q1].
    2:{ exfalso. apply Q2 in Q1. destruct Q1 as (i & ck & Hi & Hk & Hne). apply Hne. exact (Hck i ck Hi Hk). }
    exists L1. split; [exact E|]. split.
    - split; [exact HC|]. split.
      { split; [exact TF|]. split; [exact Hm|]. split; [exact E|]. split; [|exists []; symmetry; apply app_nil_r].
        exists [], [], [], []. rewrite !app_nil_r. split; [reflexivity|]. split; [reflexivity|].
        split; [reflexivity|]. split; [intros ? ? ? []|]. split; [reflexivity|]. split; [intros ? ? ? []|].
        split; [reflexivity|]. split; [intros ? ? []|reflexivity]. }
      split. { exists short, h. split; [exact B|]. unfold u, demo_rows. lia. }
      unfold u, demo_rows. cbn [C demo hc_range]. split; [lia|]. split; lia.
    - intros adv. split; [intros g r []|]. split; [intros e tt r []|intros a b []].
  Qed.
End Demo.

(** ** BN254, both builds *)
Lemma bn_builds : forall base short, exists s, cached_hash_spec base bn256_c = Ok s /\ exists P, build bn256_c short s P (if short then 8 else 38).
Proof.
  intros base short. destruct (cached_spec_exists base bn256_c bn256_ok) as [s Hs]. exists s. split; [exact Hs|]. destruct short.
  - exists (septidon_chip (round_constants s) (mds s)). exact (build_short bn256_c base s bn256_ok eq_refl Hs).
  - assert (X : exists p, spec_type base bn256_c = Ok p).
    { destruct base; [exact (compact_spec_exists bn256_c bn256_ok)|eexists; reflexivity]. }
    destruct X as [p Hp]. exists (pow5_chip p).
    exact (build_long bn256_c base s p bn256_ok (proj1 bn256_mds_inverse) (proj2 bn256_mds_inverse) Hs Hp).
Qed.
Lemma bn_build : forall short, exists s P h, build bn256_c short s P h /\ (if short then h = 8 else h = 38).
Proof.
  intros short. destruct (bn_builds true short) as (s & _ & P & B). exists s, P, (if short then 8 else 38). split; [exact B|]. now destruct short.
Qed.

(** two words with a domain, then a message of two rows *)
Definition demo_calls : list (builder_call (F := Fr)) :=
  [FixedInputs [((fr 1, fr 2), fr 7, None)]; StreamInputs [(fr 3, fr 4); (fr 5, fr 6)] None 100%N 62].
Definition demo_table : hash_table Fr :=
  {| ht_inputs := [(fr 1, fr 2); (fr 3, fr 4); (fr 5, fr 6)]; ht_controls := [0; 100; 38]%N;
     ht_domain := [Some (fr 7); None; None]; ht_checks := [None; None; None] |}.
Lemma demo_built : builder_runs demo_calls empty_table = Ok demo_table.
Proof. reflexivity. Qed.
Lemma demo_no_check : forall i, row_check demo_table i = None.
Proof. intros i. unfold row_check, demo_table. cbn [ht_checks]. do 3 (destruct i as [|i]; [reflexivity|]). destruct i; reflexivity. Qed.
Lemma demo_control_big : forall i, (row_control demo_table i <= 100)%N.
Proof. intros i. unfold row_control, demo_table. cbn [ht_controls]. do 3 (destruct i as [|i]; [cbn; lia|]). destruct i; cbn; lia. Qed.
Lemma demo_wf : well_formed 62 62 4 demo_table.
Proof.
  split.
  - intros i Hi. assert (K : i = 0 \/ i = 1 \/ i = 2) by lia. destruct K as [K|[K|K]]; subst i; unfold row_control, demo_table;
      cbn [ht_controls nth]; intros H; try (exfalso; cbn in H; lia).
    split; [reflexivity|]. split; [discriminate|reflexivity].
  - intros _. split; reflexivity.
Qed.
Lemma demo_bound : (Z.of_nat (4 * 62 + 62) * 2 ^ 64 < modulus (F := Fr))%Z.
Proof. eapply Z.lt_le_trans; [|exact ex_modulus]. reflexivity. Qed.

(** the circuit filled with that table, and its honest witness *)
Lemma ex_table : forall short mode, mode_ok mode -> exists (C : hash_circuit Fr) h L0 L1 n u,
  build bn256_c short (hc_spec C) (hc_chip C) h /\ hc_range C = 62 /\ hc_step C = 62 /\ hc_legacy C = false
  /\ set_up bn256_c C mode 4 demo_table L0 L1 L1 [] n u
  /\ forall blind, let adv := honest u L1 blind in
     satisfied n u (hc_cs C) L1 adv /\ accepted bn256_c C 4 adv
     /\ map (fun r => (in1 C adv r, in2 C adv r, domain C adv r, head C adv r)) [1; 2; 3; 4]
        = [(fr 1, fr 2, fr 7, fr 1); (fr 3, fr 4, fr 0, fr 1); (fr 5, fr 6, fr 0, fr 0); (fr 0, fr 0, fr 0, fr 1)]
     /\ message C adv 4 1 1 /\ message C adv 4 2 3
     /\ (forall adv', host_ok C L0 L1 [] n u adv').
Proof.
  intros short mode Hm. destruct (bn_build short) as (s & P & h & B & _).
  destruct (demo_loads bn256_c short s P h false 62 62 mode 4 demo_table B Hm) as (L1 & E & SU & HO).
  { intros _. cbn. lia. }
  { intros i ck _ H. rewrite demo_no_check in H. discriminate. }
  set (C := demo P s false 62 62) in *. set (u := demo_rows h 4 62) in *.
  exists C, h, (layout_empty demo_host), L1, u, u.
  split; [exact B|]. split; [reflexivity|]. split; [reflexivity|]. split; [reflexivity|]. split; [exact SU|].
  intros blind adv.
  assert (SAT : satisfied u u (hc_cs C) L1 adv).
  { apply (complete_claim bn256_c C mode 4 demo_table (layout_empty demo_host) L1 L1 [] u u blind SU).
    - intros i. pose proof (demo_control_big i) as Hb. cbn [C demo hc_step hc_legacy].
      eapply Z.le_lt_trans; [|exact demo_bound]. apply Z.mul_le_mono_nonneg_r; [lia|]. lia.
    - split; [exact demo_wf|apply HO]. }
  destruct (build_facts _ _ _ _ _ B) as (_ & _ & HP & HS & _).
  pose proof SU as SU'. destruct SU' as (HC & HL & _ & Hu & _).
  pose proof (fun i => honest_rows C _ h HC HP HS mode 4 demo_table (layout_empty demo_host) L1 L1 [] u blind HL Hu i) as R.
  fold adv in R. cbv zeta in R.
  destruct (R 0 ltac:(lia)) as (A0 & B0 & _ & D0 & H0 & _). destruct (R 1 ltac:(lia)) as (A1 & B1 & _ & D1 & H1 & _).
  destruct (R 2 ltac:(lia)) as (A2 & B2 & _ & D2 & H2 & _). destruct (R 3 ltac:(lia)) as (A3 & B3 & _ & D3 & H3 & _).
  clear R SU HL HP HS HC.
  assert (K0 : head C adv 1 = fone) by exact H0. assert (K1 : head C adv 2 = fone) by exact H1.
  assert (K2 : head C adv 3 = fzero) by exact H2. assert (K3 : head C adv 4 = fone) by exact H3.
  split; [exact SAT|]. split.
  { exists mode, demo_table, (layout_empty demo_host), L1, L1, [], u, u. split; [|exact SAT].
    destruct (demo_loads bn256_c short s P h false 62 62 mode 4 demo_table B Hm) as (L1' & E' & SU & _).
    { intros _. cbn. lia. }
    { intros i ck _ H. rewrite demo_no_check in H. discriminate. }
    fold C in E'. rewrite E in E'. injection E' as <-. exact SU. }
  split. { cbn [map]. rewrite A0, B0, D0, K0, A1, B1, D1, K1, A2, B2, D2, K2, A3, B3, D3, K3. reflexivity. }
  split. { unfold message. split; [lia|]. split; [lia|]. split; [lia|]. split; [exact K0|]. split; [intros i Hi; lia|exact K1]. }
  split. { unfold message. split; [lia|]. split; [lia|]. split; [lia|]. split; [exact K1|]. split; [|exact K3].
           intros i Hi. replace i with 3 by lia. exact K2. }
  exact HO.
Qed.

(** ** Witnesses of what fails *)

(** C30: the last row with another digest *)
Lemma last_row_witness : forall short, exists (C : hash_circuit Fr) h adv,
  build bn256_c short (hc_spec C) (hc_chip C) h /\ accepted bn256_c C 4 adv /\ head C adv 4 = fr 1
  /\ hash_with_domain (hc_spec C) (in1 C adv 4, in2 C adv 4) (fadd (control C adv 4) (domain C adv 4)) <> Ok (digest C adv 4).
Proof.
  intros short. destruct (ex_table short Serial I) as (C & h & L0 & L1 & n & u & B & _ & _ & _ & SU & H).
  destruct (H (fun _ _ => fzero)) as (SAT & _ & _ & _ & _ & HO). clear H. set (adv := honest u L1 (fun _ _ => fzero)) in *. clearbody adv.
  set (g := hash_with_domain (hc_spec C) (in1 C adv 4, in2 C adv 4) (fadd (control C adv 4) (domain C adv 4))).
  set (d := match g with Ok v => fadd v fone | Panic => fzero end).
  assert (Hd : g <> Ok d).
  { unfold d. clearbody g. clear. destruct g as [v|]; [|discriminate]. intros E. injection E as E. exact (bump v (eq_sym E)). }
  pose proof (last_digest_claim bn256_c C Serial 4 demo_table L0 L1 L1 [] n u adv d SU ltac:(lia) SAT (HO _)) as SAT'.
  cbv zeta in SAT'. set (adv' := set_cell adv (nth 0 (hc_table C) 0) 4 d) in *.
  assert (HC : host_columns C) by exact (proj1 SU).
  assert (T : forall j, j < 6 -> j <> 0 -> tcell C adv' j 4 = tcell C adv j 4).
  { intros j Hj Hn. unfold tcell, adv', set_cell.
    destruct (Nat.eqb_spec (nth j (hc_table C) 0) (nth 0 (hc_table C) 0)) as [E|E]; [|reflexivity].
    exfalso. exact (table_cols_apart C HC j 0 Hj ltac:(lia) Hn E). }
  assert (ACC : accepted bn256_c C 4 adv').
  { exists Serial, demo_table, L0, L1, L1, [], n, u. split; [exact SU|exact SAT']. }
  exists C, h, adv'. split; [exact B|]. split; [exact ACC|].
  split. { exact (proj2 (proj2 (proj2 (last_row_claim bn256_c C 4 adv' ACC ltac:(lia))))). }
  unfold in1, in2, control, domain. rewrite !T by lia.
  assert (D : digest C adv' 4 = d). { unfold digest, tcell, adv', set_cell. rewrite !Nat.eqb_refl. reflexivity. }
  rewrite D. exact Hd.
Qed.

(** C33: 3 rows fill a table of 2 *)
Lemma excess_witness : forall short threads, 0 < threads -> exists (C : hash_circuit Fr) h L0 L1,
  build bn256_c short (hc_spec C) (hc_chip C) h /\ host_columns C /\ table_free C L0
  /\ 2 < table_size demo_table /\ hc_load C (Parallel threads) 2 demo_table L0 = Ok (L1, tt).
Proof.
  intros short threads Ht. destruct (bn_build short) as (s & P & h & B & _).
  destruct (demo_loads bn256_c short s P h false 62 62 (Parallel threads) 2 demo_table B Ht) as (L1 & E & _).
  { discriminate. }
  { intros i ck _ H. rewrite demo_no_check in H. discriminate. }
  exists (demo P s false 62 62), h, (layout_empty demo_host), L1. split; [exact B|]. split; [apply demo_columns|].
  split; [apply empty_free|]. split; [cbn; lia|exact E].
Qed.

(** C44: the next region of the host writes over the digest of row 1 *)
Lemma overwritten_witness : forall short threads, 0 < threads -> exists (C : hash_circuit Fr) h L0 L1 L2 n u,
  build bn256_c short (hc_spec C) (hc_chip C) h
  /\ set_up bn256_c C (Parallel threads) 4 demo_table L0 L1 L1 [] n u
  /\ later_regions L1 L2
  /\ forall blind, satisfied n u (hc_cs C) L1 (honest u L1 blind)
     /\ digest C (honest u L2 blind) 1 <> digest C (honest u L1 blind) 1.
Proof.
  intros short threads Ht. destruct (ex_table short (Parallel threads) Ht) as (C & h & L0 & L1 & n & u & B & _ & _ & _ & SU & H).
  set (old := match last_write (lo_adv L1) (nth 0 (hc_table C) 0) 1 with Some (Some v) => v | _ => fzero end).
  pose proof SU as (HC & (TF & _ & E & _) & _ & Hu & _).
  destruct (overwritten_claim bn256_c C short h threads 4 demo_table L0 L1 (Some (fadd old fone)) B HC TF Ht E) as (L2 & a & E2 & W).
  exists C, h, L0, L1, L2, n, u. split; [exact B|]. split; [exact SU|].
  split; [exact (later_region _ _ _ _ _ _ (later_none _) E2)|].
  intros blind. split; [exact (proj1 (H blind))|].
  unfold digest, tcell, honest. replace (1 <? u) with true by (symmetry; apply Nat.ltb_lt; lia). rewrite W. fold old.
  apply bump.
Qed.

(** ** Further instances *)

(** C37: one row, far from its end *)
Lemma ex_stream : exists t', stream_inputs_with_check [(fr 3, fr 4)] None 200%N 62 (@empty_table Fr) = Ok t'
  /\ row_control t' 0 = 200%N /\ (62 < 200)%N.
Proof. eexists. split; [reflexivity|]. split; reflexivity. Qed.

(** constant_inputs leaves the controls behind, fixed_inputs (even without rows) catches up *)
Lemma ex_session : let msg := StreamInputsUnchecked [(fr 3, fr 4); (fr 5, fr 6)] 100%N 62 in let two := ConstantInputs [(fr 1, fr 2)] in
  (exists t, builder_runs [msg; two] empty_table = Ok t) /\ builder_runs [two; msg] empty_table = Panic
  /\ exists t, builder_runs [two; FixedInputs []; msg] empty_table = Ok t.
Proof. cbv zeta. split; [eexists; reflexivity|]. split; [reflexivity|eexists; reflexivity]. Qed.
(** the example of the README: a message of 19 words, in 10 pairs *)
Lemma ex_readme : forall src : list (Fr * Fr), length src = 10 ->
  (exists t, stream_inputs src 19 2 empty_table = Ok t /\ row_control t 9 = 1%N)
  /\ forall c, (exists t, stream_inputs src c 32 empty_table = Ok t /\ (row_control t 9 <= 32)%N) <-> (289 <= c <= 320)%N.
Proof.
  intros src Hs. unfold stream_inputs. split.
  - destruct (stream_claim src None 19 2 empty_table) as [Q1 Q2]. rewrite Hs in *.
    destruct (proj2 Q1) as [t Ht]; [split; [reflexivity|]; split; [lia|]; right; reflexivity|].
    exists t. split; [exact Ht|]. destruct (Q2 t Ht) as [Q _]. exact (Q 9 ltac:(lia)).
  - intros c. destruct (stream_claim src None c 32 empty_table) as [Q1 Q2]. rewrite Hs in *.
    change (10 - 1) with 9 in *. change (table_size empty_table + 9) with 9 in Q2. split.
    + intros (t & Ht & Hc). destruct (proj1 Q1 (ex_intro _ t Ht)) as (_ & _ & [X|X]); [discriminate|].
      destruct (Q2 t Ht) as [_ Q]. apply Q in Hc. change (N.of_nat (9 * 32)) with 288%N in X. change (N.of_nat (10 * 32)) with 320%N in Hc. lia.
    + intros Hc. destruct (proj2 Q1) as [t Ht].
      { split; [reflexivity|]. split; [lia|]. right. change (N.of_nat (9 * 32)) with 288%N. lia. }
      exists t. split; [exact Ht|]. apply (Q2 t Ht). change (N.of_nat (10 * 32)) with 320%N. lia.
Qed.

(** C39: only the hash passes as the check *)
Definition check_table (ck : Fr) : hash_table Fr :=
  {| ht_inputs := [(fr 1, fr 2)]; ht_controls := [0%N]; ht_domain := []; ht_checks := [Some ck] |}.
Lemma check_built : forall ck, builder_runs [ConstantInputsWithCheck [((fr 1, fr 2), ck)]] empty_table = Ok (check_table ck).
Proof. reflexivity. Qed.
Lemma ex_check : forall short mode, mode_ok mode -> exists (C : hash_circuit Fr) h L0,
  build bn256_c short (hc_spec C) (hc_chip C) h /\ host_columns C /\ table_free C L0
  /\ (exists L1, hc_load C mode 2 (check_table (two_word_hash bn256_c (fr 1) (fr 2) (fr 0))) L0 = Ok (L1, tt))
  /\ forall ck, ck <> two_word_hash bn256_c (fr 1) (fr 2) (fr 0) -> hc_load C mode 2 (check_table ck) L0 = Panic.
Proof.
  intros short mode Hm. destruct (bn_build short) as (s & P & h & B & _). set (C := demo P s false 62 62).
  exists C, h, (layout_empty demo_host). split; [exact B|]. split; [apply demo_columns|]. split; [apply empty_free|].
  assert (St : forall ck, nth 0 (row_state (poseidon_permutation bn256_c) false 62 (check_table ck) 0) fzero
                          = two_word_hash bn256_c (fr 1) (fr 2) (fr 0)) by reflexivity.
  split.
  - set (ck := two_word_hash bn256_c (fr 1) (fr 2) (fr 0)) in *. clearbody ck.
    destruct (demo_loads bn256_c short s P h false 62 62 mode 2 (check_table ck) B Hm) as (L1 & E & _).
    { intros _. cbn. lia. }
    { intros [|i] k _ H; [|destruct i; discriminate H]. rewrite St. cbn in H. injection H as H. now symmetry. }
    exists L1. exact E.
  - intros ck Hk.
    apply (checks_claim bn256_c C short h mode 2 (check_table ck) (layout_empty demo_host) B (demo_columns _ _ _ _ _)
             (empty_free _) Hm ltac:(intros _; cbn; lia)).
    exists 0, ck. split; [lia|]. split; [reflexivity|]. cbn [C demo hc_legacy hc_range]. rewrite St. exact Hk.
Qed.

(** C38, C40: [demo_table] is built by calls of the right size and fits in 4 rows *)
Lemma ex_contents : builder_runs demo_calls empty_table = Ok demo_table /\ Forall (sized 62 62) demo_calls
  /\ table_size demo_table = 3
  /\ forall short mode, mode_ok mode -> exists (C : hash_circuit Fr) h L0 L1 n u,
       build bn256_c short (hc_spec C) (hc_chip C) h /\ hc_range C = 62 /\ hc_step C = 62 /\ set_up bn256_c C mode 4 demo_table L0 L1 L1 [] n u.
Proof.
  split; [exact demo_built|]. split.
  { repeat (apply Forall_cons); [exact I| |apply Forall_nil]. split; [reflexivity|]. cbn. lia. }
  split; [reflexivity|]. intros short mode Hm. destruct (ex_table short mode Hm) as (C & h & L0 & L1 & n & u & B & R & S & _ & SU & _).
  exists C, h, L0, L1, n, u. split; [exact B|]. split; [exact R|]. split; [exact S|exact SU].
Qed.

(** C40: the Pow5 chip with feature "short" of poseidon-base *)
Lemma ex_budget : forall mode, mode_ok mode -> exists (C : hash_circuit Fr) L0 L1,
  cached_hash_spec true bn256_c = Ok (hc_spec C) /\ build bn256_c false (hc_spec C) (hc_chip C) 38
  /\ host_columns C /\ table_free C L0 /\ hc_load C mode 3 demo_table L0 = Ok (L1, tt)
  /\ table_size demo_table = 3 /\ minimum_row_require true (hc_spec C) demo_table = 27
  /\ (forall u, fits u L0) /\ forall u, fits u L1 <-> 114 <= u.
Proof.
  intros mode Hm. destruct (bn_builds true false) as (s & Hs & P & B). cbn iota in B.
  destruct (demo_loads bn256_c false s P 38 false 62 62 mode 3 demo_table B Hm) as (L1 & E & _).
  { intros _. cbn. lia. }
  { intros i ck _ H. rewrite demo_no_check in H. discriminate. }
  destruct (budget_claim bn256_c (demo P s false 62 62) false true 38 mode 3 demo_table (layout_empty demo_host) L1 B
    (demo_columns _ _ _ _ _) (empty_free _) Hm E) as (_ & _ & S1 & S2 & S3 & _ & _ & Fi & _).
  exists (demo P s false 62 62), (layout_empty demo_host), L1. split; [exact Hs|]. split; [exact B|]. split; [apply demo_columns|].
  split; [apply empty_free|]. split; [exact E|]. split; [reflexivity|]. split; [rewrite S2, S1; reflexivity|].
  assert (F0 : forall u, fits (F := Fr) u (layout_empty demo_host)) by (intros u; repeat split; intros; contradiction).
  split; [exact F0|]. intros u. rewrite Fi. cbn [demo hc_range]. split; [lia|]. intros H. split; [apply F0|lia].
Qed.

(** C35: two tables for the same circuit *)
Lemma ex_key : forall short mode mode', mode_ok mode -> mode_ok mode' -> exists (C : hash_circuit Fr) h L0 L1 L1',
  build bn256_c short (hc_spec C) (hc_chip C) h /\ host_columns C /\ table_free C L0
  /\ hc_load C mode 4 demo_table L0 = Ok (L1, tt) /\ hc_load C mode' 4 empty_table L0 = Ok (L1', tt).
Proof.
  intros short mode mode' Hm Hm'. destruct (bn_build short) as (s & P & h & B & _).
  destruct (demo_loads bn256_c short s P h false 62 62 mode 4 demo_table B Hm) as (L1 & E & _).
  { intros _. cbn. lia. }
  { intros i ck _ H. rewrite demo_no_check in H. discriminate. }
  destruct (demo_loads bn256_c short s P h false 62 62 mode' 4 empty_table B Hm') as (L1' & E' & _).
  { intros _. cbn. lia. }
  { intros [|i] ck _ H; discriminate H. }
  exists (demo P s false 62 62), h, (layout_empty demo_host), L1, L1'. split; [exact B|]. split; [apply demo_columns|].
  split; [apply empty_free|]. split; [exact E|exact E'].
Qed.

(** C44: after a serial load the host does use the digest column again *)
Lemma ex_reserved : forall short v, exists (C : hash_circuit Fr) h L0 L1 L2,
  build bn256_c short (hc_spec C) (hc_chip C) h /\ host_columns C /\ table_free C L0
  /\ hc_load C Serial 4 demo_table L0 = Ok (L1, tt) /\ later_regions L1 L2
  /\ exists r, In (nth 0 (hc_table C) 0, r, v) (lo_adv L2).
Proof.
  intros short v. destruct (bn_build short) as (s & P & h & B & _).
  destruct (demo_loads bn256_c short s P h false 62 62 Serial 4 demo_table B I) as (L1 & E & _).
  { intros _. cbn. lia. }
  { intros i ck _ H. rewrite demo_no_check in H. discriminate. }
  exists (demo P s false 62 62), h, (layout_empty demo_host), L1. eexists. split; [exact B|]. split; [apply demo_columns|].
  split; [apply empty_free|]. split; [exact E|]. split.
  { eapply later_region; [apply later_none|]. apply (assign_region_ok (assign_advice 0 0 v)); reflexivity. }
  eexists. cbn [commit lo_adv reserve]. apply in_or_app. right. left. reflexivity.
Qed.
