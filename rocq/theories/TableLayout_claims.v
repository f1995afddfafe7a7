(** The lemmas behind C33, C34, C35, C39, C40 and C44 in PropertiesTable.v: what [load] lays out. *)
From Coq Require Import ZArith NArith List Arith Lia Bool.
From Verif Require Import Field Rust ListAux Primitives Specs BaseHash SpecHash BigSum Link Base_claims Halo2 Septidon PermuteChip
  ChipUse Pow5 Layout_proof Contract Stack_proof SpongeTable TableRows_proof TableLoad_proof TableUse
  TableInv_proof TableGate_proof TableSound_proof TableVals_proof TableHonest_proof TableSat_proof TableState_proof Table_claims.
Import ListNotations.
Local Open Scope nat_scope.

Section Rows.
  Context {F : Type} {FO : FieldOps F}.
  Variable D : chip_data (F := F).
  Variable perm : list F -> list F.
  Hypothesis Laws : chip_laws D perm.
  Notation h := (cd_h D).

  Lemma stack_adv_rows : forall wss t c r v, In (c, r, v) (stack_adv D t wss) -> r < h * length wss + t.
  Proof.
    induction wss as [|ws wss IH]; intros t c r v H; [destruct H|]. cbn [stack_adv length] in *. apply in_app_or in H. destruct H as [H|H].
    - apply in_map_iff in H. destruct H as ([[c' o] w] & E & H). apply (law_adv_rows D perm Laws) in H. cbn in E. injection E as _ <- _. lia.
    - apply IH in H. lia.
  Qed.
  Lemma stack_adv_last : forall wss t, wss <> [] -> exists c v, In (c, h * length wss + t - 1, v) (stack_adv D t wss).
  Proof.
    induction wss as [|ws [|ws' r] IH]; intros t H; [now destruct H| |].
    - destruct (law_last D perm Laws (word_vals ws)) as (c & w & X). destruct (law_in D perm Laws 0 ltac:(lia)) as [_ Hp].
      exists (0 + c), w. cbn [stack_adv length]. apply in_or_app. left. apply in_map_iff. exists (c, h - 1, w). split; [|exact X].
      cbn. rewrite Nat.add_0_r. f_equal. f_equal. lia.
    - destruct (IH (h + t) ltac:(discriminate)) as (c & v & X). exists c, v.
      replace (h * length (ws :: ws' :: r) + t - 1) with (h * length (ws' :: r) + (h + t) - 1) by (cbn [length]; lia).
      change (stack_adv D t (ws :: ws' :: r)) with (map (moved 0 t) (cd_adv D (word_vals ws)) ++ stack_adv D (h + t) (ws' :: r)).
      apply in_or_app. now right.
  Qed.
  Lemma in_stack_adv_own : forall wss t c r v, In (c, r, v) (stack_adv D t wss) -> cd_own D (Adv c).
  Proof.
    induction wss as [|ws wss IH]; intros t c r v H; [destruct H|]. cbn [stack_adv] in *. apply in_app_or in H. destruct H as [H|H].
    - apply in_map_iff in H. destruct H as ([[c' o] w] & E & H). apply (law_adv_rows D perm Laws) in H. cbn in E. injection E as <- _ _. rewrite Nat.add_0_r. apply H.
    - eapply IH; eassumption.
  Qed.
  Lemma stack_fix_rows : forall k t c r v, In (c, r, v) (stack_fix D t k) -> r < h * k + t.
  Proof.
    induction k as [|k IH]; intros t c r v H; [destruct H|]. cbn [stack_fix] in *. apply in_app_or in H. destruct H as [H|H].
    - apply in_map_iff in H. destruct H as ([[c' o] w] & E & H). apply (law_fix_rows D perm Laws) in H. cbn in E. injection E as _ <- _. lia.
    - apply IH in H. lia.
  Qed.
  Lemma stack_sel_rows : forall k t c r, In (c, r) (stack_sel D t k) -> r < h * k + t.
  Proof.
    intros k t c r H. apply stack_sel_in in H. destruct H as (i & o & Hi & H & ->). apply (law_sel_rows D perm Laws) in H.
    assert (h * i + h <= h * k) by nia. lia.
  Qed.

  (** positions do not depend on values *)
  Lemma stack_out_cells : forall x y t, length x = length y -> map (map fst) (stack_out D t x) = map (map fst) (stack_out D t y).
  Proof.
    induction x as [|a x IH]; intros [|b y] t H; try discriminate; [reflexivity|]. cbn [stack_out map]. f_equal.
    apply IH. now injection H.
  Qed.
  Lemma stack_copy_cells : forall st x y t, map (map ac_cell) x = map (map (ac_cell (F := F))) y -> stack_copy D st t x = stack_copy D st t y.
  Proof.
    intros st. induction x as [|a x IH]; intros [|b y] t H; cbn [map] in *; try discriminate; [reflexivity|].
    injection H as H1 H2. cbn [stack_copy]. f_equal; [|now apply IH]. unfold block_copy.
    generalize (seq 0 3). clear - H1. revert b H1. induction a as [|w a IH]; intros [|w' b] H1 [|j l];
      cbn [map combine] in *; try discriminate; try reflexivity.
    injection H1 as E1 E3. rewrite (IH b E3). f_equal. now rewrite E1.
  Qed.
  Lemma final_pairs_cells : forall (a a' b b' : list (list ((column * nat) * option F))),
    map (map fst) a = map (map fst) a' -> map (map fst) b = map (map fst) b' -> final_pairs a b = final_pairs a' b'.
  Proof.
    assert (K : forall (a b : list (list ((column * nat) * option F))), final_pairs a b = flat_map (fun '(o, f) => combine o f) (combine (map (map fst) a) (map (map fst) b))).
    { intros a b. unfold final_pairs. rewrite combine_map2. rewrite flat_map_concat_map, (flat_map_concat_map _ (map _ _)), map_map.
      f_equal. apply map_ext. intros [o f]. reflexivity. }
    intros a a' b b' H1 H2. now rewrite !K, H1, H2.
  Qed.
End Rows.

Section Cells.
  Context {F : Type} {FO : FieldOps F}.
  Variables (legacy : bool) (P : permute_chip F) (STEP : nat) (s : spec F) (cfg : sponge_config P).
  Lemma rows_in_cells : forall x y ri o lp lp', length x = length y ->
    map (map ac_cell) (rows_in legacy P STEP s cfg ri o lp x) = map (map ac_cell) (rows_in legacy P STEP s cfg ri o lp' y).
  Proof.
    induction x as [|a x IH]; intros [|b y] ri o lp lp' H; try discriminate; [reflexivity|]. injection H as H.
    cbn [TableRows_proof.rows_in map]. now rewrite (IH y ri (S o) _ (r_next legacy STEP s o lp' b) H).
  Qed.
  Lemma rows_out_cells : forall x y ri o lp lp', length x = length y ->
    map (map ac_cell) (rows_out legacy P STEP s cfg ri o lp x) = map (map ac_cell) (rows_out legacy P STEP s cfg ri o lp' y).
  Proof.
    induction x as [|a x IH]; intros [|b y] ri o lp lp' H; try discriminate; [reflexivity|]. injection H as H.
    cbn [TableRows_proof.rows_out map]. now rewrite (IH y ri (S o) _ (r_next legacy STEP s o lp' b) H).
  Qed.
  Lemma main_written : forall rows i r o lp j, nth_error rows i = Some r -> 1 <= j < 6 ->
    exists v, In (col (sc_table cfg) j, i + o, v) (rows_writes legacy P STEP s cfg o lp rows).
  Proof.
    induction rows as [|a rows IH]; intros [|i] r o lp j Hr Hj; cbn [nth_error] in Hr; try discriminate; cbn [rows_writes].
    - unfold row_writes, main_cells. cbn [map app Nat.add].
      destruct j as [|[|[|[|[|[|j]]]]]]; [lia| | | | | |lia]; eexists; do 6 right; cbn [In];
        repeat (first [left; reflexivity|right]).
    - destruct (IH i r (S o) (r_next legacy STEP s o lp a) j Hr Hj) as [v H]. exists v. apply in_or_app. right.
      now rewrite <- plus_n_Sm in H.
  Qed.
  Lemma at_cells : forall st (x y : list (list (acell F))), map (map ac_cell) x = map (map ac_cell) y ->
    map (map fst) (at_ st x) = map (map fst) (at_ st y).
  Proof.
    intros st x y H. assert (K : forall x, map (map fst) (at_ st x) = map (map (abs_cell st)) (map (map (ac_cell (F := F))) x)).
    { intros z. unfold at_. rewrite !map_map. apply map_ext. intros l. rewrite !map_map. reflexivity. }
    now rewrite !K, H.
  Qed.
End Cells.

Section Claims.
  Context {F : Type} {FO : FieldOps F} {PF : PrimeField F}.

  Definition fits_table (calcs : nat) (t : hash_table F) : Prop := table_size t <= calcs /\ length (ht_controls t) <= calcs.
  Lemma serial_fits_iff : forall calcs t, serial_fits calcs t = true <-> fits_table calcs t.
  Proof. intros calcs t. unfold serial_fits, fits_table, table_size. rewrite andb_true_iff, !Nat.leb_le. reflexivity. Qed.

  (** what [load] returns *)
  Lemma load_outcome : forall c (C : hash_circuit F) short h mode calcs t L0, build c short (hc_spec C) (hc_chip C) h -> host_columns C ->
    table_free C L0 -> mode_ok mode ->
    (accept (hc_legacy C) (hc_range C) (hc_spec C) mode calcs t = false -> hc_load C mode calcs t L0 = Panic)
    /\ (accept (hc_legacy C) (hc_range C) (hc_spec C) mode calcs t = true ->
        exists L1, hc_load C mode calcs t L0 = Ok (L1, tt)).
  Proof.
    intros c C short h mode calcs t L0 B HC TF Hm. destruct (build_facts _ _ _ _ _ B) as (_ & _ & HP & _ & _).
    destruct (chip_is_here C _ h HC HP) as (D & HD).
    pose proof (load_result C _ h HC D mode calcs t L0 HD Hm TF) as R.
    destruct (accept _ _ _ mode calcs t).
    - split; [discriminate|]. intros _. destruct R as (L1 & _ & _ & E & _). eauto.
    - split; [intros _; exact R|discriminate].
  Qed.
  Lemma load_facts_of : forall c (C : hash_circuit F) short h mode calcs t L0 L1, build c short (hc_spec C) (hc_chip C) h -> host_columns C ->
    table_free C L0 -> mode_ok mode -> hc_load C mode calcs t L0 = Ok (L1, tt) ->
    forall D, chip_here C (poseidon_permutation c) h D ->
    accept (hc_legacy C) (hc_range C) (hc_spec C) mode calcs t = true /\ exists ins finals, load_facts C h D mode calcs t L0 L1 ins finals /\ final_facts C D mode calcs t L0 L1 [] ins finals.
  Proof.
    intros c C short h mode calcs t L0 L1 B HC U Hm E D HD.
    apply (loaded_final C _ h HC D mode calcs t L0 L1 L1 [] HD). split; [assumption|]. split; [assumption|]. split; [assumption|].
    split; [|exists []; now rewrite app_nil_r].
    exists [], [], [], []. rewrite !app_nil_r. split; [reflexivity|]. split; [reflexivity|].
    split; [reflexivity|]. split; [intros ? ? ? []|]. split; [reflexivity|]. split; [intros ? ? ? []|].
    split; [reflexivity|]. split; [intros ? ? []|reflexivity].
  Qed.

  Lemma checks_accept : forall c (C : hash_circuit F) short h calcs t, build c short (hc_spec C) (hc_chip C) h ->
    rows_good (hc_legacy C) (hc_range C) (hc_spec C) 1 loop_start (raw_rows calcs t) = true <->
    forall i ck, i < calcs -> row_check t i = Some ck ->
      ck = nth 0 (row_state (poseidon_permutation c) (hc_legacy C) (hc_range C) t i) fzero.
  Proof.
    intros c C short h calcs t B. destruct (build_facts _ _ _ _ _ B) as (_ & _ & _ & HS & _). rewrite checks_good.
    split; intros H i ck Hi Hk; rewrite (H i ck Hi Hk); [|symmetry]; now rewrite (row_state_ext _ _ _ _ t HS).
  Qed.

  (** C39 *)
  Theorem checks_claim : forall c (C : hash_circuit F) short h mode calcs t L0,
    build c short (hc_spec C) (hc_chip C) h -> host_columns C -> table_free C L0 -> mode_ok mode ->
    (mode = Serial -> table_size t <= calcs /\ length (ht_controls t) <= calcs) ->
    let state := row_state (poseidon_permutation c) (hc_legacy C) (hc_range C) t in
    ((exists L1, hc_load C mode calcs t L0 = Ok (L1, tt)) \/ hc_load C mode calcs t L0 = Panic)
    /\ (hc_load C mode calcs t L0 = Panic <->
        exists i ck, i < calcs /\ row_check t i = Some ck /\ ck <> nth 0 (state i) fzero)
    /\ (forall L1 L copies u blind, loaded C mode calcs t L0 L1 L copies -> calcs < u ->
        forall i ck, i < calcs -> row_check t i = Some ck -> (row_control t i <= N.of_nat (hc_range C))%N ->
        digest C (honest u L blind) (S i) = ck).
  Proof.
    intros c C short h mode calcs t L0 B HC TF Hm Hf state.
    destruct (load_outcome c C short h mode calcs t L0 B HC TF Hm) as [Q1 Q2].
    pose proof (checks_accept c C short h calcs t B) as CA. fold state in CA.
    assert (AC : accept (hc_legacy C) (hc_range C) (hc_spec C) mode calcs t
                 = rows_good (hc_legacy C) (hc_range C) (hc_spec C) 1 loop_start (raw_rows calcs t)).
    { unfold accept. destruct mode; [|reflexivity]. assert (S1 : serial_fits calcs t = true) by (apply serial_fits_iff, Hf; reflexivity).
      now rewrite S1. }
    rewrite AC in Q1, Q2.
    split. { destruct (rows_good _ _ _ _ _ _); [left; now apply Q2|right; now apply Q1]. }
    split.
    - split.
      + intros E. destruct (rows_good _ _ _ _ _ _) eqn:RG.
        * exfalso. destruct (Q2 eq_refl) as [L1 E1]. rewrite E1 in E. discriminate E.
        * (* some row is bad *)
          clear Q1 Q2 AC E.
          assert (Dec : forall k, (exists i ck, i < k /\ row_check t i = Some ck /\ ck <> nth 0 (state i) fzero)
                    \/ forall i ck, i < k -> row_check t i = Some ck -> ck = nth 0 (state i) fzero).
          { induction k as [|k [(i & ck & H1 & H2)|IH]]; [right; intros; lia|left; exists i, ck; split; [lia|exact H2]|].
            destruct (row_check t k) as [ck|] eqn:Ek.
            - destruct (feqb ck (nth 0 (state k) fzero)) eqn:Ec.
              + right. intros i ck' Hi Hk. destruct (Nat.eq_dec i k) as [->|]; [|apply IH; [lia|assumption]].
                rewrite Ek in Hk. injection Hk as <-. now apply feqb_eq.
              + left. exists k, ck. split; [lia|]. split; [assumption|]. intros X. apply (proj2 (feqb_eq _ _)) in X. congruence.
            - right. intros i ck' Hi Hk. destruct (Nat.eq_dec i k) as [->|]; [congruence|apply IH; [lia|assumption]]. }
          destruct (Dec calcs) as [X|X]; [exact X|]. exfalso. apply (proj2 CA) in X. congruence.
      + intros (i & ck & Hi & Hk & Hne). apply Q1. apply not_true_iff_false. intros RG. apply Hne. exact (proj1 CA RG i ck Hi Hk).
    - intros L1 L copies u blind HL Hu i ck Hi Hk Hr.
      destruct (build_facts _ _ _ _ _ B) as (_ & _ & HP & HS & _).
      destruct (honest_rows C _ h HC HP HS mode calcs t L0 L1 L copies u blind HL Hu i Hi) as (_ & _ & _ & _ & _ & HD & _).
      rewrite (HD 0) by (rewrite ?Nat.add_0_r; try lia; try assumption; intros; lia). rewrite Nat.add_0_r.
      assert (RG : rows_good (hc_legacy C) (hc_range C) (hc_spec C) 1 loop_start (raw_rows calcs t) = true).
      { destruct (rows_good _ _ _ _ _ _) eqn:E; [reflexivity|]. exfalso. destruct HL as (_ & _ & EL & _). rewrite (Q1 eq_refl) in EL. discriminate EL. }
      symmetry. exact (proj1 CA RG i ck Hi Hk).
  Qed.

  (** C33: serial assignment *)
  Theorem serial_capacity_claim : forall c (C : hash_circuit F) short h calcs t L0,
    build c short (hc_spec C) (hc_chip C) h -> host_columns C -> table_free C L0 ->
    calcs < table_size t \/ calcs < length (ht_controls t) -> hc_load C Serial calcs t L0 = Panic.
  Proof.
    intros c C short h calcs t L0 B HC TF Hc. apply (load_outcome c C short h Serial calcs t L0 B HC TF I).
    unfold accept. destruct (serial_fits calcs t) eqn:E; [|reflexivity]. apply serial_fits_iff in E. unfold fits_table in E. lia.
  Qed.
  (** parallel assignment looks at the first [calcs] entries only *)
  Definition cut_table (k : nat) (t : hash_table F) : hash_table F :=
    {| ht_inputs := firstn k (ht_inputs t); ht_controls := firstn k (ht_controls t); ht_domain := firstn k (ht_domain t);
       ht_checks := firstn k (ht_checks t) |}.
  Lemma padded_cut : forall {A} k (l : list (option A)), padded k (firstn k l) = padded k l.
  Proof.
    intros A k l. unfold padded. destruct (Nat.le_gt_cases (length l) k) as [H|H].
    - now rewrite (firstn_all2 l) by assumption.
    - rewrite !firstn_app, firstn_firstn, Nat.min_id, firstn_length. f_equal.
      replace (k - Nat.min k (length l)) with 0 by lia. replace (k - length l) with 0 by lia. reflexivity.
  Qed.
  Lemma raw_rows_cut : forall calcs t, raw_rows calcs (cut_table calcs t) = raw_rows calcs t.
  Proof.
    intros calcs t. unfold raw_rows, cut_table. cbn [ht_inputs ht_controls ht_domain ht_checks].
    rewrite <- !firstn_map. now rewrite !padded_cut.
  Qed.
  Theorem parallel_capacity_claim : forall (C : hash_circuit F) threads calcs t L0,
    hc_load C (Parallel threads) calcs t L0 = hc_load C (Parallel threads) calcs (cut_table calcs t) L0.
  Proof.
    intros C threads calcs t L0. unfold hc_load, load, load_rows. now rewrite raw_rows_cut.
  Qed.

  (** C34 *)
  Theorem parallel_claim : forall c (C : hash_circuit F) short h calcs t L0 threads,
    build c short (hc_spec C) (hc_chip C) h -> host_columns C -> table_free C L0 -> 0 < threads ->
    table_size t <= calcs -> length (ht_controls t) <= calcs ->
    match hc_load C Serial calcs t L0, hc_load C (Parallel threads) calcs t L0 with
    | Ok (L1, _), Ok (L2, _) =>
      lo_adv L1 = lo_adv L2 /\ lo_fix L1 = lo_fix L2 /\ lo_copy L1 = lo_copy L2 /\ lo_tables L1 = lo_tables L2
      /\ (forall q r, In (q, r) (lo_sel L1) <-> In (q, r) (lo_sel L2))
    | Panic, Panic => True
    | _, _ => False
    end.
  Proof.
    intros c C short h calcs t L0 threads B HC TF Ht H1 H2.
    destruct (build_facts _ _ _ _ _ B) as (_ & _ & HP & _ & _). destruct (chip_is_here C _ h HC HP) as (D & HD).
    pose proof (load_result C _ h HC D Serial calcs t L0 HD I TF) as R1.
    pose proof (load_result C _ h HC D (Parallel threads) calcs t L0 HD Ht TF) as R2.
    assert (A : accept (hc_legacy C) (hc_range C) (hc_spec C) Serial calcs t = accept (hc_legacy C) (hc_range C) (hc_spec C) (Parallel threads) calcs t).
    { unfold accept. replace (serial_fits calcs t) with true; [reflexivity|]. symmetry. apply serial_fits_iff. split; assumption. }
    rewrite A in R1. destruct (accept _ _ _ (Parallel threads) calcs t).
    - destruct R1 as (L1 & i1 & f1 & E1 & A1 & F1 & S1 & C1 & T1 & _). destruct R2 as (L2 & i2 & f2 & E2 & A2 & F2 & S2 & C2 & T2 & _).
      rewrite E1, E2. split; [congruence|]. split; [congruence|]. split; [congruence|]. split; [congruence|].
      intros q r. rewrite S1, S2, !in_app_iff, !sel_of_iff. reflexivity.
    - now rewrite R1, R2.
  Qed.

  (** C35 *)
  Theorem key_claim : forall c (C : hash_circuit F) short h mode mode' calcs t t' L0 L0' L1 L1',
    build c short (hc_spec C) (hc_chip C) h -> host_columns C -> table_free C L0 -> table_free C L0' -> mode_ok mode -> mode_ok mode' ->
    lo_fix L0 = lo_fix L0' -> lo_sel L0 = lo_sel L0' -> lo_copy L0 = lo_copy L0' -> lo_tables L0 = lo_tables L0' ->
    hc_load C mode calcs t L0 = Ok (L1, tt) -> hc_load C mode' calcs t' L0' = Ok (L1', tt) ->
    lo_fix L1 = lo_fix L1' /\ lo_copy L1 = lo_copy L1' /\ lo_tables L1 = lo_tables L1'
    /\ (forall q r, In (q, r) (lo_sel L1) <-> In (q, r) (lo_sel L1')).
  Proof.
    intros c C short h mode mode' calcs t t' L0 L0' L1 L1' B HC TF TF' Hm Hm' EF ES EC ET E E'.
    destruct (build_facts _ _ _ _ _ B) as (_ & _ & HP & _ & _). destruct (chip_is_here C _ h HC HP) as (D & HD).
    destruct (load_facts_of c C short h mode calcs t L0 L1 B HC TF Hm E D HD) as (_ & i1 & f1 & (A1 & F1 & S1 & C1 & T1 & _) & _).
    destruct (load_facts_of c C short h mode' calcs t' L0' L1' B HC TF' Hm' E' D HD) as (_ & i2 & f2 & (A2 & F2 & S2 & C2 & T2 & _) & _).
    split; [congruence|]. split; [|split; [congruence|]].
    - rewrite C1, C2, EC. f_equal.
      assert (Lr : length (raw_rows calcs t) = length (raw_rows calcs t')) by now rewrite !raw_rows_length.
      assert (CI : map (map ac_cell) (table_in C (raw_rows calcs t)) = map (map ac_cell) (table_in C (raw_rows calcs t'))) by now apply rows_in_cells.
      assert (CO : map (map ac_cell) (table_out C (raw_rows calcs t)) = map (map ac_cell) (table_out C (raw_rows calcs t'))) by now apply rows_out_cells.
      f_equal.
      + now apply stack_copy_cells.
      + apply final_pairs_cells; [now apply at_cells|]. apply stack_out_cells. unfold table_in. now rewrite !rows_in_length.
    - intros q r. rewrite S1, S2, ES, !in_app_iff, !sel_of_iff. reflexivity.
  Qed.

  (** the chips: positions do not depend on values, known or not, nor on the way the calls are made *)
  Theorem key_chip_claim : forall c short s (P : permute_chip F) h host L calls other wss wss' threads,
    build c short s P h ->
    let cfg := fst (pc_configure P host) in
    chip_used P cfg (added host (snd (pc_configure P host))) L calls other ->
    Forall (three_words L) wss -> Forall (three_words L) wss' -> map (map ac_cell) wss = map (map ac_cell) wss' -> 0 < threads ->
    exists L1 o1 L2 o2,
      lmap (pc_permute P cfg) wss L = Ok (L1, o1) /\ pc_permute_batch P threads cfg wss' L = Ok (L2, o2)
      /\ lo_fix L1 = lo_fix L2 /\ lo_sel L1 = lo_sel L2 /\ lo_copy L1 = lo_copy L2 /\ lo_tables L1 = lo_tables L2
      /\ map (map (fun w => abs_cell (lo_starts L1) (ac_cell w))) o1 = map (map (fun w => abs_cell (lo_starts L2) (ac_cell w))) o2.
  Proof.
    intros c short s P h host L calls other wss wss' threads B cfg U W W' E Ht.
    destruct (build_facts _ _ _ _ _ B) as (_ & _ & PC & _ & _).
    destruct (PC host) as (D & Laws & Eh & Own & _ & _ & _ & EG & _ & _ & _ & R1 & R2). fold cfg in R1, R2.
    apply (used_own P cfg _ (cd_own D)) in U; [|intros x; symmetry; apply Own].
    pose proof (used_inv P D _ cfg L calls other Laws R1 R2 U) as I.
    assert (Len : length wss = length wss') by (apply (f_equal (@length _)) in E; now rewrite !map_length in E).
    destruct (R1 wss L (proj1 I) W) as (L1 & o1 & E1 & S1). destruct (R2 threads wss' Ht L (proj1 I) W') as (L2 & o2 & E2 & S2).
    exists L1, o1, L2, o2. split; [assumption|]. split; [assumption|].
    destruct S1 as (_ & _ & _ & _ & A1 & F1 & Q1 & C1 & T1 & _ & O1 & _).
    destruct S2 as (_ & _ & _ & _ & A2 & F2 & Q2 & C2 & T2 & _ & O2 & _).
    split; [congruence|]. split; [congruence|]. split; [rewrite C1, C2; f_equal; now apply stack_copy_cells|]. split; [congruence|].
    assert (K : forall (L : layout F) o, map (map (fun w => abs_cell (lo_starts L) (ac_cell w))) o = map (map fst) (map (map (located L)) o)).
    { intros L' o. rewrite map_map. apply map_ext. intros l. rewrite map_map. reflexivity. }
    rewrite !K, O1, O2. now apply stack_out_cells.
  Qed.

  (** C40 *)
  Lemma build_size : forall c short s P h base, build (F := F) c short s P h ->
    hash_block_size base s = if base then 9 else 9 + (pc_partial_rounds c + 1) / 2.
  Proof.
    intros c short s P h base B. destruct (build_facts _ _ _ _ _ B) as (_ & (b & Hs) & _).
    unfold cached_hash_spec in Hs.
    destruct (compact_round_constants 8 (pc_partial_rounds c) (pc_mds c) (pc_round_constants c)) as [rc|]; [|discriminate].
    cbn [bind] in Hs. injection Hs as <-. destruct base; reflexivity.
  Qed.
  Theorem budget_claim : forall c (C : hash_circuit F) short base h mode calcs t L0 L1,
    build c short (hc_spec C) (hc_chip C) h -> host_columns C -> table_free C L0 -> mode_ok mode ->
    hc_load C mode calcs t L0 = Ok (L1, tt) ->
    (short = true -> h = 8) /\ (short = false -> h = 9 + (pc_partial_rounds c + 1) / 2)
    /\ hash_block_size base (hc_spec C) = (if base then 9 else 9 + (pc_partial_rounds c + 1) / 2)
    /\ minimum_row_require base (hc_spec C) t = table_size t * hash_block_size base (hc_spec C)
    /\ table_size t = length (ht_inputs t)
    /\ ((base = true -> short = true) ->
        h * calcs <= calcs * hash_block_size base (hc_spec C) /\ h * table_size t <= minimum_row_require base (hc_spec C) t)
    /\ (exists col, added (hc_host C) (hc_cs C) col /\ lo_next L1 col = h * calcs)
    /\ (forall u, fits u L1 <-> fits u L0 /\ calcs < u /\ h * calcs <= u /\ hc_range C < u)
    /\ (forall j r, 1 <= j < 6 -> ((exists v, In (nth j (hc_table C) 0, r, v) (lo_adv L1)) <-> r <= calcs))
    /\ (copies_enabled (hc_host C) L0 -> copies_enabled (hc_cs C) L1).
  Proof.
    intros c C short base h mode calcs t L0 L1 B HC TF Hm E.
    destruct (build_facts _ _ _ _ _ B) as (_ & _ & HP & _ & _). destruct (chip_is_here C _ h HC HP) as (D & HD).
    destruct (load_facts_of c C short h mode calcs t L0 L1 B HC TF Hm E D HD) as (_ & i1 & f1 & (A1 & F1 & S1 & C1 & T1 & _ & _ & N1 & _) & FF).
    pose proof HD as HD'. destruct HD' as (Laws & Hh & Own & _ & _ & (e & Ee & He) & _ & _ & (G1 & G2 & G3)).
    destruct (tab_length C HC) as [T6 T6'].
    assert (Lr : length (raw_rows calcs t) = calcs) by apply raw_rows_length.
    assert (Li : length (table_in C (raw_rows calcs t)) = calcs) by (unfold table_in; now rewrite rows_in_length).
    assert (Etab : forall j, nth j (hc_table C) 0 = col (sc_table (hc_config C)) j) by (intros j; destruct (configured C HC) as [X _]; rewrite X; reflexivity).
    assert (TabU : forall j, j < 6 -> In (nth j (hc_table C) 0) (tcols (hc_chip C) (hc_config C))) by exact (table_col C HC).
    assert (TAB : forall j r, 1 <= j < 6 -> ((exists v, In (nth j (hc_table C) 0, r, v) (lo_adv L1)) <-> r <= calcs)).
    { intros j r Hj.
      assert (Hin := TabU j ltac:(lia)). split.
      + intros (v & H). rewrite A1 in H. apply in_app_or in H. destruct H as [H|H].
        { exfalso. destruct TF as ((_ & U2 & _) & _). refine (U2 _ _ _ H _). right. apply nth_In. destruct HC as (_ & L6 & _). lia. }
        apply in_app_or in H. destruct H as [H|H].
        * apply in_app_or in H. destruct H as [H|H]; [apply custom_writes_in in H; lia|].
          apply rows_writes_in in H; [|exact T6|exact T6'|right; reflexivity]. rewrite Lr in H. lia.
        * exfalso. pose proof (in_stack_adv_own D _ Laws _ _ _ _ _ H) as O. apply Own in O.
          destruct HC as (_ & L6 & _ & Fa). rewrite Forall_forall in Fa. specialize (Fa (nth j (hc_table C) 0) ltac:(apply nth_In; lia)).
          unfold csm in O. cbn [added cs_adv] in O. unfold A0 in O. lia.
      + intros Hr.
        destruct r as [|i].
        * exists (Some fzero). rewrite A1. apply in_or_app. right. apply in_or_app. left. apply in_or_app. left.
          unfold custom_writes. rewrite in_map_iff. exists (nth j (hc_table C) 0). split; [reflexivity|exact Hin].
        * destruct (raw_row_at calcs t i ltac:(lia)) as (x & Hx & _).
          destruct (main_written (hc_legacy C) (hc_chip C) (hc_range C) (hc_spec C) (hc_config C) (raw_rows calcs t) i x 1 loop_start j Hx ltac:(lia)) as [v W].
          exists v. rewrite A1. apply in_or_app. right. apply in_or_app. left. apply in_or_app. right.
          rewrite Nat.add_1_r in W. rewrite Etab. clear - W. set (cf := hc_config C) in *. clearbody cf. exact W. }
    split. { destruct B; [reflexivity|discriminate]. }
    split. { destruct B; [discriminate|reflexivity]. }
    split; [exact (build_size c short _ _ h base B)|]. split; [reflexivity|]. split; [reflexivity|].
    split.
    { intros HB. assert (BS : h <= hash_block_size base (hc_spec C)).
      { rewrite (build_size c short _ _ h base B). destruct B, base; try lia; specialize (HB eq_refl); discriminate HB. }
      unfold minimum_row_require, table_size. nia. }
    split.
    { exists (cd_main D). split; [|exact N1]. pose proof (law_main D _ Laws) as M. apply Own in M. unfold added in *.
      unfold csm in G1, G2, G3, M. destruct (cd_main D); cbn [cs_adv cs_fix cs_sel] in *; unfold A0 in *; lia. }
    split; [|split].
    - intros u. split.
      { intros (U1 & U2 & U3 & U4). split; [|split; [|split]].
        - split; [|split; [|split]].
          + intros cc r v H. apply (U1 cc r v). rewrite A1. apply in_or_app. now left.
          + intros cc r v H. apply (U2 cc r v). rewrite F1. apply in_or_app. now left.
          + intros q r H. apply (U3 q r). rewrite S1. apply in_or_app. now left.
          + intros tc vals H. apply (U4 tc vals). rewrite T1. apply in_or_app. now left.
        - destruct (proj2 (TAB 1 calcs ltac:(lia)) (le_n _)) as [v X]. exact (U1 _ _ _ X).
        - rewrite <- Hh. destruct (Nat.eq_dec calcs 0) as [Z|Z]; [rewrite Z; lia|].
          destruct (stack_adv_last D _ Laws (table_in C (raw_rows calcs t)) 0) as (cc & w & X); [intros N; rewrite N in Li; cbn in Li; lia|].
          assert (Y := U1 cc (cd_h D * length (table_in C (raw_rows calcs t)) + 0 - 1) w).
          rewrite A1 in Y. specialize (Y ltac:(apply in_or_app; right; apply in_or_app; right; exact X)). rewrite Li in Y. lia.
        - specialize (U4 _ _ ltac:(rewrite T1; apply in_or_app; right; left; reflexivity)).
          unfold range_table in U4. rewrite map_length, seq_length in U4. lia. }
      intros ((U1 & U2 & U3 & U4) & H1 & H2 & H3). rewrite <- Hh in H2. split; [|split; [|split]].
      + intros cc r v H. rewrite A1 in H. apply in_app_or in H. destruct H as [H|H]; [now apply U1 in H|].
        apply in_app_or in H. destruct H as [H|H].
        * apply in_app_or in H. destruct H as [H|H]; [apply custom_writes_in in H; lia|].
          apply rows_writes_in in H; [|exact T6|exact T6'|right; reflexivity]. rewrite Lr in H. lia.
        * apply (stack_adv_rows D _ Laws) in H. rewrite Li in H. lia.
      + intros cc r v H. rewrite F1 in H. apply in_app_or in H. destruct H as [H|H]; [now apply U2 in H|].
        apply in_app_or in H. destruct H as [H|H].
        * apply enable_writes_in in H. lia.
        * apply (stack_fix_rows D _ Laws) in H. lia.
      + intros q r H. rewrite S1 in H. apply in_app_or in H. destruct H as [H|H]; [now apply U3 in H|].
        apply in_app_or in H. destruct H as [H|H].
        * apply sel_of_in in H. lia.
        * apply (stack_sel_rows D _ Laws) in H. lia.
      + intros tc vals H. rewrite T1 in H. apply in_app_or in H. destruct H as [H|[H|[]]]; [now apply U4 in H|].
        apply (f_equal snd) in H. cbv beta iota delta [snd] in H. rewrite <- H. unfold range_table. rewrite map_length, seq_length. lia.
    - exact TAB.
    - intros CE a b H.
      assert (EQ : forall x, In x (cs_eq (hc_host C)) \/ (exists j, j < 6 /\ x = Adv (j + A0 C)) \/ (exists j, j < 3 /\ (x = Adv (cd_in D j) \/ x = Adv (cd_out_col D j))) -> In x (cs_eq (hc_cs C))).
      { intros x [Hx|[(j & Hj & ->)|(j & Hj & Hx)]]; rewrite Ee; apply in_or_app.
        - now left.
        - right. apply in_or_app. left. apply in_map. apply in_or_app. left. unfold aux_cols.
          destruct j as [|[|[|[|[|[|j]]]]]]; cbn [Nat.add In]; auto; lia.
        - right. apply in_or_app. right. destruct (He j Hj). destruct Hx as [->| ->]; assumption. }
      assert (Hin : In (a, b) (lo_copy L0) \/ own_copies C h D calcs a b).
      { rewrite <- (app_nil_r (lo_copy L0)). exact (table_copies C _ h HC D mode calcs t L0 L1 [] i1 f1 HD FF a b H). }
      destruct Hin as [Hin|(i & j & Hi & Hj & K)].
      + destruct (CE a b Hin). split; apply EQ; now left.
      + destruct K as [[-> ->]|[-> ->]]; cbn [fst].
        * split; apply EQ; right; [right; exists j; auto|left; exists j; split; [lia|reflexivity]].
        * split; apply EQ; right; [left|right; exists j; auto].
          exists (nth j [5; 3; 4] 0). split; [destruct j as [|[|[|j]]]; cbn; lia|reflexivity].
  Qed.

  (** C44 *)
  Lemma constants_apart : forall l (L L' : layout F), fold_r place_constant l L = Ok L' ->
    lo_adv L' = lo_adv L /\ forall c, lo_next L (Adv c) <= lo_next L' (Adv c).
  Proof.
    induction l as [|[a v] l IH]; intros L L' H; cbn [fold_r] in H; [injection H as <-; auto|].
    destruct (place_constant L (a, v)) as [L1|] eqn:E; cbn [bind] in H; [|discriminate].
    unfold place_constant in E. destruct (lo_const L) as [k|]; cbn [unwrap bind] in E; [|discriminate]. injection E as <-.
    apply IH in H. cbn [lo_adv lo_next column_eqb] in H. exact H.
  Qed.
  Lemma region_free : forall {A} (p : Region F A) (L L' : layout F) a, assign_region p L = Ok (L', a) ->
    (exists new, lo_adv L' = lo_adv L ++ new /\ forall c r v, In (c, r, v) new -> lo_next L (Adv c) <= r)
    /\ forall c, lo_next L (Adv c) <= lo_next L' (Adv c).
  Proof.
    intros A p L L' a H. unfold assign_region in H.
    destruct (p (length (lo_starts L))) as [[evs x]|]; cbn [bind] in H; [|discriminate].
    destruct (fold_r place_constant (const_events evs) (commit (length (lo_starts L)) evs (reserve evs L))) as [L2|] eqn:E;
      cbn [bind] in H; [|discriminate].
    injection H as <- _. apply constants_apart in E. destruct E as [E1 E2]. cbn [commit reserve lo_adv lo_next lo_starts] in E1, E2.
    rewrite app_nth2, Nat.sub_diag in E1 by lia. cbn [nth] in E1.
    assert (S1 : forall c o, In (c, o) (touched evs) -> lo_next L c <= region_start (lo_next L) evs).
    { unfold region_start. intros c o. generalize (touched evs). induction l as [|[c' o'] l IH]; intros X; [destruct X|].
      cbn [fold_right]. destruct X as [X|X]; [injection X as -> ->; lia|]. specialize (IH X). lia. }
    split.
    - exists (abs_adv (region_start (lo_next L) evs) evs). split; [exact E1|]. intros c r v X.
      unfold abs_adv in X. rewrite in_flat_map in X. destruct X as (ev & He & X). destruct ev as [c' o w| | | |]; cbn [In] in X; try contradiction.
      destruct X as [X|[]]. injection X as -> <- _. assert (T : In (Adv c, o) (touched evs)).
        { unfold touched. rewrite in_flat_map. eexists. split; [exact He|]. now left. }
        apply S1 in T. lia.
    - intros c. rewrite <- E2. unfold next_after. destruct (existsb _ _) eqn:X; [|lia].
      apply existsb_exists in X. destruct X as ([c' o] & X & Ec). apply column_eqb_eq in Ec. subst c'. apply S1 in X. lia.
  Qed.
  Lemma later_free : forall (L L2 : layout F), later_regions L L2 ->
    (exists new, lo_adv L2 = lo_adv L ++ new /\ forall c r v, In (c, r, v) new -> lo_next L (Adv c) <= r)
    /\ forall c, lo_next L (Adv c) <= lo_next L2 (Adv c).
  Proof.
    intros L L2 H. induction H as [|L' L'' A p a H [(new & E & N) M] R].
    - split; [exists []; rewrite app_nil_r; split; [reflexivity|intros ? ? ? []]|auto].
    - apply region_free in R. destruct R as [(new' & E' & N') M']. split.
      + exists (new ++ new'). split; [rewrite E', E; symmetry; apply app_assoc|]. intros c r v X. apply in_app_or in X.
        destruct X as [X|X]; [eauto|]. apply N' in X. specialize (M c). lia.
      + intros c. specialize (M c). specialize (M' c). lia.
  Qed.
  Theorem reserved_claim : forall c (C : hash_circuit F) short h calcs t L0 L1 L2,
    build c short (hc_spec C) (hc_chip C) h -> host_columns C -> table_free C L0 ->
    hc_load C Serial calcs t L0 = Ok (L1, tt) -> later_regions L1 L2 ->
    forall j r, j < 6 -> r <= calcs ->
    last_write (lo_adv L2) (nth j (hc_table C) 0) r = last_write (lo_adv L1) (nth j (hc_table C) 0) r.
  Proof.
    intros c C short h calcs t L0 L1 L2 B HC TF E HL j r Hj Hr.
    destruct (build_facts _ _ _ _ _ B) as (_ & _ & HP & _ & _). destruct (chip_is_here C _ h HC HP) as (D & HD).
    destruct (load_facts_of c C short h Serial calcs t L0 L1 B HC TF I E D HD) as (_ & i1 & f1 & (_ & _ & _ & _ & _ & _ & N & _) & _).
    assert (T : lo_next L1 (Adv (nth j (hc_table C) 0)) = S calcs).
    { rewrite N; [reflexivity|]. exact (table_col C HC j Hj). }
    clear N E HD TF. apply later_free in HL. destruct HL as [(new & E & X) _]. rewrite E, last_write_app.
    rewrite (last_write_none new); [reflexivity|]. intros v Y. apply X in Y. lia.
  Qed.
  (** in parallel assignment the next region that uses the digest column alone starts at row 1 *)
  Theorem overwritten_claim : forall c (C : hash_circuit F) short h threads calcs t L0 L1 v,
    build c short (hc_spec C) (hc_chip C) h -> host_columns C -> table_free C L0 -> 0 < threads ->
    hc_load C (Parallel threads) calcs t L0 = Ok (L1, tt) ->
    exists L2 a, assign_region (assign_advice (nth 0 (hc_table C) 0) 0 v) L1 = Ok (L2, a)
      /\ last_write (lo_adv L2) (nth 0 (hc_table C) 0) 1 = Some v.
  Proof.
    intros c C short h threads calcs t L0 L1 v B HC TF Ht E.
    destruct (build_facts _ _ _ _ _ B) as (_ & _ & HP & _ & _). destruct (chip_is_here C _ h HC HP) as (D & HD).
    destruct (load_facts_of c C short h (Parallel threads) calcs t L0 L1 B HC TF Ht E D HD) as (_ & i1 & f1 & (_ & _ & _ & _ & _ & _ & N & _) & _).
    set (d := nth 0 (hc_table C) 0) in *.
    assert (T : lo_next L1 (Adv d) = 1).
    { rewrite N; [|exact (table_col C HC 0 ltac:(lia))]. unfold table_next.
      assert (A : col (sc_aux (hc_config C)) 0 = A0 C) by (apply (aux_col C HC 0); lia).
      assert (X : d < cs_adv (hc_host C)) by (apply table_cols_host; [exact HC|lia]).
      rewrite A. cbn [column_eqb]. replace (d =? A0 C) with false; [reflexivity|]. symmetry. apply Nat.eqb_neq. unfold A0. lia. }
    clear N E HD TF. clearbody d.
    eexists _, _. split; [apply assign_region_ok; reflexivity|].
    cbn [commit lo_adv reserve lo_starts]. rewrite last_write_app, app_nth2, Nat.sub_diag by lia. unfold region_start. cbn -[Nat.eqb].
    rewrite T. cbn. rewrite !Nat.eqb_refl. reflexivity.
  Qed.
End Claims.
