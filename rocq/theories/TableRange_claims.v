(** The range table of the control column: what a larger table lets a prover do (C28). *)
From Coq Require Import ZArith NArith List Arith Lia Bool.
From Verif Require Import Field Rust ListAux Primitives Specs BaseHash SpecHash BigSum Link Base_claims Halo2 Septidon PermuteChip
  ChipUse SpongeTable Layout_proof Contract Stack_proof TableRows_proof TableLoad_proof TableUse TableInv_proof TableGate_proof TableSound_proof TableMsg_proof TableSat_proof
  Table_claims TableLayout_claims.
Import ListNotations.
Local Open Scope nat_scope.

(** the same circuit with another STEP *)
Definition with_range {F} (C : hash_circuit F) (range : nat) : hash_circuit F :=
  {| hc_legacy := hc_legacy C; hc_chip := hc_chip C; hc_spec := hc_spec C; hc_range := range; hc_host := hc_host C;
     hc_enable := hc_enable C; hc_table := hc_table C; hc_step := hc_step C |}.

Section Claims.
  Context {F : Type} {FO : FieldOps F} {PF : PrimeField F}.

  Lemma rows_in_range : forall legacy P S1 S2 s cfg x y ri o lp lp', length x = length y ->
    map (map ac_cell) (rows_in (F := F) legacy P S1 s cfg ri o lp x) = map (map ac_cell) (rows_in legacy P S2 s cfg ri o lp' y).
  Proof.
    intros legacy P S1 S2 s cfg. induction x as [|a x IH]; intros [|b y] ri o lp lp' H; try discriminate; [reflexivity|]. injection H as H.
    cbn [TableRows_proof.rows_in map]. now rewrite (IH y ri (S o) _ (r_next legacy S2 s o lp' b) H).
  Qed.
  Lemma rows_out_range : forall legacy P S1 S2 s cfg x y ri o lp lp', length x = length y ->
    map (map ac_cell) (rows_out (F := F) legacy P S1 s cfg ri o lp x) = map (map ac_cell) (rows_out legacy P S2 s cfg ri o lp' y).
  Proof.
    intros legacy P S1 S2 s cfg. induction x as [|a x IH]; intros [|b y] ri o lp lp' H; try discriminate; [reflexivity|]. injection H as H.
    cbn [TableRows_proof.rows_out map]. now rewrite (IH y ri (S o) _ (r_next legacy S2 s o lp' b) H).
  Qed.

  Lemma range_swap : forall c (C : hash_circuit F) range short h mode calcs t t' L0 L1 L1',
    build c short (hc_spec C) (hc_chip C) h -> host_columns C -> table_free C L0 -> mode_ok mode ->
    hc_load C mode calcs t L0 = Ok (L1, tt) -> hc_load (with_range C range) mode calcs t' L0 = Ok (L1', tt) ->
    lo_fix L1 = lo_fix L1' /\ lo_copy L1 = lo_copy L1' /\ (forall q r, In (q, r) (lo_sel L1) <-> In (q, r) (lo_sel L1'))
    /\ lo_tables L1 = lo_tables L0 ++ [(cs_fix (hc_host C), range_table (hc_legacy C) (hc_range C))]
    /\ lo_tables L1' = lo_tables L0 ++ [(cs_fix (hc_host C), range_table (hc_legacy C) range)]
    /\ cs_lookups (hc_cs C) = cs_lookups (hc_host C) ++ [(range_input (hc_table C), cs_fix (hc_host C))].
  Proof.
    intros c C range short h mode calcs t t' L0 L1 L1' B HC TF Hm E E'.
    destruct (build_facts _ _ _ _ _ B) as (_ & _ & HP & _ & _). destruct (chip_is_here C _ h HC HP) as (D & HD).
    assert (X1 : hc_config (with_range C range) = hc_config C).
    { unfold hc_config, with_range. cbn [hc_legacy hc_chip hc_enable hc_table hc_step hc_host]. reflexivity. }
    assert (X2 : hc_cs (with_range C range) = hc_cs C).
    { unfold hc_cs, with_range. cbn [hc_legacy hc_chip hc_enable hc_table hc_step hc_host]. reflexivity. }
    assert (X3 : table_columns (with_range C range) = table_columns C) by (unfold table_columns; rewrite X2; reflexivity).
    assert (HD' : chip_here (with_range C range) (poseidon_permutation c) h D).
    { unfold chip_here. rewrite X1, X2. exact HD. }
    assert (HC' : host_columns (with_range C range)) by exact HC.
    assert (TF' : table_free (with_range C range) L0).
    { unfold table_free. rewrite X1, X3. exact TF. }
    destruct (load_facts_of c C short h mode calcs t L0 L1 B HC TF Hm E D HD) as (_ & i1 & f1 & LF1 & _).
    destruct (load_facts_of c (with_range C range) short h mode calcs t' L0 L1' B HC' TF' Hm E' D HD') as (_ & i2 & f2 & LF2 & _).
    unfold load_facts, table_in, table_out in LF2. rewrite X1 in LF2. unfold load_facts, table_in, table_out in LF1.
    cbn [with_range hc_legacy hc_chip hc_spec hc_range] in LF2. cbv zeta in LF1, LF2.
    destruct LF1 as (A1 & F1 & S1 & C1 & T1 & _). destruct LF2 as (A2 & F2 & S2 & C2 & T2 & _).
    destruct (configured C HC) as [Ecfg _].
    assert (Er_ : sc_range (hc_config C) = cs_fix (hc_host C)) by (rewrite Ecfg; reflexivity). clear Ecfg.
    assert (Lr : length (raw_rows calcs t) = length (raw_rows calcs t')) by now rewrite !raw_rows_length.
    assert (Lk : cs_lookups (hc_cs C) = cs_lookups (hc_host C) ++ [(range_input (hc_table C), cs_fix (hc_host C))]).
    { exact (proj1 (proj2 (proj2 (proj2 (proj2 HD))))). }
    clear X1 X2 X3 HD HD' TF TF' E E' A1 A2.
    set (cf := hc_config C) in *. clearbody cf.
    split; [rewrite F1, F2; reflexivity|]. split.
    - rewrite C1, C2. f_equal.
      pose proof (rows_in_range (hc_legacy C) (hc_chip C) (hc_range C) range (hc_spec C) cf _ _ 0 1 loop_start loop_start Lr) as CI.
      pose proof (rows_out_range (hc_legacy C) (hc_chip C) (hc_range C) range (hc_spec C) cf _ _ 0 1 loop_start loop_start Lr) as CO.
      f_equal.
      + apply stack_copy_cells. exact CI.
      + apply final_pairs_cells; [apply at_cells; exact CO|]. apply stack_out_cells.
        apply (f_equal (@length _)) in CI. rewrite !map_length in CI. exact CI.
    - split; [intros q r; rewrite S1, S2, !in_app_iff, !sel_of_iff; reflexivity|].
      split; [rewrite T1, Er_; reflexivity|]. split; [rewrite T2, Er_; reflexivity|exact Lk].
  Qed.

  Lemma eval_same : forall n (fx fx' sl sl' adv : nat -> nat -> F) r e, (forall c r, fx c r = fx' c r) -> (forall c r, sl c r = sl' c r) ->
    eval n fx sl adv r e = eval n fx' sl' adv r e.
  Proof. intros n fx fx' sl sl' adv r e H1 H2. induction e; cbn [eval]; congruence. Qed.

  (** what satisfies the circuit with a range table satisfies it with a larger one *)
  Theorem larger_range_claim : forall c (C : hash_circuit F) range short h mode calcs t t' L0 L1 L1' n u adv,
    build c short (hc_spec C) (hc_chip C) h -> host_columns C -> table_free C L0 -> mode_ok mode ->
    hc_load C mode calcs t L0 = Ok (L1, tt) -> hc_load (with_range C range) mode calcs t' L0 = Ok (L1', tt) ->
    hc_range C <= range -> range < u -> cs_lookups (hc_host C) = [] ->
    satisfied n u (hc_cs C) L1 adv -> satisfied n u (hc_cs C) L1' adv.
  Proof.
    intros c C range short h mode calcs t t' L0 L1 L1' n u adv B HC TF Hm E E' Hr Hu HL (G & Lo & Cp).
    destruct (range_swap c C range short h mode calcs t t' L0 L1 L1' B HC TF Hm E E') as (EF & EC & ES & T1 & T2 & Lk).
    assert (FX : forall cc r, fixed_at L1 cc r = fixed_at L1' cc r) by (intros; unfold fixed_at; now rewrite EF).
    assert (SL : forall cc r, selector_at L1 cc r = selector_at L1' cc r).
    { intros q r. unfold selector_at. 
      destruct (existsb _ (lo_sel L1)) eqn:X; destruct (existsb _ (lo_sel L1')) eqn:Y; try reflexivity; exfalso.
      - apply existsb_sel in X. apply ES in X. apply existsb_sel in X. congruence.
      - apply existsb_sel in Y. apply ES in Y. apply existsb_sel in Y. congruence. }
    assert (CA : forall x, cell_at L1 adv x = cell_at L1' adv x) by (intros [[i|i|i] r]; cbn [cell_at]; auto).
    destruct TF as [_ TF]. destruct (configured C HC) as [Ecfg _].
    assert (Er_ : sc_range (hc_config C) = cs_fix (hc_host C)) by (rewrite Ecfg; reflexivity). rewrite Er_ in TF. clear Ecfg Er_ E E' B HC Hm.
    set (cs := hc_cs C) in *. clearbody cs.
    assert (TA : forall L k, lo_tables L = lo_tables L0 ++ [(cs_fix (hc_host C), range_table (hc_legacy C) k)] ->
              forall r, table_at L (cs_fix (hc_host C)) r = nth r (range_table (F := F) (hc_legacy C) k) (hd fzero (range_table (hc_legacy C) k))).
    { clear - TF. intros L k T r. unfold table_at. rewrite T.
      assert (Q : find (fun '(c', _) => cs_fix (hc_host C) =? c') (lo_tables L0 ++ [(cs_fix (hc_host C), range_table (hc_legacy C) k)])
                  = Some (cs_fix (hc_host C), range_table (hc_legacy C) k)).
      { clear T. induction (lo_tables L0) as [|[cc v] l IH]; cbn [app find]; [now rewrite Nat.eqb_refl|].
        destruct (Nat.eqb_spec (cs_fix (hc_host C)) cc) as [E0|N]; [exfalso; apply (TF v); left; now rewrite E0|].
        apply IH. intros v' X. apply (TF v'). now right. }
      now rewrite Q. }
    split; [|split].
    - intros g r Hg Hr'. rewrite <- (eval_same n (fixed_at L1) _ (selector_at L1) _ adv r g FX SL). exact (G g r Hg Hr').
    - intros e tc r Hin Hru. destruct (Lo e tc r Hin Hru) as (r' & Hr' & Ev).
      rewrite Lk, HL in Hin. destruct Hin as [Hin|[]]. injection Hin as <- <-.
      rewrite <- (eval_same n (fixed_at L1) _ (selector_at L1) _ adv r (range_input (hc_table C)) FX SL), Ev.
      rewrite (TA L1 _ T1). 
      assert (Z : exists k, k <= hc_range C /\ nth r' (range_table (F := F) (hc_legacy C) (hc_range C)) (hd fzero (range_table (hc_legacy C) (hc_range C))) = flag_of (hc_legacy C) (N.of_nat k)).
      { unfold range_table. set (f := fun i => flag_of (F := F) (hc_legacy C) (N.of_nat i)).
        replace (hd fzero (map f (seq 0 (hc_range C + 1)))) with (f 0) by (rewrite Nat.add_1_r; reflexivity).
        rewrite map_nth. destruct (Nat.lt_ge_cases r' (hc_range C + 1)) as [K|K].
        - exists r'. split; [lia|]. now rewrite seq_nth by assumption.
        - exists 0. split; [lia|]. now rewrite nth_overflow by (now rewrite seq_length). }
      destruct Z as (k & Hk & Ek). exists k. split; [lia|]. rewrite Ek, (TA L1' _ T2). unfold range_table. set (f := fun i => flag_of (F := F) (hc_legacy C) (N.of_nat i)).
      rewrite (nth_indep _ _ (f 0)) by (rewrite map_length, seq_length; lia). rewrite map_nth, seq_nth by lia. reflexivity.
    - intros x y Hxy. rewrite <- !CA. apply Cp. now rewrite EC.
  Qed.
End Claims.
