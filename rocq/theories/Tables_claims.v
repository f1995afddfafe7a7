(** The lemmas behind C67 and C72 in PropertiesTables.v. *)
From Coq Require Import ZArith NArith List Arith Lia Bool.
From Verif Require Import Field Rust ListAux Primitives Specs BaseHash SpecHash BigSum Link Base_claims Halo2 Septidon PermuteChip
  ChipUse Pow5 Layout_proof Contract Stack_proof SpongeTable TableRows_proof TableLoad_proof TableUse
  TableInv_proof TableGate_proof TableSound_proof TableVals_proof TableHonest_proof TableSat_proof TableState_proof Table_claims
  TableLayout_claims Tables.
Import ListNotations.
Local Open Scope nat_scope.

Section Elsewhere.
  Context {F : Type} {FO : FieldOps F}.

  Lemma elsewhere_trans : forall own (L L' L'' : layout F) c1 c2, elsewhere own L L' c1 -> elsewhere own L' L'' c2 ->
    elsewhere own L L'' (c1 ++ c2).
  Proof.
    intros own L L' L'' c1 c2 (st & av & fv & sv & E1 & E2 & E3 & E4 & E5 & E6 & E7 & E8 & E9)
      (st' & av' & fv' & sv' & E1' & E2' & E3' & E4' & E5' & E6' & E7' & E8' & E9').
    exists (st ++ st'), (av ++ av'), (fv ++ fv'), (sv ++ sv').
    split; [rewrite E1', E1; symmetry; apply app_assoc|]. split; [intros c Hc; rewrite E2' by assumption; now apply E2|].
    split; [rewrite E3', E3; symmetry; apply app_assoc|].
    split. { intros c r v H. apply in_app_or in H. destruct H as [H|H]; [now apply (E4 c r v)|now apply (E4' c r v)]. }
    split; [rewrite E5', E5; symmetry; apply app_assoc|].
    split. { intros c r v H. apply in_app_or in H. destruct H as [H|H]; [now apply (E6 c r v)|now apply (E6' c r v)]. }
    split; [rewrite E7', E7; symmetry; apply app_assoc|].
    split. { intros c r H. apply in_app_or in H. destruct H as [H|H]; [now apply (E8 c r)|now apply (E8' c r)]. }
    rewrite E9', E9. symmetry. apply app_assoc.
  Qed.
  Lemma elsewhere_refl : forall own (L : layout F), elsewhere own L L [].
  Proof.
    intros own L. exists [], [], [], []. rewrite !app_nil_r. split; [reflexivity|]. split; [reflexivity|].
    split; [reflexivity|]. split; [intros ? ? ? []|]. split; [reflexivity|]. split; [intros ? ? ? []|].
    split; [reflexivity|]. split; [intros ? ? []|reflexivity].
  Qed.
  Lemma unused_elsewhere : forall own (L L' : layout F) copies, unused own L -> elsewhere own L L' copies -> unused own L'.
  Proof.
    intros own L L' copies (U1 & U2 & U3 & U4) (st & av & fv & sv & _ & E2 & E3 & E4 & E5 & E6 & E7 & E8 & _).
    split; [|split; [|split]].
    - intros c Hc. rewrite E2 by assumption. now apply U1.
    - intros c r v H. rewrite E3 in H. apply in_app_or in H. destruct H as [H|H]; [now apply (U2 c r v)|now apply (E4 c r v)].
    - intros c r v H. rewrite E5 in H. apply in_app_or in H. destruct H as [H|H]; [now apply (U3 c r v)|now apply (E6 c r v)].
    - intros c r H. rewrite E7 in H. apply in_app_or in H. destruct H as [H|H]; [now apply (U4 c r)|now apply (E8 c r)].
  Qed.
End Elsewhere.

Local Opaque hc_config hc_cs hc_load.

Section Single.
  Context {F : Type} {FO : FieldOps F} {PF : PrimeField F}.

  Lemma stack_fix_own : forall (D : chip_data (F := F)) perm, chip_laws D perm -> forall k t c r v, In (c, r, v) (stack_fix D t k) -> cd_own D (Fix c).
  Proof.
    intros D perm Laws. induction k as [|k IH]; intros t c r v H; [destruct H|]. cbn [stack_fix] in H. apply in_app_or in H. destruct H as [H|H].
    - apply in_map_iff in H. destruct H as ([[c' o] w] & E & H). apply (law_fix_rows D perm Laws) in H. cbn in E. injection E as <- _ _.
      rewrite Nat.add_0_r. apply H.
    - eapply IH; eassumption.
  Qed.

  (** [load] of a table, seen from columns that are not the table's *)
  Lemma load_elsewhere : forall c (C : hash_circuit F) short h mode calcs t L0 L1 (own : column -> Prop),
    build c short (hc_spec C) (hc_chip C) h -> host_columns C -> table_free C L0 -> mode_ok mode ->
    hc_load C mode calcs t L0 = Ok (L1, tt) -> (forall col, table_columns C col -> ~ own col) ->
    exists copies, elsewhere own L0 L1 copies
      /\ lo_tables L1 = lo_tables L0 ++ [(sc_range (hc_config C), range_table (hc_legacy C) (hc_range C))].
  Proof.
    intros c C short h mode calcs t L0 L1 own B HC TF Hm E Ho.
    destruct (build_facts _ _ _ _ _ B) as (_ & _ & HP & _ & _).
    destruct (chip_is_here C _ h HC HP) as (D & HD).
    destruct (load_facts_of c C short h mode calcs t L0 L1 B HC TF Hm E D HD) as (_ & ins & finals & LF & _).
    destruct LF as (A1 & F1 & Q1 & C1 & T1 & K1 & N1 & N2 & R1 & N3 & (new & S1) & _).
    pose proof HD as HD'. destruct HD' as (Laws & _).
    assert (OT : forall col, tab_own (hc_chip C) (hc_config C) col -> ~ own col).
    { intros col H. apply Ho. eapply tab_table_columns; eassumption. }
    assert (OC : forall col, cd_own D col -> ~ own col).
    { intros col H. apply Ho. eapply own_table_columns; eassumption. }
    destruct (tab_length C HC) as [TL1 TL2].
    eexists. split; [|exact T1].
    eexists _, _, _, _. split; [exact S1|].
    split. { intros col Hc. apply N3. intros X. now apply (Ho col). }
    split; [exact A1|].
    split. { intros q r v H. rewrite !in_app_iff in H. destruct H as [[H|H]|H].
             - apply custom_writes_in in H. destruct H as [H _]. exact (OT (Adv q) H).
             - apply rows_writes_in in H; [|assumption|assumption|now right]. destruct H as [H _]. exact (OT (Adv q) H).
             - apply (in_stack_adv_own D _ Laws) in H. now apply OC. }
    split; [exact F1|].
    split. { intros q r v H. rewrite in_app_iff in H. destruct H as [H|H].
             - apply enable_writes_in in H. destruct H as [H _]. exact (OT (Fix q) H).
             - apply (stack_fix_own D _ Laws) in H. now apply OC. }
    split; [exact Q1|].
    split. { intros q r H. rewrite in_app_iff in H. destruct H as [H|H].
             - apply sel_of_in in H. destruct H as [H _]. exact (OT (Sel q) H).
             - apply stack_sel_in in H. destruct H as (i & o & _ & H & _). apply (law_sel_rows D _ Laws) in H. apply OC. apply H. }
    exact C1.
  Qed.

  (** the copy constraints that [load] makes hold for the honest prover *)
  Lemma load_copies_hold : forall c (C : hash_circuit F) mode calcs t L0 L1 L copies n u blind,
    set_up c C mode calcs t L0 L1 L copies n u ->
    exists new, lo_copy L1 = lo_copy L0 ++ new
      /\ forall a b, In (a, b) new -> cell_at L (honest u L blind) a = cell_at L (honest u L blind) b.
  Proof.
    intros c C mode calcs t L0 L1 L copies n u blind (HC & HL & (short & h & B & Hh) & Hu & HR & Hn).
    destruct (build_facts _ _ _ _ _ B) as (_ & _ & HP & HS & _).
    destruct (chip_is_here C _ h HC HP) as (D & HD).
    destruct (loaded_final C _ h HC D mode calcs t L0 L1 L copies HD HL) as (_ & ins & finals & LF & FF).
    destruct LF as (_ & _ & _ & C1 & _).
    eexists. split; [exact C1|].
    set (rows := raw_rows calcs t) in *.
    set (pairs := final_pairs (at_ [] (table_out C rows)) (stack_out D 0 (table_in C rows))) in *.
    set (own := stack_copy D (lo_starts L) 0 ins).
    set (strip := fun cp (M : layout F) => {| lo_starts := lo_starts M; lo_next := lo_next M; lo_adv := lo_adv M; lo_fix := lo_fix M;
      lo_sel := lo_sel M; lo_copy := cp; lo_tables := lo_tables M; lo_const := lo_const M |}).
    assert (FF' : final_facts C D mode calcs t (strip [] L0) (strip (pairs ++ own) L) [] ins finals).
    { destruct FF as (INV & Er & Cr & Tb & LI & LFn & EI & EF & W & PA). unfold final_facts. cbv zeta. fold rows. fold pairs.
      split. { destruct INV as (I1 & I2 & I3 & I4 & I5 & I6 & I7 & I8 & I9).
               split; [exact I1|]. split; [exact I2|]. split; [exact I3|]. split; [exact I4|]. split; [exact I5|].
               split; [exact I6|]. split; [exact I7|]. split; [exact I8|]. intros p. cbn [strip lo_copy lo_starts].
               rewrite combine_fst by congruence. fold own. rewrite in_app_iff, app_nil_r. reflexivity. }
      split; [exact Er|]. split; [exact Cr|]. split; [exact Tb|]. split; [exact LI|]. split; [exact LFn|].
      split; [exact EI|]. split; [exact EF|]. split; [exact W|]. intros p Hp. cbn [strip lo_copy]. apply in_or_app. now left. }
    destruct (honest_chip C _ h HC HS D mode calcs t _ _ [] ins finals n u blind HD FF' Hu Hh Hn) as [_ CC].
    assert (CP : copies_hold (strip (pairs ++ own) L) (honest u (strip (pairs ++ own) L) blind)).
    { apply CC. intros a b []. }
    intros a b Hab. apply (CP a b). cbn [strip lo_copy].
    assert (EO : own = stack_copy D [] 0 (table_in C rows)).
    { destruct FF as (_ & _ & _ & _ & _ & _ & EI & _). rewrite at_located in EI. fold rows in EI. exact (at_copy D _ _ _ _ 0 EI). }
    rewrite EO. apply in_app_or in Hab. apply in_or_app. tauto.
  Qed.

  (** the exposed table of the honest prover does not depend on the rest of the layout *)
  Lemma contents_same : forall c (C : hash_circuit F) mode calcs t L0 L1 L copies n u L0' L1' L' copies' n' blind j r,
    set_up c C mode calcs t L0 L1 L copies n u -> set_up c C mode calcs t L0' L1' L' copies' n' u -> j < 6 -> r < u ->
    tcell C (honest u L blind) j r = tcell C (honest u L' blind) j r.
  Proof.
    intros c C mode calcs t L0 L1 L copies n u L0' L1' L' copies' n' blind j r
      (HC & HL & (short & h & B & Hh) & _) (_ & HL' & _) Hj Hr.
    destruct (build_facts _ _ _ _ _ B) as (_ & _ & HP & HS & _).
    destruct (chip_is_here C _ h HC HP) as (D & HD).
    destruct (loaded_final C _ h HC D mode calcs t L0 L1 L copies HD HL) as (_ & ins & finals & _ & FF).
    destruct (loaded_final C _ h HC D mode calcs t L0' L1' L' copies' HD HL') as (_ & ins' & finals' & _ & FF').
    destruct FF as (_ & _ & _ & _ & _ & _ & _ & _ & W & _). destruct FF' as (_ & _ & _ & _ & _ & _ & _ & _ & W' & _).
    assert (Hc : In (nth j (hc_table C) 0) (tcols (hc_chip C) (hc_config C))).
    { rewrite (tcols_eq C HC). apply in_or_app. left. apply nth_In. destruct HC as (_ & -> & _). exact Hj. }
    pose proof (eq_trans (W _ r Hc) (eq_sym (W' _ r Hc))) as X. unfold tcell, honest. rewrite X. reflexivity.
  Qed.
End Single.

Section Several.
  Context {F : Type} {FO : FieldOps F} {PF : PrimeField F}.

  Lemma apart_in : forall (Ts : list (table_use F)), tables_apart Ts -> forall T T', In T Ts -> In T' Ts -> T <> T' ->
    forall col, table_columns (tu_circuit T) col -> ~ table_columns (tu_circuit T') col.
  Proof.
    induction 1 as [|T0 Ts HF _ IH]; intros T T' H H' Hne col HT HT'; [destruct H|].
    rewrite Forall_forall in HF. destruct H as [<-|H], H' as [<-|H'].
    - now apply Hne.
    - exact (HF T' H' col HT HT').
    - exact (HF T H col HT' HT).
    - exact (IH T T' H H' Hne col HT HT').
  Qed.

  (** the tables and their constraint systems *)
  Lemma configured_columns : forall m (Ts : list (table_use F)) gates lookups, tables_configured m Ts gates lookups ->
    forall T, In T Ts -> host_columns (tu_circuit T).
  Proof.
    induction 1 as [m|Ts T gates lookups _ IH HC|m m' Ts gates lookups g l _ IH _ _ _ _ _]; intros T' H; [destruct H| |now apply IH].
    apply in_app_or in H. destruct H as [H|[<-|[]]]; [now apply IH|assumption].
  Qed.
  Lemma hc_gates : forall (T : table_use F) n u, host_columns (tu_circuit T) -> table_room n u T ->
    exists g l, cs_gates (hc_cs (tu_circuit T)) = cs_gates (hc_host (tu_circuit T)) ++ g
      /\ cs_lookups (hc_cs (tu_circuit T)) = cs_lookups (hc_host (tu_circuit T)) ++ l.
  Proof.
    intros T n u HC (_ & (short & h & B & _) & _). destruct (build_facts _ _ _ _ _ B) as (_ & _ & HP & _ & _).
    destruct (chip_is_here _ _ h HC HP) as (D & (_ & _ & _ & Eg & El & _)). rewrite Eg, El. eauto.
  Qed.
  Lemma configured_sub : forall m (Ts : list (table_use F)) gates lookups n u, tables_configured m Ts gates lookups ->
    (forall T, In T Ts -> table_room n u T) ->
    (forall T, In T Ts -> incl (cs_gates (hc_cs (tu_circuit T))) (cs_gates m) /\ incl (cs_lookups (hc_cs (tu_circuit T))) (cs_lookups m))
    /\ incl gates (cs_gates m) /\ incl lookups (cs_lookups m).
  Proof.
    intros m Ts gates lookups n u H. induction H as [m|Ts T gates lookups _ IH HC|m m' Ts gates lookups g l _ IH _ _ _ Eg El]; intros HR.
    - split; [intros T []|]. split; apply incl_refl.
    - destruct IH as (I1 & I2 & I3). { intros T' H'. apply HR. apply in_or_app. now left. }
      destruct (hc_gates T n u HC) as (g & l & Eg & El). { apply HR. apply in_or_app. right. now left. }
      split; [|rewrite Eg, El; split; apply incl_appl; assumption].
      intros T' H'. apply in_app_or in H'. destruct H' as [H'|[<-|[]]]; [|split; apply incl_refl].
      rewrite Eg, El. destruct (I1 T' H'). split; apply incl_appl; assumption.
    - destruct (IH HR) as (I1 & I2 & I3). rewrite Eg, El.
      split; [intros T H'; destruct (I1 T H'); split; apply incl_appl; assumption|].
      split; apply incl_app; try (apply incl_appl; assumption); apply incl_appr; apply incl_refl.
  Qed.

  (** ** The layout *)
  Definition loaded_here (T : table_use F) (L : layout F) (L0 L1 : layout F) (copies : list ((column * nat) * (column * nat))) : Prop :=
    loaded (tu_circuit T) (tu_mode T) (tu_calcs T) (tu_table T) L0 L1 L copies.

  Lemma loaded_elsewhere : forall T (L L' : layout F) L0 L1 copies copies' ts, loaded_here T L L0 L1 copies ->
    elsewhere (table_columns (tu_circuit T)) L L' copies' -> lo_tables L' = lo_tables L ++ ts ->
    loaded_here T L' L0 L1 (copies ++ copies').
  Proof.
    intros T L L' L0 L1 copies copies' ts (TF & Hm & E & El & (ts0 & Et)) E2 E3.
    split; [assumption|]. split; [assumption|]. split; [assumption|].
    split; [eapply elsewhere_trans; eassumption|]. exists (ts0 ++ ts). rewrite E3, Et. symmetry. apply app_assoc.
  Qed.
  Lemma free_elsewhere : forall (T : table_use F) (L L' : layout F) copies' ts, host_columns (tu_circuit T) -> table_free (tu_circuit T) L ->
    elsewhere (table_columns (tu_circuit T)) L L' copies' -> lo_tables L' = lo_tables L ++ ts ->
    (forall vals, ~ In (sc_range (hc_config (tu_circuit T)), vals) ts) -> table_free (tu_circuit T) L'.
  Proof.
    intros T L L' copies' ts HC (U & UT) El Et Hn. split; [eapply unused_elsewhere; eassumption|].
    intros vals H. rewrite Et in H. apply in_app_or in H. destruct H as [H|H]; [now apply (UT vals)|now apply (Hn vals)].
  Qed.
  Lemma range_column : forall (T : table_use F) n u, host_columns (tu_circuit T) -> table_room n u T ->
    table_columns (tu_circuit T) (Fix (sc_range (hc_config (tu_circuit T)))).
  Proof.
    intros T n u HC (_ & (short & h & B & _) & _). destruct (build_facts _ _ _ _ _ B) as (_ & _ & HP & _ & _).
    destruct (chip_is_here _ _ h HC HP) as (D & (_ & _ & _ & _ & _ & _ & _ & _ & _ & Le & _)).
    destruct (configured _ HC) as [-> _]. cbn [sc_range]. left. cbn [added csm cs_fix] in *. lia.
  Qed.

  Lemma laid_facts : forall m (Ts : list (table_use F)) gates lookups L done other n u, tables_set_up m Ts gates lookups L done other n u ->
    (forall T, In T done -> In T Ts)
    /\ (forall T, In T Ts -> ~ In T done -> table_free (tu_circuit T) L)
    /\ (forall T, In T done -> exists L0 L1 copies, loaded_here T L L0 L1 copies)
    /\ incl other (lo_copy L)
    /\ (forall p, In p (lo_copy L) -> In p other \/ exists T L0 L1 copies new, In T done /\ loaded_here T L L0 L1 copies
          /\ lo_copy L1 = lo_copy L0 ++ new /\ In p new).
  Proof.
    intros m Ts gates lookups L done other n u (HCF & HA & HL & HR).
    pose proof (configured_columns _ _ _ _ HCF) as HC. clear HCF.
    induction HL as [L Fr|L done other T L' _ IH HT HnT E|L done other L' copies ts _ IH El Et Hts].
    - split; [intros T []|]. split; [intros T H _; now apply Fr|]. split; [intros T []|]. split; [apply incl_refl|]. intros p H. now left.
    - destruct IH as (I1 & I2 & I3 & I4 & I5).
      pose proof (HR T HT) as (Hm & (short & h & B & _) & _).
      pose proof (I2 T HT HnT) as TF.
      assert (EL : forall own, (forall col, table_columns (tu_circuit T) col -> ~ own col) -> exists copies, elsewhere own L L' copies
                    /\ lo_tables L' = lo_tables L ++ [(sc_range (hc_config (tu_circuit T)), range_table (hc_legacy (tu_circuit T)) (hc_range (tu_circuit T)))])
        by (intros own Ho; exact (load_elsewhere _ _ short h _ _ _ _ _ own B (HC T HT) TF Hm E Ho)).
      assert (ELT : forall T', In T' Ts -> T' <> T -> exists copies, elsewhere (table_columns (tu_circuit T')) L L' copies
                    /\ lo_tables L' = lo_tables L ++ [(sc_range (hc_config (tu_circuit T)), range_table (hc_legacy (tu_circuit T)) (hc_range (tu_circuit T)))]).
      { intros T' H' Hne. apply EL. apply (apart_in Ts HA); auto. }
      destruct (EL (fun _ => False) (fun _ _ X => X)) as (cp & (st & av & fv & sv & _ & _ & _ & _ & _ & _ & _ & _ & Ecp) & _).
      assert (HERE : loaded_here T L' L L' []).
      { split; [assumption|]. split; [assumption|]. split; [assumption|]. split; [apply elsewhere_refl|]. exists []. symmetry. apply app_nil_r. }
      assert (OLD : forall T', In T' done -> T' <> T) by (intros T' H' ->; now apply HnT).
      assert (KEEP : forall T' L0 L1 copies, In T' done -> loaded_here T' L L0 L1 copies -> exists copies', loaded_here T' L' L0 L1 copies').
      { intros T' L0 L1 copies H' HL'. destruct (ELT T' (I1 T' H') (OLD T' H')) as (copies' & X1 & X2). eexists. eapply loaded_elsewhere; eassumption. }
      split. { intros T' H'. apply in_app_or in H'. destruct H' as [H'|[<-|[]]]; [now apply I1|assumption]. }
      split. { intros T' H' Hn'. rewrite in_app_iff in Hn'.
               assert (Hne : T' <> T) by (intros ->; apply Hn'; right; now left).
               destruct (ELT T' H' Hne) as (copies' & X1 & X2). eapply free_elsewhere; try eassumption; [now apply HC|apply I2; tauto|].
               intros vals [X|[]]. apply (f_equal fst) in X. cbn [fst] in X.
               apply (apart_in Ts HA T T' HT H' ltac:(auto) (Fix (sc_range (hc_config (tu_circuit T))))).
               - exact (range_column T n u (HC T HT) (HR T HT)).
               - rewrite X. exact (range_column T' n u (HC T' H') (HR T' H')). }
      split. { intros T' H'. apply in_app_or in H'. destruct H' as [H'|[<-|[]]]; [|eauto].
               destruct (I3 T' H') as (L0 & L1 & copies & X). destruct (KEEP T' L0 L1 copies H' X) as (copies' & Y). eauto. }
      split. { intros p Hp. rewrite Ecp. apply in_or_app. left. now apply I4. }
      intros p Hp. rewrite Ecp in Hp. apply in_app_or in Hp. destruct Hp as [Hp|Hp].
      + destruct (I5 p Hp) as [X|(T' & L0 & L1 & copies & new & H' & X & Y & Z)]; [now left|]. right.
        destruct (KEEP T' L0 L1 copies H' X) as (copies' & X'). exists T', L0, L1, copies', new.
        split; [apply in_or_app; now left|]. auto.
      + right. exists T, L, L', [], cp. split; [apply in_or_app; right; now left|]. auto.
    - destruct IH as (I1 & I2 & I3 & I4 & I5).
      assert (ELT : forall T, In T Ts -> elsewhere (table_columns (tu_circuit T)) L L' copies).
      { intros T HT. eapply elsewhere_sub; [|exact El]. intros col Hc. exists T. auto. }
      pose proof El as (st & av & fv & sv & _ & _ & _ & _ & _ & _ & _ & _ & Ecp).
      split; [exact I1|].
      split. { intros T HT Hn. eapply free_elsewhere; [now apply HC|now apply I2|now apply ELT|exact Et|].
               intros vals X. apply (Hts _ _ X). exists T. split; [assumption|]. exact (range_column T n u (HC T HT) (HR T HT)). }
      split. { intros T HT. destruct (I3 T HT) as (L0 & L1 & cp & X). exists L0, L1, (cp ++ copies).
               eapply loaded_elsewhere; [exact X|apply ELT; now apply I1|exact Et]. }
      split. { rewrite Ecp. apply incl_app; [apply incl_appl; exact I4|apply incl_appr, incl_refl]. }
      intros p Hp. rewrite Ecp in Hp. apply in_app_or in Hp. destruct Hp as [Hp|Hp]; [|left; apply in_or_app; now right].
      destruct (I5 p Hp) as [X|(T & L0 & L1 & cp & new & H' & X & Y & Z)]; [left; apply in_or_app; now left|]. right.
      exists T, L0, L1, (cp ++ copies), new. split; [assumption|].
      split; [eapply loaded_elsewhere; [exact X|apply ELT; now apply I1|exact Et]|]. auto.
  Qed.

  Lemma here_set_up : forall m (Ts : list (table_use F)) gates lookups L done other n u, tables_set_up m Ts gates lookups L done other n u ->
    forall T L0 L1 copies, In T Ts -> loaded_here T L L0 L1 copies ->
    set_up (tu_constants T) (tu_circuit T) (tu_mode T) (tu_calcs T) (tu_table T) L0 L1 L copies n u.
  Proof.
    intros m Ts gates lookups L done other n u (HCF & _ & _ & HR) T L0 L1 copies HT HL.
    destruct (HR T HT) as (_ & HB & H1 & H2 & H3).
    split; [exact (configured_columns _ _ _ _ HCF T HT)|]. split; [exact HL|]. auto.
  Qed.

  (** C67: soundness *)
  Theorem tables_sound_claim : forall m (Ts : list (table_use F)) gates lookups L done other n u adv,
    tables_set_up m Ts gates lookups L done other n u -> satisfied n u m L adv ->
    forall T, In T done ->
    (exists L0 L1 copies, set_up (tu_constants T) (tu_circuit T) (tu_mode T) (tu_calcs T) (tu_table T) L0 L1 L copies n u)
    /\ satisfied n u (hc_cs (tu_circuit T)) L adv
    /\ accepted (tu_constants T) (tu_circuit T) (tu_calcs T) adv.
  Proof.
    intros m Ts gates lookups L done other n u adv S (G & Lk & Cp) T HT.
    destruct (laid_facts _ _ _ _ _ _ _ _ _ S) as (I1 & _ & I3 & _). destruct (I3 T HT) as (L0 & L1 & copies & HL).
    pose proof (here_set_up _ _ _ _ _ _ _ _ _ S T L0 L1 copies (I1 T HT) HL) as SU.
    assert (SAT : satisfied n u (hc_cs (tu_circuit T)) L adv).
    { destruct S as (HCF & _ & _ & HR). destruct (configured_sub _ _ _ _ n u HCF HR) as (X & _).
      destruct (X T (I1 T HT)) as [X1 X2]. split; [|split; [|exact Cp]].
      - intros g r Hg. apply G. now apply X1.
      - intros e tt r He. apply Lk. now apply X2. }
    split; [eauto|]. split; [exact SAT|].
    exists (tu_mode T), (tu_table T), L0, L1, L, copies, n, u. auto.
  Qed.

  (** C67: completeness *)
  Theorem tables_complete_claim : forall m (Ts : list (table_use F)) gates lookups L done other n u blind,
    tables_set_up m Ts gates lookups L done other n u -> (forall T, In T Ts -> In T done) ->
    (forall T i, In T Ts -> (Z.of_N (row_control (tu_table T) i + N.of_nat (hc_step (tu_circuit T)))
       * (if hc_legacy (tu_circuit T) then 1 else 2 ^ 64) < modulus (F := F))%Z) ->
    let adv := honest u L blind in
    satisfied n u m L adv <->
    (forall T, In T Ts -> well_formed (hc_range (tu_circuit T)) (hc_step (tu_circuit T)) (tu_calcs T) (tu_table T))
    /\ gates_hold n L adv gates /\ lookups_hold n u L adv lookups
    /\ (forall a b, In (a, b) other -> cell_at L adv a = cell_at L adv b).
  Proof.
    intros m Ts gates lookups L done other n u blind S HD Bd adv.
    destruct (laid_facts _ _ _ _ _ _ _ _ _ S) as (I1 & _ & I3 & I4 & I5).
    pose proof S as S'. destruct S' as (HCF & _ & _ & HR).
    split.
    - intros SAT. split.
      + intros T HT. destruct (tables_sound_claim _ _ _ _ _ _ _ _ _ _ S SAT T (HD T HT)) as ((L0 & L1 & copies & SU) & ST & _).
        exact (proj1 (proj1 (complete_claim _ _ _ _ _ _ _ _ _ n u blind SU (fun i => Bd T i HT)) ST)).
      + destruct SAT as (G & Lk & Cp). destruct (configured_sub _ _ _ _ n u HCF HR) as (_ & X1 & X2).
        split; [intros g r Hg; apply G; now apply X1|]. split; [intros e tt r He; apply Lk; now apply X2|].
        intros a b H. apply Cp. now apply I4.
    - intros (WF & G & Lk & Cp).
      assert (CH : copies_hold L adv).
      { intros a b Hab. destruct (I5 _ Hab) as [X|(T & L0 & L1 & copies & new & HT & HL & En & Hin)]; [now apply Cp|].
        destruct (load_copies_hold _ _ _ _ _ _ _ _ _ n u blind (here_set_up _ _ _ _ _ _ _ _ _ S T L0 L1 copies (I1 T HT) HL)) as (new' & En' & Hold).
        apply Hold. rewrite En in En'. apply app_inv_head in En'. now rewrite <- En'. }
      assert (K : gates_hold n L adv (cs_gates m) /\ lookups_hold n u L adv (cs_lookups m)).
      { assert (SU : forall T, In T Ts -> exists L0 L1 copies, incl (lo_copy L0 ++ copies) (lo_copy L)
                     /\ set_up (tu_constants T) (tu_circuit T) (tu_mode T) (tu_calcs T) (tu_table T) L0 L1 L copies n u).
        { intros T HT. destruct (I3 T (HD T HT)) as (L0 & L1 & copies & HL). exists L0, L1, copies.
          pose proof (here_set_up _ _ _ _ _ _ _ _ _ S T L0 L1 copies HT HL) as SU. split; [|exact SU].
          destruct (load_copies_hold _ _ _ _ _ _ _ _ _ n u blind SU) as (new & En & _).
          destruct HL as (_ & _ & _ & (st & av & fv & sv & _ & _ & _ & _ & _ & _ & _ & _ & Ecp) & _).
          rewrite Ecp, En. apply incl_app; [apply incl_appl, incl_appl, incl_refl|apply incl_appr, incl_refl]. }
        clear S HD I1 I3 I4 I5 HR Cp. induction HCF as [m|Ts T gates lookups HCF IH HC|m m' Ts gates lookups g l HCF IH _ _ _ Eg El].
        - auto.
        - destruct IH as [G1 G2]; try assumption.
          { intros T' i H'. apply Bd. apply in_or_app. now left. }
          { intros T' H'. apply WF. apply in_or_app. now left. }
          { intros T' H'. apply SU. apply in_or_app. now left. }
          assert (HT : In T (Ts ++ [T])) by (apply in_or_app; right; now left).
          destruct (SU T HT) as (L0 & L1 & copies & Hin & SUT).
          assert (SAT : satisfied n u (hc_cs (tu_circuit T)) L adv).
          { apply (complete_claim _ _ _ _ _ _ _ _ _ n u blind SUT (fun i => Bd T i HT)). split; [now apply WF|].
            split; [exact G1|]. split; [exact G2|]. intros a b H. apply CH. now apply Hin. }
          destruct SAT as (X & Y & _). auto.
        - apply gates_app in G. apply lookups_app in Lk. destruct G as [Ga Gb]. destruct Lk as [La Lb].
          destruct (IH Bd WF Ga La SU) as [G1 G2]. rewrite Eg, El. split; [apply gates_app|apply lookups_app]; auto. }
      split; [apply K|]. split; [apply K|exact CH].
  Qed.

  (** C67: loading one of them *)
  Theorem tables_load_claim : forall m (Ts : list (table_use F)) gates lookups L done other n u T L0,
    tables_set_up m Ts gates lookups L done other n u -> In T Ts -> ~ In T done -> table_free (tu_circuit T) L0 ->
    let load := hc_load (tu_circuit T) (tu_mode T) (tu_calcs T) (tu_table T) in
    (exists L', load L = Ok (L', tt)) <-> (exists L', load L0 = Ok (L', tt)).
  Proof.
    intros m Ts gates lookups L done other n u T L0 S HT Hn TF0 load.
    destruct (laid_facts _ _ _ _ _ _ _ _ _ S) as (_ & I2 & _). pose proof (I2 T HT Hn) as TF.
    destruct S as (HCF & _ & _ & HR). pose proof (configured_columns _ _ _ _ HCF T HT) as HC.
    destruct (HR T HT) as (Hm & (short & h & B & _) & _).
    destruct (load_outcome _ _ short h (tu_mode T) (tu_calcs T) (tu_table T) L B HC TF Hm) as [A1 A2].
    destruct (load_outcome _ _ short h (tu_mode T) (tu_calcs T) (tu_table T) L0 B HC TF0 Hm) as [B1 B2].
    destruct (accept _ _ _ _ _ _).
    - split; intros _; [apply B2|apply A2]; reflexivity.
    - unfold load. rewrite (A1 eq_refl), (B1 eq_refl). reflexivity.
  Qed.

  (** C67: what the honest prover exposes *)
  Theorem tables_contents_claim : forall m (Ts : list (table_use F)) gates lookups L done other n u T L0 L1 L' copies n' blind j r,
    tables_set_up m Ts gates lookups L done other n u -> In T done ->
    set_up (tu_constants T) (tu_circuit T) (tu_mode T) (tu_calcs T) (tu_table T) L0 L1 L' copies n' u -> j < 6 -> r < u ->
    tcell (tu_circuit T) (honest u L blind) j r = tcell (tu_circuit T) (honest u L' blind) j r.
  Proof.
    intros m Ts gates lookups L done other n u T L0 L1 L' copies n' blind j r S HT SU' Hj Hr.
    destruct (laid_facts _ _ _ _ _ _ _ _ _ S) as (I1 & _ & I3 & _). destruct (I3 T HT) as (L0' & L1' & copies' & HL).
    pose proof (here_set_up _ _ _ _ _ _ _ _ _ S T L0' L1' copies' (I1 T HT) HL) as SU.
    exact (contents_same _ _ _ _ _ _ _ _ _ _ _ _ _ _ _ _ blind j r SU SU' Hj Hr).
  Qed.
End Several.

Local Transparent hc_load.

Section Once.
  Context {F : Type} {FO : FieldOps F} {PF : PrimeField F}.

  (** C72 *)
  Theorem load_once_claim : forall c (C : hash_circuit F) short h mode calcs t L0 L1 L2 mode' calcs' t',
    build c short (hc_spec C) (hc_chip C) h -> host_columns C -> table_free C L0 -> mode_ok mode ->
    hc_load C mode calcs t L0 = Ok (L1, tt) -> (exists ts, lo_tables L2 = lo_tables L1 ++ ts) ->
    hc_load C mode' calcs' t' L2 = Panic.
  Proof.
    intros c C short h mode calcs t L0 L1 L2 mode' calcs' t' B HC TF Hm E (ts & Ets).
    destruct (build_facts _ _ _ _ _ B) as (_ & _ & HP & _ & _). destruct (chip_is_here C _ h HC HP) as (D & HD).
    destruct (load_facts_of _ _ _ _ _ _ _ _ _ B HC TF Hm E D HD) as (_ & ins & finals & LF & _).
    destruct LF as (_ & _ & _ & _ & T1 & _).
    unfold hc_load, load. unfold lbind at 1.
    rewrite (assign_table_again _ _ L2 (range_table (hc_legacy C) (hc_range C))); [reflexivity|].
    rewrite Ets, T1. apply in_or_app. left. apply in_or_app. right. now left.
  Qed.
End Once.
