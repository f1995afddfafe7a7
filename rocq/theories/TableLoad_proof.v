(** The layout made by loading a hash table, in both modes. *)
From Coq Require Import ZArith List Arith Lia Bool.
From Verif Require Import Field Rust ListAux Primitives Specs BaseHash Halo2 PermuteChip ChipUse Layout_proof Contract
  SpongeTable TableRows_proof.
Import ListNotations.
Local Open Scope nat_scope.

Section Load.
  Context {F : Type} {FO : FieldOps F}.
  Variable legacy : bool.
  Variable P : permute_chip F.
  Variable STEP : nat.
  Variable s : spec F.
  Variable cfg : sponge_config P.
  Hypothesis Htab : length (sc_table cfg) = 6.
  Hypothesis Haux : length (sc_aux cfg) = 6.
  Notation row := (@raw_row F).
  Notation writes := (list (nat * nat * option F)).
  Notation rows_writes := (rows_writes legacy P STEP s cfg).
  Notation rows_good := (rows_good legacy STEP s).
  Notation rows_in := (rows_in legacy P STEP s cfg).
  Notation rows_out := (rows_out legacy P STEP s cfg).
  Notation loop_after := (loop_after legacy STEP s).
  Notation enable_writes := (enable_writes P cfg).
  Notation r_fin := (r_fin (F := F) STEP).

  (** columns of the table *)
  Definition tcols : list nat := sc_table cfg ++ sc_aux cfg ++ [sc_control_aux cfg] ++ [sc_continue cfg].
  Definition tab_own (c : column) : Prop :=
    match c with Adv i => In i tcols | Fix i => i = sc_enable cfg | Sel i => i = sc_custom cfg end.
  Definition custom_writes : writes := map (fun c => (c, 0, Some fzero)) tcols.

  Lemma col_table_in : forall i, i < 6 -> In (col (sc_table cfg) i) tcols.
  Proof. intros i H. unfold tcols. apply in_app_iff. left. apply nth_In. lia. Qed.
  Lemma col_aux_in : forall i, i < 6 -> In (col (sc_aux cfg) i) tcols.
  Proof. intros i H. unfold tcols. apply in_app_iff. right. apply in_app_iff. left. apply nth_In. lia. Qed.
  Lemma col_control_aux_in : In (sc_control_aux cfg) tcols.
  Proof. unfold tcols. rewrite !in_app_iff. right; right; left; now left. Qed.
  Lemma col_continue_in : In (sc_continue cfg) tcols.
  Proof. unfold tcols. rewrite !in_app_iff. right; right; right; now left. Qed.

  (** rows and columns of the writes *)
  Lemma row_writes_in : forall o lp r c i v, lp_start lp <= o \/ lp_new lp = true ->
    In (c, i, v) (row_writes legacy P STEP s cfg o lp r) -> In c tcols /\ i <= o /\ r_start o lp <= i.
  Proof.
    intros o lp r c i v Hlp H. assert (Hs : r_start o lp <= o).
    { unfold r_start. destruct (lp_new lp); [lia|]. destruct Hlp; [assumption|discriminate]. }
    unfold row_writes in H. apply in_app_iff in H. destruct H as [H|H].
    - apply in_map_iff in H. destruct H as ([c' v'] & E & H). injection E as E1 E2 E3. subst c' i.
      split; [|lia]. unfold main_cells in H. cbn [In] in H.
      repeat (destruct H as [H|H]; [injection H as <- _; first [apply col_aux_in; lia | apply col_table_in; lia
        | apply col_control_aux_in | apply col_continue_in]|]). destruct H.
    - unfold digest_writes in H. destruct (TableRows_proof.r_fin STEP r); [|destruct H].
      apply in_map_iff in H. destruct H as (ith & E & H). injection E as E1 E2 E3. subst c i.
      apply in_seq in H. split; [apply col_table_in; lia|lia].
  Qed.
  Lemma rows_writes_in : forall rows o lp c i v, lp_start lp <= o \/ lp_new lp = true ->
    In (c, i, v) (rows_writes o lp rows) -> In c tcols /\ i < o + length rows /\ r_start o lp <= i.
  Proof.
    induction rows as [|r rows IH]; intros o lp c i v Hlp H; [destruct H|].
    cbn [TableRows_proof.rows_writes] in H. apply in_app_iff in H. cbn [length].
    assert (Hs : r_start o lp <= o).
    { unfold r_start. destruct (lp_new lp); [lia|]. destruct Hlp; [assumption|discriminate]. }
    destruct H as [H|H].
    - apply row_writes_in in H; [|assumption]. split; [apply H|]. split; [lia|apply H].
    - apply IH in H; [|left; unfold r_next; cbn [lp_start]; lia].
      split; [apply H|]. split; [lia|].
      destruct H as (_ & _ & H). unfold r_start at 1 in H. destruct (lp_new (r_next legacy STEP s o lp r)); [lia|].
      unfold r_next in H. cbn [lp_start] in H. assumption.
  Qed.

  (** ** The custom row *)
  Definition custom_evs : list (event F) :=
    EnableSelector (sc_custom cfg) 0 :: map (fun c => AssignAdvice c 0 (Some fzero)) tcols.
  Lemma fill_custom_eq : forall ri, fill_custom P cfg ri = Ok (custom_evs, 1).
  Proof.
    intros ri. unfold fill_custom, custom_evs. eapply rbind_ok1; [reflexivity|].
    match goal with |- _ = Ok (?l, _) => rewrite <- (app_nil_r l) end. eapply rbind_ok; [|reflexivity].
    fold tcols.
    rewrite (rmap_ok _ (fun c => acell_at ri 0 c fzero) (fun c => [AssignAdvice c 0 (Some fzero)])) by reflexivity.
    reflexivity.
  Qed.
  Lemma adv_ws_custom : adv_ws custom_evs = custom_writes.
  Proof.
    unfold custom_evs, custom_writes. cbn [adv_ws flat_map app].
    induction tcols as [|c l IH]; cbn; [reflexivity|]. cbn in IH. now rewrite IH.
  Qed.
  Lemma fix_ws_custom : fix_ws custom_evs = [].
  Proof. unfold custom_evs. cbn [fix_ws flat_map app]. induction tcols as [|c l IH]; cbn; [reflexivity|]. exact IH. Qed.
  Lemma sel_ws_custom : sel_ws custom_evs = [(sc_custom cfg, 0)].
  Proof.
    unfold custom_evs. cbn [sel_ws flat_map app]. f_equal.
    induction tcols as [|c l IH]; cbn; [reflexivity|]. exact IH.
  Qed.
  Lemma copies_ws_custom : copies_ws custom_evs = [].
  Proof. unfold custom_evs. cbn [copies_ws flat_map app]. induction tcols as [|c l IH]; cbn; [reflexivity|]. exact IH. Qed.
  Lemma const_custom : const_events custom_evs = [].
  Proof. unfold custom_evs. cbn [const_events flat_map app]. induction tcols as [|c l IH]; cbn; [reflexivity|]. exact IH. Qed.

  (** ** Result of the assignment of the rows *)
  Definition at_ (st : list nat) : list (list (acell F)) -> list (list ((column * nat) * option F)) :=
    map (map (fun w => (abs_cell st (ac_cell w), ac_val w))).
  Lemma at_located : forall (L : layout F) x, map (map (located L)) x = at_ (lo_starts L) x.
  Proof. reflexivity. Qed.
  Definition ins_at (rows : list row) := at_ [] (rows_in 0 1 loop_start rows).
  Definition outs_at (rows : list row) := at_ [] (rows_out 0 1 loop_start rows).

  Definition rows_laid (L L' : layout F) (rows : list row) (ins outs : list (list (acell F)))
             (sel : list (nat * nat)) : Prop :=
    (exists new, lo_starts L' = lo_starts L ++ new)
    /\ (forall c, ~ tab_own c -> lo_next L' c = lo_next L c)
    /\ lo_adv L' = lo_adv L ++ custom_writes ++ rows_writes 1 loop_start rows
    /\ lo_fix L' = lo_fix L ++ enable_writes 1 (length rows)
    /\ lo_sel L' = lo_sel L ++ sel
    /\ lo_copy L' = lo_copy L /\ lo_tables L' = lo_tables L /\ lo_const L' = lo_const L
    /\ map (map (located L')) ins = ins_at rows /\ map (map (located L')) outs = outs_at rows
    /\ Forall (three_words L') ins /\ Forall (three_words L') outs.

  Lemma rows_in_words : forall rows ri o lp (L : layout F), ri < length (lo_starts L) ->
    Forall (three_words L) (rows_in ri o lp rows) /\ Forall (three_words L) (rows_out ri o lp rows).
  Proof.
    induction rows as [|r rows IH]; intros ri o lp L H; [split; constructor|].
    cbn [TableRows_proof.rows_in TableRows_proof.rows_out].
    destruct (IH ri (S o) (r_next legacy STEP s o lp r) L H) as [I1 I2].
    split; (constructor; [|assumption]); (split; [reflexivity|]); repeat constructor; assumption.
  Qed.
  Lemma at_ext : forall st st' ri ri' rows o lp, nth ri st 0 = nth ri' st' 0 ->
    at_ st (rows_in ri o lp rows) = at_ st' (rows_in ri' o lp rows)
    /\ at_ st (rows_out ri o lp rows) = at_ st' (rows_out ri' o lp rows).
  Proof.
    intros st st' ri ri' rows. induction rows as [|r rows IH]; intros o lp H; [split; reflexivity|].
    cbn [TableRows_proof.rows_in TableRows_proof.rows_out].
    destruct (IH (S o) (r_next legacy STEP s o lp r) H) as [I1 I2]. unfold at_ in *. cbn [map].
    split; (f_equal; [|assumption]).
    - unfold row_start_cells. cbn [map]. unfold abs_cell, acell_at. cbn [ac_cell ac_val ce_col ce_off ce_region].
      rewrite H. reflexivity.
    - unfold row_end_cells. cbn [map]. unfold abs_cell, acell_at. cbn [ac_cell ac_val ce_col ce_off ce_region].
      rewrite H. reflexivity.
  Qed.

  Lemma moved00 : forall {V} (l : list (nat * nat * V)), map (moved 0 0) l = l.
  Proof.
    intros V l. rewrite <- (map_id l) at 2. apply map_ext. intros [[c o] v]. cbn. now rewrite !Nat.add_0_r.
  Qed.
  Lemma sel00 : forall l : list (nat * nat), map (fun '(q, o) => (q, o + 0)) l = l.
  Proof.
    intros l. rewrite <- (map_id l) at 2. apply map_ext. intros [q o]. now rewrite Nat.add_0_r.
  Qed.

  (** the table's columns are free *)
  Definition tab_free (L : layout F) : Prop := forall c, tab_own c -> lo_next L c = 0.

  (** ** Serial *)
  Definition last_sel (calcs : nat) : list (nat * nat) :=
    [(sc_custom cfg, match calcs with O => 0 | S k => k + 1 end)].
  Definition serial_fits (calcs : nat) (t : hash_table F) : bool :=
    (length (ht_inputs t) <=? calcs) && (length (ht_controls t) <=? calcs).

  Lemma padded_length : forall {A} calcs (l : list (option A)), length (padded calcs l) = calcs.
  Proof.
    clear Htab Haux. intros A calcs l. unfold padded. rewrite firstn_length, app_length, repeat_length. lia.
  Qed.
  Lemma raw_rows_length : forall calcs (t : hash_table F), length (raw_rows calcs t) = calcs.
  Proof.
    clear Htab Haux. intros. unfold raw_rows, raw_row. rewrite !combine_length, !padded_length. lia.
  Qed.

  Lemma serial_eq : forall calcs t ri,
    (rdo begin_offset <- fill_custom P cfg; fill_body legacy P STEP s cfg calcs t begin_offset) ri
    = if serial_fits calcs t && rows_good 1 loop_start (raw_rows calcs t) then
        Ok (custom_evs ++ rows_evs legacy P STEP s cfg 1 loop_start (raw_rows calcs t)
              ++ [EnableSelector (sc_custom cfg) (match calcs with O => 0 | S k => k + 1 end)],
            (rows_in ri 1 loop_start (raw_rows calcs t), rows_out ri 1 loop_start (raw_rows calcs t)))
      else Panic.
  Proof.
    intros calcs t ri. unfold rbind at 1. rewrite fill_custom_eq. cbn [bind]. unfold fill_body.
    fold (serial_fits calcs t). unfold rassert.
    destruct (serial_fits calcs t).
    - rewrite (rlift_ok _ tt) by reflexivity. unfold rbind at 1. rewrite fill_rows_eq. cbn [andb].
      destruct (rows_good 1 loop_start (raw_rows calcs t)); [|reflexivity]. cbn [bind].
      unfold rbind, enable_selector, rret. cbn [bind app]. reflexivity.
    - rewrite rlift_panic by reflexivity. reflexivity.
  Qed.

  Lemma touched_own : forall (evs : list (event F)) c o,
    (forall c o v, In (c, o, v) (adv_ws evs) -> In c tcols) ->
    (forall c o v, In (c, o, v) (fix_ws evs) -> c = sc_enable cfg) ->
    (forall q o, In (q, o) (sel_ws evs) -> q = sc_custom cfg) ->
    In (c, o) (touched evs) -> tab_own c.
  Proof.
    intros evs c o H1 H2 H3 H. destruct c as [c|c|c]; cbn [tab_own].
    - apply touched_adv in H. destruct H as [v H]. eapply H1. exact H.
    - apply touched_fix in H. destruct H as [v H]. eapply H2. exact H.
    - apply touched_sel in H. eapply H3. exact H.
  Qed.

  Lemma region_start0 : forall next (evs : list (event F)), (forall c o, In (c, o) (touched evs) -> next c = 0) ->
    region_start next evs = 0.
  Proof.
    intros next evs H. unfold region_start. induction (touched evs) as [|[c o] l IH]; [reflexivity|].
    cbn [fold_right]. rewrite IH by (intros; eapply H; right; eassumption).
    rewrite (H c o) by now left. reflexivity.
  Qed.

  (** the custom row alone, in parallel mode *)
  Lemma custom_region : forall L, tab_free L ->
    exists L1, assign_region (fill_custom P cfg) L = Ok (L1, 1)
      /\ lo_starts L1 = lo_starts L ++ [0]
      /\ (forall c, lo_next L1 c = if existsb (fun i => column_eqb c (Adv i)) tcols then 1
                                   else if column_eqb c (Sel (sc_custom cfg)) then 1 else lo_next L c)
      /\ lo_adv L1 = lo_adv L ++ custom_writes /\ lo_fix L1 = lo_fix L
      /\ lo_sel L1 = lo_sel L ++ [(sc_custom cfg, 0)]
      /\ lo_copy L1 = lo_copy L /\ lo_tables L1 = lo_tables L /\ lo_const L1 = lo_const L.
  Proof.
    intros L Hf. rewrite (assign_region_ok _ _ custom_evs 1) by (try apply fill_custom_eq; apply const_custom).
    assert (TO : forall c o, In (c, o) (touched custom_evs) -> tab_own c).
    { intros c o. apply touched_own.
      - intros c' o' v. rewrite adv_ws_custom. unfold custom_writes. rewrite in_map_iff.
        intros (x & E & Hx). injection E as <- _ _. assumption.
      - intros c' o' v. rewrite fix_ws_custom. intros [].
      - intros q o'. rewrite sel_ws_custom. intros [E|[]]. now injection E as <- _. }
    assert (RS : region_start (lo_next L) custom_evs = 0).
    { apply region_start0. intros c o H. apply Hf. eapply TO. exact H. }
    assert (RC : row_count custom_evs = 1).
    { apply (row_count_eq _ 0 (Sel (sc_custom cfg))).
      - intros c o H. destruct c as [c|c|c].
        + apply touched_adv in H. destruct H as [v H]. rewrite adv_ws_custom in H. unfold custom_writes in H.
          apply in_map_iff in H. destruct H as (x & E & _). injection E as _ <- _. lia.
        + apply touched_fix in H. destruct H as [v H]. rewrite fix_ws_custom in H. destruct H.
        + apply touched_sel in H. rewrite sel_ws_custom in H. destruct H as [E|[]]. injection E as _ <-. lia.
      - apply touched_sel. rewrite sel_ws_custom. now left. }
    eexists. split; [reflexivity|]. unfold commit, reserve. cbn [lo_starts lo_next lo_adv lo_fix lo_sel lo_copy lo_tables lo_const].
    rewrite RS, RC, app_nth2, Nat.sub_diag by lia. cbn [nth].
    rewrite abs_adv_ws, abs_fix_ws, abs_sel_ws, abs_copy_ws, adv_ws_custom, fix_ws_custom, sel_ws_custom, copies_ws_custom.
    rewrite moved00, sel00. cbn [map]. rewrite !app_nil_r.
    split; [reflexivity|]. split; [|repeat split; reflexivity].
    intros c. unfold next_after. rewrite Nat.add_0_r.
    unfold custom_evs. cbn [touched flat_map app existsb].
    change (flat_map _ (map (fun c0 => AssignAdvice c0 0 (Some fzero)) tcols))
      with (touched (F := F) (map (fun c0 => AssignAdvice c0 0 (Some fzero)) tcols)).
    replace (existsb (fun '(c', _) => column_eqb c c') (touched (F := F) (map (fun c0 => AssignAdvice c0 0 (Some fzero)) tcols)))
      with (existsb (fun i => column_eqb c (Adv i)) tcols).
    - destruct (column_eqb c (Sel (sc_custom cfg))); cbn [orb]; [|reflexivity].
      destruct (existsb _ _); reflexivity.
    - induction tcols as [|x l IH]; cbn; [reflexivity|]. cbn in IH. now rewrite IH.
  Qed.

  Lemma serial_laid : forall calcs t L, tab_free L ->
    if serial_fits calcs t && rows_good 1 loop_start (raw_rows calcs t) then
      exists L' ins outs,
        load_rows legacy P STEP s cfg Serial calcs t L = Ok (L', (ins, outs))
        /\ rows_laid L L' (raw_rows calcs t) ins outs ((sc_custom cfg, 0) :: last_sel calcs)
        /\ (forall c, tab_own c -> lo_next L' c = match c with Fix _ => if calcs =? 0 then 0 else S calcs | _ => S calcs end)
    else load_rows legacy P STEP s cfg Serial calcs t L = Panic.
  Proof.
    intros calcs t L Hf. set (rows := raw_rows calcs t).
    assert (Lr : length rows = calcs) by apply raw_rows_length.
    assert (EQ : forall ri, _) by exact (serial_eq calcs t).
    fold rows in EQ.
    destruct (serial_fits calcs t && rows_good 1 loop_start rows).
    2:{ unfold load_rows, assign_region. rewrite EQ. reflexivity. }
    set (lastr := match calcs with O => 0 | S k => k + 1 end) in *.
    set (evs := custom_evs ++ rows_evs legacy P STEP s cfg 1 loop_start rows ++ [EnableSelector (sc_custom cfg) lastr]) in *.
    assert (EA : adv_ws evs = custom_writes ++ rows_writes 1 loop_start rows).
    { unfold evs. rewrite !adv_ws_app, adv_ws_custom, rows_evs_adv. cbn [adv_ws flat_map]. now rewrite app_nil_r. }
    assert (EF : fix_ws evs = enable_writes 1 calcs).
    { unfold evs. rewrite !fix_ws_app, fix_ws_custom, rows_evs_fix, Lr. cbn [fix_ws flat_map app]. now rewrite app_nil_r. }
    assert (ES : sel_ws evs = (sc_custom cfg, 0) :: last_sel calcs).
    { unfold evs. rewrite !sel_ws_app, sel_ws_custom, rows_evs_sel. reflexivity. }
    assert (EC : copies_ws evs = []).
    { unfold evs. rewrite !copies_ws_app, copies_ws_custom, rows_evs_copies. reflexivity. }
    assert (EK : const_events evs = []).
    { unfold evs. rewrite !const_events_app, const_custom, rows_evs_const. reflexivity. }
    assert (W : forall c i v, In (c, i, v) (rows_writes 1 loop_start rows) -> In c tcols /\ i < 1 + calcs).
    { intros c i v H. apply rows_writes_in in H; [|now right]. rewrite Lr in H. tauto. }
    assert (Lst : lastr < S calcs) by (unfold lastr; destruct calcs; lia).
    assert (TO : forall c o, In (c, o) (touched evs) -> tab_own c /\ o < S calcs).
    { intros c o H. split.
      - revert H. apply touched_own.
        + intros c' o' v. rewrite EA, in_app_iff. unfold custom_writes. rewrite in_map_iff.
          intros [(x & E & Hx)|H]; [injection E as <- _ _; assumption|]. eapply W. exact H.
        + intros c' o' v. rewrite EF. unfold TableRows_proof.enable_writes. rewrite in_map_iff.
          intros (x & E & Hx). now injection E as <- _ _.
        + intros q o'. rewrite ES. cbn. intros [E|[E|[]]]; now injection E as <- _.
      - destruct c as [c|c|c].
        + apply touched_adv in H. destruct H as [v H]. rewrite EA, in_app_iff in H. destruct H as [H|H].
          * unfold custom_writes in H. apply in_map_iff in H. destruct H as (x & E & _). injection E as _ <- _. lia.
          * apply W in H. lia.
        + apply touched_fix in H. destruct H as [v H]. rewrite EF in H. unfold TableRows_proof.enable_writes in H.
          apply in_map_iff in H. destruct H as (x & E & Hx). injection E as _ <- _. apply in_seq in Hx. lia.
        + apply touched_sel in H. rewrite ES in H. destruct H as [E|[E|[]]]; injection E as _ <-; lia. }
    assert (RS : region_start (lo_next L) evs = 0).
    { apply region_start0. intros c o H. apply Hf. eapply TO. exact H. }
    assert (LS : In (Sel (sc_custom cfg), calcs) (touched evs)).
    { apply touched_sel. rewrite ES. right. left. f_equal. unfold lastr. destruct calcs; lia. }
    assert (RC : row_count evs = S calcs).
    { eapply row_count_eq; [|exact LS]. intros c o H. now apply (TO c o). }
    unfold load_rows. rewrite (assign_region_ok _ _ evs _ (EQ _) EK).
    eexists. eexists. eexists. split; [reflexivity|]. split.
    - unfold rows_laid, commit, reserve.
      cbn [lo_starts lo_next lo_adv lo_fix lo_sel lo_copy lo_tables lo_const].
      rewrite RS, RC, app_nth2, Nat.sub_diag by lia. cbn [nth].
      rewrite abs_adv_ws, abs_fix_ws, abs_sel_ws, abs_copy_ws, EA, EF, ES, EC, !moved00, sel00. rewrite Lr.
      split; [now exists [0]|].
      split. { intros c Hc. apply next_after_out. intros o H. apply Hc. now apply (TO c o). }
      do 3 (split; [reflexivity|]). cbn [map]. split; [now rewrite app_nil_r|]. do 2 (split; [reflexivity|]).
      rewrite !at_located. cbn [lo_starts]. unfold ins_at, outs_at.
      assert (E0 : nth (length (lo_starts L)) (lo_starts L ++ [0]) 0 = nth 0 [] 0) by (rewrite app_nth2, Nat.sub_diag by lia; reflexivity).
      destruct (at_ext _ _ _ _ rows 1 loop_start E0) as [A1 A2].
      split; [exact A1|]. split; [exact A2|].
      apply rows_in_words. cbn [lo_starts]. rewrite app_length. cbn. lia.
    - intros c Hc. cbn [commit reserve lo_next]. rewrite RS, RC, Nat.add_0_r.
      destruct c as [c|c|c]; cbn [tab_own] in Hc.
      + apply (next_after_in _ _ _ _ 0). apply touched_adv. exists (Some fzero). rewrite EA. apply in_app_iff. left.
        unfold custom_writes. apply in_map_iff. now exists c.
      + subst c. destruct calcs as [|k]; cbn [Nat.eqb].
        * rewrite next_after_out; [apply Hf; reflexivity|]. intros o H. apply touched_fix in H. destruct H as [v H].
          rewrite EF in H. destruct H.
        * apply (next_after_in _ _ _ _ 1). apply touched_fix. exists fone. rewrite EF. now left.
      + subst c. apply (next_after_in _ _ _ _ calcs). exact LS.
  Qed.

  (** ** Parallel *)

  (** chunks: not empty, and all but the last end with a message *)
  Fixpoint aligned (cks : list (list row)) : Prop :=
    match cks with
    | [] => True
    | c :: rest => c <> [] /\ (rest = [] \/ exists x r, c = x ++ [r] /\ r_fin r = true) /\ aligned rest
    end.

  Lemma chunks_ok : forall m data chunk,
    concat (chunks STEP m chunk data) = chunk ++ data /\ aligned (chunks STEP m chunk data).
  Proof.
    intros m data. induction data as [|r data IH]; intros chunk; cbn [chunks].
    - rewrite app_nil_r. destruct chunk as [|x c]; [now split|]. cbn [concat aligned]. rewrite app_nil_r.
      split; [reflexivity|]. split; [discriminate|]. split; [now left|exact I].
    - destruct ((unwrap_or (snd (fst r)) 0 <=? N.of_nat STEP)%N && (m <=? length (chunk ++ [r]))) eqn:E.
      + destruct (IH []) as [I1 I2]. cbn [concat aligned]. rewrite I1, <- app_assoc. split; [reflexivity|].
        split; [intros X; now apply app_eq_nil in X|]. split; [|assumption]. right. exists chunk, r.
        split; [reflexivity|]. apply andb_prop in E. exact (proj1 E).
      + destruct (IH (chunk ++ [r])) as [I1 I2]. rewrite I1, <- app_assoc. split; [reflexivity|assumption].
  Qed.

  (** start rows of the chunks *)
  Fixpoint chunk_starts (t : nat) (cks : list (list row)) : list nat :=
    match cks with [] => [] | c :: rest => t :: chunk_starts (length c + t) rest end.

  Definition regions_from (a N : nat) (cks : list (list row)) :=
    map (fun '(i, data) => (fill_partial_shape P cfg data, fill_partial legacy P STEP s cfg data (i =? N)))
        (combine (seq a (length cks)) cks).

  Notation aux0 := (Adv (col (sc_aux cfg) 0)).

  Lemma reserve_chunks : forall cks ri a N L, Forall (fun c => c <> []) cks ->
    exists L1, reserve_all ri (regions_from a N cks) L = Ok L1
      /\ lo_starts L1 = lo_starts L ++ chunk_starts (lo_next L aux0) cks
      /\ (forall c, lo_next L1 c = if column_eqb c aux0 then length (concat cks) + lo_next L aux0 else lo_next L c)
      /\ lo_adv L1 = lo_adv L /\ lo_fix L1 = lo_fix L /\ lo_sel L1 = lo_sel L /\ lo_copy L1 = lo_copy L
      /\ lo_tables L1 = lo_tables L /\ lo_const L1 = lo_const L.
  Proof.
    induction cks as [|ck cks IH]; intros ri a N L H.
    - exists L. split; [reflexivity|]. cbn. rewrite app_nil_r. split; [reflexivity|].
      split; [|repeat split; reflexivity]. intros c. destruct (column_eqb c aux0) eqn:E; [|reflexivity].
      apply column_eqb_eq in E. now subst c.
    - inversion H as [|? ? H1 H2]; subst. unfold regions_from. cbn [length seq combine map reserve_all].
      assert (ES : fill_partial_shape P cfg ck ri = Ok ([AssignAdvice (col (sc_aux cfg) 0) (length ck - 1) (Some fzero)], ([], []))) by reflexivity.
      rewrite ES. cbn [bind].
      set (sh := [AssignAdvice (col (sc_aux cfg) 0) (length ck - 1) (Some fzero)]).
      destruct (IH (S ri) (S a) N (reserve sh L) H2) as (L1 & E1 & E2 & E3 & E4 & E5 & E6 & E7 & E8 & E9).
      exists L1. split; [exact E1|].
      assert (RS : region_start (lo_next L) sh = lo_next L aux0) by (cbn; lia).
      assert (RC : row_count sh = length ck) by (cbn; destruct ck; [easy|cbn; lia]).
      assert (N0 : forall c, lo_next (reserve sh L) c = if column_eqb c aux0 then length ck + lo_next L aux0 else lo_next L c).
      { intros c. cbn [reserve lo_next]. rewrite RS, RC. unfold next_after. cbn. now rewrite orb_false_r. }
      split. { rewrite E2, N0, column_eqb_refl. cbn [reserve lo_starts chunk_starts]. rewrite RS, <- app_assoc. reflexivity. }
      split; [|repeat split; assumption].
      intros c. rewrite E3, !N0, column_eqb_refl. destruct (column_eqb c aux0); [|reflexivity].
      cbn [concat]. rewrite app_length. lia.
  Qed.

  Lemma loop_after_fin : forall x o lp (r : row), lp_new (loop_after o lp (x ++ [r])) = r_fin r.
  Proof. intros. rewrite loop_after_app. reflexivity. Qed.

  Lemma fill_partial_eq : forall ck b ri,
    fill_partial legacy P STEP s cfg ck b ri
    = if rows_good 0 loop_start ck then
        Ok (rows_evs legacy P STEP s cfg 0 loop_start ck ++ (if b then [EnableSelector (sc_custom cfg) (length ck - 1)] else []),
            (rows_in ri 0 loop_start ck, rows_out ri 0 loop_start ck))
      else Panic.
  Proof.
    intros ck b ri. unfold fill_partial. unfold rbind at 1. rewrite fill_rows_eq.
    destruct (rows_good 0 loop_start ck); [|reflexivity]. cbn [bind]. destruct b; reflexivity.
  Qed.

  Lemma chunks_single : forall cks ri a N, Forall (fun c => c <> []) cks ->
    single_shape (col (sc_aux cfg) 0) ri (regions_from a N cks) (map (@length row) cks).
  Proof.
    induction cks as [|ck cks IH]; intros ri a N H; [exact I|].
    inversion H as [|? ? H1 H2]; subst. unfold regions_from. cbn [length seq combine map single_shape].
    assert (0 < length ck) by (destruct ck; [easy|cbn; lia]).
    split; [assumption|]. split; [eexists; eexists; reflexivity|]. split; [|now apply IH].
    intros evs x E q o Ho. rewrite fill_partial_eq in E.
    destruct (rows_good 0 loop_start ck); [|discriminate].
    apply (f_equal (fun r => match r with Ok (e, _) => e | Panic => [] end)) in E. cbn [fst] in E. subst evs.
    unfold touched in Ho. rewrite flat_map_app in Ho. apply in_app_iff in Ho. destruct Ho as [Ho|Ho].
    - fold (touched (rows_evs legacy P STEP s cfg 0 loop_start ck)) in Ho. destruct q as [q|q|q].
      + apply touched_adv in Ho. destruct Ho as [v Ho]. rewrite rows_evs_adv in Ho.
        apply rows_writes_in in Ho; [|now right]. lia.
      + apply touched_fix in Ho. destruct Ho as [v Ho]. rewrite rows_evs_fix in Ho.
        unfold TableRows_proof.enable_writes in Ho. apply in_map_iff in Ho. destruct Ho as (i & Ei & Hi).
        apply in_seq in Hi. inversion Ei. lia.
      + apply touched_sel in Ho. rewrite rows_evs_sel in Ho. destruct Ho.
    - destruct (a =? N); [|destruct Ho]. cbn in Ho. destruct Ho as [Ho|[]]. inversion Ho. lia.
  Qed.

  Lemma commit_chunks : forall cks pre a N t lp L post,
    aligned cks -> lp_new lp = true -> lo_starts L = pre ++ chunk_starts t cks ++ post ->
    (cks = [] \/ N + 1 = a + length cks) ->
    if rows_good t lp (concat cks) then
      exists L' rets, commit_all (length pre) (regions_from a N cks) L = Ok (L', rets)
        /\ lo_starts L' = lo_starts L /\ lo_next L' = lo_next L
        /\ lo_adv L' = lo_adv L ++ rows_writes t lp (concat cks)
        /\ lo_fix L' = lo_fix L ++ enable_writes t (length (concat cks))
        /\ lo_sel L' = lo_sel L ++ (if length cks =? 0 then [] else [(sc_custom cfg, length (concat cks) - 1 + t)])
        /\ lo_copy L' = lo_copy L /\ lo_tables L' = lo_tables L /\ lo_const L' = lo_const L
        /\ at_ (lo_starts L) (concat (map fst rets)) = at_ [] (rows_in 0 t lp (concat cks))
        /\ at_ (lo_starts L) (concat (map snd rets)) = at_ [] (rows_out 0 t lp (concat cks))
        /\ Forall (three_words L) (concat (map fst rets)) /\ Forall (three_words L) (concat (map snd rets))
    else commit_all (length pre) (regions_from a N cks) L = Panic.
  Proof.
    induction cks as [|ck cks IH]; intros pre a N t lp L post HA Hn HS HN.
    - cbn [concat TableRows_proof.rows_good]. exists L, []. cbn. rewrite !app_nil_r. repeat split; constructor.
    - destruct HA as (A1 & A2 & A3). unfold regions_from. cbn [length seq combine map commit_all concat].
      destruct HN as [X|HN]; [discriminate|]. cbn [length] in HN.
      rewrite rows_good_app.
      destruct (rows_same legacy P STEP s cfg ck t (@loop_start F FO) lp 0 (same_fresh t lp Hn)) as (W & G & C).
      cbn [Nat.add] in W, G, C. rewrite G, fill_partial_eq.
      destruct (rows_good 0 loop_start ck) eqn:Eg; [|reflexivity]. cbn [andb bind].
      set (evs := rows_evs legacy P STEP s cfg 0 loop_start ck ++ (if a =? N then [EnableSelector (sc_custom cfg) (length ck - 1)] else [])).
      assert (St : nth (length pre) (lo_starts L) 0 = t).
      { rewrite HS. cbn [chunk_starts app]. rewrite app_nth2, Nat.sub_diag by lia. reflexivity. }
      assert (HS' : lo_starts (commit (length pre) evs L) = (pre ++ [t]) ++ chunk_starts (length ck + t) cks ++ post).
      { cbn [commit lo_starts]. rewrite HS. cbn [chunk_starts app]. now rewrite <- app_assoc. }
      assert (Hn' : cks = [] \/ lp_new (loop_after t lp ck) = true).
      { destruct A2 as [A2|(x & r & E & Hr)]; [now left|right]. subst ck. rewrite loop_after_fin. assumption. }
      assert (HN' : cks = [] \/ N + 1 = S a + length cks) by (right; lia).
      assert (LP : length (pre ++ [t]) = S (length pre)) by (rewrite app_length; cbn; lia).
      assert (EA : adv_ws evs = rows_writes 0 loop_start ck).
      { unfold evs. rewrite adv_ws_app, rows_evs_adv. destruct (a =? N); cbn; apply app_nil_r. }
      assert (EF : fix_ws evs = enable_writes 0 (length ck)).
      { unfold evs. rewrite fix_ws_app, rows_evs_fix. destruct (a =? N); cbn; apply app_nil_r. }
      assert (ES : sel_ws evs = if length cks =? 0 then [(sc_custom cfg, length ck - 1)] else []).
      { unfold evs. rewrite sel_ws_app, rows_evs_sel. cbn [app].
        destruct (a =? N) eqn:E1; [apply Nat.eqb_eq in E1|apply Nat.eqb_neq in E1];
          (destruct (length cks =? 0) eqn:E2; [apply Nat.eqb_eq in E2|apply Nat.eqb_neq in E2]); cbn; try reflexivity; lia. }
      assert (EC : copies_ws evs = []).
      { unfold evs. rewrite copies_ws_app, rows_evs_copies. destruct (a =? N); reflexivity. }
      assert (EW : forall k, map (moved 0 t) (enable_writes 0 k) = enable_writes t k).
      { intros k. unfold TableRows_proof.enable_writes. rewrite map_map. clear.
        assert (X : forall z, map (fun x => moved 0 t (sc_enable cfg, x, fone)) (seq z k)
                              = map (fun i => (sc_enable cfg, i, fone)) (seq (z + t) k)); [|exact (X 0)].
        induction k as [|k IH]; intros z; cbn [seq map]; [reflexivity|].
        specialize (IH (S z)). cbn [Nat.add] in IH. rewrite IH. cbn [moved]. now rewrite Nat.add_0_r. }
      destruct (C 0 (length pre) (@nil nat) (lo_starts L)) as [C1 C2]; [rewrite St; cbn; lia|].
      destruct cks as [|ck2 cks].
      + cbn [length seq combine map commit_all concat TableRows_proof.rows_good] in *. cbn [bind].
        eexists. eexists. split; [reflexivity|].
        cbn [commit lo_starts lo_next lo_adv lo_fix lo_sel lo_copy lo_tables lo_const map concat].
        rewrite St, abs_adv_ws, abs_fix_ws, abs_sel_ws, abs_copy_ws, EA, EF, ES, EC.
        cbn [Nat.eqb map fst snd]. rewrite !app_nil_r, W, EW.
        do 8 (split; [reflexivity|]). split; [symmetry; exact C1|]. split; [symmetry; exact C2|].
        apply rows_in_words. rewrite HS, !app_length. cbn. lia.
      + destruct Hn' as [X|Hn']; [discriminate|].
        specialize (IH (pre ++ [t]) (S a) N (length ck + t) (loop_after t lp ck) (commit (length pre) evs L) post A3 Hn' HS' HN').
        rewrite LP in IH.
        destruct (rows_good (length ck + t) (loop_after t lp ck) (concat (ck2 :: cks))) eqn:Eg2.
        * destruct IH as (L' & rets & E & J1 & J2 & J3 & J4 & J5 & J6 & J7 & J8 & J9 & J10 & J11 & J12).
          fold (regions_from (S a) N (ck2 :: cks)). rewrite E. cbn [bind].
          eexists. eexists. split; [reflexivity|].
          cbn [commit lo_starts lo_next lo_adv lo_fix lo_sel lo_copy lo_tables lo_const] in *.
          rewrite St, abs_adv_ws, EA, <- W in J3. rewrite St, abs_fix_ws, EF, EW in J4.
          rewrite abs_sel_ws, ES in J5. rewrite abs_copy_ws, EC in J6.
          cbn [length Nat.eqb map] in J5, J6. rewrite app_nil_r in J5, J6.
          split; [assumption|]. split; [assumption|].
          split. { rewrite J3, <- app_assoc. f_equal. change (ck ++ concat (ck2 :: cks)) with (ck ++ (concat (ck2 :: cks))).
                   now rewrite rows_writes_app. }
          split. { rewrite J4, <- app_assoc. f_equal. rewrite app_length. unfold TableRows_proof.enable_writes.
                   rewrite seq_app, map_app. do 3 f_equal. lia. }
          split. { rewrite J5. cbn [Nat.eqb]. do 3 f_equal. rewrite app_length.
                   assert (0 < length (concat (ck2 :: cks))).
                   { cbn [concat]. rewrite app_length. destruct A3 as (Y & _). destruct ck2; [easy|cbn; lia]. }
                   lia. }
          do 3 (split; [assumption|]). cbn [map concat fst snd]. rewrite rows_in_app, rows_out_app.
          unfold at_ in *. rewrite !map_app. split; [f_equal; [symmetry; exact C1|exact J9]|].
          split; [f_equal; [symmetry; exact C2|exact J10]|].
          assert (RI : length pre < length (lo_starts L)) by (rewrite HS, !app_length; cbn; lia).
          destruct (rows_in_words ck (length pre) 0 loop_start L RI) as [K1 K2].
          split; apply Forall_app; split; assumption.
        * fold (regions_from (S a) N (ck2 :: cks)). rewrite IH. reflexivity.
  Qed.

  Lemma partial_regions_from : forall cks,
    partial_regions legacy P STEP s cfg cks = regions_from 0 (length cks - 1) cks.
  Proof. reflexivity. Qed.

  Lemma aligned_ne : forall cks, aligned cks -> Forall (fun c => c <> []) cks.
  Proof.
    induction cks as [|c cks IH]; intros H; constructor; [apply H|]. apply IH. apply H.
  Qed.

  Lemma parallel_laid : forall threads calcs t L, tab_free L ->
    if rows_good 1 loop_start (raw_rows calcs t) then
      exists L' ins outs,
        load_rows legacy P STEP s cfg (Parallel threads) calcs t L = Ok (L', (ins, outs))
        /\ rows_laid L L' (raw_rows calcs t) ins outs
             ((sc_custom cfg, 0) :: if calcs =? 0 then [] else [(sc_custom cfg, calcs)])
        /\ (forall c, tab_own c -> lo_next L' c = if column_eqb c aux0 then S calcs
                                                  else match c with Fix _ => 0 | _ => 1 end)
    else load_rows legacy P STEP s cfg (Parallel threads) calcs t L = Panic.
  Proof.
    intros threads calcs t L Hf. set (rows := raw_rows calcs t).
    assert (Lr : length rows = calcs) by apply raw_rows_length.
    destruct (custom_region L Hf) as (L1 & E1 & S1 & N1 & A1 & F1 & Q1 & C1 & T1 & K1).
    set (m := calcs / threads + 1). set (cks := chunks STEP m [] rows).
    destruct (chunks_ok m rows []) as [Cc Ca]. fold cks in Cc, Ca. cbn [app] in Cc.
    assert (X0 : lo_next L1 aux0 = 1).
    { rewrite N1. replace (existsb _ tcols) with true; [reflexivity|]. symmetry. apply existsb_exists.
      exists (col (sc_aux cfg) 0). split; [apply col_aux_in; lia|apply column_eqb_refl]. }
    destruct (reserve_chunks cks (length (lo_starts L1)) 0 (length cks - 1) L1 (aligned_ne _ Ca))
      as (L2 & E2 & S2 & N2 & A2 & F2 & Q2 & C2 & T2 & K2). rewrite X0 in S2.
    assert (HN : cks = [] \/ length cks - 1 + 1 = 0 + length cks) by (destruct cks; [now left|right; cbn; lia]).
    pose proof (commit_chunks cks (lo_starts L1) 0 (length cks - 1) 1 loop_start L2 [] Ca eq_refl
                  ltac:(now rewrite app_nil_r) HN) as CC.
    rewrite Cc in CC.
    assert (LR : load_rows legacy P STEP s cfg (Parallel threads) calcs t L
                 = (do (L', ret) <- commit_all (length (lo_starts L1)) (regions_from 0 (length cks - 1) cks) L2;
                    Ok (L', (concat (map fst ret), concat (map snd ret))))).
    { unfold load_rows, lbind. rewrite E1. cbn [bind].
      fold rows m cks. rewrite partial_regions_from.
      rewrite (single_assign_regions _ _ _ _ (chunks_single cks _ 0 (length cks - 1) (aligned_ne _ Ca))).
      rewrite E2. reflexivity. }
    destruct (rows_good 1 loop_start rows).
    - destruct CC as (L' & rets & E & J1 & J2 & J3 & J4 & J5 & J6 & J7 & J8 & J9 & J10 & J11 & J12).
      rewrite LR, E. cbn [bind]. eexists. eexists. eexists. split; [reflexivity|].
      assert (LC : (length cks =? 0) = (calcs =? 0)).
      { rewrite <- Lr, <- Cc. destruct cks as [|c cks']; [reflexivity|]. cbn [length Nat.eqb].
        symmetry. apply Nat.eqb_neq. cbn [concat]. rewrite app_length. destruct Ca as (Y & _). destruct c; [easy|cbn; lia]. }
      split.
      + unfold rows_laid.
        split; [exists ([0] ++ chunk_starts 1 cks); now rewrite J1, S2, S1, <- app_assoc|].
        split. { intros c Hc. rewrite J2, N2.
                 destruct (column_eqb c aux0) eqn:Ec.
                 { apply column_eqb_eq in Ec. subst c. exfalso. apply Hc. cbn. apply col_aux_in. lia. }
                 rewrite N1.
                 destruct (existsb _ _) eqn:Ex.
                 { apply existsb_exists in Ex. destruct Ex as (i & Hi & Ei). apply column_eqb_eq in Ei. subst c. contradiction. }
                 destruct (column_eqb c (Sel (sc_custom cfg))) eqn:Es; [|reflexivity].
                 apply column_eqb_eq in Es. subst c. exfalso. now apply Hc. }
        split; [rewrite J3, A2, A1; now rewrite <- app_assoc|].
        split; [rewrite J4, F2, F1; reflexivity|].
        split. { rewrite J5, Q2, Q1, LC, Lr, <- app_assoc. f_equal. cbn [app]. f_equal.
                 destruct calcs as [|k]; [reflexivity|]. cbn [Nat.eqb]. do 2 f_equal. lia. }
        split; [now rewrite J6, C2, C1|]. split; [now rewrite J7, T2, T1|]. split; [now rewrite J8, K2, K1|].
        rewrite !at_located, J1. split; [exact J9|]. split; [exact J10|].
        assert (KK : forall x, three_words L2 x -> three_words L' x).
        { intros x. unfold three_words. now rewrite J1. }
        split; eapply Forall_impl; eassumption.
      + intros c Hc. rewrite J2, N2, Cc, Lr, X0. destruct (column_eqb c aux0); [lia|]. rewrite N1.
        destruct (existsb _ _) eqn:Ex.
        { apply existsb_exists in Ex. destruct Ex as (i & Hi & Ei). apply column_eqb_eq in Ei. now subst c. }
        destruct c as [c|c|c]; cbn [tab_own column_eqb] in *.
        * exfalso. apply not_true_iff_false in Ex. apply Ex. apply existsb_exists. exists c. split; [assumption|]. apply Nat.eqb_refl.
        * subst c. apply Hf. reflexivity.
        * subst c. now rewrite Nat.eqb_refl.
    - rewrite LR, CC. reflexivity.
  Qed.

  (** ** Both modes *)
  Definition accept (mode : assignment_mode) (calcs : nat) (t : hash_table F) : bool :=
    match mode with Serial => serial_fits calcs t | Parallel _ => true end
    && rows_good 1 loop_start (raw_rows calcs t).
  Definition sel_of (mode : assignment_mode) (calcs : nat) : list (nat * nat) :=
    (sc_custom cfg, 0) :: match mode with
                          | Serial => last_sel calcs
                          | Parallel _ => if calcs =? 0 then [] else [(sc_custom cfg, calcs)]
                          end.
  Definition table_next (mode : assignment_mode) (calcs : nat) (c : column) : nat :=
    match mode with
    | Serial => match c with Fix _ => if calcs =? 0 then 0 else S calcs | _ => S calcs end
    | Parallel _ => if column_eqb c aux0 then S calcs else match c with Fix _ => 0 | _ => 1 end
    end.

  Lemma rows_next : forall mode calcs t L, tab_free L ->
    if accept mode calcs t then
      exists L' ins outs,
        load_rows legacy P STEP s cfg mode calcs t L = Ok (L', (ins, outs))
        /\ rows_laid L L' (raw_rows calcs t) ins outs (sel_of mode calcs)
        /\ (forall c, tab_own c -> lo_next L' c = table_next mode calcs c)
    else load_rows legacy P STEP s cfg mode calcs t L = Panic.
  Proof.
    intros mode calcs t L H. destruct mode as [|threads]; unfold accept, sel_of, table_next.
    - exact (serial_laid calcs t L H).
    - exact (parallel_laid threads calcs t L H).
  Qed.

  Lemma sel_of_in : forall mode calcs q r, In (q, r) (sel_of mode calcs) -> q = sc_custom cfg /\ (r = 0 \/ r = calcs).
  Proof.
    clear Htab Haux. intros mode calcs q r H. unfold sel_of in H. destruct H as [H|H]; [injection H as <- <-; auto|].
    destruct mode.
    - destruct H as [H|[]]. injection H as <- <-. destruct calcs; split; auto; lia.
    - destruct (calcs =? 0); [destruct H|]. destruct H as [H|[]]. injection H as <- <-. auto.
  Qed.
  Lemma sel_of_iff : forall mode calcs q r, In (q, r) (sel_of mode calcs) <-> q = sc_custom cfg /\ (r = 0 \/ r = calcs).
  Proof.
    clear Htab Haux. intros mode calcs q r. split; [apply sel_of_in|]. intros [-> [->| ->]]; [now left|]. unfold sel_of.
    destruct mode.
    - right. left. destruct calcs; f_equal. lia.
    - destruct calcs; cbn; auto.
  Qed.

  Lemma custom_writes_in : forall c r v, In (c, r, v) custom_writes -> In c tcols /\ r = 0 /\ v = Some fzero.
  Proof.
    clear Htab Haux. intros c r v H. unfold custom_writes in H. rewrite in_map_iff in H. destruct H as (x & E & Hx). injection E as <- <- <-. auto.
  Qed.
  Lemma enable_writes_in : forall o k c r v, In (c, r, v) (enable_writes o k) <-> c = sc_enable cfg /\ o <= r < o + k /\ v = fone.
  Proof.
    clear Htab Haux. intros o k c r v. unfold TableRows_proof.enable_writes. rewrite in_map_iff. split.
    - intros (x & E & Hx). injection E as <- <- <-. apply in_seq in Hx. auto.
    - intros (-> & H & ->). exists r. rewrite in_seq. auto.
  Qed.

  Lemma rows_laid_other : forall L L' rows ins outs sel (own' : column -> Prop), rows_laid L L' rows ins outs sel ->
    (forall q r, In (q, r) sel -> q = sc_custom cfg) -> (forall c, tab_own c -> ~ own' c) -> unused own' L -> unused own' L'.
  Proof.
    intros L L' rows ins outs sel own' (_ & Ob & Ab & Fb & Qb & _) HS Ho (U1 & U2 & U3 & U4).
    split; [|split; [|split]].
    - intros c Hc. rewrite Ob by (intros T; now apply (Ho c)). now apply U1.
    - intros c r v H Hc. rewrite Ab, !in_app_iff in H. destruct H as [H|[H|H]].
      + now apply (U2 _ _ _ H).
      + apply custom_writes_in in H. now apply (Ho (Adv c)).
      + apply rows_writes_in in H; [|now right]. now apply (Ho (Adv c)).
    - intros c r v H Hc. rewrite Fb, !in_app_iff in H. destruct H as [H|H].
      + now apply (U3 _ _ _ H).
      + apply enable_writes_in in H. now apply (Ho (Fix c)).
    - intros q r H Hc. rewrite Qb, !in_app_iff in H. destruct H as [H|H].
      + now apply (U4 _ _ H).
      + apply HS in H. now apply (Ho (Sel q)).
  Qed.
End Load.
