(** [configure_sub] and [load] as a whole. *)
From Coq Require Import ZArith List Arith Lia Bool.
From Verif Require Import Field Rust ListAux Primitives Specs BaseHash Halo2 PermuteChip ChipUse Layout_proof Contract
  Stack_proof SpongeTable TableRows_proof TableLoad_proof TableUse.
Import ListNotations.
Local Open Scope nat_scope.

(** ** Words at absolute cells *)
Section At.
  Context {F : Type} {FO : FieldOps F}.
  Variable D : chip_data (F := F).

  Lemma at_vals : forall st st' (x y : list (acell F)),
    map (fun w => (abs_cell st (ac_cell w), ac_val w)) x = map (fun w => (abs_cell st' (ac_cell w), ac_val w)) y ->
    map ac_val x = map ac_val y.
  Proof.
    intros st st'. induction x as [|a x IH]; intros [|b y] H; cbn [map] in *; try discriminate; [reflexivity|].
    injection H as _ _ H1 H2. rewrite H1. f_equal. now apply IH.
  Qed.
  Lemma word_vals_ext : forall x y : list (acell F), map ac_val x = map ac_val y -> word_vals x = word_vals y.
  Proof.
    intros [|a [|b [|c [|d x]]]] [|a' [|b' [|c' [|d' y]]]] H; cbn in *; try discriminate; try reflexivity.
    now injection H as -> -> ->.
  Qed.
  Lemma at_word_vals : forall st st' (x y : list (acell F)),
    map (fun w => (abs_cell st (ac_cell w), ac_val w)) x = map (fun w => (abs_cell st' (ac_cell w), ac_val w)) y ->
    word_vals x = word_vals y.
  Proof. intros st st' x y H. apply word_vals_ext. eapply at_vals. exact H. Qed.
  Lemma at_adv : forall st st' x y t, at_ st x = at_ st' y -> stack_adv D t x = stack_adv D t y.
  Proof.
    intros st st'. induction x as [|a x IH]; intros [|b y] t H; cbn [map at_] in *; try discriminate; [reflexivity|].
    injection H as H1 H2. cbn [stack_adv]. rewrite (at_word_vals _ _ _ _ H1). f_equal. now apply IH.
  Qed.
  Lemma at_out : forall st st' x y t, at_ st x = at_ st' y -> stack_out D t x = stack_out D t y.
  Proof.
    intros st st'. induction x as [|a x IH]; intros [|b y] t H; cbn [map at_] in *; try discriminate; [reflexivity|].
    injection H as H1 H2. cbn [stack_out]. f_equal; [|now apply IH]. unfold block_out. now rewrite (at_word_vals _ _ _ _ H1).
  Qed.
  Lemma at_copy : forall st st' x y t, at_ st x = at_ st' y -> stack_copy D st t x = stack_copy D st' t y.
  Proof.
    intros st st'. induction x as [|a x IH]; intros [|b y] t H; cbn [map at_] in *; try discriminate; [reflexivity|].
    injection H as H1 H2. cbn [stack_copy]. f_equal; [|now apply IH]. unfold block_copy.
    generalize (seq 0 3). clear - H1. revert b H1. induction a as [|w a IH]; intros [|w' b] H1 [|j l];
      cbn [map combine] in *; try discriminate; try reflexivity.
    injection H1 as E1 E2 _ E3. rewrite (IH b E3). f_equal. unfold abs_cell. congruence.
  Qed.

  (** the copies of region "final state dummy" *)
  Definition final_pairs (outs fins : list (list ((column * nat) * option F))) : list ((column * nat) * (column * nat)) :=
    flat_map (fun '(o, f) => combine (map fst o) (map fst f)) (combine outs fins).

  Lemma combine_map2 : forall {A B A' B'} (f : A -> A') (g : B -> B') x y,
    combine (map f x) (map g y) = map (fun '(a, b) => (f a, g b)) (combine x y).
  Proof. induction x as [|a x IH]; intros [|b y]; cbn; try reflexivity. now rewrite IH. Qed.

  Lemma final_region : forall outs fins (L : layout F),
    exists L', assign_region (final_copies outs fins) L = Ok (L', tt)
      /\ lo_starts L' = lo_starts L ++ [0] /\ (forall c, lo_next L' c = lo_next L c)
      /\ lo_adv L' = lo_adv L /\ lo_fix L' = lo_fix L /\ lo_sel L' = lo_sel L
      /\ lo_copy L' = lo_copy L ++ final_pairs (at_ (lo_starts L ++ [0]) outs) (at_ (lo_starts L ++ [0]) fins)
      /\ lo_tables L' = lo_tables L /\ lo_const L' = lo_const L.
  Proof.
    intros outs fins L.
    set (ev := fun '(x, y) => @ConstrainEqual F (@ac_cell F x) (@ac_cell F y)).
    set (evs := flat_map (fun '(st, fin) => map ev (combine st fin)) (combine outs fins)).
    assert (E : forall ri, final_copies outs fins ri = Ok (evs, tt)).
    { intros ri. unfold final_copies. rewrite <- (app_nil_r evs). eapply rbind_ok; [|reflexivity].
      rewrite (rmap_ok _ (fun _ => tt) (fun '(st, fin) => map ev (combine st fin))); [reflexivity|].
      intros [st fin] _. rewrite <- (app_nil_r (map ev _)). eapply rbind_ok; [|reflexivity].
      rewrite (rmap_ok _ (fun _ => tt) (fun xy => [ev xy])); [|intros [x y] _; reflexivity].
      reflexivity. }
    assert (T0 : touched evs = []).
    { unfold evs. clear - ev. induction (combine outs fins) as [|[st fin] l IH]; [reflexivity|]. cbn [flat_map]. rewrite touched_app, IH, app_nil_r.
      generalize (combine st fin). intros k. induction k as [|[x y] k IHk]; [reflexivity|]. exact IHk. }
    assert (CE : const_events evs = []).
    { unfold evs. clear - ev. induction (combine outs fins) as [|[st fin] l IH]; [reflexivity|]. cbn [flat_map]. rewrite const_events_app, IH, app_nil_r.
      generalize (combine st fin). intros k. induction k as [|[x y] k IHk]; [reflexivity|]. exact IHk. }
    assert (WA : adv_ws evs = []).
    { unfold evs. clear - ev. induction (combine outs fins) as [|[st fin] l IH]; [reflexivity|]. cbn [flat_map]. rewrite adv_ws_app, IH, app_nil_r.
      generalize (combine st fin). intros k. induction k as [|[x y] k IHk]; [reflexivity|]. exact IHk. }
    assert (WF : fix_ws evs = []).
    { unfold evs. clear - ev. induction (combine outs fins) as [|[st fin] l IH]; [reflexivity|]. cbn [flat_map]. rewrite fix_ws_app, IH, app_nil_r.
      generalize (combine st fin). intros k. induction k as [|[x y] k IHk]; [reflexivity|]. exact IHk. }
    assert (WS : sel_ws evs = []).
    { unfold evs. clear - ev. induction (combine outs fins) as [|[st fin] l IH]; [reflexivity|]. cbn [flat_map]. rewrite sel_ws_app, IH, app_nil_r.
      generalize (combine st fin). intros k. induction k as [|[x y] k IHk]; [reflexivity|]. exact IHk. }
    rewrite (assign_region_ok _ _ evs tt (E _) CE). eexists. split; [reflexivity|].
    unfold commit, reserve. cbn [lo_starts lo_next lo_adv lo_fix lo_sel lo_copy lo_tables lo_const].
    unfold region_start, next_after, row_count. rewrite T0. cbn [fold_right existsb].
    rewrite abs_adv_ws, abs_fix_ws, abs_sel_ws, WA, WF, WS. cbn [map]. rewrite !app_nil_r.
    split; [reflexivity|]. split; [reflexivity|]. do 3 (split; [reflexivity|]). split; [|split; reflexivity].
    f_equal. generalize (lo_starts L ++ [0]). intros st. unfold final_pairs, at_. rewrite combine_map2, flat_map_concat_map, map_map, <- flat_map_concat_map.
    unfold evs. clear - ev. induction (combine outs fins) as [|[o f] l IH]; [reflexivity|]. cbn [flat_map].
    unfold abs_copy in *. rewrite flat_map_app, IH. f_equal. rewrite !map_map, combine_map2. clear.
    induction (combine o f) as [|[x y] k IHk]; [reflexivity|]. cbn in *. now rewrite IHk.
  Qed.
End At.

(** ** The configuration *)
Section Circuit.
  Context {F : Type} {FO : FieldOps F}.
  Variable C : hash_circuit F.
  Variable perm : list F -> list F.
  Variable h : nat.
  Hypothesis HC : host_columns C.
  Hypothesis HP : chip_correct (hc_chip C) perm h.
  Notation cs0 := (hc_host C).
  Notation P := (hc_chip C).
  Notation cfg := (hc_config C).
  Notation legacy := (hc_legacy C).
  Notation STEP := (hc_range C).
  Notation s := (hc_spec C).

  Definition A0 : nat := cs_adv cs0.
  Definition aux_cols : list nat := [A0; 1 + A0; 2 + A0; 3 + A0; 4 + A0; 5 + A0].
  Definition table_gates : list (expr F) :=
    custom_gate (hc_table C) (cs_sel cs0) ++ control_gate (hc_table C) (hc_enable C) (6 + A0) (7 + A0)
    ++ step_gate legacy (hc_table C) (hc_enable C) (6 + A0) (7 + A0) (hc_step C)
    ++ index_gate (hc_table C) aux_cols (hc_enable C) (6 + A0)
    ++ input_gate (hc_table C) aux_cols (hc_enable C) (6 + A0).
  (** the constraint system before the permutation chip is configured *)
  Definition csm : cs F :=
    {| cs_adv := 8 + A0; cs_fix := S (cs_fix cs0); cs_sel := S (cs_sel cs0);
       cs_gates := cs_gates cs0 ++ table_gates;
       cs_lookups := cs_lookups cs0 ++ [(range_input (hc_table C), cs_fix cs0)];
       cs_eq := cs_eq cs0 ++ map Adv (aux_cols ++ firstn 1 (hc_table C) ++ [6 + A0]);
       cs_const := cs_const cs0 |}.

  Lemma configured :
    hc_config C = {| sc_permute := fst (pc_configure P csm); sc_table := hc_table C; sc_aux := aux_cols;
                     sc_control_aux := 7 + A0; sc_continue := 6 + A0; sc_range := cs_fix cs0; sc_enable := hc_enable C;
                     sc_custom := cs_sel cs0; sc_step := hc_step C |}
    /\ hc_cs C = snd (pc_configure P csm).
  Proof.
    assert (E : configure_sub legacy P (hc_enable C) (hc_table C) (hc_step C) cs0
                = (let '(permute_config, m) := pc_configure P csm in
                   ({| sc_permute := permute_config; sc_table := hc_table C; sc_aux := aux_cols;
                     sc_control_aux := 7 + A0; sc_continue := 6 + A0; sc_range := cs_fix cs0; sc_enable := hc_enable C;
                     sc_custom := cs_sel cs0; sc_step := hc_step C |}, m))).
    { assert (Ht : exists t0 tl, hc_table C = t0 :: tl).
      { destruct HC as (_ & Ht & _). destruct (hc_table C) as [|t0 tl]; [discriminate|eauto]. }
      destruct Ht as (t0 & tl & Et).
      assert (M : csm = {| cs_adv := 8 + A0; cs_fix := S (cs_fix cs0); cs_sel := S (cs_sel cs0);
        cs_gates := ((((cs_gates cs0 ++ custom_gate (hc_table C) (cs_sel cs0))
           ++ control_gate (hc_table C) (hc_enable C) (6 + A0) (7 + A0))
           ++ step_gate legacy (hc_table C) (hc_enable C) (6 + A0) (7 + A0) (hc_step C))
           ++ index_gate (hc_table C) aux_cols (hc_enable C) (6 + A0))
           ++ input_gate (hc_table C) aux_cols (hc_enable C) (6 + A0);
        cs_lookups := cs_lookups cs0 ++ [(range_input (hc_table C), cs_fix cs0)];
        cs_eq := (((((((cs_eq cs0 ++ [Adv A0]) ++ [Adv (1 + A0)]) ++ [Adv (2 + A0)]) ++ [Adv (3 + A0)]) ++ [Adv (4 + A0)])
           ++ [Adv (5 + A0)]) ++ [Adv t0]) ++ [Adv (6 + A0)];
        cs_const := cs_const cs0 |}).
      { unfold csm, table_gates. rewrite Et, <- !app_assoc. reflexivity. }
      rewrite M. clear M. unfold aux_cols, A0. rewrite Et.
      generalize (hc_host C) (hc_legacy C) (hc_enable C) (hc_step C) (hc_chip C). clear. intros m lg q st pc.
      destruct m as [ma mf ms mg ml me mc].
      lazy -[custom_gate control_gate step_gate index_gate input_gate range_input pc_configure].
      reflexivity. }
    unfold hc_config, hc_cs. rewrite E. generalize (pc_configure P csm). intros [a b]. split; reflexivity.
  Qed.

  Opaque hc_config hc_cs.

  Notation own D := (cd_own D).
  Notation tab_own := (tab_own P cfg).

  (** the chip as configured *)
  Definition chip_here (D : chip_data (F := F)) : Prop :=
    chip_laws D perm /\ cd_h D = h
    /\ (forall c, own D c <-> added csm (hc_cs C) c)
    /\ cs_gates (hc_cs C) = cs_gates cs0 ++ table_gates ++ cd_gates D
    /\ cs_lookups (hc_cs C) = cs_lookups cs0 ++ [(range_input (hc_table C), cs_fix cs0)]
    /\ (exists e, cs_eq (hc_cs C) = cs_eq cs0 ++ map Adv (aux_cols ++ firstn 1 (hc_table C) ++ [6 + A0]) ++ e
        /\ forall j, j < 3 -> In (Adv (cd_in D j)) e /\ In (Adv (cd_out_col D j)) e)
    /\ (forall wss, runs D (lmap (pc_permute P (sc_permute cfg)) wss) wss)
    /\ (forall threads wss, 0 < threads -> runs D (pc_permute_batch P threads (sc_permute cfg) wss) wss)
    /\ (cs_adv csm <= cs_adv (hc_cs C) /\ cs_fix csm <= cs_fix (hc_cs C) /\ cs_sel csm <= cs_sel (hc_cs C)).

  Lemma chip_is_here : exists D, chip_here D.
  Proof.
    destruct (HP csm) as (D & L1 & L2 & L3 & L4 & L5 & L6 & L7 & L8 & L9 & (e & L10 & L11) & L12 & L13).
    exists D. unfold chip_here. destruct configured as [E1 E2]. rewrite E1, E2. cbn [sc_permute].
    split; [assumption|]. split; [assumption|]. split; [assumption|].
    split; [rewrite L7; unfold csm; cbn [cs_gates]; symmetry; apply app_assoc|].
    split; [rewrite L8; reflexivity|].
    split; [exists e; split; [rewrite L10; unfold csm; cbn [cs_eq]; symmetry; apply app_assoc|assumption]|].
    split; [assumption|]. split; [assumption|]. auto.
  Qed.

  Lemma tcols_eq : tcols P cfg = hc_table C ++ aux_cols ++ [7 + A0] ++ [6 + A0].
  Proof. unfold tcols. destruct configured as [E1 _]. now rewrite E1. Qed.
  Lemma tab_own_eq : forall c, tab_own c <->
    match c with
    | Adv i => In i (hc_table C) \/ A0 <= i < 8 + A0
    | Fix i => i = hc_enable C
    | Sel i => i = cs_sel cs0
    end.
  Proof.
    intros [i|i|i]; unfold TableLoad_proof.tab_own.
    - rewrite tcols_eq, in_app_iff. unfold aux_cols. cbn [app In]. split; (intros [H|H]; [now left|right]).
      + repeat (destruct H as [H|H]; [lia|]). destruct H.
      + lia.
    - destruct configured as [E1 _]. now rewrite E1.
    - destruct configured as [E1 _]. now rewrite E1.
  Qed.
  Lemma tab_length : length (sc_table cfg) = 6 /\ length (sc_aux cfg) = 6.
  Proof. destruct configured as [E1 _]. rewrite E1. split; [apply HC|reflexivity]. Qed.
  Lemma tab_not_own : forall D c, chip_here D -> tab_own c -> ~ own D c.
  Proof.
    intros D c (_ & _ & O & _) T X. apply O in X. apply tab_own_eq in T.
    destruct HC as (H1 & H2 & H3 & H4). rewrite Forall_forall in H4.
    destruct c as [i|i|i]; cbn [added csm cs_adv cs_fix cs_sel] in X.
    - unfold A0 in *. destruct T as [T|T]; [apply H4 in T; lia|lia].
    - lia.
    - lia.
  Qed.
  Lemma own_table_columns : forall D c, chip_here D -> own D c -> table_columns C c.
  Proof.
    intros D c (_ & _ & O & _) X. apply O in X. left.
    destruct c as [i|i|i]; cbn [added csm cs_adv cs_fix cs_sel] in *; unfold A0 in *; lia.
  Qed.
  Lemma tab_table_columns : forall D c, chip_here D -> tab_own c -> table_columns C c.
  Proof.
    intros D c (_ & _ & _ & _ & _ & _ & _ & _ & Le) T. apply tab_own_eq in T. unfold table_columns.
    cbn [csm cs_adv cs_fix cs_sel] in Le. unfold A0 in *.
    destruct c as [i|i|i]; cbn [added].
    - destruct T as [T|T]; [now right|left; lia].
    - now right.
    - left. lia.
  Qed.

  (** ** The layout made by [load] *)
  Notation rows_good := (rows_good legacy STEP s).
  Definition table_in (rows : list (@raw_row F)) : list (list (acell F)) := rows_in legacy P STEP s cfg 0 1 loop_start rows.
  Definition table_out (rows : list (@raw_row F)) : list (list (acell F)) := rows_out legacy P STEP s cfg 0 1 loop_start rows.

  Notation accept := (accept legacy STEP s).
  Notation sel_of := (sel_of P cfg).
  Notation table_next := (table_next P cfg).

  Definition load_facts (D : chip_data) (mode : assignment_mode) (calcs : nat) (t : hash_table F) (L0 L1 : layout F)
             (ins finals : list (list (acell F))) : Prop :=
    let rows := raw_rows calcs t in
    let pairs := final_pairs (at_ [] (table_out rows)) (stack_out D 0 (table_in rows)) in
    lo_adv L1 = lo_adv L0 ++ (custom_writes P cfg ++ rows_writes legacy P STEP s cfg 1 loop_start rows) ++ stack_adv D 0 (table_in rows)
    /\ lo_fix L1 = lo_fix L0 ++ enable_writes P cfg 1 calcs ++ stack_fix D 0 calcs
    /\ lo_sel L1 = lo_sel L0 ++ sel_of mode calcs ++ stack_sel D 0 calcs
    /\ lo_copy L1 = lo_copy L0 ++ stack_copy D [] 0 (table_in rows) ++ pairs
    /\ lo_tables L1 = lo_tables L0 ++ [(sc_range cfg, range_table legacy STEP)]
    /\ lo_const L1 = lo_const L0
    /\ (forall c, tab_own c -> lo_next L1 c = table_next mode calcs c)
    /\ lo_next L1 (cd_main D) = h * calcs /\ ready D L1
    /\ (forall c, ~ table_columns C c -> lo_next L1 c = lo_next L0 c)
    /\ (exists new, lo_starts L1 = lo_starts L0 ++ new)
    /\ length ins = calcs /\ length finals = calcs
    /\ map (map (located L1)) ins = at_ [] (table_in rows)
    /\ map (map (located L1)) finals = stack_out D 0 (table_in rows)
    /\ inv D L1 (combine ins finals) (lo_copy L0 ++ pairs).

  Lemma at_length : forall st x, length (at_ (F := F) st x) = length x.
  Proof. intros. apply map_length. Qed.
  Lemma rows_in_length : forall rows ri o lp, length (rows_in legacy P STEP s cfg ri o lp rows) = length rows.
  Proof. induction rows as [|r rows IH]; intros; [reflexivity|]. cbn [TableRows_proof.rows_in length]. now rewrite IH. Qed.

  Lemma at_app : forall (L : layout F) new x, Forall (three_words L) x -> at_ (lo_starts L ++ new) x = at_ (lo_starts L) x.
  Proof.
    intros L new x H. unfold at_. apply map_ext_in. intros ws Hws. rewrite Forall_forall in H. apply H in Hws.
    apply map_ext_in. intros w Hw. f_equal. apply abs_cell_app. destruct Hws as [_ Hws]. rewrite Forall_forall in Hws. now apply Hws.
  Qed.

  Theorem load_result : forall D mode calcs t L0, chip_here D -> mode_ok mode -> table_free C L0 ->
    if accept mode calcs t then
      exists L1 ins finals, hc_load C mode calcs t L0 = Ok (L1, tt) /\ load_facts D mode calcs t L0 L1 ins finals
    else hc_load C mode calcs t L0 = Panic.
  Proof.
    intros D mode calcs t L0 HD Hm (U & UT).
    pose proof HD as HD'. destruct HD' as (Laws & Hh & Own & Hg & Hl & He & Hr1 & Hr2 & _).
    set (La := {| lo_starts := lo_starts L0; lo_next := lo_next L0; lo_adv := lo_adv L0; lo_fix := lo_fix L0; lo_sel := lo_sel L0;
                  lo_copy := lo_copy L0; lo_tables := lo_tables L0 ++ [(sc_range cfg, range_table legacy STEP)]; lo_const := lo_const L0 |}).
    assert (Fa : tab_free P cfg La). { intros c Hc. cbn [lo_next La]. apply U. eapply tab_table_columns; eassumption. }
    destruct tab_length as [T1 T2].
    pose proof (rows_next legacy P STEP s cfg T1 T2 mode calcs t La Fa) as RN.
    assert (LD : hc_load C mode calcs t L0
                 = lbind (load_rows legacy P STEP s cfg mode calcs t)
                     (fun '(i, o) => lbind (load_permutations P cfg mode i) (fun f => assign_region (final_copies o f))) La).
    { unfold hc_load, load. rewrite (lbind_ok _ _ _ _ _ (assign_table_fresh (sc_range cfg) (range_table legacy STEP) L0 UT ltac:(unfold range_table; rewrite map_length, seq_length; lia))).
      reflexivity. }
    destruct (accept mode calcs t).
    2:{ rewrite LD. unfold lbind at 1. rewrite RN. reflexivity. }
    destruct RN as (Lb & ins & outs & Eb & RL & Nb).
    rewrite LD, (lbind_ok _ _ _ _ _ Eb). cbv beta iota.
    pose proof (rows_laid_other legacy P STEP s cfg T1 T2 _ _ _ _ _ _ (cd_own D) RL (fun q r H => proj1 (sel_of_in P cfg mode calcs q r H))) as Db.
    destruct RL as ((newb & Sb) & Ob & Ab & Fb & Qb & Cb & Tb & Kb & Ib & Xb & W1 & W2).
    set (rows := raw_rows calcs t) in *.
    assert (Lr : length rows = calcs) by apply raw_rows_length.
    assert (Li : length ins = calcs).
    { apply (f_equal (@length _)) in Ib. unfold ins_at in Ib. rewrite map_length, at_length, rows_in_length in Ib. congruence. }
    (* the permutations *)
    specialize (Db (fun c => tab_not_own D c HD)).
    assert (Ua : unused (cd_own D) La).
    { destruct U as (U1 & U2 & U3 & U4). split; [|split; [|split]].
      - intros c Hc. apply U1. eapply own_table_columns; eassumption.
      - intros c r v H Hc. apply (U2 _ _ _ H). eapply own_table_columns; eassumption.
      - intros c r v H Hc. apply (U3 _ _ _ H). eapply own_table_columns; eassumption.
      - intros c r H Hc. apply (U4 _ _ H). eapply own_table_columns; eassumption. }
    specialize (Db Ua).
    pose proof (inv_start D perm Laws Lb Db) as I0.
    assert (Hrun : runs D (load_permutations P cfg mode ins) ins).
    { destruct mode as [|threads]; cbn [load_permutations]; [apply Hr1|]. apply Hr2. exact Hm. }
    destruct (Hrun Lb (proj1 I0) W1) as (Lc & finals & Ec & St).
    rewrite (lbind_ok _ _ _ _ _ Ec).
    pose proof (inv_stacked D _ _ _ _ _ _ I0 W1 St) as I1. cbn [app] in I1.
    pose proof (stacked_length D _ _ _ _ St) as Lf.
    pose proof (known_app (F := F) Lb Lc) as KA.
    destruct St as (Sc & Nc & Rc & Oc & Ac & Fc & Qc & Cc & Tc & Kc & Xc & Wc).
    assert (N0 : lo_next Lb (cd_main D) = 0) by (apply Db; apply (law_main D perm Laws)).
    rewrite N0 in Ac, Fc, Qc, Cc, Xc, Nc. rewrite Li in Fc, Qc, Nc.
    destruct (final_region outs finals Lc) as (Ld & Ed & Sd & Nd & Ad & Fd & Qd & Cd & Td & Kd).
    exists Ld, ins, finals. split; [exact Ed|].
    assert (EA : at_ (lo_starts Lb) ins = at_ [] (table_in rows)) by exact Ib.
    assert (EO : at_ (lo_starts Lb) outs = at_ [] (table_out rows)) by exact Xb.
    assert (SO : stack_out D 0 ins = stack_out D 0 (table_in rows)) by exact (at_out D _ _ _ _ 0 EA).
    assert (SC : stack_copy D (lo_starts Lb) 0 ins = stack_copy D [] 0 (table_in rows)) by exact (at_copy D _ _ _ _ 0 EA).
    assert (SA : stack_adv D 0 ins = stack_adv D 0 (table_in rows)) by exact (at_adv D _ _ _ _ 0 EA).
    assert (W1c : Forall (three_words Lc) ins) by (eapply Forall_impl; [|exact W1]; intros ws; now apply KA).
    assert (W2c : Forall (three_words Lc) outs) by (eapply Forall_impl; [|exact W2]; intros ws; now apply KA).
    assert (PE : final_pairs (at_ (lo_starts Lc ++ [0]) outs) (at_ (lo_starts Lc ++ [0]) finals)
                 = final_pairs (at_ [] (table_out rows)) (stack_out D 0 (table_in rows))).
    { rewrite !at_app by assumption. destruct Sc as [newc Sc]. f_equal.
      - rewrite Sc, at_app by assumption. exact EO.
      - rewrite <- SO. exact Xc. }
    rewrite PE in Cd. unfold load_facts. fold rows. cbv zeta.
    set (pairs := final_pairs (at_ [] (table_out rows)) (stack_out D 0 (table_in rows))) in *.
    split; [rewrite Ad, Ac, Ab, SA; now rewrite <- app_assoc|].
    split; [rewrite Fd, Fc, Fb, Lr; now rewrite <- app_assoc|].
    split; [rewrite Qd, Qc, Qb; now rewrite <- app_assoc|].
    split; [rewrite Cd, Cc, Cb, SC; now rewrite <- app_assoc|].
    split; [rewrite Td, Tc, Tb; reflexivity|].
    split; [rewrite Kd, Kc, Kb; reflexivity|].
    split. { intros c Hc. rewrite Nd, Oc, Nb by (try assumption; now apply tab_not_own). reflexivity. }
    split. { rewrite Nd, Nc, Hh. lia. }
    split. { intros c Hc. rewrite !Nd. now apply Rc. }
    split. { intros c Hc. rewrite Nd, Oc, Ob; [reflexivity| |].
             - intros T. apply Hc. eapply tab_table_columns; eassumption.
             - intros T. apply Hc. eapply own_table_columns; eassumption. }
    split. { destruct Sc as [newc Sc]. exists (newb ++ newc ++ [0]). rewrite Sd, Sc, Sb. cbn [lo_starts La]. now rewrite <- !app_assoc. }
    split; [assumption|]. split; [congruence|].
    split. { rewrite at_located, Sd, at_app by assumption. destruct Sc as [newc Sc]. rewrite Sc, at_app by assumption. exact EA. }
    split. { rewrite at_located, Sd, at_app by assumption. rewrite <- SO. exact Xc. }
    replace (lo_copy L0 ++ pairs) with (lo_copy Lb ++ pairs) by (now rewrite Cb).
    eapply (inv_elsewhere D perm Laws); [exact I1|].
    exists [0], [], [], []. rewrite !app_nil_r. split; [exact Sd|]. split; [intros; apply Nd|].
    split; [assumption|]. split; [easy|]. split; [assumption|]. split; [easy|]. split; [assumption|]. split; [easy|]. exact Cd.
  Qed.
End Circuit.
