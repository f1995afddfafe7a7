(** A finished layout with a hash table: its rows, its permutations. *)
From Coq Require Import ZArith List Arith Lia Bool.
From Verif Require Import Field Rust ListAux Primitives Specs BaseHash Halo2 PermuteChip ChipUse Layout_proof Contract
  Stack_proof SpongeTable TableRows_proof TableLoad_proof TableUse TableInv_proof TableGate_proof.
Import ListNotations.
Local Open Scope nat_scope.

Section Sound.
  Context {F : Type} {FO : FieldOps F}.
  Variable C : hash_circuit F.
  Variable perm : list F -> list F.
  Variable h : nat.
  Hypothesis HC : host_columns C.
  Hypothesis HP : chip_correct (hc_chip C) perm h.
  Notation P := (hc_chip C).
  Notation cfg := (hc_config C).
  Notation legacy := (hc_legacy C).
  Notation STEP := (hc_range C).
  Notation s := (hc_spec C).
  Notation chip_here := (chip_here C perm h).
  Notation table_in := (table_in C).
  Notation table_out := (table_out C).
  Notation load_facts := (load_facts C h).
  Notation accept := (accept legacy STEP s).
  Notation wr rows := (custom_writes P cfg ++ rows_writes legacy P STEP s cfg 1 loop_start rows).

  Lemma elsewhere_sub : forall (own own' : column -> Prop) (L L' : layout F) copies, (forall c, own c -> own' c) ->
    elsewhere own' L L' copies -> elsewhere own L L' copies.
  Proof.
    clear HC HP. intros own own' L L' copies H (st & av & fv & sv & E1 & E2 & E3 & E4 & E5 & E6 & E7 & E8 & E9).
    exists st, av, fv, sv. split; [assumption|]. split; [intros; now apply E2, H|]. split; [assumption|].
    split. { intros c r v X Y. now apply (E4 c r v X), H. } split; [assumption|].
    split. { intros c r v X Y. now apply (E6 c r v X), H. } split; [assumption|].
    split. { intros c r X Y. now apply (E8 c r X), H. } assumption.
  Qed.

  Definition final_facts (D : chip_data (F := F)) (mode : assignment_mode) (calcs : nat) (t : hash_table F) (L0 L : layout F)
             (copies : list ((column * nat) * (column * nat))) (ins finals : list (list (acell F))) : Prop :=
    let rows := raw_rows calcs t in
    let pairs := final_pairs (at_ [] (table_out rows)) (stack_out D 0 (table_in rows)) in
    inv D L (combine ins finals) ((lo_copy L0 ++ pairs) ++ copies)
    /\ enabled_rows C L calcs /\ custom_rows C L calcs
    /\ (exists pre post, lo_tables L = pre ++ (cs_fix (hc_host C), range_table legacy STEP) :: post
          /\ forall v, ~ In (cs_fix (hc_host C), v) pre)
    /\ length ins = calcs /\ length finals = calcs
    /\ map (map (located L)) ins = at_ [] (table_in rows)
    /\ map (map (located L)) finals = stack_out D 0 (table_in rows)
    /\ (forall c r, In c (tcols P cfg) -> last_write (lo_adv L) c r = last_write (wr rows) c r)
    /\ (forall p, In p pairs -> In p (lo_copy L)).

  Lemma existsb_sel : forall (l : list (nat * nat)) q r,
    existsb (fun '(s', r') => (q =? s') && (r =? r')) l = true <-> In (q, r) l.
  Proof.
    clear HC HP. intros l q r. rewrite existsb_exists. split.
    - intros ([a b] & H & E). apply andb_prop in E. destruct E as [E1 E2]. apply Nat.eqb_eq in E1, E2. now subst.
    - intros H. exists (q, r). rewrite !Nat.eqb_refl. auto.
  Qed.

  Lemma loaded_final : forall D mode calcs t L0 L1 L copies, chip_here D -> loaded C mode calcs t L0 L1 L copies ->
    accept mode calcs t = true
    /\ exists ins finals, load_facts D mode calcs t L0 L1 ins finals /\ final_facts D mode calcs t L0 L copies ins finals.
  Proof.
    intros D mode calcs t L0 L1 L copies HD ((U & UT) & Hm & Eld & Els & (ts & Ets)).
    pose proof (load_result C perm h HC D mode calcs t L0 HD Hm (conj U UT)) as LR.
    destruct (accept mode calcs t); [|rewrite LR in Eld; discriminate].
    destruct LR as (L1' & ins & finals & E & LF). rewrite E in Eld. injection Eld as ->.
    split; [reflexivity|]. exists ins, finals. split; [exact LF|].
    pose proof HD as HD'. destruct HD' as (Laws & Hh & _).
    destruct LF as (A1 & F1 & Q1 & C1 & T1 & K1 & N1 & N2 & R1 & N3 & S1 & LI & LFin & I1 & X1 & INV).
    unfold final_facts. cbv zeta. set (rows := raw_rows calcs t) in *.
    set (pairs := final_pairs (at_ [] (table_out rows)) (stack_out D 0 (table_in rows))) in *.
    assert (ElD : elsewhere (cd_own D) L1 L copies).
    { eapply elsewhere_sub; [|exact Els]. intros c. now apply (own_table_columns C perm h). }
    assert (ElT : elsewhere (TableLoad_proof.tab_own P cfg) L1 L copies).
    { eapply elsewhere_sub; [|exact Els]. intros c. now apply (tab_table_columns C perm h HC D). }
    assert (INV2 := inv_elsewhere D perm Laws _ _ _ _ _ INV ElD).
    destruct (configured C HC) as [Ecfg _].
    assert (Eq_ : sc_enable cfg = hc_enable C) by (rewrite Ecfg; reflexivity).
    assert (Es_ : sc_custom cfg = cs_sel (hc_host C)) by (rewrite Ecfg; reflexivity).
    assert (Er_ : sc_range cfg = cs_fix (hc_host C)) by (rewrite Ecfg; reflexivity).
    destruct ElT as (st & av & fv & sv & G1 & G2 & G3 & G4 & G5 & G6 & G7 & G8 & G9).
    assert (OT : forall c, TableLoad_proof.tab_own P cfg c -> ~ cd_own D c) by (intros c; now apply (tab_not_own C perm h)).
    assert (UT2 : forall c, TableLoad_proof.tab_own P cfg c -> table_columns C c) by (intros c; now apply (tab_table_columns C perm h HC D)).
    clear Els E HD Ecfg Hm. set (cf := hc_config C) in *. clearbody cf.
    split; [exact INV2|].
    split.
    { intros r. unfold fixed_at. rewrite G5, F1, <- !app_assoc, !last_write_app, <- Eq_.
      rewrite (last_write_none fv) by (intros v X; apply G6 in X; now apply X).
      rewrite (last_write_none (stack_fix D 0 calcs)).
      2:{ intros v X. rewrite stack_fix_w in X. apply stackw_in in X.
          destruct X as (i & o & Hi & X & _). assert (X' : In (sc_enable cf, o, v) (cd_fix D)).
          { rewrite repeat_length in Hi. rewrite nth_repeat_lt in X by assumption. exact X. }
          apply (law_fix_rows D perm Laws) in X'. now apply (OT (Fix (sc_enable cf))). }
      destruct ((1 <=? r) && (r <=? calcs)) eqn:Er.
      - apply andb_prop in Er. destruct Er as [R1' R2]. apply Nat.leb_le in R1', R2.
        rewrite (last_write_fun _ _ _ fone); [reflexivity| |].
        + apply enable_writes_in. split; [reflexivity|]. split; [lia|reflexivity].
        + intros w X. apply enable_writes_in in X. apply X.
      - rewrite (last_write_none (enable_writes P cf 1 calcs)).
        2:{ intros v X. apply enable_writes_in in X. destruct X as (_ & X & _).
            apply andb_false_iff in Er. destruct Er as [Er|Er]; apply Nat.leb_gt in Er; lia. }
        rewrite (last_write_none (lo_fix L0)); [reflexivity|]. intros v X. apply U in X. apply X. now apply UT2. }
    split.
    { intros r. rewrite <- Es_.
      assert (IFF : In (sc_custom cf, r) (lo_sel L) <-> r = 0 \/ r = calcs).
      { rewrite G7, Q1, !in_app_iff. split.
        - intros [[X|[X|X]]|X].
          + exfalso. apply U in X. apply X. now apply UT2.
          + apply sel_of_in in X. tauto.
          + exfalso. apply stack_sel_in in X. destruct X as (i & o & _ & X & _). apply (law_sel_rows D perm Laws) in X.
            now apply (OT (Sel (sc_custom cf))).
          + exfalso. apply G8 in X. now apply X.
        - intros X. left. right. left. apply sel_of_iff. auto. }
      destruct ((r =? 0) || (r =? calcs)) eqn:Er.
      - apply selector_at_on. apply IFF. apply orb_prop in Er. destruct Er as [Er|Er]; apply Nat.eqb_eq in Er; auto.
      - apply selector_at_off. intros X. apply IFF in X. apply orb_false_iff in Er. destruct Er as [X1' X2].
        apply Nat.eqb_neq in X1', X2. tauto. }
    split.
    { exists (lo_tables L0), ts. rewrite Ets, T1, Er_, <- app_assoc. split; [reflexivity|]. intros v. rewrite <- Er_. apply UT. }
    split; [assumption|]. split; [assumption|].
    assert (LOC : forall x, Forall (three_words L1) x -> map (map (located L)) x = map (map (located L1)) x).
    { intros x Hx. apply map_ext_in. intros ws Hws. apply located_app; [eauto|]. rewrite Forall_forall in Hx. now apply Hx. }
    destruct INV as (_ & _ & _ & _ & _ & W1 & W2 & _).
    rewrite combine_fst in W1 by congruence. rewrite combine_snd in W2 by congruence.
    split; [rewrite LOC by assumption; exact I1|]. split; [rewrite LOC by assumption; exact X1|].
    split.
    { intros c r Hc. rewrite G3, A1, <- !app_assoc, (last_write_app (lo_adv L0)), last_write_app, last_write_app, last_write_app.
      rewrite (last_write_none av) by (intros v X; apply G4 in X; now apply X).
      rewrite (last_write_none (stack_adv D 0 (table_in rows))).
      2:{ intros v X. rewrite stack_adv_w in X. apply stackw_in in X. destruct X as (i & o & Hi & X & _).
          destruct (nth_error (map (fun ws => cd_adv D (word_vals ws)) (table_in rows)) i) as [b|] eqn:Eb.
          - assert (X' : In (c, o, v) b) by (now rewrite (nth_error_nth _ _ _ Eb) in X).
            apply nth_error_In in Eb. rewrite in_map_iff in Eb. destruct Eb as (ws & <- & _).
            apply (law_adv_rows D perm Laws) in X'. now apply (OT (Adv c)).
          - apply nth_error_None in Eb. rewrite nth_overflow in X by assumption. destruct X. }
      rewrite (last_write_none (lo_adv L0)) by (intros v X; apply U in X; apply X; now apply UT2).
      rewrite last_write_app. destruct (last_write (rows_writes _ _ _ _ _ _ _ _) c r); [reflexivity|].
      destruct (last_write (custom_writes P cf) c r); reflexivity. }
    intros p Hp. rewrite G9, C1, !in_app_iff. tauto.
  Qed.

  (** ** The permutations of the rows *)
  Lemma rows_cells : forall rows i o lp, i < length rows ->
    map fst (nth i (at_ [] (rows_in legacy P STEP s cfg 0 o lp rows)) [])
      = map (fun j => (Adv (col (sc_aux cfg) j), i + o)) [0; 1; 2]
    /\ map fst (nth i (at_ [] (rows_out legacy P STEP s cfg 0 o lp rows)) [])
      = map (fun j => (Adv (col (sc_aux cfg) j), i + o)) [5; 3; 4].
  Proof.
    clear HC HP. generalize (hc_config C). intros cf.
    induction rows as [|r rows IH]; intros i o lp Hi; cbn [length] in Hi; [lia|].
    destruct i as [|i].
    - cbn [TableRows_proof.rows_in TableRows_proof.rows_out]. unfold at_, row_start_cells, row_end_cells, acell_at, abs_cell.
      cbn [map nth fst ac_cell ac_val ce_col ce_off ce_region]. rewrite !Nat.add_0_r. split; reflexivity.
    - cbn [TableRows_proof.rows_in TableRows_proof.rows_out]. unfold at_ in *. cbn [map nth].
      destruct (IH i (S o) (r_next legacy STEP s o lp r) ltac:(lia)) as [I1 I2].
      rewrite I1, I2. replace (i + S o) with (S i + o) by lia. split; reflexivity.
  Qed.
  Lemma rows_cells_length : forall rows o lp, length (at_ [] (rows_in legacy P STEP s cfg 0 o lp rows)) = length rows
    /\ length (at_ [] (rows_out legacy P STEP s cfg 0 o lp rows)) = length rows.
  Proof.
    clear HC HP. generalize (hc_config C). intros cf. unfold at_.
    induction rows as [|r rows IH]; intros o lp; [split; reflexivity|].
    cbn [TableRows_proof.rows_in TableRows_proof.rows_out map length]. destruct (IH (S o) (r_next legacy STEP s o lp r)) as [-> ->].
    split; reflexivity.
  Qed.

  Lemma aux_col : forall j, j < 6 -> col (sc_aux cfg) j = j + A0 C.
  Proof.
    intros j Hj. destruct (configured C HC) as [E _]. rewrite E. cbn [sc_aux]. clear E.
    do 6 (destruct j as [|j]; [reflexivity|]). lia.
  Qed.

  (** the words of row [r] are given to and returned by permutation [r - 1] *)
  Lemma row_words : forall D mode calcs t L0 L copies ins finals adv i,
    final_facts D mode calcs t L0 L copies ins finals -> i < calcs ->
    exists ws out, nth_error (combine ins finals) i = Some (ws, out)
      /\ map (word_at L adv) ws = map (fun j => auxc C adv j (S i)) [0; 1; 2]
      /\ (copies_hold L adv -> map (word_at L adv) out = map (fun j => auxc C adv j (S i)) [5; 3; 4])
      /\ length out = 3 /\ length ws = 3.
  Proof.
    intros D mode calcs t L0 L copies ins finals adv i (INV & _ & _ & _ & LI & LF & EI & EF & _ & PA) Hi.
    set (rows := raw_rows calcs t) in *.
    assert (Lr : length rows = calcs) by apply raw_rows_length.
    destruct (nth_error (combine ins finals) i) as [[ws out]|] eqn:E.
    2:{ exfalso. apply nth_error_None in E. rewrite combine_length in E. lia. }
    exists ws, out. split; [reflexivity|].
    assert (E1 : nth_error ins i = Some ws).
    { rewrite <- (combine_fst ins finals) by congruence. rewrite nth_error_map, E. reflexivity. }
    assert (E2 : nth_error finals i = Some out).
    { rewrite <- (combine_snd ins finals) by congruence. rewrite nth_error_map, E. reflexivity. }
    assert (M1 : map (located L) ws = nth i (at_ [] (table_in rows)) []).
    { rewrite <- EI. symmetry. apply nth_error_nth. rewrite nth_error_map, E1. reflexivity. }
    assert (M2 : map (located L) out = nth i (stack_out D 0 (table_in rows)) []).
    { rewrite <- EF. symmetry. apply nth_error_nth. rewrite nth_error_map, E2. reflexivity. }
    assert (Hir : i < length rows) by lia.
    destruct (rows_cells rows i 1 loop_start Hir) as [R1 R2].
    destruct (rows_cells_length rows 1 loop_start) as [Q1 Q2].
    assert (A6 := aux_col).
    assert (WW : forall x, map (word_at L adv) x = map (cell_at L adv) (map fst (map (located L) x))).
    { intros x. rewrite !map_map. reflexivity. }
    destruct (inv_call D _ _ _ _ _ _ INV E) as (_ & _ & K1 & K2 & _).
    split; [|split; [|split; [exact K2|exact (proj1 K1)]]].
    - rewrite WW, M1. unfold TableInv_proof.table_in. rewrite R1, map_map. apply map_ext_in. intros j Hj. cbn [cell_at].
      unfold auxc. rewrite A6 by (cbn in Hj; lia). f_equal. lia.
    - intros CH. rewrite WW, M2. rewrite <- (Nat.add_1_r i).
      assert (Q3 : length (stack_out D 0 (table_in rows)) = calcs).
      { rewrite stack_out_length. rewrite <- Lr. rewrite <- Q1. unfold at_. rewrite map_length. reflexivity. }
      assert (PI : In (nth i (at_ [] (table_out rows)) [], nth i (stack_out D 0 (table_in rows)) [])
                      (combine (at_ [] (table_out rows)) (stack_out D 0 (table_in rows)))).
      { unfold TableInv_proof.table_out. rewrite <- combine_nth by congruence. apply nth_In. rewrite combine_length. lia. }
      assert (PC : forall p, In p (combine (map fst (nth i (at_ [] (table_out rows)) [])) (map fst (nth i (stack_out D 0 (table_in rows)) []))) ->
                   cell_at L adv (fst p) = cell_at L adv (snd p)).
      { intros [a b] Hp. apply CH. apply PA. unfold final_pairs. rewrite in_flat_map. eexists. split; [exact PI|]. exact Hp. }
      unfold TableInv_proof.table_out in PC. rewrite R2 in PC.
      assert (L3 : length (map fst (nth i (stack_out D 0 (table_in rows)) [])) = 3) by (rewrite <- M2, !map_length; exact K2).
      destruct (length_list3 _ L3) as (f0 & f1 & f2 & Ef). rewrite Ef in *. cbn [map combine] in *.
      pose proof (PC _ (or_introl eq_refl)) as P0. pose proof (PC _ (or_intror (or_introl eq_refl))) as P1.
      pose proof (PC _ (or_intror (or_intror (or_introl eq_refl)))) as P2. cbn [fst snd] in P0, P1, P2. rewrite <- P0, <- P1, <- P2.
      cbn [cell_at]. unfold auxc. rewrite !A6 by lia. reflexivity.
  Qed.

  Lemma rows_permuted : forall D mode calcs t L0 L copies ins finals n adv, chip_here D ->
    final_facts D mode calcs t L0 L copies ins finals -> h * calcs <= n ->
    gates_hold n L adv (cd_gates D) -> copies_hold L adv ->
    forall r, 1 <= r <= calcs ->
    map (fun j => auxc C adv j r) [5; 3; 4]
    = map (fun j => nth j (perm [auxc C adv 0 r; auxc C adv 1 r; auxc C adv 2 r]) fzero) [0; 1; 2].
  Proof.
    intros D mode calcs t L0 L copies ins finals n adv HD FF Hn G CH r Hr.
    destruct r as [|i]; [lia|].
    destruct (row_words _ _ _ _ _ _ _ _ _ adv i FF ltac:(lia)) as (ws & out & E & W1 & W2 & _).
    destruct HD as (Laws & Hh & _). destruct FF as (INV & _ & _ & _ & LI & LF & _).
    assert (Hl : length (combine ins finals) = calcs) by (rewrite combine_length; lia).
    pose proof (calls_sound D perm Laws _ _ _ n adv INV ltac:(rewrite Hl, Hh; exact Hn) G CH ws out (nth_error_In _ _ E)) as CS.
    rewrite (W2 CH), W1 in CS. exact CS.
  Qed.
End Sound.
