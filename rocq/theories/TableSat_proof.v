(** Satisfying assignments of a circuit with a hash table. *)
From Coq Require Import ZArith NArith List Arith Lia Bool.
From Verif Require Import Field Rust ListAux Primitives Specs BaseHash Halo2 PermuteChip ChipUse Layout_proof SeptVal_proof Contract
  Stack_proof SpongeTable TableRows_proof TableLoad_proof TableUse TableInv_proof TableGate_proof TableSound_proof TableMsg_proof
  TableVals_proof TableHonest_proof.
Import ListNotations.
Local Open Scope nat_scope.

Section Sat.
  Context {F : Type} {FO : FieldOps F} {PF : PrimeField F}.
  Variable C : hash_circuit F.
  Variable perm : list F -> list F.
  Variable h : nat.
  Hypothesis HC : host_columns C.
  Hypothesis HP : chip_correct (hc_chip C) perm h.
  Notation P := (hc_chip C).
  Notation cfg := (hc_config C).
  Notation legacy := (hc_legacy C).
  Notation STEP := (hc_range C).
  Notation s := (hc_spec C).
  Notation chip_here := (chip_here C perm h).
  Notation load_facts := (load_facts C h).
  Notation final_facts := (final_facts C).
  Notation accept := (accept legacy STEP s).
  Notation table_in := (table_in C).
  Notation table_out := (table_out C).
  Notation state_at := (state_at legacy STEP s).

  (** ** Gates and lookups, split *)
  Lemma gates_app : forall n (L : layout F) adv g1 g2, gates_hold n L adv (g1 ++ g2) <-> gates_hold n L adv g1 /\ gates_hold n L adv g2.
  Proof.
    intros n L adv g1 g2. unfold gates_hold. split.
    - intros H. split; intros g r Hg Hr; apply H; try assumption; apply in_or_app; tauto.
    - intros [H1 H2] g r Hg Hr. apply in_app_or in Hg. destruct Hg; auto.
  Qed.
  Lemma lookups_app : forall n u (L : layout F) adv l1 l2,
    lookups_hold n u L adv (l1 ++ l2) <-> lookups_hold n u L adv l1 /\ lookups_hold n u L adv l2.
  Proof.
    intros n u L adv l1 l2. unfold lookups_hold. split.
    - intros H. split; intros e t r He Hr; apply H; try assumption; apply in_or_app; tauto.
    - intros [H1 H2] e t r He Hr. apply in_app_or in He. destruct He; auto.
  Qed.

  (** ** Soundness *)
  Lemma sat_ok : forall mode calcs t L0 L1 L copies n u adv, loaded C mode calcs t L0 L1 L copies ->
    calcs < u -> h * calcs <= u -> u <= n -> satisfied n u (hc_cs C) L adv -> table_ok C perm n calcs adv.
  Proof.
    intros mode calcs t L0 L1 L copies n u adv HL Hu Hh Hn (G & Lk & Cp).
    destruct (chip_is_here C perm h HC HP) as (D & HD).
    destruct (loaded_final C perm h HC D mode calcs t L0 L1 L copies HD HL) as (_ & ins & finals & _ & FF).
    pose proof HD as HD'. destruct HD' as (Laws & Hh' & _ & Eg & El & _).
    rewrite Eg in G. apply gates_app in G. destruct G as [_ G]. apply gates_app in G. destruct G as [G1 G2].
    rewrite El in Lk. apply lookups_app in Lk. destruct Lk as [_ Lk].
    pose proof FF as FF'. destruct FF' as (_ & Er & Cr & Tb & _).
    apply (table_gates_rows C n L adv calcs Er Cr ltac:(lia)) in G1. destruct G1 as (R1 & R2 & R3).
    destruct (range_lookup_rows C n u L adv ltac:(lia) Tb) as [RL _].
    split.
    - exact R1.
    - exact R2.
    - exact R3.
    - intros r Hr. apply (RL Lk). lia.
    - intros r Hr. exact (rows_permuted C perm h HC D mode calcs t L0 L copies ins finals n adv HD FF ltac:(lia) G2 Cp r Hr).
  Qed.

  Lemma sat_range : forall mode calcs t L0 L1 L copies n u adv, loaded C mode calcs t L0 L1 L copies -> 0 < u -> u <= n ->
    satisfied n u (hc_cs C) L adv -> forall r, r < u -> range_eq C adv n r.
  Proof.
    intros mode calcs t L0 L1 L copies n u adv HL Hu Hn (_ & Lk & _).
    destruct (chip_is_here C perm h HC HP) as (D & HD).
    destruct (loaded_final C perm h HC D mode calcs t L0 L1 L copies HD HL) as (_ & ins & finals & _ & FF).
    destruct HD as (_ & _ & _ & _ & El & _). destruct FF as (_ & _ & _ & Tb & _).
    rewrite El in Lk. apply lookups_app in Lk. destruct Lk as [_ Lk].
    destruct (range_lookup_rows C n u L adv ltac:(lia) Tb) as [RL _]. exact (RL Lk).
  Qed.

  (** ** The copy constraints *)
  Definition own_copies (D : chip_data (F := F)) (calcs : nat) (a b : column * nat) : Prop :=
    exists i j, i < calcs /\ j < 3
      /\ ((a = (Adv (cd_in D j), h * i) /\ b = (Adv (j + A0 C), S i))
          \/ (a = (Adv (nth j [5; 3; 4] 0 + A0 C), S i) /\ b = (Adv (cd_out_col D j), cd_out_row D j + h * i))).

  Lemma in3 : forall {A} (x : A) a b c, In x [a; b; c] -> exists j, j < 3 /\ nth j [a; b; c] x = x.
  Proof. intros A x a b c [->|[->|[->|[]]]]; [exists 0|exists 1|exists 2]; split; auto. Qed.

  Lemma table_copies : forall D mode calcs t L0 L copies ins finals, chip_here D ->
    final_facts D mode calcs t L0 L copies ins finals -> forall a b, In (a, b) (lo_copy L) ->
    In (a, b) (lo_copy L0 ++ copies) \/ own_copies D calcs a b.
  Proof.
    intros D mode calcs t L0 L copies ins finals HD FF a b Hab.
    destruct HD as (Laws & Hh & _).
    destruct FF as (INV & _ & _ & _ & LI & LF & EI & EF & _).
    assert (A6 := aux_col C HC).
    pose proof INV as INV'. destruct INV' as (_ & _ & _ & _ & _ & _ & _ & _ & CC). apply CC in Hab. clear CC.
    set (rows := raw_rows calcs t) in *.
    assert (Lr : length rows = calcs) by apply raw_rows_length.
    assert (Q := rows_cells_length C rows 1 loop_start). destruct Q as [Q1 Q2].
    assert (RC := fun i Hi => rows_cells C rows i 1 loop_start Hi).
    destruct Hab as [Hab|Hab].
    - apply in_app_or in Hab. destruct Hab as [Hab|Hab]; [|left; apply in_or_app; now right].
      apply in_app_or in Hab. destruct Hab as [Hab|Hab]; [left; apply in_or_app; now left|]. right.
      unfold final_pairs in Hab. rewrite in_flat_map in Hab. destruct Hab as ([o f] & Hof & Hab).
      apply In_nth_error in Hof. destruct Hof as [i Hi].
      assert (E1 : nth_error (at_ [] (table_out rows)) i = Some o /\ nth_error (stack_out D 0 (table_in rows)) i = Some f).
      { clear - Hi. revert i Hi. generalize (stack_out D 0 (table_in rows)). generalize (at_ [] (table_out rows)).
        intros x y. revert y. induction x as [|x0 x IH]; intros [|y0 y] [|i] H; cbn [combine nth_error] in *; try discriminate.
        - injection H as -> ->. split; reflexivity.
        - now apply IH. }
      destruct E1 as [E1 E2].
      assert (Hi' : i < calcs).
      { rewrite <- Lr, <- Q2. apply nth_error_Some. unfold TableInv_proof.table_out in E1. congruence. }
      assert (Ro : map fst o = map (fun j => (Adv (j + A0 C), S i)) [5; 3; 4]).
      { destruct (RC i ltac:(lia)) as [_ R2]. unfold TableInv_proof.table_out in E1. rewrite (nth_error_nth _ _ _ E1) in R2. rewrite R2.
        rewrite Nat.add_1_r. apply map_ext_in. intros j Hj. rewrite A6 by (cbn in Hj; lia). reflexivity. }
      destruct (nth_error (combine ins finals) i) as [[ws out]|] eqn:E.
      2:{ exfalso. apply nth_error_None in E. rewrite combine_length in E. lia. }
      destruct (inv_call D _ _ _ _ _ _ INV E) as (_ & _ & _ & _ & BO & _).
      assert (E3 : nth_error finals i = Some out).
      { rewrite <- (combine_snd ins finals) by congruence. rewrite nth_error_map, E. reflexivity. }
      assert (Rf : map fst f = map (fun j => (Adv (cd_out_col D j), cd_out_row D j + h * i)) (seq 0 3)).
      { rewrite <- EF in E2. rewrite nth_error_map, E3 in E2. cbn [option_map] in E2. injection E2 as <-.
        rewrite BO. unfold block_out. rewrite map_map. rewrite Hh. reflexivity. }
      rewrite Ro, Rf in Hab. cbn [seq map combine In] in Hab.
      destruct Hab as [X|[X|[X|[]]]]; injection X as <- <-; exists i; [exists 0|exists 1|exists 2]; split; auto; split; auto; right; split; reflexivity.
    - right. rewrite combine_fst in Hab by congruence. apply stack_copy_in in Hab. destruct Hab as (i & ws & E & Hab).
      rewrite Nat.add_0_r in Hab.
      assert (Hi : i < calcs) by (rewrite <- LI; apply nth_error_Some; congruence).
      assert (Rw : map (fun w => abs_cell (lo_starts L) (ac_cell w)) ws = map (fun j => (Adv (j + A0 C), S i)) [0; 1; 2]).
      { destruct (RC i ltac:(lia)) as [R1 _].
        assert (M1 : map (located L) ws = nth i (at_ [] (table_in rows)) []).
        { rewrite <- EI. symmetry. apply nth_error_nth. rewrite nth_error_map, E. reflexivity. }
        unfold TableInv_proof.table_in in M1. rewrite <- M1 in R1. rewrite map_map in R1.
        transitivity (map (fun x => fst (located L x)) ws); [reflexivity|]. rewrite R1. rewrite Nat.add_1_r.
        apply map_ext_in. intros j Hj. rewrite A6 by (cbn in Hj; lia). reflexivity. }
      destruct ws as [|w0 [|w1 [|w2 [|]]]]; try discriminate. cbn [map] in Rw.
      pose proof (f_equal (fun l => nth 0 l (Adv 0, 0)) Rw) as W0. pose proof (f_equal (fun l => nth 1 l (Adv 0, 0)) Rw) as W1.
      pose proof (f_equal (fun l => nth 2 l (Adv 0, 0)) Rw) as W2. cbn [nth] in W0, W1, W2.
      unfold block_copy in Hab. cbn [seq combine map In] in Hab. rewrite W0, W1, W2, Hh in Hab.
      destruct Hab as [X|[X|[X|[]]]]; injection X as <- <-; exists i; [exists 0|exists 1|exists 2]; split; auto; split; auto; left; split; reflexivity.
  Qed.

  (** the host's own constraints are among those of the circuit *)
  Lemma sat_host : forall mode calcs t L0 L1 L copies n u adv, loaded C mode calcs t L0 L1 L copies ->
    satisfied n u (hc_cs C) L adv -> host_ok C L0 L copies n u adv.
  Proof.
    intros mode calcs t L0 L1 L copies n u adv HL (G & Lk & Cp).
    destruct (chip_is_here C perm h HC HP) as (D & HD).
    destruct (loaded_final C perm h HC D mode calcs t L0 L1 L copies HD HL) as (_ & ins & finals & _ & FF).
    destruct HD as (_ & _ & _ & Eg & El & _). destruct FF as (INV & _).
    rewrite Eg in G. apply gates_app in G. rewrite El in Lk. apply lookups_app in Lk.
    split; [apply G|]. split; [apply Lk|]. intros a b Hab. apply Cp.
    destruct INV as (_ & _ & _ & _ & _ & _ & _ & _ & CC). apply CC. left.
    apply in_app_or in Hab. destruct Hab as [Hab|Hab]; apply in_or_app; [left; apply in_or_app; now left|now right].
  Qed.

  (** ** Changing an assignment *)
  Lemma sat_change : forall mode calcs t L0 L1 L copies n u adv adv', loaded C mode calcs t L0 L1 L copies ->
    calcs < u -> h * calcs <= u -> u <= n -> satisfied n u (hc_cs C) L adv ->
    (forall c r, cs_adv (hc_host C) <= c -> (c < 8 + A0 C -> c < 6 + A0 C /\ 1 <= r) -> adv' c r = adv c r) ->
    (forall r, 1 <= r <= calcs -> row_eqs C adv' r) -> custom_eqs C adv' 0 -> custom_eqs C adv' calcs ->
    STEP < u -> (forall r, r < u -> range_eq C adv' n r) ->
    gates_hold n L adv' (cs_gates (hc_host C)) -> lookups_hold n u L adv' (cs_lookups (hc_host C)) ->
    (forall a b, In (a, b) (lo_copy L0 ++ copies) -> cell_at L adv' a = cell_at L adv' b) ->
    satisfied n u (hc_cs C) L adv'.
  Proof.
    intros mode calcs t L0 L1 L copies n u adv adv' HL Hu Hh Hn (G & _ & Cp) Eq R1 R2 R3 HS Rg Hg Hl Hc.
    destruct (chip_is_here C perm h HC HP) as (D & HD).
    destruct (loaded_final C perm h HC D mode calcs t L0 L1 L copies HD HL) as (_ & ins & finals & _ & FF).
    pose proof HD as HD'. destruct HD' as (Laws & Hh' & Own & Eg & El & _).
    assert (OwnA : forall c, cd_own D (Adv c) -> 8 + A0 C <= c).
    { intros c Hc'. apply Own in Hc'. cbn [added csm cs_adv] in Hc'. lia. }
    pose proof FF as FF'. destruct FF' as (INV & Er & Cr & Tb & LI & LF & _).
    assert (Lc : length (combine ins finals) = calcs) by (rewrite combine_length; lia).
    pose proof INV as INV'. destruct INV' as (_ & _ & OF & _ & OS & _). rewrite Lc in OF, OS.
    split; [|split].
    - rewrite Eg in G |- *. apply gates_app in G. destruct G as [_ G]. apply gates_app in G. destruct G as [_ G2].
      apply gates_app. split; [assumption|]. apply gates_app. split.
      + apply (table_gates_rows C n L adv' calcs Er Cr ltac:(lia)). auto.
      + rewrite <- Hh' in Hh. pose proof (stack_gates D perm Laws L 0 calcs n) as SG.
        apply (SG adv' OF OS ltac:(lia)). intros i Hi. pose proof (proj1 (SG adv OF OS ltac:(lia)) G2 i Hi) as K.
        eapply (law_local D perm Laws); [|exact K]. intros c o Hc' Ho. cbn beta. symmetry. apply OwnA in Hc'. unfold A0 in *. apply Eq; lia.
    - rewrite El. apply lookups_app. split; [assumption|].
      destruct (range_lookup_rows C n u L adv' ltac:(lia) Tb) as [_ RL]. now apply RL.
    - intros a b Hab. pose proof Hab as Hab'.
      apply (table_copies D mode calcs t L0 L copies ins finals HD FF) in Hab. destruct Hab as [Hab|Hab]; [now apply Hc|].
      specialize (Cp a b Hab'). destruct Hab as (i & j & Hi & Hj & K).
      pose proof (law_in D perm Laws j Hj) as [KI _]. pose proof (law_out D perm Laws j Hj) as [KO _].
      apply OwnA in KI, KO. unfold A0 in *.
      assert (N6 : nth j [5; 3; 4] 0 < 6) by (destruct j as [|[|[|j]]]; cbn [nth]; lia).
      destruct K as [[-> ->]|[-> ->]]; cbn [cell_at] in *; rewrite !Eq by lia; exact Cp.
  Qed.

  (** ** Completeness *)
  Hypothesis HS : forall x, length x = 3 -> hash_permute 3 s x = perm x.

  Lemma rows_in_values : forall rows i o lp r, nth_error rows i = Some r ->
    nth i (at_ [] (rows_in legacy P STEP s cfg 0 o lp rows)) []
    = map (fun j => ((Adv (col (sc_aux cfg) j), i + o), Some (nth j (r_before legacy (loop_after legacy STEP s o lp (firstn i rows)) r) fzero))) [0; 1; 2].
  Proof.
    clear HC HP HS. generalize (hc_config C). intros cf.
    induction rows as [|r0 rows IH]; intros i o lp r Hr; [destruct i; discriminate|].
    destruct i as [|i].
    - injection Hr as ->. cbn [TableRows_proof.rows_in firstn TableRows_proof.loop_after]. unfold at_, row_start_cells, acell_at, abs_cell.
      cbn [map nth ac_cell ac_val ce_col ce_off ce_region]. rewrite !Nat.add_0_r. reflexivity.
    - cbn [nth_error] in Hr. cbn [TableRows_proof.rows_in firstn TableRows_proof.loop_after]. unfold at_ in *. cbn [map nth].
      pose proof (IH i (S o) (r_next legacy STEP s o lp r0) r Hr) as I1. cbn [map] in I1. rewrite I1.
      replace (i + S o) with (S i + o) by lia. reflexivity.
  Qed.

  Lemma honest_written : forall D mode calcs t L0 L copies ins finals u blind,
    final_facts D mode calcs t L0 L copies ins finals -> written C (raw_rows calcs t) u (honest u L blind).
  Proof.
    intros D mode calcs t L0 L copies ins finals u blind (_ & _ & _ & _ & _ & _ & _ & _ & W & _) c r Hc Hr.
    unfold honest. replace (r <? u) with true by (symmetry; apply Nat.ltb_lt; assumption). rewrite W by assumption. reflexivity.
  Qed.

  Lemma honest_chip : forall D mode calcs t L0 L copies ins finals n u blind, chip_here D ->
    final_facts D mode calcs t L0 L copies ins finals -> calcs < u -> h * calcs <= u -> u <= n ->
    let adv := honest u L blind in
    gates_hold n L adv (cd_gates D)
    /\ ((forall a b, In (a, b) (lo_copy L0 ++ copies) -> cell_at L adv a = cell_at L adv b) -> copies_hold L adv).
  Proof.
    intros D mode calcs t L0 L copies ins finals n u blind HD FF Hu Hh Hn adv.
    pose proof (honest_written _ _ _ _ _ _ _ _ _ u blind FF) as W. fold adv in W.
    set (rows := raw_rows calcs t) in *. assert (Lr : length rows = calcs) by apply raw_rows_length.
    assert (RV := row_values C HC rows u adv W ltac:(lia)).
    pose proof HD as HD'. destruct HD' as (Laws & Hh' & _).
    assert (RW := fun i => row_words C HC D mode calcs t L0 L copies ins finals adv i FF).
    pose proof FF as FF'. destruct FF' as (INV & _ & _ & _ & LI & LF & EI & EF & _ & PA). fold rows in EI, EF, PA.
    assert (Lc : length (combine ins finals) = calcs) by (rewrite combine_length; lia).
    assert (A6 := aux_col C HC).
    assert (ROW : forall i, i < calcs -> exists r, nth_error rows i = Some r).
    { intros i Hi. destruct (nth_error rows i) eqn:E; [eauto|]. apply nth_error_None in E. lia. }
    assert (TRUE : forall i ws out, nth_error (combine ins finals) i = Some (ws, out) ->
              Forall (fun w => ac_val w = Some (word_at L adv w)) ws).
    { intros i ws out E. assert (Hi : i < calcs) by (rewrite <- Lc; apply nth_error_Some; congruence).
      destruct (ROW i Hi) as [r Hr].
      destruct (RV i r Hr) as (B0 & B1 & B2 & _).
      assert (E1 : nth_error ins i = Some ws).
      { rewrite <- (combine_fst ins finals) by congruence. rewrite nth_error_map, E. reflexivity. }
      assert (M1 : map (located L) ws = nth i (at_ [] (table_in rows)) []).
      { rewrite <- EI. symmetry. apply nth_error_nth. rewrite nth_error_map, E1. reflexivity. }
      unfold TableInv_proof.table_in in M1. rewrite (rows_in_values rows i 1 loop_start r Hr) in M1.
      rewrite Forall_forall. intros w Hw.
      assert (Hl : In (located L w) (map (located L) ws)) by now apply in_map.
      rewrite M1 in Hl. cbn [map] in Hl. unfold located in Hl. unfold word_at.
      change (loop_after legacy STEP s 1 loop_start (firstn i rows)) with (state_at rows i) in Hl.
      rewrite <- B0, <- B1, <- B2 in Hl. rewrite Nat.add_1_r in Hl. rewrite !A6 in Hl by lia.
      destruct Hl as [X|[X|[X|[]]]]; injection X as X1 X2 X3; rewrite <- X3; f_equal;
        unfold abs_cell; rewrite <- X1, <- X2; reflexivity. }
    destruct (calls_complete D perm Laws L _ _ u n blind INV ltac:(rewrite Lc, Hh'; exact Hh) Hn) as (G & V & CH).
    { intros i ws out E. eapply Forall_impl; [|exact (TRUE i ws out E)]. intros w Hw. now left. }
    fold adv in G, V, CH. split; [exact G|]. intros HO. apply CH. intros a b Hab.
    apply in_app_or in Hab. destruct Hab as [Hab|Hab]; [|apply HO; apply in_or_app; now right].
    apply in_app_or in Hab. destruct Hab as [Hab|Hab]; [apply HO; apply in_or_app; now left|].
    (* the final words *)
    pose proof (PA (a, b) Hab) as Hin.
    apply (table_copies D mode calcs t L0 L copies ins finals HD FF) in Hin. destruct Hin as [Hin|Hin]; [now apply HO|].
    destruct Hin as (i & j & Hi & Hj & K).
    destruct (ROW i Hi) as [r Hr]. destruct (RV i r Hr) as (B0 & B1 & B2 & A5 & A3 & A4 & _).
    destruct (RW i Hi) as (ws & out & E & W1 & _ & Lo & Lw).
    destruct (V ws out (nth_error_In _ _ E)) as [_ V2].
    assert (RB : r_before legacy (state_at rows i) r = map (word_at L adv) ws).
    { rewrite W1. unfold r_before in *. cbn [nth] in B0, B1, B2. cbn [map]. rewrite B0, B1, B2. reflexivity. }
    assert (RA : r_after legacy s (state_at rows i) r = perm (map (word_at L adv) ws)).
    { unfold r_after. rewrite HS; [now rewrite RB|]. rewrite RB, map_length. exact Lw. }
    destruct (call_words D _ _ _ _ _ _ adv INV E) as [_ W3]. rewrite Hh' in W3.
    destruct K as [[-> ->]|[-> ->]].
    - (* an initial word: also a copy of the call *)
      destruct (inv_call D _ _ _ _ _ _ INV E) as (_ & _ & K1 & _ & _ & BC).
      exfalso. clear - Hab HD HC FF Hj Hi A6.
      destruct HD as (Laws & _ & Own & _).
      assert (X : cd_own D (Adv (cd_in D j))) by (apply (law_in D perm Laws j Hj)).
      apply Own in X. cbn [added csm cs_adv] in X.
      unfold final_pairs in Hab. rewrite in_flat_map in Hab. destruct Hab as ([o f] & Hof & Hab).
      apply in_combine_l in Hof. apply in_combine_l in Hab.
      apply In_nth_error in Hof. destruct Hof as [k Hk].
      destruct (rows_cells_length C (raw_rows calcs t) 1 loop_start) as [_ Q2].
      assert (Hk' : k < length (raw_rows calcs t)).
      { rewrite <- Q2. apply nth_error_Some. unfold TableInv_proof.table_out in Hk. congruence. }
      destruct (rows_cells C (raw_rows calcs t) k 1 loop_start Hk') as [_ R2].
      unfold TableInv_proof.table_out in Hk. rewrite (nth_error_nth _ _ _ Hk) in R2. rewrite R2 in Hab.
      cbn [map In] in Hab. rewrite !A6 in Hab by lia.
      destruct Hab as [Y|[Y|[Y|[]]]]; injection Y as Y _; lia.
    - rewrite W3 in V2. cbn [seq map] in V2. injection V2 as V0 V1 V2.
      cbn [cell_at]. clear Hab.
      destruct j as [|[|[|j]]]; [| | |lia]; cbn [nth].
      + fold (auxc C adv 5 (S i)). rewrite A5, RA, V0. reflexivity.
      + fold (auxc C adv 3 (S i)). rewrite A3, RA, V1. reflexivity.
      + fold (auxc C adv 4 (S i)). rewrite A4, RA, V2. reflexivity.
  Qed.

  (** the conditions on the rows in terms of the table *)
  Lemma flags_exact : forall a b c, (Z.of_N ((a + c) * hashable_domain_spec legacy) < modulus (F := F))%Z ->
    (Z.of_N ((b + c) * hashable_domain_spec legacy) < modulus (F := F))%Z ->
    (flag_of legacy a <> fzero /\ fadd (flag_of legacy a) (flag_of (F := F) legacy c) = flag_of legacy b <-> (a + c = b)%N /\ a <> 0%N).
  Proof.
    clear HC HP HS. intros a b c Ha Hb. pose proof (dspec_pos legacy). rewrite <- flag_add. split.
    - intros [H1 H2]. split.
      + destruct (N.le_ge_cases (a + c) (b + c)) as [Q|Q].
        * apply (flag_inj legacy _ _ (b + c)%N); [assumption|lia|assumption|assumption].
        * apply (flag_inj legacy _ _ (a + c)%N); [lia|lia|assumption|assumption].
      + intros ->. apply H1. apply (flag_0 legacy).
    - intros [<- H2]. split; [|reflexivity]. intros X. apply H2.
      apply (flag_nonzero legacy a (a + c)%N) in X; [assumption|lia|assumption].
  Qed.

  Theorem honest_sat : forall mode calcs t L0 L1 L copies n u blind, loaded C mode calcs t L0 L1 L copies ->
    calcs < u -> h * calcs <= u -> u <= n ->
    (forall i, (Z.of_N ((row_control t i + N.of_nat (hc_step C)) * hashable_domain_spec legacy) < modulus (F := F))%Z) ->
    let adv := honest u L blind in
    (satisfied n u (hc_cs C) L adv -> well_formed STEP (hc_step C) calcs t)
    /\ (well_formed STEP (hc_step C) calcs t -> STEP < u ->
        gates_hold n L adv (cs_gates (hc_host C)) -> lookups_hold n u L adv (cs_lookups (hc_host C)) ->
        (forall a b, In (a, b) (lo_copy L0 ++ copies) -> cell_at L adv a = cell_at L adv b) ->
        satisfied n u (hc_cs C) L adv).
  Proof.
    intros mode calcs t L0 L1 L copies n u blind HL Hu Hh Hn Bd adv.
    destruct (chip_is_here C perm h HC HP) as (D & HD).
    destruct (loaded_final C perm h HC D mode calcs t L0 L1 L copies HD HL) as (_ & ins & finals & _ & FF).
    destruct (honest_chip D mode calcs t L0 L copies ins finals n u blind HD FF Hu Hh Hn) as [CG CC]. fold adv in CG, CC.
    pose proof (honest_written _ _ _ _ _ _ _ _ _ u blind FF) as W. fold adv in W.
    assert (Lr : length (raw_rows calcs t) = calcs) by apply raw_rows_length.
    pose proof HD as HD'. destruct HD' as (Laws & Hh' & Own & Eg & El & _).
    pose proof FF as FF'. destruct FF' as (INV & Er & Cr & Tb & LI & LF & _).
    assert (WF : ((forall r, (1 <= r <= calcs)%nat -> row_eqs C adv r) /\ custom_eqs C adv 0 /\ custom_eqs C adv calcs)
                 <-> well_formed STEP (hc_step C) calcs t).
    { pose proof (rows_satisfied C HC (raw_rows calcs t) u adv W ltac:(lia)) as RS. rewrite Lr in RS. rewrite RS.
      pose proof (first_custom C HC (raw_rows calcs t) u adv W ltac:(lia)) as FC.
      assert (X1 : (forall i p r, nth_error (raw_rows calcs t) i = Some p -> nth_error (raw_rows calcs t) (S i) = Some r ->
                      r_fin STEP p = false -> goes_on C (S i) r p)
                   <-> (forall i, S i < calcs -> (N.of_nat STEP < row_control t i)%N ->
                          (row_control t (S i) + N.of_nat (hc_step C) = row_control t i)%N
                          /\ row_control t (S i) <> 0%N /\ row_domain t (S i) = fzero)).
      { assert (Y : forall i, S i < calcs -> exists p r, nth_error (raw_rows calcs t) i = Some p /\ nth_error (raw_rows calcs t) (S i) = Some r
              /\ (r_fin STEP p = false <-> (N.of_nat STEP < row_control t i)%N)
              /\ (goes_on C (S i) r p <-> (row_control t (S i) + N.of_nat (hc_step C) = row_control t i)%N
                          /\ row_control t (S i) <> 0%N /\ row_domain t (S i) = fzero)).
        { intros i Hi. destruct (raw_row_at calcs t i ltac:(lia)) as (p & Hp & _ & Pc & _).
          destruct (raw_row_at calcs t (S i) Hi) as (r & Hr & _ & Rc & Rd & _). exists p, r.
          split; [assumption|]. split; [assumption|]. split.
          - unfold r_fin. rewrite Pc, N.leb_gt. reflexivity.
          - unfold goes_on, r_flag. rewrite Pc, Rc, Rd.
            pose proof (flags_exact (row_control t (S i)) (row_control t i) (N.of_nat (hc_step C)) (Bd (S i)) (Bd i)) as FE. tauto. }
        split.
        - intros H i Hi Hc. destruct (Y i Hi) as (p & r & Hp & Hr & Y1 & Y2). apply Y2. apply (H i p r Hp Hr). now apply Y1.
        - intros H i p r Hp Hr Hf. assert (Hi : S i < calcs) by (rewrite <- Lr; apply nth_error_Some; congruence).
          destruct (Y i Hi) as (p' & r' & Hp' & Hr' & Y1 & Y2). assert (p' = p) by congruence. assert (r' = r) by congruence. subst p' r'.
          apply Y2. apply H; [assumption|]. now apply Y1. }
      assert (X2 : custom_eqs C adv calcs <-> (0 < calcs -> row_input t (calcs - 1) = (fzero, fzero) /\ row_control t (calcs - 1) = 0%N)).
      { destruct calcs as [|k]; [split; [intros _ Z; lia|intros _; exact FC]|].
        destruct (raw_row_at (S k) t k ltac:(lia)) as (r & Hr & Ri & Rc & _).
        rewrite (last_custom C HC (raw_rows (S k) t) u adv W ltac:(lia) k r Hr). replace (S k - 1) with k by lia.
        rewrite Ri. unfold r_flag. rewrite Rc.
        assert (Z : flag_of (F := F) legacy (row_control t k) = fzero <-> row_control t k = 0%N).
        { split; [|intros ->; apply (flag_0 legacy)]. intros Z.
          apply (flag_nonzero legacy _ (row_control t k + N.of_nat (hc_step C))%N) in Z; [assumption|lia|apply Bd]. }
        rewrite Z. split; [intros H _; exact H|intros H; apply H; lia]. }
      unfold well_formed. rewrite <- X1, X2. tauto. }
    split.
    - intros (G & _ & _). apply WF. rewrite Eg in G. apply gates_app in G. destruct G as [_ G]. apply gates_app in G. destruct G as [G1 _].
      apply (table_gates_rows C n L adv calcs Er Cr ltac:(lia)) in G1. exact G1.
    - intros Hwf HSt Hg Hl Hc. apply WF in Hwf. split; [|split].
      + rewrite Eg. apply gates_app. split; [assumption|]. apply gates_app. split; [|exact CG].
        apply (table_gates_rows C n L adv calcs Er Cr ltac:(lia)). exact Hwf.
      + rewrite El. apply lookups_app. split; [assumption|].
        destruct (range_lookup_rows C n u L adv ltac:(lia) Tb) as [_ RL]. apply RL; [assumption|].
        intros r Hr. exact (range_satisfied C HC (raw_rows calcs t) u adv W ltac:(lia) n r Hr).
      + now apply CC.
  Qed.
End Sat.
