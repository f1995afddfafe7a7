(** The lemmas behind PropertiesSeptidon.v. *)
From Coq Require Import ZArith List Arith Lia Bool.
From Verif Require Import Field Rust ListAux Primitives Specs SpecHash Link Halo2 Septidon PermuteChip ChipUse SeptVal_proof SeptGate_proof Contract
  SeptBlock_proof Layout_proof SeptLayout_proof SeptChip_proof Stack_proof Base_claims Sept_claims SeptidonUse
  ZpField Primes Const_proof BaseHash BaseHash_proof.
Import ListNotations.
Local Open Scope nat_scope.

Section Claims.
  Context {F : Type} {FO : FieldOps F} {PF : PrimeField F}.
  Variable rcs m : list (list F).
  Hypothesis HL : 65 <= length rcs.
  Notation D := (sept_data rcs m 0 0).
  Notation evs v := (ev_block rcs m 0 0 v 0).

  Lemma test_chip : fst (test_configure rcs m) = chip_of 0 0.
  Proof. reflexivity. Qed.
  Lemma test_gates : cs_gates (snd (test_configure rcs m)) = cd_gates D.
  Proof.
    pose proof (configure_cs rcs m (cs_empty (F := F))) as (_ & _ & _ & G & _). cbn [cs_gates cs_adv cs_fix cs_empty app] in G.
    transitivity (cs_gates (snd (septidon_configure rcs m (cs_empty (F := F))))); [reflexivity|exact G].
  Qed.
  Lemma test_lookups : cs_lookups (snd (test_configure rcs m)) = [].
  Proof. reflexivity. Qed.

  Definition POS2 : list (nat * nat) := firstn (length POS - 6) (skipn 3 POS).
  Lemma POS2_in : forall k o, In (k, o) POS2 <-> k < 13 /\ o < 8.
  Proof.
    intros k o. split.
    - intros H. assert (C : forallb (fun '(k, o) => (k <? 13) && (o <? 8)) POS2 = true) by reflexivity.
      rewrite forallb_forall in C. specialize (C _ H). cbn beta iota in C. apply andb_prop in C. now rewrite !Nat.ltb_lt in C.
    - intros [Hk Ho].
      assert (C : forallb (fun k => forallb (fun o => existsb (fun '(k', o') => (k =? k') && (o =? o')) POS2) (seq 0 8)) (seq 0 13) = true)
        by reflexivity.
      rewrite forallb_forall in C. specialize (C k ltac:(apply in_seq; lia)). cbn beta in C.
      rewrite forallb_forall in C. specialize (C o ltac:(apply in_seq; lia)). cbn beta in C.
      apply existsb_exists in C. destruct C as ([k' o'] & C & E). apply andb_prop in E.
      rewrite !Nat.eqb_eq in E. destruct E as [-> ->]. exact C.
  Qed.
  Lemma block_adv : forall v, adv_ws (evs v) = map (fun '(k, o) => (k, o, cell_val rcs m v k o)) POS2.
  Proof. intros v. reflexivity. Qed.
  Lemma block_fix : forall v, fix_ws (evs v) = cd_fix D.
  Proof. intros v. reflexivity. Qed.
  Lemma block_sel : forall v, sel_ws (evs v) = [].
  Proof. intros v. reflexivity. Qed.
  Lemma block_copies : forall v, copies_ws (evs v) = [].
  Proof. intros v. reflexivity. Qed.
  Lemma block_const : forall v, const_events (evs v) = [].
  Proof. intros v. reflexivity. Qed.
  Lemma block_adv_in : forall v c o w, In (c, o, w) (adv_ws (evs v)) <-> c < 13 /\ o < 8 /\ w = cell_val rcs m v c o.
  Proof.
    intros v c o w. rewrite block_adv, in_map_iff. split.
    - intros ([k o'] & E & H). injection E as <- <- <-. apply POS2_in in H. tauto.
    - intros (Hk & Ho & ->). exists (c, o). split; [reflexivity|]. apply POS2_in. tauto.
  Qed.
  Lemma block_read : forall v c o, c < 13 -> o < 8 -> last_write (adv_ws (evs v)) c o = Some (cell_val rcs m v c o).
  Proof.
    intros v c o Hc Ho. apply last_write_fun.
    - apply block_adv_in. tauto.
    - intros w H. now apply block_adv_in in H.
  Qed.
  Lemma block_touched : forall v c o, In (c, o) (touched (evs v)) -> cd_own D c /\ o < 8.
  Proof.
    intros v [c|c|c] o H.
    - apply touched_adv in H. destruct H as [w H]. apply block_adv_in in H. cbn. lia.
    - apply touched_fix in H. destruct H as [w H]. rewrite block_fix in H. cbn [cd_fix sept_data] in H. apply in_moved in H.
      destruct H as (c' & o' & H & -> & ->). apply REL_in in H. cbn. lia.
    - apply touched_sel in H. rewrite block_sel in H. destruct H.
  Qed.

  Definition blocks_adv (states : list (arr3 (option F))) := map (fun v => adv_ws (evs v)) states.
  Lemma test_run : forall states L, ready D L -> let t := lo_next L (Adv 12) in
    exists L', test_synthesize rcs m (chip_of 0 0) states L = Ok (L', map (fun v => ost rcs m v 65) states)
      /\ lo_adv L' = lo_adv L ++ stackw 8 t (blocks_adv states)
      /\ lo_fix L' = lo_fix L ++ stack_fix D t (length states)
      /\ lo_sel L' = lo_sel L /\ lo_copy L' = lo_copy L /\ lo_tables L' = lo_tables L.
  Proof.
    induction states as [|v states IH]; intros L R t.
    - exists L. split; [reflexivity|]. unfold blocks_adv. cbn [map stackw stack_fix length]. rewrite !app_nil_r. auto.
    - set (ri := length (lo_starts L)).
      assert (E1 : assign_region (assign_permutation rcs m (chip_of 0 0) v 0) L = Ok (commit ri (evs v) (reserve (evs v) L), ost rcs m v 65)).
      { apply assign_region_ok; [now apply assign_permutation_ok|apply block_const]. }
      set (L1 := commit ri (evs v) (reserve (evs v) L)) in *.
      assert (Tm : In (Adv 12, 7) (touched (evs v))).
      { apply touched_adv. exists (cell_val rcs m v 12 7). apply block_adv_in. repeat split; lia. }
      assert (RS : region_start (lo_next L) (evs v) = t).
      { apply region_start_eq; [|eauto]. intros c o H. apply (R c). exact (proj1 (block_touched v c o H)). }
      assert (RC : row_count (evs v) = 8) by (apply (row_count_eq _ 7 _ (fun c o H => proj2 (block_touched v c o H)) Tm)).
      assert (ST : nth ri (lo_starts (reserve (evs v) L)) 0 = t).
      { cbn [reserve lo_starts]. rewrite RS. unfold ri. rewrite app_nth2, Nat.sub_diag by lia. reflexivity. }
      assert (N1 : lo_next L1 (Adv 12) = 8 + t).
      { unfold L1. cbn [commit lo_next reserve]. rewrite RS, RC. exact (next_after_in _ _ _ _ 7 Tm). }
      assert (R1 : ready D L1).
      { intros c Hc. change (cd_main D) with (Adv 12). rewrite N1. unfold L1. cbn [commit lo_next reserve]. rewrite RS, RC.
        unfold next_after. destruct (existsb _ _); [lia|]. specialize (R c Hc). change (cd_main D) with (Adv 12) in R. fold t in R. lia. }
      destruct (IH L1 R1) as (L' & E & A & B & C & P & Q). rewrite N1 in A, B. exists L'. split.
      { unfold test_synthesize in *. rewrite lmap_cons. rewrite (lbind_ok _ _ _ _ _ E1). rewrite (lbind_ok _ _ _ _ _ E). reflexivity. }
      rewrite A, B, C, P, Q. unfold L1. cbn [commit lo_adv lo_fix lo_sel lo_copy lo_tables]. rewrite ST.
      rewrite abs_adv_ws, abs_fix_ws, abs_sel_ws, abs_copy_ws, block_fix, block_sel, block_copies.
      cbn [map reserve lo_adv lo_fix lo_sel lo_copy lo_tables length stack_fix blocks_adv stackw].
      rewrite !app_nil_r, <- !app_assoc. auto.
  Qed.
  Lemma empty_ready : ready D (layout_empty (snd (test_configure rcs m))).
  Proof. intros c _. cbn. lia. Qed.

  Lemma blocks_rows : forall states, Forall (fun b => forall c o v, In (c, o, v) b -> o < 8) (blocks_adv states).
  Proof.
    intros states. apply Forall_forall. intros b Hb. apply in_map_iff in Hb. destruct Hb as (v & <- & _). intros c o w H.
    apply block_adv_in in H. tauto.
  Qed.

  Section Table.
    Variable perm : list F -> list F.
    Hypothesis Laws : chip_laws D perm.
    Hypothesis Hlen : forall x, length x = 3 -> length (perm x) = 3.

    Lemma test_layout : forall states, exists L,
      test_synthesize rcs m (fst (test_configure rcs m)) states (layout_empty (snd (test_configure rcs m)))
        = Ok (L, map (fun v => ost rcs m v 65) states)
      /\ lo_adv L = stackw 8 0 (blocks_adv states) /\ lo_copy L = []
      /\ own_fix D L 0 (length states) /\ own_sel D L 0 (length states)
      /\ (forall u, fits u L <-> 8 * length states <= u).
    Proof.
      intros states. destruct (test_run states _ empty_ready) as (L & E & A & B & C & P & Q).
      cbn [layout_empty lo_next lo_adv lo_fix lo_sel lo_copy lo_tables app] in A, B, C, P, Q. exists L.
      split; [exact E|]. split; [exact A|]. split; [exact P|]. split; [intros c r _; now rewrite B|]. split.
      { intros q r []. }
      intros u. split.
      - intros (X & _). destruct (length states) as [|k] eqn:Ek; [lia|].
        assert (H : In (12, 7 + (8 * k + 0), cell_val rcs m (nth k states (None, None, None)) 12 7) (lo_adv L)).
        { rewrite A. apply stackw_in. exists k, 7. split; [unfold blocks_adv; rewrite map_length; lia|]. split; [|reflexivity].
          unfold blocks_adv. rewrite (nth_indep _ [] (adv_ws (evs (None, None, None)))) by (rewrite map_length; lia).
          rewrite (map_nth (fun v => adv_ws (evs v))). apply block_adv_in. repeat split; lia. }
        apply X in H. lia.
      - intros Hu. split; [|split; [|split]].
        + intros c r v H. rewrite A in H. apply stackw_in in H. destruct H as (i & o & Hi & H & ->).
          pose proof (blocks_rows states) as W. rewrite Forall_forall in W. specialize (W _ (nth_In _ [] Hi) _ _ _ H).
          unfold blocks_adv in Hi. rewrite map_length in Hi. lia.
        + intros c r v H. rewrite B, stack_fix_w in H. apply stackw_in in H. destruct H as (i & o & Hi & H & ->).
          pose proof (fix_rows D perm Laws (length states)) as W. rewrite Forall_forall in W. specialize (W _ (nth_In _ [] Hi) _ _ _ H).
          rewrite repeat_length in Hi. change (cd_h D) with 8 in *. lia.
        + intros q r H. rewrite C in H. destruct H.
        + intros t vals H. rewrite Q in H. destruct H.
    Qed.

    Lemma test_sound : forall L k n u adv, own_fix D L 0 k -> own_sel D L 0 k -> 8 * k <= n ->
      satisfied n u (snd (test_configure rcs m)) L adv -> forall i, i < k -> last_state adv i = perm (first_state adv i).
    Proof.
      intros L k n u adv HF HS Hn (SG & _) i Hi. rewrite test_gates in SG.
      pose proof (proj1 (stack_gates D perm Laws L 0 k n adv HF HS ltac:(cbn [cd_h sept_data]; lia)) SG i Hi) as O.
      pose proof (law_sound D perm Laws _ O) as X. cbn [cd_h cd_in cd_out_col cd_out_row sept_data Nat.add] in X.
      unfold last_state, first_state.
      assert (P3 : length (perm [adv 0 (8 * i); adv 1 (8 * i); adv 2 (8 * i)]) = 3) by now apply Hlen.
      pose proof (X 0 ltac:(lia)) as X0. pose proof (X 1 ltac:(lia)) as X1. pose proof (X 2 ltac:(lia)) as X2. clear X.
      cbn [Nat.add] in X0, X1, X2. rewrite (Nat.add_0_r (8 * i)) in X0, X1, X2.
      destruct (length_list3 _ P3) as (x & y & z & EP). rewrite EP in X0, X1, X2 |- *. cbn [nth] in X0, X1, X2.
      cbn [Nat.add]. now rewrite X0, X1, X2.
    Qed.

    Lemma test_honest : forall states L k n u blind, lo_adv L = stackw 8 0 (blocks_adv (map (map3 Some) states)) -> k = length states ->
      8 * k <= u -> u <= n ->
      (forall K, own_fix D K 0 k -> own_sel D K 0 k -> lo_copy K = [] -> satisfied n u (snd (test_configure rcs m)) K (honest u L blind))
      /\ forall i, i < k -> first_state (honest u L blind) i = of3 (nth i states (fzero, fzero, fzero)).
    Proof.
      intros states L k n u blind EA -> Hu Hn.
      assert (RD : forall i c o, i < length states -> c < 13 -> o < 8 ->
        honest u L blind c (o + (8 * i + 0)) = rda (cd_adv D (map3 Some (nth i states (fzero, fzero, fzero)))) c o).
      { intros i c o Hi Hc Ho. unfold honest, rda. replace (o + (8 * i + 0) <? u) with true by (symmetry; apply Nat.ltb_lt; lia).
        rewrite EA, stackw_read; [|apply blocks_rows|unfold blocks_adv; rewrite !map_length; exact Hi|exact Ho].
        unfold blocks_adv. rewrite (nth_indep _ [] (adv_ws (evs (map3 Some (fzero, fzero, fzero))))) by (rewrite !map_length; exact Hi).
        rewrite (map_nth (fun v => adv_ws (evs v))), (map_nth (map3 Some)). rewrite block_read by assumption.
        cbn [cd_adv sept_data]. pose proof (adv_block_read rcs m 0 HL (map3 Some (nth i states (fzero, fzero, fzero))) c o Hc Ho) as X.
        rewrite Nat.add_0_r in X. now rewrite X. }
      split.
      - intros K HF HS HC. split; [|split].
        + rewrite test_gates. apply (stack_gates D perm Laws K 0 (length states) n _ HF HS ltac:(cbn [cd_h sept_data]; lia)).
          intros i Hi. eapply (law_local D perm Laws); [|apply (law_honest D perm Laws (nth i states (fzero, fzero, fzero)))].
          intros c o Hc Ho. symmetry. apply RD; [exact Hi| |exact Ho]. cbn in Hc. lia.
        + rewrite test_lookups. intros e t r [].
        + intros a b X. rewrite HC in X. destruct X.
      - intros i Hi. destruct (law_honest D perm Laws (nth i states (fzero, fzero, fzero))) as (_ & X & _).
        cbn [cd_in sept_data] in X. unfold first_state.
        pose proof (RD i 0 0 Hi ltac:(lia) ltac:(lia)) as Y0. pose proof (RD i 1 0 Hi ltac:(lia) ltac:(lia)) as Y1.
        pose proof (RD i 2 0 Hi ltac:(lia) ltac:(lia)) as Y2. cbn [Nat.add] in Y0, Y1, Y2. rewrite (Nat.add_0_r (8 * i)) in Y0, Y1, Y2.
        rewrite Y0, Y1, Y2. pose proof (X 0 ltac:(lia)) as X0. pose proof (X 1 ltac:(lia)) as X1. pose proof (X 2 ltac:(lia)) as X2.
        cbn [Nat.add] in X0, X1, X2. rewrite X0, X1, X2. now destruct (nth i states (fzero, fzero, fzero)) as [[x y] z].
    Qed.
    Lemma test_values : forall init, ost rcs m (map3 Some init) 65 = map3 Some (st_at rcs m init 65).
    Proof. intros init. apply ost_known. Qed.
  End Table.
End Claims.

Section Exact.
  Context {F : Type} {FO : FieldOps F} {PF : PrimeField F}.

  Theorem septidon_exact : forall (c : p128_constants F) s,
    constants_ok c -> pc_partial_rounds c = 57 -> compact_spec c = Ok s ->
    let rcs := round_constants s in let m := mds s in let cfg := fst (test_configure rcs m) in let cs1 := snd (test_configure rcs m) in
    forall k n u, 8 * k <= u -> u <= n ->
    exists K outs, test_synthesize rcs m cfg (repeat (None, None, None) k) (layout_empty cs1) = Ok (K, outs)
      /\ fits u K /\ copies_enabled cs1 K
      /\ (forall adv, satisfied n u cs1 K adv -> forall i, i < k -> last_state adv i = poseidon_permutation c (first_state adv i))
      /\ (forall states, length states = k ->
           exists L finals, test_synthesize rcs m cfg (map (map3 Some) states) (layout_empty cs1) = Ok (L, map (map3 Some) finals)
             /\ map of3 finals = map (fun st => poseidon_permutation c (of3 st)) states
             /\ fits u L
             /\ forall blind, let adv := honest u L blind in
                satisfied n u cs1 K adv
                /\ map (first_state adv) (seq 0 k) = map of3 states /\ map (last_state adv) (seq 0 k) = map of3 finals).
  Proof.
    intros c s Hc Hp Hs rcs m cfg cs1 k n u Hu Hn. destruct (compact_table c s Hc Hp Hs) as [HT HE]. fold rcs m in HT, HE.
    pose proof (table_rows _ _ HT) as HL.
    pose proof (chip_laws_ext (sept_data rcs m 0 0) _ _ HE (sept_laws rcs m 0 0 HL HT)) as Laws.
    assert (Hlen : forall x, length x = 3 -> length (poseidon_permutation c x) = 3) by (intros x Hx; now apply spec_permute_length).
    destruct (test_layout rcs m HL _ Laws (repeat (None, None, None) k)) as (K & EK & AK & PK & FK & SK & RK).
    rewrite repeat_length in FK, SK, RK. exists K. eexists. split; [exact EK|]. split; [now apply RK|].
    split; [intros a b X; rewrite PK in X; destruct X|].
    assert (SND : forall adv, satisfied n u cs1 K adv -> forall i, i < k -> last_state adv i = poseidon_permutation c (first_state adv i)).
    { intros adv SA. apply (test_sound rcs m HL _ Laws Hlen K k n u adv FK SK); [lia|exact SA]. }
    split; [exact SND|]. intros states Hk.
    destruct (test_layout rcs m HL _ Laws (map (map3 Some) states)) as (L & EL & AL & _ & _ & _ & RL).
    rewrite map_length, Hk in RL. exists L, (map (fun st => st_at rcs m st 65) states).
    assert (FIN : map of3 (map (fun st => st_at rcs m st 65) states) = map (fun st => poseidon_permutation c (of3 st)) states).
    { rewrite map_map. apply map_ext. intros st. rewrite (st_at_permute rcs m st HT). apply HE. now destruct st as [[x y] z]. }
    split.
    { unfold cfg, cs1. rewrite EL. f_equal. f_equal. rewrite !map_map. apply map_ext. intros st. apply ost_known. }
    split; [exact FIN|]. split; [now apply RL|]. intros blind adv.
    destruct (test_honest rcs m HL _ Laws states L k n u blind AL (eq_sym Hk) Hu Hn) as [H1 H2]. fold adv in H1, H2.
    assert (SA : satisfied n u cs1 K adv) by (apply H1; assumption). split; [exact SA|].
    assert (FS : map (first_state adv) (seq 0 k) = map of3 states).
    { transitivity (map (fun i => of3 (nth i states (fzero, fzero, fzero))) (seq 0 k)).
      - apply map_ext_in. intros i Hi. apply in_seq in Hi. apply H2. lia.
      - rewrite <- Hk. rewrite <- (map_map (fun i => nth i states (fzero, fzero, fzero)) of3). now rewrite map_seq_nth. }
    split; [exact FS|]. rewrite FIN. rewrite <- (map_map of3 (poseidon_permutation c)), <- FS, map_map.
    apply map_ext_in. intros i Hi. apply in_seq in Hi. apply SND; [exact SA|lia].
  Qed.

  Theorem septidon_rows : forall (c : p128_constants F) s,
    constants_ok c -> pc_partial_rounds c = 57 -> compact_spec c = Ok s ->
    let rcs := round_constants s in let m := mds s in let cfg := fst (test_configure rcs m) in let cs1 := snd (test_configure rcs m) in
    forall states, exists L outs, test_synthesize rcs m cfg states (layout_empty cs1) = Ok (L, outs)
      /\ forall u, fits u L <-> 8 * length states <= u.
  Proof.
    intros c s Hc Hp Hs rcs m cfg cs1 states. destruct (compact_table c s Hc Hp Hs) as [HT HE]. fold rcs m in HT, HE.
    pose proof (table_rows _ _ HT) as HL.
    pose proof (chip_laws_ext (sept_data rcs m 0 0) _ _ HE (sept_laws rcs m 0 0 HL HT)) as Laws.
    destruct (test_layout rcs m HL _ Laws states) as (L & EL & _ & _ & _ & _ & RL). exists L. eexists. split; [exact EL|exact RL].
  Qed.
End Exact.

Lemma of3_len : forall {A} (v : arr3 A), length (of3 v) = 3.
Proof. now intros A [[x y] z]. Qed.
Lemma septidon_inverse_of : forall {F} {FO : FieldOps F} {PF : PrimeField F} (c : p128_constants F) s,
  constants_ok c -> pc_partial_rounds c = 57 -> compact_spec c = Ok s ->
  (forall x y : list F, length x = 3 -> length y = 3 -> poseidon_permutation c x = poseidon_permutation c y -> x = y) ->
  (forall y : list F, length y = 3 -> exists x, length x = 3 /\ poseidon_permutation c x = y) ->
  let rcs := round_constants s in let m := mds s in let cfg := fst (test_configure rcs m) in let cs1 := snd (test_configure rcs m) in
  forall k n u, 8 * k <= u -> u <= n ->
  exists K outs, test_synthesize rcs m cfg (repeat (None, None, None) k) (layout_empty cs1) = Ok (K, outs)
    /\ forall finals, length finals = k -> exists states, length states = k
       /\ (exists adv, satisfied n u cs1 K adv /\ map (last_state adv) (seq 0 k) = map of3 finals)
       /\ forall adv, satisfied n u cs1 K adv ->
          (map (last_state adv) (seq 0 k) = map of3 finals <-> map (first_state adv) (seq 0 k) = map of3 states).
Proof.
  intros F FO PF c s Hc Hp Hs BI BS rcs m cfg cs1 k n u Hu Hn.
  destruct (septidon_exact c s Hc Hp Hs k n u Hu Hn) as (K & outs & EK & _ & _ & SND & HON). fold rcs m cfg cs1 in EK, SND, HON.
  exists K, outs. split; [exact EK|]. intros finals Hf.
  assert (PRE : exists states : list (arr3 F), length states = k /\ map (fun st => poseidon_permutation c (of3 st)) states = map of3 finals).
  { clear - BS Hf. revert k Hf. induction finals as [|f finals IH]; intros k Hf.
    - exists []. split; [exact Hf|reflexivity].
    - cbn [length] in Hf. destruct (IH (pred k) ltac:(lia)) as (states & Ls & Es). destruct (BS (of3 f) (of3_len f)) as (x & Lx & Ex).
      destruct (length_list3 _ Lx) as (w0 & w1 & w2 & ->). exists ((w0, w1, w2) :: states). split; [cbn [length]; lia|].
      cbn [map of3]. now rewrite Ex, Es. }
  destruct PRE as (states & Ls & Es). exists states. split; [exact Ls|].
  assert (PM : forall adv, satisfied n u cs1 K adv -> map (last_state adv) (seq 0 k) = map (poseidon_permutation c) (map (first_state adv) (seq 0 k))).
  { intros adv SA. rewrite map_map. apply map_ext_in. intros i Hi. apply in_seq in Hi. apply SND; [exact SA|lia]. }
  split.
  - destruct (HON states Ls) as (L & fins & _ & EF & _ & W). destruct (W (fun _ _ => fzero)) as (SA & _ & LS).
    exists (honest u L (fun _ _ => fzero)). split; [exact SA|]. now rewrite LS, EF.
  - intros adv SA. rewrite (PM adv SA), <- Es, <- (map_map of3 (poseidon_permutation c)). split; [|now intros ->].
    assert (L1 : Forall (fun x => length x = 3) (map (first_state adv) (seq 0 k))).
    { apply Forall_forall. intros x Hx. apply in_map_iff in Hx. now destruct Hx as (i & <- & _). }
    assert (L2 : Forall (fun x => length x = 3) (map of3 states)).
    { apply Forall_forall. intros x Hx. apply in_map_iff in Hx. destruct Hx as (v & <- & _). apply of3_len. }
    revert L1 L2. generalize (map (first_state adv) (seq 0 k)) (map of3 states). clear - BI.
    intros l1. induction l1 as [|x l1 IH]; intros [|y l2] L1 L2 E; try discriminate; [reflexivity|].
    cbn [map] in E. injection E as E1 E2. inversion L1; inversion L2; subst. f_equal; [now apply BI|now apply IH].
Qed.

Lemma bn_bij : (forall x y : list Fr, length x = 3 -> length y = 3 -> poseidon_permutation bn256_c x = poseidon_permutation bn256_c y -> x = y)
  /\ forall y : list Fr, length y = 3 -> exists x, length x = 3 /\ poseidon_permutation bn256_c x = y.
Proof.
  destruct (cached_spec_exists false bn256_c bn256_ok) as [s Hs]. destruct (bn256_bijective_claim false s Hs) as [I S'].
  pose proof (fun x Lx => proj1 (cached_agrees false bn256_c s bn256_ok Hs x Lx)) as A. split.
  - intros x y Hx Hy E. apply I; [exact Hx|exact Hy|]. rewrite (A x Hx), (A y Hy). exact E.
  - intros y Hy. destruct (S' y Hy) as (x & Lx & Ex). exists x. split; [exact Lx|]. rewrite <- (A x Lx). exact Ex.
Qed.
Theorem septidon_inverse : forall s, compact_spec bn256_c = Ok s ->
  let rcs := round_constants s in let m := mds s in let cfg := fst (test_configure rcs m) in let cs1 := snd (test_configure rcs m) in
  forall k n u, 8 * k <= u -> u <= n ->
  exists K outs, test_synthesize rcs m cfg (repeat (None, None, None) k) (layout_empty cs1) = Ok (K, outs)
    /\ forall finals, length finals = k -> exists states, length states = k
       /\ (exists adv, satisfied n u cs1 K adv /\ map (last_state adv) (seq 0 k) = map of3 finals)
       /\ forall adv, satisfied n u cs1 K adv ->
          (map (last_state adv) (seq 0 k) = map of3 finals <-> map (first_state adv) (seq 0 k) = map of3 states).
Proof. intros s Hs. exact (septidon_inverse_of bn256_c s bn256_ok eq_refl Hs (proj1 bn_bij) (proj2 bn_bij)). Qed.
