(** The lemmas behind PropertiesGraph.v. *)
From Coq Require Import ZArith List Arith Lia Bool.
From Verif Require Import Field Rust ListAux Primitives Specs SpecHash Perm_proof BigSum Link Base_claims Halo2 Pow5 ChipUse Built
  Pow5Use Gadget GadgetUse CostUse KeyUse Layout_proof Contract Sept_claims Pow5Block_proof Trace_proof Pow5Use_proof Pow5_claims
  Gadget_proof Gadget_claims Cost_proof Cost_claims Key_claims ProgramUse Program_claims PreimageUse Preimage_claims GraphUse.
Import ListNotations.
Local Open Scope nat_scope.

Section Claims.
  Context {F : Type} {FO : FieldOps F} {PF : PrimeField F}.
  Variables (T : nat) (s : spec F) (cfg : pow5) (cs1 : cs F).
  Hypothesis Hspec : poseidon_spec T s.
  Hypothesis HT : 1 < T.
  Hypothesis Inv1 : mat_prod_id T (mds s) (mds_inv s).
  Hypothesis Inv2 : mat_prod_id T (mds_inv s) (mds s).
  Hypothesis Hcfg : preimage_configure T s = (cfg, cs1).
  Notation circuit := (made (p5_selectors cfg) (p5_instruction T (T - 1) s cfg)).
  Notation H := (fixed_hash T s).

  Definition leaf_cell (ri : nat) (m : option (list F)) (i : nat) : acell F :=
    {| ac_cell := {| ce_region := ri; ce_off := i; ce_col := Adv 0 |}; ac_val := option_map (fun m => nth i m fzero) m |}.
  Definition leaf_events (N : nat) (m : option (list F)) : list (event F) :=
    flat_map (fun i => [AssignAdvice 0 i (option_map (fun m => nth i m fzero) m)]) (seq 0 N).
  Lemma leaves_ok : forall N m ri, load_leaves cfg N m ri = Ok (leaf_events N m, map (leaf_cell ri m) (seq 0 N)).
  Proof.
    intros N m ri. unfold load_leaves. apply rmap_ok. intros i Hi.
    change [AssignAdvice 0 i (option_map (fun m => nth i m fzero) m)] with ([] ++ [AssignAdvice 0 i (option_map (fun m => nth i m fzero) m)]).
    apply (rbind_ok _ _ ri [] 0). { unfold rlift. now rewrite (state_index T s cfg cs1 Hcfg) by lia. } reflexivity.
  Qed.
  Lemma touched_leaves : forall N m c o, In (c, o) (touched (leaf_events N m)) <-> c = Adv 0 /\ o < N.
  Proof.
    intros N m c o. unfold touched, leaf_events. rewrite in_flat_map. split.
    - intros (e & He & X). apply in_flat_map in He. destruct He as (i & Hi & [<-|[]]). apply in_seq in Hi. destruct X as [X|[]].
      injection X as <- <-. split; [reflexivity|lia].
    - intros (-> & Ho). eexists. split; [apply in_flat_map; exists o; split; [apply in_seq; lia|now left]|]. now left.
  Qed.
  Lemma const_leaves : forall N m, const_events (leaf_events N m) = [].
  Proof. intros N m. unfold leaf_events. induction (seq 0 N) as [|i l IH]; [reflexivity|exact IH]. Qed.
  Lemma copy_leaves : forall starts N m, abs_copy starts (leaf_events N m) = [].
  Proof. intros st N m. unfold leaf_events. induction (seq 0 N) as [|i l IH]; [reflexivity|exact IH]. Qed.

  (** the layout after the leaves *)
  Definition after_leaves (N : nat) (m : option (list F)) : layout F :=
    commit 0 (leaf_events N m) (reserve (leaf_events N m) (layout_empty cs1)).
  Lemma leaves_run : forall N m,
    assign_region (load_leaves cfg N m) (layout_empty cs1) = Ok (after_leaves N m, map (leaf_cell 0 m) (seq 0 N)).
  Proof. intros N m. exact (assign_region_ok _ (layout_empty cs1) _ _ (leaves_ok N m 0) (const_leaves N m)). Qed.
  Lemma leaves_starts : forall N m, lo_starts (after_leaves N m) = [0].
  Proof.
    intros N m. cbn. f_equal. unfold region_start. induction (touched _) as [|[c o] l IH]; [reflexivity|]. cbn [fold_right]. rewrite IH. reflexivity.
  Qed.
  Lemma leaves_adv : forall N m, lo_adv (after_leaves N m) = map (fun i => (0, i, option_map (fun m => nth i m fzero) m)) (seq 0 N).
  Proof.
    intros N m. pose proof (leaves_starts N m) as E. cbn in E. injection E as E.
    unfold after_leaves, commit, reserve. cbn [lo_adv layout_empty app lo_starts nth lo_next]. rewrite E. unfold abs_adv, leaf_events.
    induction (seq 0 N) as [|i l IH]; [reflexivity|]. cbn [flat_map app map Nat.add]. now rewrite ?Nat.add_0_r, IH.
  Qed.
  Lemma leaves_const : forall N m, lo_const (after_leaves N m) = Some T.
  Proof.
    intros N m. cbn. destruct (pow5_configured _ _ _ _ _ _ _ _ _ _ Hcfg) as (_ & _ & _ & _ & _ & _ & C & _). now rewrite C.
  Qed.
  Lemma leaves_carry : forall N xs, length xs = N -> Forall2 (carries (after_leaves N (Some xs))) (map (leaf_cell 0 (Some xs)) (seq 0 N)) xs.
  Proof.
    intros N xs Hl. set (L := after_leaves N (Some xs)).
    assert (X : forall i, i < N -> carries L (leaf_cell 0 (Some xs) i) (nth i xs fzero)).
    { intros i Hi. split; [unfold L; rewrite leaves_starts; cbn; lia|]. split; [reflexivity|].
      unfold L. rewrite leaves_starts. cbn [leaf_cell ac_cell abs_cell ce_col ce_off ce_region nth cell_has Nat.add].
      unfold L. rewrite leaves_adv. rewrite ?Nat.add_0_r. apply last_write_fun.
      - apply in_map_iff. exists i. split; [reflexivity|]. apply in_seq. lia.
      - intros w Q. apply in_map_iff in Q. destruct Q as (j & Q & _). now injection Q as -> <-. }
    clearbody L. revert X. clear - Hl. subst N. intros X.
    assert (Y : forall k ys, length ys = k -> forall j, (forall i, i < k -> carries L (leaf_cell 0 (Some xs) (j + i)) (nth i ys fzero)) ->
      Forall2 (carries L) (map (leaf_cell 0 (Some xs)) (seq j k)) ys).
    { induction k as [|k IH]; intros [|y ys] Hy j HX; try discriminate; cbn [seq map]; constructor.
      - specialize (HX 0 ltac:(lia)). now rewrite Nat.add_0_r in HX.
      - apply IH; [now injection Hy|]. intros i Hi. specialize (HX (S i) ltac:(lia)). now rewrite Nat.add_succ_r in HX. }
    now apply Y.
  Qed.
  Lemma leaves_made : forall N m, circuit (after_leaves N m) [].
  Proof.
    intros N m. change (@nil ((column * nat) * (column * nat))) with (@nil ((column * nat) * (column * nat)) ++ []).
    eapply made_region; [apply (made_start _ _ cs1)| |exact (leaves_run N m)|].
    - intros ri evs x q o E X. rewrite leaves_ok in E. injection E as <- _. exfalso. apply in_flat_map in X.
      destruct X as (i & _ & [X|[]]). discriminate X.
    - cbn [after_leaves commit reserve lo_copy layout_empty app]. apply copy_leaves.
  Qed.
  Lemma leaves_cost : forall N m, 0 < N ->
    step (p5_columns cfg) (p5_columns cfg) (fun c => c = Adv 0) (cs_eq cs1) N N 0 (layout_empty cs1) (after_leaves N m).
  Proof.
    intros N m H0. eapply region_step with (h0 := N) (c1 := Adv 0); [exact (leaves_ok N m 0)|exact (leaves_run N m)| | | |reflexivity|..].
    - apply incl_refl.
    - intros c o X. apply touched_leaves in X. destruct X as (-> & Ho). split; [apply (state_col T s cfg cs1 HT Hcfg); lia|exact Ho].
    - apply touched_leaves. split; [reflexivity|lia].
    - intros c ->. exists 0. now apply touched_leaves.
    - now rewrite const_leaves.
    - intros X. now elim X.
    - lia.
    - intros. lia.
    - intros a b X. apply in_flat_map in X. destruct X as (i & _ & [X|[]]). discriminate X.
    - intros a v X. apply in_flat_map in X. destruct X as (i & _ & [X|[]]). discriminate X.
    - intros k _ X. now elim X.
  Qed.

  Definition prog_rows (prog : program) : nat := length prog * T + program_blocks T prog * block_rows s.
  Definition prog_least (prog : program) : nat := length prog + program_blocks T prog * block_rows s.
  Lemma program_cost : forall prog ws (L L' : layout F) ws', Forall (copyable cs1) ws -> lo_const L = Some T -> well_formed (length ws) prog ->
    circuit_program T (T - 1) s cfg prog ws L = Ok (L', ws') ->
    Forall (copyable cs1) ws' /\ top (p5_columns cfg) L' <= top (p5_columns cfg) L + prog_rows prog
    /\ (forall u, fits u L -> top (p5_columns cfg) L + prog_rows prog <= u -> fits u L')
    /\ (copies_enabled cs1 L -> copies_enabled cs1 L')
    /\ lo_next L (Adv 0) + prog_least prog <= lo_next L' (Adv 0).
  Proof.
    pose proof (columns T HT) as HC. pose proof Hcfg as Hc. unfold preimage_configure in Hc.
    destruct (cfg_cols T s _ _ _ _ _ _ cfg HC Hc) as (A & B & C & D & E & K).
    assert (HE : forall i, i < T -> In (Adv (col (p5_state cfg) i)) (cs_eq cs1))
      by exact (state_eq T s _ _ _ _ _ _ cfg cs1 Hspec HT Inv1 Inv2 HC Hc (incl_refl _)).
    assert (HB : forall i, i < T -> In (Fix (col (p5_rc_b cfg) i)) (cs_eq cs1))
      by exact (b_eq T s _ _ _ _ _ _ cfg cs1 Hspec HT Inv1 Inv2 HC Hc (incl_refl _)).
    assert (KF : In (Fix T) (cs_eq cs1)).
    { apply (configured_eq _ _ _ _ _ _ _ _ _ _ Hc). apply in_app_iff. right. apply in_map. apply in_seq. lia. }
    assert (KI : In (Fix T) (p5_columns cfg)).
    { unfold p5_columns. apply in_app_iff. right. apply in_app_iff. left. apply in_map. apply in_app_iff. right.
      destruct (pow5_configured _ _ _ _ _ _ _ _ _ _ Hc) as (_ & _ & _ & -> & _). apply in_seq. lia. }
    assert (IS : is_state T cfg (Adv 0)).
    { exists 0. split; [lia|]. rewrite (cfg_state T s cfg cs1 Hcfg). unfold col. now rewrite seq_nth by lia. }
    induction prog as [|op prog IH]; intros ws L L' ws' HW HK WF R.
    - injection R as <- <-. unfold prog_rows, prog_least, program_blocks. cbn. split; [exact HW|]. split; [lia|]. split; [auto|]. split; [auto|lia].
    - cbn [circuit_program] in R. apply lbind_inv in R. destruct R as (L1 & h & E1 & R). apply lbind_inv in R. destruct R as (L1' & msg & E1' & R).
      apply lbind_inv in R. destruct R as (L2 & out & E2 & R). destruct (pick ws op) as [msg'|] eqn:Ep; [|discriminate E1'].
      injection E1' as <- <-. destruct WF as (Hne & _ & WF). destruct (pick_map (fun w => fzero) ws op msg' Ep) as (_ & P2 & _).
      assert (H0 : 0 < length op) by (destruct op; [contradiction|cbn; lia]).
      assert (HM : Forall (copyable cs1) msg').
      { clear - Ep HW. revert msg' Ep. induction op as [|i op IH]; intros msg' Ep; cbn [pick] in Ep; [injection Ep as <-; constructor|].
        destruct (nth_error ws i) eqn:Ei; [|discriminate Ep]. destruct (pick ws op); [|discriminate Ep]. injection Ep as <-.
        constructor; [|now apply IH]. apply nth_error_In in Ei. rewrite Forall_forall in HW. now apply HW. }
      destruct (new_ok T (T - 1) s Hspec HT eq_refl cfg A B C D E K Inv1 Inv2 (p5_columns cfg) (cs_eq cs1) (incl_refl _) HE HB L L1
        (initial_capacity_element (constant_length (T - 1) (length op))) h T) as (Ab & Sb); [|exact E1|].
      { split; [lia|]. split; intros k Q; rewrite HK in Q; injection Q as <-; [lia|exact KF]. }
      destruct (hash_cost T (T - 1) s Hspec HT eq_refl cfg A B C D E K Inv1 Inv2 (p5_columns cfg) (cs_eq cs1) (incl_refl _) HE HB (length op) L1 L2 h msg' out H0 P2 Ab HM E2)
        as (Wo & Sc).
      assert (K2 : lo_const L2 = Some T) by (rewrite (st_const _ _ _ _ _ _ _ _ _ Sc), (st_const _ _ _ _ _ _ _ _ _ Sb); exact HK).
      destruct (IH (ws ++ [out]) L2 L' ws') as (I1 & I2 & I3 & I4 & I5); [|exact K2| |exact R|].
      { apply Forall_app. split; [exact HW|]. constructor; [exact Wo|constructor]. }
      { rewrite app_length. cbn [length]. now rewrite Nat.add_1_r. }
      pose proof (st_top _ _ _ _ _ _ _ _ _ Sb) as Tb. pose proof (st_top _ _ _ _ _ _ _ _ _ Sc) as Tc.
      pose proof (st_low _ _ _ _ _ _ _ _ _ Sb (Adv 0) IS) as Y2. pose proof (st_low _ _ _ _ _ _ _ _ _ Sc (Adv 0) IS) as Y3. cbv zeta in Y3.
      assert (PB : program_blocks T (op :: prog) * block_rows s
        = (length op + (T - 1) - 1) / (T - 1) * block_rows s + program_blocks T prog * block_rows s)
        by (unfold program_blocks; cbn [map list_sum fold_right]; fold (list_sum (map (fun op => (length op + (T - 1) - 1) / (T - 1)) prog)); lia).
      unfold prog_rows, prog_least in *. rewrite PB. cbn [length]. clear PB.
      set (rows := (length op + (T - 1) - 1) / (T - 1) * block_rows s) in *. clearbody rows.
      set (rest := program_blocks T prog * block_rows s) in *. clearbody rest.
      set (tops := length prog * T) in *. replace (S (length prog) * T) with (T + tops) by (unfold tops; lia). clearbody tops.
      split; [exact I1|]. split; [lia|]. split; [|split].
      + intros u Fu Hu.
        assert (Fb : fits u L1).
        { eapply step_fits; [exact Sb|exact Fu|lia|]. intros _ k Q. rewrite HK in Q. injection Q as <-.
          pose proof (top_le (p5_columns cfg) L1 (Fix T) KI). lia. }
        assert (Fc : fits u L2) by (eapply step_fits; [exact Sc|exact Fb|lia|intros X; now elim X]).
        apply I3; [exact Fc|lia].
      + intros X. apply I4. eapply step_copies; [exact Sc|]. eapply step_copies; [exact Sb|]. exact X.
      + lia.
  Qed.

  Lemma evaluate_length : forall (Hh : list F -> F) prog xs, length (evaluate Hh prog xs) = length xs + length prog.
  Proof. intros Hh. induction prog as [|op prog IH]; intros xs; cbn [evaluate length]; [lia|]. rewrite IH, app_length. cbn. lia. Qed.
  Lemma Forall2_nth_both : forall {A B} (R : A -> B -> Prop) l m, Forall2 R l m -> forall i a d, nth_error l i = Some a -> R a (nth i m d).
  Proof.
    intros A B R l m X. induction X as [|x y l m Q X IH]; intros [|i] a d E; try discriminate; cbn in *; [congruence|]. now apply IH.
  Qed.
  Lemma last_nth : forall {A} (l : list A) d, last l d = nth (length l - 1) l d.
  Proof.
    induction l as [|a [|b l] IH]; intros d; [reflexivity|reflexivity|]. change (last (a :: b :: l) d) with (last (b :: l) d). rewrite IH.
    cbn [length]. now replace (S (S (length l)) - 1) with (S (S (length l) - 1)) by lia.
  Qed.

  (** a run of the circuit with known leaves *)
  Lemma graph_run : forall prog N xs y, 0 < N -> well_formed N prog -> length xs = N -> exists L3,
    graph_synthesize T s cfg prog N (Some xs) (Some y) (layout_empty cs1) = Ok (L3, tt)
    /\ (forall u, graph_rows T s prog N <= u -> fits u L3) /\ copies_enabled cs1 L3
    /\ (forall u, fits u L3 -> N + prog_least prog + 1 <= u)
    /\ (forall adv n, fits n L3 -> gates_hold n L3 adv (cs_gates cs1) -> copies_hold L3 adv -> root_of H prog (leaves_of N adv) = output_of L3 adv)
    /\ (forall u n blind, fits u L3 -> u <= n -> y = root_of H prog xs -> satisfied n u cs1 L3 (honest u L3 blind))
    /\ (forall u blind, fits u L3 -> leaves_of N (honest u L3 blind) = xs /\ output_of L3 (honest u L3 blind) = y).
  Proof.
    intros prog N xs y H0 WF Hl. set (La := after_leaves N (Some xs)). set (ws := map (leaf_cell 0 (Some xs)) (seq 0 N)).
    assert (Lw : length ws = N) by (unfold ws; now rewrite map_length, seq_length).
    pose proof (columns T HT) as HC. pose proof Hcfg as Hc. unfold preimage_configure in Hc.
    assert (Ga : grows (layout_empty cs1) La) by (exact (grows_one _ _ _ _ (leaves_run N (Some xs)))).
    assert (Ma : circuit La []) by apply leaves_made.
    assert (Ka : lo_const La = Some T) by apply leaves_const.
    assert (Ca : Forall2 (carries La) ws xs) by now apply leaves_carry.
    destruct (program_runs T s _ _ _ _ _ _ cfg Hspec HT Inv1 Inv2 HC Hc prog ws xs La [] Ma ltac:(congruence) Ca) as [_ PR].
    rewrite Hl in PR. destruct (PR WF) as (L2 & ws' & E2 & CL2 & M2 & G2 & Y2). clear PR.
    assert (Lw' : length ws' = N + length prog) by (rewrite (Forall2_len2 Y2), evaluate_length; lia).
    destruct (nth_error ws' (length ws' - 1)) as [out|] eqn:Eo; [|apply nth_error_None in Eo; lia].
    assert (CO2 : carries L2 out (root_of H prog xs)).
    { unfold root_of. rewrite last_nth, <- (Forall2_len2 Y2). exact (Forall2_nth_both _ _ _ Y2 _ _ _ Eo). }
    destruct (out_run T s cfg cs1 HT Hcfg L2 out (Some y)) as (L3 & E3 & S3 & P3 & W3).
    assert (G3 : grows L2 L3) by exact (grows_one _ _ _ _ E3).
    (* cost *)
    pose proof (leaves_cost N (Some xs) H0) as Sa. fold La in Sa.
    destruct (program_cost prog ws La L2 ws') as (W1 & W2 & W4 & W5 & W6); [|exact Ka|now rewrite Lw|exact E2|].
    { apply Forall_forall. intros w Hw. apply in_map_iff in Hw. destruct Hw as (i & <- & Hi). cbn. apply (state_enabled T s cfg cs1 HT Hcfg). lia. }
    assert (Wo : copyable cs1 out) by (rewrite Forall_forall in W1; apply W1; exact (nth_error_In _ _ Eo)).
    pose proof (out_cost T s cfg cs1 HT Hcfg L2 L3 out (Some y) Wo E3) as Sd.
    assert (Z : top (p5_columns cfg) (layout_empty cs1) = 0).
    { apply Nat.le_0_r. apply top_lub. intros c _. cbn. lia. }
    pose proof (st_top _ _ _ _ _ _ _ _ _ Sa) as Ta.
    assert (FL : forall u, graph_rows T s prog N <= u -> fits u L3).
    { intros u Hu. change (graph_rows T s prog N) with (N + length prog * T + program_blocks T prog * block_rows s + 1) in Hu.
      unfold prog_rows in W2, W4. set (a := length prog * T) in *. set (b := program_blocks T prog * block_rows s) in *. clearbody a b.
      assert (Fa : fits u La) by (eapply step_fits; [exact Sa|apply empty_fits|lia|intros X; now elim X]).
      assert (Fc : fits u L2) by (apply W4; [exact Fa|lia]).
      eapply step_fits; [exact Sd|exact Fc|lia|intros X; now elim X]. }
    assert (CE : copies_enabled cs1 L3).
    { eapply step_copies; [exact Sd|]. apply W5. eapply step_copies; [exact Sa|]. intros a b []. }
    assert (LR : last (lo_starts L3) 0 = lo_next L2 (Adv 0)) by (rewrite S3; apply last_last).
    assert (LW : forall u, fits u L3 -> N + prog_least prog + 1 <= u).
    { intros u Fu. apply last_write_in in W3. pose proof (proj1 Fu _ _ _ W3) as X.
      pose proof (st_low _ _ _ _ _ _ _ _ _ Sa (Adv 0) eq_refl) as Y1. cbn [layout_empty lo_next] in Y1. lia. }
    (* where the leaves are *)
    assert (Sm : exists l, lo_starts L3 = 0 :: l).
    { destruct (grows_starts La L3 (grows_app _ _ _ G2 G3)) as [new En]. exists new. rewrite En. unfold La. now rewrite leaves_starts. }
    assert (WM : forall adv, map (word_at L3 adv) ws = leaves_of N adv).
    { intros adv. unfold ws, leaves_of. rewrite map_map. apply map_ext. intros i. unfold word_at.
      cbn [leaf_cell ac_cell abs_cell ce_col ce_off ce_region]. destruct Sm as [l ->]. cbn. now rewrite ?Nat.add_0_r. }
    assert (HF : forall u blind, fits u L3 -> leaves_of N (honest u L3 blind) = xs /\ output_of L3 (honest u L3 blind) = y).
    { intros u blind Fu. split.
      - rewrite <- WM.
        assert (CL : Forall2 (carries L3) ws xs)
          by exact (carries_later T s _ _ _ _ _ _ cfg Hspec HT Inv1 Inv2 HC Hc La [] L3 _ _ Ma (grows_app _ _ _ G2 G3) Ca).
        clear - CL Fu. induction CL as [|w v l z X1 X IH]; [reflexivity|]. cbn [map]. rewrite IH. f_equal. now apply carries_word.
      - unfold output_of, honest. rewrite LR, W3. replace (_ <? u) with true; [reflexivity|]. symmetry. apply Nat.ltb_lt.
        apply last_write_in in W3. exact (proj1 Fu _ _ _ W3). }
    assert (OUT : forall adv, copies_hold L3 adv -> word_at L3 adv out = output_of L3 adv).
    { intros adv HP. specialize (HP (abs_cell (lo_starts L3) (ac_cell out)) (Adv 0, lo_next L2 (Adv 0))).
      unfold word_at, output_of. rewrite HP; [now rewrite LR|]. rewrite P3. apply in_app_iff. right. now left. }
    exists L3. split.
    { unfold graph_synthesize. rewrite (lbind_ok _ _ _ _ _ (leaves_run N (Some xs))). fold La ws. rewrite (lbind_ok _ _ _ _ _ E2).
      unfold lbind, llift, index. rewrite Eo. exact E3. }
    split; [exact FL|]. split; [exact CE|]. split; [exact LW|]. split; [|split].
    - intros adv n Fn HG HP.
      pose proof (program_sound_claim T s _ _ _ _ _ _ cfg cs1 prog ws La ws' L2 L3 n adv Hspec HT Inv1 Inv2 HC Hc Ga) as X.
      rewrite <- (OUT adv HP), <- WM. unfold root_of. rewrite <- X; try assumption.
      + rewrite last_nth, map_length. symmetry. rewrite (nth_indep _ fzero (word_at L3 adv out)) by (rewrite map_length; lia).
        rewrite map_nth. f_equal. symmetry. now apply nth_error_nth.
      + clear - Ca. clearbody La ws. induction Ca as [|w v l z X]; constructor; [apply X|assumption].
    - intros u n blind Fu Hu Ey.
      assert (M3 : circuit L3 ([] ++ [(abs_cell (lo_starts L3) (ac_cell out), (Adv 0, lo_next L2 (Adv 0)))])).
      { eapply made_region; [exact M2| |exact E3|exact P3]. intros ri evs x q o Q X. rewrite (out_ok T s cfg cs1 HT Hcfg) in Q. injection Q as <- _.
        destruct X as [X|[X|[]]]; discriminate X. }
      destruct (made_honest T s _ _ _ _ _ _ cfg Hspec HT Inv1 Inv2 HC Hc L3 _ u n blind M3 Fu Hu) as [X1 X2].
      split; [apply X1; intros g r []|]. split.
      { destruct (pow5_configured _ _ _ _ _ _ _ _ _ _ Hc) as (_ & _ & _ & _ & _ & _ & _ & Q). rewrite Q. intros e t r []. }
      apply X2. intros a b [X|[]]. injection X as <- <-.
      assert (CL : Forall2 (carries L3) [out] [root_of H prog xs]).
      { apply (carries_later T s _ _ _ _ _ _ cfg Hspec HT Inv1 Inv2 HC Hc L2 [] L3 _ _ M2 G3). constructor; [exact CO2|constructor]. }
      pose proof (Forall2_inv_head _ _ _ _ _ CL) as CO. rewrite <- Ey in CO.
      change (cell_at L3 (honest u L3 blind) (abs_cell (lo_starts L3) (ac_cell out))) with (word_at L3 (honest u L3 blind) out).
      rewrite (carries_word L3 out y u blind Fu CO). destruct (HF u blind Fu) as [_ HO]. unfold output_of in HO. rewrite LR in HO. now symmetry.
    - exact HF.
  Qed.

  (** keys do not depend on the values *)
  Lemma sim_leaves : forall N m m', sim_region (Forall2 same_cell) (load_leaves cfg N m) (load_leaves cfg N m').
  Proof.
    intros N m m'. unfold load_leaves. apply sim_map with (R := eq); [apply Forall2_eq|]. intros i j <-.
    eapply sim_bind; [apply sim_lift|]. intros c c' <-. apply sim_advice.
  Qed.
  Lemma pick_sim : forall (ws ws' : list (acell F)) op, Forall2 same_cell ws ws' ->
    sim (F := F) (Forall2 same_cell) (llift (match pick ws op with Some msg => Ok msg | None => Panic end))
      (llift (match pick ws' op with Some msg => Ok msg | None => Panic end)).
  Proof.
    intros ws ws' op HW L L' S.
    assert (X : match pick ws op, pick ws' op with Some a, Some b => Forall2 same_cell a b | None, None => True | _, _ => False end).
    { induction op as [|i op IH]; [constructor|]. cbn [pick].
      assert (Y : match nth_error ws i, nth_error ws' i with Some a, Some b => same_cell a b | None, None => True | _, _ => False end).
      { clear - HW. revert i. induction HW as [|a b l m Q X IH]; intros [|i]; cbn; try exact I; [exact Q|exact (IH i)]. }
      destruct (nth_error ws i), (nth_error ws' i), (pick ws op), (pick ws' op); try contradiction; try exact I. now constructor. }
    unfold llift. destruct (pick ws op), (pick ws' op); try contradiction; [now split|exact I].
  Qed.
  Lemma index_sim : forall (ws ws' : list (acell F)), Forall2 same_cell ws ws' ->
    sim (F := F) same_cell (llift (index ws (length ws - 1))) (llift (index ws' (length ws' - 1))).
  Proof.
    intros ws ws' HW L L' S. rewrite <- (Forall2_len2 HW). unfold llift, index.
    assert (Y : forall i, match nth_error ws i, nth_error ws' i with Some a, Some b => same_cell a b | None, None => True | _, _ => False end).
    { clear - HW. induction HW as [|a b l m Q X IH]; intros [|i]; cbn; try exact I; [exact Q|exact (IH i)]. }
    specialize (Y (length ws - 1)). destruct (nth_error ws _), (nth_error ws' _); try contradiction; [now split|exact I].
  Qed.
  Lemma sim_program : forall prog ws ws', Forall2 same_cell ws ws' ->
    sim (Forall2 same_cell) (circuit_program T (T - 1) s cfg prog ws) (circuit_program T (T - 1) s cfg prog ws').
  Proof.
    induction prog as [|op prog IH]; intros ws ws' HW; cbn [circuit_program]; [now apply sim_lret|].
    eapply sim_lbind; [apply sim_new|]. intros h h' Hh. eapply sim_lbind; [now apply pick_sim|]. intros msg msg' HM.
    eapply sim_lbind; [|intros a b Hab; apply IH; apply Forall2_app; [exact HW|constructor; [exact Hab|constructor]]].
    unfold circuit_hash. eapply sim_lbind; [apply sim_llift|]. intros pad pad' <-.
    eapply sim_lbind; [apply sim_absorbs; [|exact Hh]|].
    { apply Forall2_app; [|clear; induction pad; constructor; [reflexivity|assumption]].
      clear - HM. induction HM; cbn [map]; constructor; auto. }
    intros b b' Hb. eapply sim_lbind; [apply sim_finish, Hb|]. intros c c' Hc.
    eapply sim_lbind; [apply sim_squeeze, Hc|]. intros [x sq] [x' sq'] [H1 _]. now apply sim_lret.
  Qed.
  Lemma sim_graph : forall prog N m m' y y', sim eq (graph_synthesize T s cfg prog N m y) (graph_synthesize T s cfg prog N m' y').
  Proof.
    intros prog N m m' y y'. unfold graph_synthesize. eapply sim_lbind; [apply sim_assign, sim_leaves|]. intros ws ws' HW.
    eapply sim_lbind; [apply sim_program, HW|]. intros a a' Ha. eapply sim_lbind; [apply index_sim, Ha|]. intros r r' Hr.
    apply sim_assign, sim_output, Hr.
  Qed.

  Lemma graph_exact : forall prog N n u, 0 < N -> well_formed N prog -> graph_rows T s prog N <= u -> u <= n ->
    exists K, graph_synthesize T s cfg prog N None None (layout_empty cs1) = Ok (K, tt) /\ fits u K /\ copies_enabled cs1 K
      /\ (forall adv, satisfied n u cs1 K adv -> root_of H prog (leaves_of N adv) = output_of K adv)
      /\ (forall xs y, length xs = N -> exists L, graph_synthesize T s cfg prog N (Some xs) (Some y) (layout_empty cs1) = Ok (L, tt) /\ fits u L
           /\ forall blind, let adv := honest u L blind in
              leaves_of N adv = xs /\ output_of K adv = y /\ (satisfied n u cs1 K adv <-> y = root_of H prog xs)).
  Proof.
    intros prog N n u H0 WF Hu Hn.
    assert (KEY : forall xs y, length xs = N -> exists K L, graph_synthesize T s cfg prog N None None (layout_empty cs1) = Ok (K, tt)
      /\ graph_synthesize T s cfg prog N (Some xs) (Some y) (layout_empty cs1) = Ok (L, tt) /\ same_key K L).
    { intros xs y Hl. destruct (graph_run prog N xs y H0 WF Hl) as (L & ES & _).
      pose proof (sim_graph prog N None (Some xs) None (Some y) _ _ (key_refl (layout_empty cs1))) as X. rewrite ES in X.
      destruct (graph_synthesize T s cfg prog N None None (layout_empty cs1)) as [[K []]|]; [|contradiction]. destruct X as [X _].
      exists K, L. auto. }
    destruct (KEY (repeat fzero N) fzero (repeat_length _ _)) as (K & L & EK & EL & SK). exists K.
    destruct (graph_run prog N (repeat fzero N) fzero H0 WF (repeat_length _ _)) as (L' & ES & FL & CE & _ & SND & _).
    rewrite EL in ES. injection ES as <-.
    assert (FK : fits u K) by exact (key_fits L K (same_key_sym _ _ SK) u (FL u Hu)).
    split; [exact EK|]. split; [exact FK|]. split.
    { intros a b X. destruct SK as (_ & _ & _ & _ & _ & Q & _). rewrite Q in X. exact (CE a b X). }
    assert (SO : forall adv, satisfied n u cs1 K adv -> root_of H prog (leaves_of N adv) = output_of K adv).
    { intros adv SA. pose proof (key_satisfied K L SK n u cs1 adv SA) as (SG & _ & SC).
      rewrite (SND adv n); [|apply FL; lia|exact SG|exact SC]. unfold output_of. destruct SK as (Q & _). now rewrite Q. }
    split; [exact SO|]. clear SND FL CE. intros xs y Hl.
    destruct (KEY xs y Hl) as (K' & L'' & EK' & EL' & SK'). rewrite EK in EK'. injection EK' as <-. exists L''. split; [exact EL'|].
    destruct (graph_run prog N xs y H0 WF Hl) as (M & EM & FM & _ & _ & _ & HS & HH).
    rewrite EL' in EM. injection EM as <-. split; [now apply FM|]. intros blind adv. destruct (HH u blind (FM u Hu)) as [X Y]. fold adv in X, Y.
    assert (OK : output_of K adv = y) by (rewrite <- Y; unfold output_of; destruct SK' as (Q & _); now rewrite Q).
    split; [exact X|]. split; [exact OK|]. split.
    - intros SA. rewrite <- OK, <- X. symmetry. now apply SO.
    - intros Ey. apply (key_satisfied L'' K (same_key_sym _ _ SK')). now apply HS; [apply FM| |].
  Qed.

  Lemma graph_least : forall prog N K u, 0 < N -> well_formed N prog ->
    graph_synthesize T s cfg prog N None None (layout_empty cs1) = Ok (K, tt) -> fits u K ->
    N + length prog + program_blocks T prog * block_rows s + 1 <= u.
  Proof.
    intros prog N K u H0 WF EK FK.
    destruct (graph_run prog N (repeat fzero N) fzero H0 WF (repeat_length _ _)) as (L & ES & _ & _ & LW & _).
    pose proof (sim_graph prog N None (Some (repeat fzero N)) None (Some fzero) _ _ (key_refl (layout_empty cs1))) as X. rewrite ES, EK in X.
    destruct X as [X _]. specialize (LW u (key_fits K L X u FK)). unfold prog_least in LW. lia.
  Qed.

  Lemma graph_panics : forall prog N m y, (match m with Some xs => length xs = N | None => True end) ->
    (graph_synthesize T s cfg prog N m y (layout_empty cs1) = Panic <-> N = 0 \/ ~ well_formed N prog).
  Proof.
    intros prog N m y _.
    assert (E : (graph_synthesize T s cfg prog N m y (layout_empty cs1) = Panic
      <-> graph_synthesize T s cfg prog N (Some (repeat fzero N)) (Some fzero) (layout_empty cs1) = Panic)).
    { pose proof (sim_graph prog N m (Some (repeat fzero N)) y (Some fzero) _ _ (key_refl (layout_empty cs1))) as X. unfold same_outcome in X.
      destruct (graph_synthesize T s cfg prog N m y (layout_empty cs1)) as [[A a]|], (graph_synthesize T s cfg prog N (Some _) _ _) as [[B b]|];
        try contradiction; split; congruence. }
    rewrite E. clear E. pose proof (columns T HT) as HC. pose proof Hcfg as Hc. unfold preimage_configure in Hc.
    set (xs := repeat fzero N). assert (Hl : length xs = N) by apply repeat_length.
    destruct (program_runs T s _ _ _ _ _ _ cfg Hspec HT Inv1 Inv2 HC Hc prog _ xs _ [] (leaves_made N (Some xs))
      ltac:(rewrite leaves_const; discriminate) (leaves_carry N xs Hl)) as [PN PW]. rewrite Hl in PN, PW. split.
    - intros P. destruct (Nat.eq_dec N 0) as [Z|Z]; [now left|]. right. intros WF.
      destruct (graph_run prog N xs fzero ltac:(lia) WF Hl) as (L & ES & _). congruence.
    - unfold graph_synthesize. rewrite (lbind_ok _ _ _ _ _ (leaves_run N (Some xs))).
      intros [Z|W].
      + destruct prog as [|op prog].
        * replace (seq 0 N) with (@nil nat) by now rewrite Z. reflexivity.
        * unfold lbind at 1. rewrite PN; [reflexivity|]. intros (Hne & Hall & _). destruct op as [|i op]; [contradiction|].
          inversion Hall; lia.
      + unfold lbind at 1. now rewrite (PN W).
  Qed.
End Claims.

Section Merkle.
  Context {F : Type} {FO : FieldOps F} {PF : PrimeField F}.
  Variable H : list F -> F.

  Definition pairs (d : nat) (xs : list F) : list F := map (fun i => H [nth (2 * i) xs fzero; nth (2 * i + 1) xs fzero]) (seq 0 (2 ^ d)).
  Lemma pairs_length : forall d xs, length (pairs d xs) = 2 ^ d.
  Proof. intros. unfold pairs. now rewrite map_length, seq_length. Qed.
  Lemma map_seq_shift : forall {A} (f g : nat -> A) n a b, (forall i, i < n -> f (a + i) = g (b + i)) -> map f (seq a n) = map g (seq b n).
  Proof.
    intros A f g. induction n as [|n IH]; intros a b X; [reflexivity|]. cbn [seq map]. f_equal.
    - specialize (X 0 ltac:(lia)). now rewrite !Nat.add_0_r in X.
    - apply IH. intros i Hi. specialize (X (S i) ltac:(lia)). now rewrite !Nat.add_succ_r in X.
  Qed.
  Lemma pairs_split : forall d xs, firstn (2 ^ d) (pairs (S d) xs) = pairs d (firstn (2 ^ S d) xs)
    /\ skipn (2 ^ d) (pairs (S d) xs) = pairs d (skipn (2 ^ S d) xs).
  Proof.
    intros d xs. unfold pairs. assert (E : 2 ^ S d = 2 ^ d + 2 ^ d) by (cbn; lia). rewrite E, seq_app, map_app.
    set (n := 2 ^ d). cbn [Nat.add]. split.
    - rewrite firstn_app, map_length, seq_length, Nat.sub_diag. cbn [firstn]. rewrite app_nil_r.
      rewrite firstn_all2 by (rewrite map_length, seq_length; lia). apply map_ext_in. intros i Hi. apply in_seq in Hi.
      now rewrite !nth_firstn by lia.
    - rewrite skipn_app, map_length, seq_length, Nat.sub_diag. cbn [skipn].
      rewrite skipn_all2 by (rewrite map_length, seq_length; lia). cbn [app]. apply map_seq_shift. intros i Hi.
      rewrite !nth_skipn. replace (n + n + 2 * (0 + i)) with (2 * (n + i)) by lia. now replace (n + n + (2 * (0 + i) + 1)) with (2 * (n + i) + 1) by lia.
  Qed.
  Lemma root_pairs : forall d xs, merkle_root H (S d) xs = merkle_root H d (pairs d xs).
  Proof.
    induction d as [|d IH]; intros xs.
    - cbn. f_equal. destruct xs as [|a [|b l]]; reflexivity.
    - change (merkle_root H (S (S d)) xs) with (H [merkle_root H (S d) (firstn (2 ^ S d) xs); merkle_root H (S d) (skipn (2 ^ S d) xs)]).
      rewrite (IH (firstn (2 ^ S d) xs)), (IH (skipn (2 ^ S d) xs)). destruct (pairs_split d xs) as [<- <-]. reflexivity.
  Qed.
  Lemma evaluate_level : forall from n k pre cur extra rest, length pre = from -> 2 * (k + n) <= length cur ->
    evaluate H (map (fun i => [from + 2 * i; from + 2 * i + 1]) (seq k n) ++ rest) (pre ++ cur ++ extra)
    = evaluate H rest (pre ++ cur ++ extra ++ map (fun i => H [nth (2 * i) cur fzero; nth (2 * i + 1) cur fzero]) (seq k n)).
  Proof.
    intros from. induction n as [|n IH]; intros k pre cur extra rest Hp Hc; cbn [seq map app].
    - now rewrite app_nil_r.
    - cbn [evaluate map]. rewrite !(app_nth2 pre) by lia. rewrite !app_nth1 by lia.
      replace (from + 2 * k - length pre) with (2 * k) by lia. replace (from + 2 * k + 1 - length pre) with (2 * k + 1) by lia.
      rewrite <- !app_assoc. rewrite IH by lia. rewrite <- !app_assoc. reflexivity.
  Qed.
  Lemma merkle_from_root : forall d pre cur, length cur = 2 ^ d ->
    last (evaluate H (merkle_from (length pre) d) (pre ++ cur)) fzero = merkle_root H d cur.
  Proof.
    induction d as [|d IH]; intros pre cur Hc.
    - destruct cur as [|x [|? ?]]; try discriminate Hc. cbn. apply last_last.
    - cbn [merkle_from]. unfold level. assert (E : 2 ^ S d = 2 * 2 ^ d) by reflexivity.
      pose proof (evaluate_level (length pre) (2 ^ d) 0 pre cur [] (merkle_from (length pre + 2 ^ S d) d) eq_refl) as X.
      rewrite app_nil_r in X. rewrite X by lia. fold (pairs d cur). cbn [app]. rewrite app_assoc.
      replace (length pre + 2 ^ S d) with (length (pre ++ cur)) by (rewrite app_length; lia).
      rewrite IH by apply pairs_length. symmetry. apply root_pairs.
  Qed.
  Lemma merkle_root_of : forall d xs, length xs = 2 ^ d -> root_of H (merkle d) xs = merkle_root H d xs.
  Proof. intros d xs Hl. exact (merkle_from_root d [] xs Hl). Qed.

  Lemma well_formed_app : forall p q n, well_formed n p -> well_formed (n + length p) q -> well_formed n (p ++ q).
  Proof.
    induction p as [|op p IH]; intros q n Hp Hq; cbn [app length] in *; [now rewrite Nat.add_0_r in Hq|].
    destruct Hp as (A & B & C). split; [exact A|]. split; [exact B|]. apply IH; [exact C|]. now replace (S n + length p) with (n + S (length p)) by lia.
  Qed.
  Lemma level_ok : forall n from k m, from + 2 * (k + n) <= m -> well_formed m (map (fun i => [from + 2 * i; from + 2 * i + 1]) (seq k n)).
  Proof.
    induction n as [|n IH]; intros from k m Hm; cbn [seq map well_formed]; [exact I|]. split; [discriminate|]. split.
    - repeat constructor; lia.
    - apply IH. lia.
  Qed.
  Lemma merkle_from_ok : forall d from, well_formed (from + 2 ^ d) (merkle_from from d) /\ length (merkle_from from d) = 2 ^ d - 1.
  Proof.
    induction d as [|d IH]; intros from; cbn [merkle_from]; [split; [exact I|reflexivity]|].
    assert (E : 2 ^ S d = 2 * 2 ^ d) by reflexivity. pose proof (Nat.pow_nonzero 2 d ltac:(lia)) as Z.
    destruct (IH (from + 2 ^ S d)) as [A B]. unfold level. split.
    - apply well_formed_app; [apply level_ok; lia|]. now rewrite map_length, seq_length.
    - rewrite app_length, B, map_length, seq_length. lia.
  Qed.
  Lemma merkle_ok : forall d, well_formed (2 ^ d) (merkle d) /\ length (merkle d) = 2 ^ d - 1.
  Proof. intros d. exact (merkle_from_ok d 0). Qed.
  Lemma merkle_from_pairs : forall d from op, In op (merkle_from from d) -> length op = 2.
  Proof.
    induction d as [|d IH]; intros from op X; [destruct X|]. apply in_app_iff in X. destruct X as [X|X]; [|now apply IH in X].
    apply in_map_iff in X. now destruct X as (i & <- & _).
  Qed.
  Lemma merkle_blocks : forall T d, 2 < T -> program_blocks T (merkle d) = 2 ^ d - 1.
  Proof.
    intros T d HT. unfold program_blocks. destruct (merkle_ok d) as [_ E]. rewrite <- E.
    assert (X : forall op, In op (merkle d) -> length op = 2) by exact (merkle_from_pairs d 0).
    assert (Q : (2 + (T - 1) - 1) / (T - 1) = 1) by (symmetry; apply (Nat.div_unique _ _ _ 1); lia).
    revert X. generalize (merkle d). induction p as [|op p IH]; intros X; [reflexivity|]. cbn [map list_sum fold_right length].
    rewrite (X op (or_introl eq_refl)), Q. fold (list_sum (map (fun op => (length op + (T - 1) - 1) / (T - 1)) p)). rewrite IH; [reflexivity|].
    intros o Ho. apply X. now right.
  Qed.

  (** equal roots: equal leaves, or a collision of the hash of two words *)
  Lemma merkle_binding : forall d xs ys, length xs = 2 ^ d -> length ys = 2 ^ d -> merkle_root H d xs = merkle_root H d ys ->
    xs = ys \/ exists a b a' b', [a; b] <> [a'; b'] /\ H [a; b] = H [a'; b'].
  Proof.
    induction d as [|d IH]; intros xs ys Hx Hy E.
    - destruct xs as [|x [|? ?]]; try discriminate Hx. destruct ys as [|y [|? ?]]; try discriminate Hy. cbn in E. left. now subst.
    - cbn [merkle_root] in E. set (n := 2 ^ d) in *. assert (E2 : 2 ^ S d = n + n) by (unfold n; cbn; lia). rewrite E2 in Hx, Hy.
      destruct (feq_dec (merkle_root H d (firstn n xs)) (merkle_root H d (firstn n ys))) as [A|A].
      2:{ right. do 4 eexists. split; [|exact E]. congruence. }
      destruct (feq_dec (merkle_root H d (skipn n xs)) (merkle_root H d (skipn n ys))) as [B|B].
      2:{ right. do 4 eexists. split; [|exact E]. congruence. }
      destruct (IH (firstn n xs) (firstn n ys)) as [C|C]; [rewrite firstn_length; fold n; lia|rewrite firstn_length; fold n; lia|exact A| |now right].
      destruct (IH (skipn n xs) (skipn n ys)) as [D|D]; [rewrite skipn_length; fold n; lia|rewrite skipn_length; fold n; lia|exact B| |now right].
      left. now rewrite <- (firstn_skipn n xs), <- (firstn_skipn n ys), C, D.
  Qed.
End Merkle.

Section MerkleCircuit.
  Context {F : Type} {FO : FieldOps F} {PF : PrimeField F}.

  Lemma merkle_exact : forall T (s : spec F) cfg (cs1 : cs F),
    poseidon_spec T s -> 2 < T -> mat_prod_id T (mds s) (mds_inv s) -> mat_prod_id T (mds_inv s) (mds s) -> preimage_configure T s = (cfg, cs1) ->
    forall d n u, 2 ^ d + (2 ^ d - 1) * (T + block_rows s) + 1 <= u -> u <= n ->
    exists K, graph_synthesize T s cfg (merkle d) (2 ^ d) None None (layout_empty cs1) = Ok (K, tt) /\ fits u K /\ copies_enabled cs1 K
      /\ (forall adv, satisfied n u cs1 K adv -> merkle_root (fixed_hash T s) d (leaves_of (2 ^ d) adv) = output_of K adv)
      /\ (forall adv adv', satisfied n u cs1 K adv -> satisfied n u cs1 K adv' -> output_of K adv = output_of K adv' ->
           leaves_of (2 ^ d) adv = leaves_of (2 ^ d) adv'
           \/ exists a b a' b', [a; b] <> [a'; b'] /\ fixed_hash T s [a; b] = fixed_hash T s [a'; b'])
      /\ (forall xs y, length xs = 2 ^ d -> exists L, graph_synthesize T s cfg (merkle d) (2 ^ d) (Some xs) (Some y) (layout_empty cs1) = Ok (L, tt)
           /\ fits u L
           /\ forall blind, let adv := honest u L blind in
              leaves_of (2 ^ d) adv = xs /\ output_of K adv = y /\ (satisfied n u cs1 K adv <-> y = merkle_root (fixed_hash T s) d xs)).
  Proof.
    intros T s cfg cs1 Hspec HT I1 I2 Hcfg d n u Hu Hn. destruct (merkle_ok d) as [W E]. pose proof (Nat.pow_nonzero 2 d ltac:(lia)) as Z.
    destruct (graph_exact T s cfg cs1 Hspec ltac:(lia) I1 I2 Hcfg (merkle d) (2 ^ d) n u) as (K & EK & FK & CK & SK & HK); [lia|exact W| |exact Hn|].
    { unfold graph_rows. rewrite E, merkle_blocks by assumption. rewrite Nat.mul_add_distr_l in Hu. lia. }
    assert (Ll : forall adv, length (leaves_of (2 ^ d) adv : list F) = 2 ^ d) by (intros; unfold leaves_of; now rewrite map_length, seq_length).
    assert (SM : forall adv, satisfied n u cs1 K adv -> merkle_root (fixed_hash T s) d (leaves_of (2 ^ d) adv) = output_of K adv).
    { intros adv X. rewrite <- merkle_root_of by apply Ll. now apply SK. }
    exists K. split; [exact EK|]. split; [exact FK|]. split; [exact CK|]. split; [exact SM|]. split.
    - intros adv adv' X X' EO. apply (merkle_binding (fixed_hash T s) d); [apply Ll|apply Ll|]. rewrite !SM by assumption. exact EO.
    - intros xs y Hl. destruct (HK xs y Hl) as (L & EL & FL & HL). exists L. split; [exact EL|]. split; [exact FL|].
      intros blind adv. destruct (HL blind) as (A & B & C). fold adv in A, B, C. split; [exact A|]. split; [exact B|].
      rewrite <- merkle_root_of by exact Hl. exact C.
  Qed.
End MerkleCircuit.
