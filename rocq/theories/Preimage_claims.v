(** The lemmas behind PropertiesPreimage.v. *)
From Coq Require Import ZArith List Arith Lia Bool.
From Verif Require Import Field Rust ListAux Primitives Specs SpecHash Perm_proof BigSum Link Base_claims Halo2 Pow5 ChipUse Built
  Pow5Use Gadget GadgetUse CostUse KeyUse Layout_proof Contract Pow5Block_proof Trace_proof Pow5Use_proof Pow5_claims
  Gadget_proof Gadget_claims Cost_proof Cost_claims Key_claims ProgramUse Program_claims PreimageUse.
Import ListNotations.
Local Open Scope nat_scope.

Lemma Forall2_inv_head : forall {A B} (R : A -> B -> Prop) a b l m, Forall2 R (a :: l) (b :: m) -> R a b.
Proof. intros A B R a b l m H. now inversion H. Qed.

Section Claims.
  Context {F : Type} {FO : FieldOps F} {PF : PrimeField F}.
  Variables (T : nat) (s : spec F) (cfg : pow5) (cs1 : cs F).
  Hypothesis Hspec : poseidon_spec T s.
  Hypothesis HT : 1 < T.
  Hypothesis Inv1 : mat_prod_id T (mds s) (mds_inv s).
  Hypothesis Inv2 : mat_prod_id T (mds_inv s) (mds s).
  Hypothesis Hcfg : preimage_configure T s = (cfg, cs1).
  Notation circuit := (made (p5_selectors cfg) (p5_instruction T (T - 1) s cfg)).
  Notation host := (preimage_host T).

  Lemma columns : columns_ok T (seq 0 T) T (seq 0 T) (seq T T).
  Proof.
    split; [apply seq_length|]. split; [apply seq_length|]. split; [apply seq_length|]. split.
    - constructor; [|apply seq_NoDup]. intros H. apply in_seq in H. lia.
    - change (seq T T) with (seq (0 + T) T). rewrite <- seq_app. apply seq_NoDup.
  Qed.
  Lemma cfg_state : p5_state cfg = seq 0 T.
  Proof. now destruct (pow5_configured _ _ _ _ _ _ _ _ _ _ Hcfg) as (E & _). Qed.
  Lemma state_index : forall i, i < T -> index (p5_state cfg) i = Ok i.
  Proof.
    intros i Hi. rewrite cfg_state. unfold index. rewrite (nth_error_nth' _ 0) by now rewrite seq_length. now rewrite seq_nth.
  Qed.

  Definition msg_cell (N ri : nat) (m : option (list F)) (i : nat) : acell F :=
    {| ac_cell := {| ce_region := ri; ce_off := 0; ce_col := Adv i |}; ac_val := option_map (fun m => nth i m fzero) m |}.
  Definition msg_events (N : nat) (m : option (list F)) : list (event F) :=
    flat_map (fun i => [AssignAdvice i 0 (option_map (fun m => nth i m fzero) m)]) (seq 0 N).
  Lemma load_ok : forall N m ri, N <= T -> load_message cfg N m ri = Ok (msg_events N m, map (msg_cell N ri m) (seq 0 N)).
  Proof.
    intros N m ri H. unfold load_message. apply rmap_ok. intros i Hi. apply in_seq in Hi.
    change [AssignAdvice i 0 (option_map (fun m => nth i m fzero) m)] with ([] ++ [AssignAdvice i 0 (option_map (fun m => nth i m fzero) m)]).
    apply (rbind_ok _ _ ri [] i). { unfold rlift. now rewrite state_index by lia. } reflexivity.
  Qed.
  Lemma load_panic : forall N m ri, T < N -> load_message cfg N m ri = Panic.
  Proof.
    intros N m ri H. unfold load_message. replace N with (T + S (N - T - 1)) by lia. rewrite seq_app. cbn [seq Nat.add].
    generalize (seq 0 T) (seq (S T) (N - T - 1)). induction l as [|i l IH]; intros l'.
    - cbn [app rmap]. unfold rbind, rlift, index. rewrite cfg_state.
      replace (nth_error (seq 0 T) T) with (@None nat); [reflexivity|]. symmetry. apply nth_error_None. now rewrite seq_length.
    - cbn [app rmap]. unfold rbind at 1. destruct (rbind _ _ ri) as [[e a]|]; [|reflexivity]. cbn [bind].
      unfold rbind at 1. now rewrite IH.
  Qed.
  Lemma touched_msg : forall N m c o, In (c, o) (touched (msg_events N m)) <-> o = 0 /\ exists i, i < N /\ c = Adv i.
  Proof.
    intros N m c o. unfold touched, msg_events. rewrite in_flat_map. split.
    - intros (e & He & X). apply in_flat_map in He. destruct He as (i & Hi & [<-|[]]). apply in_seq in Hi. destruct X as [X|[]].
      injection X as <- <-. split; [reflexivity|]. exists i. split; [lia|reflexivity].
    - intros (-> & i & Hi & ->). eexists. split; [apply in_flat_map; exists i; split; [apply in_seq; lia|now left]|]. now left.
  Qed.
  Lemma const_msg : forall N m, const_events (msg_events N m) = [].
  Proof. intros N m. unfold msg_events. induction (seq 0 N) as [|i l IH]; [reflexivity|exact IH]. Qed.
  Lemma copy_msg : forall starts N m, abs_copy starts (msg_events N m) = [].
  Proof. intros st N m. unfold msg_events. induction (seq 0 N) as [|i l IH]; [reflexivity|exact IH]. Qed.

  (** the layout after the message *)
  Definition after_msg (N : nat) (m : option (list F)) : layout F :=
    commit 0 (msg_events N m) (reserve (msg_events N m) (layout_empty cs1)).
  Lemma msg_run : forall N m, N <= T ->
    assign_region (load_message cfg N m) (layout_empty cs1) = Ok (after_msg N m, map (msg_cell N 0 m) (seq 0 N)).
  Proof. intros N m H. exact (assign_region_ok _ (layout_empty cs1) _ _ (load_ok N m 0 H) (const_msg N m)). Qed.
  Lemma msg_starts : forall N m, lo_starts (after_msg N m) = [0].
  Proof.
    intros N m. cbn. f_equal. unfold region_start. induction (touched _) as [|[c o] l IH]; [reflexivity|]. cbn [fold_right]. rewrite IH. reflexivity.
  Qed.
  Lemma msg_adv : forall N m, lo_adv (after_msg N m) = map (fun i => (i, 0, option_map (fun m => nth i m fzero) m)) (seq 0 N).
  Proof.
    intros N m. pose proof (msg_starts N m) as E. cbn in E. injection E as E.
    unfold after_msg, commit, reserve. cbn [lo_adv layout_empty app lo_starts nth lo_next]. rewrite E. unfold abs_adv, msg_events. induction (seq 0 N) as [|i l IH]; [reflexivity|]. cbn [flat_map app map Nat.add]. now rewrite IH.
  Qed.
  Lemma msg_const : forall N m, lo_const (after_msg N m) = Some T.
  Proof.
    intros N m. cbn. destruct (pow5_configured _ _ _ _ _ _ _ _ _ _ Hcfg) as (_ & _ & _ & _ & _ & _ & C & _). now rewrite C.
  Qed.
  Lemma msg_carries : forall N xs, length xs = N -> Forall2 (carries (after_msg N (Some xs))) (map (msg_cell N 0 (Some xs)) (seq 0 N)) xs.
  Proof.
    intros N xs Hl. set (L := after_msg N (Some xs)).
    assert (X : forall i, i < N -> carries L (msg_cell N 0 (Some xs) i) (nth i xs fzero)).
    { intros i Hi. split; [unfold L; rewrite msg_starts; cbn; lia|]. split; [reflexivity|].
      unfold L. rewrite msg_starts. cbn [msg_cell ac_cell abs_cell ce_col ce_off ce_region nth cell_has Nat.add].
      unfold L. rewrite msg_adv. apply last_write_fun.
      - apply in_map_iff. exists i. split; [reflexivity|]. apply in_seq. lia.
      - intros w H. apply in_map_iff in H. destruct H as (j & H & _). now injection H as -> <-. }
    clearbody L. revert X. clear - Hl. subst N. intros X.
    assert (Y : forall k ys, length ys = k -> forall j, (forall i, i < k -> carries L (msg_cell (length xs) 0 (Some xs) (j + i)) (nth i ys fzero)) ->
      Forall2 (carries L) (map (msg_cell (length xs) 0 (Some xs)) (seq j k)) ys).
    { induction k as [|k IH]; intros [|y ys] Hy j HX; try discriminate; cbn [seq map]; constructor.
      - specialize (HX 0 ltac:(lia)). now rewrite Nat.add_0_r in HX.
      - apply IH; [now injection Hy|]. intros i Hi. specialize (HX (S i) ltac:(lia)). now rewrite Nat.add_succ_r in HX. }
    now apply Y.
  Qed.
  Lemma msg_made : forall N m, N <= T -> circuit (after_msg N m) [].
  Proof.
    intros N m H. change (@nil ((column * nat) * (column * nat))) with (@nil ((column * nat) * (column * nat)) ++ []).
    eapply made_region; [apply (made_start _ _ cs1)| |exact (msg_run N m H)|].
    - intros ri evs x q o E X. rewrite load_ok in E by assumption. injection E as <- _. exfalso. apply in_flat_map in X.
      destruct X as (i & _ & [X|[]]). discriminate X.
    - cbn [after_msg commit reserve lo_copy layout_empty app]. apply copy_msg.
  Qed.

  Lemma state_col : forall i, i < T -> In (Adv i) (p5_columns cfg).
  Proof.
    intros i Hi. unfold p5_columns. apply in_app_iff. left. apply in_map. right. rewrite cfg_state. apply in_seq. lia.
  Qed.
  Lemma state_enabled : forall i, i < T -> In (Adv i) (cs_eq cs1).
  Proof.
    intros i Hi. apply (configured_eq _ _ _ _ _ _ _ _ _ _ Hcfg). apply in_app_iff. left. apply in_map. apply in_seq. lia.
  Qed.

  Lemma empty_fits : forall u, fits u (layout_empty cs1).
  Proof. intros u. repeat split; cbn; easy. Qed.
  Lemma msg_cost : forall N m, 0 < N -> N <= T ->
    step (p5_columns cfg) (p5_columns cfg) (fun c => c = Adv 0) (cs_eq cs1) 1 1 0 (layout_empty cs1) (after_msg N m).
  Proof.
    intros N m H0 H. eapply region_step with (h0 := 1) (c1 := Adv 0); [exact (load_ok N m 0 H)|exact (msg_run N m H)| | | |reflexivity|..].
    - apply incl_refl.
    - intros c o X. apply touched_msg in X. destruct X as (-> & i & Hi & ->). split; [apply state_col; lia|lia].
    - apply touched_msg. split; [reflexivity|]. now exists 0.
    - intros c ->. exists 0. apply touched_msg. split; [reflexivity|]. now exists 0.
    - now rewrite const_msg.
    - intros X. now elim X.
    - lia.
    - intros. lia.
    - intros a b X. apply in_flat_map in X. destruct X as (i & _ & [X|[]]). discriminate X.
    - intros a v X. apply in_flat_map in X. destruct X as (i & _ & [X|[]]). discriminate X.
    - intros k _ X. now elim X.
  Qed.

  Definition out_events (ri : nat) (out : acell F) (y : option F) : list (event F) :=
    [AssignAdvice 0 0 y; ConstrainEqual (ac_cell out) {| ce_region := ri; ce_off := 0; ce_col := Adv 0 |}].
  Lemma out_ok : forall ri out y, constrain_output cfg out y ri = Ok (out_events ri out y, tt).
  Proof. intros ri out y. unfold constrain_output, rbind, rlift. rewrite state_index by lia. reflexivity. Qed.
  Lemma out_run : forall (L : layout F) out y, exists L', assign_region (constrain_output cfg out y) L = Ok (L', tt)
    /\ lo_starts L' = lo_starts L ++ [lo_next L (Adv 0)]
    /\ lo_copy L' = lo_copy L ++ [(abs_cell (lo_starts L') (ac_cell out), (Adv 0, lo_next L (Adv 0)))]
    /\ last_write (lo_adv L') 0 (lo_next L (Adv 0)) = Some y.
  Proof.
    intros L out y. eexists. split; [apply assign_region_ok; [apply out_ok|reflexivity]|].
    cbn [commit reserve lo_starts lo_copy lo_adv]. unfold region_start. cbn [touched out_events flat_map app fold_right].
    rewrite Nat.max_0_r. rewrite app_nth2, Nat.sub_diag by lia. cbn [nth].
    split; [reflexivity|]. split.
    - f_equal. unfold abs_copy. unfold out_events. cbn [flat_map app]. f_equal. f_equal. unfold abs_cell at 1.
      cbn [ce_col ce_off ce_region Nat.add]. now rewrite app_nth2, Nat.sub_diag by lia.
    - rewrite last_write_app. unfold abs_adv, out_events. cbn [flat_map app last_write Nat.add]. now rewrite !Nat.eqb_refl.
  Qed.
  Lemma out_cost : forall L L' out y, copyable cs1 out -> assign_region (constrain_output cfg out y) L = Ok (L', tt) ->
    step (p5_columns cfg) (p5_columns cfg) (fun _ => False) (cs_eq cs1) 1 1 0 L L'.
  Proof.
    intros L L' out y HC H. eapply region_step with (h0 := 1) (c1 := Adv 0); [apply out_ok|exact H| | | |reflexivity|..].
    - apply incl_refl.
    - intros c o [X|[]]. injection X as <- <-. split; [apply state_col; lia|lia].
    - now left.
    - intros c [].
    - reflexivity.
    - intros X. now elim X.
    - lia.
    - intros. lia.
    - intros a b [X|[X|[]]]; [discriminate X|]. injection X as <- <-. split; [exact HC|]. apply state_enabled. lia.
    - intros a v [X|[X|[]]]; discriminate X.
    - intros k _ X. now elim X.
  Qed.

  (** a run of the circuit with a known message *)
  Lemma known_run : forall N xs y, 0 < N -> N <= T -> length xs = N -> exists L1 L2 L3 h out,
    circuit_hash_init (T - 1) cfg N (after_msg N (Some xs)) = Ok (L1, h)
    /\ circuit_hash T (T - 1) s cfg N h (map (msg_cell N 0 (Some xs)) (seq 0 N)) L1 = Ok (L2, out)
    /\ assign_region (constrain_output cfg out (Some y)) L2 = Ok (L3, tt)
    /\ preimage_synthesize T s cfg N (Some xs) (Some y) (layout_empty cs1) = Ok (L3, tt)
    /\ grows (layout_empty cs1) L3
    /\ (forall u, preimage_rows T s N <= u -> fits u L3) /\ copies_enabled cs1 L3
    /\ (forall u, fits u L3 -> 3 + (N + (T - 1) - 1) / (T - 1) * block_rows s <= u)
    /\ lo_starts L3 = lo_starts L2 ++ [lo_next L2 (Adv 0)]
    /\ last (lo_starts L3) 0 = lo_next L2 (Adv 0)
    /\ last_write (lo_adv L3) 0 (lo_next L2 (Adv 0)) = Some (Some y)
    /\ (forall adv n, fits n L3 -> gates_hold n L3 adv (cs_gates cs1) -> copies_hold L3 adv -> fixed_hash T s (message_of N adv) = output_of L3 adv)
    /\ (forall u n blind, fits u L3 -> u <= n -> y = fixed_hash T s xs -> satisfied n u cs1 L3 (honest u L3 blind))
    /\ (forall u blind, fits u L3 -> message_of N (honest u L3 blind) = xs /\ output_of L3 (honest u L3 blind) = y).
  Proof.
    intros N xs y H0 HN Hl. set (La := after_msg N (Some xs)). set (msg := map (msg_cell N 0 (Some xs)) (seq 0 N)).
    assert (Lm : length msg = N) by (unfold msg; now rewrite map_length, seq_length).
    pose proof columns as HC. pose proof Hcfg as Hc. unfold preimage_configure in Hc.
    destruct (cfg_cols T s _ _ _ _ _ _ cfg HC Hc) as (A & B & C & D & E & K).
    assert (Ga : grows (layout_empty cs1) La) by (exact (grows_one _ _ _ _ (msg_run N (Some xs) HN))).
    assert (Ma : circuit La []) by now apply msg_made.
    assert (Ka : lo_const La = Some T) by apply msg_const.
    destruct (circuit_hash_complete_claim T s _ _ _ _ _ _ cfg N La [] Hspec HT Inv1 Inv2 HC Hc Ma ltac:(congruence)) as (L1 & h & E1 & M1 & G1 & KK).
    assert (Ca : Forall2 (carries La) msg xs) by now apply msg_carries.
    assert (C1 : Forall2 (carries L1) msg xs) by exact (carries_later T s _ _ _ _ _ _ cfg Hspec HT Inv1 Inv2 HC Hc La [] L1 _ _ Ma G1 Ca).
    destruct (KK L1 [] msg xs (grows_refl _) M1 Lm C1) as [_ KN]. destruct (KN ltac:(lia)) as (L2 & out & E2 & M2 & G2 & C2 & _). clear KK KN.
    destruct (out_run L2 out (Some y)) as (L3 & E3 & S3 & P3 & W3).
    assert (G3 : grows L2 L3) by exact (grows_one _ _ _ _ E3).
    assert (GL : grows (layout_empty cs1) L3) by exact (grows_app _ _ _ Ga (grows_app _ _ _ G1 (grows_app _ _ _ G2 G3))).
    (* cost *)
    assert (HE : forall i, i < T -> In (Adv (col (p5_state cfg) i)) (cs_eq cs1))
      by exact (state_eq T s _ _ _ _ _ _ cfg cs1 Hspec HT Inv1 Inv2 HC Hc (incl_refl _)).
    assert (HB : forall i, i < T -> In (Fix (col (p5_rc_b cfg) i)) (cs_eq cs1))
      by exact (b_eq T s _ _ _ _ _ _ cfg cs1 Hspec HT Inv1 Inv2 HC Hc (incl_refl _)).
    assert (KF : In (Fix T) (cs_eq cs1)).
    { apply (configured_eq _ _ _ _ _ _ _ _ _ _ Hc). apply in_app_iff. right. apply in_map. apply in_seq. lia. }
    assert (KI : In (Fix T) (p5_columns cfg)).
    { unfold p5_columns. apply in_app_iff. right. apply in_app_iff. left. apply in_map. apply in_app_iff. right.
      destruct (pow5_configured _ _ _ _ _ _ _ _ _ _ Hc) as (_ & _ & _ & -> & _). apply in_seq. lia. }
    pose proof (msg_cost N (Some xs) H0 HN) as Sa. fold La in Sa.
    destruct (new_ok T (T - 1) s Hspec HT eq_refl cfg A B C D E K Inv1 Inv2 (p5_columns cfg) (cs_eq cs1) (incl_refl _) HE HB La L1 (initial_capacity_element (constant_length (T - 1) N)) h T) as (Ab & Sb);
      [|exact E1|].
    { split; [lia|]. split; intros k Q; rewrite Ka in Q; injection Q as <-; [lia|exact KF]. }
    destruct (hash_cost T (T - 1) s Hspec HT eq_refl cfg A B C D E K Inv1 Inv2 (p5_columns cfg) (cs_eq cs1) (incl_refl _) HE HB N L1 L2 h msg out H0 Lm Ab)
      as (Wo & Sc); [|exact E2|].
    { apply Forall_forall. intros w Hw. apply in_map_iff in Hw. destruct Hw as (i & <- & Hi). apply in_seq in Hi. cbn. apply state_enabled. lia. }
    pose proof (out_cost L2 L3 out (Some y) Wo E3) as Sd.
    assert (Z : top (p5_columns cfg) (layout_empty cs1) = 0).
    { apply Nat.le_0_r. apply top_lub. intros c _. cbn. lia. }
    pose proof (st_top _ _ _ _ _ _ _ _ _ Sa) as Ta. pose proof (st_top _ _ _ _ _ _ _ _ _ Sb) as Tb.
    pose proof (st_top _ _ _ _ _ _ _ _ _ Sc) as Tc.
    assert (FL : forall u, preimage_rows T s N <= u -> fits u L3).
    { intros u Hu. unfold preimage_rows in Hu. set (rows := (N + (T - 1) - 1) / (T - 1) * block_rows s) in *. clearbody rows.
      assert (Fa : fits u La) by (eapply step_fits; [exact Sa|apply empty_fits|lia|intros X; now elim X]).
      assert (Fb : fits u L1).
      { eapply step_fits; [exact Sb|exact Fa|lia|]. intros _ k Q. rewrite Ka in Q. injection Q as <-.
        pose proof (top_le (p5_columns cfg) L1 (Fix T) KI). lia. }
      assert (Fc : fits u L2) by (eapply step_fits; [exact Sc|exact Fb|lia|intros X; now elim X]).
      eapply step_fits; [exact Sd|exact Fc|lia|intros X; now elim X]. }
    assert (CE : copies_enabled cs1 L3).
    { eapply step_copies; [exact Sd|]. eapply step_copies; [exact Sc|]. eapply step_copies; [exact Sb|]. eapply step_copies; [exact Sa|].
      intros a b []. }
    assert (LR : last (lo_starts L3) 0 = lo_next L2 (Adv 0)) by (rewrite S3; apply last_last).
    assert (LW : forall u, fits u L3 -> 3 + (N + (T - 1) - 1) / (T - 1) * block_rows s <= u).
    { intros u Fu. apply last_write_in in W3. pose proof (proj1 Fu _ _ _ W3) as X.
      assert (IS : is_state T cfg (Adv 0)).
      { exists 0. split; [lia|]. rewrite cfg_state. unfold col. now rewrite seq_nth by lia. }
      pose proof (st_low _ _ _ _ _ _ _ _ _ Sa (Adv 0) eq_refl) as Y1. pose proof (st_low _ _ _ _ _ _ _ _ _ Sb (Adv 0) IS) as Y2.
      pose proof (st_low _ _ _ _ _ _ _ _ _ Sc (Adv 0) IS) as Y3. cbv zeta in Y3. cbn [layout_empty lo_next] in Y1.
      set (rows := (N + (T - 1) - 1) / (T - 1) * block_rows s) in *. clearbody rows. lia. }
    (* where the message is *)
    assert (Sm : exists l, lo_starts L3 = 0 :: l).
    { destruct (grows_starts La L3 (grows_app _ _ _ G1 (grows_app _ _ _ G2 G3))) as [new En]. exists new. rewrite En. unfold La. now rewrite msg_starts. }
    assert (WM : forall adv, map (word_at L3 adv) msg = message_of N adv).
    { intros adv. unfold msg, message_of. rewrite map_map. apply map_ext. intros i. unfold word_at.
      cbn [msg_cell ac_cell abs_cell ce_col ce_off ce_region]. destruct Sm as [l ->]. reflexivity. }
    assert (HF : forall u blind, fits u L3 -> message_of N (honest u L3 blind) = xs /\ output_of L3 (honest u L3 blind) = y).
    { intros u blind Fu. split.
      - rewrite <- WM.
        assert (CL : Forall2 (carries L3) msg xs)
          by exact (carries_later T s _ _ _ _ _ _ cfg Hspec HT Inv1 Inv2 HC Hc La [] L3 _ _ Ma (grows_app _ _ _ G1 (grows_app _ _ _ G2 G3)) Ca).
        clear - CL Fu. induction CL as [|w v l z X1 X IH]; [reflexivity|]. cbn [map]. rewrite IH. f_equal. now apply carries_word.
      - unfold output_of, honest. rewrite LR, W3. replace (_ <? u) with true; [reflexivity|]. symmetry. apply Nat.ltb_lt.
        apply last_write_in in W3. exact (proj1 Fu _ _ _ W3). }
    assert (OUT : forall adv, copies_hold L3 adv -> word_at L3 adv out = output_of L3 adv).
    { intros adv HP. specialize (HP (abs_cell (lo_starts L3) (ac_cell out)) (Adv 0, lo_next L2 (Adv 0))).
      unfold word_at, output_of. rewrite HP; [now rewrite LR|]. rewrite P3. apply in_app_iff. right. now left. }
    exists L1, L2, L3, h, out. split; [exact E1|]. split; [exact E2|]. split; [exact E3|]. split.
    { unfold preimage_synthesize. rewrite (lbind_ok _ _ _ _ _ (msg_run N (Some xs) HN)). fold La msg. rewrite (lbind_ok _ _ _ _ _ E1).
      now rewrite (lbind_ok _ _ _ _ _ E2). }
    split; [exact GL|]. split; [exact FL|]. split; [exact CE|]. split; [exact LW|]. split; [exact S3|]. split; [exact LR|]. split; [exact W3|]. split; [|split].
    - intros adv n Fn HG HP.
      destruct (circuit_hash_sound_claim T s _ _ _ _ _ _ cfg cs1 N La L1 L1 L2 L3 h msg out n adv Hspec HT Inv1 Inv2 HC Hc Ga E1 (grows_refl _)) as [_ X];
        try assumption.
      { clear - C1. induction C1 as [|w v l z H]; constructor; [apply H|assumption]. }
      rewrite WM in X. rewrite <- (OUT adv HP), X. unfold fixed_hash, message_of. now rewrite map_length, seq_length.
    - intros u n blind Fu Hu Ey.
      assert (M3 : circuit L3 ([] ++ [(abs_cell (lo_starts L3) (ac_cell out), (Adv 0, lo_next L2 (Adv 0)))])).
      { eapply made_region; [exact M2| |exact E3|exact P3]. intros ri evs x q o Q X. rewrite out_ok in Q. injection Q as <- _.
        destruct X as [X|[X|[]]]; discriminate X. }
      destruct (made_honest T s _ _ _ _ _ _ cfg Hspec HT Inv1 Inv2 HC Hc L3 _ u n blind M3 Fu Hu) as [X1 X2].
      split; [apply X1; intros g r []|]. split.
      { destruct (pow5_configured _ _ _ _ _ _ _ _ _ _ Hc) as (_ & _ & _ & _ & _ & _ & _ & Q). rewrite Q. intros e t r []. }
      apply X2. intros a b [X|[]]. injection X as <- <-.
      assert (CL : Forall2 (carries L3) [out] [fixed_hash T s xs]).
      { apply (carries_later T s _ _ _ _ _ _ cfg Hspec HT Inv1 Inv2 HC Hc L2 [] L3 _ _ M2 G3). constructor; [|constructor].
        unfold fixed_hash. rewrite Hl. exact C2. }
      pose proof (Forall2_inv_head _ _ _ _ _ CL) as CO. rewrite <- Ey in CO.
      change (cell_at L3 (honest u L3 blind) (abs_cell (lo_starts L3) (ac_cell out))) with (word_at L3 (honest u L3 blind) out).
      rewrite (carries_word L3 out y u blind Fu CO). destruct (HF u blind Fu) as [_ HO]. unfold output_of in HO. rewrite LR in HO. now symmetry.
    - exact HF.
  Qed.

  (** keys do not depend on the values *)
  Lemma sim_load_message : forall N m m', sim_region (Forall2 same_cell) (load_message cfg N m) (load_message cfg N m').
  Proof.
    intros N m m'. unfold load_message. apply sim_map with (R := eq); [apply Forall2_eq|]. intros i j <-.
    eapply sim_bind; [apply sim_lift|]. intros c c' <-. apply sim_advice.
  Qed.
  Lemma sim_output : forall (out out' : acell F) y y', same_cell out out' -> sim_region eq (constrain_output cfg out y) (constrain_output cfg out' y').
  Proof.
    intros out out' y y' H. unfold constrain_output. eapply sim_bind; [apply sim_lift|]. intros c c' <-.
    eapply sim_bind; [apply sim_advice|]. intros e e' He ri. split; [|reflexivity]. constructor; [|constructor]. cbn. unfold same_cell in *. congruence.
  Qed.
  Lemma sim_synthesize : forall N m m' y y', sim eq (preimage_synthesize T s cfg N m y) (preimage_synthesize T s cfg N m' y').
  Proof.
    intros N m m' y y'. unfold preimage_synthesize. eapply sim_lbind; [apply sim_assign, sim_load_message|]. intros ws ws' HW.
    eapply sim_lbind; [apply sim_new|]. intros h h' Hh. eapply sim_lbind; [|intros a b Hab; apply sim_assign, sim_output, Hab].
    unfold circuit_hash. eapply sim_lbind; [apply sim_llift|]. intros pad pad' <-.
    eapply sim_lbind; [apply sim_absorbs; [|exact Hh]|].
    { apply Forall2_app; [|clear; induction pad; constructor; [reflexivity|assumption]].
      clear - HW. induction HW; cbn [map]; constructor; auto. }
    intros b b' Hb. eapply sim_lbind; [apply sim_finish, Hb|]. intros c c' Hc.
    eapply sim_lbind; [apply sim_squeeze, Hc|]. intros [x sq] [x' sq'] [H1 _]. now apply sim_lret.
  Qed.
  Lemma key_refl : forall L : layout F, same_key L L.
  Proof. intros L. repeat split. Qed.

  Lemma preimage_exact : forall N n u, 0 < N -> N <= T -> preimage_rows T s N <= u -> u <= n ->
    exists K, preimage_synthesize T s cfg N None None (layout_empty cs1) = Ok (K, tt) /\ fits u K /\ copies_enabled cs1 K
      /\ (forall adv, satisfied n u cs1 K adv -> fixed_hash T s (message_of N adv) = output_of K adv)
      /\ (forall xs y, length xs = N -> exists L, preimage_synthesize T s cfg N (Some xs) (Some y) (layout_empty cs1) = Ok (L, tt) /\ fits u L
           /\ forall blind, let adv := honest u L blind in
              message_of N adv = xs /\ output_of K adv = y /\ (satisfied n u cs1 K adv <-> y = fixed_hash T s xs)).
  Proof.
    intros N n u H0 HN Hu Hn.
    assert (KEY : forall xs y, length xs = N -> exists K L, preimage_synthesize T s cfg N None None (layout_empty cs1) = Ok (K, tt)
      /\ preimage_synthesize T s cfg N (Some xs) (Some y) (layout_empty cs1) = Ok (L, tt) /\ same_key K L).
    { intros xs y Hl. destruct (known_run N xs y H0 HN Hl) as (L1 & L2 & L & h & out & _ & _ & _ & ES & _).
      pose proof (sim_synthesize N None (Some xs) None (Some y) _ _ (key_refl (layout_empty cs1))) as X. rewrite ES in X.
      destruct (preimage_synthesize T s cfg N None None (layout_empty cs1)) as [[K []]|]; [|contradiction]. destruct X as [X _].
      exists K, L. auto. }
    destruct (KEY (repeat fzero N) fzero (repeat_length _ _)) as (K & L & EK & EL & SK). exists K.
    destruct (known_run N (repeat fzero N) fzero H0 HN (repeat_length _ _)) as (L1 & L2 & L' & h & out & _ & _ & _ & ES & _ & FL & CE & LW & _ & _ & _ & SND & _).
    rewrite EL in ES. injection ES as <-.
    assert (FK : fits u K) by exact (key_fits L K (same_key_sym _ _ SK) u (FL u Hu)).
    split; [exact EK|]. split; [exact FK|]. split.
    { intros a b X. destruct SK as (_ & _ & _ & _ & _ & Q & _). rewrite Q in X. exact (CE a b X). }
    assert (SO : forall adv, satisfied n u cs1 K adv -> fixed_hash T s (message_of N adv) = output_of K adv).
    { intros adv SA. pose proof (key_satisfied K L SK n u cs1 adv SA) as (SG & _ & SC).
      rewrite (SND adv n); [|apply FL; lia|exact SG|exact SC]. unfold output_of. destruct SK as (Q & _). now rewrite Q. }
    split; [exact SO|]. clear SND FL CE. intros xs y Hl.
    destruct (KEY xs y Hl) as (K' & L'' & EK' & EL' & SK'). rewrite EK in EK'. injection EK' as <-. exists L''. split; [exact EL'|].
    destruct (known_run N xs y H0 HN Hl) as (L1' & L2' & M & h' & out' & _ & _ & _ & EM & _ & FM & _ & _ & _ & _ & _ & _ & HS & HH).
    rewrite EL' in EM. injection EM as <-. split; [now apply FM|]. intros blind adv. destruct (HH u blind (FM u Hu)) as [X Y]. fold adv in X, Y.
    assert (OK : output_of K adv = y) by (rewrite <- Y; unfold output_of; destruct SK' as (Q & _); now rewrite Q).
    split; [exact X|]. split; [exact OK|]. split.
    - intros SA. rewrite <- OK, <- X. symmetry. now apply SO.
    - intros Ey. apply (key_satisfied L'' K (same_key_sym _ _ SK')). now apply HS; [apply FM| |].
  Qed.

  Lemma preimage_least : forall N K u, 0 < N -> N <= T -> preimage_synthesize T s cfg N None None (layout_empty cs1) = Ok (K, tt) -> fits u K ->
    3 + (N + (T - 1) - 1) / (T - 1) * block_rows s <= u.
  Proof.
    intros N K u H0 HN EK FK.
    destruct (known_run N (repeat fzero N) fzero H0 HN (repeat_length _ _)) as (L1 & L2 & L & h & out & _ & _ & _ & ES & _ & _ & _ & LW & _).
    pose proof (sim_synthesize N None (Some (repeat fzero N)) None (Some fzero) _ _ (key_refl (layout_empty cs1))) as X. rewrite ES, EK in X.
    destruct X as [X _]. apply LW. exact (key_fits K L X u FK).
  Qed.

  Lemma preimage_panics : forall N m y, (match m with Some xs => length xs = N | None => True end) ->
    (preimage_synthesize T s cfg N m y (layout_empty cs1) = Panic <-> N = 0 \/ T < N).
  Proof.
    intros N m y Hm.
    assert (E : (preimage_synthesize T s cfg N m y (layout_empty cs1) = Panic
      <-> preimage_synthesize T s cfg N (Some (repeat fzero N)) (Some fzero) (layout_empty cs1) = Panic)).
    { pose proof (sim_synthesize N m (Some (repeat fzero N)) y (Some fzero) _ _ (key_refl (layout_empty cs1))) as X. unfold same_outcome in X.
      destruct (preimage_synthesize T s cfg N m y (layout_empty cs1)) as [[A a]|], (preimage_synthesize T s cfg N (Some _) _ _) as [[B b]|];
        try contradiction; split; congruence. }
    rewrite E. clear E. split.
    - intros P. destruct (Nat.eq_dec N 0) as [Z|Z]; [now left|]. right. destruct (le_lt_dec N T) as [Q|Q]; [|exact Q].
      destruct (known_run N (repeat fzero N) fzero ltac:(lia) Q (repeat_length _ _)) as (L1 & L2 & L & h & out & _ & _ & _ & ES & _).
      rewrite ES in P. discriminate P.
    - unfold preimage_synthesize. intros [->|Q].
      + rewrite (lbind_ok _ _ _ _ _ (msg_run 0 (Some (repeat fzero 0)) ltac:(lia))).
        pose proof columns as HC. pose proof Hcfg as Hc. unfold preimage_configure in Hc.
        set (La := after_msg 0 (Some (repeat fzero 0))).
        assert (Ma : circuit La []) by (apply msg_made; lia).
        assert (Ka : lo_const La = Some T) by apply msg_const.
        destruct (circuit_hash_complete_claim T s _ _ _ _ _ _ cfg 0 La [] Hspec HT Inv1 Inv2 HC Hc Ma ltac:(congruence)) as (L1 & h & E1 & M1 & G1 & KK).
        rewrite (lbind_ok _ _ _ _ _ E1). destruct (KK L1 [] [] [] (grows_refl _) M1 eq_refl (Forall2_nil _)) as [KZ _].
        cbn [seq map]. unfold lbind. now rewrite (KZ eq_refl).
      + unfold lbind at 1. unfold assign_region at 1. now rewrite load_panic.
  Qed.
End Claims.
