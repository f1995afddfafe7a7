(** The lemmas behind PropertiesPermute.v. *)
From Coq Require Import ZArith Znumtheory List Arith Lia Bool.
From Verif Require Import Field Rust ListAux Primitives Specs BaseHash SpecHash Perm_proof BigSum Link Base_claims Bij_proof Bij_claims Halo2 Pow5 ChipUse Built
  Pow5Use Gadget GadgetUse CostUse KeyUse Layout_proof Contract Sept_claims Pow5Block_proof Trace_proof Pow5Use_proof Pow5_claims
  Gadget_proof Gadget_claims Cost_proof Cost_claims Key_claims ProgramUse Program_claims PreimageUse Preimage_claims PermuteUse.
Import ListNotations.
Local Open Scope nat_scope.

Section Claims.
  Context {F : Type} {FO : FieldOps F} {PF : PrimeField F}.
  Variables (T : nat) (s : spec F) (cfg : pow5) (cs1 : cs F).
  Hypothesis Hspec : poseidon_spec T s.
  Hypothesis HT : 1 < T.
  Hypothesis Inv1 : mat_prod_id T (mds s) (mds_inv s).
  Hypothesis Inv2 : mat_prod_id T (mds_inv s) (mds s).
  Hypothesis Hcfg : permute_configure T s = (cfg, cs1).
  Notation circuit := (made (p5_selectors cfg) (p5_instruction T (T - 1) s cfg)).

  Lemma pc_state : p5_state cfg = seq 0 T.
  Proof. now destruct (pow5_configured _ _ _ _ _ _ _ _ _ _ Hcfg) as (E & _). Qed.
  Lemma pc_index : forall i, i < T -> index (p5_state cfg) i = Ok i.
  Proof.
    intros i Hi. rewrite pc_state. unfold index. rewrite (nth_error_nth' _ 0) by now rewrite seq_length. now rewrite seq_nth.
  Qed.
  Lemma pc_load : forall m ri, load_message cfg T m ri = Ok (msg_events T m, map (msg_cell T ri m) (seq 0 T)).
  Proof.
    intros m ri. unfold load_message. apply rmap_ok. intros i Hi. apply in_seq in Hi.
    change [AssignAdvice i 0 (option_map (fun m => nth i m fzero) m)] with ([] ++ [AssignAdvice i 0 (option_map (fun m => nth i m fzero) m)]).
    apply (rbind_ok _ _ ri [] i). { unfold rlift. now rewrite pc_index by lia. } reflexivity.
  Qed.
  Lemma pc_run : forall m, assign_region (load_message cfg T m) (layout_empty cs1) = Ok (after_msg cs1 T m, map (msg_cell T 0 m) (seq 0 T)).
  Proof. intros m. exact (assign_region_ok _ (layout_empty cs1) _ _ (pc_load m 0) (const_msg T m)). Qed.
  Lemma pc_made : forall m, circuit (after_msg cs1 T m) [].
  Proof.
    intros m. change (@nil ((column * nat) * (column * nat))) with (@nil ((column * nat) * (column * nat)) ++ []).
    eapply made_region; [apply (made_start _ _ cs1)| |exact (pc_run m)|].
    - intros ri evs x q o E X. rewrite pc_load in E. injection E as <- _. exfalso. apply in_flat_map in X.
      destruct X as (i & _ & [X|[]]). discriminate X.
    - cbn [after_msg commit reserve lo_copy layout_empty app]. apply copy_msg.
  Qed.
  Lemma pc_col : forall i, i < T -> In (Adv i) (p5_columns cfg).
  Proof.
    intros i Hi. unfold p5_columns. apply in_app_iff. left. apply in_map. right. rewrite pc_state. apply in_seq. lia.
  Qed.
  Lemma pc_enabled : forall i, i < T -> In (Adv i) (cs_eq cs1).
  Proof.
    intros i Hi. apply (configured_eq _ _ _ _ _ _ _ _ _ _ Hcfg). apply in_app_iff. left. apply in_map. apply in_seq. lia.
  Qed.
  Lemma pc_msg_cost : forall m,
    step (p5_columns cfg) (p5_columns cfg) (fun c => c = Adv 0) (cs_eq cs1) 1 1 0 (layout_empty cs1) (after_msg cs1 T m).
  Proof.
    intros m. eapply region_step with (h0 := 1) (c1 := Adv 0); [exact (pc_load m 0)|exact (pc_run m)| | | |reflexivity|..].
    - apply incl_refl.
    - intros c o X. apply (touched_msg T HT) in X. destruct X as (-> & i & Hi & ->). split; [apply pc_col; lia|lia].
    - apply (touched_msg T HT). split; [reflexivity|]. exists 0. split; [lia|reflexivity].
    - intros c ->. exists 0. apply (touched_msg T HT). split; [reflexivity|]. exists 0. split; [lia|reflexivity].
    - now rewrite const_msg.
    - intros X. now elim X.
    - lia.
    - intros. lia.
    - intros a b X. apply in_flat_map in X. destruct X as (i & _ & [X|[]]). discriminate X.
    - intros a v X. apply in_flat_map in X. destruct X as (i & _ & [X|[]]). discriminate X.
    - intros k _ X. now elim X.
  Qed.

  Definition fin_events (ri : nat) (out : list (acell F)) (y : option (list F)) : list (event F) :=
    flat_map (fun i => [AssignAdvice i 0 (option_map (fun m => nth i m fzero) y);
      ConstrainEqual (ac_cell (nth i out zero_cell)) {| ce_region := ri; ce_off := 0; ce_col := Adv i |}]) (seq 0 T).
  Lemma fin_ok : forall ri out y, length out = T -> constrain_final T cfg out y ri = Ok (fin_events ri out y, tt).
  Proof.
    intros ri out y Hl. unfold constrain_final, rbind at 1. unfold fin_events.
    rewrite (rmap_ok _ (fun _ => tt) (fun i => [AssignAdvice i 0 (option_map (fun m => nth i m fzero) y);
      ConstrainEqual (ac_cell (nth i out zero_cell)) {| ce_region := ri; ce_off := 0; ce_col := Adv i |}])).
    - cbn [bind rret]. now rewrite app_nil_r.
    - intros i Hi. apply in_seq in Hi. unfold rbind, rlift. rewrite pc_index by lia. cbn [bind assign_advice].
      unfold index. rewrite (nth_error_nth' _ zero_cell) by lia. reflexivity.
  Qed.
  Lemma touched_fin : forall ri out y c o, In (c, o) (touched (fin_events ri out y)) <-> o = 0 /\ exists i, i < T /\ c = Adv i.
  Proof.
    intros ri out y c o. unfold touched, fin_events. rewrite in_flat_map. split.
    - intros (e & He & X). apply in_flat_map in He. destruct He as (i & Hi & [<-|[<-|[]]]); apply in_seq in Hi; [destruct X as [X|[]]|destruct X].
      injection X as <- <-. split; [reflexivity|]. exists i. split; [lia|reflexivity].
    - intros (-> & i & Hi & ->). eexists. split; [apply in_flat_map; exists i; split; [apply in_seq; lia|now left]|]. now left.
  Qed.
  Lemma const_fin : forall ri out y, const_events (fin_events ri out y) = [].
  Proof. intros ri out y. unfold fin_events. induction (seq 0 T) as [|i l IH]; [reflexivity|exact IH]. Qed.
  Lemma fin_run : forall (L : layout F) out y, length out = T -> exists L' r, assign_region (constrain_final T cfg out y) L = Ok (L', tt)
    /\ lo_starts L' = lo_starts L ++ [r] /\ lo_next L (Adv 0) <= r
    /\ lo_copy L' = lo_copy L ++ map (fun i => (abs_cell (lo_starts L') (ac_cell (nth i out zero_cell)), (Adv i, r))) (seq 0 T)
    /\ lo_adv L' = lo_adv L ++ map (fun i => (i, r, option_map (fun m => nth i m fzero) y)) (seq 0 T).
  Proof.
    intros L out y Hl. eexists. exists (region_start (lo_next L) (fin_events (length (lo_starts L)) out y)).
    split; [apply assign_region_ok; [now apply fin_ok|apply const_fin]|].
    cbn [commit reserve lo_starts lo_copy lo_adv].
    assert (X : lo_next L (Adv 0) <= region_start (lo_next L) (fin_events (length (lo_starts L)) out y)).
    { apply (start_above _ _ _ 0). apply touched_fin. split; [reflexivity|]. exists 0. split; [lia|reflexivity]. }
    revert X. generalize (region_start (lo_next L) (fin_events (length (lo_starts L)) out y)). intros r X.
    rewrite app_nth2, Nat.sub_diag by lia. cbn [nth].
    split; [reflexivity|]. split; [exact X|]. split.
    - f_equal. unfold abs_copy, fin_events. generalize (seq 0 T). induction l as [|i l IH]; [reflexivity|]. cbn [flat_map app map].
      rewrite IH. f_equal. f_equal. unfold abs_cell. cbn [ce_col ce_off ce_region Nat.add]. now rewrite app_nth2, Nat.sub_diag by lia.
    - f_equal. unfold abs_adv, fin_events. generalize (seq 0 T). induction l as [|i l IH]; [reflexivity|].
      cbn [flat_map app map]. rewrite IH. reflexivity.
  Qed.
  Lemma fin_cost : forall L L' out y, length out = T -> Forall (copyable cs1) out -> assign_region (constrain_final T cfg out y) L = Ok (L', tt) ->
    step (p5_columns cfg) (p5_columns cfg) (fun _ => False) (cs_eq cs1) 1 1 0 L L'.
  Proof.
    intros L L' out y Hl HC Q. eapply region_step with (h0 := 1) (c1 := Adv 0); [exact (fin_ok _ out y Hl)|exact Q| | | |reflexivity|..].
    - apply incl_refl.
    - intros c o X. apply touched_fin in X. destruct X as (-> & i & Hi & ->). split; [apply pc_col; lia|lia].
    - apply touched_fin. split; [reflexivity|]. exists 0. split; [lia|reflexivity].
    - intros c [].
    - now rewrite const_fin.
    - intros X. now elim X.
    - lia.
    - intros. lia.
    - intros a b X. apply in_flat_map in X. destruct X as (i & Hi & [X|[X|[]]]); [discriminate X|]. apply in_seq in Hi. injection X as <- <-.
      split; [|apply pc_enabled; lia]. rewrite Forall_forall in HC. apply (HC (nth i out zero_cell)). apply nth_In. lia.
    - intros a v X. apply in_flat_map in X. destruct X as (i & _ & [X|[X|[]]]); discriminate X.
    - intros k _ X. now elim X.
  Qed.

  (** a run of the circuit with known states *)
  Lemma permute_run : forall xs y, length xs = T -> length y = T -> exists L3,
    permute_synthesize T s cfg (Some xs) (Some y) (layout_empty cs1) = Ok (L3, tt)
    /\ (forall u, permute_rows s + 2 <= u <-> fits u L3) /\ copies_enabled cs1 L3
    /\ (forall adv n, fits n L3 -> gates_hold n L3 adv (cs_gates cs1) -> copies_hold L3 adv -> textbook s (message_of T adv) = final_of T L3 adv)
    /\ (forall u n blind, fits u L3 -> u <= n -> y = textbook s xs -> satisfied n u cs1 L3 (honest u L3 blind))
    /\ (forall u blind, fits u L3 -> message_of T (honest u L3 blind) = xs /\ final_of T L3 (honest u L3 blind) = y).
  Proof.
    intros xs y Hl Hy. set (La := after_msg cs1 T (Some xs)). set (msg := map (msg_cell T 0 (Some xs)) (seq 0 T)).
    assert (Lm : length msg = T) by (unfold msg; now rewrite map_length, seq_length).
    pose proof (columns T HT) as HC. pose proof Hcfg as Hc. unfold permute_configure in Hc.
    destruct (cfg_cols T s _ _ _ _ _ _ cfg HC Hc) as (A & B & C & D & E & K).
    assert (Ga : grows (layout_empty cs1) La) by (exact (grows_one _ _ _ _ (pc_run (Some xs)))).
    assert (Ma : circuit La []) by apply pc_made.
    assert (Ca : Forall2 (carries La) msg xs) by exact (msg_carries T cs1 HT T xs Hl).
    destruct (permute_total T s _ _ _ _ _ _ cfg Hspec HT HC Hc La msg Lm) as (L2 & out & E2).
    assert (G2 : grows La L2) by exact (grows_one _ _ _ _ E2).
    assert (M2 : circuit L2 []) by (exact (made_op _ _ La L2 [] Ma (do_permute T (T - 1) s cfg La L2 msg xs out Lm Ca E2))).
    pose proof (permute_carries_at T s _ _ _ _ _ _ cfg Hspec HT Inv1 Inv2 HC Hc La [] L2 msg xs out Ma Lm Ca E2) as C2.
    (* cost *)
    assert (HE : forall i, i < T -> In (Adv (col (p5_state cfg) i)) (cs_eq cs1))
      by exact (state_eq T s _ _ _ _ _ _ cfg cs1 Hspec HT Inv1 Inv2 HC Hc (incl_refl _)).
    assert (HB : forall i, i < T -> In (Fix (col (p5_rc_b cfg) i)) (cs_eq cs1))
      by exact (b_eq T s _ _ _ _ _ _ cfg cs1 Hspec HT Inv1 Inv2 HC Hc (incl_refl _)).
    pose proof (pc_msg_cost (Some xs)) as Sa. fold La in Sa.
    destruct (permute_cost T (T - 1) s Hspec HT eq_refl cfg A B C D E K Inv1 Inv2 (p5_columns cfg) (cs_eq cs1) (incl_refl _) HE HB La L2 msg out Lm)
      as (Sb & Wo & Lo); [|exact E2|].
    { apply Forall_forall. intros w Hw. apply in_map_iff in Hw. destruct Hw as (i & <- & Hi). apply in_seq in Hi. cbn. apply pc_enabled. lia. }
    rewrite <- (rows_permute T (T - 1) s Hspec HT eq_refl cfg A B C D E K Inv1 Inv2 (p5_columns cfg) (cs_eq cs1) (incl_refl _) HE HB) in Sb.
    destruct (fin_run L2 out (Some y) Lo) as (L3 & r & E3 & S3 & R3 & P3 & W3).
    assert (G3 : grows L2 L3) by exact (grows_one _ _ _ _ E3).
    pose proof (fin_cost L2 L3 out (Some y) Lo Wo E3) as Sd.
    assert (Z : top (p5_columns cfg) (layout_empty cs1) = 0).
    { apply Nat.le_0_r. apply top_lub. intros c _. cbn. lia. }
    pose proof (st_top _ _ _ _ _ _ _ _ _ Sa) as Ta. pose proof (st_top _ _ _ _ _ _ _ _ _ Sb) as Tb.
    assert (WR : forall i, i < T -> last_write (lo_adv L3) i r = Some (Some (nth i y fzero))).
    { intros i Hi. rewrite W3. rewrite last_write_app.
      replace (last_write (map _ (seq 0 T)) i r) with (Some (Some (nth i y fzero))); [reflexivity|]. symmetry. apply last_write_fun.
      - apply in_map_iff. exists i. split; [reflexivity|]. apply in_seq. lia.
      - intros w Q. apply in_map_iff in Q. destruct Q as (j & Q & _). now injection Q as -> <-. }
    assert (FL : forall u, permute_rows s + 2 <= u <-> fits u L3).
    { intros u. split.
      - intros Hu. assert (Fa : fits u La) by (eapply step_fits; [exact Sa|apply empty_fits|lia|intros X; now elim X]).
        assert (Fc : fits u L2) by (eapply step_fits; [exact Sb|exact Fa|lia|intros X; now elim X]).
        eapply step_fits; [exact Sd|exact Fc|lia|intros X; now elim X].
      - intros Fu. pose proof (WR 0 ltac:(lia)) as W. apply last_write_in in W. pose proof (proj1 Fu _ _ _ W) as X.
        assert (IS : is_state T cfg (Adv 0)).
        { exists 0. split; [lia|]. rewrite pc_state. unfold col. now rewrite seq_nth by lia. }
        pose proof (st_low _ _ _ _ _ _ _ _ _ Sa (Adv 0) eq_refl) as Y1. pose proof (st_low _ _ _ _ _ _ _ _ _ Sb (Adv 0) IS) as Y2.
        cbn [layout_empty lo_next] in Y1. lia. }
    assert (CE : copies_enabled cs1 L3).
    { eapply step_copies; [exact Sd|]. eapply step_copies; [exact Sb|]. eapply step_copies; [exact Sa|]. intros a b []. }
    assert (LR : last (lo_starts L3) 0 = r) by (rewrite S3; apply last_last).
    (* where the states are *)
    assert (Sm : exists l, lo_starts L3 = 0 :: l).
    { destruct (grows_starts La L3 (grows_app _ _ _ G2 G3)) as [new En]. exists new. rewrite En. unfold La. now rewrite msg_starts. }
    assert (WM : forall adv, map (word_at L3 adv) msg = message_of T adv).
    { intros adv. unfold msg, message_of. rewrite map_map. apply map_ext. intros i. unfold word_at.
      cbn [msg_cell ac_cell abs_cell ce_col ce_off ce_region]. destruct Sm as [l ->]. reflexivity. }
    assert (HF : forall u blind, fits u L3 -> message_of T (honest u L3 blind) = xs /\ final_of T L3 (honest u L3 blind) = y).
    { intros u blind Fu. split.
      - rewrite <- WM.
        assert (CL : Forall2 (carries L3) msg xs)
          by exact (carries_later T s _ _ _ _ _ _ cfg Hspec HT Inv1 Inv2 HC Hc La [] L3 _ _ Ma (grows_app _ _ _ G2 G3) Ca).
        clear - CL Fu. induction CL as [|w v l z X1 X IH]; [reflexivity|]. cbn [map]. rewrite IH. f_equal. now apply carries_word.
      - unfold final_of. rewrite LR. transitivity (map (fun i => nth i y fzero) (seq 0 T)); [|rewrite <- Hy; apply map_seq_nth]. apply map_ext_in. intros i Hi. apply in_seq in Hi.
        unfold honest. rewrite WR by lia. replace (r <? u) with true; [reflexivity|]. symmetry. apply Nat.ltb_lt.
        pose proof (WR i ltac:(lia)) as W. apply last_write_in in W. exact (proj1 Fu _ _ _ W). }
    assert (OUT : forall adv, copies_hold L3 adv -> map (word_at L3 adv) out = final_of T L3 adv).
    { intros adv HP. transitivity (map (word_at L3 adv) (map (fun i => nth i out zero_cell) (seq 0 T))).
      { f_equal. rewrite <- Lo. symmetry. apply map_seq_nth. }
      rewrite map_map. unfold final_of. rewrite LR. apply map_ext_in. intros i Hi.
      specialize (HP (abs_cell (lo_starts L3) (ac_cell (nth i out zero_cell))) (Adv i, r)). unfold word_at. rewrite HP; [reflexivity|].
      rewrite P3. apply in_app_iff. right. apply in_map_iff. exists i. split; [reflexivity|exact Hi]. }
    exists L3. split.
    { unfold permute_synthesize. rewrite (lbind_ok _ _ _ _ _ (pc_run (Some xs))). fold La msg. now rewrite (lbind_ok _ _ _ _ _ E2). }
    split; [exact FL|]. split; [exact CE|]. split; [|split].
    - intros adv n Fn HG HP.
      assert (WI : words_in La msg) by (clear - Ca; clearbody La msg; induction Ca as [|w v l z X]; constructor; [apply X|assumption]).
      pose proof (permute_sound_at T s _ _ _ _ _ _ cfg Hspec HT Inv1 Inv2 HC Hc cs1 La L2 L3 msg out n adv Ga WI Lm E2 G3 Fn HG HP) as X.
      rewrite WM in X. rewrite <- X. symmetry. now rewrite OUT.
    - intros u n blind Fu Hu Ey.
      assert (M3 : circuit L3 ([] ++ map (fun i => (abs_cell (lo_starts L3) (ac_cell (nth i out zero_cell)), (Adv i, r))) (seq 0 T))).
      { eapply made_region; [exact M2| |exact E3|exact P3]. intros ri evs x q o Q X. rewrite fin_ok in Q by assumption. injection Q as <- _.
        apply in_flat_map in X. destruct X as (i & _ & [X|[X|[]]]); discriminate X. }
      destruct (made_honest T s _ _ _ _ _ _ cfg Hspec HT Inv1 Inv2 HC Hc L3 _ u n blind M3 Fu Hu) as [X1 X2].
      split; [apply X1; intros g r' []|]. split.
      { destruct (pow5_configured _ _ _ _ _ _ _ _ _ _ Hc) as (_ & _ & _ & _ & _ & _ & _ & Q). rewrite Q. intros e t r' []. }
      apply X2. intros a b X. cbn [app] in X. apply in_map_iff in X. destruct X as (i & X & Hi). apply in_seq in Hi. injection X as <- <-.
      assert (CL : Forall2 (carries L3) out (textbook s xs))
        by exact (carries_later T s _ _ _ _ _ _ cfg Hspec HT Inv1 Inv2 HC Hc L2 [] L3 _ _ M2 G3 C2).
      assert (CO : carries L3 (nth i out zero_cell) (nth i y fzero)).
      { rewrite Ey. clear - CL Hi Lo. assert (Hi' : i < length out) by lia. clear Hi Lo. revert i Hi'.
        induction CL as [|w v l z X Y IH]; intros [|i] Hi; cbn in *; try lia; [exact X|]. apply IH. lia. }
      change (cell_at L3 (honest u L3 blind) (abs_cell (lo_starts L3) (ac_cell (nth i out zero_cell)))) with (word_at L3 (honest u L3 blind) (nth i out zero_cell)).
      rewrite (carries_word L3 _ _ u blind Fu CO). cbn [cell_at]. unfold honest. rewrite WR by lia.
      replace (r <? u) with true; [reflexivity|]. symmetry. apply Nat.ltb_lt.
      pose proof (WR i ltac:(lia)) as W. apply last_write_in in W. exact (proj1 Fu _ _ _ W).
    - exact HF.
  Qed.

  (** keys do not depend on the values *)
  Lemma sim_final : forall (out out' : list (acell F)) y y', Forall2 same_cell out out' ->
    sim_region eq (constrain_final T cfg out y) (constrain_final T cfg out' y').
  Proof.
    intros out out' y y' Q. unfold constrain_final. eapply sim_bind; [|intros a b _ ri; split; [constructor|reflexivity]].
    apply sim_map with (R := eq) (R' := eq); [apply Forall2_eq|]. intros i j <-. eapply sim_bind; [apply sim_lift|]. intros c c' <-.
    eapply sim_bind; [apply sim_advice|]. intros e e' He.
    eapply sim_bind with (R := same_cell).
    { intros ri. unfold rlift, index.
      assert (Y : match nth_error out i, nth_error out' i with Some a, Some b => same_cell a b | None, None => True | _, _ => False end).
      { clear - Q. revert i. induction Q as [|a b l m Q X IH]; intros [|i]; cbn; try exact I; [exact Q|exact (IH i)]. }
      destruct (nth_error out i), (nth_error out' i); try contradiction; [|exact I]. split; [constructor|exact Y]. }
    intros w w' Hw ri. split; [|reflexivity]. constructor; [|constructor]. cbn. unfold same_cell in *. congruence.
  Qed.
  Lemma sim_circuit : forall m m' y y', sim eq (permute_synthesize T s cfg m y) (permute_synthesize T s cfg m' y').
  Proof.
    intros m m' y y'. unfold permute_synthesize. eapply sim_lbind; [apply sim_assign, sim_load_message|]. intros ws ws' HW.
    eapply sim_lbind; [apply sim_permute, HW|]. intros a a' Ha. apply sim_assign, sim_final, Ha.
  Qed.

  Lemma permute_exact : forall n u, u <= n ->
    exists K, permute_synthesize T s cfg None None (layout_empty cs1) = Ok (K, tt) /\ (fits u K <-> permute_rows s + 2 <= u) /\ copies_enabled cs1 K
      /\ (permute_rows s + 2 <= u ->
          (forall adv, satisfied n u cs1 K adv -> final_of T K adv = textbook s (message_of T adv))
          /\ (rel_prime 5 (modulus (F := F) - 1) -> forall adv adv', satisfied n u cs1 K adv -> satisfied n u cs1 K adv' ->
               final_of T K adv = final_of T K adv' -> message_of T adv = message_of T adv')
          /\ (forall xs y, length xs = T -> length y = T -> exists L, permute_synthesize T s cfg (Some xs) (Some y) (layout_empty cs1) = Ok (L, tt)
               /\ fits u L
               /\ forall blind, let adv := honest u L blind in
                  message_of T adv = xs /\ final_of T K adv = y /\ (satisfied n u cs1 K adv <-> y = textbook s xs))).
  Proof.
    intros n u Hn.
    assert (KEY : forall xs y, length xs = T -> length y = T -> exists K L, permute_synthesize T s cfg None None (layout_empty cs1) = Ok (K, tt)
      /\ permute_synthesize T s cfg (Some xs) (Some y) (layout_empty cs1) = Ok (L, tt) /\ same_key K L).
    { intros xs y Hl Hy. destruct (permute_run xs y Hl Hy) as (L & ES & _).
      pose proof (sim_circuit None (Some xs) None (Some y) _ _ (key_refl (layout_empty cs1))) as X. rewrite ES in X.
      destruct (permute_synthesize T s cfg None None (layout_empty cs1)) as [[K []]|]; [|contradiction]. destruct X as [X _].
      exists K, L. auto. }
    set (z := repeat (fzero (F := F)) T). assert (Hz : length z = T) by apply repeat_length.
    destruct (KEY z z Hz Hz) as (K & L & EK & EL & SK). exists K.
    destruct (permute_run z z Hz Hz) as (L' & ES & FL & CE & SND & _). rewrite EL in ES. injection ES as <-.
    split; [exact EK|]. split.
    { rewrite FL. split; intros X; [exact (key_fits K L SK u X)|exact (key_fits L K (same_key_sym _ _ SK) u X)]. }
    split.
    { intros a b X. destruct SK as (_ & _ & _ & _ & _ & Q & _). rewrite Q in X. exact (CE a b X). }
    intros Hu.
    assert (SO : forall adv, satisfied n u cs1 K adv -> final_of T K adv = textbook s (message_of T adv)).
    { intros adv SA. pose proof (key_satisfied K L SK n u cs1 adv SA) as (SG & _ & SC).
      rewrite (SND adv n); [|apply FL; lia|exact SG|exact SC]. unfold final_of. destruct SK as (Q & _). now rewrite Q. }
    split; [exact SO|]. split.
    { intros RP adv adv' SA SA' EQ. rewrite (SO adv SA), (SO adv' SA') in EQ.
      destruct (permutation_bijective_claim T s (mds_inv s) RP Hspec Inv1 Inv2) as (_ & INJ & _).
      assert (Lx : forall a, length (message_of (F := F) T a) = T) by (intros; unfold message_of; now rewrite map_length, seq_length).
      apply INJ; [apply Lx|apply Lx|]. rewrite !hash_permute_textbook; [exact EQ|exact Hspec|apply Lx|exact Hspec|apply Lx]. }
    clear SND FL CE. intros xs y Hl Hy.
    destruct (KEY xs y Hl Hy) as (K' & L'' & EK' & EL' & SK'). rewrite EK in EK'. injection EK' as <-. exists L''. split; [exact EL'|].
    destruct (permute_run xs y Hl Hy) as (M & EM & FM & _ & _ & HS & HH).
    rewrite EL' in EM. injection EM as <-. assert (FU : fits u L'') by now apply FM. split; [exact FU|].
    intros blind adv. destruct (HH u blind FU) as [X Y]. fold adv in X, Y.
    assert (OK : final_of T K adv = y) by (rewrite <- Y; unfold final_of; destruct SK' as (Q & _); now rewrite Q).
    split; [exact X|]. split; [exact OK|]. split.
    - intros SA. rewrite <- OK, <- X. now apply SO.
    - intros Ey. apply (key_satisfied L'' K (same_key_sym _ _ SK')). now apply HS.
  Qed.

  Lemma permute_accepts : forall n u, permute_rows s + 2 <= u -> u <= n ->
    exists K, permute_synthesize T s cfg None None (layout_empty cs1) = Ok (K, tt) /\ fits u K /\ copies_enabled cs1 K
      /\ (forall adv, satisfied n u cs1 K adv -> final_of T K adv = textbook s (message_of T adv))
      /\ (forall xs y, length xs = T -> length y = T -> exists L, permute_synthesize T s cfg (Some xs) (Some y) (layout_empty cs1) = Ok (L, tt)
           /\ fits u L
           /\ forall blind, let adv := honest u L blind in
              message_of T adv = xs /\ final_of T K adv = y /\ (satisfied n u cs1 K adv <-> y = textbook s xs)).
  Proof.
    intros n u Hu Hn. destruct (permute_exact n u Hn) as (K & A & B & C & D). destruct (D Hu) as (E & _ & G). exists K.
    split; [exact A|]. split; [now apply B|]. split; [exact C|]. split; [exact E|exact G].
  Qed.
  Lemma permute_inverse : forall n u, rel_prime 5 (modulus (F := F) - 1) -> permute_rows s + 2 <= u -> u <= n ->
    exists K, permute_synthesize T s cfg None None (layout_empty cs1) = Ok (K, tt)
      /\ forall y, length y = T -> exists xs, length xs = T
         /\ (exists adv, satisfied n u cs1 K adv /\ final_of T K adv = y)
         /\ forall adv, satisfied n u cs1 K adv -> (final_of T K adv = y <-> message_of T adv = xs).
  Proof.
    intros n u RP Hu Hn. destruct (permute_exact n u Hn) as (K & A & B & C & D). destruct (D Hu) as (E & _ & G). exists K.
    split; [exact A|]. intros y Hy. destruct (permutation_bijective_claim T s (mds_inv s) RP Hspec Inv1 Inv2) as (_ & INJ & SUR).
    assert (Lx : forall a, length (message_of (F := F) T a) = T) by (intros; unfold message_of; now rewrite map_length, seq_length).
    destruct (SUR y Hy) as (xs & Hx & EX). rewrite hash_permute_textbook in EX by assumption. exists xs. split; [exact Hx|]. split.
    - destruct (G xs y Hx Hy) as (L & _ & _ & X). specialize (X (fun _ _ => fzero)). cbv zeta in X. destruct X as (_ & X2 & X3).
      eexists. split; [apply X3; now rewrite EX|exact X2].
    - intros adv SA. rewrite (E adv SA). split; intros X.
      + apply INJ; [apply Lx|exact Hx|]. rewrite !hash_permute_textbook; [congruence|exact Hspec|exact Hx|exact Hspec|apply Lx].
      + now rewrite X.
  Qed.
  Lemma permute_size : forall m y K u, permute_synthesize T s cfg m y (layout_empty cs1) = Ok (K, tt) -> (fits u K <-> permute_rows s + 2 <= u).
  Proof.
    intros m y K u EK. destruct (permute_exact u u (le_n u)) as (K0 & A & B & _).
    pose proof (sim_circuit None m None y _ _ (key_refl (layout_empty cs1))) as X. rewrite A, EK in X. destruct X as [SK _].
    rewrite <- B. split; [exact (key_fits K K0 (same_key_sym _ _ SK) u)|exact (key_fits K0 K SK u)].
  Qed.
  Lemma permute_never_panics : forall m y, exists K, permute_synthesize T s cfg m y (layout_empty cs1) = Ok (K, tt).
  Proof.
    intros m y. destruct (permute_exact 0 0 (le_n 0)) as (K0 & A & _).
    pose proof (sim_circuit None m None y _ _ (key_refl (layout_empty cs1))) as X. rewrite A in X.
    destruct (permute_synthesize T s cfg m y (layout_empty cs1)) as [[K []]|]; [now exists K|contradiction].
  Qed.
End Claims.
