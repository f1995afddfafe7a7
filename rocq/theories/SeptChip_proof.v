(** The Septidon chip meets the contract of a permutation chip. *)
From Coq Require Import ZArith List Arith Lia Bool.
From Verif Require Import Field Rust ListAux Primitives SpecHash Halo2 Septidon PermuteChip ChipUse
  SeptVal_proof SeptGate_proof Contract SeptBlock_proof Layout_proof SeptLayout_proof.
Import ListNotations.
Local Open Scope nat_scope.

Section Chip.
  Context {F : Type} {FO : FieldOps F} {PF : PrimeField F}.
  Variable rcs m : list (list F).

  Definition REL : list (nat * nat * F) :=
    [(0, 7, fone)]
    ++ flat_map (fun o => map (fun j => (1 + j, o, mnth rcs (full_idx o) j)) (seq 0 3)) (seq 0 4)
    ++ flat_map (fun o => map (fun k => (4 + k, o, mnth rcs (5 + 7 * o + k) 0)) (seq 0 7)) (seq 0 8)
    ++ flat_map (fun o => map (fun j => (1 + j, o, mnth rcs (full_idx o) j)) (seq 0 3)) (seq 4 4).
  Definition POS : list (nat * nat) :=
    [(0, 0); (1, 0); (2, 0)]
    ++ flat_map (fun o => [(0, o); (1, o); (2, o)]) (seq 0 4)
    ++ [(12, 1); (12, 2); (12, 3); (12, 0)]
    ++ flat_map (fun o => [(4, o); (5, o); (3, o); (6, o); (7, o); (8, o); (9, o); (10, o); (11, o)]) (seq 0 8)
    ++ flat_map (fun o => [(0, o); (1, o); (2, o)]) (seq 4 4)
    ++ [(12, 5); (12, 6); (12, 7); (12, 4)]
    ++ [(12, 5); (12, 6); (12, 7)].

  Section At.
    Variables a f : nat.

    Definition adv_block (v : arr3 (option F)) : list (nat * nat * option F) :=
      map (fun '(k, o) => (k + a, o, cell_val rcs m v k o)) POS.
    Definition out_val (v : arr3 (option F)) (j : nat) : option F := cell_val rcs m v 12 (5 + j).

    Definition ev_permute (ri b : nat) (w0 w1 w2 : acell F) : list (event F) :=
      let v := (ac_val w0, ac_val w1, ac_val w2) in
      let inp j := {| ce_region := ri; ce_off := b; ce_col := Adv (j + a) |} in
      [AssignAdvice (0 + a) b (ac_val w0); ConstrainEqual (inp 0) (ac_cell w0)]
      ++ [AssignAdvice (1 + a) b (ac_val w1); ConstrainEqual (inp 1) (ac_cell w1)]
      ++ [AssignAdvice (2 + a) b (ac_val w2); ConstrainEqual (inp 2) (ac_cell w2)]
      ++ ev_block rcs m a f v b
      ++ [AssignAdvice (12 + a) (5 + b) (out_val v 0)]
      ++ [AssignAdvice (12 + a) (6 + b) (out_val v 1)]
      ++ [AssignAdvice (12 + a) (7 + b) (out_val v 2)].
    Definition out_words (ri b : nat) (v : arr3 (option F)) : list (acell F) :=
      map (fun j => {| ac_cell := {| ce_region := ri; ce_off := 5 + j + b; ce_col := Adv (12 + a) |};
                       ac_val := out_val v j |}) (seq 0 3).

    Hypothesis HL : 65 <= length rcs.
    Lemma permute_at_ok : forall ri b w0 w1 w2,
      permute_at rcs m (chip_of a f) [w0; w1; w2] b ri
      = Ok (ev_permute ri b w0 w1 w2, out_words ri b (ac_val w0, ac_val w1, ac_val w2)).
    Proof.
      intros ri b w0 w1 w2. unfold permute_at, ev_permute.
      set (v := (ac_val w0, ac_val w1, ac_val w2)).
      eapply rbind_ok; [reflexivity|]. eapply rbind_ok; [reflexivity|]. eapply rbind_ok; [reflexivity|].
      eapply rbind_ok; [now apply assign_permutation_ok|].
      unfold out_words, out_val. cbn [Nat.add cell_val map seq].
      generalize (ost rcs m v 65). intros [[x y] z].
      eapply rbind_ok; [reflexivity|]. eapply rbind_ok; [reflexivity|].
      eapply rbind_ok1; [reflexivity|]. reflexivity.
    Qed.

    Lemma fix_permute : forall ri b w0 w1 w2, fix_ws (ev_permute ri b w0 w1 w2) = map (moved f b) REL.
    Proof. intros. reflexivity. Qed.
    Lemma sel_permute : forall ri b w0 w1 w2, sel_ws (ev_permute ri b w0 w1 w2) = [].
    Proof. intros. reflexivity. Qed.
    Lemma const_permute : forall ri b w0 w1 w2, const_events (ev_permute ri b w0 w1 w2) = [].
    Proof. intros. reflexivity. Qed.
    Lemma copies_permute : forall ri b w0 w1 w2, copies_ws (ev_permute ri b w0 w1 w2)
      = map (fun '(j, w) => ({| ce_region := ri; ce_off := b; ce_col := Adv (j + a) |}, ac_cell w))
            (combine (seq 0 3) [w0; w1; w2]).
    Proof. intros. reflexivity. Qed.
    Lemma adv_permute : forall ri b w0 w1 w2,
      adv_ws (ev_permute ri b w0 w1 w2) = map (moved 0 b) (adv_block (ac_val w0, ac_val w1, ac_val w2)).
    Proof.
      intros. set (v := (ac_val w0, ac_val w1, ac_val w2)).
      transitivity (map (fun '(k, o) => (k + a, o + b, cell_val rcs m v k o)) POS); [reflexivity|].
      unfold adv_block. rewrite map_map. apply map_ext. intros [k o]. unfold moved. now rewrite Nat.add_0_r.
    Qed.

    Lemma POS_in : forall k o, In (k, o) POS <-> k < 13 /\ o < 8.
    Proof.
      intros k o. split.
      - intros H.
        assert (C : forallb (fun '(k, o) => (k <? 13) && (o <? 8)) POS = true) by reflexivity.
        rewrite forallb_forall in C. specialize (C _ H). cbn beta iota in C. apply andb_prop in C.
        now rewrite !Nat.ltb_lt in C.
      - intros [Hk Ho].
        assert (C : forallb (fun k => forallb (fun o => existsb (fun '(k', o') => (k =? k') && (o =? o')) POS)
                    (seq 0 8)) (seq 0 13) = true) by reflexivity.
        rewrite forallb_forall in C. specialize (C k ltac:(apply in_seq; lia)). cbn beta in C.
        rewrite forallb_forall in C. specialize (C o ltac:(apply in_seq; lia)). cbn beta in C.
        apply existsb_exists in C. destruct C as ([k' o'] & C & E). apply andb_prop in E.
        rewrite !Nat.eqb_eq in E. destruct E as [-> ->]. exact C.
    Qed.

    Lemma adv_block_in : forall v c o w, In (c, o, w) (adv_block v) <->
      exists k, c = k + a /\ k < 13 /\ o < 8 /\ w = cell_val rcs m v k o.
    Proof.
      intros v c o w. unfold adv_block. rewrite in_map_iff. split.
      - intros ([k o'] & E & H). inversion E; subst. apply POS_in in H. exists k. tauto.
      - intros (k & -> & Hk & Ho & ->). exists (k, o). split; [reflexivity|]. now apply POS_in.
    Qed.

    Lemma adv_block_read : forall v k o, k < 13 -> o < 8 ->
      last_write (adv_block v) (k + a) o = Some (cell_val rcs m v k o).
    Proof.
      intros v k o Hk Ho. apply last_write_fun.
      - apply adv_block_in. eauto.
      - intros w H. apply adv_block_in in H. destruct H as (k' & E & _ & _ & ->).
        replace k' with k by lia. reflexivity.
    Qed.

    Lemma REL_in : forall c o v, In (c, o, v) REL -> c < 11 /\ o < 8.
    Proof.
      intros c o v H.
      assert (C : forallb (fun '(c, o, _) => (c <? 11) && (o <? 8)) REL = true) by reflexivity.
      rewrite forallb_forall in C. specialize (C _ H). cbn beta iota in C. apply andb_prop in C.
      now rewrite !Nat.ltb_lt in C.
    Qed.

    Lemma REL_full : forall o j, o < 8 -> j < 3 -> last_write REL (1 + j) o = Some (mnth rcs (full_idx o) j).
    Proof.
      intros o j Ho Hj. do 8 (destruct o as [|o]; [do 3 (destruct j as [|j]; [reflexivity|]); lia|]). lia.
    Qed.
    Lemma REL_part : forall o k, o < 8 -> k < 7 -> last_write REL (4 + k) o = Some (mnth rcs (5 + 7 * o + k) 0).
    Proof.
      intros o k Ho Hk. do 8 (destruct o as [|o]; [do 7 (destruct k as [|k]; [reflexivity|]); lia|]). lia.
    Qed.
    Lemma REL_last : forall o, o < 8 -> last_write REL 0 o = if o =? 7 then Some fone else None.
    Proof. intros o Ho. do 8 (destruct o as [|o]; [reflexivity|]). lia. Qed.

    Definition sept_own (c : column) : Prop :=
      match c with
      | Adv i => a <= i < 13 + a
      | Fix i => f <= i < 11 + f
      | Sel _ => False
      end.
    Definition sept_data : chip_data := {|
      cd_h := 8;
      cd_own := sept_own;
      cd_main := Adv (12 + a);
      cd_gates := sept_gates rcs m a f;
      cd_in := fun j => j + a;
      cd_out_col := fun _ => 12 + a;
      cd_out_row := fun j => 5 + j;
      cd_fix := map (moved f 0) REL;
      cd_sel := [];
      cd_adv := adv_block;
      cd_out := out_val;
      cd_ok := fun loc => block_cells rcs m loc a (fullin loc a 0) 0
    |}.

    Lemma touched_permute : forall ri b w0 w1 w2 c o, In (c, o) (touched (ev_permute ri b w0 w1 w2)) ->
      sept_own c /\ b <= o < 8 + b.
    Proof.
      intros ri b w0 w1 w2 [c|c|c] o H.
      - apply touched_adv in H. destruct H as [v H]. rewrite adv_permute in H. apply in_moved in H.
        destruct H as (c' & o' & H & -> & ->). apply adv_block_in in H. destruct H as (k & -> & Hk & Ho & _).
        cbn. lia.
      - apply touched_fix in H. destruct H as [v H]. rewrite fix_permute in H. apply in_moved in H.
        destruct H as (c' & o' & H & -> & ->). apply REL_in in H. cbn. lia.
      - apply touched_sel in H. rewrite sel_permute in H. destruct H.
    Qed.

    Lemma permute_stacked : forall ws L, ready sept_data L -> three_words L ws ->
      exists L' out, septidon_permute rcs m (chip_of a f) ws L = Ok (L', out)
        /\ stacked sept_data L L' [ws] [out].
    Proof.
      intros ws L R K. destruct (length_list3 ws (proj1 K)) as (w0 & w1 & w2 & ->).
      set (ri := length (lo_starts L)).
      exists (commit ri (ev_permute ri 0 w0 w1 w2) (reserve (ev_permute ri 0 w0 w1 w2) L)),
        (out_cells sept_data ri 0 [w0; w1; w2]).
      split.
      - unfold septidon_permute. apply (assign_region_ok _ _ _ (out_words ri 0 _) (permute_at_ok ri 0 w0 w1 w2)).
        apply const_permute.
      - assert (M : In (Adv (12 + a), 7) (touched (ev_permute ri 0 w0 w1 w2))).
        { apply touched_adv. exists (cell_val rcs m (ac_val w0, ac_val w1, ac_val w2) 12 7).
          rewrite adv_permute, map_moved0. apply adv_block_in. exists 12. repeat split; lia. }
        apply stacked_region; try assumption.
        + cbn. lia.
        + cbn. lia.
        + intros c o H. apply touched_permute in H. cbn [cd_own cd_h sept_data]. destruct H. split; [assumption|lia].
        + exists 7. exact M.
        + exists (Adv (12 + a)). exact M.
        + rewrite adv_permute, map_moved0. reflexivity.
        + rewrite fix_permute. reflexivity.
        + apply sel_permute.
        + apply copies_permute.
    Qed.

    (** ** Batches *)
    Notation D := sept_data.
    Definition rel_copies (ri : nat) := fix go (b : nat) (wss : list (list (acell F))) : list (cell * cell) :=
      match wss with
      | [] => []
      | ws :: r => map (fun '(j, w) => (in_cell D ri b j, ac_cell w)) (combine (seq 0 3) ws) ++ go (8 + b) r
      end.
    Fixpoint rel_outs (ri b : nat) (wss : list (list (acell F))) : list (list (acell F)) :=
      match wss with
      | [] => []
      | ws :: r => out_cells D ri b ws :: rel_outs ri (8 + b) r
      end.

    Lemma out_words_cells : forall ri b w0 w1 w2,
      out_words ri b (ac_val w0, ac_val w1, ac_val w2) = out_cells D ri b [w0; w1; w2].
    Proof. intros. unfold out_words, out_cells. apply map_ext. intros j. reflexivity. Qed.

    Lemma batch_body_ok : forall ri wss b, Forall (fun ws => length ws = 3) wss ->
      exists evs, batch_body rcs m (chip_of a f) wss b ri = Ok (evs, rel_outs ri b wss)
        /\ adv_ws evs = stack_adv D b wss /\ fix_ws evs = stack_fix D b (length wss)
        /\ sel_ws evs = [] /\ copies_ws evs = rel_copies ri b wss.
    Proof.
      intros ri wss. induction wss as [|ws wss IH]; intros b H.
      - exists []. repeat split.
      - inversion H as [|? ? H1 H2]; subst. destruct (length_list3 ws H1) as (w0 & w1 & w2 & ->).
        destruct (IH (8 + b) H2) as (evs & E & EA & EF & ES & EC).
        exists (ev_permute ri b w0 w1 w2 ++ evs). split; [|split; [|split; [|split]]].
        + cbn [batch_body]. eapply rbind_ok; [apply permute_at_ok|].
          rewrite <- (app_nil_r evs). eapply rbind_ok; [exact E|]. rewrite out_words_cells. reflexivity.
        + rewrite adv_ws_app, adv_permute, EA. reflexivity.
        + rewrite fix_ws_app, fix_permute, EF. cbn [length stack_fix cd_fix D]. f_equal.
          rewrite map_map. apply map_ext. intros [[c o] v]. cbn. f_equal. f_equal; lia.
        + rewrite sel_ws_app, sel_permute, ES. reflexivity.
        + rewrite copies_ws_app, copies_permute, EC. reflexivity.
    Qed.

    Fixpoint chunk_rows (t : nat) (css : list (list (list (acell F)))) : list nat :=
      match css with [] => [] | ch :: r => t :: chunk_rows (8 * length ch + t) r end.
    Lemma chunk_rows_length : forall css t, length (chunk_rows t css) = length css.
    Proof. induction css; intros; cbn; auto. Qed.

    Definition pass (ch : list (list (acell F))) :=
      (batch_shape (chip_of a f) ch, batch_body rcs m (chip_of a f) ch 0).

    Lemma reserve_all_ok : forall css ri L, Forall (fun ch => ch <> []) css ->
      exists L1, reserve_all ri (map pass css) L = Ok L1
        /\ lo_starts L1 = lo_starts L ++ chunk_rows (lo_next L (Adv (12 + a))) css
        /\ lo_next L1 (Adv (12 + a)) = 8 * length (concat css) + lo_next L (Adv (12 + a))
        /\ (forall c, c <> Adv (12 + a) -> lo_next L1 c = lo_next L c)
        /\ lo_adv L1 = lo_adv L /\ lo_fix L1 = lo_fix L /\ lo_sel L1 = lo_sel L /\ lo_copy L1 = lo_copy L
        /\ lo_tables L1 = lo_tables L /\ lo_const L1 = lo_const L.
    Proof.
      induction css as [|ch css IH]; intros ri L H.
      - exists L. cbn. rewrite app_nil_r. repeat split; lia.
      - inversion H as [|? ? H1 H2]; subst.
        set (shape := [AssignAdvice (12 + a) (length ch * 8 - 1) (Some fzero)] : list (event F)).
        destruct (IH (S ri) (reserve shape L) H2) as (L1 & E & S1 & N1 & O1 & R).
        exists L1. split; [exact E|].
        assert (RC : row_count shape = 8 * length ch).
        { destruct ch; [easy|]. cbn [row_count shape touched flat_map app fold_right length]. lia. }
        assert (RS : region_start (lo_next L) shape = lo_next L (Adv (12 + a))).
        { cbn [region_start shape touched flat_map app fold_right]. lia. }
        assert (NX : lo_next (reserve shape L) (Adv (12 + a)) = 8 * length ch + lo_next L (Adv (12 + a))).
        { cbn [reserve lo_next]. rewrite RC, RS. apply (next_after_in _ _ _ _ (length ch * 8 - 1)). now left. }
        rewrite NX in *. split; [|split; [|split]].
        + rewrite S1. cbn [reserve lo_starts chunk_rows]. rewrite RS. now rewrite <- app_assoc.
        + rewrite N1. cbn [concat]. rewrite app_length. lia.
        + intros c Hc. rewrite O1 by assumption. cbn [reserve lo_next]. apply next_after_out.
          intros o X. cbn in X. destruct X as [X|[]]. inversion X. subst. now apply Hc.
        + exact R.
    Qed.

    Lemma commit_all_ok : forall css ri t L1,
      Forall (Forall (three_words L1)) css ->
      (forall i, i < length css -> nth (ri + i) (lo_starts L1) 0 = nth i (chunk_rows t css) 0) ->
      ri + length css <= length (lo_starts L1) ->
      exists L2 outs, commit_all ri (map pass css) L1 = Ok (L2, outs)
        /\ lo_starts L2 = lo_starts L1 /\ lo_next L2 = lo_next L1
        /\ lo_adv L2 = lo_adv L1 ++ stack_adv D t (concat css)
        /\ lo_fix L2 = lo_fix L1 ++ stack_fix D t (length (concat css))
        /\ lo_sel L2 = lo_sel L1
        /\ lo_copy L2 = lo_copy L1 ++ stack_copy D (lo_starts L1) t (concat css)
        /\ lo_tables L2 = lo_tables L1 /\ lo_const L2 = lo_const L1
        /\ map (map (located L1)) (concat outs) = stack_out D t (concat css)
        /\ Forall (three_words L1) (concat outs).
    Proof.
      induction css as [|ch css IH]; intros ri t L1 K N B.
      - exists L1, []. cbn. rewrite !app_nil_r. repeat split. constructor.
      - inversion K as [|? ? K1 K2]; subst. cbn [length] in *.
        pose proof (N 0 ltac:(lia)) as ST. rewrite Nat.add_0_r in ST. cbn [chunk_rows nth] in ST.
        assert (L3 : Forall (fun ws => length ws = 3) ch).
        { eapply Forall_impl; [|exact K1]. intros x [X _]. exact X. }
        destruct (batch_body_ok ri ch 0 L3) as (evs & E & EA & EF & ES & EC).
        destruct (IH (S ri) (8 * length ch + t) (commit ri evs L1)) as (L2 & outs & E2 & S2 & N2 & A2 & F2 & Q2 & C2 & T2 & X2 & O2 & W2).
        { exact K2. }
        { intros i Hi. specialize (N (S i) ltac:(lia)). cbn [chunk_rows nth] in N. rewrite <- N.
          cbn [commit lo_starts]. f_equal. lia. }
        { cbn [commit lo_starts]. lia. }
        exists L2, (rel_outs ri 0 ch :: outs). split.
        { cbn [map pass commit_all]. rewrite E. cbn [bind]. rewrite E2. reflexivity. }
        cbn [commit lo_starts lo_next lo_adv lo_fix lo_sel lo_copy lo_tables lo_const] in *.
        rewrite ST in *.
        split; [exact S2|]. split; [exact N2|]. cbn [concat].
        split. { rewrite A2, abs_adv_ws, EA, stack_adv_moved, stack_adv_app. cbn [cd_h D]. now rewrite app_assoc. }
        split. { rewrite F2, abs_fix_ws, EF, stack_fix_moved, app_length, stack_fix_add. cbn [cd_h D]. now rewrite app_assoc. }
        split. { rewrite Q2, abs_sel_ws, ES. cbn. apply app_nil_r. }
        split.
        { rewrite C2, abs_copy_ws, EC, stack_copy_app_r, app_assoc. do 2 f_equal. f_equal.
          rewrite <- (Nat.add_0_l t) at 1. generalize 0 as b. clear - ST. induction ch as [|ws ch IHc]; intros b; [reflexivity|].
          cbn [rel_copies stack_copy]. rewrite map_app, IHc. f_equal.
          unfold block_copy. rewrite map_map. apply map_ext. intros [j w]. f_equal.
          unfold abs_cell, in_cell. cbn [ce_col ce_off ce_region]. now rewrite ST. }
        split; [exact T2|]. split; [exact X2|]. split.
        + rewrite map_app, stack_out_app. f_equal; [|exact O2].
          rewrite <- (Nat.add_0_l t) at 1. generalize 0 as b. clear - ST. induction ch as [|ws ch IHc]; intros b; [reflexivity|].
          cbn [rel_outs map stack_out]. rewrite IHc. f_equal. unfold block_out, out_cells. rewrite map_map.
          apply map_ext. intros j. unfold located, abs_cell. cbn [ac_cell ac_val ce_col ce_off ce_region].
          rewrite ST. now rewrite Nat.add_assoc.
        + apply Forall_app. split; [|exact W2]. generalize 0 as b. clear - B.
          induction ch as [|ws ch IHc]; intros b; cbn [rel_outs]; constructor; [|apply IHc].
          split; [unfold out_cells; now rewrite map_length, seq_length|].
          apply Forall_forall. intros w Hw. unfold out_cells in Hw. apply in_map_iff in Hw.
          destruct Hw as (j & <- & _). cbn [ac_cell ce_region]. lia.
    Qed.

    Lemma chunks_concat : forall {A} k (l : list A), 0 < k ->
      concat (chunks k l) = l /\ Forall (fun ch => ch <> []) (chunks k l).
    Proof.
      intros A k l Hk. unfold chunks.
      assert (G : forall fuel (l : list A), length l <= fuel ->
                concat (chunks_aux fuel k l) = l /\ Forall (fun ch => ch <> []) (chunks_aux fuel k l)).
      { induction fuel as [|fuel IH]; intros l0 Hl; destruct l0 as [|x l0]; cbn [length] in Hl; try lia;
          try (split; [reflexivity|constructor]).
        cbn [chunks_aux]. destruct (IH (skipn k (x :: l0))) as [I1 I2].
        { rewrite skipn_length. cbn [length]. lia. }
        split.
        - cbn [concat]. rewrite I1. apply firstn_skipn.
        - constructor; [|exact I2]. destruct k; [lia|]. discriminate. }
      now apply G.
    Qed.

    Lemma batch_adv_rows : forall wss t c r v, In (c, r, v) (stack_adv D t wss) -> r < 8 * length wss + t.
    Proof.
      induction wss as [|ws wss IH]; intros t c r v H; [destruct H|]. cbn [stack_adv length] in *. apply in_app_or in H.
      destruct H as [H|H]; [|apply IH in H; cbn [cd_h D] in H; lia].
      apply in_moved in H. destruct H as (c' & o & H & _ & ->). cbn [cd_adv D] in H. apply adv_block_in in H.
      destruct H as (k & _ & _ & Ho & _). lia.
    Qed.
    Lemma batch_fix_rows : forall k t c r v, In (c, r, v) (stack_fix D t k) -> r < 8 * k + t.
    Proof.
      induction k as [|k IH]; intros t c r v H; [destruct H|]. cbn [stack_fix] in *. apply in_app_or in H.
      destruct H as [H|H]; [|apply IH in H; cbn [cd_h D] in H; lia].
      apply in_moved in H. destruct H as (c' & o & H & _ & ->). cbn [cd_fix D] in H. apply in_moved in H.
      destruct H as (c'' & o' & H & _ & ->). apply REL_in in H. lia.
    Qed.
    Lemma batch_single : forall css ri, Forall (Forall (fun ws => length ws = 3)) css -> Forall (fun ch => ch <> []) css ->
      single_shape (12 + a) ri (map pass css) (map (fun ch => 8 * length ch) css).
    Proof.
      induction css as [|ch css IH]; intros ri H N; cbn [map single_shape]; [exact I|].
      inversion H as [|? ? H1 H2]; inversion N as [|? ? N1 N2]; subst. cbn [pass].
      split; [destruct ch; [easy|cbn; lia]|]. split; [|split; [|now apply IH]].
      - exists (Some fzero), []. replace (8 * length ch - 1) with (length ch * 8 - 1) by lia. reflexivity.
      - intros evs x E q o Ho. destruct (batch_body_ok ri ch 0 H1) as (evs' & E' & EA & EF & ES & _).
        rewrite E' in E. injection E as <- _.
        destruct q as [q|q|q].
        + apply touched_adv in Ho. destruct Ho as [v Ho]. rewrite EA in Ho.
          apply batch_adv_rows in Ho. lia.
        + apply touched_fix in Ho. destruct Ho as [v Ho]. rewrite EF in Ho.
          apply batch_fix_rows in Ho. lia.
        + apply touched_sel in Ho. rewrite ES in Ho. destruct Ho.
    Qed.

    Lemma batch_runs : forall threads wss, 0 < threads ->
      runs D (septidon_permute_batch rcs m threads (chip_of a f) wss) wss.
    Proof.
      intros threads wss Ht L R K. unfold septidon_permute_batch.
      set (css := chunks (length wss / threads + 2) wss).
      destruct (chunks_concat (length wss / threads + 2) wss ltac:(lia)) as [CC CN]. fold css in CC, CN.
      set (ri := length (lo_starts L)).
      destruct (reserve_all_ok css ri L CN) as (L1 & E1 & S1 & N1 & O1 & A1 & F1 & Q1 & C1 & T1 & X1).
      rewrite CC in N1.
      assert (K1 : Forall (three_words L1) wss).
      { eapply Forall_impl; [|exact K]. intros ws. apply known_app. eexists. exact S1. }
      destruct (commit_all_ok css ri (lo_next L (Adv (12 + a))) L1)
        as (L2 & outs & E2 & S2 & N2 & A2 & F2 & Q2 & C2 & T2 & X2 & O2 & W2).
      { rewrite <- CC in K1. clear - K1. induction css as [|ch css IH]; constructor; cbn in K1;
          apply Forall_app in K1; [apply K1|apply IH, K1]. }
      { intros i Hi. rewrite S1, app_nth2 by (unfold ri; lia). f_equal. unfold ri. lia. }
      { rewrite S1, app_length, chunk_rows_length. unfold ri. lia. }
      rewrite CC in *. exists L2, (concat outs). split.
      - unfold lbind. cbv beta zeta. fold css. change (map _ css) with (map pass css).
        rewrite (single_assign_regions (12 + a) (map (fun ch => 8 * length ch) css)).
        2:{ apply batch_single; [|exact CN].
            assert (K3 : Forall (fun ws => length ws = 3) (concat css)).
            { rewrite CC. eapply Forall_impl; [|exact K]. intros x [X _]. exact X. }
            clear - K3. induction css as [|ch css IH]; constructor; cbn in K3; apply Forall_app in K3; [apply K3|apply IH, K3]. }
        fold ri. rewrite E1. cbn [bind]. rewrite E2. reflexivity.
      - unfold stacked. cbn [cd_main cd_h D]. split; [eexists; rewrite S2, S1; reflexivity|].
        rewrite N2. split; [exact N1|]. split.
        { intros c Hc. rewrite N2. cbn [cd_main D] in *.
          destruct (column_eqb c (Adv (12 + a))) eqn:Ec.
          - apply column_eqb_eq in Ec. subst c. lia.
          - assert (Nc : c <> Adv (12 + a)) by (intros X; apply column_eqb_eq in X; congruence).
            rewrite (O1 c Nc), N1. specialize (R c Hc). cbn [cd_main D] in R. lia. }
        split. { intros c Hc. apply O1. intros ->. apply Hc. cbn. lia. }
        split; [rewrite A2, A1; reflexivity|]. split; [rewrite F2, F1; reflexivity|].
        split. { rewrite Q2, Q1. assert (Z : forall k t, stack_sel D t k = []) by (induction k; intros; cbn; auto).
                 now rewrite Z, app_nil_r. }
        split. { rewrite C2, C1, S1. now rewrite stack_copy_app. }
        split; [congruence|]. split; [congruence|]. split.
        + rewrite <- O2. apply map_ext. intros ws. apply map_ext. intros w. unfold located. now rewrite S2.
        + eapply Forall_impl; [|exact W2]. intros ws [Hl Hw]. split; [assumption|]. now rewrite S2.
    Qed.

    (** ** The laws *)
    Lemma block_cells_local : forall loc loc' init s s',
      (forall k o, k < 13 -> o < 8 -> loc (k + a) (o + s) = loc' (k + a) (o + s')) ->
      block_cells rcs m loc a init s -> block_cells rcs m loc' a init s'.
    Proof.
      intros loc loc' init s s' H (C & T4 & T65). split; [|split].
      - intros o Ho. destruct (C o Ho) as (C1 & C2 & C3).
        unfold fullin, septin in *. split; [|split].
        + rewrite <- C1. f_equal; [f_equal|]; symmetry; [apply (H 0)|apply (H 1)|apply (H 2)]; lia.
        + rewrite <- C2. f_equal; [f_equal|]; symmetry; [apply (H 3)|apply (H 4)|apply (H 5)]; lia.
        + intros k Hk. rewrite <- C3 by assumption. symmetry. apply (H (6 + k)); lia.
      - rewrite <- T4. unfold tr. f_equal; [f_equal|]; symmetry; apply (H 12); lia.
      - rewrite <- T65. unfold tr. f_equal; [f_equal|]; symmetry; apply (H 12); lia.
    Qed.

    Lemma sept_laws : table_ok rcs m -> chip_laws D (spec_permute m 4 57 rcs).
    Proof.
      intros HT. constructor; cbn [cd_own cd_main cd_in cd_h cd_out_col cd_out_row cd_fix cd_sel cd_adv cd_ok cd_out cd_gates D].
      - cbn. lia.
      - intros j Hj. cbn. lia.
      - intros j Hj. cbn. lia.
      - intros c o v H. apply in_moved in H. destruct H as (c' & o' & H & -> & ->). apply REL_in in H. cbn. lia.
      - intros s o [].
      - intros v c o w H. apply adv_block_in in H. destruct H as (k & -> & Hk & Ho & _). cbn. lia.
      - intros loc loc' H B.
        replace (fullin loc' a 0) with (fullin loc a 0).
        + eapply block_cells_local; [|exact B]. intros k o Hk Ho. rewrite !Nat.add_0_r. apply H; cbn; lia.
        + unfold fullin. f_equal; [f_equal|]; apply H; cbn; lia.
      - intros loc (_ & _ & T) j Hj.
        pose proof (st_at_permute rcs m (fullin loc a 0) HT) as E. rewrite <- T in E.
        unfold fullin in E. cbn [of3] in E. change (0 + a) with a. change (1 + a) with (S a) in *. rewrite <- E.
        unfold tr. cbn [Nat.add].
        do 3 (destruct j as [|j]; [reflexivity|]). lia.
      - intros init.
        assert (R : forall k o, k < 13 -> o < 8 -> rda (adv_block (map3 Some init)) (k + a) o
                  = match cell_val rcs m (map3 Some init) k o with Some v => v | None => fzero end).
        { intros k o Hk Ho. unfold rda. now rewrite adv_block_read. }
        assert (I : fullin (rda (adv_block (map3 Some init))) a 0 = init).
        { unfold fullin. pose proof (R 0 0 ltac:(lia) ltac:(lia)) as R0. pose proof (R 1 0 ltac:(lia) ltac:(lia)) as R1.
          pose proof (R 2 0 ltac:(lia) ltac:(lia)) as R2. change (0 + a) with a in R0. rewrite R0, R1, R2.
          unfold cell_val, full_idx. cbn [Nat.ltb Nat.leb ost]. destruct init as [[x y] z]. reflexivity. }
        split; [|split].
        + rewrite I.
          assert (V : forall i, ost rcs m (map3 Some init) i = map3 Some (st_at rcs m init i)) by (intros; apply ost_known).
          split; [|split].
          * intros o Ho. split; [|split].
            -- unfold fullin. rewrite !Nat.add_0_r.
               pose proof (R 0 o ltac:(lia) Ho) as R0. change (0 + a) with a in R0.
               rewrite R0, (R 1 o), (R 2 o) by (assumption || lia). unfold cell_val. rewrite V.
               destruct (st_at rcs m init (full_idx o)) as [[x y] z]. reflexivity.
            -- unfold septin. rewrite !Nat.add_0_r.
               rewrite (R 3 o), (R 4 o), (R 5 o) by (assumption || lia). unfold cell_val. rewrite V.
               destruct (st_at rcs m init (5 + 7 * o)) as [[x y] z]. reflexivity.
            -- intros k Hk. rewrite Nat.add_0_r. rewrite (R (6 + k) o) by (assumption || lia).
               replace (cell_val rcs m (map3 Some init) (6 + k) o) with (fst3 (ost rcs m (map3 Some init) (6 + 7 * o + k))).
               ++ rewrite V. now destruct (st_at rcs m init (6 + 7 * o + k)) as [[x y] z].
               ++ do 6 (destruct k as [|k]; [unfold cell_val; cbn [Nat.add]; do 2 f_equal; lia|]). lia.
          * unfold tr. cbn [Nat.add]. change (S (S (S (S (S (S (S (S (S (S (S (S a)))))))))))) with (12 + a).
            rewrite (R 12 1), (R 12 2), (R 12 3) by lia. unfold cell_val. rewrite V.
            destruct (st_at rcs m init 4) as [[x y] z]. reflexivity.
          * unfold tr. cbn [Nat.add]. change (S (S (S (S (S (S (S (S (S (S (S (S a)))))))))))) with (12 + a).
            rewrite (R 12 5), (R 12 6), (R 12 7) by lia. unfold cell_val. rewrite V.
            destruct (st_at rcs m init 65) as [[x y] z]. reflexivity.
        + intros j Hj. rewrite <- I at 2. unfold fullin. cbn [of3].
          do 3 (destruct j as [|j]; [reflexivity|]). lia.
        + intros j Hj. pose proof (st_at_permute rcs m init HT) as E. rewrite <- E.
          unfold out_val, cell_val. rewrite !(ost_known _ _ _ 65). destruct (st_at rcs m init 65) as [[x y] z].
          do 3 (destruct j as [|j]; [reflexivity|]). lia.
      - intros n fx sl adv bs Hap Hfit Hin Hout _ _.
        assert (SF : sept_fixed rcs n fx f bs).
        { assert (RD : forall s c o, In s bs -> o < 8 -> c < 11 -> fx (c + f) (o + s) = rd REL c o).
          { intros s c o Hs Ho Hc. rewrite Hin by (cbn; (assumption || lia)). unfold rd.
            rewrite <- (Nat.add_0_r o) at 1. now rewrite last_write_moved. }
          split.
          - intros r Hr. destruct (row_cases bs r) as [(s & o & Hs & Ho & ->)|Ho].
            + rewrite <- (Nat.add_0_l f), RD by (assumption || lia). unfold rd. rewrite REL_last by assumption.
              destruct (Nat.eqb_spec o 7) as [->|N].
              * replace (existsb _ bs) with true; [reflexivity|]. symmetry. apply existsb_exists.
                exists s. split; [assumption|]. apply Nat.eqb_refl.
              * replace (existsb _ bs) with false; [reflexivity|]. symmetry. apply not_true_is_false.
                intros X. apply existsb_exists in X. destruct X as (s' & Hs' & X). apply Nat.eqb_eq in X.
                destruct (apart_in 8 bs s s' Hap Hs Hs') as [->|]; lia.
            + rewrite Hout by (assumption || (cbn; lia)).
              replace (existsb _ bs) with false; [reflexivity|]. symmetry. apply not_true_is_false.
              intros X. apply existsb_exists in X. destruct X as (s' & Hs' & X). apply Nat.eqb_eq in X.
              apply (Ho s' Hs'). lia.
          - intros s o Hs Ho. split.
            + intros j Hj. rewrite RD by (assumption || lia). unfold rd. now rewrite REL_full.
            + intros k Hk. rewrite RD by (assumption || lia). unfold rd. now rewrite REL_part. }
        rewrite (sept_blocks_iff rcs m n fx sl adv a f bs SF Hap Hfit).
        split; intros H s Hs; specialize (H s Hs).
        + change (fullin (fun c o => adv c (o + s)) a 0) with (fullin adv a s).
          eapply block_cells_local; [|exact H]. intros k o Hk Ho. now rewrite Nat.add_0_r.
        + change (fullin (fun c o => adv c (o + s)) a 0) with (fullin adv a s) in H.
          eapply block_cells_local; [|exact H]. intros k o Hk Ho. now rewrite Nat.add_0_r.
      - intros v. exists (12 + a), (cell_val rcs m v 12 7). apply adv_block_in. exists 12. repeat split; lia.
    Qed.
  End At.

  (** Septidon with a compact table computes the permutation of the table, in blocks of 8 rows *)
  Theorem septidon_correct : table_ok rcs m -> chip_correct (septidon_chip rcs m) (spec_permute m 4 57 rcs) 8.
  Proof.
    intros HT c. assert (HL : 65 <= length rcs) by (destruct HT as (_ & H & _); lia). cbn [pc_config pc_configure pc_permute pc_permute_batch septidon_chip]. rewrite configure_chip.
    destruct (configure_cs rcs m c) as (A & B & C & G & K & Q & X).
    exists (sept_data (cs_adv c) (cs_fix c)). split; [exact (sept_laws _ _ HL HT)|].
    split; [reflexivity|]. split.
    { intros [i|i|i]; cbn [added cd_own sept_data sept_own]; rewrite ?A, ?B, ?C; lia. }
    rewrite A, B, C, G, K, X. do 6 (split; [reflexivity || lia|]). split.
    { exists [Adv (cs_adv c); Adv (1 + cs_adv c); Adv (2 + cs_adv c);
              Adv (12 + cs_adv c); Adv (12 + cs_adv c); Adv (12 + cs_adv c)]. split; [exact Q|].
      intros j Hj. cbn [cd_in cd_out_col sept_data]. split; [|cbn; tauto].
      do 3 (destruct j as [|j]; [cbn; tauto|]). lia. }
    split.
    - intros wss. apply runs_lmap. intros ws L. apply permute_stacked, HL.
    - intros threads wss Ht. apply batch_runs; [exact HL|exact Ht].
  Qed.
End Chip.
