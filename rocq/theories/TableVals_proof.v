(** The values the loop over the rows writes. *)
From Coq Require Import ZArith List Arith Lia Bool Permutation.
From Verif Require Import Field Rust ListAux Primitives Specs BaseHash Halo2 PermuteChip ChipUse Layout_proof Contract
  SpongeTable TableRows_proof TableLoad_proof.
Import ListNotations.
Local Open Scope nat_scope.

Section Vals.
  Context {F : Type} {FO : FieldOps F}.
  Variable legacy : bool.
  Variable P : permute_chip F.
  Variable STEP : nat.
  Variable s : spec F.
  Variable cfg : sponge_config P.
  Hypothesis Htab : length (sc_table cfg) = 6.
  Hypothesis Haux : length (sc_aux cfg) = 6.
  Hypothesis Hnd : NoDup (tcols P cfg).
  Notation row := (@raw_row F).
  Notation loop := (@loop F).
  Notation rows_writes := (rows_writes legacy P STEP s cfg).
  Notation row_writes := (row_writes legacy P STEP s cfg).
  Notation main_cells := (main_cells legacy P s cfg).
  Notation loop_after := (loop_after legacy STEP s).
  Notation r_fin := (r_fin (F := F) STEP).
  Notation r_after := (r_after legacy s).
  Notation r_next := (r_next legacy STEP s).
  Notation c0 := (col (sc_table cfg) 0).
  Notation tcols := (tcols P cfg).

  Definition started (o : nat) (lp : loop) : Prop := lp_start lp <= o \/ lp_new lp = true.
  Lemma started_next : forall o lp r, started o lp -> started (S o) (r_next o lp r).
  Proof.
    intros o lp r H. unfold started in H. left. unfold TableRows_proof.r_next. cbn [lp_start]. unfold r_start. destruct (lp_new lp); [lia|].
    destruct H as [H|H]; [lia|discriminate].
  Qed.
  Lemma start_le : forall o lp, started o lp -> r_start o lp <= o.
  Proof. intros o lp H. unfold started in H. unfold r_start. destruct (lp_new lp); [lia|]. destruct H as [H|H]; [lia|discriminate]. Qed.

  (** the columns other than the digest are written in their own row only *)
  Lemma main_distinct : forall lp r, NoDup (c0 :: map fst (main_cells lp r)).
  Proof.
    intros lp r. eapply Permutation_NoDup; [|exact Hnd]. unfold TableRows_proof.main_cells, TableLoad_proof.tcols, col. cbn [map fst].
    destruct (sc_table cfg) as [|t0 [|t1 [|t2 [|t3 [|t4 [|t5 [|]]]]]]]; try discriminate.
    destruct (sc_aux cfg) as [|a0 [|a1 [|a2 [|a3 [|a4 [|a5 [|]]]]]]]; try discriminate.
    cbn [nth app]. apply perm_skip.
    transitivity ([a0; a1; a2; a3; a4; a5] ++ [t1; t2; t3; t4; t5] ++ [sc_control_aux cfg; sc_continue cfg]).
    - exact (Permutation_app_swap_app [t1; t2; t3; t4; t5] [a0; a1; a2; a3; a4; a5] [sc_control_aux cfg; sc_continue cfg]).
    - do 3 apply perm_skip.
      exact (Permutation_app_tail ([t1; t2; t3; t4; t5] ++ [sc_control_aux cfg; sc_continue cfg]) (Permutation_app_comm [a3; a4] [a5])).
  Qed.
  Lemma NoDup_fst_unique : forall {V} (l : list (nat * V)) c v w, NoDup (map fst l) -> In (c, v) l -> In (c, w) l -> v = w.
  Proof.
    intros V l c v w. induction l as [|[d x] l IH]; intros N H1 H2; [destruct H1|]. cbn [map fst] in N.
    apply NoDup_cons_iff in N. destruct N as [N1 N2]. destruct H1 as [H1|H1]; destruct H2 as [H2|H2].
    - congruence.
    - injection H1 as -> ->. exfalso. apply N1. rewrite in_map_iff. exists (c, w). auto.
    - injection H2 as -> ->. exfalso. apply N1. rewrite in_map_iff. exists (c, v). auto.
    - auto.
  Qed.

  Lemma row_writes_c : forall o lp r c j v, c <> c0 -> In (c, j, v) (row_writes o lp r) ->
    j = o /\ exists x, v = Some x /\ In (c, x) (main_cells lp r).
  Proof.
    intros o lp r c j v Hc H. unfold TableRows_proof.row_writes in H. apply in_app_or in H. destruct H as [H|H].
    - rewrite in_map_iff in H. destruct H as ([c' x] & E & H). injection E as -> <- <-. split; [reflexivity|]. exists x. auto.
    - unfold digest_writes in H. destruct (r_fin r); [|destruct H]. rewrite in_map_iff in H. destruct H as (i & E & _).
      injection E as E _ _. congruence.
  Qed.
  Lemma rows_writes_c : forall rows o lp c j v, c <> c0 -> In (c, j, v) (rows_writes o lp rows) -> o <= j.
  Proof.
    induction rows as [|r rows IH]; intros o lp c j v Hc H; [destruct H|]. cbn [TableRows_proof.rows_writes] in H.
    apply in_app_or in H. destruct H as [H|H].
    - apply row_writes_c in H; [|assumption]. lia.
    - apply IH in H; [lia|assumption].
  Qed.

  Lemma main_value : forall rows o lp i r c v, nth_error rows i = Some r ->
    In (c, v) (main_cells (loop_after o lp (firstn i rows)) r) ->
    last_write (rows_writes o lp rows) c (i + o) = Some (Some v).
  Proof.
    induction rows as [|r' rows IH]; intros o lp i r c v Hr Hc; [destruct i; discriminate|].
    assert (C0 : c <> c0).
    { intros ->. pose proof (main_distinct (loop_after o lp (firstn i (r' :: rows))) r) as N.
      apply NoDup_cons_iff in N. destruct N as [N _]. apply N. rewrite in_map_iff. exists (c0, v). auto. }
    cbn [TableRows_proof.rows_writes]. rewrite last_write_app. destruct i as [|i].
    - injection Hr as ->. cbn [firstn TableRows_proof.loop_after] in Hc. cbn [Nat.add].
      rewrite (last_write_none (rows_writes (S o) _ rows)).
      2:{ intros w X. apply rows_writes_c in X; [lia|assumption]. }
      apply last_write_fun.
      + unfold TableRows_proof.row_writes. apply in_or_app. left. rewrite in_map_iff. exists (c, v). auto.
      + intros w X. apply row_writes_c in X; [|assumption]. destruct X as (_ & x & -> & X). f_equal.
        pose proof (main_distinct lp r) as N. apply NoDup_cons_iff in N. eapply NoDup_fst_unique; [apply N|exact X|exact Hc].
    - cbn [nth_error] in Hr. cbn [firstn TableRows_proof.loop_after] in Hc.
      pose proof (IH (S o) (r_next o lp r') i r c v Hr Hc) as E. replace (i + S o) with (S i + o) in E by lia.
      rewrite E. reflexivity.
  Qed.

  (** the digest of the message that is open in a row *)
  Fixpoint dig (o : nat) (lp : loop) (rows : list row) : option F :=
    match rows with
    | [] => None
    | r :: rs => if r_fin r then Some (nth 0 (r_after lp r) fzero) else dig (S o) (r_next o lp r) rs
    end.

  Lemma digest_value : forall rows o lp j, started o lp -> r_start o lp <= j < o + length rows ->
    last_write (rows_writes o lp rows) c0 j
    = option_map Some (dig (j - o + o) (loop_after o lp (firstn (j - o) rows)) (skipn (j - o) rows)).
  Proof.
    induction rows as [|r rows IH]; intros o lp j Hlp Hj.
    { cbn [length] in Hj. rewrite firstn_nil, skipn_nil. reflexivity. }
    cbn [TableRows_proof.rows_writes length] in *. rewrite last_write_app.
    pose proof (started_next o lp r Hlp) as Hlp'. pose proof (start_le o lp Hlp) as Hs.
    pose proof (fun v => row_writes_in legacy P STEP s cfg Htab Haux o lp r c0 j v Hlp) as WI.
    assert (W0 : forall k v, In (c0, k, v) (row_writes o lp r) ->
              r_fin r = true /\ v = Some (nth 0 (r_after lp r) fzero) /\ r_start o lp <= k <= o).
    { intros k v H. unfold TableRows_proof.row_writes in H. apply in_app_or in H. destruct H as [H|H].
      - exfalso. pose proof (main_distinct lp r) as N. apply NoDup_cons_iff in N. destruct N as [N _]. apply N.
        rewrite in_map_iff in H. destruct H as ([c' x] & E & H). injection E as -> _ _. rewrite in_map_iff. exists (c0, x). auto.
      - unfold digest_writes in H. destruct (r_fin r); [|destruct H]. rewrite in_map_iff in H. destruct H as (k' & E & H).
        injection E as -> <-. apply in_seq in H. split; [reflexivity|]. split; [reflexivity|]. lia. }
    destruct (Nat.le_gt_cases j o) as [Ho|Ho].
    - replace (j - o) with 0 by lia. cbn [firstn skipn TableRows_proof.loop_after dig Nat.add].
      destruct (r_fin r) eqn:Ef.
      + rewrite (last_write_none (rows_writes (S o) _ rows)).
        2:{ intros v X. apply rows_writes_in in X; [|assumption|assumption|exact Hlp'].
            unfold r_start, TableRows_proof.r_next in X. cbn [lp_new] in X. rewrite Ef in X. lia. }
        cbn [option_map]. apply last_write_fun.
        * unfold TableRows_proof.row_writes. apply in_or_app. right. unfold digest_writes. rewrite Ef.
          rewrite in_map_iff. exists j. split; [reflexivity|]. rewrite in_seq. lia.
        * intros w X. apply W0 in X. apply X.
      + assert (RN : r_start (S o) (r_next o lp r) = r_start o lp).
        { unfold r_start at 1, TableRows_proof.r_next. cbn [lp_new lp_start]. now rewrite Ef. }
        rewrite IH; [|exact Hlp'|lia].
        replace (j - S o) with 0 by lia. cbn [firstn skipn TableRows_proof.loop_after Nat.add].
        destruct (dig (S o) (r_next o lp r) rows); [reflexivity|]. cbn [option_map].
        apply last_write_none. intros v X. apply W0 in X. destruct X as [X _]. discriminate.
    - rewrite IH; [|exact Hlp'|].
      2:{ split; [|lia]. pose proof (start_le _ _ Hlp'). lia. }
      replace (j - o) with (S (j - S o)) by lia. cbn [firstn skipn TableRows_proof.loop_after].
      replace (j - S o + S o) with (S (j - S o) + o) by lia.
      destruct (dig (S (j - S o) + o) _ _); [reflexivity|]. cbn [option_map].
      apply last_write_none. intros v X. apply W0 in X. lia.
  Qed.

  (** the whole table *)
  Notation wr rows := (custom_writes P cfg ++ rows_writes 1 loop_start rows).
  Definition state_at (rows : list row) (i : nat) : loop := loop_after 1 loop_start (firstn i rows).

  Lemma custom_value : forall rows c, In c tcols -> last_write (wr rows) c 0 = Some (Some fzero).
  Proof.
    intros rows c Hc. rewrite last_write_app. rewrite (last_write_none (rows_writes 1 loop_start rows)).
    2:{ intros v X. apply rows_writes_in in X; [|assumption|assumption|now right]. cbn [r_start loop_start lp_new] in X. unfold r_start in X. cbn in X. lia. }
    apply last_write_fun.
    - unfold custom_writes. rewrite in_map_iff. exists c. auto.
    - intros w X. apply custom_writes_in in X. apply X.
  Qed.
  Lemma beyond_value : forall rows c j, length rows < j -> last_write (wr rows) c j = None.
  Proof.
    intros rows c j Hj. apply last_write_none. intros v X. apply in_app_or in X. destruct X as [X|X].
    - apply custom_writes_in in X. lia.
    - apply rows_writes_in in X; [|assumption|assumption|now right]. lia.
  Qed.
  Lemma row_value : forall rows i r c v, nth_error rows i = Some r -> In (c, v) (main_cells (state_at rows i) r) ->
    last_write (wr rows) c (S i) = Some (Some v).
  Proof.
    intros rows i r c v Hr Hc. rewrite last_write_app.
    pose proof (main_value rows 1 loop_start i r c v Hr Hc) as E. rewrite Nat.add_1_r in E. rewrite E. reflexivity.
  Qed.
  Lemma row_digest : forall rows i, i < length rows ->
    last_write (wr rows) c0 (S i) = option_map Some (dig (S i) (state_at rows i) (skipn i rows)).
  Proof.
    intros rows i Hi. rewrite last_write_app. rewrite digest_value.
    - replace (S i - 1) with i by lia. rewrite Nat.add_1_r. fold (state_at rows i).
      destruct (dig (S i) (state_at rows i) (skipn i rows)); [reflexivity|]. cbn [option_map].
      apply last_write_none. intros v X. apply custom_writes_in in X. lia.
    - now right.
    - unfold r_start. cbn [loop_start lp_new]. lia.
  Qed.

  (** the loop from row to row *)
  Lemma state_0 : forall rows, state_at rows 0 = loop_start.
  Proof. reflexivity. Qed.
  Lemma state_S : forall rows i r, nth_error rows i = Some r -> state_at rows (S i) = r_next (S i) (state_at rows i) r.
  Proof.
    clear Htab Haux Hnd. intros rows i r Hr. unfold state_at.
    assert (E : firstn (S i) rows = firstn i rows ++ [r]).
    { revert i Hr. induction rows as [|a rows IH]; intros i Hr; [destruct i; discriminate|]. destruct i as [|i].
      - injection Hr as ->. reflexivity.
      - cbn [nth_error] in Hr. change (firstn (S (S i)) (a :: rows)) with (a :: firstn (S i) rows). rewrite (IH i Hr). reflexivity. }
    rewrite E, loop_after_app. cbn [TableRows_proof.loop_after].
    assert (Hi : i < length rows) by (apply nth_error_Some; congruence).
    rewrite firstn_length, Nat.min_l by lia. rewrite Nat.add_1_r. reflexivity.
  Qed.
  Lemma state_new : forall rows i r, nth_error rows i = Some r -> lp_new (state_at rows (S i)) = r_fin r.
  Proof. clear Htab Haux Hnd. intros rows i r Hr. rewrite (state_S rows i r Hr). reflexivity. Qed.
  Lemma state_state : forall rows i r, nth_error rows i = Some r -> lp_state (state_at rows (S i)) = r_after (state_at rows i) r.
  Proof. clear Htab Haux Hnd. intros rows i r Hr. rewrite (state_S rows i r Hr). reflexivity. Qed.

  Lemma skipn_cons : forall (rows : list row) i r, nth_error rows i = Some r -> skipn i rows = r :: skipn (S i) rows.
  Proof.
    induction rows as [|a rows IH]; intros i r Hr; [destruct i; discriminate|]. destruct i as [|i].
    - injection Hr as ->. reflexivity.
    - cbn [nth_error] in Hr. change (skipn (S i) (a :: rows)) with (skipn i rows). rewrite (IH i r Hr). reflexivity.
  Qed.
  Lemma dig_row : forall rows i r, nth_error rows i = Some r ->
    dig (S i) (state_at rows i) (skipn i rows)
    = if r_fin r then Some (nth 0 (r_after (state_at rows i) r) fzero)
      else dig (S (S i)) (state_at rows (S i)) (skipn (S i) rows).
  Proof.
    clear Htab Haux Hnd. intros rows i r Hr. rewrite (skipn_cons rows i r Hr) at 1. cbn [dig]. rewrite <- (state_S rows i r Hr). reflexivity.
  Qed.
End Vals.
