(** The lemmas behind C36, C37 and C38 in PropertiesTable.v: the table builder. *)
From Coq Require Import ZArith NArith List Arith Lia Bool.
From Verif Require Import Field Rust ListAux Primitives Specs BaseHash SpecHash BigSum Link Base_claims Halo2 PermuteChip ChipUse
  SpongeTable TableUse TableMsg_proof TableState_proof Table_claims.
Import ListNotations.
Local Open Scope nat_scope.

Section Lists.
  Context {A : Type}.
  Lemma nth_beyond : forall (l : list A) i d, length l <= i -> nth i l d = d.
  Proof. intros. now apply nth_overflow. Qed.
  Lemma nth_resize : forall (l : list A) n d i, length l <= n -> nth i (resize n d l) d = nth i l d.
  Proof.
    intros l n d i H. unfold resize. rewrite firstn_all2 by assumption. destruct (Nat.lt_ge_cases i (length l)).
    - now rewrite app_nth1.
    - rewrite app_nth2, nth_repeat by assumption. symmetry. now apply nth_overflow.
  Qed.
  Lemma resize_length : forall (l : list A) n d, length l <= n -> length (resize n d l) = n.
  Proof. intros l n d H. unfold resize. rewrite app_length, firstn_all2, repeat_length by assumption. lia. Qed.
  (** reading a list extended at position [n] *)
  Lemma nth_extended : forall (l x : list A) n d i, length l <= n ->
    nth i (resize n d l ++ x) d = if i <? n then nth i l d else nth (i - n) x d.
  Proof.
    intros l x n d i H. destruct (i <? n) eqn:E.
    - apply Nat.ltb_lt in E. rewrite app_nth1 by (rewrite resize_length; assumption). now apply nth_resize.
    - apply Nat.ltb_ge in E. rewrite app_nth2; rewrite resize_length by assumption; [reflexivity|assumption].
  Qed.
  Lemma nth_app_full : forall (l x : list A) n d i, length l = n -> nth i (l ++ x) d = if i <? n then nth i l d else nth (i - n) x d.
  Proof.
    intros l x n d i <-. destruct (i <? length l) eqn:E.
    - apply Nat.ltb_lt in E. now rewrite app_nth1.
    - apply Nat.ltb_ge in E. now rewrite app_nth2.
  Qed.
  (** appending defaults changes nothing *)
  Lemma nth_defaults : forall (l : list A) d i k, nth i (l ++ repeat d k) d = nth i l d.
  Proof.
    intros l d i k. destruct (Nat.lt_ge_cases i (length l)); [now rewrite app_nth1|].
    rewrite app_nth2, nth_repeat by assumption. symmetry. now apply nth_overflow.
  Qed.
End Lists.

Section Series.
  Lemma series_length_le : forall k n step, length (control_series k n step) <= k.
  Proof. induction k as [|k IH]; intros n step; cbn [control_series length]; [lia|]. destruct (step <? n)%N; [specialize (IH (n - step)%N step)|]; cbn [length]; lia. Qed.
  Lemma series_full : forall k n step, length (control_series k n step) = k <-> (k <= 1 \/ (N.of_nat (k - 1) * step < n)%N).
  Proof.
    induction k as [|k IH]; intros n step; cbn [control_series length]; [split; [left; lia|reflexivity]|].
    destruct (step <? n)%N eqn:E.
    - apply N.ltb_lt in E. specialize (IH (n - step)%N step). split.
      + intros H. injection H as H. apply IH in H. destruct k as [|k]; [left; lia|]. right.
        cbn [Nat.sub] in *. rewrite Nat.sub_0_r in *. destruct H as [H|H].
        * assert (k = 0) by lia. subst k. rewrite N.mul_1_l. assumption.
        * rewrite Nat2N.inj_succ, N.mul_succ_l. lia.
      + intros H. f_equal. apply IH. destruct k as [|k]; [left; lia|]. cbn [Nat.sub] in *. rewrite Nat.sub_0_r in *.
        destruct H as [H|H]; [lia|]. right. rewrite Nat2N.inj_succ, N.mul_succ_l in H. lia.
    - apply N.ltb_ge in E. cbn [length]. split.
      + intros H. left. lia.
      + intros [H|H]; [lia|]. destruct k as [|k]; [reflexivity|]. exfalso.
        cbn [Nat.sub] in H. rewrite Nat2N.inj_succ, N.mul_succ_l in H. lia.
  Qed.
  Lemma series_nth : forall k n step i, length (control_series k n step) = k -> i < k ->
    nth i (control_series k n step) 0%N = (n - N.of_nat i * step)%N.
  Proof.
    induction k as [|k IH]; intros n step i H Hi; [lia|]. cbn [control_series length] in *.
    destruct i as [|i]; cbn [nth]; [now rewrite N.mul_0_l, N.sub_0_r|].
    destruct (step <? n)%N eqn:E; [|cbn [length] in H; lia].
    injection H as H. rewrite IH by (assumption || lia). rewrite Nat2N.inj_succ, N.mul_succ_l. lia.
  Qed.
End Series.

Section Claims.
  Context {F : Type} {FO : FieldOps F} {PF : PrimeField F}.

  Definition in_step (t : hash_table F) : Prop :=
    length (ht_controls t) <= table_size t /\ length (ht_domain t) <= table_size t /\ length (ht_checks t) <= table_size t.

  Lemma row_eq : forall (a a' : F * F) (b b' : N) (c c' : F) (d d' : option F), a = a' -> b = b' -> c = c' -> d = d' -> (a, b, c, d) = (a', b', c', d').
  Proof. intros. now subst. Qed.
  Lemma nth_fun : forall {A B} (f : A -> B) l i d e, i < length l -> nth i (map f l) e = f (nth i l d).
  Proof. intros A B f l i d e H. rewrite (nth_indep _ e (f d)) by (now rewrite map_length). apply map_nth. Qed.

  (** the rows of a table are a given list *)
  Definition shows (t : hash_table F) (rows : list (table_row (F := F))) : Prop :=
    in_step t /\ table_size t = length rows /\ forall i, row_of t i = nth i rows no_row.

  Lemma extend : forall t rows (t' : hash_table F) new, shows t rows -> in_step t' -> table_size t' = table_size t + length new ->
    (forall i, row_input t' i = if i <? table_size t then row_input t i else fst (fst (fst (nth (i - table_size t) new no_row)))) ->
    (forall i, row_control t' i = if i <? table_size t then row_control t i else snd (fst (fst (nth (i - table_size t) new no_row)))) ->
    (forall i, row_domain t' i = if i <? table_size t then row_domain t i else snd (fst (nth (i - table_size t) new no_row))) ->
    (forall i, row_check t' i = if i <? table_size t then row_check t i else snd (nth (i - table_size t) new no_row)) ->
    shows t' (rows ++ new).
  Proof.
    intros t rows t' new (S1 & S2 & S3) I E H1 H2 H3 H4. split; [assumption|]. split; [rewrite app_length; lia|].
    intros i. rewrite (nth_app_full rows new (table_size t)) by (now symmetry). rewrite <- S3. unfold row_of.
    rewrite H1, H2, H3, H4. destruct (i <? table_size t); [reflexivity|].
    destruct (nth (i - table_size t) new no_row) as [[[a b] c'] d]. reflexivity.
  Qed.

  (** a list of rows read column by column *)
  Lemma nth_col : forall {A B} (f : A -> table_row (F := F)) (p : table_row -> B) (g : A -> B) (l : list A) i e,
    (forall x, p (f x) = g x) -> p no_row = e -> p (nth i (map f l) no_row) = nth i (map g l) e.
  Proof.
    intros A B f p g l i e H H0. destruct (Nat.lt_ge_cases i (length l)) as [L|L].
    - destruct l as [|a l]; [cbn in L; lia|]. rewrite (nth_fun f _ i a), (nth_fun g _ i a) by assumption. apply H.
    - rewrite !nth_overflow by (rewrite map_length; assumption). exact H0.
  Qed.
  Lemma nth_const : forall {A B} (l : list A) (e : B) i, nth i (map (fun _ => e) l) e = e.
  Proof. induction l as [|a l IH]; intros e [|i]; cbn; auto. Qed.

  Lemma stream_shows : forall src check c step t rows t', shows t rows -> stream_inputs_with_check src check c step t = Ok t' ->
    shows t' (rows ++ stream_rows src check c step).
  Proof.
    intros src check c step t rows t' HS H. pose proof HS as HS'. destruct HS' as ((L1 & L2 & L3) & LR & _).
    unfold table_size in *. set (n := length (ht_inputs t)) in *.
      unfold stream_inputs_with_check in H.
      destruct (rassert (negb (length src =? 0))) eqn:R1; cbn [bind] in H; [|discriminate].
      destruct (rassert (length src =? length (control_series (length src) c (N.of_nat step)))) eqn:R2; cbn [bind] in H; [|discriminate].
      destruct (rassert (length (ht_inputs t ++ src) =? length (ht_controls t ++ control_series (length src) c (N.of_nat step)))) eqn:R3; cbn [bind] in H; [|discriminate].
      unfold rassert in R1, R2, R3.
      destruct (length src =? 0) eqn:Z; cbn [negb] in R1; [discriminate|]. apply Nat.eqb_neq in Z.
      destruct (length src =? length (control_series _ _ _)) eqn:Q2 in R2; [|discriminate]. apply Nat.eqb_eq in Q2.
      match type of R3 with (if ?x then _ else _) = _ => destruct x eqn:Q3; [|discriminate] end. apply Nat.eqb_eq in Q3.
      rewrite !app_length in Q3. fold n in Q3. assert (LC : length (ht_controls t) = n) by lia. injection H as <-.
      set (k := length src) in *.
      assert (LS : length (stream_rows src check c step) = k).
      { unfold stream_rows. rewrite map_length, combine_length, seq_length. fold k. lia. }
      assert (RW : forall i, i < k -> nth i (stream_rows src check c step) no_row
                    = (nth i src (fzero, fzero), (c - N.of_nat (i * step))%N, fzero, if S i =? k then check else None)).
      { intros i Hi. unfold stream_rows. rewrite (nth_fun _ _ i (0, (fzero, fzero))) by (rewrite combine_length, seq_length; fold k; lia).
        rewrite combine_nth by apply seq_length. fold k. rewrite seq_nth by assumption. reflexivity. }
      apply (extend t rows); unfold in_step, table_size, row_input, row_control, row_domain, row_check;
        cbn [ht_inputs ht_controls ht_domain ht_checks]; fold n.
      + assumption.
      + rewrite !app_length. fold n k. rewrite !resize_length by lia. rewrite <- Q2, LC. cbn [length]. lia.
      + rewrite app_length, LS. reflexivity.
      + intros i. rewrite (nth_app_full _ _ n) by reflexivity. destruct (i <? n); [reflexivity|].
        destruct (Nat.lt_ge_cases (i - n) k) as [L|L]; [now rewrite RW|]. rewrite !nth_overflow by (rewrite ?LS; assumption). reflexivity.
      + intros i. rewrite (nth_app_full _ _ n) by assumption. destruct (i <? n); [reflexivity|].
        destruct (Nat.lt_ge_cases (i - n) k) as [L|L].
        * rewrite RW by assumption. cbn [fst snd]. rewrite series_nth by (congruence || assumption). now rewrite Nat2N.inj_mul.
        * rewrite !nth_overflow by (rewrite ?LS, <- ?Q2; assumption). reflexivity.
      + intros i. rewrite nth_resize by (rewrite app_length; fold n; lia). destruct (i <? n) eqn:E; [reflexivity|].
        apply Nat.ltb_ge in E. rewrite nth_overflow by lia.
        destruct (Nat.lt_ge_cases (i - n) k) as [L|L]; [now rewrite RW|]. rewrite nth_overflow by (rewrite ?LS; assumption). reflexivity.
      + intros i. rewrite app_length. fold n k. rewrite nth_extended by lia. destruct (i <? n) eqn:E.
        * apply Nat.ltb_lt in E. assert (X : i <? n + k - 1 = true) by (apply Nat.ltb_lt; lia). now rewrite X.
        * apply Nat.ltb_ge in E. destruct (Nat.lt_ge_cases (i - n) k) as [L|L].
          -- rewrite RW by assumption. cbn [snd]. destruct (S (i - n) =? k) eqn:Y.
             ++ apply Nat.eqb_eq in Y. assert (X : i <? n + k - 1 = false) by (apply Nat.ltb_ge; lia). rewrite X.
                replace (i - (n + k - 1)) with 0 by lia. reflexivity.
             ++ apply Nat.eqb_neq in Y. assert (X : i <? n + k - 1 = true) by (apply Nat.ltb_lt; lia). rewrite X. apply nth_overflow. lia.
          -- assert (X : i <? n + k - 1 = false) by (apply Nat.ltb_ge; lia). rewrite X. rewrite !nth_overflow by (rewrite ?LS; cbn [length]; lia). reflexivity.
  Qed.

  (** stream_inputs is stream_inputs_with_check without a check *)
  Definition checked (b : builder_call (F := F)) : builder_call :=
    match b with StreamInputsUnchecked src c step => StreamInputs src None c step | _ => b end.
  Lemma checked_run : forall b t, builder_run b t = builder_run (checked b) t.
  Proof. now intros []. Qed.
  Lemma checked_rows : forall b, builder_rows b = builder_rows (checked b).
  Proof. now intros []. Qed.

  Lemma run_shows : forall b t rows t', shows t rows -> builder_run b t = Ok t' -> shows t' (rows ++ builder_rows b).
  Proof.
    intros b t rows t'. rewrite checked_run, checked_rows. intros HS H. pose proof HS as HS'. destruct HS' as ((L1 & L2 & L3) & LR & _).
    unfold table_size in *. set (n := length (ht_inputs t)) in *.
    destruct b as [src|src|src|src check c step|src c step]; cbn [checked builder_run builder_rows] in *.
    - injection H as <-. apply (extend t rows); unfold in_step, table_size, row_input, row_control, row_domain, row_check, constant_inputs;
        cbn [ht_inputs ht_controls ht_domain ht_checks]; fold n.
      + assumption.
      + rewrite app_length. fold n. lia.
      + rewrite app_length, map_length. reflexivity.
      + intros i. rewrite (nth_app_full _ src n) by reflexivity. destruct (i <? n); [reflexivity|].
        rewrite (nth_col _ (fun r => fst (fst (fst r))) (fun x => x) src _ (fzero, fzero)) by reflexivity. now rewrite map_id.
      + intros i. destruct (i <? n) eqn:E; [reflexivity|]. apply Nat.ltb_ge in E. rewrite nth_overflow by lia.
        rewrite (nth_col _ (fun r => snd (fst (fst r))) (fun _ => 0%N) src _ 0%N) by reflexivity. symmetry. apply nth_const.
      + intros i. destruct (i <? n) eqn:E; [reflexivity|]. apply Nat.ltb_ge in E. rewrite nth_overflow by lia.
        rewrite (nth_col _ (fun r => snd (fst r)) (fun _ => fzero) src _ fzero) by reflexivity. symmetry. apply nth_const.
      + intros i. destruct (i <? n) eqn:E; [reflexivity|]. apply Nat.ltb_ge in E. rewrite nth_overflow by lia.
        rewrite (nth_col _ snd (fun _ => None) src _ None) by reflexivity. symmetry. apply nth_const.
    - injection H as <-. apply (extend t rows); unfold in_step, table_size, row_input, row_control, row_domain, row_check, constant_inputs_with_check;
        cbn [ht_inputs ht_controls ht_domain ht_checks]; fold n.
      + assumption.
      + rewrite !app_length, !map_length, resize_length by assumption. fold n. lia.
      + rewrite app_length, !map_length. reflexivity.
      + intros i. rewrite (nth_app_full _ _ n) by reflexivity. destruct (i <? n); [reflexivity|].
        rewrite (nth_col _ (fun r => fst (fst (fst r))) fst src _ (fzero, fzero)) by (first [reflexivity | intros [? ?]; reflexivity]). reflexivity.
      + intros i. replace (map (fun _ : F * F * F => 0%N) src) with (repeat 0%N (length src)).
        2:{ clear. induction src as [|a src IH]; cbn; congruence. }
        rewrite nth_defaults. destruct (i <? n) eqn:E; [reflexivity|]. apply Nat.ltb_ge in E. rewrite nth_overflow by lia.
        rewrite (nth_col _ (fun r => snd (fst (fst r))) (fun _ => 0%N) src _ 0%N) by (first [reflexivity | intros [? ?]; reflexivity]). symmetry. apply nth_const.
      + intros i. destruct (i <? n) eqn:E; [reflexivity|]. apply Nat.ltb_ge in E. rewrite nth_overflow by lia.
        rewrite (nth_col _ (fun r => snd (fst r)) (fun _ => fzero) src _ fzero) by (first [reflexivity | intros [? ?]; reflexivity]). symmetry. apply nth_const.
      + intros i. rewrite nth_extended by assumption. destruct (i <? n); [reflexivity|].
        rewrite (nth_col _ snd (fun x => Some (snd x)) src _ None) by (first [reflexivity | intros [? ?]; reflexivity]). reflexivity.
    - injection H as <-. apply (extend t rows); unfold in_step, table_size, row_input, row_control, row_domain, row_check, fixed_inputs;
        cbn [ht_inputs ht_controls ht_domain ht_checks]; fold n.
      + assumption.
      + rewrite !app_length, !map_length, !resize_length by assumption. fold n. lia.
      + rewrite app_length, !map_length. reflexivity.
      + intros i. rewrite (nth_app_full _ _ n) by reflexivity. destruct (i <? n); [reflexivity|].
        rewrite (nth_col _ (fun r => fst (fst (fst r))) (fun x => fst (fst x)) src _ (fzero, fzero)) by (first [reflexivity | intros [[? ?] ?]; reflexivity]). reflexivity.
      + intros i. rewrite nth_extended by assumption. destruct (i <? n); [reflexivity|].
        rewrite (nth_col _ (fun r => snd (fst (fst r))) (fun _ => 0%N) src _ 0%N) by (first [reflexivity | intros [[? ?] ?]; reflexivity]). reflexivity.
      + intros i. rewrite nth_extended by assumption. destruct (i <? n); [reflexivity|].
        rewrite (nth_col _ (fun r => snd (fst r)) (fun x => snd (fst x)) src _ fzero) by (first [reflexivity | intros [[? ?] ?]; reflexivity]).
        destruct (Nat.lt_ge_cases (i - n) (length src)) as [L|L].
        * destruct src as [|a src]; [cbn in L; lia|]. rewrite !(nth_fun _ _ _ a) by assumption. reflexivity.
        * rewrite !nth_overflow by (rewrite map_length; assumption). reflexivity.
      + intros i. rewrite nth_extended by assumption. destruct (i <? n); [reflexivity|].
        rewrite (nth_col _ snd snd src _ None) by (first [reflexivity | intros [[? ?] ?]; reflexivity]). reflexivity.
    - eapply stream_shows; eassumption.
    - eapply stream_shows; eassumption.
  Qed.

  Lemma runs_shows : forall bs t rows t', shows t rows -> builder_runs bs t = Ok t' -> shows t' (rows ++ flat_map builder_rows bs).
  Proof.
    induction bs as [|b bs IH]; intros t rows t' HS H; cbn [builder_runs flat_map] in *.
    - injection H as <-. now rewrite app_nil_r.
    - destruct (builder_run b t) as [t1|] eqn:E; [|discriminate]. rewrite app_assoc. eapply IH; [|exact H]. eapply run_shows; eassumption.
  Qed.
  Lemma empty_shows : shows empty_table [].
  Proof. split; [unfold in_step; cbn; lia|]. split; [reflexivity|]. intros [|i]; reflexivity. Qed.

  (** C36 *)
  Theorem builder_claim : forall bs t, builder_runs bs empty_table = Ok t ->
    table_size t = length (flat_map builder_rows bs)
    /\ forall i, row_of t i = nth i (flat_map builder_rows bs) no_row.
  Proof. intros bs t H. pose proof (runs_shows bs _ _ _ empty_shows H) as (_ & S1 & S2). split; assumption. Qed.

  (** C37 *)
  Theorem stream_claim : forall src check c step (t : hash_table F),
    let k := length src in let n := table_size t in
    ((exists t', stream_inputs_with_check src check c step t = Ok t') <->
      length (ht_controls t) = n /\ 0 < k /\ (k = 1 \/ (N.of_nat ((k - 1) * step) < c)%N))
    /\ (forall t', stream_inputs_with_check src check c step t = Ok t' ->
        (forall i, i < k -> row_control t' (n + i) = (c - N.of_nat (i * step))%N)
        /\ ((row_control t' (n + (k - 1)) <= N.of_nat step)%N <-> (c <= N.of_nat (k * step))%N)).
  Proof.
    intros src check c step t k n.
    pose proof (series_full k c (N.of_nat step)) as SF.
    set (ser := control_series k c (N.of_nat step)) in *.
    assert (St : stream_inputs_with_check src check c step t
      = if negb (k =? 0) && (k =? length ser) && (n + k =? length (ht_controls t) + length ser)
        then Ok {| ht_inputs := ht_inputs t ++ src; ht_controls := ht_controls t ++ ser;
                   ht_domain := resize (length (ht_inputs t ++ src)) None (ht_domain t);
                   ht_checks := resize (length (ht_inputs t ++ src) - 1) None (ht_checks t) ++ [check] |}
        else Panic).
    { unfold stream_inputs_with_check. fold k. fold ser. rewrite !app_length. fold k. unfold table_size in n. fold n. unfold rassert.
      destruct (negb (k =? 0)); cbn [bind andb]; [|reflexivity]. destruct (k =? length ser); cbn [bind andb]; [|reflexivity].
      destruct (n + k =? length (ht_controls t) + length ser); reflexivity. }
    assert (Cond : negb (k =? 0) && (k =? length ser) && (n + k =? length (ht_controls t) + length ser) = true <->
                   length (ht_controls t) = n /\ 0 < k /\ (k = 1 \/ (N.of_nat ((k - 1) * step) < c)%N)).
    { rewrite !andb_true_iff, negb_true_iff, Nat.eqb_neq, !Nat.eqb_eq, Nat2N.inj_mul. split.
      - intros ((K0 & K1) & K2). split; [lia|]. split; [lia|]. symmetry in K1. apply SF in K1. destruct K1 as [K1|K1]; [left; lia|now right].
      - intros (K1 & K2 & K3). assert (K4 : length ser = k) by (apply SF; destruct K3 as [K3|K3]; [left; lia|now right]). lia. }
    rewrite St. destruct (negb (k =? 0) && (k =? length ser) && (n + k =? length (ht_controls t) + length ser)).
    - destruct (proj1 Cond eq_refl) as (A1 & A2 & A3). assert (A4 : length ser = k).
      { apply SF. destruct A3 as [A3|A3]; [left; lia|]. right. now rewrite Nat2N.inj_mul in A3. }
      split; [split; [intros _; tauto|intros _; eauto]|].
      intros t' H. injection H as <-. unfold row_control. cbn [ht_controls].
      assert (R : forall i, i < k -> nth (n + i) (ht_controls t ++ ser) 0%N = (c - N.of_nat (i * step))%N).
      { intros i Hi. rewrite app_nth2 by lia. replace (n + i - length (ht_controls t)) with i by lia.
        unfold ser. rewrite series_nth by assumption. now rewrite Nat2N.inj_mul. }
      split; [exact R|]. rewrite R by lia.
      assert (X : k * step = (k - 1) * step + step) by nia. rewrite X, Nat2N.inj_add. lia.
    - split; [split; [intros [t' H]; discriminate|intros H; apply Cond in H; discriminate]|intros t' H; discriminate].
  Qed.

  (** ** C38 *)
  Section Hashes.
    Variable c : p128_constants F.
    Variable short : bool.
    Variable s : spec F.
    Hypothesis Hc : constants_ok c.
    Hypothesis Hs : cached_hash_spec short c = Ok s.
    Variable legacy : bool.
    Variables range step calcs : nat.
    Hypothesis Hrs : range <= step.
    Variable t : hash_table F.
    Variable dg : nat -> F.
    Notation perm := (poseidon_permutation c).
    Notation state := (row_state perm legacy range t).
    Hypothesis Hlen : forall x, length x = 3 -> length (perm x) = 3.
    Hypothesis Hdg : forall i k, i + k < calcs -> (forall j, i <= j < i + k -> (N.of_nat range < row_control t j)%N) ->
      (row_control t (i + k) <= N.of_nat range)%N -> dg i = nth 0 (state (i + k)) fzero.

    Definition boundary (o : nat) : Prop := match o with O => True | S j => (row_control t j <= N.of_nat range)%N end.
    Lemma boundary_state : forall o, boundary o -> state o = perm (row_fresh legacy t o).
    Proof. intros [|j] H; [reflexivity|]. cbn [row_state]. unfold boundary in H. apply N.leb_le in H. now rewrite H. Qed.

    Add Field Ffield : f_field.

    Lemma plain_rows : forall (l : list ((F * F) * F * option F)) o, boundary o -> o + length l <= calcs ->
      (forall i, i < length l -> row_of t (o + i) = nth i (map (fun '(x, d, ck) => (x, 0%N, d, ck)) l) no_row) ->
      boundary (o + length l)
      /\ map (fun i => Ok (dg i)) (seq o (length l)) = map (fun '(x, d, _) => hash_with_domain s x d) l.
    Proof.
      induction l as [|[[[a b] d] ck] l IH]; intros o Bo Ho HR; cbn [length seq map] in *; [rewrite Nat.add_0_r; split; [assumption|reflexivity]|].
      pose proof (HR 0 ltac:(lia)) as R0. rewrite Nat.add_0_r in R0. cbn [nth] in R0. unfold row_of in R0. injection R0 as R1 R2 R3 _.
      destruct (IH (S o)) as [B1 E1].
      - unfold boundary. rewrite R2. lia.
      - lia.
      - intros i Hi. rewrite Nat.add_succ_comm. exact (HR (S i) ltac:(lia)).
      - split; [now rewrite <- plus_n_Sm|]. f_equal; [|exact E1].
        rewrite (Hdg o 0) by (rewrite ?Nat.add_0_r, ?R2; try lia; intros; lia). rewrite Nat.add_0_r, boundary_state by assumption.
        unfold row_fresh. rewrite R1, R2, R3. cbn [fst snd].
        destruct (two_word_claim short false c s a b Hc Hs) as (Q & _). rewrite Q. unfold two_word_hash. f_equal. f_equal. f_equal. f_equal.
        unfold length_code. rewrite Z.mul_0_l, of_Z_0. ring.
    Qed.

    Lemma fold_states : forall k o, (forall i, i < k -> (N.of_nat range < row_control t (o + i))%N) ->
      state (o + k) = fold_left (fun st r => perm [nth 0 st fzero; fadd (nth 1 st fzero) (fst (row_input t r)); fadd (nth 2 st fzero) (snd (row_input t r))])
                        (seq (S o) k) (state o).
    Proof.
      induction k as [|k IH]; intros o H; [now rewrite Nat.add_0_r|].
      rewrite seq_S, fold_left_app. cbn [fold_left]. rewrite <- IH by (intros; apply H; lia).
      rewrite <- plus_n_Sm. cbn [row_state Nat.add]. pose proof (H k ltac:(lia)) as Hk. apply N.leb_gt in Hk. rewrite Hk. reflexivity.
    Qed.

    Lemma seq_shift_by : forall a k, seq a k = map (fun i => a + i) (seq 0 k).
    Proof.
      intros a k. revert a. induction k as [|k IH]; intros a; [reflexivity|]. cbn [seq map]. rewrite Nat.add_0_r. f_equal.
      rewrite (IH (S a)), <- seq_shift, map_map. apply map_ext. intros i. lia.
    Qed.
    Lemma map_seq_nth : forall {A B} (f : A -> B) (l : list A) d, map f l = map (fun i => f (nth i l d)) (seq 0 (length l)).
    Proof.
      induction l as [|a l IH]; intros d; [reflexivity|]. cbn [length seq map nth]. f_equal. rewrite (IH d), <- seq_shift, map_map. reflexivity.
    Qed.

    Lemma stream_state : forall src check c0 o, boundary o -> 0 < length src ->
      (length src = 1 \/ (N.of_nat ((length src - 1) * step) < c0)%N) ->
      (c0 <= N.of_nat ((length src - 1) * step + range))%N -> o + length src <= calcs ->
      (forall i, i < length src -> row_of t (o + i) = nth i (stream_rows src check c0 step) no_row) ->
      boundary (o + length src)
      /\ map (fun i => Ok (dg i)) (seq o (length src)) = api_hashes legacy s (StreamInputs src check c0 step).
    Proof.
      intros src check c0 o Bo Hk Hacc Hsz Ho HR. set (k := length src) in *.
      assert (RW : forall i, i < k -> row_input t (o + i) = nth i src (fzero, fzero) /\ row_control t (o + i) = (c0 - N.of_nat (i * step))%N
                                      /\ row_domain t (o + i) = fzero).
      { intros i Hi. specialize (HR i Hi). unfold stream_rows in HR.
        rewrite (nth_fun _ _ i (0, (fzero, fzero))) in HR by (rewrite combine_length, seq_length; fold k; lia).
        rewrite combine_nth in HR by apply seq_length. fold k in HR. rewrite seq_nth in HR by assumption.
        unfold row_of in HR. injection HR as R1 R2 R3 _. auto. }
      assert (Hmid : forall i, i < k - 1 -> (N.of_nat range < row_control t (o + i))%N).
      { intros i Hi. destruct (RW i ltac:(lia)) as (_ & -> & _). destruct Hacc as [Hacc|Hacc]; [lia|].
        assert (X : i * step + range <= (k - 1) * step) by nia. 
        assert (Y : (N.of_nat (i * step) + N.of_nat range <= N.of_nat ((k - 1) * step))%N) by lia. lia. }
      assert (Hend : (row_control t (o + (k - 1)) <= N.of_nat range)%N).
      { destruct (RW (k - 1) ltac:(lia)) as (_ & -> & _). lia. }
      split. { unfold boundary. destruct (o + k) as [|j] eqn:E; [exact I|]. replace j with (o + (k - 1)) by lia. exact Hend. }
      set (final := nth 0 (state (o + (k - 1))) fzero).
      assert (All : forall i, i < k -> dg (o + i) = final).
      { intros i Hi. unfold final. replace (o + (k - 1)) with ((o + i) + (k - 1 - i)) by lia. apply Hdg.
        - lia.
        - intros j Hj. replace j with (o + (j - o)) by lia. apply Hmid. lia.
        - replace (o + i + (k - 1 - i)) with (o + (k - 1)) by lia. exact Hend. }
      cbn [api_hashes]. fold k.
      assert (FH : hash_msg legacy s (flat_map (fun '(a, b) => [a; b]) src) (Some (c0 * (if legacy then 1 else 2 ^ 64))%N) = Ok final).
      { rewrite (hash_msg_claim short legacy c s _ _ Hc Hs).
        destruct src as [|[a0 b0] src']; [cbn in Hk; lia|]. cbn [flat_map app]. f_equal.
        unfold message_hash, sponge_hash. f_equal. unfold final. f_equal.
        change (a0 :: b0 :: flat_map (fun '(a, b) => [a; b]) src') with (flat_map (fun '(a, b) => [a; b]) ((a0, b0) :: src')).
        assert (Efl : flat_map (fun '(a, b) => [a; b]) ((a0, b0) :: src') = flat_map (fun r : F * F => [fst r; snd r]) ((a0, b0) :: src')).
        { clear. generalize ((a0, b0) :: src'). induction l as [|[x y] l IH]; cbn; congruence. }
        rewrite Efl, pair_blocks. clear Efl.
        rewrite fold_states by exact Hmid. rewrite boundary_state by assumption. unfold row_fresh.
        destruct (RW 0 ltac:(lia)) as (R1 & R2 & R3). rewrite Nat.add_0_r in R1, R2, R3. rewrite R1, R2, R3. cbn [nth fst snd Nat.mul].
        cbn [N.of_nat]. rewrite N.sub_0_r. cbn [map].
        match goal with |- context [init_state 3 0 ?x] => change (init_state 3 0 x) with [x; fzero; fzero] end.
        set (cap := of_Z _). 
        unfold absorb_blocks. cbn [fold_left].
        set (st := perm (add_block 1 [cap; fzero; fzero] [fst (a0, b0); snd (a0, b0)])).
        assert (Es : perm [fadd (length_code legacy c0) fzero; a0; b0] = st).
        { unfold st, add_block. cbn [length seq map nth Nat.leb Nat.sub fst snd]. f_equal.
          replace cap with (length_code (F := F) legacy c0).
          - repeat first [ring | f_equal].
          - unfold cap, length_code. f_equal. rewrite N2Z.inj_mul. f_equal. destruct legacy; reflexivity. }
        rewrite Es. assert (Ls : length st = 3) by (apply Hlen; reflexivity).
        change (fold_left (fun st b => perm (add_block 1 st b)) ?l ?x) with (absorb_blocks perm 1 l x).
        rewrite (absorb_rows perm (fun r => row_input t r) _ st Hlen Ls).
        f_equal. rewrite (map_seq_nth (fun r : F * F => [fst r; snd r]) src' (fzero, fzero)).
        assert (Ek : k - 1 = length src') by (unfold k; cbn [length]; lia). rewrite Ek.
        rewrite (seq_shift_by (S o) (length src')), map_map. apply map_ext_in. intros i Hi. apply in_seq in Hi.
        destruct (RW (S i) ltac:(lia)) as (R4 & _ & _). replace (S o + i) with (o + S i) by lia. rewrite R4. reflexivity. }
      rewrite FH. clear FH. clearbody k final. revert All. clear. intros All. revert o All.
      induction k as [|k IH]; intros o All; [reflexivity|]. cbn [seq map repeat]. f_equal.
      - f_equal. specialize (All 0 ltac:(lia)). now rewrite Nat.add_0_r in All.
      - apply IH. intros i Hi. rewrite <- (All (S i)) by lia. f_equal. lia.
    Qed.

    (** a call that did not panic *)
    Definition accepted_call (b : builder_call (F := F)) : Prop :=
      match b with
      | StreamInputs src _ c0 st | StreamInputsUnchecked src c0 st => 0 < length src /\ (length src = 1 \/ (N.of_nat ((length src - 1) * st) < c0)%N)
      | _ => True
      end.
    Lemma stream_rows_length : forall src check c0 st, length (stream_rows (F := F) src check c0 st) = length src.
    Proof. intros. unfold stream_rows. rewrite map_length, combine_length, seq_length. lia. Qed.

    Lemma call_hashes : forall b o, accepted_call b -> sized range step b -> boundary o -> o + length (builder_rows b) <= calcs ->
      (forall i, i < length (builder_rows b) -> row_of t (o + i) = nth i (builder_rows b) no_row) ->
      boundary (o + length (builder_rows b))
      /\ map (fun i => Ok (dg i)) (seq o (length (builder_rows b))) = api_hashes legacy s b.
    Proof.
      intros b o HA HS Bo Ho HR. destruct b as [src|src|src|src check c0 st|src c0 st].
      - cbn [builder_rows api_hashes] in *. set (l := map (fun x : F * F => (x, fzero, @None F)) src).
        assert (E1 : map (fun x => (x, 0%N, fzero, None)) src = map (fun '(x, d, ck) => (x, 0%N, d, ck)) l) by (unfold l; now rewrite map_map).
        assert (E2 : map (fun x => hash_with_domain s x fzero) src = map (fun '(x, d, _) => hash_with_domain s x d) l) by (unfold l; now rewrite map_map).
        rewrite E1, E2 in *. rewrite map_length in *. now apply plain_rows.
      - cbn [builder_rows api_hashes] in *. set (l := map (fun '(x, ck) => (x, fzero, Some ck) : (F * F) * F * option F) src).
        assert (E1 : map (fun '(x, ck) => (x, 0%N, fzero, Some ck)) src = map (fun '(x, d, ck) => (x, 0%N, d, ck)) l).
        { unfold l. rewrite map_map. apply map_ext. now intros [x ck]. }
        assert (E2 : map (fun '(x, _) => hash_with_domain s x fzero) src = map (fun '(x, d, _) => hash_with_domain s x d) l).
        { unfold l. rewrite map_map. apply map_ext. now intros [x ck]. }
        rewrite E1, E2 in *. rewrite map_length in *. now apply plain_rows.
      - cbn [builder_rows api_hashes] in *. rewrite map_length in *. now apply plain_rows.
      - cbn [builder_rows] in *. rewrite stream_rows_length in *. destruct HS as [-> HS]. destruct HA as [HA1 HA2]. now apply stream_state.
      - cbn [builder_rows] in *. rewrite stream_rows_length in *. destruct HS as [-> HS]. destruct HA as [HA1 HA2]. now apply (stream_state src None).
    Qed.

    Lemma calls_hashes : forall bs o, Forall accepted_call bs -> Forall (sized range step) bs -> boundary o ->
      o + length (flat_map builder_rows bs) <= calcs ->
      (forall i, i < length (flat_map builder_rows bs) -> row_of t (o + i) = nth i (flat_map builder_rows bs) no_row) ->
      map (fun i => Ok (dg i)) (seq o (length (flat_map builder_rows bs))) = flat_map (api_hashes legacy s) bs.
    Proof.
      induction bs as [|b bs IH]; intros o HA HS Bo Ho HR; [reflexivity|]. cbn [flat_map] in *. rewrite app_length in *.
      inversion_clear HA as [|? ? A1 A2]. inversion_clear HS as [|? ? S1 S2].
      destruct (call_hashes b o A1 S1 Bo ltac:(lia)) as [B1 E1].
      { intros i Hi. rewrite (HR i) by lia. now rewrite app_nth1. }
      rewrite seq_app, map_app, E1. f_equal. apply IH; try assumption; [lia|].
      intros i Hi. rewrite <- Nat.add_assoc, HR by lia. rewrite app_nth2 by lia. f_equal. lia.
    Qed.
  End Hashes.

  Lemma runs_accepted : forall bs (t t' : hash_table F), builder_runs bs t = Ok t' -> Forall accepted_call bs.
  Proof.
    induction bs as [|b bs IH]; intros t t' H; [constructor|]. cbn [builder_runs] in H.
    destruct (builder_run b t) as [t1|] eqn:E; [|discriminate]. constructor; [|eapply IH; exact H].
    destruct b as [src|src|src|src check c0 st|src c0 st]; try exact I; cbn [builder_run accepted_call] in *.
    - destruct (stream_claim src check c0 st t) as [Q _]. destruct (proj1 Q (ex_intro _ t1 E)) as (_ & Q1 & Q2). auto.
    - destruct (stream_claim src None c0 st t) as [Q _]. destruct (proj1 Q (ex_intro _ t1 E)) as (_ & Q1 & Q2). auto.
  Qed.

  (** C37: which sessions do not panic *)
  Lemma resize_len : forall {A} n (x : A) l, length (resize n x l) = n.
  Proof. intros A n x l. unfold resize. rewrite app_length, firstn_length, repeat_length. lia. Qed.
  Lemma session_from : forall bs (t : hash_table F) aligned, length (ht_controls t) <= table_size t ->
    aligned = (length (ht_controls t) =? table_size t) ->
    ((exists t', builder_runs bs t = Ok t') <-> session_ok aligned bs).
  Proof.
    induction bs as [|b bs IH]; intros t aligned HL HA; [cbn; split; [trivial|intros _; eauto]|].
    assert (ST : forall src check c step, (exists t', match stream_inputs_with_check src check c step t with
                     Ok t1 => builder_runs bs t1 | Panic => Panic end = Ok t')
                   <-> aligned = true /\ stream_fits src c step /\ session_ok true bs).
    { intros src check c step. destruct (stream_claim src check c step t) as [Q _]. unfold stream_fits.
      destruct (stream_inputs_with_check src check c step t) as [t1|] eqn:E.
      - destruct (proj1 Q (ex_intro _ t1 eq_refl)) as (Q1 & Q2 & Q3).
        assert (L1 : length (ht_controls t1) = table_size t1).
        { revert E. unfold stream_inputs_with_check, table_size.
          destruct (rassert (negb (length src =? 0))); cbn [bind]; [|discriminate].
          destruct (rassert (length src =? length (control_series (length src) c (N.of_nat step)))); cbn [bind]; [|discriminate].
          destruct (length (ht_inputs t ++ src) =? length (ht_controls t ++ control_series (length src) c (N.of_nat step))) eqn:E;
            cbn [rassert bind]; [|discriminate].
          intros H. injection H as <-. apply Nat.eqb_eq in E. symmetry. exact E. }
        rewrite (IH t1 true) by (rewrite ?L1, ?Nat.eqb_refl; auto). rewrite HA, Nat.eqb_eq. tauto.
      - split; [intros [t' H]; discriminate|]. intros (A1 & A2 & _). exfalso. rewrite HA, Nat.eqb_eq in A1.
        destruct (proj2 Q (conj A1 A2)) as [t' H]. discriminate. }
    destruct b as [src|src|src|src check c0 st|src c0 st]; cbn [builder_runs builder_run session_ok].
    - apply IH; unfold constant_inputs, table_size in *; cbn [ht_inputs ht_controls]; rewrite app_length; [lia|].
      rewrite HA. destruct (length src =? 0) eqn:E; [apply Nat.eqb_eq in E; now rewrite E, Nat.add_0_r, andb_true_r|].
      apply Nat.eqb_neq in E. rewrite andb_false_r. symmetry. apply Nat.eqb_neq. lia.
    - apply IH; unfold constant_inputs_with_check, table_size in *; cbn [ht_inputs ht_controls]; rewrite !app_length, !map_length; [lia|].
      rewrite HA. destruct (Nat.eqb_spec (length (ht_controls t)) (length (ht_inputs t))); symmetry; [apply Nat.eqb_eq|apply Nat.eqb_neq]; lia.
    - apply IH; unfold fixed_inputs, table_size in *; cbn [ht_inputs ht_controls]; rewrite !app_length, !map_length, resize_len; [lia|].
      symmetry. apply Nat.eqb_refl.
    - apply ST.
    - apply ST.
  Qed.
  Theorem session_claim : forall bs : list (builder_call (F := F)),
    (exists t, builder_runs bs empty_table = Ok t) <-> session_ok true bs.
  Proof. intros bs. apply session_from; cbn; auto. Qed.

  Theorem contents_claim : forall c (C : hash_circuit F) mode calcs bs t L0 L1 L copies n u blind step,
    builder_runs bs empty_table = Ok t -> Forall (sized (hc_range C) step) bs -> hc_range C <= step -> table_size t <= calcs ->
    set_up c C mode calcs t L0 L1 L copies n u ->
    map (fun i => Ok (digest C (honest u L blind) (S i))) (seq 0 (table_size t))
    = flat_map (api_hashes (hc_legacy C) (hc_spec C)) bs.
  Proof.
    intros c C mode calcs bs t L0 L1 L copies n u blind step HB HS Hr Hcap (HC & HL & (short & h & B & Hh) & Hu & _).
    destruct (build_facts _ _ _ _ _ B) as (Hc & (base & Hs) & HP & HPm & Hlen).
    destruct (builder_claim bs t HB) as [E1 E2].
    rewrite E1.
    apply (calls_hashes c base (hc_spec C) Hc Hs (hc_legacy C) (hc_range C) step calcs Hr t (fun i => digest C (honest u L blind) (S i)) Hlen).
    - intros i k Hi H1 H2.
      destruct (honest_rows C _ h HC HP HPm mode calcs t L0 L1 L copies u blind HL Hu i ltac:(lia)) as (_ & _ & _ & _ & _ & HD & _).
      exact (HD k Hi H1 H2).
    - eapply runs_accepted; exact HB.
    - assumption.
    - exact I.
    - rewrite <- E1. assumption.
    - intros i _. exact (E2 i).
  Qed.
End Claims.
