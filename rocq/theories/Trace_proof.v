(** Layouts built region by region: regions never overlap, so every cell keeps what its region wrote. *)
From Coq Require Import ZArith List Arith Lia Bool.
From Verif Require Import Field Rust ListAux Halo2 ChipUse Built Layout_proof Contract.
Import ListNotations.
Local Open Scope nat_scope.

Section Trace.
  Context {F : Type} {FO : FieldOps F}.

  (** a region: its first row and its events *)
  Notation ent := (nat * list (event F))%type.

  Definition separate (a b : ent) : Prop := forall c o o',
    In (c, o) (touched (snd a)) -> In (c, o') (touched (snd b)) -> o + fst a <> o' + fst b.
  Record trace (L : layout F) (rs : list ent) : Prop := {
    tr_adv : lo_adv L = flat_map (fun e => abs_adv (fst e) (snd e)) rs;
    tr_fix : lo_fix L = flat_map (fun e => abs_fix (fst e) (snd e)) rs;
    tr_sel : lo_sel L = flat_map (fun e => abs_sel (fst e) (snd e)) rs;
    tr_next : forall e c o, In e rs -> In (c, o) (touched (snd e)) -> o + fst e < lo_next L c;
    tr_sep : ForallOrdPairs separate rs
  }.

  Lemma trace_empty : forall m, trace (layout_empty m) [].
  Proof. intros m. constructor; try reflexivity; [easy|constructor]. Qed.

  Lemma OrdPairs_snoc : forall {A} (R : A -> A -> Prop) l x, ForallOrdPairs R l -> Forall (fun a => R a x) l ->
    ForallOrdPairs R (l ++ [x]).
  Proof.
    intros A R l x H. induction H as [|a l H1 H2 IH]; intros H; cbn [app].
    - repeat constructor.
    - inversion H; subst. constructor; [|now apply IH]. apply Forall_app. split; [assumption|]. now constructor.
  Qed.

  (** add a region whose cells are beyond all next rows *)
  Lemma trace_snoc : forall L rs L' (e : ent), trace L rs ->
    lo_adv L' = lo_adv L ++ abs_adv (fst e) (snd e) -> lo_fix L' = lo_fix L ++ abs_fix (fst e) (snd e) ->
    lo_sel L' = lo_sel L ++ abs_sel (fst e) (snd e) ->
    (forall c, lo_next L c <= lo_next L' c) ->
    (forall c o, In (c, o) (touched (snd e)) -> lo_next L c <= fst e /\ o + fst e < lo_next L' c) ->
    trace L' (rs ++ [e]).
  Proof.
    intros L rs L' e [A B C D E] HA HB HC HN HT. constructor.
    - rewrite HA, A, flat_map_app. cbn. now rewrite app_nil_r.
    - rewrite HB, B, flat_map_app. cbn. now rewrite app_nil_r.
    - rewrite HC, C, flat_map_app. cbn. now rewrite app_nil_r.
    - intros e' c o He Ho. apply in_app_iff in He. destruct He as [He|[<-|[]]].
      + eapply Nat.lt_le_trans; [eapply D; eassumption|apply HN].
      + now apply HT.
    - apply OrdPairs_snoc; [assumption|]. apply Forall_forall. intros e' He c o o' H1 H2.
      pose proof (D e' c o He H1). pose proof (HT c o' H2). lia.
  Qed.

  Lemma region_start_ge : forall next (evs : list (event F)) c o, In (c, o) (touched evs) -> next c <= region_start next evs.
  Proof.
    intros next evs c o. unfold region_start. induction (touched evs) as [|[c' o'] l IH]; [easy|].
    cbn [fold_right In]. intros [E|H]; [inversion E; subst; lia|]. specialize (IH H). lia.
  Qed.

  (** ** One region *)
  Fixpoint const_copies (starts : list nat) (k row : nat) (l : list (cell * F)) :=
    match l with
    | [] => []
    | (a, _) :: l' => ((Fix k, row), abs_cell starts a) :: const_copies starts k (S row) l'
    end.
  Fixpoint const_ents (k row : nat) (l : list (cell * F)) : list ent :=
    match l with [] => [] | (_, v) :: l' => (row, [AssignFixed k 0 v]) :: const_ents k (S row) l' end.

  Lemma place_constants : forall l L rs, trace L rs -> forall L', fold_r place_constant l L = Ok L' ->
    exists k row, (l = [] \/ lo_const L = Some k)
      /\ trace L' (rs ++ const_ents k row l)
      /\ lo_starts L' = lo_starts L /\ lo_const L' = lo_const L /\ lo_tables L' = lo_tables L
      /\ lo_copy L' = lo_copy L ++ const_copies (lo_starts L) k row l.
  Proof.
    induction l as [|[a v] l IH]; intros L rs T L' H.
    - cbn in H. inversion H; subst. exists 0, 0. cbn [const_ents const_copies]. rewrite !app_nil_r.
      split; [now left|]. auto.
    - cbn [fold_r] in H. unfold place_constant at 1 in H. destruct (lo_const L) as [k|] eqn:K; [|discriminate H].
      cbn [unwrap bind] in H.
      match type of H with fold_r _ _ ?l1 = _ => set (L1 := l1) in * end.
      assert (T1 : trace L1 (rs ++ [(lo_next L (Fix k), [AssignFixed k 0 v])])).
      { apply (trace_snoc L); cbn [fst snd abs_adv abs_fix abs_sel flat_map L1 lo_adv lo_fix lo_sel lo_next app]; auto.
        - now rewrite app_nil_r.
        - now rewrite app_nil_r.
        - intros c. destruct (column_eqb c (Fix k)) eqn:E; [|lia]. apply column_eqb_eq in E. subst. lia.
        - intros c o Ho. cbn in Ho. destruct Ho as [Ho|[]]. inversion Ho; subst. rewrite column_eqb_refl. lia. }
      destruct (IH L1 _ T1 L' H) as (k' & row & Hk & T2 & S2 & C2 & X2 & Y2).
      exists k, (lo_next L (Fix k)). split; [now right|].
      assert (R : l = [] \/ k' = k /\ row = S (lo_next L (Fix k))).
      { destruct l as [|[a' v'] l]; [now left|]. right. destruct Hk as [Hk|Hk]; [discriminate|].
        cbn [L1 lo_const] in Hk. inversion Hk; subst k'. split; [reflexivity|].
        (* the next constant goes into the next row *)
        cbn [fold_r] in H. unfold place_constant at 1 in H. cbn [L1 lo_const] in H. cbn [unwrap bind] in H.
        pose proof (tr_fix _ _ T2) as E1. rewrite flat_map_app, <- (tr_fix _ _ T1) in E1.
        clear -H E1.
        match type of H with fold_r _ _ ?l2 = _ => set (L2 := l2) in * end.
        assert (E2 : exists z, lo_fix L' = lo_fix L2 ++ z).
        { clear -H. clearbody L2. revert L2 H. induction l as [|[a0 v0] l IH]; intros L2 H.
          - cbn in H. inversion H; subst. exists []. now rewrite app_nil_r.
          - cbn [fold_r] in H. unfold place_constant at 1 in H. destruct (lo_const L2); [|discriminate H]. cbn [unwrap bind] in H.
            apply IH in H. destruct H as [z H]. cbn [lo_fix] in H. rewrite H, <- app_assoc. eexists. reflexivity. }
        destruct E2 as [z E2]. rewrite E2 in E1. unfold L2 in E1. cbn [lo_fix const_ents flat_map fst snd abs_fix app] in E1.
        rewrite <- app_assoc in E1. apply app_inv_head in E1. cbn in E1. injection E1 as E1 _. rewrite Nat.eqb_refl in E1. now symmetry. }
      rewrite <- app_assoc in T2. cbn [app] in T2. cbn [const_ents const_copies].
      split. { destruct R as [->|[-> ->]]; exact T2. }
      split; [exact S2|]. split; [exact C2|]. split; [exact X2|].
      rewrite Y2. cbn [L1 lo_copy lo_starts]. rewrite <- app_assoc. cbn [app]. do 2 f_equal.
      destruct R as [->|[-> ->]]; reflexivity.
  Qed.

  Lemma const_copies_in : forall starts k l row x, In x (const_copies starts k row l) ->
    exists row' a v, x = ((Fix k, row'), abs_cell starts a) /\ In (a, v) l
      /\ In (row', [AssignFixed k 0 v]) (const_ents k row l).
  Proof.
    intros starts k l. induction l as [|[a v] l IH]; intros row x H; [easy|]. cbn [const_copies const_ents In] in *.
    destruct H as [<-|H].
    - exists row, a, v. auto.
    - destruct (IH _ _ H) as (row' & a' & v' & -> & H1 & H2). exists row', a', v'. auto.
  Qed.
  (** every constant gets its cell *)
  Lemma const_copies_all : forall starts k l row a v, In (a, v) l ->
    exists row', In ((Fix k, row'), abs_cell starts a) (const_copies starts k row l)
      /\ In (row', [AssignFixed k 0 v]) (const_ents k row l).
  Proof.
    intros starts k l. induction l as [|[a' v'] l IH]; intros row a v H; [easy|]. cbn [const_copies const_ents In] in *.
    destruct H as [E|H].
    - inversion E; subst. eauto.
    - destruct (IH (S row) _ _ H) as (row' & H1 & H2). eauto.
  Qed.

  Lemma commit_reserve_trace : forall evs L rs, trace L rs ->
    trace (commit (length (lo_starts L)) evs (reserve evs L)) (rs ++ [(region_start (lo_next L) evs, evs)]).
  Proof.
    intros evs L rs T. set (st := region_start (lo_next L) evs).
    assert (ST : nth (length (lo_starts L)) (lo_starts (reserve evs L)) 0 = st).
    { cbn [reserve lo_starts]. rewrite app_nth2, Nat.sub_diag by lia. reflexivity. }
    apply (trace_snoc L); cbn [fst snd]; [assumption| | | | |].
    - cbn [commit lo_adv]. now rewrite ST.
    - cbn [commit lo_fix]. now rewrite ST.
    - cbn [commit lo_sel]. now rewrite ST.
    - intros c. cbn [commit reserve lo_next]. unfold next_after. fold st.
      destruct (existsb _ _) eqn:E; [|lia]. apply existsb_exists in E. destruct E as ([c' o] & H & E).
      apply column_eqb_eq in E. subst c'. pose proof (region_start_ge (lo_next L) evs c o H). fold st in H0. lia.
    - intros c o H. cbn [commit reserve lo_next]. fold st. rewrite (next_after_in _ _ _ _ o H).
      split; [now apply (region_start_ge _ _ _ o)|]. pose proof (row_count_ge evs c o H). lia.
  Qed.

  Lemma assign_region_trace : forall {A} (p : Region F A) L L' x rs, trace L rs -> assign_region p L = Ok (L', x) ->
    exists evs st k row, p (length (lo_starts L)) = Ok (evs, x)
      /\ (const_events evs = [] \/ lo_const L = Some k)
      /\ trace L' (rs ++ (st, evs) :: const_ents k row (const_events evs))
      /\ lo_starts L' = lo_starts L ++ [st] /\ lo_const L' = lo_const L /\ lo_tables L' = lo_tables L
      /\ lo_copy L' = lo_copy L ++ abs_copy (lo_starts L') evs ++ const_copies (lo_starts L') k row (const_events evs).
  Proof.
    intros A p L L' x rs T H. unfold assign_region in H.
    destruct (p (length (lo_starts L))) as [[evs y]|] eqn:E; [|discriminate H]. cbn [bind] in H.
    destruct (fold_r place_constant _ _) as [L2|] eqn:P; [|discriminate H]. cbn [bind] in H.
    injection H as <- <-.
    destruct (place_constants _ _ _ (commit_reserve_trace evs L rs T) _ P) as (k & row & H1 & H2 & H3 & H4 & H5 & H6).
    exists evs, (region_start (lo_next L) evs), k, row.
    rewrite <- app_assoc in H2. cbn [app] in H2.
    cbn [commit reserve lo_starts lo_const lo_tables lo_copy] in H1, H3, H4, H5, H6.
    rewrite H3. rewrite <- app_assoc in H6. auto 10.
  Qed.

  Lemma grows_trace : forall L L', grows L L' -> forall rs, trace L rs ->
    exists rs' new copies, trace L' (rs ++ rs') /\ lo_starts L' = lo_starts L ++ new /\ lo_copy L' = lo_copy L ++ copies
      /\ lo_const L' = lo_const L.
  Proof.
    intros L L' G. induction G as [L|L L1 L2 A p x G IH H|L L1 L2 c vals x G IH H]; intros rs T.
    - exists [], [], []. rewrite !app_nil_r. auto.
    - destruct (IH rs T) as (rs' & new & copies & T1 & S1 & C1 & K1).
      destruct (assign_region_trace p L1 L2 x _ T1 H) as (evs & st & k & row & _ & _ & T2 & S2 & K2 & _ & C2).
      rewrite <- app_assoc in T2. rewrite S1, <- app_assoc in S2. rewrite C1, <- app_assoc in C2.
      do 3 eexists. rewrite K2, K1. eauto.
    - destruct (IH rs T) as (rs' & new & copies & T1 & S1 & C1 & K1).
      apply assign_table_inv in H. subst. exists rs', new, copies. cbn. repeat split; auto; apply T1.
  Qed.

  (** ** Reading back *)
  Lemma read_regions : forall {V} (ws : list (event F) -> list (nat * nat * V)) (tc : nat -> column),
    (forall evs c o, In (tc c, o) (touched evs) <-> exists v, In (c, o, v) (ws evs)) ->
    forall rs st evs c o, ForallOrdPairs separate rs -> In (st, evs) rs -> In (tc c, o) (touched evs) ->
    last_write (flat_map (fun e => map (moved 0 (fst e)) (ws (snd e))) rs) c (o + st) = last_write (ws evs) c o.
  Proof.
    intros V ws tc W rs st evs c o. induction rs as [|[st' evs'] rs IH]; intros SP H HT; [easy|].
    inversion SP as [|? ? S1 S2]; subst. rewrite Forall_forall in S1. cbn [flat_map fst snd]. rewrite last_write_app.
    pose proof (last_write_moved (ws evs') 0 st c o) as M. rewrite Nat.add_0_r in M.
    assert (OWN : forall v, In (c, o + st, v) (flat_map (fun e => map (moved 0 (fst e)) (ws (snd e))) rs) ->
       exists e o', In e rs /\ In (tc c, o') (touched (snd e)) /\ o + st = o' + fst e).
    { intros v Hv. apply in_flat_map in Hv. destruct Hv as (e & He & Hv). apply in_moved in Hv.
      destruct Hv as (c' & r' & Hv & E1 & E2). rewrite Nat.add_0_r in E1. subst c'.
      exists e, r'. split; [assumption|]. split; [|assumption]. apply W. eauto. }
    destruct H as [E|H].
    - injection E as -> ->. rewrite last_write_none; [exact M|]. intros v Hv.
      destruct (OWN v Hv) as (e & o' & He & Ho & X). exact (S1 e He (tc c) o o' HT Ho X).
    - rewrite IH by assumption. destruct (last_write (ws evs) c o) eqn:E; [reflexivity|].
      exfalso. apply W in HT. destruct HT as [v Hv]. destruct (last_write_some _ _ _ _ Hv). congruence.
  Qed.

  Lemma read_fix : forall L rs st evs c o, trace L rs -> In (st, evs) rs -> In (Fix c, o) (touched evs) ->
    last_write (lo_fix L) c (o + st) = last_write (fix_ws evs) c o.
  Proof.
    intros L rs st evs c o T H HT. rewrite (tr_fix _ _ T).
    rewrite (flat_map_ext _ (fun e => map (moved 0 (fst e)) (fix_ws (snd e)))) by (intros; apply abs_fix_ws).
    apply (read_regions fix_ws Fix); auto; [apply touched_fix|apply T].
  Qed.
  Lemma read_adv : forall L rs st evs c o, trace L rs -> In (st, evs) rs -> In (Adv c, o) (touched evs) ->
    last_write (lo_adv L) c (o + st) = last_write (adv_ws evs) c o.
  Proof.
    intros L rs st evs c o T H HT. rewrite (tr_adv _ _ T).
    rewrite (flat_map_ext _ (fun e => map (moved 0 (fst e)) (adv_ws (snd e)))) by (intros; apply abs_adv_ws).
    apply (read_regions adv_ws Adv); auto; [apply touched_adv|apply T].
  Qed.
  Lemma read_sel : forall L rs q r, trace L rs -> (In (q, r) (lo_sel L)
    <-> exists st evs o, In (st, evs) rs /\ In (EnableSelector q o) evs /\ r = o + st).
  Proof.
    intros L rs q r T. rewrite (tr_sel _ _ T), in_flat_map. split.
    - intros ([st evs] & H & H1). cbn [fst snd] in H1. rewrite abs_sel_ws in H1. apply in_map_iff in H1.
      destruct H1 as ([s o] & E & H1). injection E as -> <-. exists st, evs, o. split; [assumption|].
      split; [now apply in_sel_ws|reflexivity].
    - intros (st & evs & o & H & H1 & ->). exists (st, evs). split; [assumption|]. cbn [fst snd].
      rewrite abs_sel_ws. apply in_map_iff. exists (q, o). split; [reflexivity|]. now apply in_sel_ws.
  Qed.
  Lemma abs_in : forall rs st (evs : list (event F)) c o v, In (st, evs) rs ->
    In (AssignAdvice c o v) evs -> In (c, o + st, v) (flat_map (fun e => abs_adv (fst e) (snd e)) rs).
  Proof.
    intros rs st evs c o v H1 H2. apply in_flat_map. exists (st, evs). split; [assumption|]. cbn [fst snd].
    rewrite abs_adv_ws. apply in_map_iff. exists (c, o, v). split; [cbn; now rewrite Nat.add_0_r|].
    now apply in_adv_ws.
  Qed.

  (** ** A region that is part of a layout *)
  Definition scoped (k : nat) (evs : list (event F)) : Prop :=
    (forall a b, In (ConstrainEqual a b) evs -> ce_region a < k /\ ce_region b < k)
    /\ (forall a v, In (ConstrainConstant a v) evs -> ce_region a < k).
  Definition laid (L : layout F) (ri : nat) (evs : list (event F)) : Prop :=
    ri < length (lo_starts L) /\ scoped (length (lo_starts L)) evs
    /\ (exists rs, trace L rs /\ In (nth ri (lo_starts L) 0, evs) rs)
    /\ (forall a b, In (ConstrainEqual a b) evs ->
          In (abs_cell (lo_starts L) a, abs_cell (lo_starts L) b) (lo_copy L))
    /\ (forall a v, In (ConstrainConstant a v) evs ->
          exists k row, In ((Fix k, row), abs_cell (lo_starts L) a) (lo_copy L) /\ last_write (lo_fix L) k row = Some v).

  Lemma in_const_events : forall (evs : list (event F)) a v, In (a, v) (const_events evs) <-> In (ConstrainConstant a v) evs.
  Proof.
    intros evs a v. unfold const_events. rewrite in_flat_map. split.
    - intros (e & He & H). destruct e; cbn in H; try easy. destruct H as [H|[]]. now inversion H; subst.
    - intros H. eexists. split; [exact H|]. now left.
  Qed.
  Lemma in_copies_ws : forall (evs : list (event F)) a b, In (a, b) (copies_ws evs) <-> In (ConstrainEqual a b) evs.
  Proof.
    intros evs a v. unfold copies_ws. rewrite in_flat_map. split.
    - intros (e & He & H). destruct e; cbn in H; try easy. destruct H as [H|[]]. now inversion H; subst.
    - intros H. eexists. split; [exact H|]. now left.
  Qed.

  Lemma read_const : forall L rs row k v, trace L rs -> In (row, [AssignFixed k 0 v]) rs ->
    last_write (lo_fix L) k row = Some v.
  Proof.
    intros L rs row k v T H. pose proof (read_fix L rs row _ k 0 T H) as X. cbn in X. rewrite Nat.eqb_refl in X. cbn in X.
    apply X. now left.
  Qed.

  Lemma laid_region : forall {A} (p : Region F A) L L' x rs, trace L rs -> assign_region p L = Ok (L', x) ->
    exists evs, p (length (lo_starts L)) = Ok (evs, x)
      /\ (scoped (S (length (lo_starts L))) evs -> laid L' (length (lo_starts L)) evs).
  Proof.
    intros A p L L' x rs T H.
    destruct (assign_region_trace p L L' x rs T H) as (evs & st & k & row & E & K & T2 & S2 & _ & _ & C2).
    exists evs. split; [assumption|]. intros SC.
    assert (LN : length (lo_starts L') = S (length (lo_starts L))) by (rewrite S2, app_length; cbn; lia).
    split; [lia|]. split; [now rewrite LN|]. split.
    { eexists. split; [exact T2|]. rewrite S2, app_nth2, Nat.sub_diag by lia. cbn [nth]. apply in_app_iff. right. now left. }
    split.
    - intros a b Hab. rewrite C2, !in_app_iff. right. left. rewrite abs_copy_ws. apply in_map_iff.
      exists (a, b). split; [reflexivity|]. now apply in_copies_ws.
    - intros a v Hav. apply in_const_events in Hav.
      destruct (const_copies_all (lo_starts L') k _ row a v Hav) as (row' & H1 & H2).
      exists k, row'. split; [rewrite C2, !in_app_iff; auto|].
      eapply read_const; [exact T2|]. apply in_app_iff. right. now right.
  Qed.

  Lemma in_touched : forall (evs : list (event F)) c o v, In (AssignFixed c o v) evs -> In (Fix c, o) (touched evs).
  Proof. intros evs c o v H. apply touched_fix. exists v. now apply in_fix_ws. Qed.

  (** a written cell keeps its value *)
  Lemma fix_kept : forall L rs L' rs' c r v, trace L rs -> trace L' (rs ++ rs') ->
    last_write (lo_fix L) c r = Some v -> last_write (lo_fix L') c r = Some v.
  Proof.
    intros L rs L' rs' c r v T T' H. pose proof (last_write_in _ _ _ _ H) as I. rewrite (tr_fix _ _ T) in I.
    apply in_flat_map in I. destruct I as ([st evs] & He & I). cbn [fst snd] in I. rewrite abs_fix_ws in I.
    apply in_moved in I. destruct I as (c' & o & I & E1 & ->). rewrite Nat.add_0_r in E1. subst c'.
    assert (X : In (Fix c, o) (touched evs)) by (apply touched_fix; eauto).
    rewrite (read_fix L rs st evs c o T He X) in H.
    rewrite (read_fix L' _ st evs c o T'); auto. apply in_app_iff. now left.
  Qed.
  Lemma adv_kept : forall L rs L' rs' c r v, trace L rs -> trace L' (rs ++ rs') ->
    last_write (lo_adv L) c r = Some v -> last_write (lo_adv L') c r = Some v.
  Proof.
    intros L rs L' rs' c r v T T' H. pose proof (last_write_in _ _ _ _ H) as I. rewrite (tr_adv _ _ T) in I.
    apply in_flat_map in I. destruct I as ([st evs] & He & I). cbn [fst snd] in I. rewrite abs_adv_ws in I.
    apply in_moved in I. destruct I as (c' & o & I & E1 & ->). rewrite Nat.add_0_r in E1. subst c'.
    assert (X : In (Adv c, o) (touched evs)) by (apply touched_adv; eauto).
    rewrite (read_adv L rs st evs c o T He X) in H.
    rewrite (read_adv L' _ st evs c o T'); auto. apply in_app_iff. now left.
  Qed.
  Lemma has_kept : forall L rs L' rs' x v, trace L rs -> trace L' (rs ++ rs') -> cell_has L x v -> cell_has L' x v.
  Proof.
    intros L rs L' rs' [[c|c|c] r] v T T'; cbn [cell_has]; [now apply (adv_kept L rs L' rs')|now apply (fix_kept L rs L' rs')|easy].
  Qed.
  Lemma carries_kept : forall L rs L' rs' new w v, trace L rs -> trace L' (rs ++ rs') -> lo_starts L' = lo_starts L ++ new ->
    carries L w v -> carries L' w v.
  Proof.
    intros L rs L' rs' new w v T T' S (H1 & H2 & H3). unfold carries. rewrite S. split; [rewrite app_length; lia|].
    split; [assumption|]. rewrite abs_cell_app by assumption. now apply (has_kept L rs L' rs').
  Qed.

  Lemma laid_more : forall L L' ri evs, grows L L' -> laid L ri evs -> laid L' ri evs.
  Proof.
    intros L L' ri evs G (H1 & (H2 & H2') & (rs & T & H3) & H4 & H5).
    destruct (grows_trace L L' G rs T) as (rs' & new & copies & T' & S' & C' & _).
    assert (LN : length (lo_starts L) <= length (lo_starts L')) by (rewrite S', app_length; lia).
    split; [lia|]. split. { split; [intros a b X; specialize (H2 a b X); lia|intros a v X; specialize (H2' a v X); lia]. }
    split. { exists (rs ++ rs'). split; [assumption|]. rewrite S', app_nth1 by assumption. apply in_app_iff. now left. }
    split.
    - intros a b X. specialize (H4 a b X). destruct (H2 a b X). rewrite S', !abs_cell_app by assumption.
      rewrite C'. apply in_app_iff. now left.
    - intros a v X. destruct (H5 a v X) as (k & row & Y & Z). exists k, row. specialize (H2' a v X).
      rewrite S', abs_cell_app by assumption. rewrite C'. split; [apply in_app_iff; now left|].
      now apply (fix_kept L rs L' rs').
  Qed.

  Lemma grows_app : forall L1 L2 L3 : layout F, grows L1 L2 -> grows L2 L3 -> grows L1 L3.
  Proof.
    intros L1 L2 L3 H1 H2. induction H2 as [L|L M N A p x H2 IH H|L M N c vals x H2 IH H]; [assumption| |].
    - exact (grows_region L1 M N A p x (IH H1) H).
    - exact (grows_table L1 M N c vals x (IH H1) H).
  Qed.
  Lemma grows_one : forall {A} (p : Region F A) L L' x, assign_region p L = Ok (L', x) -> grows L L'.
  Proof. intros A p L L' x H. eapply grows_region; [apply grows_refl|exact H]. Qed.
  Lemma grows_starts : forall L L' : layout F, grows L L' -> exists new, lo_starts L' = lo_starts L ++ new.
  Proof.
    intros L L' G. induction G as [L|L L1 L2 A p x G IH H|L L1 L2 c vals x G IH H].
    - exists []. now rewrite app_nil_r.
    - destruct IH as [new E]. unfold assign_region in H. destruct (p _) as [[evs y]|]; [|discriminate H]. cbn [bind] in H.
      destruct (fold_r place_constant _ _) as [L3|] eqn:P; [|discriminate H]. cbn [bind] in H. injection H as <- _.
      assert (X : lo_starts L3 = lo_starts (reserve evs L1)).
      { change (lo_starts (reserve evs L1)) with (lo_starts (commit (length (lo_starts L1)) evs (reserve evs L1))).
        revert P. generalize (commit (length (lo_starts L1)) evs (reserve evs L1)). clear.
        induction (const_events evs) as [|[a v] l IH]; intros M P; cbn [fold_r] in P; [now injection P as <-|].
        unfold place_constant at 1 in P. destruct (lo_const M); [|discriminate P]. cbn [unwrap bind] in P.
        apply IH in P. exact P. }
      rewrite X. cbn [reserve lo_starts]. rewrite E, <- app_assoc. eauto.
    - destruct IH as [new E]. apply assign_table_inv in H. subst. cbn. eauto.
  Qed.
  Lemma built_trace : forall m L, grows (layout_empty m) L -> exists rs, trace L rs.
  Proof.
    intros m L G. destruct (grows_trace _ _ G [] (trace_empty m)) as (rs & _ & _ & T & _). now exists rs.
  Qed.
  Lemma words_more : forall (L L' : layout F) ws, grows L L' -> words_in L ws -> words_in L' ws.
  Proof.
    intros L L' ws G H. destruct (grows_starts L L' G) as [new E]. unfold words_in in *. rewrite E, app_length.
    eapply Forall_impl; [|exact H]. cbn. intros. lia.
  Qed.
  Lemma word_at_later : forall (L L' : layout F) adv w, grows L L' -> ce_region (ac_cell w) < length (lo_starts L) ->
    word_at L' adv w = cell_at L' adv (abs_cell (lo_starts L) (ac_cell w)).
  Proof.
    intros L L' adv w G H. destruct (grows_starts L L' G) as [new E]. unfold word_at. now rewrite E, abs_cell_app.
  Qed.
End Trace.
