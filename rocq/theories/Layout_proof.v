(** Facts about regions, layouts and reading back what was written. *)
From Coq Require Import ZArith List Arith Lia Bool.
From Verif Require Import Field Rust ListAux Halo2.
Import ListNotations.
Local Open Scope nat_scope.

Lemma column_eqb_eq : forall a b, column_eqb a b = true <-> a = b.
Proof.
  intros [i|i|i] [j|j|j]; cbn; rewrite ?Nat.eqb_eq; split; intros H; try congruence; discriminate.
Qed.
Lemma column_eqb_refl : forall a, column_eqb a a = true.
Proof. intros a. now apply column_eqb_eq. Qed.

Section Reads.
  Context {V : Type}.
  Implicit Types l : list (nat * nat * V).

  Lemma last_write_app : forall l1 l2 c r,
    last_write (l1 ++ l2) c r
    = match last_write l2 c r with Some w => Some w | None => last_write l1 c r end.
  Proof.
    induction l1 as [|[[c' r'] v] l1 IH]; intros; cbn; [now destruct (last_write l2 c r)|].
    rewrite IH. now destruct (last_write l2 c r).
  Qed.

  Lemma last_write_in : forall l c r v, last_write l c r = Some v -> In (c, r, v) l.
  Proof.
    induction l as [|[[c' r'] v'] l IH]; intros c r v H; cbn in H; [discriminate|].
    destruct (last_write l c r) eqn:E.
    - inversion H; subst. right. now apply IH.
    - destruct ((c =? c') && (r =? r')) eqn:X; [|discriminate].
      apply andb_prop in X. destruct X as [X1 X2]. apply Nat.eqb_eq in X1, X2. inversion H. subst. now left.
  Qed.

  Lemma last_write_none : forall l c r, (forall v, ~ In (c, r, v) l) -> last_write l c r = None.
  Proof.
    intros l c r H. destruct (last_write l c r) eqn:E; [|reflexivity].
    exfalso. eapply H. eapply last_write_in. exact E.
  Qed.

  Lemma last_write_some : forall l c r v, In (c, r, v) l -> exists w, last_write l c r = Some w.
  Proof.
    induction l as [|[[c' r'] v'] l IH]; intros c r v H; [easy|]. cbn [last_write].
    destruct (last_write l c r) as [w|] eqn:X; [eauto|]. destruct H as [E|H].
    - inversion E; subst. rewrite !Nat.eqb_refl. cbn. eauto.
    - destruct (IH _ _ _ H) as [w Hw]. congruence.
  Qed.

  (** all writes to the cell agree *)
  Lemma last_write_fun : forall l c r v, In (c, r, v) l -> (forall w, In (c, r, w) l -> w = v) ->
    last_write l c r = Some v.
  Proof.
    intros l c r v H U. destruct (last_write_some l c r v H) as [w Hw]. rewrite Hw. f_equal.
    now apply U, last_write_in.
  Qed.

  (** the same writes in other columns and rows *)
  Definition moved (dc dr : nat) (w : nat * nat * V) : nat * nat * V :=
    let '(c, r, v) := w in (c + dc, r + dr, v).

  Lemma last_write_moved : forall l dc dr c r,
    last_write (map (moved dc dr) l) (c + dc) (r + dr) = last_write l c r.
  Proof.
    intros l dc dr c r. induction l as [|[[c' r'] v] l IH]; [reflexivity|]. cbn. rewrite IH.
    replace (c + dc =? c' + dc) with (c =? c')
      by (apply eq_true_iff_eq; rewrite !Nat.eqb_eq; lia).
    replace (r + dr =? r' + dr) with (r =? r')
      by (apply eq_true_iff_eq; rewrite !Nat.eqb_eq; lia). reflexivity.
  Qed.

  Lemma in_moved : forall l dc dr c r v, In (c, r, v) (map (moved dc dr) l) ->
    exists c' r', In (c', r', v) l /\ c = c' + dc /\ r = r' + dr.
  Proof.
    intros l dc dr c r v H. apply in_map_iff in H. destruct H as ([[c' r'] v'] & E & H).
    cbn in E. inversion E; subst. eauto.
  Qed.
End Reads.

Section Regions.
  Context {F : Type} {FO : FieldOps F}.

  (** writes of a region, at rows of the region *)
  Definition adv_ws (evs : list (event F)) : list (nat * nat * option F) :=
    flat_map (fun e => match e with AssignAdvice c o v => [(c, o, v)] | _ => [] end) evs.
  Definition fix_ws (evs : list (event F)) : list (nat * nat * F) :=
    flat_map (fun e => match e with AssignFixed c o v => [(c, o, v)] | _ => [] end) evs.
  Definition sel_ws (evs : list (event F)) : list (nat * nat) :=
    flat_map (fun e => match e with EnableSelector s o => [(s, o)] | _ => [] end) evs.
  Definition copies_ws (evs : list (event F)) : list (cell * cell) :=
    flat_map (fun e => match e with ConstrainEqual a b => [(a, b)] | _ => [] end) evs.

  Lemma abs_adv_ws : forall st evs, abs_adv st evs = map (moved 0 st) (adv_ws evs).
  Proof.
    intros st evs. unfold abs_adv, adv_ws. induction evs as [|[] evs IH]; cbn; rewrite ?Nat.add_0_r; congruence.
  Qed.
  Lemma abs_fix_ws : forall st evs, abs_fix st evs = map (moved 0 st) (fix_ws evs).
  Proof.
    intros st evs. unfold abs_fix, fix_ws. induction evs as [|[] evs IH]; cbn; rewrite ?Nat.add_0_r; congruence.
  Qed.
  Lemma abs_sel_ws : forall st evs, abs_sel st evs = map (fun '(s, o) => (s, o + st)) (sel_ws evs).
  Proof. intros st evs. unfold abs_sel, sel_ws. induction evs as [|[] evs IH]; cbn; congruence. Qed.
  Lemma abs_copy_ws : forall starts evs,
    abs_copy starts evs = map (fun '(a, b) => (abs_cell starts a, abs_cell starts b)) (copies_ws evs).
  Proof. intros st evs. unfold abs_copy, copies_ws. induction evs as [|[] evs IH]; cbn; congruence. Qed.

  Lemma adv_ws_app : forall e1 e2, adv_ws (e1 ++ e2) = adv_ws e1 ++ adv_ws e2.
  Proof. intros. apply flat_map_app. Qed.
  Lemma fix_ws_app : forall e1 e2, fix_ws (e1 ++ e2) = fix_ws e1 ++ fix_ws e2.
  Proof. intros. apply flat_map_app. Qed.
  Lemma sel_ws_app : forall e1 e2, sel_ws (e1 ++ e2) = sel_ws e1 ++ sel_ws e2.
  Proof. intros. apply flat_map_app. Qed.
  Lemma copies_ws_app : forall e1 e2, copies_ws (e1 ++ e2) = copies_ws e1 ++ copies_ws e2.
  Proof. intros. apply flat_map_app. Qed.
  Lemma touched_app : forall e1 e2 : list (event F), touched (e1 ++ e2) = touched e1 ++ touched e2.
  Proof. intros. apply flat_map_app. Qed.
  Lemma const_events_app : forall e1 e2 : list (event F), const_events (e1 ++ e2) = const_events e1 ++ const_events e2.
  Proof. intros. apply flat_map_app. Qed.

  Lemma in_adv_ws : forall evs c o v, In (c, o, v) (adv_ws evs) <-> In (AssignAdvice c o v) evs.
  Proof.
    intros evs c o v. unfold adv_ws. rewrite in_flat_map. split.
    - intros (e & He & H). destruct e; cbn in H; try easy. destruct H as [H|[]]. now inversion H; subst.
    - intros H. eexists. split; [exact H|]. now left.
  Qed.
  Lemma in_fix_ws : forall evs c o v, In (c, o, v) (fix_ws evs) <-> In (AssignFixed c o v) evs.
  Proof.
    intros evs c o v. unfold fix_ws. rewrite in_flat_map. split.
    - intros (e & He & H). destruct e; cbn in H; try easy. destruct H as [H|[]]. now inversion H; subst.
    - intros H. eexists. split; [exact H|]. now left.
  Qed.
  Lemma in_sel_ws : forall evs c o, In (c, o) (sel_ws evs) <-> In (EnableSelector c o) evs.
  Proof.
    intros evs c o. unfold sel_ws. rewrite in_flat_map. split.
    - intros (e & He & H). destruct e; cbn in H; try easy. destruct H as [H|[]]. now inversion H; subst.
    - intros H. eexists. split; [exact H|]. now left.
  Qed.
  Lemma touched_adv : forall (evs : list (event F)) c o, In (Adv c, o) (touched evs) <-> exists v, In (c, o, v) (adv_ws evs).
  Proof.
    intros evs c o. setoid_rewrite in_adv_ws. unfold touched. rewrite in_flat_map. split.
    - intros (e & He & H). destruct e; cbn in H; try easy; destruct H as [H|[]]; inversion H; subst; eauto.
    - intros [v H]. eexists. split; [exact H|]. now left.
  Qed.
  Lemma touched_fix : forall (evs : list (event F)) c o, In (Fix c, o) (touched evs) <-> exists v, In (c, o, v) (fix_ws evs).
  Proof.
    intros evs c o. setoid_rewrite in_fix_ws. unfold touched. rewrite in_flat_map. split.
    - intros (e & He & H). destruct e; cbn in H; try easy; destruct H as [H|[]]; inversion H; subst; eauto.
    - intros [v H]. eexists. split; [exact H|]. now left.
  Qed.
  Lemma touched_sel : forall (evs : list (event F)) s o, In (Sel s, o) (touched evs) <-> In (s, o) (sel_ws evs).
  Proof.
    intros evs c o. rewrite in_sel_ws. unfold touched. rewrite in_flat_map. split.
    - intros (e & He & H). destruct e; cbn in H; try easy; destruct H as [H|[]]; inversion H; subst; eauto.
    - intros H. eexists. split; [exact H|]. now left.
  Qed.

  (** sequencing in a region *)
  Lemma rbind_ok : forall {A B} (p : Region F A) (k : A -> Region F B) ri e1 x e2 y,
    p ri = Ok (e1, x) -> k x ri = Ok (e2, y) -> rbind p k ri = Ok (e1 ++ e2, y).
  Proof. intros A B p k ri e1 x e2 y H1 H2. unfold rbind. rewrite H1. cbn. rewrite H2. reflexivity. Qed.

  Lemma rbind_ok1 : forall {A B} (p : Region F A) (k : A -> Region F B) ri e x l y,
    p ri = Ok ([e], x) -> k x ri = Ok (l, y) -> rbind p k ri = Ok (e :: l, y).
  Proof. intros. change (e :: l) with ([e] ++ l). eapply rbind_ok; eassumption. Qed.
  Lemma rbind_ok2 : forall {A B} (p : Region F A) (k : A -> Region F B) ri e e' x l y,
    p ri = Ok ([e; e'], x) -> k x ri = Ok (l, y) -> rbind p k ri = Ok (e :: e' :: l, y).
  Proof. intros. change (e :: e' :: l) with ([e; e'] ++ l). eapply rbind_ok; eassumption. Qed.

  Lemma rfold_seq : forall {B} (step : B -> nat -> Region F B) (st : nat -> B) (E : nat -> list (event F)) ri k j,
    (forall i, j <= i < j + k -> step (st i) i ri = Ok (E i, st (S i))) ->
    rfold step (seq j k) (st j) ri = Ok (flat_map E (seq j k), st (j + k)).
  Proof.
    intros B step st E ri k. induction k as [|k IH]; intros j H; cbn [seq rfold flat_map].
    - rewrite Nat.add_0_r. reflexivity.
    - eapply rbind_ok; [apply H; lia|]. replace (j + S k) with (S j + k) by lia.
      apply IH. intros i Hi. apply H. lia.
  Qed.

  Lemma rmap_ok : forall {A B} (f : A -> Region F B) (g : A -> B) (E : A -> list (event F)) ri l,
    (forall x, In x l -> f x ri = Ok (E x, g x)) ->
    rmap f l ri = Ok (flat_map E l, map g l).
  Proof.
    intros A B f g E ri l. induction l as [|x l IH]; intros H; cbn [rmap flat_map map]; [reflexivity|].
    eapply rbind_ok; [apply H; now left|]. rewrite <- (app_nil_r (flat_map E l)).
    eapply rbind_ok; [apply IH; intros; apply H; now right|]. reflexivity.
  Qed.

  Lemma lbind_ok : forall {A B} (p : Layouter F A) (k : A -> Layouter F B) L L1 x,
    p L = Ok (L1, x) -> lbind p k L = k x L1.
  Proof. intros A B p k L L1 x H. unfold lbind. rewrite H. reflexivity. Qed.

  (** a region without constants *)
  Lemma assign_region_ok : forall {A} (p : Region F A) L evs x,
    p (length (lo_starts L)) = Ok (evs, x) -> const_events evs = [] ->
    assign_region p L = Ok (commit (length (lo_starts L)) evs (reserve evs L), x).
  Proof.
    intros A p L evs x H C. unfold assign_region. rewrite H. cbn [bind]. rewrite C. reflexivity.
  Qed.

  (** shapes *)
  Lemma row_count_bound : forall (evs : list (event F)) h, (forall c o, In (c, o) (touched evs) -> o < h) ->
    row_count evs <= h.
  Proof.
    intros evs h H. unfold row_count. induction (touched evs) as [|[c o] l IH]; cbn [fold_right]; [lia|].
    pose proof (H c o (or_introl eq_refl)). apply Nat.max_lub; [lia|]. apply IH. intros. eapply H. right. eassumption.
  Qed.
  Lemma row_count_ge : forall (evs : list (event F)) c o, In (c, o) (touched evs) -> S o <= row_count evs.
  Proof.
    intros evs c o. unfold row_count. induction (touched evs) as [|[c' o'] l IH]; cbn [fold_right In]; [easy|].
    intros [E|H]; [inversion E; subst; lia|]. specialize (IH H). lia.
  Qed.
  Lemma row_count_eq : forall (evs : list (event F)) h c, (forall c o, In (c, o) (touched evs) -> o < S h) ->
    In (c, h) (touched evs) -> row_count evs = S h.
  Proof.
    intros evs h c H1 H2. apply Nat.le_antisymm; [now apply row_count_bound|]. eapply row_count_ge; eassumption.
  Qed.
  Lemma region_start_eq : forall next (evs : list (event F)) t,
    (forall c o, In (c, o) (touched evs) -> next c <= t) ->
    (exists c o, In (c, o) (touched evs) /\ next c = t) -> region_start next evs = t.
  Proof.
    intros next evs t H1 (c & o & H2 & H3). unfold region_start.
    assert (A : forall l : list (column * nat), (forall c o, In (c, o) l -> next c <= t) ->
              fold_right (fun '(c, _) m => Nat.max (next c) m) 0 l <= t).
    { induction l as [|[c' o'] l IH]; cbn [fold_right]; intros H; [lia|]. apply Nat.max_lub; [eapply H; left; reflexivity|].
      apply IH. intros. eapply H. right. eassumption. }
    assert (B : forall l, In (c, o) l -> t <= fold_right (fun '(c, _) m => Nat.max (next c) m) 0 l).
    { induction l as [|[c' o'] l IH]; cbn [fold_right In]; [easy|]. intros [E|H]; [inversion E; subst; lia|]. specialize (IH H). lia. }
    apply Nat.le_antisymm; [now apply A|now apply B].
  Qed.
  Lemma next_after_in : forall next (evs : list (event F)) till c o, In (c, o) (touched evs) ->
    next_after next evs till c = till.
  Proof.
    intros next evs till c o H. unfold next_after.
    replace (existsb _ _) with true; [reflexivity|]. symmetry. apply existsb_exists.
    exists (c, o). split; [assumption|]. apply column_eqb_refl.
  Qed.
  Lemma next_after_out : forall next (evs : list (event F)) till c, (forall o, ~ In (c, o) (touched evs)) ->
    next_after next evs till c = next c.
  Proof.
    intros next evs till c H. unfold next_after.
    replace (existsb _ _) with false; [reflexivity|]. symmetry. apply not_true_is_false. intros X.
    apply existsb_exists in X. destruct X as ([c' o] & X & E). apply column_eqb_eq in E. subst c'. now apply H in X.
  Qed.

  (** selectors *)
  Lemma selector_at_on : forall (L : layout F) s r, In (s, r) (lo_sel L) -> selector_at L s r = fone.
  Proof.
    intros L s r H. unfold selector_at. replace (existsb _ _) with true; [reflexivity|].
    symmetry. apply existsb_exists. exists (s, r). split; [assumption|]. now rewrite !Nat.eqb_refl.
  Qed.
  Lemma selector_at_off : forall (L : layout F) s r, ~ In (s, r) (lo_sel L) -> selector_at L s r = fzero.
  Proof.
    intros L s r H. unfold selector_at. replace (existsb _ _) with false; [reflexivity|].
    symmetry. apply not_true_is_false. intros X. apply existsb_exists in X.
    destruct X as ([s' r'] & X & E). apply andb_prop in E. destruct E as [E1 E2].
    apply Nat.eqb_eq in E1, E2. subst. easy.
  Qed.
  Lemma selector_at_cases : forall (L : layout F) s r,
    (In (s, r) (lo_sel L) /\ selector_at L s r = fone) \/ (~ In (s, r) (lo_sel L) /\ selector_at L s r = fzero).
  Proof.
    intros L s r. destruct (in_dec (fun x y : nat * nat => ltac:(decide equality; apply Nat.eq_dec)) (s, r) (lo_sel L)) as [H|H].
    - left. split; [assumption|]. now apply selector_at_on.
    - right. split; [assumption|]. now apply selector_at_off.
  Qed.
  (** parallel regions whose shape is one cell at their end *)
  Fixpoint spans (t : nat) (lens : list nat) : list (nat * nat) :=
    match lens with [] => [] | n :: r => (t, n + t) :: spans (n + t) r end.
  Fixpoint single_shape {A} (c ri : nat) (ps : list (Region F A * Region F A)) (lens : list nat) : Prop :=
    match ps, lens with
    | [], [] => True
    | (p1, p2) :: ps', n :: lens' =>
      0 < n /\ (exists v a, p1 ri = Ok ([AssignAdvice c (n - 1) v], a))
      /\ (forall evs a, p2 ri = Ok (evs, a) -> forall q o, In (q, o) (touched evs) -> o < n)
      /\ single_shape c (S ri) ps' lens'
    | _, _ => False
    end.
  Lemma spans_increasing : forall lens t from, from <= t -> increasing from (spans t lens) = true.
  Proof.
    induction lens as [|n lens IH]; intros t from H; cbn [spans increasing]; [reflexivity|].
    rewrite (proj2 (Nat.leb_le _ _) H). cbn [andb]. apply IH. lia.
  Qed.
  Lemma single_ranges : forall {A} c lens (ps : list (Region F A * Region F A)) ri (L : layout F), single_shape c ri ps lens ->
    row_ranges ri ps L = Ok (spans (lo_next L (Adv c)) lens).
  Proof.
    intros A c. induction lens as [|n lens IH]; intros [|[p1 p2] ps] ri L H; cbn [single_shape] in H; try easy.
    destruct H as (Hn & (v & a & E) & _ & H). cbn [row_ranges]. rewrite E. cbn [bind].
    set (sh := [AssignAdvice c (n - 1) v]).
    assert (RS : region_start (lo_next L) sh = lo_next L (Adv c)) by (cbn; lia).
    assert (RC : row_count sh = n) by (cbn; lia).
    rewrite (IH _ _ _ H). cbn [bind spans]. rewrite RS, RC. cbn [reserve lo_next].
    rewrite RS, RC, (next_after_in _ _ _ _ (n - 1)) by now left. reflexivity.
  Qed.
  Lemma single_kept : forall {A} c lens (ps : list (Region F A * Region F A)) ri t, single_shape c ri ps lens ->
    kept ri ps (spans t lens) = true.
  Proof.
    intros A c. induction lens as [|n lens IH]; intros [|[p1 p2] ps] ri t H; cbn [single_shape] in H; try easy.
    destruct H as (Hn & _ & K & H). cbn [kept spans]. rewrite (IH _ _ _ H), andb_true_r.
    destruct (p2 ri) as [[evs a]|] eqn:E; [|reflexivity]. apply forallb_forall. intros [q o] Ho.
    apply Nat.ltb_lt. specialize (K evs a eq_refl q o Ho). lia.
  Qed.
  Lemma single_assign_regions : forall {A} c lens (ps : list (Region F A * Region F A)) (L : layout F),
    single_shape c (length (lo_starts L)) ps lens ->
    assign_regions ps L = (do L1 <- reserve_all (length (lo_starts L)) ps L; commit_all (length (lo_starts L)) ps L1).
  Proof.
    intros A c lens ps L H. unfold assign_regions. rewrite (single_ranges _ _ _ _ _ H). cbn [bind].
    rewrite spans_increasing, (single_kept _ _ _ _ _ H) by lia. reflexivity.
  Qed.
  (** table columns *)
  Definition add_table (c : nat) (vals : list F) (L : layout F) : layout F :=
    {| lo_starts := lo_starts L; lo_next := lo_next L; lo_adv := lo_adv L; lo_fix := lo_fix L; lo_sel := lo_sel L;
       lo_copy := lo_copy L; lo_tables := lo_tables L ++ [(c, vals)]; lo_const := lo_const L |}.
  Lemma assign_table_inv : forall c vals (L L' : layout F) x, assign_table c vals L = Ok (L', x) -> L' = add_table c vals L.
  Proof.
    intros c vals L L' x H. unfold assign_table in H. destruct (rassert _); [|discriminate]. cbn [bind] in H. now injection H.
  Qed.
  Lemma assign_table_fresh : forall c vals (L : layout F), (forall v, ~ In (c, v) (lo_tables L)) -> 0 < length vals ->
    assign_table c vals L = Ok (add_table c vals L, tt).
  Proof.
    intros c vals L H Hv. unfold assign_table. rewrite (proj2 (Nat.ltb_lt _ _) Hv).
    replace (existsb _ _) with false; [reflexivity|]. symmetry. apply not_true_is_false. intros X. apply existsb_exists in X.
    destruct X as ([c' v] & X & E). apply Nat.eqb_eq in E. subst c'. exact (H v X).
  Qed.
  Lemma assign_table_again : forall c vals (L : layout F) v, In (c, v) (lo_tables L) -> assign_table c vals L = Panic.
  Proof.
    intros c vals L v H. unfold assign_table. replace (existsb _ _) with true; [reflexivity|]. symmetry. apply existsb_exists.
    exists (c, v). split; [exact H|]. apply Nat.eqb_refl.
  Qed.
End Regions.
