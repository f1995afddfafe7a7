(** The lemmas behind PropertiesKey.v: the layout code is parametric in the values of advice cells. *)
From Coq Require Import ZArith List Arith Lia Bool.
From Verif Require Import Field Rust ListAux Primitives Halo2 Pow5 Gadget KeyUse.
Import ListNotations.
Local Open Scope nat_scope.

Section Regions.
  Context {F : Type} {FO : FieldOps F}.

  Definition sim_event (e e' : event F) : Prop :=
    match e, e' with
    | AssignAdvice c o _, AssignAdvice c' o' _ => c = c' /\ o = o'
    | AssignAdvice _ _ _, _ | _, AssignAdvice _ _ _ => False
    | _, _ => e = e'
    end.
  Definition sim_region {A B} (R : A -> B -> Prop) (p : Region F A) (q : Region F B) : Prop :=
    forall ri, match p ri, q ri with
    | Ok (e, a), Ok (e', b) => Forall2 sim_event e e' /\ R a b
    | Panic, Panic => True
    | _, _ => False
    end.
  Definition any {A B} (_ : A) (_ : B) : Prop := True.

  Lemma sim_ret : forall {A B} (R : A -> B -> Prop) a b, R a b -> sim_region R (rret a) (rret b).
  Proof. intros A B R a b H ri. now split. Qed.
  Lemma sim_fail : forall {A B} (R : A -> B -> Prop), sim_region R rfail rfail.
  Proof. intros A B R ri. exact I. Qed.
  Lemma sim_bind : forall {A B A' B'} (R : A -> B -> Prop) (R' : A' -> B' -> Prop) m m' f f',
    sim_region R m m' -> (forall a b, R a b -> sim_region R' (f a) (f' b)) -> sim_region R' (rbind m f) (rbind m' f').
  Proof.
    intros A B A' B' R R' m m' f f' H K ri. unfold rbind. specialize (H ri).
    destruct (m ri) as [[e a]|], (m' ri) as [[e' b]|]; try contradiction; [|exact I]. destruct H as [E H].
    specialize (K a b H ri). cbn [bind]. destruct (f a ri) as [[e1 a1]|], (f' b ri) as [[e1' b1]|]; try contradiction; [|exact I].
    destruct K as [E1 K]. cbn [bind]. split; [now apply Forall2_app|assumption].
  Qed.
  Lemma sim_lift : forall {A} (m : result A), sim_region eq (rlift m) (rlift m).
  Proof. intros A [a|] ri; [now split|exact I]. Qed.
  Lemma sim_map : forall {A B A' B'} (R : A -> B -> Prop) (R' : A' -> B' -> Prop) f f' l l',
    Forall2 R l l' -> (forall a b, R a b -> sim_region R' (f a) (f' b)) -> sim_region (Forall2 R') (rmap f l) (rmap f' l').
  Proof.
    intros A B A' B' R R' f f' l l' H K. induction H as [|x y l l' H _ IH]; [now apply sim_ret|]. cbn [rmap].
    eapply sim_bind; [apply K, H|]. intros a b Hab. eapply sim_bind; [apply IH|]. intros r r' Hr. apply sim_ret. now constructor.
  Qed.
  Lemma sim_fold : forall {A A' B} (R : A -> A' -> Prop) (f : A -> B -> Region F A) (f' : A' -> B -> Region F A') l a b,
    R a b -> (forall a b x, R a b -> sim_region R (f a x) (f' b x)) -> sim_region R (rfold f l a) (rfold f' l b).
  Proof.
    intros A A' B R f f' l. induction l as [|x l IH]; intros a b H K; [now apply sim_ret|]. cbn [rfold].
    eapply sim_bind; [apply K, H|]. intros a' b' H'. now apply IH.
  Qed.
  Lemma sim_advice : forall c o v v', sim_region same_cell (assign_advice c o v) (assign_advice (F := F) c o v').
  Proof. intros c o v v' ri. split; [repeat constructor|reflexivity]. Qed.
  Lemma sim_fixed : forall c o v, sim_region same_cell (assign_fixed c o v) (assign_fixed (F := F) c o v).
  Proof. intros c o v ri. split; [repeat constructor|reflexivity]. Qed.
  Lemma sim_selector : forall c o, sim_region any (enable_selector c o) (enable_selector (F := F) c o).
  Proof. intros c o ri. split; [repeat constructor|exact I]. Qed.
  Lemma sim_copy : forall w w' c o, same_cell w w' -> sim_region same_cell (copy_advice w c o) (copy_advice (F := F) w' c o).
  Proof.
    intros w w' c o H. unfold copy_advice. eapply sim_bind; [apply sim_advice|]. intros d d' Hd.
    apply sim_bind with (R := any).
    - intros ri. split; [|exact I]. constructor; [|constructor]. cbn. unfold same_cell in *. congruence.
    - intros _ _ _. now apply sim_ret.
  Qed.
  Lemma sim_constant : forall c o v, sim_region same_cell (assign_advice_from_constant c o v) (assign_advice_from_constant (F := F) c o v).
  Proof.
    intros c o v. unfold assign_advice_from_constant. eapply sim_bind; [apply sim_advice|]. intros d d' Hd.
    apply sim_bind with (R := any).
    - intros ri. split; [|exact I]. constructor; [|constructor]. cbn. unfold same_cell in *. congruence.
    - intros _ _ _. now apply sim_ret.
  Qed.

  (** ** the layouter *)
  Lemma sim_touched : forall e e' : list (event F), Forall2 sim_event e e' -> touched e = touched e'.
  Proof.
    intros e e' H. induction H as [|x y l l' H _ IH]; [reflexivity|]. unfold touched in *. cbn [flat_map]. rewrite IH. f_equal.
    destruct x, y; cbn in H; try contradiction; try discriminate H; try (injection H as <- <- <-); try (injection H as <- <-); try reflexivity.
    now destruct H as [-> ->].
  Qed.
  Lemma sim_abs : forall (e e' : list (event F)), Forall2 sim_event e e' -> forall st starts,
    map fst (abs_adv st e) = map fst (abs_adv st e') /\ abs_fix st e = abs_fix st e' /\ abs_sel st e = abs_sel st e'
    /\ abs_copy starts e = abs_copy starts e' /\ const_events e = const_events e'.
  Proof.
    intros e e' H st starts. induction H as [|x y l l' H _ IH]; [repeat split|].
    destruct IH as (I1 & I2 & I3 & I4 & I5). unfold abs_adv, abs_fix, abs_sel, abs_copy, const_events in *. cbn [flat_map].
    rewrite !map_app, I1, I2, I3, I4, I5.
    destruct x, y; cbn in H; try contradiction; try discriminate H; try (injection H as <- <- <-); try (injection H as <- <-); try (repeat split; fail).
    destruct H as [-> ->]. repeat split.
  Qed.

  Lemma start_ext : forall n n' (e : list (event F)), (forall c, n c = n' c) -> region_start n e = region_start n' e.
  Proof.
    intros n n' e H. unfold region_start. induction (touched e) as [|[c o] l IH]; [reflexivity|]. cbn [fold_right]. now rewrite IH, H.
  Qed.
  Lemma start_touched : forall n (e e' : list (event F)), touched e = touched e' -> region_start n e = region_start n e'.
  Proof. intros n e e' H. unfold region_start. now rewrite H. Qed.

  Lemma sim_constants : forall l (L L' : layout F), same_key L L' ->
    match fold_r place_constant l L, fold_r place_constant l L' with
    | Ok M, Ok M' => same_key M M'
    | Panic, Panic => True
    | _, _ => False
    end.
  Proof.
    induction l as [|[a v] l IH]; intros L L' H; [exact H|]. cbn [fold_r].
    destruct H as (H1 & H2 & H3 & H4 & H5 & H6 & H7 & H8). cbn [place_constant]. rewrite <- H8. destruct (lo_const L) as [k|] eqn:K; [|exact I].
    cbn [unwrap bind]. apply IH. repeat split; cbn [lo_starts lo_next lo_adv lo_fix lo_sel lo_copy lo_tables lo_const];
      first [congruence|intros c; rewrite !H2; reflexivity|now rewrite H6, H2, H1].
  Qed.

  Definition sim {A B} (R : A -> B -> Prop) (m : Layouter F A) (m' : Layouter F B) : Prop :=
    forall L L', same_key L L' -> same_outcome R (m L) (m' L').

  Lemma sim_assign : forall {A B} (R : A -> B -> Prop) p q, sim_region R p q -> sim R (assign_region p) (assign_region q).
  Proof.
    intros A B R p q H L L' K. unfold assign_region. pose proof K as (K1 & K2 & K3 & K4 & K5 & K6 & K7 & K8). rewrite <- K1.
    specialize (H (length (lo_starts L))).
    destruct (p (length (lo_starts L))) as [[e a]|], (q (length (lo_starts L))) as [[e' b]|]; try contradiction; [|exact I].
    destruct H as [E H]. cbn [bind].
    assert (ST : region_start (lo_next L) e = region_start (lo_next L') e').
    { rewrite (start_ext _ _ _ K2). apply start_touched. now apply sim_touched. }
    set (M := commit _ e (reserve e L)). set (M' := commit _ e' (reserve e' L')).
    assert (KM : same_key M M').
    { unfold M, M', commit, reserve. rewrite <- ST, <- K1. cbn [lo_starts lo_next lo_adv lo_fix lo_sel lo_copy lo_tables lo_const].
      set (st := nth _ _ _). set (starts := lo_starts L ++ _).
      destruct (sim_abs e e' E st starts) as (I1 & I2 & I3 & I4 & _).
      repeat split; cbn [lo_starts lo_next lo_adv lo_fix lo_sel lo_copy lo_tables lo_const]; try assumption.
      - intros c. unfold next_after, row_count. rewrite (sim_touched _ _ E), K2. reflexivity.
      - rewrite !map_app. now rewrite K3, I1.
      - now rewrite K4, I2.
      - now rewrite K5, I3.
      - now rewrite K6, I4. }
    destruct (sim_abs e e' E 0 []) as (_ & _ & _ & _ & C). rewrite <- C.
    pose proof (sim_constants (const_events e) M M' KM) as X.
    destruct (fold_r place_constant (const_events e) M) as [N|], (fold_r place_constant (const_events e) M') as [N'|]; try contradiction;
      cbn [bind]; [now split|exact I].
  Qed.
  Lemma sim_lret : forall {A B} (R : A -> B -> Prop) a b, R a b -> sim R (lret a) (lret b).
  Proof. intros A B R a b H L L' K. now split. Qed.
  Lemma sim_lbind : forall {A B A' B'} (R : A -> B -> Prop) (R' : A' -> B' -> Prop) m m' f f',
    sim R m m' -> (forall a b, R a b -> sim R' (f a) (f' b)) -> sim R' (lbind m f) (lbind m' f').
  Proof.
    intros A B A' B' R R' m m' f f' H K L L' S. unfold lbind. specialize (H L L' S).
    destruct (m L) as [[M a]|], (m' L') as [[M' b]|]; try contradiction; [|exact I]. destruct H as [S' H]. cbn [bind]. now apply K.
  Qed.
  Lemma sim_llift : forall {A} (m : result A), sim eq (llift m) (llift m).
  Proof. intros A [a|] L L' S; [now split|exact I]. Qed.
  Lemma sim_lfold : forall {A A' B B'} (R : A -> A' -> Prop) (Q : B -> B' -> Prop) f f' l l',
    Forall2 Q l l' -> (forall a b x y, R a b -> Q x y -> sim R (f a x) (f' b y)) -> forall a b, R a b -> sim R (lfold f l a) (lfold f' l' b).
  Proof.
    intros A A' B B' R Q f f' l l' H K. induction H as [|x y l l' H _ IH]; intros a b Hab; [now apply sim_lret|]. cbn [lfold].
    eapply sim_lbind; [apply K; eassumption|]. exact IH.
  Qed.
End Regions.

(** ** The chip and the sponge *)
Section Chip.
  Context {F : Type} {FO : FieldOps F}.
  Variables (T RATE : nat) (s : spec F) (cfg : pow5).

  Notation words := (Forall2 (same_cell (F := F))).

  Lemma combine_words : forall (cols : list nat) ws ws', words ws ws' ->
    Forall2 (fun x y => fst x = fst y /\ same_cell (snd x) (snd y)) (combine cols ws) (combine cols ws').
  Proof.
    induction cols as [|c cols IH]; intros ws ws' H; [constructor|]. destruct H as [|w w' ws ws' H H']; [constructor|].
    cbn [combine]. constructor; [now split|now apply IH].
  Qed.
  Lemma combine_vals : forall (cols : list nat) (vs vs' : list (option F)), length vs = length vs' ->
    Forall2 (fun x y => fst x = fst y) (combine cols vs) (combine cols vs').
  Proof.
    induction cols as [|c cols IH]; intros [|v vs] [|v' vs'] H; try discriminate; constructor; [reflexivity|]. apply IH. now injection H.
  Qed.
  Lemma Forall2_eq : forall {A} (l : list A), Forall2 eq l l.
  Proof. intros A l. induction l; constructor; auto. Qed.
  Lemma words_length : forall ws ws', words ws ws' -> length (values ws) = length (values ws').
  Proof. intros ws ws' H. unfold values. rewrite !map_length. clear - H. induction H; cbn; congruence. Qed.

  Lemma sim_load : forall ws ws', words ws ws' -> sim_region words (p5_load cfg ws) (p5_load cfg ws').
  Proof.
    intros ws ws' H. unfold p5_load. eapply sim_map; [apply combine_words, H|]. intros [c w] [c' w'] [E H']. cbn [fst snd] in *. subst c'.
    now apply sim_copy.
  Qed.
  Lemma sim_fixes : forall cols (vs : list F) o, sim_region any (rmap (fun '(c, v) => assign_fixed c o v) (combine cols vs))
    (rmap (fun '(c, v) => assign_fixed c o v) (combine cols vs)).
  Proof.
    intros cols vs o. intros ri.
    pose proof (sim_map eq same_cell (fun '(c, v) => assign_fixed c o v) (fun '(c, v) => assign_fixed c o v) _ _ (Forall2_eq (combine cols vs))) as X.
    assert (Y : forall a b, a = b -> sim_region same_cell ((fun '(c, v) => assign_fixed c o v) a) ((fun '(c, v) => assign_fixed c o v) (b : nat * F))).
    { intros [c v] b <-. apply sim_fixed. }
    specialize (X Y ri). destruct (rmap _ _ ri) as [[e a]|]; [|exact I]. now split.
  Qed.

  Lemma sim_round : forall round offset gate fn fn',
    sim_region (fun vs vs' : list (option F) => length vs = length vs') fn fn' ->
    sim_region words (p5_round s cfg round offset gate fn) (p5_round s cfg round offset gate fn').
  Proof.
    intros round offset gate fn fn' H. unfold p5_round.
    eapply sim_bind; [apply sim_selector|]. intros _ _ _. eapply sim_bind; [apply sim_lift|]. intros rc rc' <-.
    eapply sim_bind; [apply sim_fixes|]. intros _ _ _. eapply sim_bind; [exact H|]. intros vs vs' E.
    eapply sim_map; [apply combine_vals, E|]. intros [c v] [c' v'] E'. cbn [fst] in E'. subst c'. apply sim_advice.
  Qed.
  Lemma sim_full : forall st st' r o, words st st' -> sim_region words (p5_full_round s cfg st r o) (p5_full_round s cfg st' r o).
  Proof.
    intros st st' r o H. unfold p5_full_round. apply sim_round. eapply sim_bind; [apply sim_lift|]. intros rc rc' <-.
    apply sim_ret. unfold mat_values. now rewrite !map_length.
  Qed.
  Lemma sim_single : forall st st' r o, words st st' -> sim_region words (p5_partial_single s cfg st r o) (p5_partial_single s cfg st' r o).
  Proof.
    intros st st' r o H. unfold p5_partial_single. apply sim_round. eapply sim_bind; [apply sim_lift|]. intros rc rc' <-.
    apply sim_ret. unfold mat_values. now rewrite !map_length.
  Qed.
  Lemma sim_partial : forall st st' r o, words st st' -> sim_region words (p5_partial_round s cfg st r o) (p5_partial_round s cfg st' r o).
  Proof.
    intros st st' r o H. unfold p5_partial_round. apply sim_round. eapply sim_bind; [apply sim_lift|]. intros rc rc' <-.
    eapply sim_bind; [apply sim_advice|]. intros _ _ _. eapply sim_bind; [apply sim_lift|]. intros rc2 rc2' <-.
    eapply sim_bind; [apply sim_fixes|]. intros _ _ _. apply sim_ret. unfold mat_values. now rewrite !map_length.
  Qed.

  Lemma sim_permute : forall ws ws', words ws ws' -> sim words (p5_permute s cfg ws) (p5_permute s cfg ws').
  Proof.
    intros ws ws' H. unfold p5_permute. apply sim_assign. unfold p5_permute_region, p5_permute_region_as.
    eapply sim_bind; [apply sim_load, H|]. intros a a' Ha.
    eapply sim_bind; [apply sim_fold; [exact Ha|]; intros; now apply sim_full|]. intros b b' Hb.
    eapply sim_bind; [apply sim_fold; [exact Hb|]; intros; now apply sim_partial|]. intros c c' Hc.
    eapply sim_bind; [|intros d d' Hd; apply sim_fold; [exact Hd|]; intros; now apply sim_full].
    destruct (_ <? _); [now apply sim_single|now apply sim_ret].
  Qed.
  Lemma sim_initial : forall cap, sim words (p5_initial_state RATE cfg cap) (p5_initial_state RATE cfg cap).
  Proof.
    intros cap. apply sim_assign. eapply sim_map; [apply Forall2_eq|]. intros [c v] b <-. apply sim_constant.
  Qed.

  Definition same_opt {A} (R : A -> A -> Prop) (x y : option A) : Prop :=
    match x, y with Some a, Some b => R a b | None, None => True | _, _ => False end.
  Lemma same_nth : forall {A} (R : A -> A -> Prop) l l' i, Forall2 (same_opt R) l l' -> same_opt R (nth i l None) (nth i l' None).
  Proof.
    intros A R l l' i H. revert i. induction H as [|x y l l' H _ IH]; intros [|i]; try exact I; [exact H|apply IH].
  Qed.

  Lemma sim_input_word : forall (input input' : list (option (padded_word F))) i, Forall2 (same_opt same_padded) input input' ->
    sim_region same_cell (load_input_word cfg input i) (load_input_word cfg input' i).
  Proof.
    intros input input' i H. apply (same_nth _ _ _ i) in H. unfold load_input_word.
    destruct (nth i input None) as [[w|v]|], (nth i input' None) as [[w'|v']|]; try contradiction.
    - now apply sim_copy.
    - cbn in H. subst v'. eapply sim_bind; [apply sim_fixed|]. intros d d' Hd. now apply sim_copy.
    - apply sim_fail.
  Qed.
  Lemma sim_add : forall ws ws' (input input' : list (option (padded_word F))), words ws ws' -> Forall2 (same_opt same_padded) input input' ->
    sim words (p5_add_input T RATE cfg ws input) (p5_add_input T RATE cfg ws' input').
  Proof.
    intros ws ws' input input' H HI. apply sim_assign. eapply sim_bind; [apply sim_selector|]. intros _ _ _.
    eapply sim_bind; [apply sim_load, H|]. intros st st' _.
    eapply sim_bind; [eapply sim_map; [apply Forall2_eq|]; intros a b <-; now apply sim_input_word|]. intros inp inp' _.
    eapply sim_map; [apply Forall2_eq|]. intros a b <-. apply sim_advice.
  Qed.

  Definition same_ab (a b : c_absorbing (F := F)) : Prop :=
    Forall2 (same_opt same_padded) (ab_mode a) (ab_mode b) /\ words (ab_state a) (ab_state b).
  Definition same_sq (a b : c_squeezing (F := F)) : Prop :=
    Forall2 (same_opt same_cell) (sq_mode a) (sq_mode b) /\ words (sq_state a) (sq_state b).

  Lemma words_firstn : forall n ws ws', words ws ws' -> words (firstn n ws) (firstn n ws').
  Proof. induction n as [|n IH]; intros ws ws' H; [constructor|]. destruct H; cbn [firstn]; constructor; auto. Qed.
  Lemma output_same : forall ws ws', words ws ws' -> Forall2 (same_opt same_cell) (p5_get_output RATE ws) (p5_get_output RATE ws').
  Proof.
    intros ws ws' H. unfold p5_get_output. apply (words_firstn RATE) in H. induction H; cbn [map]; constructor; auto.
  Qed.
  Lemma sim_sponge : forall st st' (input input' : option (list (option (padded_word F)))), words st st' -> same_opt (Forall2 (same_opt same_padded)) input input' ->
    sim (fun x y => words (fst x) (fst y) /\ Forall2 (same_opt same_cell) (snd x) (snd y))
      (circuit_sponge T RATE s cfg st input) (circuit_sponge T RATE s cfg st' input').
  Proof.
    intros st st' input input' H HI. unfold circuit_sponge. apply sim_lbind with (R := words).
    - destruct input as [m|], input' as [m'|]; try contradiction; [now apply sim_add|now apply sim_lret].
    - intros a a' Ha. eapply sim_lbind; [apply sim_permute, Ha|]. intros b b' Hb. apply sim_lret. split; [exact Hb|now apply output_same].
  Qed.
  Lemma nones_same : forall {A} (R : A -> A -> Prop) n, Forall2 (same_opt R) (repeat None n) (repeat None n).
  Proof. intros A R n. induction n; constructor; [exact I|assumption]. Qed.
  Lemma sim_new : forall cap, sim same_ab (circuit_new RATE cfg cap) (circuit_new RATE cfg cap).
  Proof.
    intros cap. unfold circuit_new. eapply sim_lbind; [apply sim_initial|]. intros a a' H. apply sim_lret. split; [apply nones_same|exact H].
  Qed.
  Lemma put_same : forall v v' l l', same_padded v v' -> Forall2 (same_opt same_padded) l l' ->
    same_opt (Forall2 (same_opt same_padded)) (put_first (F := F) v l) (put_first v' l').
  Proof.
    intros v v' l l' Hv H. induction H as [|x y l l' H HH IH]; [exact I|].
    destruct x as [x|], y as [y|]; try contradiction; cbn [put_first].
    - destruct (put_first v l), (put_first v' l'); try contradiction; [|exact I]. cbn. now constructor.
    - cbn. now constructor.
  Qed.
  Lemma sim_absorb : forall sp sp' v v', same_ab sp sp' -> same_padded v v' ->
    sim same_ab (circuit_absorb T RATE s cfg sp v) (circuit_absorb T RATE s cfg sp' v').
  Proof.
    intros sp sp' v v' [Hm Hs] Hv. unfold circuit_absorb. pose proof (put_same v v' _ _ Hv Hm) as P.
    destruct (put_first v (ab_mode sp)) as [m|], (put_first v' (ab_mode sp')) as [m'|]; try contradiction.
    - apply sim_lret. now split.
    - eapply sim_lbind; [apply sim_sponge; [exact Hs|exact Hm]|]. intros [st o] [st' o'] [H1 _]. cbn [fst snd] in *.
      apply sim_lbind with (R := Forall2 (same_opt same_padded)).
      + cbn [length]. rewrite !repeat_length. destruct (_ =? _); intros L L' K; [|exact I]. split; [exact K|]. constructor; [exact Hv|apply nones_same].
      + intros m m' Hm'. apply sim_lret. now split.
  Qed.
  Lemma sim_finish : forall sp sp', same_ab sp sp' -> sim same_sq (circuit_finish T RATE s cfg sp) (circuit_finish T RATE s cfg sp').
  Proof.
    intros sp sp' [Hm Hs]. unfold circuit_finish. eapply sim_lbind; [apply sim_sponge; [exact Hs|exact Hm]|].
    intros [st o] [st' o'] [H1 H2]. apply sim_lret. now split.
  Qed.
  Lemma pop_same : forall l l', Forall2 (same_opt same_cell) l l' ->
    same_opt (fun x y => same_cell (fst x) (fst y) /\ Forall2 (same_opt same_cell) (snd x) (snd y)) (pop_first (F := F) l) (pop_first l').
  Proof.
    intros l l' H. induction H as [|x y l l' H HH IH]; [exact I|].
    destruct x as [x|], y as [y|]; try contradiction; cbn [pop_first].
    - split; [exact H|]. cbn [snd]. now constructor.
    - destruct (pop_first l) as [[a b]|], (pop_first l') as [[a' b']|]; try contradiction; [|exact I]. destruct IH as [I1 I2]. split; [exact I1|].
      cbn [snd]. now constructor.
  Qed.
  Lemma sim_squeeze : forall sp sp', same_sq sp sp' ->
    sim (fun x y => same_cell (fst x) (fst y) /\ same_sq (snd x) (snd y)) (circuit_squeeze T RATE s cfg sp) (circuit_squeeze T RATE s cfg sp').
  Proof.
    intros sp sp' [Hm Hs]. unfold circuit_squeeze. pose proof (pop_same _ _ Hm) as P.
    destruct (pop_first (sq_mode sp)) as [[x m]|], (pop_first (sq_mode sp')) as [[x' m']|]; try contradiction.
    - destruct P as [P1 P2]. apply sim_lret. split; [exact P1|]. now split.
    - eapply sim_lbind; [apply sim_sponge; [exact Hs|exact I]|]. intros [st o] [st' o'] [H1 H2]. cbn [fst snd] in *.
      pose proof (pop_same _ _ H2) as Q. destruct (pop_first o) as [[x m]|], (pop_first o') as [[x' m']|]; try contradiction.
      + destruct Q as [Q1 Q2]. apply sim_lret. split; [exact Q1|]. now split.
      + intros L L' K. exact I.
  Qed.
  Lemma sim_squeezes : forall k sp sp', same_sq sp sp' -> sim words (circuit_squeezes T RATE s cfg k sp) (circuit_squeezes T RATE s cfg k sp').
  Proof.
    induction k as [|k IH]; intros sp sp' H; [apply sim_lret; constructor|]. cbn [circuit_squeezes].
    eapply sim_lbind; [apply sim_squeeze, H|]. intros [x a] [x' a'] [H1 H2]. cbn [fst snd] in *.
    eapply sim_lbind; [apply IH, H2|]. intros r r' Hr. apply sim_lret. now constructor.
  Qed.
  Lemma sim_absorbs : forall input input' sp sp', Forall2 same_padded input input' -> same_ab sp sp' ->
    sim same_ab (lfold (circuit_absorb T RATE s cfg) input sp) (lfold (circuit_absorb T RATE s cfg) input' sp').
  Proof. intros input input' sp sp' H K. eapply sim_lfold; [exact H| |exact K]. intros a b x y Ha Hx. now apply sim_absorb. Qed.

  Theorem key_permute_claim : forall L L' ws ws', same_key L L' -> Forall2 same_cell ws ws' ->
    same_outcome (Forall2 same_cell) (p5_permute s cfg ws L) (p5_permute s cfg ws' L').
  Proof. intros L L' ws ws' K H. exact (sim_permute ws ws' H L L' K). Qed.
  Theorem key_session_claim : forall L L' cap input input' k, same_key L L' -> Forall2 same_padded input input' ->
    same_outcome (Forall2 same_cell) (circuit_session T RATE s cfg cap input k L) (circuit_session T RATE s cfg cap input' k L').
  Proof.
    intros L L' cap input input' k K H. revert L L' K. change (sim words (circuit_session T RATE s cfg cap input k) (circuit_session T RATE s cfg cap input' k)).
    unfold circuit_session. eapply sim_lbind; [apply sim_new|]. intros a a' Ha.
    eapply sim_lbind; [now apply sim_absorbs|]. intros b b' Hb. eapply sim_lbind; [apply sim_finish, Hb|]. intros c c' Hc. now apply sim_squeezes.
  Qed.
  Theorem key_hash_claim : forall N L0 L0' L1 L1' h h' L2 L2' msg msg',
    same_key L0 L0' -> circuit_hash_init RATE cfg N L0 = Ok (L1, h) -> circuit_hash_init RATE cfg N L0' = Ok (L1', h') ->
    same_key L1 L1' /\ (same_key L2 L2' -> Forall2 same_cell msg msg' ->
      same_outcome same_cell (circuit_hash T RATE s cfg N h msg L2) (circuit_hash T RATE s cfg N h' msg' L2')).
  Proof.
    intros N L0 L0' L1 L1' h h' L2 L2' msg msg' K E E'. unfold circuit_hash_init in *.
    pose proof (sim_new (initial_capacity_element (constant_length RATE N)) L0 L0' K) as X. rewrite E, E' in X. destruct X as [X Y].
    split; [exact X|]. intros K2 HM. revert L2 L2' K2.
    change (sim same_cell (circuit_hash T RATE s cfg N h msg) (circuit_hash T RATE s cfg N h' msg')). unfold circuit_hash.
    eapply sim_lbind; [apply sim_llift|]. intros pad pad' <-.
    eapply sim_lbind; [apply sim_absorbs; [|exact Y]|].
    { apply Forall2_app; [|clear; induction pad; constructor; [reflexivity|assumption]].
      clear - HM. induction HM; cbn [map]; constructor; auto. }
    intros b b' Hb. eapply sim_lbind; [apply sim_finish, Hb|]. intros c c' Hc.
    eapply sim_lbind; [apply sim_squeeze, Hc|]. intros [x sq] [x' sq'] [H1 _]. now apply sim_lret.
  Qed.
  Theorem key_hash_init_claim : forall N L L', same_key L L' ->
    same_outcome (fun _ _ => True) (circuit_hash_init RATE cfg N L) (circuit_hash_init RATE cfg N L').
  Proof.
    intros N L L' K. pose proof (sim_new (initial_capacity_element (constant_length RATE N)) L L' K) as X. unfold circuit_hash_init.
    unfold same_outcome in *. destruct (circuit_new _ _ _ L) as [[M a]|], (circuit_new _ _ _ L') as [[M' b]|]; try contradiction; [|exact I].
    split; [apply X|exact I].
  Qed.
End Chip.

(** ** Layouts with the same keys accept the same assignments *)
Section Accept.
  Context {F : Type} {FO : FieldOps F}.

  Lemma eval_ext : forall (e : expr F) n fx fx' sl sl' adv r, (forall c r, fx c r = fx' c r) -> (forall c r, sl c r = sl' c r) ->
    eval n fx sl adv r e = eval n fx' sl' adv r e.
  Proof. induction e; intros; cbn [eval]; try congruence; f_equal; auto. Qed.

  Lemma key_same : forall L L' : layout F, same_key L L' ->
    (forall c r, fixed_at L c r = fixed_at L' c r) /\ (forall c r, selector_at L c r = selector_at L' c r)
    /\ (forall c r, table_at L c r = table_at L' c r).
  Proof.
    intros L L' (_ & _ & _ & A & B & _ & C & _). unfold fixed_at, selector_at, table_at. rewrite A, B, C. repeat split.
  Qed.

  Lemma same_key_sym : forall L L' : layout F, same_key L L' -> same_key L' L.
  Proof. intros L L' (A & B & C & D & E & G & H & I). repeat split; auto. Qed.

  Lemma key_satisfied : forall L L' : layout F, same_key L L' -> forall n u m adv, satisfied n u m L adv -> satisfied n u m L' adv.
  Proof.
    intros L L' K n u m adv (A & B & C). destruct (key_same L L' K) as (X & Y & Z). split; [|split].
    - intros g r Hg Hr. rewrite <- (A g r Hg Hr). apply eval_ext; intros; symmetry; auto.
    - intros e t r He Hr. destruct (B e t r He Hr) as (r' & Hr' & E). exists r'. split; [exact Hr'|]. rewrite <- Z, <- E. apply eval_ext; intros; symmetry; auto.
    - destruct K as (_ & _ & _ & _ & _ & K & _). intros a b H. rewrite <- K in H. specialize (C a b H).
      destruct a as [[i|i|i] r], b as [[j|j|j] r']; cbn [cell_at] in *; rewrite <- ?X, <- ?Y; exact C.
  Qed.
  Lemma key_fits : forall L L' : layout F, same_key L L' -> forall u, fits u L -> fits u L'.
  Proof.
    intros L L' (_ & _ & A & B & C & _ & D & _) u (F1 & F2 & F3 & F4). unfold fits. rewrite <- B, <- C, <- D. split; [|auto].
    intros c r v H. apply (in_map fst) in H. rewrite <- A in H. apply in_map_iff in H. destruct H as ([[c' r'] v'] & E & H). injection E as -> ->. eauto.
  Qed.
  Theorem key_accepts_claim : forall L L' : layout F, same_key L L' -> forall n u m adv,
    (satisfied n u m L adv <-> satisfied n u m L' adv) /\ (fits u L <-> fits u L').
  Proof.
    intros L L' K n u m adv. split; split; intros H; [exact (key_satisfied L L' K _ _ _ _ H)|exact (key_satisfied L' L (same_key_sym _ _ K) _ _ _ _ H)
      |exact (key_fits L L' K _ H)|exact (key_fits L' L (same_key_sym _ _ K) _ H)].
  Qed.
End Accept.
