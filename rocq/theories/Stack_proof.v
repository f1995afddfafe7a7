(** Circuits that contain a permutation chip ([ChipUse.v]): what their gates say. *)
From Coq Require Import ZArith List Arith Lia Bool.
From Verif Require Import Field Rust ListAux Halo2 Septidon PermuteChip ChipUse Layout_proof SeptVal_proof Contract.
Import ListNotations.
Local Open Scope nat_scope.

(** lists of writes stacked in blocks of [h] rows *)
Fixpoint stackw {V} (h t : nat) (bl : list (list (nat * nat * V))) : list (nat * nat * V) :=
  match bl with [] => [] | b :: r => map (moved 0 t) b ++ stackw h (h + t) r end.

Lemma stackw_in : forall {V} h (bl : list (list (nat * nat * V))) t c r v,
  In (c, r, v) (stackw h t bl) <-> exists i o, i < length bl /\ In (c, o, v) (nth i bl []) /\ r = o + (h * i + t).
Proof.
  intros V h bl. induction bl as [|b bl IH]; intros t c r v; cbn [stackw length nth].
  - split; [easy|]. intros (i & o & Hi & _). lia.
  - rewrite in_app_iff, IH. split.
    + intros [H|(i & o & Hi & H & ->)].
      * apply in_moved in H. destruct H as (c' & r' & H & -> & ->). exists 0, r'. rewrite Nat.add_0_r. repeat split; [lia|assumption|lia].
      * exists (S i), o. repeat split; [lia|assumption|lia].
    + intros ([|i] & o & Hi & H & ->).
      * left. apply in_map_iff. exists (c, o, v). split; [|assumption]. cbn. f_equal. f_equal; lia.
      * right. exists i, o. repeat split; [lia|assumption|lia].
Qed.

Lemma stackw_read : forall {V} h (bl : list (list (nat * nat * V))) t i c o,
  Forall (fun b => forall c o v, In (c, o, v) b -> o < h) bl -> i < length bl -> o < h ->
  last_write (stackw h t bl) c (o + (h * i + t)) = last_write (nth i bl []) c o.
Proof.
  intros V h bl. induction bl as [|b bl IH]; intros t i c o HB Hi Ho; cbn [length] in Hi; [lia|].
  inversion HB as [|? ? H1 H2]; subst. cbn [stackw]. rewrite last_write_app.
  destruct i as [|i].
  - replace (last_write (stackw h (h + t) bl) c (o + (h * 0 + t))) with (@None V).
    + replace (o + (h * 0 + t)) with (o + t) by lia. rewrite <- (Nat.add_0_r c) at 1. apply last_write_moved.
    + symmetry. apply last_write_none. intros v H. apply stackw_in in H. destruct H as (i & o' & _ & _ & E). lia.
  - replace (o + (h * S i + t)) with (o + (h * i + (h + t))) by lia. rewrite IH by (assumption || lia).
    cbn [nth]. destruct (last_write (nth i bl []) c o); [reflexivity|].
    apply last_write_none. intros v H. apply in_moved in H. destruct H as (c' & r' & H & _ & E).
    apply H1 in H. nia.
Qed.

Lemma stackw_out : forall {V} h (bl : list (list (nat * nat * V))) t c r,
  Forall (fun b => forall c o v, In (c, o, v) b -> o < h) bl ->
  (forall i, i < length bl -> ~ (h * i + t <= r < h * i + t + h)) -> last_write (stackw h t bl) c r = None.
Proof.
  intros V h bl t c r HB H. apply last_write_none. intros v X. apply stackw_in in X.
  destruct X as (i & o & Hi & X & ->). apply (H i Hi).
  rewrite Forall_forall in HB. specialize (HB _ (nth_In bl [] Hi) _ _ _ X). lia.
Qed.

Lemma nth_repeat_lt : forall {A} (x d : A) k i, i < k -> nth i (repeat x k) d = x.
Proof. induction k as [|k IH]; intros [|i] H; cbn; try lia; auto. apply IH. lia. Qed.

Section Stack.
  Context {F : Type} {FO : FieldOps F}.
  Variable D : chip_data (F := F).
  Variable perm : list F -> list F.
  Hypothesis Laws : chip_laws D perm.
  Notation h := (cd_h D).
  Notation own := (cd_own D).

  Lemma stack_fix_w : forall k t, stack_fix D t k = stackw h t (repeat (cd_fix D) k).
  Proof. induction k as [|k IH]; intros t; cbn [stack_fix stackw repeat]; [reflexivity|]. now rewrite IH. Qed.
  Lemma stack_adv_w : forall wss t, stack_adv D t wss = stackw h t (map (fun ws => cd_adv D (word_vals ws)) wss).
  Proof. induction wss as [|ws wss IH]; intros t; cbn [stack_adv stackw map]; [reflexivity|]. now rewrite IH. Qed.
  Lemma stack_sel_in : forall k t s r, In (s, r) (stack_sel D t k) <->
    exists i o, i < k /\ In (s, o) (cd_sel D) /\ r = o + (h * i + t).
  Proof.
    induction k as [|k IH]; intros t s r; cbn [stack_sel].
    - split; [easy|]. intros (i & o & Hi & _). lia.
    - rewrite in_app_iff, IH, in_map_iff. split.
      + intros [([s' o] & E & H)|(i & o & Hi & H & ->)].
        * inversion E; subst. exists 0, o. repeat split; [lia|assumption|lia].
        * exists (S i), o. repeat split; [lia|assumption|lia].
      + intros ([|i] & o & Hi & H & ->).
        * left. exists (s, o). split; [f_equal; lia|assumption].
        * right. exists i, o. repeat split; [lia|assumption|lia].
  Qed.
  Lemma stack_copy_in : forall st wss t p, In p (stack_copy D st t wss) <->
    exists i ws, nth_error wss i = Some ws /\ In p (block_copy D st (h * i + t) ws).
  Proof.
    intros st. induction wss as [|ws wss IH]; intros t p; cbn [stack_copy].
    - split; [easy|]. intros ([|i] & ws & E & _); discriminate.
    - rewrite in_app_iff, IH. split.
      + intros [H|(i & ws' & E & H)].
        * exists 0, ws. split; [reflexivity|]. now rewrite Nat.mul_0_r.
        * exists (S i), ws'. split; [assumption|]. now replace (h * S i + t) with (h * i + (h + t)) by lia.
      + intros ([|i] & ws' & E & H).
        * left. cbn in E. inversion E; subst. now rewrite Nat.mul_0_r in H.
        * right. exists i, ws'. split; [assumption|]. now replace (h * i + (h + t)) with (h * S i + t) by lia.
  Qed.
  Lemma stack_out_nth : forall wss t i ws, nth_error wss i = Some ws ->
    nth_error (stack_out D t wss) i = Some (block_out D (h * i + t) ws).
  Proof.
    induction wss as [|ws0 wss IH]; intros t [|i] ws E; cbn in E; try discriminate.
    - inversion E; subst. cbn [stack_out nth_error]. now rewrite Nat.mul_0_r.
    - cbn [stack_out nth_error]. rewrite (IH _ _ _ E). do 2 f_equal. lia.
  Qed.
  Lemma stack_out_length : forall wss t, length (stack_out D t wss) = length wss.
  Proof. induction wss; intros; cbn; auto. Qed.

  Lemma fix_rows : forall k, Forall (fun b => forall c o v, In (c, o, v) b -> o < h) (repeat (cd_fix D) k).
  Proof.
    intros k. apply Forall_forall. intros b Hb. apply repeat_spec in Hb. subst b. intros c o v H.
    now apply (law_fix_rows D perm Laws) in H.
  Qed.
  Lemma adv_rows : forall wss, Forall (fun b => forall c o v, In (c, o, v) b -> o < h)
    (map (fun ws => cd_adv D (word_vals ws)) wss).
  Proof.
    intros wss. apply Forall_forall. intros b Hb. apply in_map_iff in Hb. destruct Hb as (ws & <- & _).
    intros c o v H. now apply (law_adv_rows D perm Laws) in H.
  Qed.

  (** the gates on a layout whose own columns hold [k] blocks from row [t] on *)
  Definition own_fix (L : layout F) (t k : nat) : Prop :=
    forall c r, own (Fix c) -> last_write (lo_fix L) c r = last_write (stack_fix D t k) c r.
  Definition own_sel (L : layout F) (t k : nat) : Prop :=
    forall s r, own (Sel s) -> (In (s, r) (lo_sel L) <-> In (s, r) (stack_sel D t k)).
  Definition own_adv (L : layout F) (t : nat) (wss : list (list (acell F))) : Prop :=
    forall c r, own (Adv c) -> last_write (lo_adv L) c r = last_write (stack_adv D t wss) c r.

  Theorem stack_gates : forall L t k n adv, own_fix L t k -> own_sel L t k -> h * k + t <= n ->
    (gates_hold n L adv (cd_gates D) <-> forall i, i < k -> cd_ok D (fun c o => adv c (o + (h * i + t)))).
  Proof.
    intros L t k n adv HF HS Hn.
    pose proof (law_gates D perm Laws n (fixed_at L) (selector_at L) adv (rows_of h t k)) as G.
    assert (IN : forall s, In s (rows_of h t k) <-> exists i, i < k /\ s = h * i + t) by (intros; apply rows_of_in).
    unfold gates_hold. rewrite G.
    - split.
      + intros H i Hi. apply (H (h * i + t)). apply IN. eauto.
      + intros H s Hs. apply IN in Hs. destruct Hs as (i & Hi & ->). now apply H.
    - apply rows_of_apart.
    - intros s Hs. apply IN in Hs. destruct Hs as (i & Hi & ->). nia.
    - intros s c o Hs Ho Hc. apply IN in Hs. destruct Hs as (i & Hi & ->). unfold fixed_at, rd.
      rewrite HF, stack_fix_w by assumption. rewrite stackw_read; [|apply fix_rows|now rewrite repeat_length|assumption].
      rewrite nth_repeat_lt by assumption. reflexivity.
    - intros c r Hr Hc Ho. unfold fixed_at. rewrite HF, stack_fix_w by assumption.
      rewrite stackw_out; [reflexivity|apply fix_rows|]. intros i Hi X. rewrite repeat_length in Hi.
      apply (Ho (h * i + t)); [apply IN; eauto|lia].
    - intros s q o Hs Ho Hq. apply IN in Hs. destruct Hs as (i & Hi & ->). split; intros X.
      + apply selector_at_on. apply HS; [assumption|]. apply stack_sel_in. eauto.
      + apply selector_at_off. intros Y. apply HS in Y; [|assumption]. apply stack_sel_in in Y.
        destruct Y as (i' & o' & Hi' & Y & E). pose proof (law_sel_rows D perm Laws _ _ Y) as [_ Ho'].
        assert (i = i') by nia. subst i'. assert (o = o') by lia. now subst.
    - intros q r Hr Hq Ho. apply selector_at_off. intros Y. apply HS in Y; [|assumption]. apply stack_sel_in in Y.
      destruct Y as (i & o & Hi & Y & ->). pose proof (law_sel_rows D perm Laws _ _ Y) as [_ Ho'].
      apply (Ho (h * i + t)); [apply IN; eauto|lia].
  Qed.

  (** the honest advice of block [i] *)
  Lemma honest_block : forall L t wss u blind i ws c o, own_adv L t wss -> own (Adv c) ->
    nth_error wss i = Some ws -> o < h -> h * length wss + t <= u ->
    honest u L blind c (o + (h * i + t)) = rda (cd_adv D (word_vals ws)) c o.
  Proof.
    intros L t wss u blind i ws c o HA Hc E Ho Hu.
    assert (Hi : i < length wss) by (apply nth_error_Some; congruence).
    unfold honest, rda. replace (o + (h * i + t) <? u) with true by (symmetry; apply Nat.ltb_lt; nia).
    rewrite HA, stack_adv_w by assumption. rewrite stackw_read; [|apply adv_rows|now rewrite map_length|assumption].
    rewrite (nth_indep _ [] (cd_adv D (word_vals [])))  by now rewrite map_length.
    rewrite (map_nth (fun ws => cd_adv D (word_vals ws))). now rewrite (nth_error_nth _ _ _ E).
  Qed.

  (** ** Calls *)
  Definition inv (L : layout F) (calls : list (list (acell F) * list (acell F)))
             (other : list ((column * nat) * (column * nat))) : Prop :=
    ready D L /\ lo_next L (cd_main D) = h * length calls
    /\ own_fix L 0 (length calls) /\ own_adv L 0 (map fst calls) /\ own_sel L 0 (length calls)
    /\ Forall (three_words L) (map fst calls) /\ Forall (three_words L) (map snd calls)
    /\ map (map (located L)) (map snd calls) = stack_out D 0 (map fst calls)
    /\ (forall p, In p (lo_copy L) <-> In p other \/ In p (stack_copy D (lo_starts L) 0 (map fst calls))).

  Lemma located_app : forall (L L' : layout F) ws, (exists new, lo_starts L' = lo_starts L ++ new) ->
    three_words L ws -> map (located L') ws = map (located L) ws.
  Proof.
    intros L L' ws [new E] [_ H]. apply map_ext_in. intros w Hw. unfold located. rewrite E. f_equal.
    apply abs_cell_app. rewrite Forall_forall in H. now apply H.
  Qed.

  Lemma stacked_length : forall L L' wss outs, stacked D L L' wss outs -> length outs = length wss.
  Proof.
    intros L L' wss outs (_ & _ & _ & _ & _ & _ & _ & _ & _ & _ & E & _).
    apply (f_equal (@length _)) in E. rewrite map_length, stack_out_length in E. exact E.
  Qed.

  Lemma combine_fst : forall {A B} (x : list A) (y : list B), length x = length y -> map fst (combine x y) = x.
  Proof. induction x; intros [|b y] H; cbn in *; try congruence. f_equal. apply IHx. lia. Qed.
  Lemma combine_snd : forall {A B} (x : list A) (y : list B), length x = length y -> map snd (combine x y) = y.
  Proof. induction x; intros [|b y] H; cbn in *; try congruence. f_equal. apply IHx. lia. Qed.

  Lemma stack_fix_app_own : forall t k k', stack_fix D t (k + k') = stack_fix D t k ++ stack_fix D (h * k + t) k'.
  Proof. intros. apply stack_fix_add. Qed.

  Lemma last_write_app_cong : forall {V} (a a' b : list (nat * nat * V)) c r,
    last_write a c r = last_write a' c r -> last_write (a ++ b) c r = last_write (a' ++ b) c r.
  Proof. intros V a a' b c r H. now rewrite !last_write_app, H. Qed.

  Lemma inv_stacked : forall L calls other wss L' outs, inv L calls other -> Forall (three_words L) wss ->
    stacked D L L' wss outs -> inv L' (calls ++ combine wss outs) other.
  Proof.
    intros L calls other wss L' outs (R & N & HF & HA & HS & K1 & K2 & O & C) K St.
    pose proof (stacked_length _ _ _ _ St) as Len.
    destruct St as (St & N' & R' & _ & A' & F' & S' & C' & _ & _ & O' & K').
    unfold inv. rewrite !map_app, combine_fst, combine_snd, !app_length, combine_length, Len, Nat.min_id by congruence.
    rewrite N in *.
    split; [assumption|]. split; [lia|]. split.
    { intros c r Hc. rewrite F', stack_fix_add, Nat.add_0_r. apply last_write_app_cong. now apply HF. }
    split.
    { intros c r Hc. rewrite A', stack_adv_app, map_length, Nat.add_0_r. apply last_write_app_cong. now apply HA. }
    split.
    { intros s r Hs. rewrite S', stack_sel_add, Nat.add_0_r, !in_app_iff. now rewrite (HS s r Hs). }
    split. { apply Forall_app. split; (eapply Forall_impl; [|eassumption]); intros ws; now apply known_app. }
    split. { apply Forall_app. split; [|assumption]. eapply Forall_impl; [|eassumption]. intros ws; now apply known_app. }
    split.
    { rewrite stack_out_app, map_length, Nat.add_0_r, O'. f_equal. rewrite <- O.
      apply map_ext_in. intros ws Hws. apply located_app; [assumption|]. rewrite Forall_forall in K2. now apply K2. }
    { intros p. rewrite C', stack_copy_app_r, map_length, Nat.add_0_r, !in_app_iff. rewrite C.
      destruct St as [new St]. rewrite St. rewrite !stack_copy_app by assumption. tauto. }
  Qed.

  Lemma inv_start : forall L, unused own L -> inv L [] (lo_copy L).
  Proof.
    intros L (U1 & U2 & U3 & U4). unfold inv. cbn [map length]. rewrite Nat.mul_0_r.
    split. { intros c Hc. rewrite (U1 c Hc). lia. }
    split. { apply U1. apply (law_main D perm Laws). }
    split. { intros c r Hc. cbn. apply last_write_none. intros v X. now apply U3 in X. }
    split. { intros c r Hc. cbn. apply last_write_none. intros v X. now apply U2 in X. }
    split. { intros s r Hs. cbn. split; [|easy]. intros X. now apply U4 in X. }
    split; [constructor|]. split; [constructor|]. split; [reflexivity|].
    intros p. cbn. tauto.
  Qed.

  Lemma inv_elsewhere : forall L calls other L' copies, inv L calls other -> elsewhere own L L' copies ->
    inv L' calls (other ++ copies).
  Proof.
    intros L calls other L' copies (R & N & HF & HA & HS & K1 & K2 & O & C)
      (st & av & fv & sv & St & Nx & EA & UA & EF & UF & ES & US & EC).
    assert (St' : exists new, lo_starts L' = lo_starts L ++ new) by eauto.
    unfold inv. split.
    { intros c Hc. rewrite !Nx by (assumption || apply (law_main D perm Laws)). now apply R. }
    split. { now rewrite Nx by apply (law_main D perm Laws). }
    split. { intros c r Hc. rewrite EF, last_write_app. rewrite (last_write_none fv); [now apply HF|].
             intros v X. now apply UF in X. }
    split. { intros c r Hc. rewrite EA, last_write_app. rewrite (last_write_none av); [now apply HA|].
             intros v X. now apply UA in X. }
    split. { intros s r Hs. rewrite ES, in_app_iff, (HS s r Hs). split; [|tauto]. intros [X|X]; [assumption|].
             now apply US in X. }
    split. { eapply Forall_impl; [|eassumption]. intros ws; now apply known_app. }
    split. { eapply Forall_impl; [|eassumption]. intros ws; now apply known_app. }
    split.
    { rewrite <- O. apply map_ext_in. intros ws Hws. apply located_app; [assumption|].
      rewrite Forall_forall in K2. now apply K2. }
    { intros p. rewrite EC, St, stack_copy_app by assumption. rewrite !in_app_iff, C. tauto. }
  Qed.

  (** a call of the chip, seen from the finished circuit *)
  Lemma inv_call : forall L calls other i ws out, inv L calls other -> nth_error calls i = Some (ws, out) ->
    i < length calls /\ nth_error (map fst calls) i = Some ws
    /\ three_words L ws /\ length out = 3
    /\ map (located L) out = block_out D (h * i) ws
    /\ (forall p, In p (block_copy D (lo_starts L) (h * i) ws) -> In p (lo_copy L)).
  Proof.
    intros L calls other i ws out (R & N & HF & HA & HS & K1 & K2 & O & C) E.
    assert (Hi : i < length calls) by (apply nth_error_Some; congruence).
    assert (E1 : nth_error (map fst calls) i = Some ws) by (rewrite nth_error_map, E; reflexivity).
    assert (E2 : nth_error (map snd calls) i = Some out) by (rewrite nth_error_map, E; reflexivity).
    split; [assumption|]. split; [assumption|].
    split. { rewrite Forall_forall in K1. apply K1. eapply nth_error_In. exact E1. }
    split. { rewrite Forall_forall in K2. apply K2. eapply nth_error_In. exact E2. }
    split.
    - apply (stack_out_nth _ 0) in E1. rewrite <- O in E1. rewrite nth_error_map, E2 in E1. cbn in E1.
      apply (f_equal (fun o => match o with Some x => x | None => [] end)) in E1. cbn beta iota in E1. rewrite E1, Nat.add_0_r. reflexivity.
    - intros p Hp. apply C. right. apply stack_copy_in. exists i, ws. rewrite Nat.add_0_r. now split.
  Qed.

  Lemma word_located : forall (L : layout F) adv w, word_at L adv w = cell_at L adv (fst (located L w)).
  Proof. reflexivity. Qed.

  (** the words of a call are the cells of its block *)
  Lemma call_words : forall L calls other i ws out adv, inv L calls other -> nth_error calls i = Some (ws, out) ->
    (copies_hold L adv -> map (word_at L adv) ws
       = [adv (cd_in D 0) (h * i); adv (cd_in D 1) (h * i); adv (cd_in D 2) (h * i)])
    /\ map (word_at L adv) out = map (fun j => adv (cd_out_col D j) (cd_out_row D j + h * i)) (seq 0 3).
  Proof.
    intros L calls other i ws out adv I E.
    destruct (inv_call _ _ _ _ _ _ I E) as (Hi & E1 & K1 & Lo & O & C). split.
    - intros H. destruct (length_list3 ws (proj1 K1)) as (w0 & w1 & w2 & ->).
      unfold block_copy in C. cbn [combine seq map] in C. cbn [map]. unfold word_at.
      rewrite <- (H _ _ (C _ (or_introl eq_refl))), <- (H _ _ (C _ (or_intror (or_introl eq_refl)))),
        <- (H _ _ (C _ (or_intror (or_intror (or_introl eq_refl))))). reflexivity.
    - transitivity (map (fun x => cell_at L adv (fst x)) (map (located L) out)).
      + rewrite map_map. reflexivity.
      + rewrite O. unfold block_out. rewrite map_map. reflexivity.
  Qed.

  Theorem calls_sound : forall L calls other n adv, inv L calls other -> h * length calls <= n ->
    gates_hold n L adv (cd_gates D) -> copies_hold L adv ->
    forall ws out, In (ws, out) calls ->
    map (word_at L adv) out = map (fun j => nth j (perm (map (word_at L adv) ws)) fzero) (seq 0 3).
  Proof.
    intros L calls other n adv I Hn G C ws out H. apply In_nth_error in H. destruct H as [i E].
    destruct (inv_call _ _ _ _ _ _ I E) as (Hi & _). pose proof I as I'.
    destruct I' as (_ & _ & HF & HA & HS & _).
    assert (OK : cd_ok D (fun c o => adv c (o + (h * i + 0)))).
    { apply (proj1 (stack_gates L 0 (length calls) n adv HF HS ltac:(lia)) G i Hi). }
    destruct (call_words _ _ _ _ _ _ adv I E) as [W1 W2]. rewrite (W1 C), W2.
    apply map_ext_in. intros j Hj. apply in_seq in Hj.
    pose proof (law_sound D perm Laws _ OK j ltac:(lia)) as X. cbn beta in X. rewrite !Nat.add_0_r in X.
    cbn [Nat.add] in X. exact X.
  Qed.

  Theorem calls_complete : forall L calls other u n blind, inv L calls other -> h * length calls <= u -> u <= n ->
    let adv := honest u L blind in
    (forall i ws out, nth_error calls i = Some (ws, out) ->
       Forall (fun w => ac_val w = Some (word_at L adv w)
                 \/ exists j ws' out', j < i /\ nth_error calls j = Some (ws', out') /\ In w out') ws) ->
    gates_hold n L adv (cd_gates D)
    /\ (forall ws out, In (ws, out) calls ->
          map ac_val out = map (fun j => Some (nth j (perm (map (word_at L adv) ws)) fzero)) (seq 0 3)
          /\ map (word_at L adv) out = map (fun j => nth j (perm (map (word_at L adv) ws)) fzero) (seq 0 3))
    /\ ((forall a b, In (a, b) other -> cell_at L adv a = cell_at L adv b) -> copies_hold L adv).
  Proof.
    intros L calls other u n blind I Hu Hn adv T. pose proof I as I'.
    destruct I' as (_ & _ & HF & HA & HS & _).
    assert (B : forall i ws out c o, nth_error calls i = Some (ws, out) -> own (Adv c) -> o < h ->
              adv c (o + h * i) = rda (cd_adv D (word_vals ws)) c o).
    { intros i ws out c o E Hc Ho. destruct (inv_call _ _ _ _ _ _ I E) as (Hi & E1 & _).
      rewrite <- (Nat.add_0_r (h * i)). eapply honest_block; try eassumption. rewrite map_length. lia. }
    (* every call is truthful *)
    assert (V : forall i ws out, nth_error calls i = Some (ws, out) -> exists init,
              word_vals ws = map3 Some init /\ map (word_at L adv) ws = of3 init
              /\ map ac_val out = map (fun j => Some (nth j (perm (of3 init)) fzero)) (seq 0 3)
              /\ map (word_at L adv) out = map (fun j => nth j (perm (of3 init)) fzero) (seq 0 3)
              /\ cd_ok D (fun c o => adv c (o + (h * i + 0)))
              /\ [adv (cd_in D 0) (h * i); adv (cd_in D 1) (h * i); adv (cd_in D 2) (h * i)] = of3 init).
    { intros i. induction i as [i IH] using (well_founded_induction Wf_nat.lt_wf). intros ws out E.
      destruct (inv_call _ _ _ _ _ _ I E) as (Hi & E1 & K1 & Lo & O & _).
      assert (T' : Forall (fun w => ac_val w = Some (word_at L adv w)) ws).
      { eapply Forall_impl; [|exact (T i ws out E)]. intros w [X|(j & ws' & out' & Hj & E' & Hw)]; [exact X|].
        destruct (IH j Hj ws' out' E') as (init & _ & _ & A1 & A2 & _).
        apply In_nth_error in Hw. destruct Hw as [q Hq].
        apply (f_equal (fun l => nth_error l q)) in A1. rewrite nth_error_map, Hq in A1. cbn [option_map] in A1.
        apply (f_equal (fun l => nth_error l q)) in A2. rewrite nth_error_map, Hq in A2. cbn [option_map] in A2.
        rewrite nth_error_map in A1, A2. destruct (nth_error (seq 0 3) q); cbn [option_map] in A1, A2; [|discriminate].
        inversion A1 as [B1]. inversion A2 as [B2]. congruence. }
      destruct (length_list3 ws (proj1 K1)) as (w0 & w1 & w2 & ->).
      exists (word_at L adv w0, word_at L adv w1, word_at L adv w2).
      assert (WV : word_vals [w0; w1; w2] = map3 Some (word_at L adv w0, word_at L adv w1, word_at L adv w2)).
      { inversion T' as [|? ? T0 T1']; subst. inversion T1' as [|? ? T1 T2']; subst. inversion T2' as [|? ? T2 _]; subst.
        cbn [word_vals map3]. congruence. }
      destruct (law_honest D perm Laws (word_at L adv w0, word_at L adv w1, word_at L adv w2)) as (OK & IN & OUT).
      rewrite <- WV in OK, IN, OUT.
      assert (OKi : cd_ok D (fun c o => adv c (o + (h * i + 0)))).
      { eapply (law_local D perm Laws); [|exact OK]. intros c o Hc Ho. cbn beta. rewrite Nat.add_0_r. symmetry.
        eapply B; eassumption. }
      assert (INi : forall j, j < 3 -> adv (cd_in D j) (h * i)
               = nth j (of3 (word_at L adv w0, word_at L adv w1, word_at L adv w2)) fzero).
      { intros j Hj. rewrite <- IN by assumption. destruct (law_in D perm Laws j Hj) as [X Y].
        rewrite <- (B i _ _ _ 0 E X Y). reflexivity. }
      split; [exact WV|]. split; [reflexivity|].
      assert (OV : map ac_val out = map (fun j => Some (nth j (perm (of3 (word_at L adv w0, word_at L adv w1, word_at L adv w2))) fzero)) (seq 0 3)).
      { transitivity (map snd (map (located L) out)); [rewrite map_map; reflexivity|].
        rewrite O. unfold block_out. rewrite map_map. apply map_ext_in. intros j Hj. apply in_seq in Hj.
        cbn [snd]. apply OUT. lia. }
      split; [exact OV|]. split; [|split; [exact OKi|]].
      - destruct (call_words _ _ _ _ _ _ adv I E) as [_ W2]. rewrite W2. apply map_ext_in. intros j Hj. apply in_seq in Hj.
        pose proof (law_sound D perm Laws _ OKi j ltac:(lia)) as X. cbn beta in X. rewrite !Nat.add_0_r in X.
        cbn [Nat.add] in X. rewrite X. rewrite !INi by lia. reflexivity.
      - rewrite !INi by lia. reflexivity. }
    split; [|split].
    - apply (proj2 (stack_gates L 0 (length calls) n adv HF HS ltac:(lia))). intros i Hi.
      destruct (nth_error calls i) as [[ws out]|] eqn:E; [|apply nth_error_None in E; lia].
      destruct (V i ws out E) as (init & _ & _ & _ & _ & OK & _). exact OK.
    - intros ws out H. apply In_nth_error in H. destruct H as [i E].
      destruct (V i ws out E) as (init & _ & E1 & E2 & E3 & _). rewrite E1. now split.
    - intros HO a b Hab. destruct I as (_ & _ & _ & _ & _ & K1 & _ & _ & C). apply C in Hab. destruct Hab as [Hab|Hab]; [now apply HO|].
      apply stack_copy_in in Hab. destruct Hab as (i & ws & E1 & Hab). rewrite Nat.add_0_r in Hab.
      rewrite nth_error_map in E1. destruct (nth_error calls i) as [[ws' out]|] eqn:E; [|discriminate].
      cbn in E1. inversion E1; subst ws'. destruct (V i ws out E) as (init & _ & W & _ & _ & _ & A).
      rewrite <- W in A.
      rewrite Forall_forall in K1. pose proof (K1 ws ltac:(apply in_map_iff; exists (ws, out); split; [reflexivity|eapply nth_error_In; exact E])) as [Hl _].
      destruct (length_list3 ws Hl) as (w0 & w1 & w2 & ->). cbn [map] in A. inversion A as [[A0 A1 A2]].
      unfold block_copy in Hab. cbn [combine seq map In] in Hab.
      destruct Hab as [X|[X|[X|[]]]]; inversion X; subst; cbn [cell_at]; assumption.
  Qed.
End Stack.

(** any circuit with a correct chip satisfies the invariant *)
Section Used.
  Context {F : Type} {FO : FieldOps F}.

  Lemma used_inv : forall (P : permute_chip F) D perm cfg L calls other,
    chip_laws D perm ->
    (forall wss, runs D (lmap (pc_permute P cfg) wss) wss) ->
    (forall threads wss, 0 < threads -> runs D (pc_permute_batch P threads cfg wss) wss) ->
    chip_used P cfg (cd_own D) L calls other -> inv D L calls other.
  Proof.
    intros P D perm cfg L calls other Laws R1 R2 U. induction U as [L U|L calls other ws L' out U IH K E
      |L calls other threads wss L' outs U IH Ht K E|L calls other L' copies U IH E].
    - eapply inv_start; eassumption.
    - destruct (R1 [ws] L (proj1 IH) (Forall_cons _ K (Forall_nil _))) as (L2 & outs & E2 & St).
      cbn [lmap] in E2. rewrite (lbind_ok _ _ L L' out E) in E2. cbn in E2. inversion E2; subst.
      change [(ws, out)] with (combine [ws] [out]). eapply inv_stacked; [exact IH|now constructor|exact St].
    - destruct (R2 threads wss Ht L (proj1 IH) K) as (L2 & outs2 & E2 & St).
      rewrite E in E2. inversion E2; subst. eapply inv_stacked; eassumption.
    - eapply inv_elsewhere; eassumption.
  Qed.

  Lemma used_own : forall (P : permute_chip F) cfg (own own' : column -> Prop) L calls other,
    (forall c, own c <-> own' c) -> chip_used P cfg own L calls other -> chip_used P cfg own' L calls other.
  Proof.
    intros P cfg own own' L calls other H U. induction U.
    - constructor. destruct H0 as (U1 & U2 & U3 & U4). repeat split.
      + intros c Hc. apply U1. now apply H.
      + intros c r v X Y. apply H in Y. now apply (U2 c r v).
      + intros c r v X Y. apply H in Y. now apply (U3 c r v).
      + intros s r X Y. apply H in Y. now apply (U4 s r).
    - eapply used_permute; eassumption.
    - eapply used_batch; eassumption.
    - eapply used_elsewhere; [exact IHU|].
      destruct H0 as (st & av & fv & sv & St & Nx & EA & UA & EF & UF & ES & US & EC).
      exists st, av, fv, sv. split; [assumption|]. split. { intros c Hc. apply Nx. now apply H. }
      split; [assumption|]. split. { intros c r v X Y. apply H in Y. now apply (UA c r v). }
      split; [assumption|]. split. { intros c r v X Y. apply H in Y. now apply (UF c r v). }
      split; [assumption|]. split; [|assumption]. intros s r X Y. apply H in Y. now apply (US s r).
  Qed.

  Section Correct.
    Variable P : permute_chip F.
    Variable perm : list F -> list F.
    Variable h : nat.
    Hypothesis PC : chip_correct P perm h.
    Variable cs0 : cs F.
    Notation cfg := (fst (pc_configure P cs0)).
    Notation cs1 := (snd (pc_configure P cs0)).
    Notation own := (added cs0 cs1).

    Theorem used_sound : forall L calls other n adv,
      chip_used P cfg own L calls other -> h * length calls <= n ->
      gates_hold n L adv (cs_gates cs1) -> copies_hold L adv ->
      forall ws out, In (ws, out) calls ->
      map (word_at L adv) out = map (fun j => nth j (perm (map (word_at L adv) ws)) fzero) (seq 0 3).
    Proof.
      intros L calls other n adv U Hn G C.
      destruct (PC cs0) as (D & Laws & Eh & Own & _ & _ & _ & EG & _ & _ & _ & R1 & R2). subst h.
      apply (used_own P cfg own (cd_own D)) in U; [|intros c; symmetry; apply Own].
      pose proof (used_inv P D perm cfg L calls other Laws R1 R2 U) as I.
      apply (calls_sound D perm Laws L calls other n adv I Hn); [|assumption].
      intros g r Hg Hr. apply G; [|assumption]. rewrite EG. apply in_app_iff. now right.
    Qed.

    Theorem used_complete : forall L calls other u n blind,
      chip_used P cfg own L calls other -> h * length calls <= u -> u <= n ->
      let adv := honest u L blind in
      (forall i ws out, nth_error calls i = Some (ws, out) ->
         Forall (fun w => ac_val w = Some (word_at L adv w)
                   \/ exists j ws' out', j < i /\ nth_error calls j = Some (ws', out') /\ In w out') ws) ->
      (gates_hold n L adv (cs_gates cs0) -> gates_hold n L adv (cs_gates cs1))
      /\ (forall ws out, In (ws, out) calls ->
            map ac_val out = map (fun j => Some (nth j (perm (map (word_at L adv) ws)) fzero)) (seq 0 3)
            /\ map (word_at L adv) out = map (fun j => nth j (perm (map (word_at L adv) ws)) fzero) (seq 0 3))
      /\ ((forall a b, In (a, b) other -> cell_at L adv a = cell_at L adv b) -> copies_hold L adv).
    Proof.
      intros L calls other u n blind U Hu Hn adv T.
      destruct (PC cs0) as (D & Laws & Eh & Own & _ & _ & _ & EG & _ & _ & _ & R1 & R2). subst h.
      apply (used_own P cfg own (cd_own D)) in U; [|intros c; symmetry; apply Own].
      pose proof (used_inv P D perm cfg L calls other Laws R1 R2 U) as I.
      destruct (calls_complete D perm Laws L calls other u n blind I Hu Hn T) as (A & B & C).
      split; [|split; [exact B|exact C]].
      intros G g r Hg Hr. rewrite EG in Hg. apply in_app_iff in Hg. destruct Hg; [now apply G|now apply A].
    Qed.

    (** calls on known words never fail, and a batch does what its calls one by one do *)
    Theorem used_total : forall L calls other, chip_used P cfg own L calls other ->
      (forall ws, three_words L ws -> exists L' out, pc_permute P cfg ws L = Ok (L', out))
      /\ (forall threads wss, 0 < threads -> Forall (three_words L) wss ->
           exists L1 o1 L2 o2,
             lmap (pc_permute P cfg) wss L = Ok (L1, o1) /\ pc_permute_batch P threads cfg wss L = Ok (L2, o2)
             /\ lo_adv L1 = lo_adv L2 /\ lo_fix L1 = lo_fix L2 /\ lo_sel L1 = lo_sel L2
             /\ lo_copy L1 = lo_copy L2 /\ lo_tables L1 = lo_tables L2 /\ length o2 = length wss
             /\ map (map (fun w => (abs_cell (lo_starts L1) (ac_cell w), ac_val w))) o1
                = map (map (fun w => (abs_cell (lo_starts L2) (ac_cell w), ac_val w))) o2).
    Proof.
      intros L calls other U.
      destruct (PC cs0) as (D & Laws & Eh & Own & _ & _ & _ & EG & _ & _ & _ & R1 & R2). subst h.
      apply (used_own P cfg own (cd_own D)) in U; [|intros c; symmetry; apply Own].
      pose proof (used_inv P D perm cfg L calls other Laws R1 R2 U) as I.
      split.
      - intros ws K. destruct (R1 [ws] L (proj1 I) (Forall_cons _ K (Forall_nil _))) as (L2 & outs & E2 & _).
        cbn [lmap] in E2. unfold lbind in E2. destruct (pc_permute P cfg ws L) as [[L' out]|]; [eauto|discriminate].
      - intros threads wss Ht K. destruct (R1 wss L (proj1 I) K) as (L1 & o1 & E1 & S1).
        destruct (R2 threads wss Ht L (proj1 I) K) as (L2 & o2 & E2 & S2).
        exists L1, o1, L2, o2. split; [assumption|]. split; [assumption|].
        pose proof (stacked_length D _ _ _ _ S2) as Len.
        destruct S1 as (_ & _ & _ & _ & A1 & F1 & Q1 & C1 & T1 & _ & O1 & _).
        destruct S2 as (_ & _ & _ & _ & A2 & F2 & Q2 & C2 & T2 & _ & O2 & _).
        repeat (split; [congruence|]). unfold located in O1, O2. congruence.
    Qed.
  End Correct.
End Used.
