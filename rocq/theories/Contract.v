(** What the hash table circuit needs to know about a permutation chip: each permutation is a block of
    fixed height in columns of its own, the blocks are stacked, and the gates relate the last words of a
    block to its first words.  Proved for both chips. *)
From Coq Require Import ZArith List Arith Lia Bool.
From Verif Require Import Field Rust ListAux Halo2 Septidon PermuteChip ChipUse Layout_proof SeptVal_proof.
Import ListNotations.
Local Open Scope nat_scope.

(** blocks of [h] rows that do not overlap *)
Definition apart (h : nat) (bs : list nat) : Prop := ForallOrdPairs (fun s s' => s + h <= s' \/ s' + h <= s) bs.

Lemma apart_in : forall h bs s s', apart h bs -> In s bs -> In s' bs -> s = s' \/ s + h <= s' \/ s' + h <= s.
Proof.
  intros h bs s s' H Hs Hs'. destruct (ForallOrdPairs_In H _ _ Hs Hs') as [E|[E|E]]; tauto.
Qed.

(** [k] blocks from row [t] on *)
Fixpoint rows_of (h t k : nat) : list nat :=
  match k with 0 => [] | S k' => t :: rows_of h (h + t) k' end.

Lemma rows_of_in : forall h k t s, In s (rows_of h t k) <-> exists i, i < k /\ s = h * i + t.
Proof.
  intros h k. induction k as [|k IH]; intros t s; cbn [rows_of In].
  - split; [easy|]. intros (i & Hi & _). lia.
  - rewrite IH. split.
    + intros [<-|(i & Hi & ->)]; [exists 0|exists (S i)]; split; lia.
    + intros ([|i] & Hi & ->); [left; lia|right]. exists i. split; lia.
Qed.
Lemma rows_of_apart : forall h k t, apart h (rows_of h t k).
Proof.
  intros h k. induction k as [|k IH]; intros t; cbn [rows_of]; constructor.
  - apply Forall_forall. intros s Hs. apply rows_of_in in Hs. destruct Hs as (i & _ & ->). lia.
  - apply IH.
Qed.

Section Contract.
  Context {F : Type} {FO : FieldOps F}.

  (** value of a cell given by a list of writes *)
  Definition rd (l : list (nat * nat * F)) (c o : nat) : F :=
    match last_write l c o with Some v => v | None => fzero end.
  Definition rda (l : list (nat * nat * option F)) (c o : nat) : F :=
    match last_write l c o with Some (Some v) => v | _ => fzero end.

  Definition word_vals (ws : list (acell F)) : arr3 (option F) :=
    match ws with
    | [w0; w1; w2] => (ac_val w0, ac_val w1, ac_val w2)
    | _ => (None, None, None)
    end.

  (** a configured chip *)
  Record chip_data : Type := {
    cd_h : nat;                                  (* rows of a block *)
    cd_own : column -> Prop;                     (* its columns *)
    cd_main : column;                            (* the column that places its regions *)
    cd_gates : list (expr F);
    cd_in : nat -> nat;                          (* column of the j-th initial word, in row 0 *)
    cd_out_col : nat -> nat;                     (* column and row of the j-th final word *)
    cd_out_row : nat -> nat;
    cd_fix : list (nat * nat * F);               (* fixed cells of a block *)
    cd_sel : list (nat * nat);                   (* selectors of a block *)
    cd_adv : arr3 (option F) -> list (nat * nat * option F); (* advice of a block *)
    cd_out : arr3 (option F) -> nat -> option F; (* final words *)
    cd_ok : (nat -> nat -> F) -> Prop            (* what the gates say about a block *)
  }.

  Section Data.
    Variable D : chip_data.
    Notation h := (cd_h D).

    Fixpoint stack_adv (t : nat) (wss : list (list (acell F))) : list (nat * nat * option F) :=
      match wss with
      | [] => []
      | ws :: r => map (moved 0 t) (cd_adv D (word_vals ws)) ++ stack_adv (h + t) r
      end.
    Fixpoint stack_fix (t k : nat) : list (nat * nat * F) :=
      match k with 0 => [] | S k' => map (moved 0 t) (cd_fix D) ++ stack_fix (h + t) k' end.
    Fixpoint stack_sel (t k : nat) : list (nat * nat) :=
      match k with
      | 0 => []
      | S k' => map (fun '(s, o) => (s, o + t)) (cd_sel D) ++ stack_sel (h + t) k'
      end.
    Definition block_copy (starts : list nat) (t : nat) (ws : list (acell F)) :=
      map (fun '(j, w) => ((Adv (cd_in D j), t), abs_cell starts (ac_cell w))) (combine (seq 0 3) ws).
    Fixpoint stack_copy (starts : list nat) (t : nat) (wss : list (list (acell F))) :=
      match wss with
      | [] => []
      | ws :: r => block_copy starts t ws ++ stack_copy starts (h + t) r
      end.
    Definition block_out (t : nat) (ws : list (acell F)) : list ((column * nat) * option F) :=
      map (fun j => ((Adv (cd_out_col D j), cd_out_row D j + t), cd_out D (word_vals ws) j)) (seq 0 3).
    Fixpoint stack_out (t : nat) (wss : list (list (acell F))) :=
      match wss with [] => [] | ws :: r => block_out t ws :: stack_out (h + t) r end.

    (** columns of the chip never run ahead of the main column *)
    Definition ready (L : layout F) : Prop := forall c, cd_own D c -> lo_next L c <= lo_next L (cd_main D).
    Definition located (L : layout F) (w : acell F) : (column * nat) * option F :=
      (abs_cell (lo_starts L) (ac_cell w), ac_val w).

    (** [L'] is [L] with one block per state, stacked from the next free row of the main column *)
    Definition stacked (L L' : layout F) (wss outs : list (list (acell F))) : Prop :=
      let t := lo_next L (cd_main D) in
      (exists new, lo_starts L' = lo_starts L ++ new)
      /\ lo_next L' (cd_main D) = h * length wss + t
      /\ ready L'
      /\ (forall c, ~ cd_own D c -> lo_next L' c = lo_next L c)
      /\ lo_adv L' = lo_adv L ++ stack_adv t wss
      /\ lo_fix L' = lo_fix L ++ stack_fix t (length wss)
      /\ lo_sel L' = lo_sel L ++ stack_sel t (length wss)
      /\ lo_copy L' = lo_copy L ++ stack_copy (lo_starts L) t wss
      /\ lo_tables L' = lo_tables L
      /\ lo_const L' = lo_const L
      /\ map (map (located L')) outs = stack_out t wss
      /\ Forall (three_words L') outs.
    Definition runs (p : Layouter F (list (list (acell F)))) (wss : list (list (acell F))) : Prop :=
      forall L, ready L -> Forall (three_words L) wss ->
      exists L' outs, p L = Ok (L', outs) /\ stacked L L' wss outs.

    (** the laws of a chip that computes [perm] *)
    Record chip_laws (perm : list F -> list F) : Prop := {
      law_main : cd_own D (cd_main D);
      law_in : forall j, j < 3 -> cd_own D (Adv (cd_in D j)) /\ 0 < h;
      law_out : forall j, j < 3 -> cd_own D (Adv (cd_out_col D j)) /\ cd_out_row D j < h;
      law_fix_rows : forall c o v, In (c, o, v) (cd_fix D) -> cd_own D (Fix c) /\ o < h;
      law_sel_rows : forall s o, In (s, o) (cd_sel D) -> cd_own D (Sel s) /\ o < h;
      law_adv_rows : forall v c o w, In (c, o, w) (cd_adv D v) -> cd_own D (Adv c) /\ o < h;
      law_local : forall loc loc', (forall c o, cd_own D (Adv c) -> o < h -> loc c o = loc' c o) ->
        cd_ok D loc -> cd_ok D loc';
      law_sound : forall loc, cd_ok D loc -> forall j, j < 3 ->
        loc (cd_out_col D j) (cd_out_row D j)
        = nth j (perm [loc (cd_in D 0) 0; loc (cd_in D 1) 0; loc (cd_in D 2) 0]) fzero;
      law_honest : forall init, cd_ok D (rda (cd_adv D (map3 Some init)))
        /\ (forall j, j < 3 -> rda (cd_adv D (map3 Some init)) (cd_in D j) 0 = nth j (of3 init) fzero)
        /\ (forall j, j < 3 -> cd_out D (map3 Some init) j = Some (nth j (perm (of3 init)) fzero));
      law_gates : forall n fx sl adv bs,
        apart h bs -> (forall s, In s bs -> s + h <= n) ->
        (forall s c o, In s bs -> o < h -> cd_own D (Fix c) -> fx c (o + s) = rd (cd_fix D) c o) ->
        (forall c r, r < n -> cd_own D (Fix c) -> (forall s, In s bs -> ~ (s <= r < s + h)) -> fx c r = fzero) ->
        (forall s q o, In s bs -> o < h -> cd_own D (Sel q) ->
           (In (q, o) (cd_sel D) -> sl q (o + s) = fone) /\ (~ In (q, o) (cd_sel D) -> sl q (o + s) = fzero)) ->
        (forall q r, r < n -> cd_own D (Sel q) -> (forall s, In s bs -> ~ (s <= r < s + h)) -> sl q r = fzero) ->
        ((forall g r, In g (cd_gates D) -> r < n -> eval n fx sl adv r g = fzero)
         <-> forall s, In s bs -> cd_ok D (fun c o => adv c (o + s)));
      law_last : forall v, exists c w, In (c, h - 1, w) (cd_adv D v)
    }.
  End Data.

  (** a permutation chip, from any constraint system and with any number of threads *)
  Definition chip_correct (P : permute_chip F) (perm : list F -> list F) (h : nat) : Prop :=
    forall c, let cfg := fst (pc_configure P c) in let c' := snd (pc_configure P c) in
    exists D, chip_laws D perm
      /\ cd_h D = h
      /\ (forall col, cd_own D col <-> added c c' col)
      /\ cs_adv c <= cs_adv c' /\ cs_fix c <= cs_fix c' /\ cs_sel c <= cs_sel c'
      /\ cs_gates c' = cs_gates c ++ cd_gates D
      /\ cs_lookups c' = cs_lookups c
      /\ cs_const c' = cs_const c
      /\ (exists e, cs_eq c' = cs_eq c ++ e
          /\ forall j, j < 3 -> In (Adv (cd_in D j)) e /\ In (Adv (cd_out_col D j)) e)
      /\ (forall wss, runs D (lmap (pc_permute P cfg) wss) wss)
      /\ (forall threads wss, 0 < threads -> runs D (pc_permute_batch P threads cfg wss) wss).

  (** ** Consequences *)
  Section Use.
    Variable D : chip_data.
    Variable perm : list F -> list F.
    Hypothesis Laws : chip_laws D perm.
    Notation h := (cd_h D).

    (** one region per state gives the stack *)
    Lemma stacked_nil : forall L, ready D L -> stacked D L L [] [].
    Proof.
      intros L H. unfold stacked. cbn. rewrite !app_nil_r.
      split; [exists []; now rewrite app_nil_r|]. repeat split; auto. lia.
    Qed.

    Lemma abs_cell_app : forall s new c, ce_region c < length s -> abs_cell (s ++ new) c = abs_cell s c.
    Proof. intros s new c H. unfold abs_cell. now rewrite app_nth1. Qed.

    Lemma known_app : forall (L L' : layout F) (ws : list (acell F)), (exists new, lo_starts L' = lo_starts L ++ new) ->
      three_words L ws -> three_words L' ws.
    Proof.
      intros L L' ws [new E] [H1 H2]. split; [assumption|]. rewrite E, app_length.
      eapply Forall_impl; [|exact H2]. cbn. intros. lia.
    Qed.

    Lemma block_copy_app : forall L new t ws, three_words L ws ->
      block_copy D (lo_starts L ++ new) t ws = block_copy D (lo_starts L) t ws.
    Proof.
      intros L new t ws [Hl H]. unfold block_copy. apply map_ext_in. intros [j w] Hin.
      apply in_combine_r in Hin. rewrite Forall_forall in H. rewrite abs_cell_app; [reflexivity|]. now apply H.
    Qed.
    Lemma stack_copy_app : forall L new wss t, Forall (three_words L) wss ->
      stack_copy D (lo_starts L ++ new) t wss = stack_copy D (lo_starts L) t wss.
    Proof.
      intros L new wss. induction wss as [|ws wss IH]; intros t H; [reflexivity|].
      inversion H; subst. cbn [stack_copy]. rewrite block_copy_app, IH by assumption. reflexivity.
    Qed.

    Lemma stacked_cons : forall L L1 L2 ws wss out outs,
      stacked D L L1 [ws] [out] -> stacked D L1 L2 wss outs -> three_words L ws -> Forall (three_words L) wss ->
      stacked D L L2 (ws :: wss) (out :: outs).
    Proof.
      intros L L1 L2 ws wss out outs (S1 & N1 & R1 & O1 & A1 & F1 & E1 & C1 & T1 & K1 & Q1 & W1)
             (S2 & N2 & R2 & O2 & A2 & F2 & E2 & C2 & T2 & K2 & Q2 & W2) HK HKs.
      unfold stacked. cbn [length] in *. rewrite Nat.mul_1_r in N1. rewrite N1 in *.
      split.
      { destruct S1 as [n1 S1], S2 as [n2 S2]. exists (n1 ++ n2). rewrite S2, S1. now rewrite app_assoc. }
      split; [rewrite N2; cbn [length]; lia|]. split; [assumption|].
      split; [intros c Hc; rewrite O2, O1 by assumption; reflexivity|].
      split. { rewrite A2, A1. cbn [stack_adv]. now rewrite app_nil_r, app_assoc. }
      split. { rewrite F2, F1. cbn [stack_fix]. now rewrite app_nil_r, app_assoc. }
      split. { rewrite E2, E1. cbn [stack_sel]. now rewrite app_nil_r, app_assoc. }
      split. { rewrite C2, C1. destruct S1 as [n1 S1]. rewrite S1, stack_copy_app by assumption.
               cbn [stack_copy]. now rewrite app_nil_r, app_assoc. }
      split; [congruence|]. split; [congruence|]. split.
      - cbn [map stack_out]. rewrite Q2. f_equal. cbn [map stack_out] in Q1. injection Q1 as Q1. rewrite <- Q1.
        apply map_ext_in. intros w Hw. unfold located. f_equal. destruct S2 as [n2 S2]. rewrite S2.
        apply abs_cell_app. inversion W1 as [|? ? [_ X] _]; subst. rewrite Forall_forall in X. now apply X.
      - constructor; [|assumption]. inversion W1; subst. eapply known_app; eassumption.
    Qed.

    Lemma runs_lmap : forall (p : list (acell F) -> Layouter F (list (acell F))),
      (forall ws L, ready D L -> three_words L ws ->
         exists L' out, p ws L = Ok (L', out) /\ stacked D L L' [ws] [out]) ->
      forall wss, runs D (lmap p wss) wss.
    Proof.
      intros p Hp wss. induction wss as [|ws wss IH]; intros L R K.
      - exists L, []. split; [reflexivity|]. now apply stacked_nil.
      - inversion K as [|? ? K1 K2]; subst. destruct (Hp ws L R K1) as (L1 & out & E1 & S1).
        assert (R1 : ready D L1) by apply S1.
        assert (K3 : Forall (three_words L1) wss).
        { eapply Forall_impl; [|exact K2]. intros x Hx. eapply known_app; [|exact Hx]. apply S1. }
        destruct (IH L1 R1 K3) as (L2 & outs & E2 & S2).
        exists L2, (out :: outs). split.
        + cbn [lmap]. rewrite (lbind_ok _ _ L L1 out E1). rewrite (lbind_ok _ _ L1 L2 outs E2). reflexivity.
        + now apply (stacked_cons L L1).
    Qed.

    Lemma map_moved0 : forall {V} (l : list (nat * nat * V)), map (moved 0 0) l = l.
    Proof.
      intros V l. rewrite <- (map_id l) at 2. apply map_ext. intros [[c o] v]. cbn. now rewrite !Nat.add_0_r.
    Qed.
    Lemma map_moved_moved : forall {V} (l : list (nat * nat * V)) x y,
      map (moved 0 y) (map (moved 0 x) l) = map (moved 0 (x + y)) l.
    Proof.
      intros V l x y. rewrite map_map. apply map_ext. intros [[c o] v]. cbn.
      rewrite !Nat.add_0_r. now rewrite Nat.add_assoc.
    Qed.

    (** a region with the writes of a block is a block *)
    Definition in_cell (ri o j : nat) : cell := {| ce_region := ri; ce_off := o; ce_col := Adv (cd_in D j) |}.
    Definition out_cells (ri o : nat) (ws : list (acell F)) : list (acell F) :=
      map (fun j => {| ac_cell := {| ce_region := ri; ce_off := cd_out_row D j + o; ce_col := Adv (cd_out_col D j) |};
                       ac_val := cd_out D (word_vals ws) j |}) (seq 0 3).

    Lemma stacked_region : forall L ws evs,
      let ri := length (lo_starts L) in
      ready D L -> three_words L ws -> cd_own D (cd_main D) -> 0 < h ->
      (forall c o, In (c, o) (touched evs) -> cd_own D c /\ o < h) ->
      (exists o, In (cd_main D, o) (touched evs)) -> (exists c, In (c, h - 1) (touched evs)) ->
      adv_ws evs = cd_adv D (word_vals ws) -> fix_ws evs = cd_fix D -> sel_ws evs = cd_sel D ->
      copies_ws evs = map (fun '(j, w) => (in_cell ri 0 j, ac_cell w)) (combine (seq 0 3) ws) ->
      stacked D L (commit ri evs (reserve evs L)) [ws] [out_cells ri 0 ws].
    Proof.
      intros L ws evs ri R K Hmo Hh T [om Tm] [ch Th] EA EF ES EC.
      set (t := lo_next L (cd_main D)).
      assert (RS : region_start (lo_next L) evs = t).
      { apply region_start_eq; [|eauto]. intros c o H. apply R. now apply (T c o). }
      assert (RC : row_count evs = h).
      { replace h with (S (h - 1)) by lia. eapply row_count_eq; [|exact Th].
        intros c o H. apply T in H. lia. }
      assert (ST : nth ri (lo_starts (reserve evs L)) 0 = t).
      { cbn [reserve lo_starts]. rewrite RS. unfold ri. rewrite app_nth2, Nat.sub_diag by lia. reflexivity. }
      unfold stacked. cbn zeta. fold t. cbn [length]. rewrite Nat.mul_1_r.
      split; [exists [t]; cbn [commit lo_starts reserve]; now rewrite RS|].
      split. { cbn [commit lo_next reserve]. rewrite RS, RC. now apply (next_after_in _ _ _ _ om). }
      split. { intros c Hc. cbn [commit lo_next reserve]. rewrite RS, RC.
               rewrite (next_after_in _ _ _ _ om Tm). unfold next_after. destruct (existsb _ _); [lia|].
               specialize (R c Hc). fold t in R. lia. }
      split. { intros c Hc. cbn [commit lo_next reserve]. apply next_after_out. intros o H. now apply T in H. }
      split. { cbn [commit lo_adv stack_adv]. rewrite ST, abs_adv_ws, EA, app_nil_r. reflexivity. }
      split. { cbn [commit lo_fix stack_fix]. rewrite ST, abs_fix_ws, EF, app_nil_r. reflexivity. }
      split. { cbn [commit lo_sel stack_sel]. rewrite ST, abs_sel_ws, ES, app_nil_r. reflexivity. }
      split. { cbn [commit lo_copy stack_copy]. rewrite abs_copy_ws, EC, app_nil_r. cbn [reserve lo_copy].
               f_equal. unfold block_copy. rewrite map_map. apply map_ext_in. intros [j w] Hin.
               f_equal.
               - unfold abs_cell, in_cell. cbn [ce_col ce_off ce_region]. now rewrite ST.
               - cbn [reserve lo_starts]. apply abs_cell_app. destruct K as [_ K].
                 rewrite Forall_forall in K. apply K. eapply in_combine_r. exact Hin. }
      split; [reflexivity|]. split; [reflexivity|]. split.
      - cbn [map stack_out]. f_equal. unfold block_out, out_cells. rewrite map_map. apply map_ext. intros j.
        unfold located, abs_cell. cbn [ac_cell ac_val ce_col ce_off ce_region]. cbn [commit lo_starts]. rewrite ST.
        now rewrite Nat.add_0_r.
      - constructor; [|constructor]. split; [unfold out_cells; now rewrite map_length, seq_length|].
        apply Forall_forall. intros w Hw. unfold out_cells in Hw. apply in_map_iff in Hw.
        destruct Hw as (j & <- & _). cbn [ac_cell ce_region commit lo_starts reserve].
        rewrite app_length. cbn. unfold ri. lia.
    Qed.

    Lemma stack_adv_app : forall x y t, stack_adv D t (x ++ y) = stack_adv D t x ++ stack_adv D (h * length x + t) y.
    Proof.
      induction x as [|ws x IH]; intros y t; cbn [app stack_adv length].
      - now rewrite Nat.mul_0_r.
      - rewrite IH, <- app_assoc. do 3 f_equal. lia.
    Qed.
    Lemma stack_out_app : forall x y t, stack_out D t (x ++ y) = stack_out D t x ++ stack_out D (h * length x + t) y.
    Proof.
      induction x as [|ws x IH]; intros y t; cbn [app stack_out length].
      - now rewrite Nat.mul_0_r.
      - rewrite IH. do 3 f_equal. lia.
    Qed.
    Lemma stack_copy_app_r : forall st x y t,
      stack_copy D st t (x ++ y) = stack_copy D st t x ++ stack_copy D st (h * length x + t) y.
    Proof.
      induction x as [|ws x IH]; intros y t; cbn [app stack_copy length].
      - now rewrite Nat.mul_0_r.
      - rewrite IH, <- app_assoc. do 3 f_equal. lia.
    Qed.
    Lemma stack_fix_add : forall x y t, stack_fix D t (x + y) = stack_fix D t x ++ stack_fix D (h * x + t) y.
    Proof.
      induction x as [|x IH]; intros y t; cbn [Nat.add stack_fix].
      - now rewrite Nat.mul_0_r.
      - rewrite IH, <- app_assoc. do 3 f_equal. lia.
    Qed.
    Lemma stack_sel_add : forall x y t, stack_sel D t (x + y) = stack_sel D t x ++ stack_sel D (h * x + t) y.
    Proof.
      induction x as [|x IH]; intros y t; cbn [Nat.add stack_sel].
      - now rewrite Nat.mul_0_r.
      - rewrite IH, <- app_assoc. do 3 f_equal. lia.
    Qed.
    Lemma stack_adv_moved : forall wss b st, map (moved 0 st) (stack_adv D b wss) = stack_adv D (b + st) wss.
    Proof.
      induction wss as [|ws wss IH]; intros b st; [reflexivity|]. cbn [stack_adv].
      rewrite map_app, map_moved_moved, IH. do 2 f_equal. lia.
    Qed.
    Lemma stack_fix_moved : forall k b st, map (moved 0 st) (stack_fix D b k) = stack_fix D (b + st) k.
    Proof.
      induction k as [|k IH]; intros b st; [reflexivity|]. cbn [stack_fix].
      rewrite map_app, map_moved_moved, IH. do 2 f_equal. lia.
    Qed.
  End Use.
End Contract.
