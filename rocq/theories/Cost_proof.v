(** Rows and copies of the Pow5 chip and the in-circuit sponge. *)
From Coq Require Import ZArith List Arith Lia Bool.
From Verif Require Import Field Rust ListAux Primitives Specs SpecHash Perm_proof Sponge_proof BigSum Link Base_claims Halo2 Pow5 ChipUse Built
  Pow5Use Gadget GadgetUse WitnessUse CostUse Layout_proof SeptVal_proof SeptGate_proof Contract Sept_claims Pow5Gate_proof Pow5Rows_proof Pow5Block_proof Trace_proof
  Pow5Use_proof Pow5Honest_proof Pow5_claims Gadget_proof GadgetUnique_proof.
Import ListNotations.
Local Open Scope nat_scope.

Section Step.
  Context {F : Type} {FO : FieldOps F}.

  Lemma top_le : forall cols (L : layout F) c, In c cols -> lo_next L c <= top cols L.
  Proof.
    intros cols L c H. unfold top. induction cols as [|x l IH]; [easy|]. cbn [fold_right].
    destruct H as [->|H]; [lia|]. specialize (IH H). lia.
  Qed.
  Lemma top_lub : forall cols (L : layout F) m, (forall c, In c cols -> lo_next L c <= m) -> top cols L <= m.
  Proof.
    intros cols L m H. unfold top. induction cols as [|x l IH]; cbn [fold_right]; [lia|].
    assert (lo_next L x <= m) by (apply H; now left). assert (X : forall c, In c l -> lo_next L c <= m) by (intros; apply H; now right).
    specialize (IH X). lia.
  Qed.

  Variables (cols chip : list column) (low : column -> Prop) (eqs : list column).

  (** a step that uses at most [h] rows above [cols], raises the columns [low] by [hl] and takes [nc] constants *)
  Record step (h hl nc : nat) (L L' : layout F) : Prop := {
    st_mono : forall c, lo_next L c <= lo_next L' c;
    st_top : top cols L' <= top cols L + h;
    st_low : forall c, low c -> lo_next L c + hl <= lo_next L' c;
    st_other : forall c, ~ In c chip -> lo_next L' c = lo_next L c
                 + match lo_const L with Some k => if column_eqb c (Fix k) then nc else 0 | None => 0 end;
    st_const : lo_const L' = lo_const L;
    st_tables : lo_tables L' = lo_tables L;
    st_adv : exists new, lo_adv L' = lo_adv L ++ new /\ forall c r v, In (c, r, v) new -> r < top cols L + h;
    st_fix : exists new, lo_fix L' = lo_fix L ++ new /\ forall c r v, In (c, r, v) new ->
               r < top cols L + h \/ (nc <> 0 /\ lo_const L = Some c /\ r < lo_next L' (Fix c));
    st_sel : exists new, lo_sel L' = lo_sel L ++ new /\ forall c r, In (c, r) new -> r < top cols L + h;
    st_copy : exists new, lo_copy L' = lo_copy L ++ new /\ forall a b, In (a, b) new -> In (fst a) eqs /\ In (fst b) eqs
  }.

  Lemma step_refl : forall L, step 0 0 0 L L.
  Proof.
    intros L. constructor; try reflexivity; intros; try lia.
    - destruct (lo_const L); [destruct (column_eqb _ _)|]; lia.
    - exists []. rewrite app_nil_r. split; [reflexivity|intros ? ? ? []].
    - exists []. rewrite app_nil_r. split; [reflexivity|intros ? ? ? []].
    - exists []. rewrite app_nil_r. split; [reflexivity|intros ? ? []].
    - exists []. rewrite app_nil_r. split; [reflexivity|intros ? ? []].
  Qed.
  Lemma step_trans : forall h1 l1 n1 h2 l2 n2 L L1 L2, step h1 l1 n1 L L1 -> step h2 l2 n2 L1 L2 ->
    step (h1 + h2) (l1 + l2) (n1 + n2) L L2.
  Proof.
    intros h1 l1 n1 h2 l2 n2 L L1 L2 [A1 A2 A3 A4 A5 A6 (a & Ea & Ha) (f & Ef & Hf) (s & Es & Hs) (c & Ec & Hc)]
      [B1 B2 B3 B4 B5 B6 (a' & Ea' & Ha') (f' & Ef' & Hf') (s' & Es' & Hs') (c' & Ec' & Hc')].
    constructor; try congruence.
    - intros x. specialize (A1 x). specialize (B1 x). lia.
    - lia.
    - intros x Hx. specialize (A3 x Hx). specialize (B3 x Hx). lia.
    - intros x Hx. rewrite (B4 x Hx), (A4 x Hx), A5. destruct (lo_const L); [|lia]. destruct (column_eqb _ _); lia.
    - exists (a ++ a'). split; [rewrite Ea', Ea; symmetry; apply app_assoc|]. intros x r v H. apply in_app_iff in H.
      destruct H as [H|H]; [apply Ha in H|apply Ha' in H]; lia.
    - exists (f ++ f'). split; [rewrite Ef', Ef; symmetry; apply app_assoc|]. intros x r v H. apply in_app_iff in H.
      destruct H as [H|H]; [apply Hf in H|apply Hf' in H]; destruct H as [H|(H0 & H & H')]; try (left; lia); right; (split; [lia|]).
      + split; [assumption|]. specialize (B1 (Fix x)). lia.
      + split; [congruence|assumption].
    - exists (s ++ s'). split; [rewrite Es', Es; symmetry; apply app_assoc|]. intros x r H. apply in_app_iff in H.
      destruct H as [H|H]; [apply Hs in H|apply Hs' in H]; lia.
    - exists (c ++ c'). split; [rewrite Ec', Ec; symmetry; apply app_assoc|]. intros x r H. apply in_app_iff in H.
      destruct H as [H|H]; [now apply Hc in H|now apply Hc' in H].
  Qed.
  Lemma step_app : forall h1 l1 n1 h2 l2 n2 h l n L L1 L2, step h1 l1 n1 L L1 -> step h2 l2 n2 L1 L2 ->
    h = h1 + h2 -> l = l1 + l2 -> n = n1 + n2 -> step h l n L L2.
  Proof. intros. subst. eapply step_trans; eassumption. Qed.

  (** ** A region *)
  Lemma constants_step : forall l (L L' : layout F), fold_r place_constant l L = Ok L' ->
    lo_const L' = lo_const L /\ lo_tables L' = lo_tables L /\ lo_adv L' = lo_adv L /\ lo_sel L' = lo_sel L
    /\ (l <> [] -> lo_const L <> None)
    /\ (forall c, lo_next L' c = lo_next L c + match lo_const L with Some k => if column_eqb c (Fix k) then length l else 0 | None => 0 end)
    /\ (exists new, lo_fix L' = lo_fix L ++ new /\ forall c r v, In (c, r, v) new -> l <> [] /\ lo_const L = Some c /\ r < lo_next L' (Fix c))
    /\ (exists new, lo_copy L' = lo_copy L ++ new /\ forall a b, In (a, b) new ->
          (exists k, lo_const L = Some k /\ fst a = Fix k) /\ exists x v, In (x, v) l /\ fst b = ce_col x).
  Proof.
    induction l as [|[a v] l IH]; intros L L' H; cbn [fold_r] in H.
    - injection H as <-. do 4 (split; [reflexivity|]). split; [congruence|]. split.
      + intros c. destruct (lo_const L); [destruct (column_eqb _ _)|]; cbn; lia.
      + split; exists []; rewrite app_nil_r; (split; [reflexivity|]); [intros ? ? ? []|intros ? ? []].
    - destruct (place_constant L (a, v)) as [M|] eqn:E; [|discriminate H]. cbn [bind] in H.
      apply IH in H. destruct H as (A & B & C & D & _ & N & (f & Ef & Hf) & (c & Ec & Hc)).
      unfold place_constant in E. destruct (lo_const L) as [k|] eqn:K; cbn [unwrap bind] in E; [|discriminate E]. injection E as <-.
      cbn [lo_const lo_tables lo_adv lo_sel lo_next lo_fix lo_copy] in *.
      split; [exact A|]. split; [exact B|]. split; [exact C|]. split; [exact D|]. split; [discriminate|].

      assert (N' : forall c, lo_next L' c = lo_next L c + (if column_eqb c (Fix k) then length ((a, v) :: l) else 0)).
      { intros x. rewrite N. destruct (column_eqb x (Fix k)) eqn:Q; cbn [length]; [|lia]. apply column_eqb_eq in Q. subst x. lia. }
      split; [exact N'|]. split.
      + exists ((k, lo_next L (Fix k), v) :: f). split; [rewrite Ef, <- app_assoc; reflexivity|].
        intros x r w [X|X].
        * injection X as <- <- <-. split; [discriminate|]. split; [reflexivity|]. rewrite N'.
          replace (column_eqb (Fix k) (Fix k)) with true by (symmetry; now apply column_eqb_eq). cbn [length]. lia.
        * split; [discriminate|]. now apply Hf in X.
      + exists (((Fix k, lo_next L (Fix k)), abs_cell (lo_starts L) a) :: c). split; [rewrite Ec, <- app_assoc; reflexivity|].
        intros x y [X|X].
        * injection X as <- <-. split; [exists k; split; reflexivity|]. exists a, v. split; [now left|reflexivity].
        * destruct (Hc x y X) as [Y (z & w & Z & Q)]. split; [exact Y|]. exists z, w. split; [now right|exact Q].
  Qed.

  Lemma start_above : forall (evs : list (event F)) next c o, In (c, o) (touched evs) -> next c <= region_start next evs.
  Proof.
    intros evs next c o. unfold region_start. generalize (touched evs). induction l as [|[c' o'] l IH]; intros X; [destruct X|].
    cbn [fold_right]. destruct X as [X|X]; [injection X as -> ->; lia|]. specialize (IH X). lia.
  Qed.
  Lemma start_lub : forall (evs : list (event F)) next m, (forall c o, In (c, o) (touched evs) -> next c <= m) -> region_start next evs <= m.
  Proof.
    intros evs next m. unfold region_start. generalize (touched evs). induction l as [|[c' o'] l IH]; intros X; cbn [fold_right]; [lia|].
    assert (next c' <= m) by (eapply X; now left). assert (Y : forall c o, In (c, o) l -> next c <= m) by (intros; eapply X; right; eassumption).
    specialize (IH Y). lia.
  Qed.
  Lemma rows_exact : forall (evs : list (event F)) h c, (forall c o, In (c, o) (touched evs) -> o < h) -> In (c, h - 1) (touched evs) ->
    row_count evs = h.
  Proof.
    intros evs h c B I. assert (P : 0 < h) by (apply B in I; lia). unfold row_count. revert B I. generalize (touched evs).
    intros l B I. apply Nat.le_antisymm.
    - clear I. induction l as [|[c' o'] l IH]; cbn [fold_right]; [lia|].
      assert (o' < h) by (apply (B c'); now left). assert (Y : forall c o, In (c, o) l -> o < h) by (intros; eapply B; right; eassumption).
      specialize (IH Y). lia.
    - clear B. induction l as [|[c' o'] l IH]; cbn [fold_right]; [destruct I|].
      destruct I as [I|I]; [injection I as -> ->; lia|]. specialize (IH I). lia.
  Qed.

  Lemma region_step : forall {A} (p : Region F A) L L' x evs h0 hl h nc c1, p (length (lo_starts L)) = Ok (evs, x) ->
    assign_region p L = Ok (L', x) ->
    incl chip cols ->
    (forall c o, In (c, o) (touched evs) -> In c chip /\ o < h0) -> In (c1, h0 - 1) (touched evs) ->
    hl = h0 -> (forall c, low c -> exists o, In (c, o) (touched evs)) ->
    length (const_events evs) = nc -> (nc <> 0 -> forall k o, ~ In (Fix k, o) (touched evs)) ->
    h0 <= h -> (forall k, lo_const L = Some k -> In (Fix k) cols -> nc <= h) ->
    (forall a b, In (ConstrainEqual a b) evs -> In (ce_col a) eqs /\ In (ce_col b) eqs) ->
    (forall a v, In (ConstrainConstant a v) evs -> In (ce_col a) eqs) ->
    (forall k, lo_const L = Some k -> nc <> 0 -> In (Fix k) eqs) ->
    step h hl nc L L'.
  Proof.
    intros A p L L' x evs h0 hl h nc c1 P H IC HT HL -> HLow <- NF Hh Hk HE HC HK.
    unfold assign_region in H. rewrite P in H. cbn [bind] in H.
    destruct (fold_r place_constant _ _) as [M|] eqn:E; [|discriminate H]. cbn [bind] in H. injection H as <-.
    apply constants_step in E. destruct E as (A1 & A2 & A3 & A4 & _ & N & (f & Ef & Hf) & (c & Ec & Hc)).
    cbn [commit reserve lo_const lo_tables lo_adv lo_sel lo_next lo_fix lo_copy lo_starts] in *.
    rewrite app_nth2, Nat.sub_diag in A3, A4, Ef by lia. cbn [nth] in A3, A4, Ef.
    rewrite (rows_exact evs h0 c1) in N by (auto; intros c0 o0 X; now apply HT in X).
    set (st := region_start (lo_next L) evs) in *.
    assert (TT : forall c, existsb (fun '(c', _) => column_eqb c c') (touched evs) = true <-> exists o, In (c, o) (touched evs)).
    { intros y. rewrite existsb_exists. split.
      - intros ([c' o] & I & Q). apply column_eqb_eq in Q. subst c'. eauto.
      - intros [o I]. exists (y, o). split; [assumption|]. now apply column_eqb_eq. }
    assert (ST : st <= top cols L).
    { apply start_lub. intros y o I. apply top_le, IC. now apply HT in I. }
    assert (SA : forall y o, In (y, o) (touched evs) -> lo_next L y <= st) by (intros; eapply start_above; eassumption).
    constructor; try congruence.
    - intros y. rewrite N. unfold next_after. destruct (existsb _ _) eqn:Q; [|lia].
      apply TT in Q. destruct Q as [o Q]. apply SA in Q. lia.
    - apply top_lub. intros y Hy. rewrite N. pose proof (top_le cols L y Hy) as TL. unfold next_after.
      assert (Z : match lo_const L with Some k => if column_eqb y (Fix k) then length (const_events evs) else 0 | None => 0 end = 0
        \/ (length (const_events evs) <> 0 /\ match lo_const L with Some k => if column_eqb y (Fix k) then length (const_events evs) else 0 | None => 0 end <= h
            /\ exists k, y = Fix k)).
      { destruct (lo_const L) as [k|]; [|now left]. destruct (column_eqb y (Fix k)) eqn:Q; [|now left].
        apply column_eqb_eq in Q. subst y. destruct (Nat.eq_dec (length (const_events evs)) 0) as [Z|Z]; [now left|].
        right. split; [assumption|]. split; [eapply Hk; [reflexivity|assumption]|eauto]. }
      destruct Z as [Z|(Z1 & Z2 & k & ->)].
      + rewrite Z. destruct (existsb _ _); lia.
      + destruct (existsb _ _) eqn:Q; [|lia]. apply TT in Q. destruct Q as [o Q]. now apply NF in Q.
    - intros y Hy. rewrite N. unfold next_after. replace (existsb _ _) with true by (symmetry; apply TT; auto).
      destruct (HLow y Hy) as [o Q]. apply SA in Q. lia.
    - intros y Hy. rewrite N. unfold next_after. destruct (existsb _ _) eqn:Q; [|reflexivity].
      apply TT in Q. destruct Q as [o Q]. apply HT in Q. tauto.
    - exists (abs_adv st evs). split; [exact A3|]. intros y r v X. unfold abs_adv in X. apply in_flat_map in X.
      destruct X as (ev & I & X). destruct ev; cbn [In] in X; try contradiction. destruct X as [X|[]]. injection X as <- <- <-.
      match type of I with In (AssignAdvice ?c ?o ?v) _ => assert (Y : In (Adv c, o) (touched evs)) end.
      { unfold touched. apply in_flat_map. eexists. split; [exact I|]. now left. }
      apply HT in Y. lia.
    - exists (abs_fix st evs ++ f). split; [rewrite Ef; symmetry; apply app_assoc|]. intros y r v X. apply in_app_iff in X.
      destruct X as [X|X]; [left|right; apply Hf in X; destruct X as [X Y]; split; [|exact Y]; destruct (const_events evs); [congruence|discriminate]]. unfold abs_fix in X. apply in_flat_map in X.
      destruct X as (ev & I & X). destruct ev; cbn [In] in X; try contradiction. destruct X as [X|[]]. injection X as <- <- <-.
      match type of I with In (AssignFixed ?c ?o ?v) _ => assert (Y : In (Fix c, o) (touched evs)) end.
      { unfold touched. apply in_flat_map. eexists. split; [exact I|]. now left. }
      apply HT in Y. lia.
    - exists (abs_sel st evs). split; [exact A4|]. intros y r X. unfold abs_sel in X. apply in_flat_map in X.
      destruct X as (ev & I & X). destruct ev; cbn [In] in X; try contradiction. destruct X as [X|[]]. injection X as <- <-.
      match type of I with In (EnableSelector ?c ?o) _ => assert (Y : In (Sel c, o) (touched evs)) end.
      { unfold touched. apply in_flat_map. eexists. split; [exact I|]. now left. }
      apply HT in Y. lia.
    - exists (abs_copy (lo_starts L ++ [st]) evs ++ c). split; [rewrite Ec; symmetry; apply app_assoc|]. intros y z X. apply in_app_iff in X.
      destruct X as [X|X].
      + unfold abs_copy in X. apply in_flat_map in X.
        destruct X as (ev & I & X). destruct ev; cbn [In] in X; try contradiction. destruct X as [X|[]]. injection X as <- <-.
        exact (HE _ _ I).
      + destruct (Hc y z X) as [(k & Q1 & ->) (w & v & I & ->)]. split.
        * apply HK; [exact Q1|]. destruct (const_events evs); [destruct I|discriminate].
        * apply (HC w v). unfold const_events in I. apply in_flat_map in I. destruct I as (ev & I & J).
          destruct ev; cbn [In] in J; try contradiction. destruct J as [J|[]]. injection J as <- <-. exact I.
  Qed.

  Lemma step_fits : forall h hl nc L L' u, step h hl nc L L' -> fits u L -> top cols L + h <= u ->
    (nc <> 0 -> forall k, lo_const L = Some k -> lo_next L' (Fix k) <= u) -> fits u L'.
  Proof.
    intros h hl nc L L' u [A1 A2 A3 A4 A5 A6 (a & Ea & Ha) (f & Ef & Hf) (s & Es & Hs) _] (F1 & F2 & F3 & F4) Hu HK.
    split; [|split; [|split]].
    - intros c r v X. rewrite Ea in X. apply in_app_iff in X. destruct X as [X|X]; [eauto|]. apply Ha in X. lia.
    - intros c r v X. rewrite Ef in X. apply in_app_iff in X. destruct X as [X|X]; [eauto|]. apply Hf in X.
      destruct X as [X|(Z & X & Y)]; [lia|]. specialize (HK Z c X). lia.
    - intros c r X. rewrite Es in X. apply in_app_iff in X. destruct X as [X|X]; [eauto|]. apply Hs in X. lia.
    - rewrite A6. exact F4.
  Qed.
End Step.

Section Chip.
  Context {F : Type} {FO : FieldOps F} {PF : PrimeField F}.
  Variable T RATE : nat.
  Variable s : spec F.
  Hypothesis Hspec : poseidon_spec T s.
  Hypothesis HT : 1 < T.
  Hypothesis HR : RATE = T - 1.
  Variable cfg : pow5.
  Hypothesis Hstate : length (p5_state cfg) = T.
  Hypothesis Ha : length (p5_rc_a cfg) = T.
  Hypothesis Hb : length (p5_rc_b cfg) = T.
  Hypothesis NDadv : NoDup (p5_sbox cfg :: p5_state cfg).
  Hypothesis NDfix : NoDup (p5_rc_a cfg ++ p5_rc_b cfg).
  Hypothesis NDsel : NoDup [p5_full cfg; p5_partial cfg; p5_single cfg; p5_pad cfg].
  Hypothesis Inv1 : mat_prod_id T (mds s) (mds_inv s).
  Hypothesis Inv2 : mat_prod_id T (mds_inv s) (mds s).

  Set Default Proof Using "All".
  Notation B L := (L T RATE s Hspec HT HR cfg Hstate Ha Hb NDadv NDfix NDsel).
  Notation U L := (L T RATE s Hspec HT HR cfg Hstate Ha Hb NDadv NDfix NDsel Inv1 Inv2).
  Notation R := (p5_R s).
  Notation sc := (col (p5_state cfg)).
  Notation ac := (col (p5_rc_a cfg)).
  Notation bc := (col (p5_rc_b cfg)).
  Notation cells := (row_cells T cfg).

  Variables (cols eqs : list column).
  Hypothesis Hcols : incl (p5_columns cfg) cols.
  Hypothesis Hes : forall i, i < T -> In (Adv (sc i)) eqs.
  Hypothesis Heb : forall i, i < T -> In (Fix (bc i)) eqs.
  Definition is_state (c : column) : Prop := exists i, i < T /\ c = Adv (sc i).
  Notation step := (step cols (p5_columns cfg) is_state eqs).
  Definition word_eq (w : acell F) : Prop := In (ce_col (ac_cell w)) eqs.
  Definition pw_eq (w : padded_word F) : Prop := match w with Message a => word_eq a | Padding _ => True end.

  Lemma col_in : forall l i, i < length l -> In (col l i) l.
  Proof using. intros l i H. unfold col. now apply nth_In. Qed.
  Lemma in_state : forall i, i < T -> In (Adv (sc i)) (p5_columns cfg).
  Proof. intros i H. unfold p5_columns. apply in_app_iff. left. apply in_map. right. apply col_in. lia. Qed.
  Lemma in_sbox : In (Adv (p5_sbox cfg)) (p5_columns cfg).
  Proof using. now left. Qed.
  Lemma in_a : forall i, i < T -> In (Fix (ac i)) (p5_columns cfg).
  Proof.
    intros i H. unfold p5_columns. apply in_app_iff. right. apply in_app_iff. left. apply in_map, in_app_iff. left. apply col_in. lia.
  Qed.
  Lemma in_b : forall i, i < T -> In (Fix (bc i)) (p5_columns cfg).
  Proof.
    intros i H. unfold p5_columns. apply in_app_iff. right. apply in_app_iff. left. apply in_map, in_app_iff. right. apply col_in. lia.
  Qed.
  Lemma in_sel : forall q, In q (p5_selectors cfg) -> In (Sel q) (p5_columns cfg).
  Proof using. intros q H. unfold p5_columns. apply in_app_iff. right. apply in_app_iff. right. now apply in_map. Qed.

  Lemma cells_eq : forall ri o (v : list (option F)), Forall word_eq (cells ri o v).
  Proof.
    intros ri o v. unfold row_cells. apply Forall_forall. intros w H. apply in_map_iff in H. destruct H as (i & <- & H).
    apply in_seq in H. apply Hes. lia.
  Qed.

  Lemma permute_cost : forall L L' ws out, length ws = T -> Forall word_eq ws -> p5_permute s cfg ws L = Ok (L', out) ->
    step (S R) (S R) 0 L L' /\ Forall word_eq out /\ length out = T.
  Proof.
    intros L L' ws out Hl HW H.
    assert (P : p5_permute_region s cfg ws (length (lo_starts L)) = Ok (ev_permute T s cfg (length (lo_starts L)) ws, out)).
    { pose proof H as H'. unfold p5_permute, assign_region in H'. rewrite (B permute_region_ok) in H' |- * by assumption. cbn [bind] in H'.
      destruct (fold_r _ _ _) in H'; [|discriminate H']. cbn [bind] in H'. injection H' as _ <-. reflexivity. }
    assert (LV : length (values ws) = T) by (unfold values; now rewrite map_length).
    split.
    2: { rewrite (B permute_region_ok) in P by assumption. injection P as <-. split; [apply cells_eq|].
         unfold row_cells. now rewrite map_length, seq_length. }
    set (ri := length (lo_starts L)) in *.
    assert (TA : forall c o, In (Adv c, o) (touched (ev_permute T s cfg ri ws)) <->
      (exists i, i < T /\ o <= R /\ c = sc i) \/ (o < R /\ c = p5_sbox cfg /\ exists r, kd s o = KPair r)).
    { intros c o. rewrite touched_adv, (B adv_permute). split.
      - intros [v X]. apply (B p5_adv_in) in X; [|assumption]. destruct X as [(i & X1 & X2 & X3 & _)|(X1 & X2 & _ & X3)]; [left|right]; eauto.
      - intros [(i & X1 & X2 & ->)|(X1 & -> & X3)].
        + eexists. apply (B p5_adv_in); [assumption|]. left. exists i. repeat (split; [eassumption|]). split; reflexivity.
        + eexists. apply (B p5_adv_in); [assumption|]. right. split; [assumption|]. split; [reflexivity|]. split; [reflexivity|assumption]. }
    eapply (region_step cols _ _ _ _ L L' out _ (S R) _ _ _ (Adv (sc 0)) P H).
    - exact Hcols.
    - intros c o X. destruct c as [c|c|c].
      + apply TA in X. destruct X as [(i & X1 & X2 & ->)|(X1 & -> & _)]; (split; [|lia]); [now apply in_state|apply in_sbox].
      + apply touched_fix in X. destruct X as [v X]. rewrite (B fix_permute) in X. apply (B p5_fix_in) in X.
        destruct X as (X & i & Hi & [[-> _]|(r & _ & -> & _)]); (split; [|lia]); [now apply in_a|now apply in_b].
      + apply touched_sel in X. rewrite (B sel_permute) in X. apply (B p5_sel_in) in X. destruct X as [X ->]. split; [|lia].
        apply in_sel. unfold gate_of, p5_selectors. cbn [In]. destruct (kd s o); tauto.
    - apply TA. left. exists 0. split; [lia|]. split; [lia|reflexivity].
    - reflexivity.
    - intros c (i & Hi & ->). exists 0. apply TA. left. exists i. split; [assumption|]. split; [lia|reflexivity].
    - now rewrite (B const_permute).
    - congruence.
    - lia.
    - intros; lia.
    - intros a b X. apply (U ev_permute_copies) in X; [|assumption]. destruct X as (i & Hi & -> & ->). split; [now apply Hes|].
      rewrite Forall_forall in HW. apply HW, nth_In. lia.
    - intros a v X. now apply (U ev_permute_const) in X.
    - congruence.
  Qed.

  Lemma add_cost : forall L L' ws input out, length ws = T -> Forall word_eq ws ->
    (forall w, In (Some w) input -> pw_eq w) -> p5_add_input T RATE cfg ws input L = Ok (L', out) ->
    step 3 3 0 L L' /\ Forall word_eq out /\ length out = T /\ (forall i, i < RATE -> nth i input None <> None).
  Proof.
    intros L L' ws input out Hl HW HI H. set (ri := length (lo_starts L)).
    set (pw := fun i => match nth i input None with Some w => w | None => Padding fzero end).
    assert (P0 : exists evs, add_region T RATE cfg ws input ri = Ok (evs, out)).
    { pose proof H as H'. unfold p5_add_input, assign_region in H'. fold ri in H'.
      change (rdo _ <- enable_selector (p5_pad cfg) 1; rdo st <- p5_load cfg ws;
              rdo inp <- rmap (load_input_word cfg input) (seq 0 RATE);
              rmap (fun i => assign_advice (sc i) 2 (match nth_error (values inp) i with
                 | Some v => val_add (nth i (values st) None) v | None => nth i (values st) None end)) (seq 0 T))
        with (add_region T RATE cfg ws input) in H'.
      destruct (add_region T RATE cfg ws input ri) as [[evs x]|]; [|discriminate H']. cbn [bind] in H'.
      destruct (fold_r _ _ _) in H'; [|discriminate H']. cbn [bind] in H'. injection H' as _ <-. eauto. }
    destruct P0 as [evs P].
    assert (PW : forall i, i < RATE -> nth i input None = Some (pw i)) by exact (U add_region_inv _ _ _ _ Hl P).
    pose proof P as P'. rewrite (U add_region_ok _ ws input pw Hl PW) in P'. injection P' as <- <-.
    split; [|split; [apply cells_eq|split; [unfold row_cells; now rewrite map_length, seq_length|intros i Hi; rewrite PW by assumption; discriminate]]].
    assert (PI : forall i, i < RATE -> pw_eq (pw i)).
    { intros i Hi. apply HI. pose proof (PW i Hi) as E. rewrite <- E. apply nth_In.
      destruct (Nat.lt_ge_cases i (length input)); [assumption|]. rewrite nth_overflow in E by assumption. discriminate E. }
    assert (TA : forall i o, i < T -> (o = 0 \/ o = 2) -> In (Adv (sc i), o) (touched (ev_add T RATE cfg ri ws pw))).
    { intros i o Hi Ho. apply touched_adv. destruct Ho as [->| ->]; eexists; apply (U ev_add_adv); [left|right; right];
        exists i; repeat (split; [auto; fail|]); reflexivity. }
    eapply (region_step cols _ _ _ _ L L' _ _ 3 _ _ _ (Adv (sc 0)) P H).
    - exact Hcols.
    - intros c o X. destruct c as [c|c|c].
      + apply touched_adv in X. destruct X as [v X]. apply (U ev_add_adv) in X.
        destruct X as [(i & Hi & -> & -> & _)|[(i & Hi & -> & -> & _)|(i & Hi & -> & -> & _)]]; (split; [apply in_state; lia|lia]).
      + apply touched_fix in X. destruct X as [v X]. apply (U ev_add_fix) in X. destruct X as (i & Hi & -> & -> & _).
        split; [apply in_b; lia|lia].
      + apply touched_sel, in_sel_ws, (U ev_add_sel) in X. destruct X as [-> ->]. split; [|lia].
        apply in_sel. unfold p5_selectors. cbn [In]. tauto.
    - apply TA; [lia|]. now right.
    - reflexivity.
    - intros c (i & Hi & ->). exists 0. apply TA; [assumption|]. now left.
    - destruct (const_events _) as [|[a v] l] eqn:E; [reflexivity|]. exfalso. apply (U ev_add_const ri ws pw a v).
      assert (X : In (a, v) (const_events (ev_add T RATE cfg ri ws pw))) by (rewrite E; now left).
      unfold const_events in X. apply in_flat_map in X. destruct X as (ev & I & J).
      destruct ev; cbn [In] in J; try contradiction. destruct J as [J|[]]. injection J as <- <-. exact I.
    - congruence.
    - lia.
    - intros; lia.
    - intros a b X. apply (U ev_add_copies) in X. destruct X as [(i & Hi & -> & ->)|(i & Hi & -> & ->)].
      + split; [now apply Hes|]. rewrite Forall_forall in HW. apply HW, nth_In. lia.
      + split; [apply Hes; lia|]. specialize (PI i Hi). destruct (pw i); [exact PI|]. apply Heb. lia.
    - intros a v X. now apply (U ev_add_const) in X.
    - congruence.
  Qed.

  Lemma init_cost : forall L L' cap out hi, 0 < hi ->
    (forall k, lo_const L = Some k -> In (Fix k) cols -> T <= hi) -> (forall k, lo_const L = Some k -> In (Fix k) eqs) ->
    p5_initial_state RATE cfg cap L = Ok (L', out) ->
    step hi 1 T L L' /\ Forall word_eq out /\ length out = T.
  Proof.
    intros L L' cap out hi Hp Hk He H. set (ri := length (lo_starts L)).
    assert (P : rmap (fun '(c, v) => assign_advice_from_constant c 0 v) (combine (p5_state cfg) (repeat fzero RATE ++ [cap])) ri
                = Ok (ev_init T RATE cfg ri cap, out)).
    { pose proof H as H'. unfold p5_initial_state, assign_region in H'. fold ri in H'. rewrite (U init_region_ok) in H' |- *. cbn [bind] in H'.
      destruct (fold_r _ _ _) in H'; [|discriminate H']. cbn [bind] in H'. injection H' as _ <-. reflexivity. }
    split.
    2: { rewrite (U init_region_ok) in P. injection P as <-. split; [apply cells_eq|]. unfold row_cells. now rewrite map_length, seq_length. }
    assert (TA : forall i, i < T -> In (Adv (sc i), 0) (touched (ev_init T RATE cfg ri cap))).
    { intros i Hi. apply touched_adv. eexists. apply (U ev_init_adv). exists i. repeat (split; [auto; fail|]). reflexivity. }
    eapply (region_step cols _ _ _ _ L L' _ _ 1 _ _ _ (Adv (sc 0)) P H).
    - exact Hcols.
    - intros c o X. destruct c as [c|c|c].
      + apply touched_adv in X. destruct X as [v X]. apply (U ev_init_adv) in X. destruct X as (i & Hi & -> & -> & _).
        split; [now apply in_state|lia].
      + exfalso. apply touched_fix in X. destruct X as [v X]. apply in_fix_ws in X. unfold ev_init in X. apply in_flat_map in X.
        destruct X as (i & _ & [X|[X|[]]]); discriminate X.
      + exfalso. apply touched_sel, in_sel_ws in X. now apply (proj2 (U ev_init_other _ _)) in X.
    - apply TA. lia.
    - reflexivity.
    - intros c (i & Hi & ->). exists 0. now apply TA.
    - unfold ev_init, const_events.
      assert (X : forall n a, length (flat_map (fun e : event F => match e with ConstrainConstant a v => [(a, v)] | _ => [] end)
        (flat_map (fun i => [AssignAdvice (sc i) 0 (Some (nth i (init_vals RATE cap) fzero));
           ConstrainConstant {| ce_region := ri; ce_off := 0; ce_col := Adv (sc i) |} (nth i (init_vals RATE cap) fzero)]) (seq a n))) = n).
      { induction n as [|n IH]; intros a; [reflexivity|]. cbn [seq flat_map app length]. now rewrite IH. }
      apply X.
    - intros _ k o X. apply touched_fix in X. destruct X as [v X]. apply in_fix_ws in X. unfold ev_init in X. apply in_flat_map in X.
      destruct X as (i & _ & [X|[X|[]]]); discriminate X.
    - lia.
    - exact Hk.
    - intros a b X. now apply (proj1 (U ev_init_other _ _)) in X.
    - intros a v X. apply (U ev_init_const) in X. destruct X as (i & Hi & -> & _). now apply Hes.
    - intros k Q _. now apply He.
  Qed.

  (** ** The sponge *)
  Notation blk := (3 + S R).
  Lemma sponge_cost : forall L L' st input st' out, length st = T -> Forall word_eq st ->
    (forall md w, input = Some md -> In (Some w) md -> pw_eq w) ->
    circuit_sponge T RATE s cfg st input L = Ok (L', (st', out)) ->
    let h := match input with Some _ => blk | None => S R end in
    step h h 0 L L' /\ Forall word_eq st' /\ length st' = T /\ out = map Some (firstn RATE st')
    /\ (forall md i, input = Some md -> i < RATE -> nth i md None <> None).
  Proof.
    intros L L' st input st' out Hl HW HI H h. unfold circuit_sponge in H.
    apply lbind_inv in H. destruct H as (L1 & st1 & H1 & H). apply lbind_inv in H. destruct H as (L2 & st2 & H2 & H).
    injection H as <- <- <-. destruct input as [md|].
    - destruct (add_cost L L1 st md st1 Hl HW (fun w => HI md w eq_refl) H1) as (A1 & A2 & A3 & A4).
      destruct (permute_cost L1 L2 st1 st2 A3 A2 H2) as (B1 & B2 & B3).
      split; [eapply step_app; [exact A1|exact B1|reflexivity..]|]. split; [exact B2|]. split; [exact B3|]. split; [reflexivity|].
      intros md' i E. injection E as <-. apply A4.
    - injection H1 as <- <-. destruct (permute_cost L L2 st st2 Hl HW H2) as (B1 & B2 & B3).
      split; [exact B1|]. split; [exact B2|]. split; [exact B3|]. split; [reflexivity|]. discriminate.
  Qed.

  Definition ab_ok (p : nat) (ab : c_absorbing) : Prop :=
    Forall word_eq (ab_state ab) /\ length (ab_state ab) = T
    /\ exists l, length l = p /\ p <= RATE /\ ab_mode ab = map Some l ++ repeat None (RATE - p) /\ Forall pw_eq l.
  Definition sq_ok (a : nat) (sq : c_squeezing) : Prop :=
    Forall word_eq (sq_state sq) /\ length (sq_state sq) = T
    /\ exists l, length l = a /\ a <= RATE /\ sq_mode sq = repeat None (RATE - a) ++ map Some l /\ Forall word_eq l.

  Lemma put_prefix : forall v (l : list (padded_word F)) k, put_first v (map Some l ++ repeat None k)
    = match k with O => None | S k' => Some (map Some (l ++ [v]) ++ repeat None k') end.
  Proof using.
    intros v l k. induction l as [|x l IH]; cbn [map app put_first].
    - destruct k; reflexivity.
    - rewrite IH. destruct k; reflexivity.
  Qed.
  Lemma pop_suffix : forall k (l : list (acell F)), pop_first (repeat None k ++ map Some l)
    = match l with [] => None | x :: l' => Some (x, repeat None (S k) ++ map Some l') end.
  Proof using.
    intros k l. induction k as [|k IH]; cbn [repeat app pop_first].
    - destruct l; reflexivity.
    - rewrite IH. destruct l; reflexivity.
  Qed.

  Lemma prefix_in : forall (l : list (padded_word F)) k w, In (Some w) (map Some l ++ repeat None k) -> In w l.
  Proof using.
    intros l k w H. apply in_app_iff in H. destruct H as [H|H].
    - apply in_map_iff in H. destruct H as (y & E & H). now injection E as <-.
    - apply repeat_spec in H. discriminate H.
  Qed.
  Lemma absorb_cost : forall L L' p ab v ab', ab_ok p ab -> pw_eq v -> circuit_absorb T RATE s cfg ab v L = Ok (L', ab') ->
    (p < RATE /\ ab_ok (S p) ab' /\ step 0 0 0 L L') \/ (p = RATE /\ ab_ok 1 ab' /\ step blk blk 0 L L').
  Proof.
    intros L L' p ab v ab' (A1 & A2 & l & El & Hp & Em & Hl) Hv H. unfold circuit_absorb in H. rewrite Em, put_prefix in H.
    destruct (RATE - p) as [|k] eqn:K.
    - right. split; [lia|]. rewrite <- Em in H. apply lbind_inv in H. destruct H as (L1 & [st out] & H1 & H). apply lbind_inv in H. destruct H as (L2 & md & H2 & H).
      injection H as <- <-. unfold llift in H2. cbv zeta in H2. destruct (_ =? _) in H2; [|discriminate H2].
      cbn [bind] in H2. injection H2 as <- <-.
      destruct (sponge_cost L L1 _ (Some (ab_mode ab)) st out A2 A1) as (B1 & B2 & B3 & _); [|exact H1|].
      { intros md w E X. injection E as <-. rewrite Em in X. apply prefix_in in X. rewrite Forall_forall in Hl. now apply Hl. }
      split; [|exact B1]. split; [exact B2|]. split; [exact B3|]. exists [v]. split; [reflexivity|]. split; [lia|].
      split; [reflexivity|]. now repeat constructor.
    - left. split; [lia|]. injection H as <- <-. split; [|apply step_refl]. split; [exact A1|]. split; [exact A2|].
      exists (l ++ [v]). split; [rewrite app_length; cbn; lia|]. split; [lia|]. split; [cbn [ab_mode]; do 2 f_equal; lia|].
      apply Forall_app. split; [assumption|now repeat constructor].
  Qed.
  Lemma absorbs_cost : forall l L L' p ab ab', ab_ok p ab -> Forall pw_eq l ->
    lfold (circuit_absorb T RATE s cfg) l ab L = Ok (L', ab') ->
    exists f p', ab_ok p' ab' /\ p + length l = p' + RATE * f /\ (0 < f -> 0 < p') /\ p' <= RATE /\ step (f * blk) (f * blk) 0 L L'.
  Proof.
    induction l as [|v l IH]; intros L L' p ab ab' A HL H; cbn [lfold] in H.
    - injection H as <- <-. exists 0, p. split; [exact A|]. split; [cbn; lia|]. split; [lia|]. split; [|apply step_refl].
      destruct A as (_ & _ & x & _ & A & _). exact A.
    - apply lbind_inv in H. destruct H as (L1 & ab1 & H1 & H). inversion HL as [|? ? Hv HL']; subst.
      destruct (absorb_cost L L1 p ab v ab1 A Hv H1) as [(Q & A1 & S1)|(Q & A1 & S1)];
        destruct (IH L1 L' _ ab1 ab' A1 HL' H) as (f & p' & B1 & B2 & B3 & B4 & B5).
      + exists f, p'. split; [exact B1|]. split; [cbn [length]; lia|]. split; [exact B3|]. split; [exact B4|].
        eapply step_app; [exact S1|exact B5|reflexivity..].
      + exists (S f), p'. split; [exact B1|]. split; [cbn [length]; lia|]. split; [|split; [exact B4|]].
        * intros _. destruct f; [|apply B3; lia]. lia.
        * eapply step_app; [exact S1|exact B5|reflexivity..].
  Qed.
  Lemma finish_cost : forall L L' p ab sq, ab_ok p ab -> circuit_finish T RATE s cfg ab L = Ok (L', sq) ->
    p = RATE /\ sq_ok RATE sq /\ step blk blk 0 L L'.
  Proof.
    intros L L' p ab sq (A1 & A2 & l & El & Hp & Em & Hl) H. unfold circuit_finish in H.
    apply lbind_inv in H. destruct H as (L1 & [st out] & H1 & H). injection H as <- <-.
    destruct (sponge_cost L L1 _ (Some (ab_mode ab)) st out A2 A1) as (B1 & B2 & B3 & B4 & B5); [|exact H1|].
    { intros md w E X. injection E as <-. rewrite Em in X. apply prefix_in in X. rewrite Forall_forall in Hl. now apply Hl. }
    split; [|split; [|exact B1]].
    - destruct (Nat.eq_dec p RATE) as [|N]; [assumption|]. exfalso. apply (B5 _ p eq_refl); [lia|].
      rewrite Em, app_nth2 by (rewrite map_length; lia). rewrite map_length, El, Nat.sub_diag. destruct (RATE - p) eqn:Q; [lia|reflexivity].
    - split; [exact B2|]. split; [exact B3|]. exists (firstn RATE st). split; [rewrite firstn_length; lia|]. split; [lia|].
      split; [rewrite Nat.sub_diag; exact B4|]. rewrite Forall_forall in *. intros x X. apply B2.
      rewrite <- (firstn_skipn RATE st). apply in_app_iff. now left.
  Qed.
  Lemma squeeze_cost : forall L L' a sq x sq', sq_ok a sq -> circuit_squeeze T RATE s cfg sq L = Ok (L', (x, sq')) ->
    word_eq x /\ ((0 < a /\ sq_ok (a - 1) sq' /\ step 0 0 0 L L') \/ (a = 0 /\ sq_ok (RATE - 1) sq' /\ step (S R) (S R) 0 L L')).
  Proof.
    intros L L' a sq x sq' (A1 & A2 & l & El & Hp & Em & Hl) H. unfold circuit_squeeze in H. rewrite Em, pop_suffix in H.
    destruct l as [|y l].
    - apply lbind_inv in H. destruct H as (L1 & [st out] & H1 & H).
      destruct (sponge_cost L L1 _ None st out A2 A1 ltac:(discriminate) H1) as (B1 & B2 & B3 & B4 & _).
      assert (LF : length (firstn RATE st) = RATE) by (rewrite firstn_length; lia).
      assert (WF : Forall word_eq (firstn RATE st)).
      { rewrite Forall_forall in *. intros z X. apply B2. rewrite <- (firstn_skipn RATE st). apply in_app_iff. now left. }
      rewrite B4 in H. clear B4. destruct (firstn RATE st) as [|y l]; [cbn in LF; lia|].
      cbn [map pop_first] in H. injection H as <- <- <-.
      inversion WF as [|? ? W1 W2]; subst. split; [exact W1|]. right. split; [reflexivity|]. split; [|exact B1].
      split; [exact B2|]. split; [exact B3|]. exists l. cbn [length] in LF. split; [lia|]. split; [lia|]. split; [|exact W2].
      cbn [sq_mode]. replace (RATE - (RATE - 1)) with 1 by lia. reflexivity.
    - injection H as <- <- <-. inversion Hl as [|? ? W1 W2]; subst. cbn [length] in *. split; [exact W1|]. left. split; [lia|]. split; [|apply step_refl].
      split; [exact A1|]. split; [exact A2|]. exists l. split; [lia|]. split; [lia|]. split; [|exact W2].
      cbn [sq_mode]. change (None :: repeat None ?n ++ ?x) with (repeat (@None (acell F)) (S n) ++ x). do 2 f_equal. lia.
  Qed.
  Lemma squeezes_cost : forall k L L' a sq out, sq_ok a sq -> circuit_squeezes T RATE s cfg k sq L = Ok (L', out) ->
    Forall word_eq out /\ length out = k
    /\ exists g a', a + RATE * g = k + a' /\ (0 < g -> a' < RATE) /\ step (g * S R) (g * S R) 0 L L'.
  Proof.
    induction k as [|k IH]; intros L L' a sq out A H; cbn [circuit_squeezes] in H.
    - injection H as <- <-. split; [constructor|]. split; [reflexivity|]. exists 0, a. split; [lia|]. split; [lia|]. apply step_refl.
    - apply lbind_inv in H. destruct H as (L1 & [x sq1] & H1 & H). apply lbind_inv in H. destruct H as (L2 & r & H2 & H).
      injection H as <- <-. destruct (squeeze_cost L L1 a sq x sq1 A H1) as (W & [(Q & A1 & S1)|(Q & A1 & S1)]);
        destruct (IH L1 L2 _ sq1 r A1 H2) as (B1 & B2 & g & a' & B3 & B4 & B5);
        (split; [now constructor|]); (split; [cbn [length]; lia|]).
      + exists g, a'. split; [lia|]. split; [exact B4|]. eapply step_app; [exact S1|exact B5|reflexivity..].
      + exists (S g), a'. split; [lia|]. split; [|eapply step_app; [exact S1|exact B5|reflexivity..]].
        intros _. destruct g; [|apply B4; lia]. lia.
  Qed.

  Lemma rows_permute : permute_rows s = S R.
  Proof.
    unfold permute_rows, p5_R, half_full, half_partial.
    pose proof (Nat.div_mod (partial_rounds s) 2 ltac:(lia)) as D. pose proof (Nat.mod_upper_bound (partial_rounds s) 2 ltac:(lia)) as M.
    set (q := partial_rounds s / 2) in *. set (r := partial_rounds s mod 2) in *.
    assert (E : (partial_rounds s + 1) / 2 = q + r).
    { symmetry. destruct r as [|[|r]]; [| |lia].
      - apply (Nat.div_unique _ 2 _ 1); lia.
      - apply (Nat.div_unique _ 2 _ 0); lia. }
    rewrite E. lia.
  Qed.

  Definition new_cost (hi : nat) (L : layout F) : Prop :=
    0 < hi /\ (forall k, lo_const L = Some k -> In (Fix k) cols -> T <= hi) /\ (forall k, lo_const L = Some k -> In (Fix k) eqs).
  Lemma new_ok : forall L L' cap ab hi, new_cost hi L -> circuit_new RATE cfg cap L = Ok (L', ab) ->
    ab_ok 0 ab /\ step hi 1 T L L'.
  Proof.
    intros L L' cap ab hi (N1 & N2 & N3) H. unfold circuit_new in H. apply lbind_inv in H. destruct H as (L1 & st & H1 & H).
    injection H as <- <-. destruct (init_cost L L1 cap st hi N1 N2 N3 H1) as (A1 & A2 & A3). split; [|exact A1].
    split; [exact A2|]. split; [exact A3|]. exists []. split; [reflexivity|]. split; [lia|]. split; [|constructor].
    cbn [ab_mode map app]. now rewrite Nat.sub_0_r.
  Qed.

  Theorem session_cost : forall L L' cap l k out hi, new_cost hi L -> Forall pw_eq l ->
    circuit_session T RATE s cfg cap l k L = Ok (L', out) ->
    let rest := (length l / RATE) * block_rows s + ((k - 1) / RATE) * permute_rows s in
    0 < length l /\ length l mod RATE = 0 /\ Forall word_eq out /\ length out = k /\ step (hi + rest) (1 + rest) T L L'.
  Proof.
    intros L L' cap l k out hi HN HL H rest. unfold circuit_session in H.
    apply lbind_inv in H. destruct H as (La & ab & H1 & H). apply lbind_inv in H. destruct H as (Lb & ab2 & H2 & H).
    apply lbind_inv in H. destruct H as (Lc & sq & H3 & H).
    destruct (new_ok L La cap ab hi HN H1) as (A1 & A2).
    destruct (absorbs_cost l La Lb 0 ab ab2 A1 HL H2) as (f & p & B1 & B2 & B3 & B4 & B5).
    destruct (finish_cost Lb Lc p ab2 sq B1 H3) as (-> & C1 & C2).
    destruct (squeezes_cost k Lc L' RATE sq out C1 H) as (D1 & D2 & g & a & D3 & D4 & D5).
    assert (E1 : length l / RATE = S f) by (symmetry; apply (Nat.div_unique _ RATE _ 0); lia).
    assert (E2 : length l mod RATE = 0) by (symmetry; apply (Nat.mod_unique _ RATE (S f)); lia).
    assert (E3 : (k - 1) / RATE = g).
    { symmetry. destruct g as [|g].
      - apply (Nat.div_unique _ RATE 0 (k - 1)); lia.
      - apply (Nat.div_unique _ RATE (S g) (RATE - a - 1)); [lia|]. specialize (D4 ltac:(lia)). lia. }
    split; [lia|]. split; [exact E2|]. split; [exact D1|]. split; [exact D2|].
    unfold rest, block_rows. rewrite E1, E3, rows_permute.
    eapply step_app; [exact A2|eapply step_app; [exact B5|eapply step_app; [exact C2|exact D5|reflexivity..]|reflexivity..]| | |]; cbn [Nat.mul]; lia.
  Qed.

  Theorem hash_cost : forall N L1 L2 h msg out, 0 < N -> length msg = N -> ab_ok 0 h -> Forall word_eq msg ->
    circuit_hash T RATE s cfg N h msg L1 = Ok (L2, out) ->
    let rows := ((N + RATE - 1) / RATE) * block_rows s in
    word_eq out /\ step rows rows 0 L1 L2.
  Proof.
    intros N L1 L2 h msg out HN EM A HW H rows. unfold circuit_hash in H.
    apply lbind_inv in H. destruct H as (Lx & pad & Hp & H). apply lbind_inv in H. destruct H as (Lb & ab2 & H2 & H).
    apply lbind_inv in H. destruct H as (Lc & sq & H3 & H). apply lbind_inv in H. destruct H as (Ld & [x sq'] & H4 & H).
    injection H as <- <-. unfold llift in Hp.
    destruct (constant_length_padding RATE N N) as [pad'|] eqn:EP; [|discriminate Hp]. cbn [bind] in Hp. injection Hp as <- ->.
    unfold constant_length_padding in EP. rewrite Nat.eqb_refl in EP. cbn [rassert bind] in EP. injection EP as EP.
    assert (LP : length pad = (N + RATE - 1) / RATE * RATE - N) by (rewrite <- EP; apply repeat_length). clear EP.
    pose proof (Nat.div_mod (N + RATE - 1) RATE ltac:(lia)) as DM. pose proof (Nat.mod_upper_bound (N + RATE - 1) RATE ltac:(lia)) as MU.
    assert (EQ : (N + RATE - 1) / RATE * block_rows s = rows) by reflexivity. clearbody rows.
    set (q := (N + RATE - 1) / RATE) in *. set (r := (N + RATE - 1) mod RATE) in *. clearbody q r.
    assert (HL : Forall pw_eq (map Message msg ++ map Padding pad)).
    { apply Forall_app. split; apply Forall_forall; intros w X; apply in_map_iff in X; destruct X as (z & <- & X); [|exact I].
      rewrite Forall_forall in HW. now apply HW. }
    destruct (absorbs_cost _ L1 Lb 0 h ab2 A HL H2) as (f & p & B1 & B2 & B3 & B4 & B5).
    destruct (finish_cost Lb Lc p ab2 sq B1 H3) as (-> & C1 & C2).
    destruct (squeeze_cost Lc Ld RATE sq x sq' C1 H4) as (W & [(Q & D1 & D2)|(Q & D1 & D2)]); [|lia].
    split; [exact W|]. rewrite app_length, !map_length, LP in B2.
    assert (E1 : q = S f).
    { apply (Nat.mul_cancel_l _ _ RATE); [lia|]. rewrite (Nat.mul_succ_r RATE f). rewrite (Nat.mul_comm q RATE) in B2. lia. }
    rewrite <- EQ, E1. unfold block_rows. rewrite rows_permute.
    eapply step_app; [exact B5|eapply step_app; [exact C2|exact D2|reflexivity..]| | |]; cbn [Nat.mul]; lia.
  Qed.
End Chip.
