(** The lemmas behind PropertiesCost.v. *)
From Coq Require Import ZArith List Arith Lia Bool.
From Verif Require Import Field Rust ListAux Primitives Specs SpecHash Perm_proof BigSum Link Base_claims Halo2 Septidon PermuteChip Pow5 ChipUse Built
  Pow5Use Gadget GadgetUse TableUse CostUse Layout_proof SeptVal_proof SeptGate_proof Contract Stack_proof Sept_claims Pow5Gate_proof Pow5Rows_proof
  Pow5Block_proof Trace_proof Pow5Use_proof Pow5Honest_proof Pow5_claims Gadget_proof Table_claims Cost_proof.
Import ListNotations.
Local Open Scope nat_scope.

Section Claims.
  Context {F : Type} {FO : FieldOps F} {PF : PrimeField F}.

  Lemma configured_eq : forall T RATE (s : spec F) state sbox rc_a rc_b cs0 cfg cs1,
    pow5_configure T RATE s state sbox rc_a rc_b cs0 = (cfg, cs1) ->
    forall x, In x (map Adv state ++ map Fix rc_b) -> In x (cs_eq cs1).
  Proof.
    intros T RATE s state sbox rc_a rc_b cs0 cfg cs1 H x Hx. unfold pow5_configure in H.
    destruct (enable_all (map Adv state ++ map Fix rc_b) cs0) as (_ & _ & _ & _ & E). cbn zeta in E. specialize (E x (or_introl Hx)).
    set (c := fold_left _ _ _) in *. clearbody c. unfold complex_selector in H. cbn [cs_sel] in H.
    injection H as <- <-. exact E.
  Qed.

  Lemma constants_column_claim : forall T RATE (s : spec F) state sbox rc_a rc_b cs0 cs1 cfg kc,
    cs_const cs0 = [] -> pow5_configure T RATE s state sbox rc_a rc_b (enable_constant kc cs0) = (cfg, cs1) ->
    lo_const (layout_empty cs1) = Some kc /\ In (Fix kc) (cs_eq cs1) /\ incl (cs_eq cs0) (cs_eq cs1).
  Proof.
    intros T RATE s state sbox rc_a rc_b cs0 cs1 cfg kc K H.
    destruct (pow5_configured _ _ _ _ _ _ _ _ _ _ H) as (_ & _ & _ & _ & _ & _ & C & _).
    split. { cbn [layout_empty lo_const]. rewrite C. cbn [enable_constant cs_const]. now rewrite K. }
    assert (S : incl (cs_eq (enable_constant kc cs0)) (cs_eq cs1)).
    { intros x Hx. clear C K. unfold pow5_configure in H.
      destruct (enable_all (map Adv state ++ map Fix rc_b) (enable_constant kc cs0)) as (_ & _ & _ & _ & E). cbn zeta in E.
      specialize (E x (or_intror Hx)). clear Hx.
      set (c := fold_left _ _ _) in *. clearbody c. unfold complex_selector in H. cbn [cs_sel] in H.
      injection H as <- <-. exact E. }
    split; [apply S|intros x Hx; apply S]; cbn [enable_constant cs_eq]; apply in_app_iff; [right; now left|now left].
  Qed.

  Section Config.
    Variables (T : nat) (s : spec F) (state : list nat) (sbox : nat) (rc_a rc_b : list nat) (cs0 cs1 : cs F) (cfg : pow5) (m : cs F).
    Hypothesis Hspec : poseidon_spec T s.
    Hypothesis HT : 1 < T.
    Hypothesis Inv1 : mat_prod_id T (mds s) (mds_inv s).
    Hypothesis Inv2 : mat_prod_id T (mds_inv s) (mds s).
    Hypothesis Hcols : columns_ok T state sbox rc_a rc_b.
    Hypothesis Hcfg : pow5_configure T (T - 1) s state sbox rc_a rc_b cs0 = (cfg, cs1).
    Hypothesis Hm : incl (cs_eq cs1) (cs_eq m).
    Set Default Proof Using "All".

    Lemma state_eq : forall i, i < T -> In (Adv (col (p5_state cfg) i)) (cs_eq m).
    Proof.
      intros i Hi. destruct (pow5_configured _ _ _ _ _ _ _ _ _ _ Hcfg) as (E & _ & _ & _ & _). rewrite E. destruct Hcols as (A & _).
      apply Hm. apply (configured_eq _ _ _ _ _ _ _ _ _ _ Hcfg). apply in_app_iff. left. apply in_map. apply nth_In. lia.
    Qed.
    Lemma b_eq : forall i, i < T -> In (Fix (col (p5_rc_b cfg) i)) (cs_eq m).
    Proof.
      intros i Hi. destruct (pow5_configured _ _ _ _ _ _ _ _ _ _ Hcfg) as (_ & _ & _ & E & _). rewrite E. destruct Hcols as (_ & _ & A & _).
      apply Hm. apply (configured_eq _ _ _ _ _ _ _ _ _ _ Hcfg). apply in_app_iff. right. apply in_map. apply nth_In. lia.
    Qed.
    Lemma low_state : forall c, In c state -> is_state T cfg (Adv c).
    Proof.
      intros c H. destruct (pow5_configured _ _ _ _ _ _ _ _ _ _ Hcfg) as (E & _ & _ & _ & _). destruct Hcols as (A & _).
      destruct (In_nth _ _ 0 H) as (i & Hi & <-). exists i. rewrite E. split; [lia|reflexivity].
    Qed.
    Lemma step_copies : forall cols chip low h hl nc L L', step cols chip low (cs_eq m) h hl nc L L' ->
      copies_enabled m L -> copies_enabled m L'.
    Proof using.
      intros cols chip low h hl nc L L' [_ _ _ _ _ _ _ _ _ (c & Ec & Hc)] H a b X. rewrite Ec in X. apply in_app_iff in X.
      destruct X as [X|X]; [now apply H|now apply Hc].
    Qed.

    Theorem permute_cost_claim : forall L0 L1 ws out,
      length ws = T -> Forall (copyable m) ws -> p5_permute s cfg ws L0 = Ok (L1, out) ->
      let cols := p5_columns cfg in let rows := permute_rows s in
      top cols L1 <= top cols L0 + rows
      /\ (forall c, In c state -> lo_next L0 (Adv c) + rows <= lo_next L1 (Adv c))
      /\ (forall c, ~ In c cols -> lo_next L1 c = lo_next L0 c)
      /\ (forall u, fits u L0 -> top cols L0 + rows <= u -> fits u L1)
      /\ (copies_enabled m L0 -> copies_enabled m L1) /\ Forall (copyable m) out.
    Proof.
      intros L0 L1 ws out Hl HW H cols rows. destruct (cfg_cols T s state sbox rc_a rc_b cs0 cs1 cfg Hcols Hcfg) as (A & B & C & D & E & K).
      destruct (permute_cost T (T - 1) s Hspec HT eq_refl cfg A B C D E K Inv1 Inv2 cols (cs_eq m) (incl_refl _) state_eq b_eq L0 L1 ws out Hl HW H)
        as (S & W & _).
      unfold rows. rewrite (rows_permute T (T - 1) s Hspec HT eq_refl cfg A B C D E K Inv1 Inv2 cols (cs_eq m) (incl_refl _) state_eq b_eq).
      split; [exact (st_top _ _ _ _ _ _ _ _ _ S)|]. split; [intros c Hc; apply (st_low _ _ _ _ _ _ _ _ _ S); now apply low_state|].
      split. { intros c Hc. rewrite (st_other _ _ _ _ _ _ _ _ _ S c Hc). destruct (lo_const L0); [destruct (column_eqb _ _)|]; lia. }
      split. { intros u Fu Hu. eapply step_fits; [exact S|assumption|assumption|congruence]. }
      split; [now apply (step_copies _ _ _ _ _ _ _ _ S)|exact W].
    Qed.

    Theorem add_input_cost_claim : forall L0 L1 ws input out,
      length ws = T -> Forall (copyable m) ws -> (forall w, In (Some w) input -> padded_copyable m w) ->
      p5_add_input T (T - 1) cfg ws input L0 = Ok (L1, out) ->
      let cols := p5_columns cfg in
      top cols L1 <= top cols L0 + 3
      /\ (forall c, In c state -> lo_next L0 (Adv c) + 3 <= lo_next L1 (Adv c))
      /\ (forall c, ~ In c cols -> lo_next L1 c = lo_next L0 c)
      /\ (forall u, fits u L0 -> top cols L0 + 3 <= u -> fits u L1)
      /\ (copies_enabled m L0 -> copies_enabled m L1) /\ Forall (copyable m) out.
    Proof.
      intros L0 L1 ws input out Hl HW HI H cols. destruct (cfg_cols T s state sbox rc_a rc_b cs0 cs1 cfg Hcols Hcfg) as (A & B & C & D & E & K).
      destruct (add_cost T (T - 1) s Hspec HT eq_refl cfg A B C D E K Inv1 Inv2 cols (cs_eq m) (incl_refl _) state_eq b_eq L0 L1 ws input out Hl HW HI H)
        as (S & W & _).
      split; [exact (st_top _ _ _ _ _ _ _ _ _ S)|]. split; [intros c Hc; apply (st_low _ _ _ _ _ _ _ _ _ S); now apply low_state|].
      split. { intros c Hc. rewrite (st_other _ _ _ _ _ _ _ _ _ S c Hc). destruct (lo_const L0); [destruct (column_eqb _ _)|]; lia. }
      split. { intros u Fu Hu. eapply step_fits; [exact S|assumption|assumption|congruence]. }
      split; [now apply (step_copies _ _ _ _ _ _ _ _ S)|exact W].
    Qed.

    (** from the costs with and without the constants column *)
    Lemma with_constants : forall kc L0 L1 rest,
      lo_const L0 = Some kc ->
      (forall cols hi, incl (p5_columns cfg) cols -> new_cost T cols (cs_eq m) hi L0 ->
         step cols (p5_columns cfg) (is_state T cfg) (cs_eq m) (hi + rest) (1 + rest) T L0 L1) ->
      In (Fix kc) (cs_eq m) ->
      let cols := p5_columns cfg in
      (forall c, In c state -> lo_next L0 (Adv c) + (1 + rest) <= lo_next L1 (Adv c))
      /\ (~ In (Fix kc) cols -> top cols L1 <= top cols L0 + (1 + rest) /\ lo_next L1 (Fix kc) = lo_next L0 (Fix kc) + T)
      /\ (forall c, ~ In c cols -> c <> Fix kc -> lo_next L1 c = lo_next L0 c)
      /\ (forall u, fits u L0 -> top (Fix kc :: cols) L0 + (T + rest) <= u
                    \/ (~ In (Fix kc) cols /\ top cols L0 + (1 + rest) <= u /\ lo_next L0 (Fix kc) + T <= u) -> fits u L1)
      /\ (copies_enabled m L0 -> copies_enabled m L1).
    Proof.
      intros kc L0 L1 rest Hk HS He cols.
      assert (S1 : step (Fix kc :: cols) cols (is_state T cfg) (cs_eq m) (T + rest) (1 + rest) T L0 L1).
      { apply HS; [intros x X; now right|]. split; [lia|]. split; [lia|]. intros k Q. rewrite Hk in Q. now injection Q as <-. }
      assert (S2 : ~ In (Fix kc) cols -> step cols cols (is_state T cfg) (cs_eq m) (1 + rest) (1 + rest) T L0 L1).
      { intros N. apply HS; [apply incl_refl|]. split; [lia|]. split; intros k Q; rewrite Hk in Q; injection Q as <-; [now intros|assumption]. }
      assert (O : forall c, ~ In c cols -> lo_next L1 c = lo_next L0 c + if column_eqb c (Fix kc) then T else 0).
      { intros c Hc. rewrite (st_other _ _ _ _ _ _ _ _ _ S1 c Hc), Hk. reflexivity. }
      assert (KK : column_eqb (Fix kc) (Fix kc) = true) by now apply column_eqb_eq.
      split; [intros c Hc; apply (st_low _ _ _ _ _ _ _ _ _ S1); now apply low_state|].
      split. { intros N. split; [exact (st_top _ _ _ _ _ _ _ _ _ (S2 N))|]. now rewrite (O _ N), KK. }
      split. { intros c Hc Nc. rewrite (O c Hc). destruct (column_eqb c (Fix kc)) eqn:Q; [|lia]. now apply column_eqb_eq in Q. }
      split; [|exact (step_copies _ _ _ _ _ _ _ _ S1)].
      intros u Fu [Hu|(N & Hu & Hc)].
      - eapply step_fits; [exact S1|assumption|assumption|]. intros _ k Q. rewrite Hk in Q. injection Q as <-.
        pose proof (st_top _ _ _ _ _ _ _ _ _ S1). pose proof (top_le (Fix kc :: cols) L1 (Fix kc) (or_introl eq_refl)). lia.
      - eapply step_fits; [exact (S2 N)|assumption|assumption|]. intros _ k Q. rewrite Hk in Q. injection Q as <-.
        rewrite (O _ N), KK. exact Hc.
    Qed.

    Theorem session_cost_claim : forall kc L0 L1 cap input k out, lo_const L0 = Some kc -> In (Fix kc) (cs_eq m) ->
      Forall (padded_copyable m) input -> circuit_session T (T - 1) s cfg cap input k L0 = Ok (L1, out) ->
      let cols := p5_columns cfg in let rows := session_rows s (T - 1) (length input) k in
      0 < length input /\ length input mod (T - 1) = 0
      /\ (forall c, In c state -> lo_next L0 (Adv c) + rows <= lo_next L1 (Adv c))
      /\ (~ In (Fix kc) cols -> top cols L1 <= top cols L0 + rows /\ lo_next L1 (Fix kc) = lo_next L0 (Fix kc) + T)
      /\ (forall c, ~ In c cols -> c <> Fix kc -> lo_next L1 c = lo_next L0 c)
      /\ (forall u, fits u L0 -> top (Fix kc :: cols) L0 + (T - 1) + rows <= u
                    \/ (~ In (Fix kc) cols /\ top cols L0 + rows <= u /\ lo_next L0 (Fix kc) + T <= u) -> fits u L1)
      /\ (copies_enabled m L0 -> copies_enabled m L1) /\ Forall (copyable m) out /\ length out = k.
    Proof.
      intros kc L0 L1 cap input k out Hk He HI H cols rows.
      destruct (cfg_cols T s state sbox rc_a rc_b cs0 cs1 cfg Hcols Hcfg) as (A & B & C & D & E & K).
      pose proof (fun cols hi I N => session_cost T (T - 1) s Hspec HT eq_refl cfg A B C D E K Inv1 Inv2 cols (cs_eq m) I state_eq b_eq
        L0 L1 cap input k out hi N HI H) as SS. cbn zeta in SS.
      destruct (SS (Fix kc :: cols) T) as (P1 & P2 & P3 & P4 & _).
      { intros x X. now right. }
      { split; [lia|]. split; [lia|]. intros x Q. rewrite Hk in Q. now injection Q as <-. }
      set (rest := length input / (T - 1) * block_rows s + (k - 1) / (T - 1) * permute_rows s) in *.
      assert (ER : rows = 1 + rest) by (unfold rows, session_rows, rest; lia).
      destruct (with_constants kc L0 L1 rest Hk (fun cols hi I N => proj2 (proj2 (proj2 (proj2 (SS cols hi I N))))) He) as (Q1 & Q2 & Q3 & Q4 & Q5).
      rewrite ER. do 2 (split; [assumption|]). split; [exact Q1|]. split; [exact Q2|]. split; [exact Q3|].
      split; [|split; [exact Q5|split; assumption]].
      intros u Fu Hu. apply Q4; [assumption|]. destruct Hu as [Hu|Hu]; [left; fold cols; lia|right; exact Hu].
    Qed.

    Theorem hash_cost_claim : forall kc N L0 L1 L2 L3 h msg out, lo_const L0 = Some kc -> In (Fix kc) (cs_eq m) ->
      0 < N -> length msg = N -> Forall (copyable m) msg ->
      circuit_hash_init (T - 1) cfg N L0 = Ok (L1, h) -> circuit_hash T (T - 1) s cfg N h msg L2 = Ok (L3, out) ->
      let cols := p5_columns cfg in let rows := (N + (T - 1) - 1) / (T - 1) * block_rows s in
      (forall c, In c state -> lo_next L0 (Adv c) + 1 <= lo_next L1 (Adv c) /\ lo_next L2 (Adv c) + rows <= lo_next L3 (Adv c))
      /\ (~ In (Fix kc) cols -> top cols L1 <= top cols L0 + 1 /\ lo_next L1 (Fix kc) = lo_next L0 (Fix kc) + T)
      /\ top cols L3 <= top cols L2 + rows
      /\ (forall c, ~ In c cols -> (c <> Fix kc -> lo_next L1 c = lo_next L0 c) /\ lo_next L3 c = lo_next L2 c)
      /\ (forall u, fits u L0 -> top (Fix kc :: cols) L0 + T <= u
                    \/ (~ In (Fix kc) cols /\ top cols L0 + 1 <= u /\ lo_next L0 (Fix kc) + T <= u) -> fits u L1)
      /\ (forall u, fits u L2 -> top cols L2 + rows <= u -> fits u L3)
      /\ (copies_enabled m L0 -> copies_enabled m L1) /\ (copies_enabled m L2 -> copies_enabled m L3) /\ copyable m out.
    Proof.
      intros kc N L0 L1 L2 L3 h msg out Hk He HN Hl HW H0 H cols rows.
      destruct (cfg_cols T s state sbox rc_a rc_b cs0 cs1 cfg Hcols Hcfg) as (A & B & C & D & E & K).
      unfold circuit_hash_init in H0.
      pose proof (fun cols hi I Q => new_ok T (T - 1) s Hspec HT eq_refl cfg A B C D E K Inv1 Inv2 cols (cs_eq m) I state_eq b_eq
        L0 L1 _ h hi Q H0) as SS.
      destruct (SS (Fix kc :: cols) T) as (P1 & _).
      { intros x X. now right. }
      { split; [lia|]. split; [lia|]. intros x Q. rewrite Hk in Q. now injection Q as <-. }
      destruct (with_constants kc L0 L1 0 Hk) as (Q1 & Q2 & Q3 & Q4 & Q5); [|exact He|].
      { intros cs hi I Q. rewrite Nat.add_0_r. exact (proj2 (SS cs hi I Q)). }
      destruct (hash_cost T (T - 1) s Hspec HT eq_refl cfg A B C D E K Inv1 Inv2 cols (cs_eq m) (incl_refl _) state_eq b_eq
        N L2 L3 h msg out HN Hl P1 HW H) as (W & S). fold rows in S.
      split. { intros c Hc. split; [exact (Q1 c Hc)|]. apply (st_low _ _ _ _ _ _ _ _ _ S). now apply low_state. }
      split; [exact Q2|]. split; [exact (st_top _ _ _ _ _ _ _ _ _ S)|].
      split. { intros c Hc. split; [now apply Q3|]. rewrite (st_other _ _ _ _ _ _ _ _ _ S c Hc). destruct (lo_const L2); [destruct (column_eqb _ _)|]; lia. }
      split. { intros u Fu Hu. apply Q4; [assumption|]. destruct Hu as [Hu|Hu]; [left; fold cols; lia|right; exact Hu]. }
      split. { intros u Fu Hu. eapply step_fits; [exact S|assumption|assumption|congruence]. }
      split; [exact Q5|]. split; [exact (step_copies _ _ _ _ _ _ _ _ S)|exact W].
    Qed.
  End Config.

  Theorem chip_layout_claim : forall (c : p128_constants F) short s (P : permute_chip F) h (cs0 m : cs F) L calls other,
    build c short s P h ->
    let cfg := fst (pc_configure P cs0) in let cs1 := snd (pc_configure P cs0) in
    chip_used P cfg (added cs0 cs1) L calls other -> incl (cs_eq cs1) (cs_eq m) ->
    (forall ws out, In (ws, out) calls -> Forall (copyable m) out)
    /\ ((forall a b, In (a, b) other -> In (fst a) (cs_eq m) /\ In (fst b) (cs_eq m)) ->
        (forall ws out, In (ws, out) calls -> Forall (copyable m) ws) -> copies_enabled m L)
    /\ (forall col r, added cs0 cs1 col ->
          (exists i v, col = Adv i /\ In (i, r, v) (lo_adv L)) \/ (exists i v, col = Fix i /\ In (i, r, v) (lo_fix L))
          \/ (exists i, col = Sel i /\ In (i, r) (lo_sel L)) -> r < h * length calls).
  Proof.
    intros c short s P h cs0 m L calls other B cfg cs1 U Hm.
    destruct (build_facts _ _ _ _ _ B) as (_ & _ & PC & _ & _).
    destruct (PC cs0) as (D & Laws & Eh & Own & _ & _ & _ & _ & _ & _ & (e & Ee & He) & R1 & R2). subst h.
    apply (used_own P cfg _ (cd_own D)) in U; [|intros x; symmetry; apply Own].
    pose proof (used_inv P D _ cfg L calls other Laws R1 R2 U) as I.
    assert (IN : forall x, In x e -> In x (cs_eq m)) by (intros x X; apply Hm; fold cs1 in Ee; rewrite Ee, in_app_iff; now right).
    split; [|split].
    - intros ws out H. apply In_nth_error in H. destruct H as [i Ei]. destruct (inv_call D L calls other i ws out I Ei) as (_ & _ & _ & _ & O & _).
      apply Forall_forall. intros w Hw. apply (in_map (located L)) in Hw. rewrite O in Hw. unfold block_out in Hw. apply in_map_iff in Hw.
      destruct Hw as (j & Ej & Hj). apply in_seq in Hj. unfold located, abs_cell in Ej. injection Ej as E1 _ _.
      unfold copyable. rewrite <- E1. apply IN. apply He. lia.
    - intros HO HW a b X. destruct I as (_ & _ & _ & _ & _ & K1 & _ & _ & C). apply C in X. destruct X as [X|X]; [now apply HO|].
      apply stack_copy_in in X. destruct X as (i & ws & E1 & X). apply nth_error_In in E1. apply in_map_iff in E1.
      destruct E1 as ([ws' out] & <- & E1). cbn [fst] in X. specialize (HW _ _ E1). rewrite Forall_forall in HW.
      unfold block_copy in X. apply in_map_iff in X. destruct X as ([j w] & Ex & X). injection Ex as <- <-.
      split; cbn [fst abs_cell].
      + apply IN. apply He. apply in_combine_l in X. apply in_seq in X. lia.
      + apply HW. now apply in_combine_r in X.
    - intros col r Ho X. apply Own in Ho. destruct I as (_ & _ & HF & HA & HS & _).
      assert (K : forall V (bl : list (list (nat * nat * V))) i v, Forall (fun b => forall c o v, In (c, o, v) b -> o < cd_h D) bl ->
        length bl = length calls -> last_write (stackw (cd_h D) 0 bl) i r = Some v -> r < cd_h D * length calls).
      { intros V bl i v HB HL E. apply last_write_in in E. apply stackw_in in E. destruct E as (k & o & Hk & Y & ->).
        rewrite Forall_forall in HB. specialize (HB _ (nth_In bl [] Hk) _ _ _ Y). nia. }
      destruct X as [(i & v & -> & X)|[(i & v & -> & X)|(i & -> & X)]].
      + apply last_write_some in X. destruct X as [w X]. rewrite (HA i r Ho), (stack_adv_w D) in X.
        eapply K; [apply (adv_rows D _ Laws)| |exact X]. now rewrite !map_length.
      + apply last_write_some in X. destruct X as [w X]. rewrite (HF i r Ho), (stack_fix_w D) in X.
        eapply K; [apply (fix_rows D _ Laws)| |exact X]. now rewrite repeat_length.
      + apply (HS i r Ho) in X. apply stack_sel_in in X. destruct X as (k & o & Hk & Y & ->).
        apply (law_sel_rows D _ Laws) in Y. nia.
  Qed.

  Lemma bn254_rows : forall s : spec F, full_rounds s = 8 -> partial_rounds s = 57 -> permute_rows s = 38 /\ block_rows s = 41.
  Proof. intros s A B. unfold block_rows, permute_rows. rewrite A, B. split; reflexivity. Qed.
End Claims.
