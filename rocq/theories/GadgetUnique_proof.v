(** The cells assigned by the Pow5 chip and the in-circuit sponge are determined by the words given to them. *)
From Coq Require Import ZArith List Arith Lia Bool.
From Verif Require Import Field Rust ListAux Primitives Specs SpecHash Perm_proof Sponge_proof BigSum Link Base_claims Halo2 Pow5 ChipUse Built
  Pow5Use Gadget GadgetUse WitnessUse Layout_proof SeptVal_proof SeptGate_proof Contract Sept_claims Pow5Gate_proof Pow5Rows_proof Pow5Block_proof Trace_proof
  Pow5Use_proof Pow5Honest_proof Pow5_claims Gadget_proof.
Import ListNotations.
Local Open Scope nat_scope.

Section Written.
  Context {F : Type} {FO : FieldOps F} {PF : PrimeField F}.

  Lemma written_app : forall (L0 L1 : layout F) new c r, lo_adv L1 = lo_adv L0 ++ new ->
    (written L0 L1 c r <-> exists v, In (c, r, v) new).
  Proof.
    intros L0 L1 new c r E. unfold written. rewrite E, skipn_app, skipn_all, Nat.sub_diag. reflexivity.
  Qed.
  Lemma place_adv : forall l (L L' : layout F), fold_r place_constant l L = Ok L' -> lo_adv L' = lo_adv L.
  Proof.
    induction l as [|[a v] l IH]; intros L L' H; cbn [fold_r] in H; [now injection H as <-|].
    destruct (place_constant L (a, v)) as [M|] eqn:E; [|discriminate H]. cbn [bind] in H. rewrite (IH M L' H).
    unfold place_constant in E. destruct (lo_const L); cbn in E; [|discriminate E]. injection E as <-. reflexivity.
  Qed.
  Lemma region_adv : forall {A} (p : Region F A) L L' x evs, p (length (lo_starts L)) = Ok (evs, x) ->
    assign_region p L = Ok (L', x) -> lo_adv L' = lo_adv L ++ abs_adv (nth (length (lo_starts L)) (lo_starts L') 0) evs.
  Proof.
    intros A p L L' x evs E H.
    assert (S : lo_starts L' = lo_starts L ++ [region_start (lo_next L) evs]
      /\ lo_adv L' = lo_adv L ++ abs_adv (region_start (lo_next L) evs) evs).
    { unfold assign_region in H. rewrite E in H. cbn [bind] in H.
      destruct (fold_r place_constant _ _) as [M|] eqn:P; [|discriminate H]. cbn [bind] in H. injection H as <-.
      pose proof (place_adv _ _ _ P) as X.
      assert (Y : forall l (N N' : layout F), fold_r place_constant l N = Ok N' -> lo_starts N' = lo_starts N).
      { clear. induction l as [|[a v] l IH]; intros N N' H; cbn [fold_r] in H; [now injection H as <-|].
        destruct (place_constant N (a, v)) as [M|] eqn:E; [|discriminate H]. cbn [bind] in H. rewrite (IH M N' H).
        unfold place_constant in E. destruct (lo_const N); cbn in E; [|discriminate E]. injection E as <-. reflexivity. }
      rewrite X, (Y _ _ _ P). cbn [commit reserve lo_starts lo_adv]. split; [reflexivity|]. f_equal. f_equal.
      rewrite app_nth2, Nat.sub_diag by lia. reflexivity. }
    destruct S as [S1 S2]. rewrite S1, S2, app_nth2, Nat.sub_diag by lia. reflexivity.
  Qed.
  Lemma grows_adv : forall L L' : layout F, grows L L' -> exists new, lo_adv L' = lo_adv L ++ new.
  Proof.
    intros L L' G. induction G as [L|L L1 L2 A p x G IH H|L L1 L2 c vals x G IH H].
    - exists []. now rewrite app_nil_r.
    - destruct IH as [new E]. assert (P : exists evs, p (length (lo_starts L1)) = Ok (evs, x)).
      { unfold assign_region in H. destruct (p _) as [[evs y]|]; [|discriminate H]. cbn [bind] in H.
        destruct (fold_r _ _ _); [|discriminate H]. cbn [bind] in H. injection H as _ <-. eauto. }
      destruct P as [evs P]. rewrite (region_adv p L1 L2 x evs P H), E, <- app_assoc. eauto.
    - destruct IH as [new E]. apply assign_table_inv in H. subst. cbn. eauto.
  Qed.
  Lemma written_none : forall (L : layout F) c r, ~ written L L c r.
  Proof. intros L c r [v H]. now rewrite skipn_all in H. Qed.
  Lemma written_trans : forall (L0 L1 L2 : layout F) c r, grows L0 L1 -> grows L1 L2 ->
    written L0 L2 c r -> written L0 L1 c r \/ written L1 L2 c r.
  Proof.
    intros L0 L1 L2 c r G1 G2 H. destruct (grows_adv _ _ G1) as [n1 E1]. destruct (grows_adv _ _ G2) as [n2 E2].
    apply (written_app L0 L2 (n1 ++ n2)) in H; [|now rewrite E2, E1, app_assoc]. destruct H as [v H].
    apply in_app_iff in H. rewrite (written_app L0 L1 n1), (written_app L1 L2 n2) by assumption. destruct H; eauto.
  Qed.
End Written.

Section Unique.
  Context {F : Type} {FO : FieldOps F} {PF : PrimeField F}.
  Variable T RATE : nat.
  Variable s : spec F.
  Hypothesis Hspec : poseidon_spec T s.
  Hypothesis HT : 1 < T.
  Hypothesis HR : RATE = T - 1.
  Variable cfg : pow5.
  Hypothesis Hstate : length (p5_state cfg) = T.
  Hypothesis Ha : length (p5_rc_a cfg) = T.
  Hypothesis Hb : length (p5_rc_b cfg) = T.
  Hypothesis NDadv : NoDup (p5_sbox cfg :: p5_state cfg).
  Hypothesis NDfix : NoDup (p5_rc_a cfg ++ p5_rc_b cfg).
  Hypothesis NDsel : NoDup [p5_full cfg; p5_partial cfg; p5_single cfg; p5_pad cfg].
  Hypothesis Inv1 : mat_prod_id T (mds s) (mds_inv s).
  Hypothesis Inv2 : mat_prod_id T (mds_inv s) (mds s).

  Set Default Proof Using "All".
  Notation B L := (L T RATE s Hspec HT HR cfg Hstate Ha Hb NDadv NDfix NDsel).
  Notation U L := (L T RATE s Hspec HT HR cfg Hstate Ha Hb NDadv NDfix NDsel Inv1 Inv2).
  Notation R := (p5_R s).
  Notation sc := (col (p5_state cfg)).

  Variables (n : nat) (L : layout F) (adv1 adv2 : nat -> nat -> F) (m : cs F).
  Hypothesis Hfit : fits n L.
  Hypothesis Hg1 : gates_hold n L adv1 (p5_gates T RATE s cfg).
  Hypothesis Hg2 : gates_hold n L adv2 (p5_gates T RATE s cfg).
  Hypothesis Hc1 : copies_hold L adv1.
  Hypothesis Hc2 : copies_hold L adv2.
  Notation at1 := (word_at L adv1).
  Notation at2 := (word_at L adv2).
  Notation pat1 := (pw_at L adv1).
  Notation pat2 := (pw_at L adv2).
  Notation W1 P := (U P n L adv1 m Hfit Hg1 Hc1).
  Notation W2 P := (U P n L adv2 m Hfit Hg2 Hc2).

  Definition same (L0 L1 : layout F) : Prop := forall c r, written L0 L1 c r -> adv1 c r = adv2 c r.
  Lemma same_refl : forall L0, same L0 L0.
  Proof using. intros L0 c r H. now apply written_none in H. Qed.
  Lemma same_trans : forall L0 L1 L2, grows L0 L1 -> grows L1 L2 -> same L0 L1 -> same L1 L2 -> same L0 L2.
  Proof using PF. intros L0 L1 L2 G1 G2 H1 H2 c r H. destruct (written_trans _ _ _ _ _ G1 G2 H); auto. Qed.
  (** a region: compare the cells of its events *)
  Lemma same_region : forall {A} (p : Region F A) Li Lj x evs, p (length (lo_starts Li)) = Ok (evs, x) ->
    assign_region p Li = Ok (Lj, x) -> grows Lj L ->
    (forall c o v, In (c, o, v) (adv_ws evs) ->
       let st := nth (length (lo_starts Li)) (lo_starts L) 0 in adv1 c (o + st) = adv2 c (o + st)) ->
    same Li Lj.
  Proof.
    intros A p Li Lj x evs E H G K c r Hw. apply (written_app _ _ _ _ _ (region_adv p Li Lj x evs E H)) in Hw.
    destruct Hw as [v Hw]. rewrite abs_adv_ws in Hw. apply in_moved in Hw. destruct Hw as (c' & o & I & E1 & ->).
    rewrite Nat.add_0_r in E1. subst c'. specialize (K c o v I). cbn zeta in K.
    destruct (grows_starts Lj L G) as [new EN].
    replace (nth (length (lo_starts Li)) (lo_starts L) 0) with (nth (length (lo_starts Li)) (lo_starts Lj) 0) in K; [exact K|].
    rewrite EN, app_nth1; [reflexivity|].
    assert (X : exists st, lo_starts Lj = lo_starts Li ++ [st]).
    { clear - PF H. unfold assign_region in H. destruct (p _) as [[ev y]|]; [|discriminate H]. cbn [bind] in H.
      destruct (fold_r place_constant _ _) as [M|] eqn:P; [|discriminate H]. cbn [bind] in H. injection H as <- _.
      assert (Y : forall l (N N' : layout F), fold_r place_constant l N = Ok N' -> lo_starts N' = lo_starts N).
      { clear. induction l as [|[a v] l IH]; intros N N' H; cbn [fold_r] in H; [now injection H as <-|].
        destruct (place_constant N (a, v)) as [M|] eqn:E; [|discriminate H]. cbn [bind] in H. rewrite (IH M N' H).
        unfold place_constant in E. destruct (lo_const N); cbn in E; [|discriminate E]. injection E as <-. reflexivity. }
      rewrite (Y _ _ _ P). cbn [commit reserve lo_starts]. eauto. }
    destruct X as [st X]. rewrite X, app_length. cbn. lia.
  Qed.

  Lemma permute_same : forall Li Lj ws out, grows (layout_empty m) Li -> words_in Li ws -> length ws = T ->
    p5_permute s cfg ws Li = Ok (Lj, out) -> grows Lj L -> map at1 ws = map at2 ws -> same Li Lj.
  Proof.
    intros Li Lj ws out G0 HW Hl H G EQ. destruct (built_trace m Li G0) as [rs TR].
    destruct (laid_region _ Li Lj out rs TR H) as (evs & Ev & La). pose proof Ev as Ev'.
    rewrite (B permute_region_ok) in Ev by assumption. injection Ev as <- <-.
    apply (same_region _ _ _ _ _ Ev' H G).
    assert (SC : scoped (S (length (lo_starts Li))) (ev_permute T s cfg (length (lo_starts Li)) ws)).
    { split.
      - intros a b X. apply (U ev_permute_copies) in X; [|assumption].
        destruct X as (i & Hi & -> & ->). cbn [ce_region]. split; [lia|].
        unfold words_in in HW. rewrite Forall_forall in HW.
        assert (X : In (nth i ws zero_cell) ws) by (apply nth_In; lia). specialize (HW _ X). cbn in HW. lia.
      - intros a v X. now apply (U ev_permute_const) in X. }
    specialize (La SC). apply (laid_more Lj L _ _ G) in La.
    destruct (U permute_block n L adv1 Hfit Hg1 Hc1 _ ws Hl La) as [K1 I1].
    destruct (U permute_block n L adv2 Hfit Hg2 Hc2 _ ws Hl La) as [K2 I2].
    intros c o v X st. fold st in K1, K2, I1, I2.
    assert (ST : forall o, o <= R -> forall i, i < T -> adv1 (sc i) (o + st) = adv2 (sc i) (o + st)).
    { intros q Hq. apply (lst_ext T HT).
      pose proof (B block_states _ K1 q Hq) as Y1. pose proof (B block_states _ K2 q Hq) as Y2. cbn beta in Y1, Y2.
      cbn [Nat.add] in Y1, Y2. rewrite I1, EQ in Y1. rewrite I2 in Y2. etransitivity; [exact Y1|symmetry; exact Y2]. }
    rewrite (B adv_permute) in X. apply (B p5_adv_in) in X; [|unfold values; now rewrite map_length].
    destruct X as [(i & Hi & Ho & -> & _)|(Ho & -> & _ & r & K)]; [now apply ST|].
    pose proof (K1 o Ho) as X1. pose proof (K2 o Ho) as X2. cbn beta in X1, X2.
    apply (kind_iff T s Hspec HT) in X1; [|now apply (B kd_fits)]. apply (kind_iff T s Hspec HT) in X2; [|now apply (B kd_fits)].
    destruct X1 as [_ X1]. destruct X2 as [_ X2]. rewrite K in X1, X2. rewrite X1, X2. now rewrite (ST o) by lia.
  Qed.

  Lemma add_same : forall Li Lj ws input out, grows (layout_empty m) Li -> words_in Li ws -> length ws = T ->
    mode_in Li input -> p5_add_input T RATE cfg ws input Li = Ok (Lj, out) -> grows Lj L ->
    map at1 ws = map at2 ws -> (forall w, In (Some w) input -> pat1 w = pat2 w) -> same Li Lj.
  Proof.
    intros Li Lj ws input out G0 HW Hl MI H G EQ EI. destruct (built_trace m Li G0) as [rs TR].
    destruct (laid_region _ Li Lj out rs TR H) as (evs & Ev & La). pose proof Ev as Ev'.
    change (add_region T RATE cfg ws input (length (lo_starts Li)) = Ok (evs, out)) in Ev.
    set (pw := fun i => match nth i input None with Some w => w | None => Padding fzero end) in *.
    assert (P : forall i, i < RATE -> nth i input None = Some (pw i)) by exact (U add_region_inv _ _ _ _ Hl Ev).
    rewrite (U add_region_ok _ ws input pw Hl P) in Ev. injection Ev as <- <-.
    assert (PI : forall i, i < RATE -> In (Some (pw i)) input).
    { intros i Hi. pose proof (P i Hi) as E. rewrite <- E. apply nth_In.
      destruct (Nat.lt_ge_cases i (length input)); [assumption|]. rewrite nth_overflow in E by assumption. discriminate E. }
    apply (same_region _ _ _ _ _ Ev' H G).
    assert (SC : scoped (S (length (lo_starts Li))) (ev_add T RATE cfg (length (lo_starts Li)) ws pw)).
    { split.
      - intros a b X. apply (U ev_add_copies) in X. destruct X as [(i & Hi & -> & ->)|(i & Hi & -> & ->)].
        + cbn [ce_region]. split; [lia|]. unfold words_in in HW. rewrite Forall_forall in HW.
          assert (X : In (nth i ws zero_cell) ws) by (apply nth_In; lia). specialize (HW _ X). cbn in HW. lia.
        + cbn [ce_region]. split; [lia|]. pose proof (PI i Hi) as E. destruct (pw i) as [w|v]; [|cbn; lia].
          apply MI in E. lia.
      - intros a v X. now apply (U ev_add_const) in X. }
    specialize (La SC). apply (laid_more Lj L _ _ G) in La.
    destruct (U add_rows n L adv1 Hfit Hg1 Hc1 _ ws pw Hl La) as (A1 & A2 & A3 & A4).
    destruct (U add_rows n L adv2 Hfit Hg2 Hc2 _ ws pw Hl La) as (B1 & B2 & B3 & B4).
    intros c o v X st. fold st in A1, A2, A3, A4, B1, B2, B3, B4. unfold srow in A3, A4, B3, B4.
    assert (E0 : forall i, i < T -> adv1 (sc i) st = adv2 (sc i) st).
    { intros i Hi. rewrite A1, B1 by assumption.
      pose proof (f_equal (fun l => nth i l (at1 zero_cell)) EQ) as Q. cbn beta in Q. rewrite map_nth in Q. rewrite Q.
      rewrite (nth_indep _ _ (at2 zero_cell)) by (rewrite map_length; lia). now rewrite map_nth. }
    assert (E1 : forall i, i < RATE -> adv1 (sc i) (S st) = adv2 (sc i) (S st)).
    { intros i Hi. rewrite A2, B2 by assumption. apply EI. now apply PI. }
    apply (U ev_add_adv) in X.
    destruct X as [(i & Hi & -> & -> & _)|[(i & Hi & -> & -> & _)|(i & Hi & -> & -> & _)]]; cbn [Nat.add]; auto.
    destruct (Nat.lt_ge_cases i RATE) as [Q|Q].
    - rewrite A3, B3 by assumption. now rewrite E0, E1.
    - replace i with RATE by lia. rewrite A4, B4. apply E0. lia.
  Qed.

  Lemma init_same : forall Li Lj cap out, grows (layout_empty m) Li -> p5_initial_state RATE cfg cap Li = Ok (Lj, out) ->
    grows Lj L -> same Li Lj.
  Proof.
    intros Li Lj cap out G0 H G. destruct (built_trace m Li G0) as [rs TR].
    destruct (laid_region _ Li Lj out rs TR H) as (evs & Ev & La). pose proof Ev as Ev'.
    rewrite (U init_region_ok) in Ev. injection Ev as <- <-. apply (same_region _ _ _ _ _ Ev' H G).
    assert (SC : scoped (S (length (lo_starts Li))) (ev_init T RATE cfg (length (lo_starts Li)) cap)).
    { split.
      - intros a b X. now apply (proj1 (U ev_init_other _ _)) in X.
      - intros a v X. apply (U ev_init_const) in X. destruct X as (i & Hi & -> & ->). cbn [ce_region]. lia. }
    specialize (La SC). apply (laid_more Lj L _ _ G) in La.
    pose proof (U init_sound n L adv1 Hfit Hg1 Hc1 _ cap [] La) as X1.
    pose proof (U init_sound n L adv2 Hfit Hg2 Hc2 _ cap [] La) as X2.
    rewrite (U cells_at n L adv1 Hfit Hg1 Hc1) in X1 by apply La. rewrite (U cells_at n L adv2 Hfit Hg2 Hc2) in X2 by apply La.
    rewrite <- X2 in X1. intros c o v X st. fold st in X1. apply (U ev_init_adv) in X.
    destruct X as (i & Hi & -> & -> & _). revert i Hi. apply (lst_ext T HT). exact X1.
  Qed.

  Lemma sponge_same : forall Li Lj st input st' out, grows (layout_empty m) Li -> words_in Li st -> length st = T ->
    (forall md, input = Some md -> mode_in Li md /\ length md = RATE) ->
    circuit_sponge T RATE s cfg st input Li = Ok (Lj, (st', out)) -> grows Lj L ->
    map at1 st = map at2 st -> (forall md w, input = Some md -> In (Some w) md -> pat1 w = pat2 w) -> same Li Lj.
  Proof.
    intros Li Lj st input st' out G0 HW Hl HM H G EQ EI. unfold circuit_sponge in H.
    apply lbind_inv in H. destruct H as (L1 & st1 & H1 & H). apply lbind_inv in H. destruct H as (L2 & st2 & H2 & H).
    injection H as <- <- <-. assert (G2 : grows L1 L2) by (eapply grows_one; exact H2).
    destruct input as [md|].
    - destruct (HM md eq_refl) as [MI ML].
      destruct (W1 add_step Li L1 st md st1 G0 HW Hl MI H1) as (A & C & D & E & K1).
      destruct (W2 add_step Li L1 st md st1 G0 HW Hl MI H1) as (_ & _ & _ & _ & K2).
      apply (same_trans Li L1 L2 A G2).
      + apply (add_same Li L1 st md st1); auto; [eapply grows_app; eassumption|]. intros w. now apply EI.
      + apply (permute_same L1 L2 st1 st2); auto; [eapply grows_app; eassumption|].
        rewrite (K1 (grows_app _ _ _ G2 G)), (K2 (grows_app _ _ _ G2 G)), EQ. f_equal.
        rewrite !map_map. apply map_ext_in. intros i Hi. apply in_seq in Hi. destruct (E i ltac:(lia)) as [w Ew]. rewrite Ew.
        apply (EI md w eq_refl). rewrite <- Ew. apply nth_In. lia.
    - injection H1 as <- <-. apply (permute_same Li L2 st st2); auto.
  Qed.

  Lemma rel_state : forall Li ab sp, ab_rel T RATE L adv1 Li ab sp -> ab_rel T RATE L adv2 Li ab sp ->
    map at1 (ab_state ab) = map at2 (ab_state ab) /\ forall w, In (Some w) (ab_mode ab) -> pat1 w = pat2 w.
  Proof using.
    intros Li ab sp (_ & _ & _ & _ & A5 & A6 & _) (_ & _ & _ & _ & B5 & B6 & _). split; [congruence|].
    rewrite A6 in B6. intros w Hw. clear - B6 Hw. induction (ab_mode ab) as [|y l IH]; [easy|].
    cbn [map] in B6. injection B6 as Q1 Q2. destruct Hw as [->|Hw]; [cbn in Q1; congruence|auto].
  Qed.

  Lemma absorb_same : forall Li Lj ab v ab' sp, grows (layout_empty m) Li ->
    ab_rel T RATE L adv1 Li ab sp -> ab_rel T RATE L adv2 Li ab sp ->
    circuit_absorb T RATE s cfg ab v Li = Ok (Lj, ab') -> grows Lj L -> same Li Lj.
  Proof.
    intros Li Lj ab v ab' sp G0 R1 R2 H G. destruct (rel_state _ _ _ R1 R2) as [E1 E2].
    destruct R1 as (A1 & A2 & A3 & A4 & _). unfold circuit_absorb in H.
    destruct (put_first v (ab_mode ab)) as [md|].
    - injection H as <- <-. apply same_refl.
    - apply lbind_inv in H. destruct H as (L1 & [st out] & H1 & H). apply lbind_inv in H. destruct H as (L2 & md & H2 & H).
      injection H as <- <-. unfold llift in H2. cbv zeta in H2. destruct (_ =? _) in H2; [|discriminate H2].
      cbn [bind] in H2. injection H2 as <- <-.
      apply (sponge_same Li L1 _ (Some (ab_mode ab)) st out G0 A1 A2); [|exact H1|exact G|exact E1|].
      + intros md' X. injection X as <-. auto.
      + intros md' w X. injection X as <-. exact (E2 w).
  Qed.
  Lemma absorbs_same : forall l Li Lj ab ab' sp, grows (layout_empty m) Li ->
    ab_rel T RATE L adv1 Li ab sp -> ab_rel T RATE L adv2 Li ab sp -> mode_in Li (map Some l) ->
    (forall w, In w l -> pat1 w = pat2 w) ->
    lfold (circuit_absorb T RATE s cfg) l ab Li = Ok (Lj, ab') -> grows Lj L -> same Li Lj.
  Proof.
    induction l as [|v l IH]; intros Li Lj ab ab' sp G0 R1 R2 Hv HE H G; cbn [lfold] in H.
    - injection H as <- <-. apply same_refl.
    - apply lbind_inv in H. destruct H as (L1 & ab1 & H1 & H).
      assert (G2 : grows L1 Lj) by (exact (absorbs_grow T RATE s cfg _ _ _ _ _ H)).
      assert (Hv1 : mode_in Li [Some v]) by (intros w [X|[]]; apply Hv; left; exact X).
      destruct (W1 absorb_sound Li L1 ab v ab1 sp G0 R1 Hv1 H1) as [G1 K1].
      destruct (W2 absorb_sound Li L1 ab v ab1 sp G0 R2 Hv1 H1) as [_ K2].
      pose proof (grows_app _ _ _ G2 G) as G3. destruct (K1 G3) as (sp1 & S1 & Q1). destruct (K2 G3) as (sp2 & S2 & Q2).
      rewrite (HE v (or_introl eq_refl)) in S1. rewrite S1 in S2. injection S2 as <-.
      apply (same_trans Li L1 Lj G1 G2).
      + exact (absorb_same Li L1 ab v ab1 sp G0 R1 R2 H1 G3).
      + apply (IH L1 Lj ab1 ab' sp1 (grows_app _ _ _ G0 G1) Q1 Q2); auto.
        * apply (W1 mode_more Li L1 _ G1). intros w X. apply Hv. right. exact X.
        * intros w X. apply HE. now right.
  Qed.
  Lemma finish_same : forall Li Lj ab sq sp, grows (layout_empty m) Li ->
    ab_rel T RATE L adv1 Li ab sp -> ab_rel T RATE L adv2 Li ab sp ->
    circuit_finish T RATE s cfg ab Li = Ok (Lj, sq) -> grows Lj L -> same Li Lj.
  Proof.
    intros Li Lj ab sq sp G0 R1 R2 H G. destruct (rel_state _ _ _ R1 R2) as [E1 E2].
    destruct R1 as (A1 & A2 & A3 & A4 & _). unfold circuit_finish in H.
    apply lbind_inv in H. destruct H as (L1 & [st out] & H1 & H). injection H as <- <-.
    apply (sponge_same Li L1 _ (Some (ab_mode ab)) st out G0 A1 A2); [|exact H1|exact G|exact E1|].
    - intros md' X. injection X as <-. auto.
    - intros md' w X. injection X as <-. exact (E2 w).
  Qed.
  Lemma squeeze_same : forall Li Lj sq x sp, grows (layout_empty m) Li ->
    sq_rel T RATE L adv1 Li sq sp -> sq_rel T RATE L adv2 Li sq sp ->
    circuit_squeeze T RATE s cfg sq Li = Ok (Lj, x) -> grows Lj L -> same Li Lj.
  Proof.
    intros Li Lj sq x sp G0 (A1 & A2 & A3 & A4 & A5 & A6) (_ & _ & _ & _ & B5 & B6) H G. unfold circuit_squeeze in H.
    destruct (pop_first (sq_mode sq)) as [[y md]|].
    - injection H as <- <-. apply same_refl.
    - apply lbind_inv in H. destruct H as (L1 & [st out] & H1 & H). destruct (pop_first out) as [[y md]|]; [|discriminate H].
      injection H as <- <-. apply (sponge_same Li L1 _ None st out G0 A1 A2); [discriminate|exact H1|exact G|congruence|discriminate].
  Qed.
  Lemma squeezes_same : forall k Li Lj sq out sp, grows (layout_empty m) Li ->
    sq_rel T RATE L adv1 Li sq sp -> sq_rel T RATE L adv2 Li sq sp ->
    circuit_squeezes T RATE s cfg k sq Li = Ok (Lj, out) -> grows Lj L -> same Li Lj.
  Proof.
    induction k as [|k IH]; intros Li Lj sq out sp G0 R1 R2 H G; cbn [circuit_squeezes] in H.
    - injection H as <- <-. apply same_refl.
    - apply lbind_inv in H. destruct H as (L1 & [x sq1] & H1 & H). apply lbind_inv in H. destruct H as (L2 & r & H2 & H).
      injection H as <- <-. assert (G2 : grows L1 L2) by exact (squeezes_grow T RATE s cfg _ _ _ _ _ H2).
      pose proof (grows_app _ _ _ G2 G) as G3.
      destruct (W1 squeeze_sound Li L1 sq x sq1 sp G0 R1 H1) as (G1 & _ & K1).
      destruct (W2 squeeze_sound Li L1 sq x sq1 sp G0 R2 H1) as (_ & _ & K2).
      destruct (K1 G3) as (sp1 & S1 & Q1). destruct (K2 G3) as (sp2 & S2 & Q2).
      rewrite S1 in S2. injection S2 as _ <-.
      apply (same_trans Li L1 L2 G1 G2).
      + exact (squeeze_same Li L1 sq (x, sq1) sp G0 R1 R2 H1 G3).
      + exact (IH L1 L2 sq1 r sp1 (grows_app _ _ _ G0 G1) Q1 Q2 H2 G).
  Qed.

  Theorem session_same : forall L0 L1 cap l k out, grows (layout_empty m) L0 -> mode_in L0 (map Some l) ->
    (forall w, In w l -> pat1 w = pat2 w) ->
    circuit_session T RATE s cfg cap l k L0 = Ok (L1, out) -> grows L1 L -> same L0 L1.
  Proof.
    intros L0 L1 cap l k out G0 MI HE H G. unfold circuit_session in H.
    apply lbind_inv in H. destruct H as (La & ab & H1 & H). apply lbind_inv in H. destruct H as (Lb & ab2 & H2 & H).
    apply lbind_inv in H. destruct H as (Lc & sq & H3 & H).
    assert (G3 : grows Lc L1) by exact (squeezes_grow T RATE s cfg _ _ _ _ _ H).
    assert (G2 : grows Lb Lc) by exact (finish_grow T RATE s cfg _ _ _ _ H3).
    assert (G1 : grows La Lb) by exact (absorbs_grow T RATE s cfg _ _ _ _ _ H2).
    destruct (W1 new_sound L0 La cap ab G0 H1) as [Ga Ka]. destruct (W2 new_sound L0 La cap ab G0 H1) as [_ Ka'].
    pose proof (grows_app _ _ _ G3 G) as GcL. pose proof (grows_app _ _ _ G2 GcL) as GbL. pose proof (grows_app _ _ _ G1 GbL) as GaL.
    specialize (Ka GaL). specialize (Ka' GaL).
    pose proof (grows_app _ _ _ G0 Ga) as Ga0. pose proof (grows_app _ _ _ Ga0 G1) as Gb0. pose proof (grows_app _ _ _ Gb0 G2) as Gc0.
    pose proof (W1 mode_more L0 La _ Ga MI) as MIa.
    destruct (W1 absorbs_sound l La Lb ab ab2 _ Ga0 Ka MIa H2) as [_ Kb]. destruct (Kb GbL) as (sp1 & E1 & R1).
    destruct (W2 absorbs_sound l La Lb ab ab2 _ Ga0 Ka' MIa H2) as [_ Kb']. destruct (Kb' GbL) as (sp1' & E1' & R1').
    rewrite (map_ext_in _ pat2) in E1 by exact HE. rewrite E1 in E1'. injection E1' as <-.
    destruct (W1 finish_sound Lb Lc ab2 sq sp1 Gb0 R1 H3) as [_ Kc]. destruct (Kc GcL) as (sp2 & E2 & R2).
    destruct (W2 finish_sound Lb Lc ab2 sq sp1 Gb0 R1' H3) as [_ Kc']. destruct (Kc' GcL) as (sp2' & E2' & R2').
    rewrite E2 in E2'. injection E2' as <-.
    apply (same_trans L0 La L1 Ga (grows_app _ _ _ G1 (grows_app _ _ _ G2 G3))).
    { unfold circuit_new in H1. apply lbind_inv in H1. destruct H1 as (Lx & st & H1 & H1'). injection H1' as <- <-.
      exact (init_same L0 Lx cap st G0 H1 GaL). }
    apply (same_trans La Lb L1 G1 (grows_app _ _ _ G2 G3)).
    { exact (absorbs_same l La Lb ab ab2 _ Ga0 Ka Ka' MIa HE H2 GbL). }
    apply (same_trans Lb Lc L1 G2 G3).
    { exact (finish_same Lb Lc ab2 sq sp1 Gb0 R1 R1' H3 GcL). }
    exact (squeezes_same k Lc L1 sq out sp2 Gc0 R2 R2' H G).
  Qed.

  Theorem hash_same : forall N L0 L1 L2 L3 h msg out, grows (layout_empty m) L0 ->
    circuit_hash_init RATE cfg N L0 = Ok (L1, h) -> grows L1 L2 -> words_in L2 msg -> map at1 msg = map at2 msg ->
    circuit_hash T RATE s cfg N h msg L2 = Ok (L3, out) -> grows L3 L -> same L0 L1 /\ same L2 L3.
  Proof.
    intros N L0 L1 L2 L3 h msg out G0 H0 G1 HW HE H G. unfold circuit_hash in H.
    apply lbind_inv in H. destruct H as (Lx & pad & Hp & H). apply lbind_inv in H. destruct H as (Lb & ab2 & H2 & H).
    apply lbind_inv in H. destruct H as (Lc & sq & H3 & H). apply lbind_inv in H. destruct H as (Ld & [x sq'] & H4 & H).
    injection H as <- <-. unfold llift in Hp.
    destruct (constant_length_padding RATE N N) as [pad'|]; [|discriminate Hp]. cbn [bind] in Hp. injection Hp as <- ->.
    assert (G4 : grows Lc Ld) by exact (squeeze_grow T RATE s cfg _ _ _ _ H4).
    assert (G3 : grows Lb Lc) by exact (finish_grow T RATE s cfg _ _ _ _ H3).
    assert (G2 : grows L2 Lb) by exact (absorbs_grow T RATE s cfg _ _ _ _ _ H2).
    unfold circuit_hash_init in H0.
    destruct (W1 new_sound L0 L1 _ h G0 H0) as [Ga Ka]. destruct (W2 new_sound L0 L1 _ h G0 H0) as [_ Ka'].
    pose proof (grows_app _ _ _ G4 G) as GcL. pose proof (grows_app _ _ _ G3 GcL) as GbL. pose proof (grows_app _ _ _ G2 GbL) as G2L.
    pose proof (grows_app _ _ _ G1 G2L) as G1L. specialize (Ka G1L). specialize (Ka' G1L).
    pose proof (grows_app _ _ _ (grows_app _ _ _ G0 Ga) G1) as G20. pose proof (grows_app _ _ _ G20 G2) as Gb0.
    pose proof (grows_app _ _ _ Gb0 G3) as Gc0.
    pose proof (W1 ab_rel_more L1 L2 _ _ G1 Ka) as K2. pose proof (W2 ab_rel_more L1 L2 _ _ G1 Ka') as K2'.
    set (l := map Message msg ++ map Padding pad) in *.
    assert (MI : mode_in L2 (map Some l)).
    { intros w Hw. apply in_map_iff in Hw. destruct Hw as (y & Ey & Hw). injection Ey as ->. unfold l in Hw.
      apply in_app_iff in Hw. destruct Hw as [Hw|Hw]; apply in_map_iff in Hw; destruct Hw as (z & Ez & Hw); [|discriminate Ez].
      injection Ez as ->. unfold words_in in HW. rewrite Forall_forall in HW. now apply HW. }
    assert (HP : forall w, In w l -> pat1 w = pat2 w).
    { intros w Hw. unfold l in Hw. apply in_app_iff in Hw. destruct Hw as [Hw|Hw]; apply in_map_iff in Hw; destruct Hw as (z & <- & Hw); [|reflexivity].
      cbn [pw_at]. clear - HE Hw. induction msg as [|y r IH]; [easy|]. cbn [map] in HE. injection HE as Q1 Q2.
      destruct Hw as [->|Hw]; auto. }
    destruct (W1 absorbs_sound l L2 Lb h ab2 _ G20 K2 MI H2) as [_ Kb]. destruct (Kb GbL) as (sp1 & E1 & R1).
    destruct (W2 absorbs_sound l L2 Lb h ab2 _ G20 K2' MI H2) as [_ Kb']. destruct (Kb' GbL) as (sp1' & E1' & R1').
    rewrite (map_ext_in _ pat2) in E1 by exact HP. rewrite E1 in E1'. injection E1' as <-.
    destruct (W1 finish_sound Lb Lc ab2 sq sp1 Gb0 R1 H3) as [_ Kc]. destruct (Kc GcL) as (sp2 & E2 & R2).
    destruct (W2 finish_sound Lb Lc ab2 sq sp1 Gb0 R1' H3) as [_ Kc']. destruct (Kc' GcL) as (sp2' & E2' & R2').
    rewrite E2 in E2'. injection E2' as <-. split.
    { unfold circuit_new in H0. apply lbind_inv in H0. destruct H0 as (Ly & st & H1 & H1'). injection H1' as <- <-.
      exact (init_same L0 Ly _ st G0 H1 G1L). }
    apply (same_trans L2 Lb Ld G2 (grows_app _ _ _ G3 G4)).
    { exact (absorbs_same l L2 Lb h ab2 _ G20 K2 K2' MI HP H2 GbL). }
    apply (same_trans Lb Lc Ld G3 G4).
    { exact (finish_same Lb Lc ab2 sq sp1 Gb0 R1 R1' H3 GcL). }
    exact (squeeze_same Lc Ld sq (x, sq') sp2 Gc0 R2 R2' H4 G).
  Qed.
End Unique.

Section Claims.
  Context {F : Type} {FO : FieldOps F} {PF : PrimeField F}.

  (** C49 *)
  Theorem permute_unique_claim : forall T (s : spec F) state sbox rc_a rc_b (cs0 cs1 : cs F) cfg m L0 L1 L ws out n adv1 adv2,
    poseidon_spec T s -> 1 < T -> mat_prod_id T (mds s) (mds_inv s) -> mat_prod_id T (mds_inv s) (mds s) ->
    columns_ok T state sbox rc_a rc_b -> pow5_configure T (T - 1) s state sbox rc_a rc_b cs0 = (cfg, cs1) ->
    grows (layout_empty m) L0 -> words_in L0 ws -> length ws = T -> p5_permute s cfg ws L0 = Ok (L1, out) ->
    grows L1 L -> fits n L ->
    gates_hold n L adv1 (cs_gates cs1) -> copies_hold L adv1 -> gates_hold n L adv2 (cs_gates cs1) -> copies_hold L adv2 ->
    map (word_at L adv1) ws = map (word_at L adv2) ws ->
    forall c r, written L0 L1 c r -> adv1 c r = adv2 c r.
  Proof.
    intros T s state sbox rc_a rc_b cs0 cs1 cfg m L0 L1 L ws out n adv1 adv2 Hs HT I1 I2 Hc Hcfg G0 HW Hl H G Fn HG1 HC1 HG2 HC2 EQ.
    destruct (cfg_cols T s state sbox rc_a rc_b cs0 cs1 cfg Hc Hcfg) as (A & B & C & D & E & K).
    assert (GG : forall adv, gates_hold n L adv (cs_gates cs1) -> gates_hold n L adv (p5_gates T (T - 1) s cfg)).
    { intros adv HG g r Hg. apply HG. rewrite (cfg_gates T s state sbox rc_a rc_b cs0 cs1 cfg Hcfg), in_app_iff. now right. }
    exact (permute_same T (T - 1) s Hs HT eq_refl cfg A B C D E K I1 I2 n L adv1 adv2 m Fn (GG _ HG1) (GG _ HG2) HC1 HC2
             L0 L1 ws out G0 HW Hl H G EQ).
  Qed.

  Theorem session_unique_claim : forall T (s : spec F) state sbox rc_a rc_b (cs0 cs1 : cs F) cfg m L0 L1 L cap input k out n adv1 adv2,
    poseidon_spec T s -> 1 < T -> mat_prod_id T (mds s) (mds_inv s) -> mat_prod_id T (mds_inv s) (mds s) ->
    columns_ok T state sbox rc_a rc_b -> pow5_configure T (T - 1) s state sbox rc_a rc_b cs0 = (cfg, cs1) ->
    grows (layout_empty m) L0 -> padded_in L0 input -> circuit_session T (T - 1) s cfg cap input k L0 = Ok (L1, out) ->
    grows L1 L -> fits n L ->
    gates_hold n L adv1 (cs_gates cs1) -> copies_hold L adv1 -> gates_hold n L adv2 (cs_gates cs1) -> copies_hold L adv2 ->
    map (padded_at L adv1) input = map (padded_at L adv2) input ->
    forall c r, written L0 L1 c r -> adv1 c r = adv2 c r.
  Proof.
    intros T s state sbox rc_a rc_b cs0 cs1 cfg m L0 L1 L cap input k out n adv1 adv2 Hs HT I1 I2 Hc Hcfg G0 HP H G Fn HG1 HC1 HG2 HC2 EQ.
    destruct (cfg_cols T s state sbox rc_a rc_b cs0 cs1 cfg Hc Hcfg) as (A & B & C & D & E & K).
    assert (GG : forall adv, gates_hold n L adv (cs_gates cs1) -> gates_hold n L adv (p5_gates T (T - 1) s cfg)).
    { intros adv HG g r Hg. apply HG. rewrite (cfg_gates T s state sbox rc_a rc_b cs0 cs1 cfg Hcfg), in_app_iff. now right. }
    apply (session_same T (T - 1) s Hs HT eq_refl cfg A B C D E K I1 I2 n L adv1 adv2 m Fn (GG _ HG1) (GG _ HG2) HC1 HC2
             L0 L1 cap input k out G0); [| |exact H|exact G].
    - intros w Hw. apply HP. apply in_map_iff in Hw. destruct Hw as (y & Ey & Hw). injection Ey as ->. exact Hw.
    - intros w Hw. clear - EQ Hw. induction input as [|y r IH]; [easy|]. cbn [map] in EQ. injection EQ as Q1 Q2.
      destruct Hw as [->|Hw]; [exact Q1|auto].
  Qed.

  Theorem hash_unique_claim : forall T (s : spec F) state sbox rc_a rc_b (cs0 cs1 : cs F) cfg m N L0 L1 L2 L3 L h msg out n adv1 adv2,
    poseidon_spec T s -> 1 < T -> mat_prod_id T (mds s) (mds_inv s) -> mat_prod_id T (mds_inv s) (mds s) ->
    columns_ok T state sbox rc_a rc_b -> pow5_configure T (T - 1) s state sbox rc_a rc_b cs0 = (cfg, cs1) ->
    grows (layout_empty m) L0 -> circuit_hash_init (T - 1) cfg N L0 = Ok (L1, h) -> grows L1 L2 ->
    words_in L2 msg -> circuit_hash T (T - 1) s cfg N h msg L2 = Ok (L3, out) -> grows L3 L -> fits n L ->
    gates_hold n L adv1 (cs_gates cs1) -> copies_hold L adv1 -> gates_hold n L adv2 (cs_gates cs1) -> copies_hold L adv2 ->
    map (word_at L adv1) msg = map (word_at L adv2) msg ->
    forall c r, written L0 L1 c r \/ written L2 L3 c r -> adv1 c r = adv2 c r.
  Proof.
    intros T s state sbox rc_a rc_b cs0 cs1 cfg m N L0 L1 L2 L3 L h msg out n adv1 adv2 Hs HT I1 I2 Hc Hcfg G0 H0 G1 HW H G Fn HG1 HC1 HG2 HC2 EQ.
    destruct (cfg_cols T s state sbox rc_a rc_b cs0 cs1 cfg Hc Hcfg) as (A & B & C & D & E & K).
    assert (GG : forall adv, gates_hold n L adv (cs_gates cs1) -> gates_hold n L adv (p5_gates T (T - 1) s cfg)).
    { intros adv HG g r Hg. apply HG. rewrite (cfg_gates T s state sbox rc_a rc_b cs0 cs1 cfg Hcfg), in_app_iff. now right. }
    destruct (hash_same T (T - 1) s Hs HT eq_refl cfg A B C D E K I1 I2 n L adv1 adv2 m Fn (GG _ HG1) (GG _ HG2) HC1 HC2
             N L0 L1 L2 L3 h msg out G0 H0 G1 HW EQ H G) as [X Y].
    intros c r [Hw|Hw]; auto.
  Qed.
End Claims.
