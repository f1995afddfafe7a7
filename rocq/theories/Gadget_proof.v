(** The in-circuit sponge follows the primitive sponge. *)
From Coq Require Import ZArith List Arith Lia Bool.
From Verif Require Import Field Rust ListAux Primitives Specs SpecHash Perm_proof Sponge_proof BigSum Link Base_claims Halo2 Pow5 ChipUse Built
  Pow5Use Gadget Layout_proof SeptVal_proof SeptGate_proof Contract Sept_claims Pow5Gate_proof Pow5Rows_proof Pow5Block_proof Trace_proof
  Pow5Use_proof Pow5Honest_proof Pow5_claims.
Import ListNotations.
Local Open Scope nat_scope.

Section Lists.
  Context {F : Type} {FO : FieldOps F} {PF : PrimeField F}.
  Lemma put_fill : forall (f : padded_word F -> F) v l,
    fill_first (f v) (map (option_map f) l) = option_map (map (option_map f)) (put_first v l).
  Proof.
    intros f v. induction l as [|[x|] l IH]; cbn [map option_map fill_first put_first]; [reflexivity| |reflexivity].
    rewrite IH. destruct (put_first v l); reflexivity.
  Qed.
  Lemma pop_take : forall (f : acell F -> F) l,
    take_first (map (option_map f) l) = option_map (fun '(x, r) => (f x, map (option_map f) r)) (pop_first l).
  Proof.
    intros f. induction l as [|[x|] l IH]; cbn [map option_map take_first pop_first]; [reflexivity|reflexivity|].
    rewrite IH. destruct (pop_first l) as [[x r]|]; reflexivity.
  Qed.
  Lemma put_first_in : forall v (l m : list (option (padded_word F))), put_first v l = Some m ->
    length m = length l /\ forall w, In (Some w) m -> w = v \/ In (Some w) l.
  Proof.
    intros v. induction l as [|[x|] l IH]; intros m H; cbn [put_first] in H; [discriminate H| |].
    - destruct (put_first v l) as [m'|] eqn:E; [|discriminate H]. cbn in H. injection H as <-.
      destruct (IH m' eq_refl) as [A B]. split; [cbn; congruence|]. intros w [X|X]; [right; now left|].
      destruct (B w X); [now left|right; now right].
    - injection H as <-. split; [reflexivity|]. intros w [X|X]; [left; congruence|right; now right].
  Qed.
  Lemma pop_first_in : forall (l m : list (option (acell F))) x, pop_first l = Some (x, m) ->
    length m = length l /\ In (Some x) l /\ forall w, In (Some w) m -> In (Some w) l.
  Proof.
    induction l as [|[y|] l IH]; intros m x H; cbn [pop_first] in H; [discriminate H| |].
    - injection H as <- <-. split; [reflexivity|]. split; [now left|]. intros w [X|X]; [discriminate X|now right].
    - destruct (pop_first l) as [[y m']|] eqn:E; [|discriminate H]. cbn in H. injection H as <- <-.
      destruct (IH m' y eq_refl) as (A & B & C). split; [cbn; congruence|]. split; [now right|].
      intros w [X|X]; [discriminate X|right; now apply C].
  Qed.
  (** every entry of a full buffer *)
  Lemma all_some : forall {A} (l : list (option A)) (d : A), (forall i, i < length l -> exists w, nth i l None = Some w) ->
    l = map Some (map (fun i => match nth i l None with Some w => w | None => d end) (seq 0 (length l))).
  Proof.
    intros A l d H. rewrite map_map. apply nth_ext_len with (d := None); [now rewrite map_length, seq_length|].
    intros i Hi. rewrite nth_map_seq by assumption. destruct (H i Hi) as [w E]. rewrite E. reflexivity.
  Qed.
End Lists.

Section Use.
  Context {F : Type} {FO : FieldOps F} {PF : PrimeField F}.
  Add Field Ffield : f_field.
  Variable T RATE : nat.
  Variable s : spec F.
  Hypothesis Hspec : poseidon_spec T s.
  Hypothesis HT : 1 < T.
  Hypothesis HR : RATE = T - 1.
  Variable cfg : pow5.
  Hypothesis Hstate : length (p5_state cfg) = T.
  Hypothesis Ha : length (p5_rc_a cfg) = T.
  Hypothesis Hb : length (p5_rc_b cfg) = T.
  Hypothesis NDadv : NoDup (p5_sbox cfg :: p5_state cfg).
  Hypothesis NDfix : NoDup (p5_rc_a cfg ++ p5_rc_b cfg).
  Hypothesis NDsel : NoDup [p5_full cfg; p5_partial cfg; p5_single cfg; p5_pad cfg].
  Hypothesis Inv1 : mat_prod_id T (mds s) (mds_inv s).
  Hypothesis Inv2 : mat_prod_id T (mds_inv s) (mds s).

  Set Default Proof Using "All".
  Notation B L := (L T RATE s Hspec HT HR cfg Hstate Ha Hb NDadv NDfix NDsel).
  Notation U L := (L T RATE s Hspec HT HR cfg Hstate Ha Hb NDadv NDfix NDsel Inv1 Inv2).
  Notation R := (p5_R s).
  Notation cells := (row_cells T cfg).
  Notation sels := (p5_selectors cfg).
  Notation perm := (hash_permute T s).

  Lemma cells_length : forall ri o (v : list (option F)), length (cells ri o v) = T.
  Proof. intros. unfold row_cells. now rewrite map_length, seq_length. Qed.
  Lemma cells_in : forall ri o (v : list (option F)) w, In w (cells ri o v) -> ce_region (ac_cell w) = ri.
  Proof. intros ri o v w H. unfold row_cells in H. apply in_map_iff in H. destruct H as (i & <- & _). reflexivity. Qed.
  Lemma textbook_perm : forall x, length x = T -> textbook s x = perm x.
  Proof. intros x Hx. symmetry. now apply hash_permute_textbook. Qed.

  (** ** Every step only adds regions *)
  Lemma sponge_grow : forall st input Li Lj x, circuit_sponge T RATE s cfg st input Li = Ok (Lj, x) -> grows Li Lj.
  Proof using.
    intros st input Li Lj x H. unfold circuit_sponge in H. apply lbind_inv in H. destruct H as (N1 & st1 & H1 & H).
    apply lbind_inv in H. destruct H as (N2 & st2 & H2 & H). injection H as <- <-.
    eapply grows_app; [|eapply grows_one; exact H2].
    destruct input as [md|]; [eapply grows_one; exact H1|injection H1 as <- <-; apply grows_refl].
  Qed.
  Lemma absorbs_grow : forall l Li Lj ab ab', lfold (circuit_absorb T RATE s cfg) l ab Li = Ok (Lj, ab') -> grows Li Lj.
  Proof using.
    induction l as [|u l IH]; intros L1 Lj ab1 ab' H; cbn [lfold] in H.
    - injection H as <- <-. apply grows_refl.
    - apply lbind_inv in H. destruct H as (L2 & ab2 & H1 & H). eapply grows_app; [|eapply IH; exact H].
      unfold circuit_absorb in H1. destruct (put_first u (ab_mode ab1)) as [md|].
      + injection H1 as <- <-. apply grows_refl.
      + apply lbind_inv in H1. destruct H1 as (M1 & [st out] & H1 & H2). apply lbind_inv in H2. destruct H2 as (M2 & md & H2 & H3).
        injection H3 as <- <-. unfold llift in H2. cbv zeta in H2. destruct (_ =? _) in H2; [|discriminate H2]. cbn [bind] in H2. injection H2 as <- <-.
        eapply sponge_grow. exact H1.
  Qed.
  Lemma finish_grow : forall ab Li Lj sq, circuit_finish T RATE s cfg ab Li = Ok (Lj, sq) -> grows Li Lj.
  Proof using.
    intros ab Li Lj sq H. unfold circuit_finish in H. apply lbind_inv in H. destruct H as (M1 & [st out] & H1 & H).
    injection H as <- <-. eapply sponge_grow. exact H1.
  Qed.
  Lemma squeeze_grow : forall sq Li Lj x, circuit_squeeze T RATE s cfg sq Li = Ok (Lj, x) -> grows Li Lj.
  Proof using.
    intros sq Li Lj x H1. unfold circuit_squeeze in H1. destruct (pop_first (sq_mode sq)) as [[y md]|].
    + injection H1 as <- <-. apply grows_refl.
    + apply lbind_inv in H1. destruct H1 as (N1 & [st out] & H1 & H3). destruct (pop_first out) as [[y md]|]; [|discriminate H3].
      injection H3 as <- <-. eapply sponge_grow. exact H1.
  Qed.
  Lemma squeezes_grow : forall k sq Li Lj r, circuit_squeezes T RATE s cfg k sq Li = Ok (Lj, r) -> grows Li Lj.
  Proof using.
    induction k as [|k IH]; intros sq L1 L2 r H; cbn [circuit_squeezes] in H.
    - injection H as <- <-. apply grows_refl.
    - apply lbind_inv in H. destruct H as (M1 & [x sq2] & H1 & H). apply lbind_inv in H. destruct H as (M2 & r2 & H2 & H).
      injection H as <- <-. eapply grows_app; [eapply squeeze_grow; exact H1|eapply IH; exact H2].
  Qed.

  (** ** Soundness *)
  Section Sound.
    Variables (n : nat) (L : layout F) (adv : nat -> nat -> F) (m : cs F).
    Hypothesis Hfit : fits n L.
    Hypothesis Hgates : gates_hold n L adv (p5_gates T RATE s cfg).
    Hypothesis Hcopies : copies_hold L adv.
    Notation at_ := (word_at L adv).
    Notation pat := (pw_at L adv).

    Definition mode_in (Li : layout F) (md : list (option (padded_word F))) : Prop :=
      forall w, In (Some (Message w)) md -> ce_region (ac_cell w) < length (lo_starts Li).

    Lemma permute_step : forall Li Lj ws out, grows (layout_empty m) Li -> words_in Li ws -> length ws = T ->
      p5_permute s cfg ws Li = Ok (Lj, out) ->
      grows Li Lj /\ words_in Lj out /\ length out = T
      /\ (grows Lj L -> map at_ out = perm (map at_ ws)).
    Proof.
      intros Li Lj ws out G0 HW Hl H. destruct (built_trace m Li G0) as [rs TR].
      assert (G1 : grows Li Lj) by (eapply grows_one; exact H).
      destruct (laid_region _ Li Lj out rs TR H) as (evs & Ev & La).
      rewrite (B permute_region_ok) in Ev by assumption. injection Ev as <- <-.
      assert (SC : scoped (S (length (lo_starts Li))) (ev_permute T s cfg (length (lo_starts Li)) ws)).
      { split.
        - intros a b X. apply (U ev_permute_copies) in X; [|assumption].
          destruct X as (i & Hi & -> & ->). cbn [ce_region]. split; [lia|].
          unfold words_in in HW. rewrite Forall_forall in HW.
          assert (X : In (nth i ws zero_cell) ws) by (apply nth_In; lia). specialize (HW _ X). cbn in HW. lia.
        - intros a v X. now apply (U ev_permute_const) in X. }
      specialize (La SC). split; [exact G1|]. split; [|split; [apply cells_length|]].
      - apply Forall_forall. intros w Hw. apply cells_in in Hw. rewrite Hw. apply La.
      - intros G2. rewrite <- textbook_perm by now rewrite map_length.
        apply (U permute_sound n L adv Hfit Hgates Hcopies); [assumption|].
        exact (laid_more Lj L _ _ G2 La).
    Qed.

    Lemma add_step : forall Li Lj ws input out, grows (layout_empty m) Li -> words_in Li ws -> length ws = T ->
      mode_in Li input -> p5_add_input T RATE cfg ws input Li = Ok (Lj, out) ->
      let pws := map (fun i => match nth i input None with Some w => w | None => Padding fzero end) (seq 0 RATE) in
      grows Li Lj /\ words_in Lj out /\ length out = T
      /\ (forall i, i < RATE -> exists w, nth i input None = Some w)
      /\ (grows Lj L -> map at_ out = add_block 0 (map at_ ws) (map pat pws)).
    Proof.
      intros Li Lj ws input out G0 HW Hl MI H pws. destruct (built_trace m Li G0) as [rs TR].
      assert (G1 : grows Li Lj) by (eapply grows_one; exact H).
      destruct (laid_region _ Li Lj out rs TR H) as (evs & Ev & La).
      change (add_region T RATE cfg ws input (length (lo_starts Li)) = Ok (evs, out)) in Ev.
      set (pw := fun i => match nth i input None with Some w => w | None => Padding fzero end) in *.
      assert (P : forall i, i < RATE -> nth i input None = Some (pw i)) by exact (U add_region_inv _ _ _ _ Hl Ev).
      rewrite (U add_region_ok _ ws input pw Hl P) in Ev. injection Ev as <- <-.
      assert (SC : scoped (S (length (lo_starts Li))) (ev_add T RATE cfg (length (lo_starts Li)) ws pw)).
      { split.
        - intros a b X. apply (U ev_add_copies) in X. destruct X as [(i & Hi & -> & ->)|(i & Hi & -> & ->)].
          + cbn [ce_region]. split; [lia|]. unfold words_in in HW. rewrite Forall_forall in HW.
            assert (X : In (nth i ws zero_cell) ws) by (apply nth_In; lia). specialize (HW _ X). cbn in HW. lia.
          + cbn [ce_region]. split; [lia|]. pose proof (P i Hi) as E. destruct (pw i) as [w|v]; [|cbn; lia].
            assert (X : In (Some (Message w)) input).
            { rewrite <- E. apply nth_In. destruct (Nat.lt_ge_cases i (length input)); [assumption|].
              rewrite nth_overflow in E by assumption. discriminate E. }
            apply MI in X. lia.
        - intros a v X. now apply (U ev_add_const) in X. }
      specialize (La SC). split; [exact G1|]. split; [|split; [apply cells_length|split]].
      - apply Forall_forall. intros w Hw. apply cells_in in Hw. rewrite Hw. apply La.
      - intros i Hi. eauto.
      - intros G2. rewrite (U add_sound n L adv Hfit Hgates Hcopies _ ws pw _ Hl (laid_more Lj L _ _ G2 La)).
        unfold add_block, lst. rewrite map_length, Hl. apply map_ext_in. intros i Hi. apply in_seq in Hi.
        assert (E : nth i (map at_ ws) fzero = at_ (nth i ws zero_cell)).
        { rewrite (nth_indep _ _ (at_ zero_cell)) by (rewrite map_length; lia). apply map_nth. }
        cbn [Nat.leb]. rewrite E, Nat.sub_0_r. destruct (Nat.ltb_spec i RATE) as [H1|H1].
        + f_equal. unfold pws. rewrite map_map, nth_map_seq by assumption. reflexivity.
        + rewrite (nth_overflow (map pat pws)); [ring|]. unfold pws. rewrite !map_length, seq_length. lia.
    Qed.

    (** the step common to [absorb], [finish_absorbing] and [squeeze] *)
    Lemma sponge_step : forall Li Lj st input st' out, grows (layout_empty m) Li -> words_in Li st -> length st = T ->
      (forall md, input = Some md -> mode_in Li md /\ length md = RATE) ->
      circuit_sponge T RATE s cfg st input Li = Ok (Lj, (st', out)) ->
      grows Li Lj /\ words_in Lj st' /\ length st' = T /\ out = map Some (firstn RATE st')
      /\ (grows Lj L -> poseidon_sponge T RATE s (map at_ st) (option_map (fun md => (map (option_map pat) md, 0)) input)
           = Ok (map at_ st', map (option_map at_) out)).
    Proof.
      intros Li Lj st input st' out G0 HW Hl HM H. unfold circuit_sponge in H.
      apply lbind_inv in H. destruct H as (L1 & st1 & H1 & H). apply lbind_inv in H. destruct H as (L2 & st2 & H2 & H).
      injection H as <- <- <-. unfold p5_get_output.
      assert (S1 : grows Li L1 /\ words_in L1 st1 /\ length st1 = T
        /\ (grows L1 L -> poseidon_sponge T RATE s (map at_ st) (option_map (fun md => (map (option_map pat) md, 0)) input)
           = Ok (perm (map at_ st1), map Some (firstn RATE (perm (map at_ st1)))))).
      { destruct input as [md|].
        - destruct (HM md eq_refl) as [MI ML].
          destruct (add_step Li L1 st md st1 G0 HW Hl MI H1) as (A & C & D & E & K).
          split; [exact A|]. split; [exact C|]. split; [exact D|]. intros G. cbn [option_map].
          set (pws := map (fun i => match nth i md None with Some w => w | None => Padding fzero end) (seq 0 RATE)) in *.
          assert (X : md = map Some pws).
          { unfold pws. rewrite <- ML. apply all_some. rewrite ML. exact E. }
          rewrite X, map_map. cbn [option_map]. rewrite <- (map_map pat Some).
          rewrite (sponge_flush T RATE 0 s) by (rewrite ?map_length; unfold pws; rewrite ?map_length, ?seq_length; lia).
          rewrite (K G). reflexivity.
        - injection H1 as <- <-. split; [apply grows_refl|]. split; [exact HW|]. split; [exact Hl|].
          intros G. cbn [option_map]. apply (sponge_squeeze T RATE 0 s); [lia|lia|now rewrite map_length]. }
      destruct S1 as (A1 & A2 & A3 & A4).
      destruct (permute_step L1 L2 st1 st2 (grows_app _ _ _ G0 A1) A2 A3 H2) as (B1 & B2 & B3 & B4).
      split; [eapply grows_app; eassumption|]. split; [exact B2|]. split; [exact B3|]. split; [reflexivity|].
      intros G. rewrite (A4 (grows_app _ _ _ B1 G)), <- (B4 G), map_map, firstn_map, map_map. reflexivity.
    Qed.

    Definition ab_rel (Li : layout F) (ab : c_absorbing) (sp : sponge F) : Prop :=
      words_in Li (ab_state ab) /\ length (ab_state ab) = T /\ length (ab_mode ab) = RATE /\ mode_in Li (ab_mode ab)
      /\ sp_state sp = map at_ (ab_state ab) /\ sp_mode sp = map (option_map pat) (ab_mode ab) /\ sp_layout sp = 0.
    Definition sq_rel (Li : layout F) (sq : c_squeezing) (sp : sponge F) : Prop :=
      words_in Li (sq_state sq) /\ length (sq_state sq) = T /\ length (sq_mode sq) = RATE
      /\ (forall w, In (Some w) (sq_mode sq) -> ce_region (ac_cell w) < length (lo_starts Li))
      /\ sp_state sp = map at_ (sq_state sq) /\ sp_mode sp = map (option_map at_) (sq_mode sq).

    Lemma mode_more : forall Li Lj md, grows Li Lj -> mode_in Li md -> mode_in Lj md.
    Proof.
      intros Li Lj md G H w Hw. destruct (grows_starts Li Lj G) as [new E]. rewrite E, app_length. specialize (H w Hw). lia.
    Qed.

    Lemma new_sound : forall Li Lj cap ab, grows (layout_empty m) Li -> circuit_new RATE cfg cap Li = Ok (Lj, ab) ->
      grows Li Lj /\ (grows Lj L -> ab_rel Lj ab (sponge_new T RATE cap 0)).
    Proof.
      intros Li Lj cap ab G0 H. unfold circuit_new in H. apply lbind_inv in H. destruct H as (L1 & st & H1 & H).
      injection H as <- <-. destruct (built_trace m Li G0) as [rs TR].
      assert (G1 : grows Li L1) by (eapply grows_one; exact H1). split; [exact G1|]. intros G2.
      destruct (laid_region _ Li L1 st rs TR H1) as (evs & Ev & La).
      rewrite (U init_region_ok) in Ev. injection Ev as <- <-.
      assert (SC : scoped (S (length (lo_starts Li))) (ev_init T RATE cfg (length (lo_starts Li)) cap)).
      { split.
        - intros a b X. now apply (proj1 (U ev_init_other _ _)) in X.
        - intros a v X. apply (U ev_init_const) in X. destruct X as (i & Hi & -> & ->). cbn [ce_region]. lia. }
      specialize (La SC). split; [|split; [apply cells_length|split; [apply repeat_length|split; [|split; [|split]]]]].
      - apply Forall_forall. intros w Hw. cbn [ab_state] in Hw. apply cells_in in Hw. rewrite Hw. apply La.
      - intros w Hw. cbn [ab_mode] in Hw. apply repeat_spec in Hw. discriminate Hw.
      - cbn [ab_state sponge_new sp_state].
        rewrite (U init_sound n L adv Hfit Hgates Hcopies _ cap _ (laid_more L1 L _ _ G2 La)).
        rewrite Nat.add_0_r, Nat.mod_small by lia. unfold init_vals.
        replace (repeat fzero T) with (repeat (@fzero F FO) RATE ++ [fzero]).
        + clear. induction RATE as [|k IH]; cbn; [reflexivity|]. now rewrite IH.
        + rewrite repeat_snoc. f_equal. lia.
      - cbn [ab_mode sponge_new sp_mode]. clear. induction RATE as [|k IH]; cbn; [reflexivity|]. now rewrite IH.
      - reflexivity.
    Qed.

    Lemma absorb_sound : forall Li Lj ab v ab' sp, grows (layout_empty m) Li -> ab_rel Li ab sp -> mode_in Li [Some v] ->
      circuit_absorb T RATE s cfg ab v Li = Ok (Lj, ab') ->
      grows Li Lj /\ (grows Lj L -> exists sp', absorb T RATE s sp (pat v) = Ok sp' /\ ab_rel Lj ab' sp').
    Proof.
      intros Li Lj ab v ab' sp G0 (A1 & A2 & A3 & A4 & A5 & A6 & A7) Hv H. unfold circuit_absorb in H.
      unfold absorb. rewrite A6, put_fill. destruct (put_first v (ab_mode ab)) as [md|] eqn:E; cbn [option_map].
      - injection H as <- <-. split; [apply grows_refl|]. intros _. eexists. split; [reflexivity|].
        destruct (put_first_in v _ _ E) as [E1 E2]. split; [exact A1|]. split; [exact A2|]. split; [cbn; congruence|].
        split; [|auto]. intros w Hw. cbn [ab_mode] in Hw. destruct (E2 _ Hw) as [X|X]; [|now apply A4].
        apply Hv. left. now rewrite X.
      - apply lbind_inv in H. destruct H as (L1 & [st out] & H1 & H). apply lbind_inv in H. destruct H as (L2 & md & H2 & H).
        injection H as <- <-. unfold llift in H2. cbv zeta in H2. cbn [length] in H2. rewrite repeat_length in H2.
        replace (Datatypes.S (RATE - 1) =? RATE) with true in H2 by (symmetry; apply Nat.eqb_eq; lia).
        cbn [bind] in H2. injection H2 as <- <-.
        destruct (sponge_step Li L1 _ (Some (ab_mode ab)) st out G0 A1 A2 ltac:(intros md' X; injection X as <-; auto) H1) as (C1 & C2 & C3 & _ & C5).
        split; [exact C1|]. intros G. rewrite A5, A7. cbn [option_map] in C5. rewrite (C5 G). cbn [bind].
        unfold init_with. cbn [length]. rewrite repeat_length.
        replace (Datatypes.S (RATE - 1) =? RATE) with true by (symmetry; apply Nat.eqb_eq; lia). cbn [bind].
        eexists. split; [reflexivity|]. split; [exact C2|]. split; [exact C3|].
        split. { cbn [ab_mode length]. rewrite repeat_length. lia. }
        split. { intros w [X|X]; [|apply repeat_spec in X; discriminate X].
          apply (mode_more Li L1 [Some v] C1 Hv). left. congruence. }
        split; [reflexivity|]. split; [|reflexivity]. cbn [sp_mode ab_mode map option_map]. f_equal.
        clear. induction (RATE - 1) as [|k IH]; cbn; [reflexivity|]. now rewrite IH.
    Qed.

    Lemma absorbs_sound : forall l Li Lj ab ab' sp, grows (layout_empty m) Li -> ab_rel Li ab sp -> mode_in Li (map Some l) ->
      lfold (circuit_absorb T RATE s cfg) l ab Li = Ok (Lj, ab') ->
      grows Li Lj /\ (grows Lj L -> exists sp', absorb_all T RATE s (map pat l) sp = Ok sp' /\ ab_rel Lj ab' sp').
    Proof.
      induction l as [|v l IH]; intros Li Lj ab ab' sp G0 Rl Hv H; cbn [lfold] in H.
      - injection H as <- <-. split; [apply grows_refl|]. intros _. exists sp. auto.
      - apply lbind_inv in H. destruct H as (L1 & ab1 & H1 & H).
        assert (Hv1 : mode_in Li [Some v]) by (intros w [X|[]]; apply Hv; left; exact X).
        destruct (absorb_sound Li L1 ab v ab1 sp G0 Rl Hv1 H1) as [G1 K1].
        assert (Hv2 : mode_in L1 (map Some l)) by (apply (mode_more Li L1 _ G1); intros w X; apply Hv; right; exact X).
        assert (Gs : forall sp1, ab_rel L1 ab1 sp1 -> grows L1 Lj /\ (grows Lj L ->
          exists sp', absorb_all T RATE s (map pat l) sp1 = Ok sp' /\ ab_rel Lj ab' sp'))
          by (intros sp1 Rl1; exact (IH L1 Lj ab1 ab' sp1 (grows_app _ _ _ G0 G1) Rl1 Hv2 H)).
        assert (G2 : grows L1 Lj) by (eapply absorbs_grow; exact H).
        split; [eapply grows_app; eassumption|]. intros G. destruct (K1 (grows_app _ _ _ G2 G)) as (sp1 & E1 & Rl1).
        destruct (Gs sp1 Rl1) as [_ K2]. destruct (K2 G) as (sp2 & E2 & Rl2). exists sp2. split; [|exact Rl2].
        unfold absorb_all in *. cbn [map fold_r]. rewrite E1. exact E2.
    Qed.

    Lemma finish_sound : forall Li Lj ab sq sp, grows (layout_empty m) Li -> ab_rel Li ab sp ->
      circuit_finish T RATE s cfg ab Li = Ok (Lj, sq) ->
      grows Li Lj /\ (grows Lj L -> exists sp', finish_absorbing T RATE s sp = Ok sp' /\ sq_rel Lj sq sp').
    Proof.
      intros Li Lj ab sq sp G0 (A1 & A2 & A3 & A4 & A5 & A6 & A7) H. unfold circuit_finish in H.
      apply lbind_inv in H. destruct H as (L1 & [st out] & H1 & H). injection H as <- <-.
      destruct (sponge_step Li L1 _ (Some (ab_mode ab)) st out G0 A1 A2 ltac:(intros md' X; injection X as <-; auto) H1) as (C1 & C2 & C3 & C4 & C5).
      split; [exact C1|]. intros G. unfold finish_absorbing. rewrite A5, A6, A7. cbn [option_map] in C5. rewrite (C5 G). cbn [bind].
      eexists. split; [reflexivity|]. split; [exact C2|]. split; [exact C3|]. cbn [sq_mode sq_state sp_state sp_mode].
      split. { rewrite C4, map_length, firstn_length. lia. }
      split; [|auto]. intros w Hw. rewrite C4 in Hw. apply in_map_iff in Hw. destruct Hw as (w' & X & Hw). injection X as ->.
      unfold words_in in C2. rewrite Forall_forall in C2. apply C2.
      rewrite <- (firstn_skipn RATE st). apply in_app_iff. now left.
    Qed.

    Lemma squeeze_sound : forall Li Lj sq x sq' sp, grows (layout_empty m) Li -> sq_rel Li sq sp ->
      circuit_squeeze T RATE s cfg sq Li = Ok (Lj, (x, sq')) ->
      grows Li Lj /\ ce_region (ac_cell x) < length (lo_starts Lj)
      /\ (grows Lj L -> exists sp', squeeze T RATE s sp = Ok (at_ x, sp') /\ sq_rel Lj sq' sp').
    Proof.
      intros Li Lj sq x sq' sp G0 (A1 & A2 & A3 & A4 & A5 & A6) H. unfold circuit_squeeze in H.
      unfold squeeze. rewrite A6, pop_take. destruct (pop_first (sq_mode sq)) as [[y md]|] eqn:E; cbn [option_map].
      - injection H as <- <- <-. destruct (pop_first_in _ _ _ E) as (E1 & E2 & E3).
        split; [apply grows_refl|]. split; [now apply A4|]. intros _. eexists. split; [reflexivity|].
        split; [exact A1|]. split; [exact A2|]. cbn [sq_mode]. split; [congruence|]. split; [|auto]. intros w X. apply A4. now apply E3.
      - apply lbind_inv in H. destruct H as (L1 & [st out] & H1 & H).
        destruct (sponge_step Li L1 _ None st out G0 A1 A2 ltac:(intros md' X; discriminate X) H1) as (C1 & C2 & C3 & C4 & C5).
        destruct (pop_first out) as [[y md]|] eqn:E'; [|discriminate H]. injection H as <- <- <-.
        destruct (pop_first_in _ _ _ E') as (E1 & E2 & E3).
        assert (W : forall w, In (Some w) out -> ce_region (ac_cell w) < length (lo_starts L1)).
        { intros w Hw. rewrite C4 in Hw. apply in_map_iff in Hw. destruct Hw as (w' & X & Hw). injection X as ->.
          unfold words_in in C2. rewrite Forall_forall in C2. apply C2.
          rewrite <- (firstn_skipn RATE st). apply in_app_iff. now left. }
        split; [exact C1|]. split; [now apply W|]. intros G. rewrite A5. cbn [option_map] in C5. rewrite (C5 G). cbn [bind].
        rewrite pop_take, E'. cbn [option_map]. eexists. split; [reflexivity|].
        split; [exact C2|]. split; [exact C3|]. cbn [sq_mode sq_state sp_state sp_mode].
        split. { rewrite E1, C4, map_length, firstn_length. lia. } split; [|auto]. intros w X. apply W. now apply E3.
    Qed.

    Lemma squeezes_sound : forall k Li Lj sq out sp, grows (layout_empty m) Li -> sq_rel Li sq sp ->
      circuit_squeezes T RATE s cfg k sq Li = Ok (Lj, out) -> grows Lj L ->
      squeezes T RATE s k sp = Ok (map at_ out).
    Proof.
      induction k as [|k IH]; intros Li Lj sq out sp G0 Rl H G; cbn [circuit_squeezes] in H.
      - injection H as <- <-. reflexivity.
      - apply lbind_inv in H. destruct H as (L1 & [x sq1] & H1 & H). apply lbind_inv in H. destruct H as (L2 & r & H2 & H).
        injection H as <- <-. destruct (squeeze_sound Li L1 sq x sq1 sp G0 Rl H1) as (G1 & _ & K).
        assert (G2 : grows L1 L2) by (eapply squeezes_grow; exact H2).
        destruct (K (grows_app _ _ _ G2 G)) as (sp1 & E1 & Rl1). cbn [squeezes]. rewrite E1. cbn [bind].
        rewrite (IH L1 L2 sq1 r sp1 (grows_app _ _ _ G0 G1) Rl1 H2 G). reflexivity.
    Qed.

    Theorem session_sound : forall L0 L1 cap l k out, grows (layout_empty m) L0 -> mode_in L0 (map Some l) ->
      circuit_session T RATE s cfg cap l k L0 = Ok (L1, out) -> grows L1 L ->
      session T RATE s cap 0 (map pat l) k = Ok (map at_ out).
    Proof.
      intros L0 L1 cap l k out G0 MI H G. unfold circuit_session in H.
      apply lbind_inv in H. destruct H as (La & ab & H1 & H). apply lbind_inv in H. destruct H as (Lb & ab2 & H2 & H).
      apply lbind_inv in H. destruct H as (Lc & sq & H3 & H).
      assert (G3 : grows Lc L1) by (eapply squeezes_grow; exact H).
      assert (G2 : grows Lb Lc) by (eapply finish_grow; exact H3).
      assert (G1 : grows La Lb) by (eapply absorbs_grow; exact H2).
      destruct (new_sound L0 La cap ab G0 H1) as [Ga Ka].
      pose proof (grows_app _ _ _ (grows_app _ _ _ (grows_app _ _ _ G1 G2) G3) G) as GaL. specialize (Ka GaL).
      pose proof (grows_app _ _ _ G0 Ga) as Ga0.
      destruct (absorbs_sound l La Lb ab ab2 _ Ga0 Ka (mode_more L0 La _ Ga MI) H2) as [_ Kb].
      destruct (Kb (grows_app _ _ _ (grows_app _ _ _ G2 G3) G)) as (sp1 & E1 & R1).
      pose proof (grows_app _ _ _ Ga0 G1) as Gb0.
      destruct (finish_sound Lb Lc ab2 sq sp1 Gb0 R1 H3) as [_ Kc]. destruct (Kc (grows_app _ _ _ G3 G)) as (sp2 & E2 & R2).
      unfold session. rewrite E1. cbn [bind]. rewrite E2. cbn [bind].
      exact (squeezes_sound k Lc L1 sq out sp2 (grows_app _ _ _ Gb0 G2) R2 H G).
    Qed.

    Lemma ab_rel_more : forall Li Lj ab sp, grows Li Lj -> ab_rel Li ab sp -> ab_rel Lj ab sp.
    Proof.
      intros Li Lj ab sp G (A1 & A2 & A3 & A4 & A5). destruct (grows_starts Li Lj G) as [new E].
      split. { unfold words_in in *. rewrite Forall_forall in *. intros w Hw. specialize (A1 w Hw). rewrite E, app_length. lia. }
      split; [exact A2|]. split; [exact A3|]. split; [exact (mode_more Li Lj _ G A4)|exact A5].
    Qed.

    (** [L0] -init-> [L1], the caller goes on to [L2], [L2] -hash-> [L3], the caller goes on to [L] *)
    Theorem hash_step : forall N L0 L1 L2 L3 h msg out, grows (layout_empty m) L0 ->
      circuit_hash_init RATE cfg N L0 = Ok (L1, h) -> grows L1 L2 -> words_in L2 msg ->
      circuit_hash T RATE s cfg N h msg L2 = Ok (L3, out) -> grows L3 L ->
      grows L0 L1 /\ grows L2 L3 /\ ce_region (ac_cell out) < length (lo_starts L3)
      /\ hash_constant_length T RATE N s (hash_init T RATE (constant_length RATE N)) (map at_ msg) = Ok (at_ out).
    Proof.
      intros N L0 L1 L2 L3 h msg out G0 H0 G1 HW H G. unfold circuit_hash in H.
      apply lbind_inv in H. destruct H as (Lx & pad & Hp & H). apply lbind_inv in H. destruct H as (Lb & ab2 & H2 & H).
      apply lbind_inv in H. destruct H as (Lc & sq & H3 & H). apply lbind_inv in H. destruct H as (Ld & [x sq'] & H4 & H).
      injection H as <- <-. unfold llift in Hp.
      destruct (constant_length_padding RATE N N) as [pad'|] eqn:EP; [|discriminate Hp]. cbn [bind] in Hp. injection Hp as <- ->.
      assert (G4 : grows Lc Ld) by (eapply squeeze_grow; exact H4).
      assert (G3 : grows Lb Lc) by (eapply finish_grow; exact H3).
      assert (G2 : grows L2 Lb) by (eapply absorbs_grow; exact H2).
      destruct (new_sound L0 L1 _ h G0 H0) as [Ga Ka].
      pose proof (grows_app _ _ _ (grows_app _ _ _ (grows_app _ _ _ G2 G3) G4) G) as G2L.
      specialize (Ka (grows_app _ _ _ G1 G2L)). apply (ab_rel_more L1 L2 h _ G1) in Ka.
      pose proof (grows_app _ _ _ (grows_app _ _ _ G0 Ga) G1) as G02.
      assert (MI : mode_in L2 (map Some (map Message msg ++ map Padding pad))).
      { intros w Hw. apply in_map_iff in Hw. destruct Hw as (y & Ey & Hw). injection Ey as ->.
        apply in_app_iff in Hw. destruct Hw as [Hw|Hw]; apply in_map_iff in Hw; destruct Hw as (z & Ez & Hw); [|discriminate Ez].
        injection Ez as ->. unfold words_in in HW. rewrite Forall_forall in HW. now apply HW. }
      destruct (absorbs_sound _ L2 Lb h ab2 _ G02 Ka MI H2) as [_ Kb].
      destruct (Kb (grows_app _ _ _ (grows_app _ _ _ G3 G4) G)) as (sp1 & E1 & R1).
      pose proof (grows_app _ _ _ G02 G2) as Gb0.
      destruct (finish_sound Lb Lc ab2 sq sp1 Gb0 R1 H3) as [_ Kc]. destruct (Kc (grows_app _ _ _ G4 G)) as (sp2 & E2 & R2).
      destruct (squeeze_sound Lc Ld sq x sq' sp2 (grows_app _ _ _ Gb0 G3) R2 H4) as (_ & Ko & Kd).
      destruct (Kd G) as (sp3 & E3 & _).
      split; [exact Ga|]. split; [exact (grows_app _ _ _ (grows_app _ _ _ G2 G3) G4)|]. split; [exact Ko|].
      unfold hash_constant_length. rewrite EP. cbn [bind].
      rewrite map_app, !map_map in E1. cbn [pw_at] in E1. rewrite map_id in E1. change (map (fun x => at_ x) msg) with (map at_ msg) in E1.
      replace (hash_init T RATE (constant_length RATE N)) with (sponge_new T RATE (initial_capacity_element (constant_length RATE N)) 0) by reflexivity.
      rewrite E1. cbn [bind]. rewrite E2. cbn [bind]. rewrite E3. reflexivity.
    Qed.
    Theorem hash_sound : forall N L0 L1 L2 L3 h msg out, grows (layout_empty m) L0 ->
      circuit_hash_init RATE cfg N L0 = Ok (L1, h) -> grows L1 L2 -> words_in L2 msg ->
      circuit_hash T RATE s cfg N h msg L2 = Ok (L3, out) -> grows L3 L ->
      hash_constant_length T RATE N s (hash_init T RATE (constant_length RATE N)) (map at_ msg) = Ok (at_ out).
    Proof.
      intros N L0 L1 L2 L3 h msg out G0 H0 G1 HW H G. apply (hash_step N L0 L1 L2 L3 h msg out G0 H0 G1 HW H G).
    Qed.
  End Sound.

  (** ** Completeness: the circuit runs exactly when the primitive does, with the same values *)
  Section Complete.
    Variable other : list ((column * nat) * (column * nat)).
    Notation circuit L := (made sels (p5_instruction T RATE s cfg) L other).

    Definition mirrors {A C} (r : result A) (c : Layouter F C) (Li : layout F) (post : layout F -> C -> A -> Prop) : Prop :=
      match r with
      | Ok a => exists Lj x, c Li = Ok (Lj, x) /\ post Lj x a
      | Panic => c Li = Panic
      end.
    Lemma mirrors_bind : forall {A C A' C'} (r : result A) (c : Layouter F C) Li post (f : A -> result A') (g : C -> Layouter F C') post',
      mirrors r c Li post -> (forall Lj x a, post Lj x a -> mirrors (f a) (g x) Lj post') ->
      mirrors (bind r f) (lbind c g) Li post'.
    Proof using.
      intros A C A' C' r c Li post f g post' H K. unfold mirrors in H. unfold lbind. destruct r as [a|]; cbn [bind].
      - destruct H as (Lj & x & E & H). specialize (K Lj x a H). unfold mirrors in *. rewrite E. cbn [bind]. exact K.
      - unfold mirrors. rewrite H. reflexivity.
    Qed.
    Lemma mirrors_ret : forall {A C} (a : A) (x : C) Li (post : layout F -> C -> A -> Prop), post Li x a -> mirrors (Ok a) (lret x) Li post.
    Proof using. intros A C a x Li post H. exists Li, x. split; [reflexivity|exact H]. Qed.

    (** a layout on the way, later than [L0] *)
    Definition stage (L0 Li : layout F) : Prop := circuit Li /\ lo_const Li <> None /\ grows L0 Li
      /\ forall w v, carries L0 w v -> carries Li w v.

    Lemma made_trace : forall Li, circuit Li -> exists rs, trace Li rs.
    Proof. intros Li M. destruct (U made_inv Li other M) as (rs & TR & _). now exists rs. Qed.

    Lemma stage_region : forall {A} (p : Region F A) L0 Li Lj x, stage L0 Li -> assign_region p Li = Ok (Lj, x) ->
      p5_instruction T RATE s cfg Li Lj ->
      stage L0 Lj /\ (forall w v, carries Li w v -> carries Lj w v).
    Proof.
      intros A p L0 Li Lj x (M & K & G & P) H I. destruct (made_trace Li M) as [rs TR].
      destruct (assign_region_trace p Li Lj x rs TR H) as (evs & st & k & row & _ & _ & T2 & S2 & C2 & _).
      assert (KP : forall w v, carries Li w v -> carries Lj w v) by (intros w v; exact (carries_kept Li rs Lj _ _ w v TR T2 S2)).
      split; [|exact KP].
      split; [eapply made_op; eassumption|]. split; [congruence|]. split; [|auto].
      eapply grows_app; [exact G|]. eapply grows_one. exact H.
    Qed.

    Lemma place_total : forall l (Li : layout F), lo_const Li <> None -> exists Lj, fold_r place_constant l Li = Ok Lj.
    Proof using.
      induction l as [|[a v] l IH]; intros Li H; cbn [fold_r]; [eauto|]. unfold place_constant at 1.
      destruct (lo_const Li) as [k|] eqn:E; [|easy]. cbn [unwrap bind]. apply IH. cbn. congruence.
    Qed.
    Lemma region_total : forall {A} (p : Region F A) Li evs x, p (length (lo_starts Li)) = Ok (evs, x) -> lo_const Li <> None ->
      exists Lj, assign_region p Li = Ok (Lj, x).
    Proof using.
      intros A p Li evs x H K. unfold assign_region. rewrite H. cbn [bind].
      match goal with |- context [fold_r place_constant ?l ?M] => destruct (place_total l M K) as [Lj E] end.
      rewrite E. cbn [bind]. eauto.
    Qed.

    Definition entry (Li : layout F) (a : option (padded_word F)) (b : option F) : Prop :=
      match a, b with Some w, Some v => padded_carries Li w v | None, None => True | _, _ => False end.
    Definition out_entry (Li : layout F) (a : option (acell F)) (b : option F) : Prop :=
      match a, b with Some w, Some v => carries Li w v | None, None => True | _, _ => False end.

    Lemma Forall2_len2 : forall {A C} {P : A -> C -> Prop} {l l'}, Forall2 P l l' -> length l = length l'.
    Proof using. intros A C P l l' H. induction H; cbn; congruence. Qed.
    Lemma Forall2_more : forall {A C} (P Q : A -> C -> Prop) l l', (forall a c, P a c -> Q a c) -> Forall2 P l l' -> Forall2 Q l l'.
    Proof using. intros A C P Q l l' H X. induction X; constructor; auto. Qed.
    Lemma padded_more : forall (Li Lj : layout F), (forall w v, carries Li w v -> carries Lj w v) ->
      forall w v, padded_carries Li w v -> padded_carries Lj w v.
    Proof using. intros Li Lj H [w|x] v; cbn [padded_carries]; auto. Qed.
    Lemma entry_more : forall (Li Lj : layout F), (forall w v, carries Li w v -> carries Lj w v) -> forall a b, entry Li a b -> entry Lj a b.
    Proof using. intros Li Lj H [a|] [b|]; cbn [entry]; auto. now apply padded_more. Qed.

    (** entries of a full or not full buffer *)
    Lemma entries_full : forall Li md ys, Forall2 (entry Li) md ys ->
      (exists pws zs, md = map Some pws /\ ys = map Some zs /\ Forall2 (padded_carries Li) pws zs)
      \/ ((exists i, i < length md /\ nth i md None = None) /\ exists zs tl, ys = map Some zs ++ None :: tl /\ length zs < length md).
    Proof.
      intros Li md ys H. induction H as [|a b md ys H1 H IH].
      - left. exists [], []. repeat split. constructor.
      - destruct a as [w|], b as [v|]; cbn [entry] in H1; try easy.
        + destruct IH as [(pws & zs & -> & -> & X)|((i & Hi & E) & (zs & tl & -> & Hl))].
          * left. exists (w :: pws), (v :: zs). repeat split. now constructor.
          * right. split; [exists (S i); cbn; split; [lia|exact E]|]. exists (v :: zs), tl. cbn. split; [reflexivity|lia].
        + right. split; [exists 0; cbn; split; [lia|reflexivity]|]. exists [], ys. cbn. split; [reflexivity|lia].
    Qed.

    Lemma permute_mirror : forall L0 Li ws xs, stage L0 Li -> length ws = T -> Forall2 (carries Li) ws xs ->
      exists Lj out, p5_permute s cfg ws Li = Ok (Lj, out) /\ stage L0 Lj /\ length out = T
        /\ Forall2 (carries Lj) out (perm xs) /\ (forall w v, carries Li w v -> carries Lj w v).
    Proof.
      intros L0 Li ws xs S Hl HC. pose proof (proj1 (proj2 S)) as K.
      destruct (region_total (p5_permute_region s cfg ws) Li _ _ (B permute_region_ok _ _ Hl) K) as [Lj E].
      destruct (stage_region _ L0 Li Lj _ S E (do_permute T RATE s cfg Li Lj ws xs _ Hl HC E)) as [S' KP].
      destruct (made_trace Li (proj1 S)) as [rs TR].
      eexists. eexists. split; [exact E|]. split; [exact S'|]. split; [apply cells_length|]. split; [|exact KP].
      rewrite <- textbook_perm by (rewrite <- (Forall2_len2 HC); exact Hl).
      exact (U permute_carries Li Lj ws xs _ rs TR Hl HC E).
    Qed.

    Lemma padd_block : forall xs ys, length xs = T -> length ys = RATE -> padd T RATE xs ys = add_block 0 xs ys.
    Proof.
      intros xs ys Hx Hy. unfold padd, add_block, lst. rewrite Hx. apply map_ext_in. intros i Hi. apply in_seq in Hi.
      cbn [Nat.leb]. rewrite Nat.sub_0_r. destruct (Nat.ltb_spec i RATE); [reflexivity|].
      rewrite (nth_overflow ys) by lia. ring.
    Qed.

    Lemma add_mirror : forall L0 Li ws xs pws zs, stage L0 Li -> length ws = T -> Forall2 (carries Li) ws xs -> length pws = RATE ->
      Forall2 (padded_carries Li) pws zs ->
      exists Lj out, p5_add_input T RATE cfg ws (map Some pws) Li = Ok (Lj, out) /\ stage L0 Lj /\ length out = T
        /\ Forall2 (carries Lj) out (add_block 0 xs zs) /\ (forall w v, carries Li w v -> carries Lj w v).
    Proof.
      intros L0 Li ws xs pws zs S Hl HC Hp HZ. pose proof (proj1 (proj2 S)) as K.
      set (pw := fun i => nth i pws (Padding fzero)).
      assert (P : forall i, i < RATE -> nth i (map Some pws) None = Some (pw i)).
      { intros i Hi. rewrite (nth_indep _ None (Some (Padding fzero))) by (rewrite map_length; lia). unfold pw. apply map_nth. }
      destruct (region_total (add_region T RATE cfg ws (map Some pws)) Li _ _ (U add_region_ok _ _ _ _ Hl P) K) as [Lj E].
      change (p5_add_input T RATE cfg ws (map Some pws) Li = Ok (Lj, cells (length (lo_starts Li)) 2 (sums T RATE (values ws) pw))) in E.
      assert (HI : Forall2 (fun i y => forall w, i = Some w -> padded_carries Li w y) (map Some pws) zs).
      { clear - HZ. induction HZ; cbn [map]; constructor; [|assumption]. intros w X. now injection X as <-. }
      destruct (stage_region _ L0 Li Lj _ S E (do_add_input T RATE s cfg Li Lj ws xs (map Some pws) zs _ Hl HC ltac:(now rewrite map_length) HI E)) as [S' KP].
      destruct (made_trace Li (proj1 S)) as [rs TR].
      eexists. eexists. split; [exact E|]. split; [exact S'|]. split; [apply cells_length|]. split; [|exact KP].
      rewrite <- padd_block by (rewrite <- ?(Forall2_len2 HC), <- ?(Forall2_len2 HZ); assumption).
      exact (U add_carries Li Lj ws xs _ zs _ rs TR Hl HC HI E).
    Qed.

    Definition flushed (L0 : layout F) (L : layout F) (x : list (acell F) * list (option (acell F))) (a : list F * list (option F)) : Prop :=
      stage L0 L /\ length (fst x) = T /\ Forall2 (carries L) (fst x) (fst a)
      /\ snd x = map Some (firstn RATE (fst x)) /\ snd a = map Some (firstn RATE (fst a)).

    Lemma sponge_mirror : forall L0 Li st xs input inp, stage L0 Li -> length st = T -> Forall2 (carries Li) st xs ->
      match input, inp with
      | Some md, Some (ys, off) => Forall2 (entry Li) md ys /\ length md = RATE /\ off = 0
      | None, None => True
      | _, _ => False
      end ->
      mirrors (poseidon_sponge T RATE s xs inp) (circuit_sponge T RATE s cfg st input) Li (flushed L0).
    Proof.
      intros L0 Li st xs input inp S Hl HC HI. pose proof (Forall2_len2 HC) as Lx.
      assert (FIN : forall L1 st1 xs1, stage L0 L1 -> length st1 = T -> Forall2 (carries L1) st1 xs1 ->
        p5_permute s cfg st1 L1 = Panic -> False).
      { intros L1 st1 xs1 S1 H1 C1 E. destruct (permute_mirror L0 L1 st1 xs1 S1 H1 C1) as (Lj & o & E' & _). congruence. }
      unfold circuit_sponge, lbind.
      destruct input as [md|], inp as [[ys off]|]; try easy.
      - destruct HI as (HE & ML & ->). destruct (entries_full Li md ys HE) as [(pws & zs & -> & -> & HZ)|((i & Hi & E) & (zs & tl & -> & Hz))].
        + rewrite map_length in ML.
          rewrite (sponge_flush T RATE 0 s) by (rewrite <- ?(Forall2_len2 HZ); lia).
          destruct (add_mirror L0 Li st xs pws zs S Hl HC ML HZ) as (L1 & st1 & E1 & S1 & H1 & C1 & _).
          destruct (permute_mirror L0 L1 st1 _ S1 H1 C1) as (L2 & st2 & E2 & S2 & H2 & C2 & _).
          exists L2, (st2, p5_get_output RATE st2). rewrite E1. cbn [bind]. rewrite E2. split; [reflexivity|].
          split; [exact S2|]. split; [exact H2|]. split; [exact C2|]. split; reflexivity.
        + assert (PP : poseidon_sponge T RATE s xs (Some (map Some zs ++ None :: tl, 0)) = Panic).
          { unfold poseidon_sponge. cbn [Nat.leb rassert bind skipn].
            rewrite zip_mut_r_none; [reflexivity|]. lia. }
          rewrite PP. unfold mirrors.
          destruct (p5_add_input T RATE cfg st md Li) as [[Lj o]|] eqn:E1; [|reflexivity]. exfalso.
          destruct (made_trace Li (proj1 S)) as [rs TR].
          destruct (U add_follows Li Lj st md o rs TR Hl E1) as (P & _). rewrite (P i ltac:(lia)) in E. discriminate E.
      - rewrite (sponge_squeeze T RATE 0 s) by lia.
        destruct (permute_mirror L0 Li st xs S Hl HC) as (L2 & st2 & E2 & S2 & H2 & C2 & _).
        exists L2, (st2, p5_get_output RATE st2). cbn [bind lret]. rewrite E2. split; [reflexivity|].
        split; [exact S2|]. split; [exact H2|]. split; [exact C2|]. split; reflexivity.
    Qed.

    Definition ab_ok (L0 L : layout F) (ab : c_absorbing) (sp : sponge F) : Prop :=
      stage L0 L /\ length (ab_state ab) = T /\ Forall2 (carries L) (ab_state ab) (sp_state sp)
      /\ Forall2 (entry L) (ab_mode ab) (sp_mode sp) /\ length (ab_mode ab) = RATE /\ sp_layout sp = 0.
    Definition sq_ok (L0 L : layout F) (sq : c_squeezing) (sp : sponge F) : Prop :=
      stage L0 L /\ length (sq_state sq) = T /\ Forall2 (carries L) (sq_state sq) (sp_state sp)
      /\ Forall2 (out_entry L) (sq_mode sq) (sp_mode sp).

    Lemma entry_none : forall L k, Forall2 (entry L) (repeat None k) (repeat None k).
    Proof using. intros L k. induction k; cbn; constructor; cbn; auto. Qed.

    Lemma new_mirror : forall Li cap, stage Li Li ->
      mirrors (Ok (sponge_new T RATE cap 0)) (circuit_new RATE cfg cap) Li (ab_ok Li).
    Proof.
      intros Li cap S. pose proof (proj1 (proj2 S)) as K. unfold mirrors, circuit_new, lbind.
      destruct (region_total _ Li _ _ (U init_region_ok (length (lo_starts Li)) cap) K) as [Lj E].
      change (p5_initial_state RATE cfg cap Li = Ok (Lj, cells (length (lo_starts Li)) 0 (map Some (init_vals RATE cap)))) in E.
      destruct (stage_region _ Li Li Lj _ S E (do_initial_state T RATE s cfg Li Lj cap _ E)) as [S' _].
      destruct (made_trace Li (proj1 S)) as [rs TR]. pose proof (U init_carries Li Lj cap _ rs TR E) as C.
      rewrite E. cbn [bind lret]. eexists. eexists. split; [reflexivity|]. split; [exact S'|]. split; [apply cells_length|].
      cbn [ab_state ab_mode sponge_new sp_state sp_mode sp_layout]. split.
      - replace (upd (repeat fzero T) ((RATE + 0) mod T) cap) with (init_vals RATE cap); [exact C|].
        rewrite Nat.add_0_r, Nat.mod_small by lia. unfold init_vals.
        replace (repeat fzero T) with (repeat (@fzero F FO) RATE ++ [fzero]).
        + clear. induction RATE as [|k IH]; cbn; [reflexivity|]. now rewrite IH.
        + rewrite repeat_snoc. f_equal. lia.
      - split; [apply entry_none|]. split; [apply repeat_length|reflexivity].
    Qed.

    Lemma put_fill_entry : forall (L : layout F) w v md ys, padded_carries L w v -> Forall2 (entry L) md ys ->
      match put_first w md, fill_first v ys with
      | Some md', Some ys' => Forall2 (entry L) md' ys' /\ length md' = length md
      | None, None => True
      | _, _ => False
      end.
    Proof using.
      intros L w v md ys Hw H. induction H as [|a b md ys H1 H IH]; [exact I|].
      destruct a as [a|], b as [b|]; cbn [entry] in H1; try easy; cbn [put_first fill_first].
      - destruct (put_first w md), (fill_first v ys); cbn [option_map]; try easy.
        destruct IH as [X Y]. split; [constructor; [exact H1|exact X]|cbn; congruence].
      - split; [constructor; [exact Hw|exact H]|reflexivity].
    Qed.
    Lemma pop_take_entry : forall L md ys, Forall2 (out_entry L) md ys ->
      match pop_first md, take_first ys with
      | Some (x, md'), Some (v, ys') => carries L x v /\ Forall2 (out_entry L) md' ys'
      | None, None => True
      | _, _ => False
      end.
    Proof using.
      intros L md ys H. induction H as [|a b md ys H1 H IH]; [exact I|].
      destruct a as [a|], b as [b|]; cbn [out_entry] in H1; try easy; cbn [pop_first take_first].
      - split; [exact H1|]. constructor; [exact I|exact H].
      - destruct (pop_first md) as [[x md']|], (take_first ys) as [[v ys']|]; cbn [option_map]; try easy.
        destruct IH as [X Y]. split; [exact X|]. constructor; [exact I|exact Y].
    Qed.

    Lemma absorb_mirror : forall L0 Li ab sp w v, ab_ok L0 Li ab sp -> padded_carries L0 w v ->
      mirrors (absorb T RATE s sp v) (circuit_absorb T RATE s cfg ab w) Li (ab_ok L0).
    Proof.
      intros L0 Li ab sp w v (S & Hl & C & E & ML & Lay) Hw.
      assert (UP : forall L, stage L0 L -> padded_carries L w v).
      { intros L (_ & _ & _ & P). exact (padded_more L0 L P w v Hw). }
      unfold absorb, circuit_absorb. pose proof (put_fill_entry Li w v _ _ (UP Li S) E) as X.
      destruct (put_first w (ab_mode ab)) as [md|], (fill_first v (sp_mode sp)) as [ys|]; try easy.
      - destruct X as [X1 X2]. apply mirrors_ret. split; [exact S|]. split; [exact Hl|]. split; [exact C|].
        split; [exact X1|]. split; [cbn; congruence|exact Lay].
      - apply (mirrors_bind _ _ Li (flushed L0)).
        + apply sponge_mirror; [exact S|exact Hl|exact C|]. split; [exact E|]. split; [exact ML|exact Lay].
        + intros Lj [st out] [xs o] (S' & H' & C' & _ & _). cbn [fst snd] in *.
          unfold init_with, llift, lbind. cbv zeta. cbn [length]. rewrite !repeat_length.
          replace (Datatypes.S (RATE - 1) =? RATE) with true by (symmetry; apply Nat.eqb_eq; lia). cbn [bind].
          exists Lj. eexists. split; [reflexivity|]. split; [exact S'|]. split; [exact H'|]. split; [exact C'|].
          cbn [ab_mode sp_mode sp_layout]. split; [constructor; [exact (UP Lj S')|apply entry_none]|].
          split; [cbn; rewrite repeat_length; lia|exact Lay].
    Qed.
    Lemma absorbs_mirror : forall L0 l vs Li ab sp, Forall2 (padded_carries L0) l vs -> ab_ok L0 Li ab sp ->
      mirrors (absorb_all T RATE s vs sp) (lfold (circuit_absorb T RATE s cfg) l ab) Li (ab_ok L0).
    Proof.
      intros L0 l vs Li ab sp H. revert Li ab sp. unfold absorb_all.
      induction H as [|w v l vs H1 H IH]; intros Li ab sp Rl; cbn [fold_r lfold].
      - now apply mirrors_ret.
      - apply (mirrors_bind _ _ Li (ab_ok L0)); [now apply absorb_mirror|]. intros Lj x a Rj. now apply IH.
    Qed.
    Lemma out_entries : forall L l xs, Forall2 (carries L) l xs -> Forall2 (out_entry L) (map Some l) (map Some xs).
    Proof using. intros L l xs H. induction H; cbn [map]; constructor; auto. Qed.
    Lemma firstn_carries : forall (L : layout F) k l xs, Forall2 (carries L) l xs -> Forall2 (carries L) (firstn k l) (firstn k xs).
    Proof using.
      intros L k l xs H. revert k. induction H as [|w x l xs H1 H IH]; intros [|k]; cbn [firstn]; constructor; auto.
    Qed.
    Lemma finish_mirror : forall L0 Li ab sp, ab_ok L0 Li ab sp ->
      mirrors (finish_absorbing T RATE s sp) (circuit_finish T RATE s cfg ab) Li (sq_ok L0).
    Proof.
      intros L0 Li ab sp (S & Hl & C & E & ML & Lay). unfold finish_absorbing, circuit_finish.
      apply (mirrors_bind _ _ Li (flushed L0)).
      - apply sponge_mirror; [exact S|exact Hl|exact C|]. split; [exact E|]. split; [exact ML|exact Lay].
      - intros Lj [st out] [xs o] (S' & H' & C' & E1 & E2). cbn [fst snd] in *. subst out o.
        apply mirrors_ret. split; [exact S'|]. split; [exact H'|]. split; [exact C'|].
        apply out_entries. now apply firstn_carries.
    Qed.
    Lemma squeeze_mirror : forall L0 Li sq sp, sq_ok L0 Li sq sp ->
      mirrors (squeeze T RATE s sp) (circuit_squeeze T RATE s cfg sq) Li
        (fun L x a => sq_ok L0 L (snd x) (snd a) /\ carries L (fst x) (fst a)).
    Proof.
      intros L0 Li sq sp (S & Hl & C & E). unfold squeeze, circuit_squeeze. pose proof (pop_take_entry Li _ _ E) as X.
      destruct (pop_first (sq_mode sq)) as [[x md]|], (take_first (sp_mode sp)) as [[v ys]|]; try easy.
      - destruct X as [X1 X2]. apply mirrors_ret. cbn [fst snd]. split; [|exact X1]. split; [exact S|]. split; [exact Hl|]. now split.
      - apply (mirrors_bind _ _ Li (flushed L0)).
        + now apply sponge_mirror.
        + intros Lj [st out] [xs o] (S' & H' & C' & E1 & E2). cbn [fst snd] in *. subst out o.
          pose proof (pop_take_entry Lj _ _ (out_entries Lj _ _ (firstn_carries Lj RATE st xs C'))) as Y.
          destruct (pop_first (map Some (firstn RATE st))) as [[x md]|], (take_first (map Some (firstn RATE xs))) as [[v ys]|]; try easy.
          destruct Y as [Y1 Y2]. apply mirrors_ret. cbn [fst snd]. split; [|exact Y1]. split; [exact S'|]. split; [exact H'|]. now split.
    Qed.
    Lemma squeezes_mirror : forall L0 k Li sq sp, sq_ok L0 Li sq sp ->
      mirrors (squeezes T RATE s k sp) (circuit_squeezes T RATE s cfg k sq) Li
        (fun L x a => stage L0 L /\ Forall2 (carries L) x a).
    Proof.
      intros L0 k Li sq sp Rl.
      assert (G : forall k Li sq sp, stage L0 Li -> sq_ok Li Li sq sp ->
        mirrors (squeezes T RATE s k sp) (circuit_squeezes T RATE s cfg k sq) Li (fun L x a => stage Li L /\ Forall2 (carries L) x a)).
      { clear k Li sq sp Rl. induction k as [|k IH]; intros Li sq sp S Rl; cbn [squeezes circuit_squeezes].
        - apply mirrors_ret. split; [apply Rl|constructor].
        - apply (mirrors_bind _ _ Li _ _ _ _ (squeeze_mirror Li Li sq sp Rl)). intros Lj [x sq'] [v sp'] [Rj Cj]. cbn [fst snd] in *.
          assert (Sj : stage Li Lj) by apply Rj. destruct Sj as (Mj & Kj & Gj & Pj).
          assert (S0 : stage L0 Lj).
          { destruct S as (_ & _ & G & P). split; [exact Mj|]. split; [exact Kj|]. split; [eapply grows_app; eassumption|auto]. }
          assert (SJ : stage Lj Lj) by (split; [exact Mj|split; [exact Kj|split; [apply grows_refl|auto]]]).
          apply (mirrors_bind _ _ Lj _ _ _ _ (IH Lj sq' sp' S0 ltac:(split; [exact SJ|apply Rj]))).
          intros Lk r a ((Mk & Kk & Gk & Pk) & Ck). apply mirrors_ret. split.
          + split; [exact Mk|]. split; [exact Kk|]. split; [eapply grows_app; eassumption|auto].
          + constructor; [now apply Pk|exact Ck]. }
      assert (SI : stage Li Li) by (destruct Rl as ((M & K & _) & _); split; [exact M|split; [exact K|split; [apply grows_refl|auto]]]).
      specialize (G k Li sq sp (proj1 Rl) ltac:(split; [exact SI|apply Rl])).
      unfold mirrors in *. destruct (squeezes T RATE s k sp) as [a|]; [|exact G].
      destruct G as (Lj & x & E & (M & K & G & P) & C). exists Lj, x. split; [exact E|]. split; [|exact C].
      destruct Rl as ((_ & _ & G0 & P0) & _). split; [exact M|]. split; [exact K|]. split; [eapply grows_app; eassumption|auto].
    Qed.

    Theorem session_mirror : forall L0 cap l vs k, stage L0 L0 -> Forall2 (padded_carries L0) l vs ->
      mirrors (session T RATE s cap 0 vs k) (circuit_session T RATE s cfg cap l k) L0
        (fun L x a => stage L0 L /\ Forall2 (carries L) x a).
    Proof.
      intros L0 cap l vs k S H. unfold session, circuit_session.
      change (mirrors (bind (Ok (sponge_new T RATE cap 0)) (fun sp0 => do sp <- absorb_all T RATE s vs sp0;
        do sp <- finish_absorbing T RATE s sp; squeezes T RATE s k sp))
        (lbind (circuit_new RATE cfg cap) (fun sp => lbind (lfold (circuit_absorb T RATE s cfg) l sp) (fun sp =>
          lbind (circuit_finish T RATE s cfg sp) (fun sp => circuit_squeezes T RATE s cfg k sp)))) L0
        (fun L x a => stage L0 L /\ Forall2 (carries L) x a)).
      apply (mirrors_bind _ _ L0 _ _ _ _ (new_mirror L0 cap S)). intros L1 ab sp R1.
      apply (mirrors_bind _ _ L1 _ _ _ _ (absorbs_mirror L0 l vs L1 ab sp H R1)). intros L2 ab2 sp2 R2.
      apply (mirrors_bind _ _ L2 _ _ _ _ (finish_mirror L0 L2 ab2 sp2 R2)). intros L3 sq sp3 R3.
      now apply squeezes_mirror.
    Qed.

    (** the state of the sponge is carried along by the caller *)
    Lemma ab_ok_later : forall L0 Li Lj ab sp, ab_ok L0 Li ab sp -> grows Li Lj -> circuit Lj -> ab_ok Lj Lj ab sp.
    Proof.
      intros L0 Li Lj ab sp ((M & K & _) & Hl & C & E & ML & Lay) G MJ. destruct (made_trace Li M) as [rs TR].
      destruct (grows_trace Li Lj G rs TR) as (rs' & new & copies & T' & S' & _ & KJ).
      assert (KP : forall w v, carries Li w v -> carries Lj w v) by (intros w v; exact (carries_kept Li rs Lj _ _ w v TR T' S')).
      split; [split; [exact MJ|split; [congruence|split; [apply grows_refl|auto]]]|].
      split; [exact Hl|]. split; [exact (Forall2_more _ _ _ _ KP C)|].
      split; [exact (Forall2_more _ _ _ _ (entry_more Li Lj KP) E)|]. split; [exact ML|exact Lay].
    Qed.
    Theorem hash_mirror : forall N L0 Li h msg xs, ab_ok L0 Li h (hash_init T RATE (constant_length RATE N)) ->
      Forall2 (carries L0) msg xs ->
      mirrors (hash_constant_length T RATE N s (hash_init T RATE (constant_length RATE N)) xs) (circuit_hash T RATE s cfg N h msg) Li
        (fun L x v => stage L0 L /\ carries L x v).
    Proof.
      intros N L0 Li h msg xs R0 HM. unfold hash_constant_length, circuit_hash.
      apply (mirrors_bind _ _ Li (fun L x a => x = a /\ L = Li)).
      { unfold mirrors, llift. destruct (constant_length_padding RATE N N) as [pad|]; [|reflexivity]. exists Li, pad. auto. }
      intros Lz pad' pad [-> ->].
      assert (HP : Forall2 (padded_carries L0) (map Message msg ++ map Padding pad) (xs ++ pad)).
      { apply Forall2_app.
        - clear - HM. induction HM; cbn [map]; constructor; auto.
        - clear. induction pad; cbn [map]; constructor; [reflexivity|assumption]. }
      apply (mirrors_bind _ _ Li _ _ _ _ (absorbs_mirror L0 _ _ Li h _ HP R0)). intros L2 ab2 sp2 R2.
      apply (mirrors_bind _ _ L2 _ _ _ _ (finish_mirror L0 L2 ab2 sp2 R2)). intros L3 sq sp3 R3.
      apply (mirrors_bind _ _ L3 _ _ _ _ (squeeze_mirror L0 L3 sq sp3 R3)). intros L4 [x sq'] [v sp4] [R4 C4].
      apply mirrors_ret. split; [apply R4|exact C4].
    Qed.
  End Complete.
End Use.
