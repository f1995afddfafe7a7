(** The lemmas behind C65. *)
From Coq Require Import ZArith List Arith Lia Bool.
From Verif Require Import Field Rust ListAux Primitives Specs SpecHash Perm_proof Sponge_proof BaseHash_proof BigSum Link Base_claims Halo2 Septidon PermuteChip
  ChipUse Pow5 Built Pow5Use Gadget GadgetUse Layout_proof Contract Sept_claims Pow5Gate_proof Pow5Rows_proof Pow5Block_proof
  Pow5Chip_proof Trace_proof Pow5Use_proof Pow5Honest_proof Pow5_claims Gadget_proof Gadget_claims ProgramUse.
Import ListNotations.
Local Open Scope nat_scope.

Section Pure.
  Context {F : Type} {FO : FieldOps F} {PF : PrimeField F}.

  Lemma pick_map : forall {A} (f : A -> F) ws op msg, pick ws op = Some msg ->
    map f msg = map (fun i => nth i (map f ws) fzero) op /\ length msg = length op
    /\ forall w, In w msg -> In w ws.
  Proof.
    intros A f ws. induction op as [|i op IH]; intros msg H; cbn [pick] in H.
    - injection H as <-. repeat split. intros w [].
    - destruct (nth_error ws i) as [w|] eqn:E; [|discriminate H]. destruct (pick ws op) as [l|]; [|discriminate H].
      injection H as <-. destruct (IH l eq_refl) as (I1 & I2 & I3). split; [|split].
      + cbn [map]. f_equal; [|exact I1]. symmetry. apply nth_error_nth. now apply map_nth_error.
      + cbn. now rewrite I2.
      + intros v [<-|Hv]; [eapply nth_error_In; exact E|now apply I3].
  Qed.
  Lemma pick_some : forall {A} (ws : list A) op, Forall (fun i => i < length ws) op <-> exists msg, pick ws op = Some msg.
  Proof.
    intros A ws. induction op as [|i op [IH1 IH2]]; cbn [pick].
    - split; [eauto|constructor].
    - split.
      + intros H. inversion H as [|? ? H1 H2]; subst. destruct (IH1 H2) as [l E]. rewrite E.
        apply nth_error_Some in H1. destruct (nth_error ws i); [eauto|congruence].
      + intros [msg H]. destruct (nth_error ws i) eqn:E; [|discriminate H].
        destruct (pick ws op) eqn:E'; [|discriminate H]. constructor; [|apply IH2; eauto].
        apply nth_error_Some. congruence.
  Qed.
  Lemma pick_forall2 : forall {A} (R : A -> F -> Prop) ws xs op msg, Forall2 R ws xs -> pick ws op = Some msg ->
    Forall2 R msg (map (fun i => nth i xs fzero) op).
  Proof.
    intros A R ws xs op msg H. revert msg. induction op as [|i op IH]; intros msg E; cbn [pick] in E.
    - injection E as <-. constructor.
    - destruct (nth_error ws i) as [w|] eqn:E1; [|discriminate E]. destruct (pick ws op) as [l|]; [|discriminate E].
      injection E as <-. cbn [map]. constructor; [|now apply IH].
      clear - H E1. revert i E1. induction H as [|a x ws xs H1 H IH]; intros [|i] E1; try discriminate E1.
      + injection E1 as <-. exact H1.
      + now apply IH.
  Qed.

  Lemma evaluate_prefix : forall (H : list F -> F) prog xs, exists tl, evaluate H prog xs = xs ++ tl /\ length tl = length prog.
  Proof.
    intros H. induction prog as [|op prog IH]; intros xs; cbn [evaluate].
    - exists []. split; [now rewrite app_nil_r|reflexivity].
    - destruct (IH (xs ++ [H (map (fun i => nth i xs fzero) op)])) as (tl & E & El). rewrite E, <- app_assoc.
      eexists. split; [reflexivity|]. cbn. now rewrite El.
  Qed.

  Lemma evaluate_at : forall (H : list F -> F) prog xs k op, well_formed (length xs) prog -> nth_error prog k = Some op ->
    let all := evaluate H prog xs in let msg := map (fun i => nth i all fzero) op in
    nth_error (messages H prog xs) k = Some msg /\ nth (length xs + k) all fzero = H msg.
  Proof.
    intros H. induction prog as [|op0 prog IH]; intros xs k op W E all msg; [destruct k; discriminate E|].
    destruct W as (W1 & W2 & W3).
    assert (L1 : length (xs ++ [H (map (fun i => nth i xs fzero) op0)]) = S (length xs)) by (rewrite app_length; cbn; lia).
    destruct k as [|k]; cbn [nth_error] in E.
    - injection E as <-. unfold msg, all. cbn [evaluate messages nth_error].
      destruct (evaluate_prefix H prog (xs ++ [H (map (fun i => nth i xs fzero) op0)])) as (tl & -> & _).
      assert (M : map (fun i => nth i ((xs ++ [H (map (fun i => nth i xs fzero) op0)]) ++ tl) fzero) op0
        = map (fun i => nth i xs fzero) op0).
      { apply map_ext_in. intros i Hi. rewrite Forall_forall in W2. specialize (W2 i Hi).
        rewrite <- app_assoc, app_nth1 by assumption. reflexivity. }
      rewrite M. split; [reflexivity|]. rewrite <- app_assoc, app_nth2, Nat.add_0_r, Nat.sub_diag by lia. reflexivity.
    - rewrite <- L1 in W3. destruct (IH _ k op W3 E) as [I1 I2]. unfold msg, all. cbn [evaluate messages nth_error].
      split; [exact I1|]. rewrite L1 in I2. replace (length xs + S k) with (S (length xs) + k) by lia. exact I2.
  Qed.

  Lemma list_eq_dec_f : forall a b : list F, {a = b} + {a <> b}.
  Proof. intros a b. apply list_eq_dec. apply feq_dec. Qed.

  Lemma messages_length : forall (H : list F -> F) prog xs, length (messages H prog xs) = length prog.
  Proof. intros H. induction prog as [|op prog IH]; intros xs; cbn; [reflexivity|]. now rewrite IH. Qed.

  Definition collides (H : list F -> F) (ms ms' : list (list F)) : Prop :=
    exists k m m', nth_error ms k = Some m /\ nth_error ms' k = Some m' /\ length m = length m' /\ m <> m' /\ H m = H m'.

  Lemma collides_dec : forall H ms ms', collides H ms ms' \/ ~ collides H ms ms'.
  Proof.
    intros H. induction ms as [|m ms IH]; intros [|m' ms'].
    - right. intros (k & a & b & E & _). destruct k; discriminate E.
    - right. intros (k & a & b & E & _). destruct k; discriminate E.
    - right. intros (k & a & b & _ & E & _). destruct k; discriminate E.
    - destruct (IH ms') as [(k & a & b & A1 & A2 & A3)|N]; [left; exists (S k), a, b; auto|].
      destruct (list_eq_dec_f m m') as [Em|Em];
        [|destruct (Nat.eq_dec (length m) (length m')) as [El|El]; [destruct (feq_dec (H m) (H m')) as [Eh|Eh]|]].
      + right. intros ([|k] & a & b & A1 & A2 & A3).
        * injection A1 as <-. injection A2 as <-. tauto.
        * apply N. now exists k, a, b.
      + left. exists 0, m, m'. auto.
      + right. intros ([|k] & a & b & A1 & A2 & A3).
        * injection A1 as <-. injection A2 as <-. tauto.
        * apply N. now exists k, a, b.
      + right. intros ([|k] & a & b & A1 & A2 & A3).
        * injection A1 as <-. injection A2 as <-. tauto.
        * apply N. now exists k, a, b.
  Qed.

  (** a word binds all the words it depends on *)
  Lemma binding_pure : forall (H : list F -> F) prog xs ys i, length xs = length ys -> well_formed (length xs) prog ->
    nth i (evaluate H prog xs) fzero = nth i (evaluate H prog ys) fzero ->
    (forall j, depends (length xs) prog i j -> nth j (evaluate H prog xs) fzero = nth j (evaluate H prog ys) fzero)
    \/ collides H (messages H prog xs) (messages H prog ys).
  Proof.
    intros H prog xs ys i Hl W E. destruct (collides_dec H (messages H prog xs) (messages H prog ys)) as [C|C]; [now right|left].
    intros j D. revert E. induction D as [i|k op i j Hk Hi D IH]; intros E; [exact E|].
    apply IH. destruct (evaluate_at H prog xs k op W Hk) as [A1 A2].
    assert (W' : well_formed (length ys) prog) by (now rewrite <- Hl). destruct (evaluate_at H prog ys k op W' Hk) as [B1 B2].
    cbv zeta in *. rewrite A2, Hl, B2 in E.
    destruct (list_eq_dec_f (map (fun i => nth i (evaluate H prog xs) fzero) op) (map (fun i => nth i (evaluate H prog ys) fzero) op)) as [X|X].
    - clear - X Hi. induction op as [|a op IH]; [destruct Hi|]. cbn [map] in X. injection X as X1 X2.
      destruct Hi as [->|Hi]; [exact X1|now apply IH].
    - exfalso. apply C. exists k. eexists. eexists. split; [exact A1|]. split; [exact B1|]. split; [now rewrite !map_length|]. now split.
  Qed.
End Pure.

Section Claims.
  Context {F : Type} {FO : FieldOps F} {PF : PrimeField F}.

  Section Chip.
    Variables (T : nat) (s : spec F) (state : list nat) (sbox : nat) (rc_a rc_b : list nat) (cs0 cs1 : cs F) (cfg : pow5).
    Hypothesis Hs : poseidon_spec T s.
    Hypothesis HT : 1 < T.
    Hypothesis I1 : mat_prod_id T (mds s) (mds_inv s).
    Hypothesis I2 : mat_prod_id T (mds_inv s) (mds s).
    Hypothesis Hc : columns_ok T state sbox rc_a rc_b.
    Hypothesis Hcfg : pow5_configure T (T - 1) s state sbox rc_a rc_b cs0 = (cfg, cs1).
    Notation circuit := (made (p5_selectors cfg) (p5_instruction T (T - 1) s cfg)).
    Notation H := (fixed_hash T s).

    Lemma calls_grow : forall prog ws L ws' L', calls T (T - 1) s cfg prog ws L ws' L' -> grows L L'.
    Proof.
      intros prog ws L ws' L' C. induction C as [ws L L' G|op prog ws ws' L L0 L1 L2 L3 L' h msg out G H0 G1 E H3 C IH]; [exact G|].
      assert (Ga : grows L0 L1). { unfold circuit_hash_init, circuit_new in H0. apply lbind_inv in H0. destruct H0 as (Lx & st & H0 & X).
        injection X as <- <-. eapply grows_one; exact H0. }
      assert (Gb : grows L2 L3).
      { unfold circuit_hash in H3. apply lbind_inv in H3. destruct H3 as (Lx & pad & Hp & H3). apply lbind_inv in H3. destruct H3 as (Lb & ab2 & H2 & H3).
        apply lbind_inv in H3. destruct H3 as (Lc & sq & H4 & H3). apply lbind_inv in H3. destruct H3 as (Ld & [x sq'] & H5 & H3).
        injection H3 as <- <-. unfold llift in Hp.
        destruct (constant_length_padding (T - 1) (length op) (length op)) as [pad'|]; [|discriminate Hp]. cbn [bind] in Hp. injection Hp as <- ->.
        eapply grows_app; [eapply absorbs_grow; exact H2|]. eapply grows_app; [eapply finish_grow; exact H4|]. eapply squeeze_grow; exact H5. }
      exact (grows_app _ _ _ G (grows_app _ _ _ Ga (grows_app _ _ _ G1 (grows_app _ _ _ Gb IH)))).
    Qed.

    Lemma calls_sound : forall prog ws La ws' Lb m L n adv, calls T (T - 1) s cfg prog ws La ws' Lb ->
      grows (layout_empty m) La -> words_in La ws -> grows Lb L -> fits n L ->
      gates_hold n L adv (cs_gates cs1) -> copies_hold L adv ->
      map (word_at L adv) ws' = evaluate H prog (map (word_at L adv) ws) /\ well_formed (length ws) prog.
    Proof.
      intros prog ws La ws' Lb m L n adv C G0 W G Fn HG HC. revert G0 W G.
      induction C as [ws La Lb G'|op prog ws ws' La L0 L1 L2 L3 Lb h msg out Ga H0 G1 E H3 C IH]; intros G0 W G; [split; [reflexivity|exact I]|].
      pose proof (grows_app _ _ _ G0 Ga) as G00. pose proof (calls_grow _ _ _ _ _ C) as Gc.
      destruct (pick_map (word_at L adv) ws op msg E) as (P1 & P2 & P3).
      destruct (cfg_cols T s state sbox rc_a rc_b cs0 cs1 cfg Hc Hcfg) as (A & B & C' & D & E' & K).
      pose proof (words_more _ _ _ Ga W) as W0.
      assert (Gi : grows L0 L1). { unfold circuit_hash_init, circuit_new in H0. apply lbind_inv in H0. destruct H0 as (Lx & st & H0 & X).
        injection X as <- <-. eapply grows_one; exact H0. }
      pose proof (words_more _ _ _ (grows_app _ _ _ Gi G1) W0) as W2.
      assert (Wm : words_in L2 msg).
      { unfold words_in in *. rewrite Forall_forall in *. intros w Hw. apply W2. now apply P3. }
      pose proof (grows_app _ _ _ Gc G) as G3.
      destruct (hash_step T (T - 1) s Hs HT eq_refl cfg A B C' D E' K I1 I2 n L adv m Fn) with (L0 := L0) (L1 := L1) (L2 := L2) (L3 := L3)
        (h := h) (msg := msg) (out := out) (N := length op) as (_ & Gh & Ho & _); try assumption.
      { intros g r Hg. apply HG. rewrite (cfg_gates T s state sbox rc_a rc_b cs0 cs1 cfg Hcfg), in_app_iff. now right. }
      destruct (circuit_hash_sound_claim T s state sbox rc_a rc_b cs0 cs1 cfg m (length op) L0 L1 L2 L3 L h msg out n adv
        Hs HT I1 I2 Hc Hcfg G00 H0 G1 Wm P2 H3 G3 Fn HG HC) as [X1 X2].
      assert (Hne : op <> []).
      { intros ->. rewrite constant_length_claim in X1; [|lia|assumption|now rewrite map_length]. discriminate X1. }
      destruct IH as [IH1 IH2]; [| |exact G|].
      - eapply grows_app; [exact G00|]. exact (grows_app _ _ _ (grows_app _ _ _ Gi G1) Gh).
      - unfold words_in. apply Forall_app. split; [exact (words_more _ _ _ Gh W2)|]. constructor; [exact Ho|constructor].
      - rewrite IH1. split.
        + cbn [evaluate]. f_equal. rewrite map_app. cbn [map]. f_equal. f_equal. rewrite X2. unfold fixed_hash.
          rewrite map_length, <- P1. reflexivity.
        + cbn [well_formed]. split; [exact Hne|]. split; [apply pick_some; eauto|].
          rewrite app_length in IH2. cbn [length] in IH2. now rewrite Nat.add_1_r in IH2.
    Qed.

    Lemma const_kept : forall L other L', circuit L other -> grows L L' -> lo_const L <> None -> lo_const L' <> None.
    Proof.
      intros L other L' M G HK. destruct (cfg_cols T s state sbox rc_a rc_b cs0 cs1 cfg Hc Hcfg) as (A & B & C & D & E & K).
      destruct (made_inv T (T - 1) s Hs HT eq_refl cfg A B C D E K I1 I2 L other M) as (rs & TR & _).
      destruct (grows_trace L L' G rs TR) as (rs' & new & copies & _ & _ & _ & KJ). congruence.
    Qed.

    Lemma program_runs : forall prog ws xs L0 other, circuit L0 other -> lo_const L0 <> None -> Forall2 (carries L0) ws xs ->
      (~ well_formed (length xs) prog -> circuit_program T (T - 1) s cfg prog ws L0 = Panic)
      /\ (well_formed (length xs) prog -> exists L1 ws', circuit_program T (T - 1) s cfg prog ws L0 = Ok (L1, ws')
           /\ calls T (T - 1) s cfg prog ws L0 ws' L1 /\ circuit L1 other /\ grows L0 L1
           /\ Forall2 (carries L1) ws' (evaluate H prog xs)).
    Proof.
      induction prog as [|op prog IH]; intros ws xs L0 other M0 K0 HC.
      - split; [intros X; destruct X; exact I|]. intros _. exists L0, ws. cbn [circuit_program evaluate].
        split; [reflexivity|]. split; [apply calls_done; apply grows_refl|]. split; [exact M0|]. split; [apply grows_refl|exact HC].
      - destruct (circuit_hash_complete_claim T s state sbox rc_a rc_b cs0 cs1 cfg (length op) L0 other Hs HT I1 I2 Hc Hcfg M0 K0)
          as (L1 & h & E1 & M1 & G1 & KK).
        pose proof (carries_later T s state sbox rc_a rc_b cs0 cs1 cfg Hs HT I1 I2 Hc Hcfg L0 other L1 _ _ M0 G1 HC) as HC1.
        pose proof (Forall2_len2 HC) as Hlen.
        cbn [circuit_program well_formed]. unfold lbind. rewrite !E1. cbn [bind].
        destruct (pick ws op) as [msg|] eqn:Ep.
        2:{ unfold llift. cbn [bind]. split; [reflexivity|]. intros (_ & X & _). rewrite <- Hlen in X.
            apply pick_some in X. destruct X as [msg X]. congruence. }
        assert (Hin : Forall (fun i => i < length xs) op) by (rewrite <- Hlen; apply pick_some; eauto).
        unfold llift. cbn [bind]. destruct (pick_map (fun w => fzero) ws op msg Ep) as (_ & P2 & _).
        pose proof (pick_forall2 _ _ _ _ _ HC1 Ep) as HM.
        destruct (KK L1 other msg _ (grows_refl _) M1 P2 HM) as [KZ KN].
        destruct (Nat.eq_dec (length op) 0) as [Z|Z].
        { rewrite (KZ Z). cbn [bind]. split; [reflexivity|]. intros (X & _). destruct op; [contradiction|discriminate Z]. }
        destruct (KN Z) as (L3 & out & E3 & M3 & G3 & C3 & _). rewrite E3. cbn [bind].
        pose proof (carries_later T s state sbox rc_a rc_b cs0 cs1 cfg Hs HT I1 I2 Hc Hcfg L1 other L3 _ _ M1 G3 HC1) as HC3.
        set (dg := sponge_hash _ _ _ _ _ _ _) in C3.
        assert (HC3' : Forall2 (carries L3) (ws ++ [out]) (xs ++ [dg])) by (apply Forall2_app; [exact HC3|constructor; [exact C3|constructor]]).
        assert (K3 : lo_const L3 <> None) by exact (const_kept L1 other L3 M1 G3 (const_kept L0 other L1 M0 G1 K0)).
        destruct (IH (ws ++ [out]) (xs ++ [dg]) L3 other M3 K3 HC3') as [IHN IHW].
        rewrite app_length in IHN, IHW. cbn [length] in IHN, IHW. rewrite Nat.add_1_r in IHN, IHW.
        assert (Hne : op <> []) by (intros ->; now apply Z).
        split; [intros X; apply IHN; tauto|]. intros (_ & _ & X). destruct (IHW X) as (L4 & ws' & E4 & C4 & M4 & G4 & Y4).
        exists L4, ws'. split; [exact E4|]. split; [|split; [exact M4|split]].
        + exact (calls_hash T (T - 1) s cfg op prog ws ws' L0 L0 L1 L1 L3 L4 h msg out (grows_refl _) E1 (grows_refl _) Ep E3 C4).
        + exact (grows_app _ _ _ G1 (grows_app _ _ _ G3 G4)).
        + cbn [evaluate]. replace (H (map (fun i => nth i xs fzero) op)) with dg; [exact Y4|].
          unfold dg, fixed_hash. now rewrite map_length.
    Qed.
  End Chip.

  (** C65 *)
  Lemma program_sound_claim : forall T (s : spec F) state sbox rc_a rc_b (cs0 cs1 : cs F) cfg m prog ws La ws' Lb L n adv,
    poseidon_spec T s -> 1 < T -> mat_prod_id T (mds s) (mds_inv s) -> mat_prod_id T (mds_inv s) (mds s) ->
    columns_ok T state sbox rc_a rc_b -> pow5_configure T (T - 1) s state sbox rc_a rc_b cs0 = (cfg, cs1) ->
    grows (layout_empty m) La -> words_in La ws -> calls T (T - 1) s cfg prog ws La ws' Lb ->
    grows Lb L -> fits n L -> gates_hold n L adv (cs_gates cs1) -> copies_hold L adv ->
    map (word_at L adv) ws' = evaluate (fixed_hash T s) prog (map (word_at L adv) ws).
  Proof.
    intros T s state sbox rc_a rc_b cs0 cs1 cfg m prog ws La ws' Lb L n adv Hs HT I1 I2 Hc Hcfg G0 W C G Fn HG HC.
    exact (proj1 (calls_sound T s state sbox rc_a rc_b cs0 cs1 cfg Hs HT I1 I2 Hc Hcfg prog ws La ws' Lb m L n adv C G0 W G Fn HG HC)).
  Qed.

  Lemma program_complete_claim : forall T (s : spec F) state sbox rc_a rc_b (cs0 cs1 : cs F) cfg prog ws xs L0 other,
    poseidon_spec T s -> 1 < T -> mat_prod_id T (mds s) (mds_inv s) -> mat_prod_id T (mds_inv s) (mds s) ->
    columns_ok T state sbox rc_a rc_b -> pow5_configure T (T - 1) s state sbox rc_a rc_b cs0 = (cfg, cs1) ->
    let circuit := made (p5_selectors cfg) (p5_instruction T (T - 1) s cfg) in
    circuit L0 other -> lo_const L0 <> None -> Forall2 (carries L0) ws xs ->
    (~ well_formed (length xs) prog -> circuit_program T (T - 1) s cfg prog ws L0 = Panic)
    /\ (well_formed (length xs) prog -> exists L1 ws', circuit_program T (T - 1) s cfg prog ws L0 = Ok (L1, ws')
         /\ calls T (T - 1) s cfg prog ws L0 ws' L1 /\ circuit L1 other /\ grows L0 L1
         /\ forall L other' u n blind, grows L1 L -> circuit L other' -> fits u L -> u <= n ->
            let adv := honest u L blind in
            (forall a b, In (a, b) other' -> cell_at L adv a = cell_at L adv b) -> gates_hold n L adv (cs_gates cs0) ->
            gates_hold n L adv (cs_gates cs1) /\ copies_hold L adv
            /\ map (word_at L adv) ws = xs /\ map (word_at L adv) ws' = evaluate (fixed_hash T s) prog xs).
  Proof.
    intros T s state sbox rc_a rc_b cs0 cs1 cfg prog ws xs L0 other Hs HT I1 I2 Hc Hcfg circuit M0 K0 HC.
    destruct (program_runs T s state sbox rc_a rc_b cs0 cs1 cfg Hs HT I1 I2 Hc Hcfg prog ws xs L0 other M0 K0 HC) as [R1 R2].
    split; [exact R1|]. intros W. destruct (R2 W) as (L1 & ws' & E & C & M1 & G1 & Y). exists L1, ws'.
    split; [exact E|]. split; [exact C|]. split; [exact M1|]. split; [exact G1|].
    intros L other' u n blind G M Fu Hu adv Ho Hg.
    destruct (made_honest T s state sbox rc_a rc_b cs0 cs1 cfg Hs HT I1 I2 Hc Hcfg L other' u n blind M Fu Hu) as [X1 X2].
    split; [now apply X1|]. split; [now apply X2|].
    pose proof (carries_later T s state sbox rc_a rc_b cs0 cs1 cfg Hs HT I1 I2 Hc Hcfg L1 other L _ _ M1 G Y) as YL.
    pose proof (carries_later T s state sbox rc_a rc_b cs0 cs1 cfg Hs HT I1 I2 Hc Hcfg L0 other L _ _ M0 (grows_app _ _ _ G1 G) HC) as CL.
    assert (V : forall l y, Forall2 (carries L) l y -> map (word_at L adv) l = y).
    { clear - Fu. intros l y X. induction X as [|w v l y X1 X IH]; [reflexivity|]. cbn [map]. rewrite IH. f_equal. now apply carries_word. }
    split; now apply V.
  Qed.

  Lemma program_binding_claim : forall T (s : spec F) state sbox rc_a rc_b (cs0 cs1 : cs F) cfg m prog ws La ws' Lb L n adv
      m2 ws2 La2 ws2' Lb2 L2 n2 adv2 i,
    poseidon_spec T s -> 1 < T -> mat_prod_id T (mds s) (mds_inv s) -> mat_prod_id T (mds_inv s) (mds s) ->
    columns_ok T state sbox rc_a rc_b -> pow5_configure T (T - 1) s state sbox rc_a rc_b cs0 = (cfg, cs1) ->
    grows (layout_empty m) La -> words_in La ws -> calls T (T - 1) s cfg prog ws La ws' Lb ->
    grows Lb L -> fits n L -> gates_hold n L adv (cs_gates cs1) -> copies_hold L adv ->
    grows (layout_empty m2) La2 -> words_in La2 ws2 -> calls T (T - 1) s cfg prog ws2 La2 ws2' Lb2 ->
    grows Lb2 L2 -> fits n2 L2 -> gates_hold n2 L2 adv2 (cs_gates cs1) -> copies_hold L2 adv2 -> length ws = length ws2 ->
    let v := map (word_at L adv) ws' in let v2 := map (word_at L2 adv2) ws2' in
    nth i v fzero = nth i v2 fzero ->
    (forall j, depends (length ws) prog i j -> nth j v fzero = nth j v2 fzero)
    \/ exists k msg msg2,
         nth_error (messages (fixed_hash T s) prog (map (word_at L adv) ws)) k = Some msg
         /\ nth_error (messages (fixed_hash T s) prog (map (word_at L2 adv2) ws2)) k = Some msg2
         /\ length msg = length msg2 /\ msg <> msg2 /\ fixed_hash T s msg = fixed_hash T s msg2.
  Proof.
    intros T s state sbox rc_a rc_b cs0 cs1 cfg m prog ws La ws' Lb L n adv m2 ws2 La2 ws2' Lb2 L2 n2 adv2 i Hs HT I1 I2 Hc Hcfg
      G0 W C G Fn HG HC G0' W' C' G' Fn' HG' HC' El v v2.
    destruct (calls_sound T s state sbox rc_a rc_b cs0 cs1 cfg Hs HT I1 I2 Hc Hcfg prog ws La ws' Lb m L n adv C G0 W G Fn HG HC) as [E1 F1].
    destruct (calls_sound T s state sbox rc_a rc_b cs0 cs1 cfg Hs HT I1 I2 Hc Hcfg prog ws2 La2 ws2' Lb2 m2 L2 n2 adv2 C' G0' W' G' Fn' HG' HC') as [E2 _].
    unfold v, v2. rewrite E1, E2. intros Ei.
    pose proof (binding_pure (fixed_hash T s) prog (map (word_at L adv) ws) (map (word_at L2 adv2) ws2) i) as X.
    rewrite !map_length in X. exact (X El F1 Ei).
  Qed.

  Lemma fixed_hash_claim : forall T (s : spec F) msg, poseidon_spec T s -> 1 < T -> msg <> [] ->
    hash_constant_length T (T - 1) (length msg) s (hash_init T (T - 1) (constant_length (T - 1) (length msg))) msg = Ok (fixed_hash T s msg).
  Proof.
    intros T s msg Hs HT Hn. rewrite constant_length_claim; [|lia|assumption|reflexivity].
    destruct (Nat.eqb_spec (length msg) 0) as [E|E]; [destruct msg; [contradiction|discriminate E]|]. reflexivity.
  Qed.
End Claims.
