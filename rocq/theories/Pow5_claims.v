(** The lemmas behind PropertiesPow5.v. *)
From Coq Require Import ZArith List Arith Lia Bool.
From Verif Require Import Field Rust ListAux Primitives Specs SpecHash Perm_proof BigSum Link Base_claims Halo2 Septidon PermuteChip
  ChipUse Pow5 Built Pow5Use Layout_proof SeptVal_proof SeptGate_proof Contract Stack_proof Sept_claims Pow5Gate_proof Pow5Rows_proof Pow5Block_proof
  Pow5Chip_proof Trace_proof Pow5Use_proof Pow5Honest_proof.
Import ListNotations.
Local Open Scope nat_scope.

Section Claims.
  Context {F : Type} {FO : FieldOps F} {PF : PrimeField F}.

  Lemma enable_all : forall l (c : cs F), let c' := fold_left (fun c col => enable_equality col c) l c in
    cs_sel c' = cs_sel c /\ cs_gates c' = cs_gates c /\ cs_const c' = cs_const c /\ cs_lookups c' = cs_lookups c
    /\ (forall x, In x l \/ In x (cs_eq c) -> In x (cs_eq c')).
  Proof.
    induction l as [|a l IH]; intros c; cbn [fold_left]; [cbn; intuition|].
    destruct (IH (enable_equality a c)) as (A & B & C & D & E). cbn zeta in *.
    split; [exact A|]. split; [exact B|]. split; [exact C|]. split; [exact D|].
    intros x H. apply E. destruct H as [[->|H]|H]; [right|now left|right]; cbn; apply in_app_iff; [right; now left|now left].
  Qed.

  Lemma pow5_configured : forall T RATE (s : spec F) state sbox rc_a rc_b cs0 cfg cs1,
    pow5_configure T RATE s state sbox rc_a rc_b cs0 = (cfg, cs1) ->
    p5_state cfg = state /\ p5_sbox cfg = sbox /\ p5_rc_a cfg = rc_a /\ p5_rc_b cfg = rc_b
    /\ NoDup (p5_selectors cfg) /\ cs_gates cs1 = cs_gates cs0 ++ p5_gates T RATE s cfg
    /\ cs_const cs1 = cs_const cs0 /\ cs_lookups cs1 = cs_lookups cs0.
  Proof.
    intros T RATE s state sbox rc_a rc_b cs0 cfg cs1 H. unfold pow5_configure in H.
    destruct (enable_all (map Adv state ++ map Fix rc_b) cs0) as (A & B & C & D & _). cbn zeta in *.
    set (c := fold_left _ _ _) in *. clearbody c. unfold complex_selector in H. cbn [cs_sel] in H.
    injection H as <- <-. unfold p5_selectors. cbn. split; [reflexivity|]. split; [reflexivity|]. split; [reflexivity|].
    split; [reflexivity|]. split; [repeat (constructor; [cbn; lia|]); constructor|].
    split; [|auto]. unfold p5_gates. rewrite B, !app_assoc. reflexivity.
  Qed.

  Section Config.
    Variables (T : nat) (s : spec F) (state : list nat) (sbox : nat) (rc_a rc_b : list nat) (cs0 cs1 : cs F) (cfg : pow5).
    Hypothesis Hspec : poseidon_spec T s.
    Hypothesis HT : 1 < T.
    Hypothesis Inv1 : mat_prod_id T (mds s) (mds_inv s).
    Hypothesis Inv2 : mat_prod_id T (mds_inv s) (mds s).
    Hypothesis Hcols : columns_ok T state sbox rc_a rc_b.
    Hypothesis Hcfg : pow5_configure T (T - 1) s state sbox rc_a rc_b cs0 = (cfg, cs1).

    Lemma cfg_cols : length (p5_state cfg) = T /\ length (p5_rc_a cfg) = T /\ length (p5_rc_b cfg) = T
      /\ NoDup (p5_sbox cfg :: p5_state cfg) /\ NoDup (p5_rc_a cfg ++ p5_rc_b cfg) /\ NoDup (p5_selectors cfg).
    Proof.
      destruct (pow5_configured _ _ _ _ _ _ _ _ _ _ Hcfg) as (-> & -> & -> & -> & S & _).
      destruct Hcols as (A & B & C & D & E). tauto.
    Qed.
    Lemma cfg_gates : cs_gates cs1 = cs_gates cs0 ++ p5_gates T (T - 1) s cfg.
    Proof. apply (pow5_configured _ _ _ _ _ _ _ _ _ _ Hcfg). Qed.

    Lemma scoped_permute : forall (L : layout F) ws, words_in L ws -> length ws = T ->
      scoped (S (length (lo_starts L))) (ev_permute T s cfg (length (lo_starts L)) ws).
    Proof.
      intros L ws HW Hl. destruct cfg_cols as (A & B & C & D & E & G). split.
      - intros a b H. apply (ev_permute_copies T (T - 1) s Hspec HT eq_refl cfg A B C D E G Inv1 Inv2) in H; [|assumption].
        destruct H as (i & Hi & -> & ->). cbn [ce_region]. split; [lia|].
        unfold words_in in HW. rewrite Forall_forall in HW.
        assert (X : In (nth i ws zero_cell) ws) by (apply nth_In; lia). specialize (HW _ X). cbn in HW. lia.
      - intros a v H. now apply (ev_permute_const T (T - 1) s Hspec HT eq_refl cfg A B C D E G Inv1 Inv2) in H.
    Qed.

    Lemma permute_sound_at : forall m L0 L1 L ws out n adv, grows (layout_empty m) L0 -> words_in L0 ws -> length ws = T ->
      p5_permute s cfg ws L0 = Ok (L1, out) -> grows L1 L -> fits n L ->
      gates_hold n L adv (cs_gates cs1) -> copies_hold L adv ->
      map (word_at L adv) out = textbook s (map (word_at L adv) ws).
    Proof.
      intros m L0 L1 L ws out n adv G0 HW Hl H G1 Fn HG HC. destruct cfg_cols as (A & B & C & D & E & N).
      destruct (built_trace m L0 G0) as [rs TR].
      destruct (laid_region _ L0 L1 out rs TR H) as (evs & Ev & La).
      rewrite (permute_region_ok T (T - 1) s Hspec HT eq_refl cfg A B C D E N) in Ev by assumption.
      injection Ev as <- <-. specialize (La (scoped_permute L0 ws HW Hl)).
      apply (laid_more L1 L _ _ G1) in La.
      apply (permute_sound T (T - 1) s Hspec HT eq_refl cfg A B C D E N Inv1 Inv2 n L adv Fn); try assumption.
      intros g r Hg. apply HG. rewrite cfg_gates, in_app_iff. now right.
    Qed.

    Lemma permute_total : forall L ws, length ws = T -> exists L1 out, p5_permute s cfg ws L = Ok (L1, out).
    Proof.
      intros L ws Hl. destruct cfg_cols as (A & B & C & D & E & N).
      eexists. eexists. unfold p5_permute. apply assign_region_ok.
      - apply (permute_region_ok T (T - 1) s Hspec HT eq_refl cfg A B C D E N). assumption.
      - apply (const_permute T (T - 1) s Hspec HT eq_refl cfg A B C D E N).
    Qed.

    Lemma made_inv_at : forall L other, made (p5_selectors cfg) (p5_instruction T (T - 1) s cfg) L other ->
      inv T (T - 1) s cfg L other.
    Proof.
      intros L other. destruct cfg_cols as (A & B & C & D & E & N).
      apply (made_inv T (T - 1) s Hspec HT eq_refl cfg A B C D E N Inv1 Inv2).
    Qed.
    Lemma made_honest : forall L other u n blind, made (p5_selectors cfg) (p5_instruction T (T - 1) s cfg) L other ->
      fits u L -> u <= n -> let adv := honest u L blind in
      (gates_hold n L adv (cs_gates cs0) -> gates_hold n L adv (cs_gates cs1))
      /\ ((forall a b, In (a, b) other -> cell_at L adv a = cell_at L adv b) -> copies_hold L adv).
    Proof.
      intros L other u n blind M Fu Hu adv. destruct cfg_cols as (A & B & C & D & E & N). apply made_inv_at in M. split.
      - intros H g r Hg Hr. rewrite cfg_gates, in_app_iff in Hg. destruct Hg as [Hg|Hg]; [now apply H|].
        exact (honest_gates T (T - 1) s Hspec HT eq_refl cfg A B C D E N Inv1 Inv2 n u L blind other M Fu Hu g r Hg Hr).
      - intros H. exact (honest_copies T (T - 1) s Hspec HT eq_refl cfg A B C D E N Inv1 Inv2 n u L blind other M Fu Hu H).
    Qed.
    Lemma carries_word : forall L w v u blind, fits u L -> carries L w v -> word_at L (honest u L blind) w = v.
    Proof.
      intros L w v u blind Fu (_ & _ & H). unfold word_at. exact (honest_cell u L blind Fu _ _ H).
    Qed.
    Lemma carries_later : forall L other L' ws xs, made (p5_selectors cfg) (p5_instruction T (T - 1) s cfg) L other ->
      grows L L' -> Forall2 (carries L) ws xs -> Forall2 (carries L') ws xs.
    Proof.
      intros L other L' ws xs M G H. apply made_inv_at in M. destruct M as (rs & TR & _).
      destruct (grows_trace L L' G rs TR) as (rs' & new & copies & T' & S' & _).
      induction H as [|w x ws xs H1 H IH]; constructor; [|exact IH]. exact (carries_kept L rs L' rs' new w x TR T' S' H1).
    Qed.
    Lemma permute_carries_at : forall L other L1 ws xs out, made (p5_selectors cfg) (p5_instruction T (T - 1) s cfg) L other ->
      length ws = T -> Forall2 (carries L) ws xs -> p5_permute s cfg ws L = Ok (L1, out) ->
      Forall2 (carries L1) out (textbook s xs).
    Proof.
      intros L other L1 ws xs out M Hl HC H. apply made_inv_at in M. destruct M as (rs & TR & _).
      destruct cfg_cols as (A & B & C & D & E & N).
      exact (permute_carries T (T - 1) s Hspec HT eq_refl cfg A B C D E N Inv1 Inv2 L L1 ws xs out rs TR Hl HC H).
    Qed.
  End Config.

  (** C21 *)
  (** which chips can be configured *)
  Theorem pow5_asserts_claim : forall T RATE (s : spec F),
    pow5_asserts T RATE s = true <-> RATE + 1 = T /\ 1 <= RATE /\ Nat.Even (full_rounds s).
  Proof.
    intros T RATE s. unfold pow5_asserts. rewrite !andb_true_iff, Nat.eqb_eq, Nat.ltb_lt, Nat.even_spec.
    split; [intros [[H1 H2] H3]|intros (H1 & H2 & H3)]; repeat split; try assumption; lia.
  Qed.

  Theorem pow5_sound_claim : forall T (s : spec F) state sbox rc_a rc_b (cs0 cs1 : cs F) cfg m L0 L1 L ws out n adv,
    poseidon_spec T s -> 1 < T -> mat_prod_id T (mds s) (mds_inv s) -> mat_prod_id T (mds_inv s) (mds s) ->
    columns_ok T state sbox rc_a rc_b -> pow5_configure T (T - 1) s state sbox rc_a rc_b cs0 = (cfg, cs1) ->
    grows (layout_empty m) L0 -> words_in L0 ws -> length ws = T -> p5_permute s cfg ws L0 = Ok (L1, out) ->
    grows L1 L -> fits n L -> gates_hold n L adv (cs_gates cs1) -> copies_hold L adv ->
    map (word_at L adv) out = textbook s (map (word_at L adv) ws).
  Proof. intros. eapply permute_sound_at; eassumption. Qed.

  (** C22 *)
  Theorem pow5_complete_claim : forall T (s : spec F) state sbox rc_a rc_b (cs0 cs1 : cs F) cfg,
    poseidon_spec T s -> 1 < T -> mat_prod_id T (mds s) (mds_inv s) -> mat_prod_id T (mds_inv s) (mds s) ->
    columns_ok T state sbox rc_a rc_b -> pow5_configure T (T - 1) s state sbox rc_a rc_b cs0 = (cfg, cs1) ->
    let circuit := made (p5_selectors cfg) (p5_instruction T (T - 1) s cfg) in
    (forall L ws, length ws = T -> exists L1 out, p5_permute s cfg ws L = Ok (L1, out))
    /\ (forall L other u n blind, circuit L other -> fits u L -> u <= n -> let adv := honest u L blind in
          (gates_hold n L adv (cs_gates cs0) -> gates_hold n L adv (cs_gates cs1))
          /\ ((forall a b, In (a, b) other -> cell_at L adv a = cell_at L adv b) -> copies_hold L adv))
    /\ (forall L0 other L1 L ws xs out u blind, circuit L0 other -> length ws = T -> Forall2 (carries L0) ws xs ->
          p5_permute s cfg ws L0 = Ok (L1, out) -> grows L1 L -> fits u L -> let adv := honest u L blind in
          Forall2 (carries L) out (textbook s xs)
          /\ map (word_at L adv) ws = xs /\ map (word_at L adv) out = textbook s xs).
  Proof.
    intros T s state sbox rc_a rc_b cs0 cs1 cfg Hs HT I1 I2 Hc Hcfg circuit.
    split; [intros; eapply permute_total; eassumption|]. split; [intros; eapply made_honest; eassumption|].
    intros L0 other L1 L ws xs out u blind M Hl HC H G Fu adv.
    pose proof (permute_carries_at T s state sbox rc_a rc_b cs0 cs1 cfg Hs HT I1 I2 Hc Hcfg L0 other L1 ws xs out M Hl HC H) as O1.
    assert (M1 : circuit L1 other) by (eapply made_op; [exact M|]; eapply do_permute; eassumption).
    pose proof (carries_later T s state sbox rc_a rc_b cs0 cs1 cfg Hs HT I1 I2 Hc Hcfg L1 other L out _ M1 G O1) as O2.
    assert (G0 : grows L0 L) by (eapply grows_app; [exact (grows_one _ L0 L1 out H)|exact G]).
    pose proof (carries_later T s state sbox rc_a rc_b cs0 cs1 cfg Hs HT I1 I2 Hc Hcfg L0 other L ws _ M G0 HC) as W2.
    assert (WV : forall l y, Forall2 (carries L) l y -> map (word_at L adv) l = y).
    { intros l y X. induction X as [|w v l y X1 X IH]; [reflexivity|]. cbn [map]. rewrite IH. f_equal.
      now apply carries_word. }
    split; [exact O2|]. split; now apply WV.
  Qed.

  (** the width-3 chip behind the hash circuit *)
  Lemma pow5_poseidon : forall (c : p128_constants F) s, constants_ok c ->
    mat_prod_id 3 (pc_mds c) (pc_mds_inv c) -> mat_prod_id 3 (pc_mds_inv c) (pc_mds c) ->
    s = p128_spec c \/ compact_spec c = Ok s ->
    chip_correct (pow5_chip s) (poseidon_permutation c) (S (p5_R s)).
  Proof.
    intros c s Hc I1 I2 [->|Hs].
    - exact (pow5_correct (p128_spec c) (p128_spec_ok c Hc) I1 I2).
    - assert (E : mds s = pc_mds c /\ mds_inv s = pc_mds_inv c).
      { unfold compact_spec in Hs. destruct (compact_round_constants _ _ _ _); [|discriminate Hs]. cbn in Hs.
        apply Ok_inj in Hs. now subst s. }
      destruct E as [E1 E2]. eapply chip_correct_ext; [|apply pow5_correct].
      + intros x Hx. destruct (compact_constants_claim c s x Hc Hs Hx) as [_ <-].
        symmetry. exact (hash_permute_textbook 3 s x (compact_spec_ok c s Hc Hs) Hx).
      + now apply compact_spec_ok with c.
      + now rewrite E1, E2.
      + now rewrite E1, E2.
  Qed.

  (** a call of any correct chip in any circuit around it *)
  Lemma used_perm : forall P (perm : list F -> list F) h (cs0 : cs F) L calls other n adv, chip_correct P perm h ->
    (forall x, length x = 3 -> length (perm x) = 3) ->
    let cfg := fst (pc_configure P cs0) in let cs1 := snd (pc_configure P cs0) in
    chip_used P cfg (added cs0 cs1) L calls other -> h * length calls <= n ->
    gates_hold n L adv (cs_gates cs1) -> copies_hold L adv ->
    forall ws out, In (ws, out) calls -> map (word_at L adv) out = perm (map (word_at L adv) ws).
  Proof.
    intros P perm h cs0 L calls other n adv PC Hl cfg cs1 U Hn G C ws out H.
    rewrite (used_sound P perm h PC cs0 L calls other n adv U Hn G C ws out H). apply as_list, Hl. rewrite map_length.
    destruct (PC cs0) as (D & Laws & _ & Own & _ & _ & _ & _ & _ & _ & _ & R1 & R2).
    apply (used_own P cfg _ (cd_own D)) in U; [|intros col; symmetry; apply Own].
    pose proof (used_inv P D _ cfg L calls other Laws R1 R2 U) as I.
    apply In_nth_error in H. destruct H as [i Ei].
    destruct (inv_call D L calls other i ws out I Ei) as (_ & _ & [X _] & _). exact X.
  Qed.

  (** C25 *)
  Theorem chips_interchangeable_claim : forall (c : p128_constants F) s s' (csA csB : cs F) LA callsA otherA nA advA LB callsB otherB nB advB,
    constants_ok c -> pc_partial_rounds c = 57 ->
    mat_prod_id 3 (pc_mds c) (pc_mds_inv c) -> mat_prod_id 3 (pc_mds_inv c) (pc_mds c) ->
    compact_spec c = Ok s -> s' = p128_spec c \/ s' = s ->
    let A := septidon_chip (round_constants s) (mds s) in let B := pow5_chip s' in
    chip_used A (fst (pc_configure A csA)) (added csA (snd (pc_configure A csA))) LA callsA otherA -> 8 * length callsA <= nA ->
    chip_used B (fst (pc_configure B csB)) (added csB (snd (pc_configure B csB))) LB callsB otherB -> 38 * length callsB <= nB ->
    gates_hold nA LA advA (cs_gates (snd (pc_configure A csA))) -> copies_hold LA advA ->
    gates_hold nB LB advB (cs_gates (snd (pc_configure B csB))) -> copies_hold LB advB ->
    forall wsA outA wsB outB, In (wsA, outA) callsA -> In (wsB, outB) callsB ->
    map (word_at LA advA) wsA = map (word_at LB advB) wsB -> map (word_at LA advA) outA = map (word_at LB advB) outB.
  Proof.
    intros c s s' csA csB LA callsA otherA nA advA LB callsB otherB nB advB Hc Hp I1 I2 Hs Hs' A B UA NA UB NB GA CA GB CB
      wsA outA wsB outB HA HB E.
    assert (E38 : S (p5_R s') = 38).
    { destruct Hs' as [->| ->].
      - unfold p5_R, half_full, half_partial. cbn [p128_spec full_rounds partial_rounds]. rewrite Hp. reflexivity.
      - unfold compact_spec in Hs. destruct (compact_round_constants _ _ _ _) as [rc|]; [|discriminate Hs]. cbn in Hs.
        apply Ok_inj in Hs. subst s. unfold p5_R, half_full, half_partial. cbn [full_rounds partial_rounds]. rewrite Hp. reflexivity. }
    assert (PL : forall x, length x = 3 -> length (poseidon_permutation c x) = 3) by (intros x Hx; now apply spec_permute_length).
    assert (PB : chip_correct B (poseidon_permutation c) 38).
    { rewrite <- E38. apply pow5_poseidon; try assumption. destruct Hs' as [->| ->]; auto. }
    pose proof (used_perm A (poseidon_permutation c) 8 csA LA callsA otherA nA advA (septidon_poseidon c s Hc Hp Hs) PL UA NA GA CA _ _ HA) as XA.
    pose proof (used_perm B (poseidon_permutation c) 38 csB LB callsB otherB nB advB PB PL UB NB GB CB _ _ HB) as XB.
    rewrite XA, XB, E. reflexivity.
  Qed.
End Claims.
