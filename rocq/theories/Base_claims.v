(** The lemmas behind PropertiesBase.v, phrased with the vocabulary of Link.v. *)
From Coq Require Import ZArith Znumtheory List Arith Lia Bool.
From Verif Require Import Field Rust ListAux NumTheory ZpField Primes Primitives Specs Grain Mds Bn256 Pasta
  BaseHash SpecHash Link Perm_proof Sponge_proof BigSum Bij_proof Mds_proof Compact_proof BaseHash_proof
  Grain_proof GrainTerm_proof Const_proof.
Import ListNotations.
Local Open Scope nat_scope.

Section Claims.
  Context {F : Type} {FO : FieldOps F} {PF : PrimeField F}.

  Lemma hash_permute_textbook : forall T (s : spec F) st, poseidon_spec T s -> length st = T ->
    hash_permute T s st = textbook s st.
  Proof.
    intros T s st (H1 & H2 & H3 & H4) Hst. unfold hash_permute, textbook.
    now apply permute_spec with (T := T).
  Qed.

  Lemma textbook_agrees : forall T (s : spec F), poseidon_spec T s ->
    forall x, length x = T -> hash_permute T s x = textbook s x /\ length (hash_permute T s x) = T.
  Proof.
    intros T s H x Hx. split; [now apply hash_permute_textbook|]. now apply permute_length.
  Qed.

  Lemma p128_spec_ok : forall c, constants_ok c -> poseidon_spec 3 (p128_spec (F := F) c).
  Proof.
    intros c (H1 & H2 & H3). split; [exact sbox_pow_power5|]. split; [exact H1|]. split; [exact H2|].
    cbn [full_rounds partial_rounds round_constants p128_spec Nat.div2]. lia.
  Qed.

  Lemma compact_forall : forall full partial (m : list (list F)) rc rc',
    square 3 m -> Forall (fun r => length r = 3) rc ->
    compact_round_constants full partial m rc = Ok rc' ->
    Forall (fun r => length r = 3) rc' /\ length rc' = length rc.
  Proof.
    intros full partial m rc rc' Hm. unfold compact_round_constants.
    generalize (seq (Nat.div2 full) partial). intros l. revert rc.
    induction l as [|i l IH]; intros rc Hrc H; cbn [fold_r] in H.
    - injection H as <-. auto.
    - destruct (compact_step m rc i) as [rc1|] eqn:E; [|discriminate]. cbn [bind] in H.
      assert (S : Forall (fun r => length r = 3) rc1 /\ length rc1 = length rc).
      { unfold compact_step in E. destruct (index rc i) as [row|] eqn:Ei; [|discriminate]. cbn [bind] in E.
        assert (Hrow : length row = 3).
        { unfold index in Ei. destruct (nth_error rc i) eqn:En; [|discriminate]. injection Ei as <-.
          apply nth_error_In in En. rewrite Forall_forall in Hrc. auto. }
        destruct (vec_remove_tail row) as [row' tail] eqn:Ev.
        assert (Hrow' : length row' = 3).
        { destruct row as [|a t]; [discriminate|]. cbn in Ev. injection Ev as <- <-. cbn in *.
          now rewrite map_length. }
        assert (U : forall (l : list (list F)) j x, Forall (fun r => length r = 3) l -> length x = 3 ->
          Forall (fun r => length r = 3) (upd l j x)).
        { clear. induction l as [|y l IHl]; intros [|j] x Hl Hx; cbn; auto;
            inversion Hl; subst; constructor; auto. }
        destruct (index (upd rc i row') (i + 1)) as [nxt|] eqn:En; [|discriminate]. cbn [bind] in E.
        injection E as <-. split.
        - apply U; [now apply U|]. unfold vec_accumulate. rewrite zip_mut_length.
          assert (Fu : Forall (fun r => length r = 3) (upd rc i row')) by now apply U.
          unfold index in En. destruct (nth_error (upd rc i row') (i + 1)) eqn:En2; [|discriminate].
          injection En as <-. apply nth_error_In in En2. rewrite Forall_forall in Fu. auto.
        - now rewrite !upd_length. }
      destruct S as [S1 S2]. destruct (IH rc1 S1 H) as [R1 R2]. split; [assumption|]. congruence.
  Qed.

  (** C01 *)
  Lemma compact_constants_claim : forall (c : p128_constants F) s st, constants_ok c ->
    compact_spec c = Ok s -> length st = 3 ->
    permute 3 s (mds s) (round_constants s) st
      = permute 3 (p128_spec c) (pc_mds c) (pc_round_constants c) st
    /\ permute 3 s (mds s) (round_constants s) st = poseidon_permutation c st.
  Proof.
    intros c s st Hc Hs Hst.
    assert (E : permute 3 s (mds s) (round_constants s) st
      = permute 3 (p128_spec c) (pc_mds c) (pc_round_constants c) st).
    { destruct Hc as (H1 & H2 & H3). unfold compact_spec in Hs.
      destruct (compact_round_constants 8 (pc_partial_rounds c) (pc_mds c) (pc_round_constants c))
        as [rc|] eqn:E; [|discriminate]. cbn [bind] in Hs. injection Hs as <-.
      cbn [mds round_constants].
      rewrite <- (compact_same_permutation (p128_spec c) (pc_mds c) (pc_round_constants c) rc st);
        cbn [full_rounds partial_rounds p128_spec]; auto; [|lia|cbn; lia].
      apply permute_sbox_ext; cbn; auto. intros x. now rewrite sbox_mul_power5, sbox_pow_power5. }
    split; [exact E|]. rewrite E.
    change (hash_permute 3 (p128_spec c) st = textbook (p128_spec c) st).
    apply hash_permute_textbook; [now apply p128_spec_ok|assumption].
  Qed.

  Lemma compact_spec_exists : forall c, constants_ok c -> exists s, compact_spec (F := F) c = Ok s.
  Proof.
    intros c (H1 & H2 & H3). unfold compact_spec. rewrite compact_ok by (cbn; lia). eexists. reflexivity.
  Qed.

  (** C02-C05 *)
  Lemma constant_length_claim : forall T RATE L (s : spec F) m, 0 < RATE < T -> poseidon_spec T s ->
    length m = L ->
    hash_constant_length T RATE L s (hash_init T RATE (constant_length RATE L)) m
    = if L =? 0 then Panic
      else Ok (sponge_hash (textbook s) T RATE 0 RATE (of_Z (Z.of_nat L * 2 ^ 64)) m).
  Proof.
    intros T RATE L s m H Hs HL. rewrite hash_constant_length_spec by assumption.
    destruct (L =? 0); [reflexivity|]. f_equal. apply sponge_hash_ext. now apply textbook_agrees.
  Qed.

  Lemma constant_length_iden3_claim : forall T RATE L (s : spec F) m d, 0 < RATE < T -> poseidon_spec T s ->
    length m = L ->
    hash_constant_length_iden3 T RATE L s (hash_init T RATE (constant_length_iden3 RATE L)) m d
    = if L =? 0 then Panic else Ok (sponge_hash (textbook s) T RATE (T - RATE) 0 d m).
  Proof.
    intros T RATE L s m d H Hs HL. rewrite hash_constant_length_iden3_spec by assumption.
    destruct (L =? 0); [reflexivity|]. f_equal. apply sponge_hash_ext. now apply textbook_agrees.
  Qed.

  Lemma cached_agrees : forall short c s, constants_ok c -> cached_hash_spec short c = Ok s ->
    forall x, length x = 3 ->
    hash_permute 3 s x = poseidon_permutation c x /\ length (hash_permute (F := F) 3 s x) = 3.
  Proof.
    intros short c s Hc Hs x Hx. split; [|now apply permute_length].
    rewrite (cached_permute short c s Hc Hs x Hx).
    apply (hash_permute_textbook 3 (p128_spec c)); [now apply p128_spec_ok|assumption].
  Qed.

  Lemma hash_msg_claim : forall short legacy c s msg cap, constants_ok c ->
    cached_hash_spec (F := F) short c = Ok s ->
    hash_msg legacy s msg cap
    = match msg with
      | [] => Panic
      | _ => Ok (message_hash c
               (match cap with
                | Some n => of_Z (Z.of_N n)
                | None => of_Z (Z.of_nat (length msg) * (if legacy then 1 else 2 ^ 64))
                end) msg)
      end.
  Proof.
    intros short legacy c s msg cap Hc Hs. rewrite hash_msg_spec. destruct msg; [reflexivity|].
    f_equal. apply sponge_hash_ext. now apply (cached_agrees short).
  Qed.

  Lemma no_panic_claim : forall short legacy c s, constants_ok c -> cached_hash_spec (F := F) short c = Ok s ->
    (forall msg cap, hash_msg legacy s msg cap = Panic <-> msg = [])
    /\ (forall T RATE L s' m, 0 < RATE < T -> poseidon_spec T s' -> length m = L ->
          (hash_constant_length (F := F) T RATE L s' (hash_init T RATE (constant_length RATE L)) m = Panic
             <-> L = 0)
          /\ forall d, hash_constant_length_iden3 (F := F) T RATE L s'
                 (hash_init T RATE (constant_length_iden3 RATE L)) m d = Panic <-> L = 0).
  Proof.
    intros short legacy c s Hc Hs. split.
    - intros msg cap. rewrite (hash_msg_claim short legacy c s) by assumption.
      destruct msg; split; intros H; try reflexivity; discriminate.
    - intros T RATE L s' m HT Hs' HL. split; [|intros d].
      + rewrite constant_length_claim by assumption. destruct (L =? 0) eqn:E.
        * apply Nat.eqb_eq in E. tauto.
        * apply Nat.eqb_neq in E. split; [discriminate|contradiction].
      + rewrite constant_length_iden3_claim by assumption. destruct (L =? 0) eqn:E.
        * apply Nat.eqb_eq in E. tauto.
        * apply Nat.eqb_neq in E. split; [discriminate|contradiction].
  Qed.

  (** C06 *)
  Lemma two_word_claim : forall short legacy c s a b, constants_ok c ->
    cached_hash_spec (F := F) short c = Ok s ->
    (forall d, hash_with_domain s (a, b) d = Ok (two_word_hash c a b d))
    /\ hash s (a, b) = Ok (two_word_hash c a b fzero)
    /\ (forall n, hash_msg legacy s [a; b] (Some n) = hash_with_domain s (a, b) (of_Z (Z.of_N n)))
    /\ (forall d, nth 0 (hash_permute 3 s [d; a; b]) fzero = two_word_hash c a b d).
  Proof.
    intros short legacy c s a b Hc Hs.
    assert (P : forall d, nth 0 (hash_permute 3 s [d; a; b]) fzero = two_word_hash c a b d).
    { intros d. unfold two_word_hash. f_equal. now apply (cached_agrees short). }
    assert (Q : forall d, hash_with_domain s (a, b) d = Ok (two_word_hash c a b d)).
    { intros d. rewrite hash_with_domain_spec. now rewrite P. }
    split; [exact Q|]. split; [exact (Q fzero)|]. split; [|exact P].
    intros n. apply hash_msg_two.
  Qed.

  (** C10 *)
  Lemma feature_claim : forall c s1 s2, constants_ok c ->
    cached_hash_spec (F := F) true c = Ok s1 -> cached_hash_spec false c = Ok s2 ->
    (forall a b d, hash_with_domain s1 (a, b) d = hash_with_domain s2 (a, b) d
                   /\ hash_with_domain s1 (a, b) d = hash_with_domain (p128_spec c) (a, b) d)
    /\ (forall legacy msg cap, hash_msg legacy s1 msg cap = hash_msg legacy s2 msg cap
                   /\ hash_msg legacy s1 msg cap = hash_msg legacy (p128_spec c) msg cap)
    /\ (forall st, length st = 3 -> hash_permute 3 s1 st = hash_permute 3 s2 st).
  Proof.
    intros c s1 s2 Hc H1 H2. destruct (feature_independent c s1 s2 Hc H1 H2) as [A B].
    split; [exact A|]. split; [exact B|]. intros st Hst.
    rewrite (proj1 (cached_agrees true c s1 Hc H1 st Hst)).
    now rewrite (proj1 (cached_agrees false c s2 Hc H2 st Hst)).
  Qed.

  (** C07 *)
  Lemma commits_claim : forall m1 m2 : list F,
    (forall legacy, (2 ^ 128 <= modulus (F := F))%Z ->
      (Z.of_nat (length m1) < 2 ^ 64)%Z -> (Z.of_nat (length m2) < 2 ^ 64)%Z ->
      @from_u128 F _ (msg_cap legacy (length m1) None) = from_u128 (msg_cap legacy (length m2) None) ->
      blocks 2 (pad_zeros 2 m1) = blocks 2 (pad_zeros 2 m2) -> m1 = m2)
    /\ (blocks 2 (pad_zeros 2 m1) = blocks 2 (pad_zeros 2 m2) <->
          m1 = m2
          \/ (Nat.odd (length m1) = true /\ m2 = m1 ++ [fzero])
          \/ (Nat.odd (length m2) = true /\ m1 = m2 ++ [fzero]))
    /\ (forall legacy s n, Nat.odd (length m1) = true ->
          hash_msg legacy s (m1 ++ [fzero]) (Some n) = hash_msg legacy s m1 (Some n)).
  Proof.
    intros m1 m2. split; [|split].
    - intros legacy. apply default_cap_injective.
    - apply same_blocks_iff.
    - intros legacy s n. apply explicit_cap_collision.
  Qed.

  (** C11 *)
  Lemma squeeze_claim : forall T RATE layout (s : spec F) cap w n,
    0 < RATE -> layout + RATE <= T -> poseidon_spec T s ->
    (do sp <- absorb_all T RATE s w (sponge_new T RATE cap layout);
     do sp <- finish_absorbing T RATE s sp;
     squeeze_n T RATE s n sp)
    = if (length w =? 0) || negb (length w mod RATE =? 0) then Panic
      else let st := absorb_blocks (textbook s) layout (blocks RATE w)
                       (init_state T ((RATE + layout) mod T) cap) in
           Ok (map (fun i => nth (i mod RATE) (Nat.iter (i / RATE) (textbook s) st) fzero) (seq 0 n)).
  Proof.
    intros T RATE layout s cap w n HR HT Hs.
    set (sp := sponge_new T RATE cap layout).
    assert (Hst : sp_state sp = init_state T ((RATE + layout) mod T) cap) by apply upd_repeat_init.
    assert (Hlen : length (sp_state sp) = T) by (rewrite Hst; apply init_state_length).
    destruct (absorb_all_absorbed T RATE layout s HR HT (sp_state sp) w [] sp Hlen
                (new_absorbed T RATE layout s HR HT sp eq_refl eq_refl)) as [sp1 [E1 H1]].
    rewrite E1. cbn [bind]. cbn [app] in H1.
    rewrite (finish_absorbed T RATE layout s HR HT _ _ _ Hlen H1).
    destruct (length w =? 0); [reflexivity|]. destruct (length w mod RATE =? 0); [|reflexivity].
    cbn zeta. cbn [bind negb orb].
    assert (Ea : absorb_blocks (hash_permute T s) layout (blocks RATE w) (sp_state sp)
       = absorb_blocks (textbook s) layout (blocks RATE w) (init_state T ((RATE + layout) mod T) cap)).
    { rewrite <- Hst. apply absorb_blocks_ext with T; [assumption|]. now apply textbook_agrees. }
    set (st := absorb_blocks (hash_permute T s) layout (blocks RATE w) (sp_state sp)) in *.
    assert (Hl : length st = T) by (now apply absorb_blocks_length).
    rewrite (squeeze_n_spec T RATE layout s HR HT n st 0 _ (finish_squeezing T RATE layout HR HT st Hl)).
    f_equal. apply map_ext. intros i. cbn [Nat.add]. rewrite <- Ea. f_equal. clear Ea. clearbody st. clear - Hl Hs PF.
    generalize (i / RATE). intros k. revert st Hl. induction k as [|k IH]; intros st Hl; [reflexivity|].
    cbn [iter_perm]. rewrite IH by (now apply permute_length).
    rewrite (hash_permute_textbook T s st Hs Hl).
    generalize (textbook s). clear. intros f. revert st.
    induction k as [|k IH]; intros st; [reflexivity|].
    change (f (Nat.iter k f (f st)) = f (Nat.iter (S k) f st)). now rewrite IH.
  Qed.
End Claims.

Lemma bn256_ok : constants_ok bn256_c.
Proof. exact bn256_shape. Qed.

Lemma bn256_bijective_claim : forall short s, cached_hash_spec short bn256_c = Ok s ->
  (forall x y, length x = 3 -> length y = 3 -> hash_permute 3 s x = hash_permute 3 s y -> x = y)
  /\ (forall y, length y = 3 -> exists x, length x = 3 /\ hash_permute 3 s x = y).
Proof. intros short s Hs. apply (bn256_bijective short s Hs). Qed.
