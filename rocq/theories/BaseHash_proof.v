(** Proofs about the public hashing API (BaseHash.v). *)
From Coq Require Import ZArith List Arith Lia Bool.
From Verif Require Import Field Rust ListAux Primitives Specs BaseHash SpecHash Perm_proof Sponge_proof
  Compact_proof.
Import ListNotations.
Local Open Scope F_scope.

Section Proofs.
  Context {F : Type} {FO : FieldOps F} {PF : PrimeField F}.
  Add Field Ffield : f_field.

  (** ** two-word APIs *)

  Lemma sponge_hash_two : forall perm (cap a b : F),
    sponge_hash perm 3 2 1 0 cap [a; b] = nth 0 (perm [cap; a; b]) 0.
  Proof.
    intros perm cap a b. unfold sponge_hash.
    replace (absorb_blocks perm 1 (blocks 2 (pad_zeros 2 [a; b])) (init_state 3 0 cap))
      with (perm [cap; a; b]); [reflexivity|].
    unfold absorb_blocks, blocks, pad_zeros, init_state, add_block. cbn.
    f_equal. f_equal; [ring|]. f_equal; [ring|]. f_equal. ring.
  Qed.

  Theorem hash_with_domain_spec : forall (s : spec F) a b d,
    hash_with_domain s (a, b) d = Ok (nth 0 (hash_permute 3 s [d; a; b]) 0).
  Proof.
    intros s a b d. unfold hash_with_domain, fresh_hasher.
    rewrite hash_constant_length_iden3_spec by (auto; lia). cbn [Nat.eqb fst snd].
    now rewrite sponge_hash_two.
  Qed.

  Theorem hash_msg_two : forall legacy (s : spec F) a b c,
    hash_msg legacy s [a; b] (Some c) = hash_with_domain s (a, b) (of_Z (Z.of_N c)).
  Proof.
    intros legacy s a b c. rewrite hash_with_domain_spec. unfold hash_msg, fresh_msg_hasher.
    rewrite hash_with_cap_spec by lia. cbn [length Nat.eqb msg_cap]. now rewrite sponge_hash_two.
  Qed.

  Theorem hash_msg_spec : forall legacy (s : spec F) msg cap,
    hash_msg legacy s msg cap
    = match msg with
      | [] => Panic
      | _ => Ok (sponge_hash (hash_permute 3 s) 3 2 1 0
               (match cap with
                | Some c => of_Z (Z.of_N c)
                | None => of_Z (Z.of_nat (length msg) * (if legacy then 1 else 2 ^ 64))
                end) msg)
      end.
  Proof.
    intros legacy s msg cap. unfold hash_msg, fresh_msg_hasher.
    rewrite hash_with_cap_spec by lia. destruct msg as [|x msg]; [reflexivity|].
    cbn [length Nat.eqb]. f_equal. f_equal. destruct cap as [c|]; cbn [msg_cap]; [reflexivity|].
    f_equal. rewrite N2Z.inj_mul, nat_N_Z. f_equal. destruct legacy; reflexivity.
  Qed.

  (** ** what a message commits to *)

  Lemma concat_blocks_aux : forall n fuel (l : list F), (0 < n)%nat -> (length l <= fuel)%nat ->
    concat (blocks_aux fuel n l) = l.
  Proof.
    intros n fuel. induction fuel as [|f IH]; intros l Hn Hl; cbn.
    - destruct l; [reflexivity|cbn in Hl; lia].
    - destruct l as [|x l]; [reflexivity|]. cbn [concat].
      rewrite IH; [apply firstn_skipn|assumption|].
      rewrite skipn_length. cbn [length] in *. lia.
  Qed.

  Lemma blocks_inj : forall n (l1 l2 : list F), (0 < n)%nat -> blocks n l1 = blocks n l2 -> l1 = l2.
  Proof.
    intros n l1 l2 Hn E. apply (f_equal (@concat F)) in E. unfold blocks in E.
    now rewrite !concat_blocks_aux in E by (auto; lia).
  Qed.

  Lemma pad2 : forall l : list F, pad_zeros 2 l = if Nat.even (length l) then l else l ++ [0].
  Proof.
    intros l. unfold pad_zeros.
    destruct (Nat.even (length l)) eqn:E.
    - apply Nat.even_spec in E. destruct E as [k ->].
      rewrite Nat.mul_comm, Nat.mod_mul by lia. cbn. apply app_nil_r.
    - assert (O : Nat.odd (length l) = true) by (now rewrite <- Nat.negb_even, E).
      apply Nat.odd_spec in O. destruct O as [k ->].
      replace (2 * k + 1)%nat with (1 + k * 2)%nat by lia.
      rewrite Nat.mod_add by lia. reflexivity.
  Qed.

  (** identical sponge input, exactly *)
  Theorem same_blocks_iff : forall m1 m2 : list F,
    blocks 2 (pad_zeros 2 m1) = blocks 2 (pad_zeros 2 m2) <->
    m1 = m2
    \/ (Nat.odd (length m1) = true /\ m2 = m1 ++ [0])
    \/ (Nat.odd (length m2) = true /\ m1 = m2 ++ [0]).
  Proof.
    intros m1 m2. split.
    - intros E. apply blocks_inj in E; [|lia]. rewrite !pad2 in E.
      rewrite <- !Nat.negb_even.
      destruct (Nat.even (length m1)) eqn:E1, (Nat.even (length m2)) eqn:E2; cbn; auto.
      apply app_inj_tail in E. now left.
    - intros [->|[[O ->]|[O ->]]]; [reflexivity| |]; f_equal; rewrite !pad2;
        rewrite app_length, Nat.add_1_r, Nat.even_succ, O;
        rewrite <- Nat.negb_even in O; apply negb_true_iff in O; now rewrite O.
  Qed.

  (** the default capacity separates lengths *)
  Theorem default_cap_injective : forall legacy (m1 m2 : list F),
    (2 ^ 128 <= modulus (F := F))%Z ->
    (Z.of_nat (length m1) < 2 ^ 64)%Z -> (Z.of_nat (length m2) < 2 ^ 64)%Z ->
    @from_u128 F _ (msg_cap legacy (length m1) None) = from_u128 (msg_cap legacy (length m2) None) ->
    blocks 2 (pad_zeros 2 m1) = blocks 2 (pad_zeros 2 m2) ->
    m1 = m2.
  Proof.
    intros legacy m1 m2 Hp H1 H2 Hc Hb.
    assert (L : length m1 = length m2).
    { unfold from_u128 in Hc. cbn [msg_cap] in Hc. rewrite !N2Z.inj_mul, !nat_N_Z in Hc.
      assert (D : (Z.of_N (hashable_domain_spec legacy) = 1 \/ Z.of_N (hashable_domain_spec legacy) = 2 ^ 64)%Z)
        by (destruct legacy; auto).
      apply of_Z_inj in Hc; [|destruct D as [->| ->]; lia..].
      destruct D as [D|D]; rewrite D in Hc; lia. }
    apply same_blocks_iff in Hb. destruct Hb as [?|[[_ ->]|[_ ->]]]; auto;
      rewrite app_length in L; cbn in L; lia.
  Qed.

  Theorem explicit_cap_collision : forall legacy (s : spec F) m c,
    Nat.odd (length m) = true ->
    hash_msg legacy s (m ++ [0]) (Some c) = hash_msg legacy s m (Some c).
  Proof.
    intros legacy s m c O. unfold hash_msg, fresh_msg_hasher. rewrite !hash_with_cap_spec by lia.
    cbn [msg_cap].
    assert (Hne : (length m =? 0)%nat = false) by (destruct m; [discriminate|reflexivity]).
    assert (Hne2 : (length (m ++ [0%F]) =? 0)%nat = false)
      by (rewrite app_length; cbn; rewrite Nat.add_1_r; reflexivity).
    rewrite Hne, Hne2. unfold sponge_hash. do 2 f_equal.
    enough (E : blocks 2 (pad_zeros 2 (m ++ [0])) = blocks 2 (pad_zeros 2 m)) by (now rewrite E).
    apply same_blocks_iff. right. right. auto.
  Qed.

  (** ** call history *)

  Definition cells_ok (w : cells F) : Prop :=
    (c_hasher w = None \/ c_hasher w = Some fresh_hasher)
    /\ (c_msg_hasher w = None \/ c_msg_hasher w = Some fresh_msg_hasher).

  Lemma hasher_ok : forall w, cells_ok w -> fst (hasher w) = fresh_hasher /\ cells_ok (snd (hasher w)).
  Proof.
    intros w [H1 H2]. unfold hasher. destruct H1 as [E|E]; rewrite E; cbn.
    - split; [reflexivity|]. split; cbn; auto.
    - split; [reflexivity|]. split; auto.
  Qed.

  Lemma msg_hasher_ok : forall w, cells_ok w ->
    fst (msg_hasher w) = fresh_msg_hasher /\ cells_ok (snd (msg_hasher w)).
  Proof.
    intros w [H1 H2]. unfold msg_hasher. destruct H2 as [E|E]; rewrite E; cbn.
    - split; [reflexivity|]. split; cbn; auto.
    - split; [reflexivity|]. split; auto.
  Qed.

  Lemma run_call_ok : forall legacy s w c, cells_ok w ->
    fst (run_call legacy s w c) = fst (run_call legacy s empty_cells c)
    /\ cells_ok (snd (run_call legacy s w c)).
  Proof.
    intros legacy s w c Hw. destruct (hasher_ok w Hw) as [H1 H2].
    destruct (msg_hasher_ok w Hw) as [M1 M2].
    destruct c; cbn [run_call].
    - destruct (hasher w) as [h w']. cbn in *. subst h. split; [reflexivity|assumption].
    - destruct (hasher w) as [h w']. cbn in *. subst h. split; [reflexivity|assumption].
    - destruct (msg_hasher w) as [h w']. cbn in *. subst h. split; [reflexivity|assumption].
    - destruct (hasher w) as [h w']. cbn in *. subst h. split; [reflexivity|assumption].
  Qed.

  Theorem run_calls_history : forall legacy s (l : list (call F)),
    fst (run_calls legacy s empty_cells l) = map (fun c => fst (run_call legacy s empty_cells c)) l.
  Proof.
    intros legacy s l.
    assert (G : forall w, cells_ok w ->
      fst (run_calls legacy s w l) = map (fun c => fst (run_call legacy s empty_cells c)) l).
    { induction l as [|c l IH]; intros w Hw; cbn [run_calls map]; [reflexivity|].
      destruct (run_call_ok legacy s w c Hw) as [E1 E2].
      destruct (run_call legacy s w c) as [r w1]. cbn in E1, E2.
      specialize (IH w1 E2). destruct (run_calls legacy s w1 l) as [rs w2]. cbn in *. now f_equal. }
    apply G. split; now left.
  Qed.

  (** ** the value of each call of a history in terms of the sponge specification *)
  Definition call_spec (legacy : bool) (s : spec F) (c : call F) : result (list F) :=
    let perm := hash_permute 3 s in
    match c with
    | CallHash a b => Ok [nth 0 (perm [0; a; b]) 0]
    | CallHashDomain a b d => Ok [nth 0 (perm [d; a; b]) 0]
    | CallHashMsg [] _ => Panic
    | CallHashMsg msg cap =>
      Ok [sponge_hash perm 3 2 1 0
            (match cap with
             | Some c => of_Z (Z.of_N c)
             | None => of_Z (Z.of_nat (length msg) * (if legacy then 1 else 2 ^ 64))
             end) msg]
    | CallPermute st => Ok (perm st)
    end.

  Theorem run_calls_spec : forall legacy s (l : list (call F)),
    fst (run_calls legacy s empty_cells l) = map (call_spec legacy s) l.
  Proof.
    intros legacy s l. rewrite run_calls_history. apply map_ext. intros [a b|a b d|msg cap|st].
    - change (fst (run_call legacy s empty_cells (CallHash a b)))
        with (do x <- hash_with_domain s (a, b) 0; Ok [x]).
      now rewrite hash_with_domain_spec.
    - change (fst (run_call legacy s empty_cells (CallHashDomain a b d)))
        with (do x <- hash_with_domain s (a, b) d; Ok [x]).
      now rewrite hash_with_domain_spec.
    - change (fst (run_call legacy s empty_cells (CallHashMsg msg cap)))
        with (do x <- hash_msg legacy s msg cap; Ok [x]).
      rewrite hash_msg_spec. now destruct msg.
    - reflexivity.
  Qed.

  (** ** independence of the feature flag *)

  Lemma add_block_length : forall off (st b : list F), length (add_block off st b) = length st.
  Proof. intros. unfold add_block. now rewrite map_length, seq_length. Qed.

  Lemma absorb_blocks_ext : forall p1 p2 T off bs (st : list F), length st = T ->
    (forall x, length x = T -> p1 x = p2 x /\ length (p1 x) = T) ->
    absorb_blocks p1 off bs st = absorb_blocks p2 off bs st.
  Proof.
    intros p1 p2 T off bs. unfold absorb_blocks. induction bs as [|b bs IH]; intros st Hst H; cbn; [reflexivity|].
    assert (L : length (add_block off st b) = T) by (now rewrite add_block_length).
    destruct (H _ L) as [E1 E2]. rewrite <- E1. apply IH; auto.
  Qed.

  Lemma sponge_hash_ext : forall p1 p2 T rate off pos (cap : F) msg,
    (forall x, length x = T -> p1 x = p2 x /\ length (p1 x) = T) ->
    sponge_hash p1 T rate off pos cap msg = sponge_hash p2 T rate off pos cap msg.
  Proof.
    intros. unfold sponge_hash. f_equal. apply absorb_blocks_ext with T; auto. apply init_state_length.
  Qed.

  (** tables of the right shape *)
  Definition constants_shape (c : p128_constants F) : Prop :=
    square 3 (pc_mds c) /\ Forall (fun r => length r = 3%nat) (pc_round_constants c)
    /\ length (pc_round_constants c) = (8 + pc_partial_rounds c)%nat.

  Lemma cached_permute : forall short c s, constants_shape c -> cached_hash_spec short c = Ok s ->
    forall st, length st = 3%nat -> hash_permute 3 s st = hash_permute 3 (p128_spec c) st.
  Proof.
    intros short c s (H1 & H2 & H3) Hs st Hst. unfold cached_hash_spec in Hs.
    destruct (compact_round_constants 8 (pc_partial_rounds c) (pc_mds c) (pc_round_constants c))
      as [rc|] eqn:E; [|discriminate]. cbn [bind] in Hs. injection Hs as <-.
    unfold hash_permute. cbn [mds round_constants p128_spec].
    rewrite <- (compact_same_permutation (p128_spec c) (pc_mds c) (pc_round_constants c) rc st);
      cbn [full_rounds partial_rounds p128_spec]; auto; [|lia|cbn; lia].
    apply permute_sbox_ext; cbn; auto.
    intros x. destruct short; [|reflexivity]. now rewrite sbox_mul_power5, sbox_pow_power5.
  Qed.

  Theorem cached_spec_exists : forall short c, constants_shape c ->
    exists s, cached_hash_spec (F := F) short c = Ok s.
  Proof.
    intros short c (H1 & H2 & H3). unfold cached_hash_spec.
    rewrite compact_ok by (cbn; lia). eexists. reflexivity.
  Qed.

  Theorem feature_independent : forall c s1 s2, constants_shape c ->
    cached_hash_spec true c = Ok s1 -> cached_hash_spec false c = Ok s2 ->
    (forall a b d, hash_with_domain s1 (a, b) d = hash_with_domain s2 (a, b) d
                   /\ hash_with_domain s1 (a, b) d = hash_with_domain (p128_spec c) (a, b) d)
    /\ (forall legacy msg cap, hash_msg legacy s1 msg cap = hash_msg legacy s2 msg cap
                   /\ hash_msg legacy s1 msg cap = hash_msg legacy (p128_spec c) msg cap).
  Proof.
    intros c s1 s2 Hc H1 H2.
    assert (P1 := cached_permute true c s1 Hc H1). assert (P2 := cached_permute false c s2 Hc H2).
    split.
    - intros a b d. rewrite !hash_with_domain_spec.
      rewrite P1, P2 by reflexivity. auto.
    - intros legacy msg cap. rewrite !hash_msg_spec. destruct msg as [|x msg]; [auto|].
      rewrite (sponge_hash_ext (hash_permute 3 s1) (hash_permute 3 (p128_spec c))).
      + rewrite (sponge_hash_ext (hash_permute 3 s2) (hash_permute 3 (p128_spec c))); [auto|].
        intros st Hst. split; [now apply P2|]. now apply permute_length.
      + intros st Hst. split; [now apply P1|]. now apply permute_length.
  Qed.
End Proofs.
