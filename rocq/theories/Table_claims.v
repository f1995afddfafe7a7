(** The lemmas behind C26 to C32 in PropertiesTable.v. *)
From Coq Require Import ZArith NArith List Arith Lia Bool.
From Verif Require Import Field Rust ListAux Primitives Specs BaseHash SpecHash Perm_proof BigSum Link Base_claims Halo2 Septidon PermuteChip
  ChipUse Pow5 Layout_proof Contract Stack_proof Sept_claims Pow5Rows_proof Pow5_claims SpongeTable TableRows_proof TableLoad_proof TableUse
  TableInv_proof TableGate_proof TableSound_proof TableMsg_proof TableVals_proof TableHonest_proof TableSat_proof.
Import ListNotations.
Local Open Scope nat_scope.

Section Claims.
  Context {F : Type} {FO : FieldOps F} {PF : PrimeField F}.
  Add Field Ffield : f_field.

  Lemma build_facts : forall (c : p128_constants F) short s P h, build c short s P h ->
    constants_ok c /\ (exists base, cached_hash_spec base c = Ok s) /\ chip_correct P (poseidon_permutation c) h
    /\ (forall x, length x = 3 -> hash_permute 3 s x = poseidon_permutation c x)
    /\ (forall x, length x = 3 -> length (poseidon_permutation c x) = 3).
  Proof.
    intros c short s P h B.
    assert (K : forall short s, constants_ok c -> cached_hash_spec short c = Ok s ->
        (forall x, length x = 3 -> hash_permute 3 s x = poseidon_permutation c x)
        /\ (forall x, length x = 3 -> length (poseidon_permutation c x) = 3)).
    { intros sh s0 Hc Hs. split; intros x Hx; destruct (cached_agrees sh c s0 Hc Hs x Hx) as [E1 E2]; [assumption|]. now rewrite <- E1. }
    destruct B as [base s Hc Hp Hs|base s p Hc M1 M2 Hs Hp].
    - split; [assumption|]. split; [now exists base|]. split; [|now apply (K base)].
      unfold cached_hash_spec in Hs. pose proof (septidon_poseidon c) as X. unfold compact_spec in X.
      destruct (compact_round_constants _ _ _ _) as [rc|]; [|discriminate Hs]. cbn [bind] in Hs, X. injection Hs as <-.
      exact (X _ Hc Hp eq_refl).
    - split; [assumption|]. split; [now exists base|]. split; [|now apply (K base)].
      assert (Sp : p = p128_spec c \/ compact_spec c = Ok p) by (destruct base; [right; exact Hp|left; now injection Hp as <-]).
      assert (E : S (p5_R p) = 9 + (pc_partial_rounds c + 1) / 2).
      { assert (R : full_rounds p = 8 /\ partial_rounds p = pc_partial_rounds c).
        { destruct Sp as [->|Sp]; [split; reflexivity|]. unfold compact_spec in Sp.
          destruct (compact_round_constants _ _ _ _); [|discriminate Sp]. cbn [bind] in Sp. injection Sp as <-. split; reflexivity. }
        destruct R as [R1 R2]. unfold p5_R, half_full, half_partial. rewrite R1, R2.
        pose proof (Nat.div_mod (pc_partial_rounds c) 2 ltac:(lia)) as D1. pose proof (Nat.div_mod (pc_partial_rounds c + 1) 2 ltac:(lia)) as D2.
        pose proof (Nat.mod_upper_bound (pc_partial_rounds c) 2 ltac:(lia)). pose proof (Nat.mod_upper_bound (pc_partial_rounds c + 1) 2 ltac:(lia)).
        change (8 / 2) with 4. lia. }
      rewrite <- E. exact (pow5_poseidon c p Hc M1 M2 Sp).
  Qed.

  Lemma flag_code : forall legacy x, flag_of (F := F) legacy x = length_code legacy x.
  Proof.
    intros legacy x. unfold flag_of, length_code, from_u128. f_equal. rewrite N2Z.inj_mul. f_equal. destruct legacy; reflexivity.
  Qed.

  Lemma accepted_ok : forall c C calcs adv, accepted c C calcs adv ->
    exists n short h, build c short (hc_spec C) (hc_chip C) h /\ table_ok C (poseidon_permutation c) n calcs adv.
  Proof.
    intros c C calcs adv (mode & t & L0 & L1 & L & copies & n & u & (HC & HL & (short & h & B & Hh) & Hu & HR & Hn) & SAT).
    exists n, short, h. split; [assumption|]. destruct (build_facts _ _ _ _ _ B) as (_ & _ & HP & _ & _).
    exact (sat_ok C (poseidon_permutation c) h HC HP mode calcs t L0 L1 L copies n u adv HL Hu Hh Hn SAT).
  Qed.

  Local Open Scope F_scope.

  (** C27 *)
  Theorem message_claim : forall c (C : hash_circuit F) calcs adv s e,
    accepted c C calcs adv -> message C adv calcs s e ->
    (forall i, (s <= i <= e)%nat -> digest C adv i = nth 0 (absorbed C adv (poseidon_permutation c) s e) 0)
    /\ ((forall i, (s < i <= e)%nat -> domain C adv i = 0) ->
        let cap := control C adv s + domain C adv s in
        digest C adv s = message_hash c cap (words C adv s e)
        /\ forall legacy k, of_Z (Z.of_N k) = cap -> hash_msg legacy (hc_spec C) (words C adv s e) (Some k) = Ok (digest C adv s)).
  Proof.
    intros c C calcs adv s e HA HM. destruct (accepted_ok _ _ _ _ HA) as (n & short & h & B & OK).
    destruct (build_facts _ _ _ _ _ B) as (Hc & (base & Hs) & _ & _ & HL).
    pose proof (run_hash C _ n calcs adv OK s e HM) as RH. split; [exact RH|]. intros HD cap.
    pose proof HM as HM'. destruct HM' as (H1 & H2 & H3 & _).
    assert (E : digest C adv s = message_hash c cap (words C adv s e)).
    { rewrite (RH s ltac:(lia)). unfold message_hash, sponge_hash. f_equal. unfold words. rewrite pair_blocks.
      unfold absorbed. replace (S e - s)%nat with (S (e - s)) by lia. cbn [seq fold_left map nth].
      change (init_state 3 0 cap) with [cap; 0; 0].
      unfold absorb_blocks at 1. cbn [fold_left].
      set (st := poseidon_permutation c [control C adv s + domain C adv s; 0 + in1 C adv s; 0 + in2 C adv s]).
      assert (Es : st = poseidon_permutation c (add_block 1 [cap; 0; 0] [in1 C adv s; in2 C adv s])).
      { unfold st, add_block. cbn [length seq map nth Nat.leb Nat.sub]. f_equal. f_equal. unfold cap. ring. }
      rewrite <- Es. assert (Ls : length st = 3%nat) by (apply HL; reflexivity).
      change (fold_left (fun st b => poseidon_permutation c (add_block 1 st b)) ?l ?x) with (absorb_blocks (poseidon_permutation c) 1 l x).
      rewrite <- (absorb_rows (poseidon_permutation c) (fun r => (in1 C adv r, in2 C adv r)) _ st HL Ls). cbn [fst snd].
      clear - HD PF HM H1 H2. assert (G : forall l st, (forall i, In i l -> domain C adv i = 0) ->
        fold_left (fun st r => poseidon_permutation c [nth 0 st 0 + domain C adv r; nth 1 st 0 + in1 C adv r; nth 2 st 0 + in2 C adv r]) l st
        = fold_left (fun st r => poseidon_permutation c [nth 0 st 0; nth 1 st 0 + in1 C adv r; nth 2 st 0 + in2 C adv r]) l st).
      { induction l as [|i l IH]; intros st' H; [reflexivity|]. cbn [fold_left]. rewrite (H i (or_introl eq_refl)).
        replace (nth 0 st' 0 + 0) with (nth 0 st' 0) by ring. apply IH. intros j Hj. apply H. now right. }
      apply G. intros i Hi. apply HD. apply in_seq in Hi. lia. }
    split; [exact E|]. intros legacy k Hk. rewrite (hash_msg_claim base legacy c (hc_spec C) _ _ Hc Hs).
    unfold words. replace (S e - s)%nat with (S (e - s)) by lia. cbn [seq flat_map app].
    f_equal. rewrite E, Hk. unfold words. replace (S e - s)%nat with (S (e - s)) by lia. reflexivity.
  Qed.

  (** C26 *)
  Theorem two_word_row_claim : forall c (C : hash_circuit F) calcs adv r,
    accepted c C calcs adv -> (1 <= r < calcs)%nat -> head C adv r = 1 -> head C adv (S r) = 1 ->
    digest C adv r = two_word_hash c (in1 C adv r) (in2 C adv r) (control C adv r + domain C adv r)
    /\ hash_with_domain (hc_spec C) (in1 C adv r, in2 C adv r) (control C adv r + domain C adv r) = Ok (digest C adv r)
    /\ (control C adv r = 0 ->
        hash_with_domain (hc_spec C) (in1 C adv r, in2 C adv r) (domain C adv r) = Ok (digest C adv r)).
  Proof.
    intros c C calcs adv r HA Hr H1 H2. destruct (accepted_ok _ _ _ _ HA) as (n & short & h & B & OK).
    destruct (build_facts _ _ _ _ _ B) as (Hc & (base & Hs) & _ & _ & HL).
    assert (HM : message C adv calcs r r).
    { unfold message. split; [lia|]. split; [lia|]. split; [lia|]. split; [assumption|]. split; [intros i Hi; lia|assumption]. }
    assert (E : digest C adv r = two_word_hash c (in1 C adv r) (in2 C adv r) (control C adv r + domain C adv r)).
    { rewrite (run_hash C _ n calcs adv OK r r HM r ltac:(lia)). unfold absorbed, two_word_hash.
      replace (S r - r)%nat with 1%nat by lia. cbn [seq fold_left nth].
      replace (0 + in1 C adv r) with (in1 C adv r) by ring. replace (0 + in2 C adv r) with (in2 C adv r) by ring. reflexivity. }
    destruct (two_word_claim base false c (hc_spec C) (in1 C adv r) (in2 C adv r) Hc Hs) as (Q & _).
    split; [exact E|]. split; [rewrite Q, E; reflexivity|]. intros Z. rewrite Q, E, Z. f_equal. f_equal. ring.
  Qed.

  (** C28 *)
  Theorem control_claim : forall c (C : hash_circuit F) calcs adv,
    accepted c C calcs adv ->
    (forall s e, message C adv calcs s e ->
       exists x, (x <= hc_range C)%nat /\ ((s < e)%nat -> (0 < x)%nat)
         /\ forall i, (s <= i <= e)%nat -> control C adv i = length_code (hc_legacy C) (N.of_nat (x + (e - i) * hc_step C)))
    /\ ((hc_range C <= hc_step C)%nat ->
        forall c' calcs' adv' s e s' e', accepted c' C calcs' adv' ->
        (forall k, (k = calcs \/ k = calcs')%nat ->
           (Z.of_nat (k * hc_step C + hc_range C) * (if hc_legacy C then 1 else 2 ^ 64) < modulus (F := F))%Z) ->
        message C adv calcs s e -> message C adv' calcs' s' e' -> control C adv s = control C adv' s' ->
        (e - s = e' - s')%nat).
  Proof.
    intros c C calcs adv HA.
    assert (K : forall c calcs adv, accepted c C calcs adv -> forall s e, message C adv calcs s e ->
       exists x, (x <= hc_range C)%nat /\ ((s < e)%nat -> (0 < x)%nat)
         /\ forall i, (s <= i <= e)%nat -> control C adv i = flag_of (hc_legacy C) (N.of_nat (x + (e - i) * hc_step C))).
    { clear - PF. intros c calcs adv HA s e HM. destruct (accepted_ok _ _ _ _ HA) as (n & short & h & B & OK).
      exact (run_controls C _ n calcs adv OK s e HM). }
    split.
    - intros s e HM. destruct (K c calcs adv HA s e HM) as (x & H1 & H2 & H3). exists x. split; [assumption|]. split; [assumption|].
      intros i Hi. rewrite <- flag_code. now apply H3.
    - intros HR c' calcs' adv' s e s' e' HA' Bd HM HM' E.
      destruct (K c calcs adv HA s e HM) as (x & H1 & H2 & H3). destruct (K c' calcs' adv' HA' s' e' HM') as (x' & H1' & H2' & H3').
      destruct HM as (M1 & M2 & M3 & _). destruct HM' as (M1' & M2' & M3' & _).
      rewrite (H3 s), (H3' s') in E by lia.
      assert (Bd' : forall k, (k = calcs \/ k = calcs')%nat ->
        (Z.of_N (N.of_nat (k * hc_step C + hc_range C) * hashable_domain_spec (hc_legacy C)) < modulus (F := F))%Z).
      { intros k Hk. specialize (Bd k Hk). rewrite N2Z.inj_mul, nat_N_Z.
        replace (Z.of_N (hashable_domain_spec (hc_legacy C))) with (if hc_legacy C then 1 else 2 ^ 64)%Z by (destruct (hc_legacy C); reflexivity).
        exact Bd. }
      assert (X1 : (x + (e - s) * hc_step C <= calcs * hc_step C + hc_range C)%nat).
      { pose proof (Nat.mul_le_mono_r (e - s) calcs (hc_step C) ltac:(lia)). lia. }
      assert (X2 : (x' + (e' - s') * hc_step C <= calcs' * hc_step C + hc_range C)%nat).
      { pose proof (Nat.mul_le_mono_r (e' - s') calcs' (hc_step C) ltac:(lia)). lia. }
      assert (EN : (x + (e - s) * hc_step C = x' + (e' - s') * hc_step C)%nat).
      { apply Nat2N.inj. destruct (Nat.le_ge_cases (calcs * hc_step C + hc_range C) (calcs' * hc_step C + hc_range C)) as [Q|Q].
        - apply (flag_inj (hc_legacy C) _ _ (N.of_nat (calcs' * hc_step C + hc_range C))); [lia|lia|apply Bd'; now right|exact E].
        - apply (flag_inj (hc_legacy C) _ _ (N.of_nat (calcs * hc_step C + hc_range C))); [lia|lia|apply Bd'; now left|exact E]. }
      apply (rows_of_control (hc_step C) (hc_range C) x (e - s)%nat x' (e' - s')%nat HR H1 H1'); [intros; apply H2; lia|intros; apply H2'; lia|exact EN].
  Qed.

  Lemma bound_N : forall (C : hash_circuit F) calcs,
    (Z.of_nat (calcs * hc_step C + hc_range C) * (if hc_legacy C then 1 else 2 ^ 64) < modulus (F := F))%Z ->
    (Z.of_N (N.of_nat (calcs * hc_step C + hc_range C) * hashable_domain_spec (hc_legacy C)) < modulus (F := F))%Z.
  Proof.
    intros C calcs H. rewrite N2Z.inj_mul, nat_N_Z.
    replace (Z.of_N (hashable_domain_spec (hc_legacy C))) with (if hc_legacy C then 1 else 2 ^ 64)%Z by (destruct (hc_legacy C); reflexivity).
    exact H.
  Qed.

  (** C29 *)
  Theorem first_row_claim : forall c (C : hash_circuit F) calcs adv, accepted c C calcs adv ->
    (Z.of_nat (calcs * hc_step C + hc_range C) * (if hc_legacy C then 1 else 2 ^ 64) < modulus (F := F))%Z ->
    (1 <= calcs)%nat -> head C adv 1 = 1.
  Proof.
    intros c C calcs adv HA Bd H. destruct (accepted_ok _ _ _ _ HA) as (n & short & h & B & OK).
    exact (first_head C _ n calcs adv OK (bound_N C calcs Bd) H).
  Qed.

  (** C30, the part that holds *)
  Theorem every_row_claim : forall c (C : hash_circuit F) calcs adv r, accepted c C calcs adv ->
    (Z.of_nat (calcs * hc_step C + hc_range C) * (if hc_legacy C then 1 else 2 ^ 64) < modulus (F := F))%Z ->
    (1 <= r < calcs)%nat ->
    exists s e, message C adv calcs s e /\ (s <= r <= e)%nat
      /\ digest C adv r = nth 0 (absorbed C adv (poseidon_permutation c) s e) 0.
  Proof.
    intros c C calcs adv r HA Bd H. destruct (accepted_ok _ _ _ _ HA) as (n & short & h & B & OK).
    destruct (covered C _ n calcs adv OK (bound_N C calcs Bd) r H) as (s & e & HM & Hr). exists s, e. split; [assumption|]. split; [assumption|].
    exact (run_hash C _ n calcs adv OK s e HM r Hr).
  Qed.

  (** the last enabled row *)
  Theorem last_row_claim : forall c (C : hash_circuit F) calcs adv, accepted c C calcs adv -> (1 <= calcs)%nat ->
    in1 C adv calcs = 0 /\ in2 C adv calcs = 0 /\ control C adv calcs = 0 /\ head C adv calcs = 1.
  Proof.
    intros c C calcs adv HA H. destruct (accepted_ok _ _ _ _ HA) as (n & short & h & B & OK).
    destruct (ok_last _ _ _ _ _ OK) as (A1 & A2 & A3). split; [assumption|]. split; [assumption|]. split; [assumption|].
    exact (last_head C _ n calcs adv OK H).
  Qed.

  (** changes of an accepted assignment *)
  Section Change.
    Variables (C : hash_circuit F).
    Hypothesis HC : host_columns C.
    Lemma table_cols_apart : forall i j, (i < 6)%nat -> (j < 6)%nat -> i <> j -> nth i (hc_table C) 0%nat <> nth j (hc_table C) 0%nat.
    Proof.
      intros i j Hi Hj N E. destruct HC as (_ & L & ND & _). apply N. eapply (proj1 (NoDup_nth _ 0%nat) ND); [lia|lia|exact E].
    Qed.
    Lemma table_cols_host : forall i, (i < 6)%nat -> (nth i (hc_table C) 0 < cs_adv (hc_host C))%nat.
    Proof.
      intros i Hi. destruct HC as (_ & L & _ & Fa). rewrite Forall_forall in Fa. apply Fa. apply nth_In. lia.
    Qed.
  End Change.

  (** C30: the last digest is free *)
  Theorem last_digest_claim : forall c (C : hash_circuit F) mode calcs t L0 L1 L copies n u adv d,
    set_up c C mode calcs t L0 L1 L copies n u -> (1 <= calcs)%nat -> satisfied n u (hc_cs C) L adv ->
    let adv' := set_cell adv (nth 0 (hc_table C) 0%nat) calcs d in
    host_ok C L0 L copies n u adv' -> satisfied n u (hc_cs C) L adv'.
  Proof.
    intros c C mode calcs t L0 L1 L copies n u adv d (HC & HL & (short & h & B & Hh) & Hu & HR & Hn) H1 SAT adv' (G & Lk & Cp).
    destruct (build_facts _ _ _ _ _ B) as (_ & _ & HP & _ & _).
    pose proof (sat_ok C (poseidon_permutation c) h HC HP mode calcs t L0 L1 L copies n u adv HL Hu Hh Hn SAT) as OK.
    assert (T : forall j r, (j < 6)%nat -> (j <> 0 \/ r <> calcs)%nat -> tcell C adv' j r = tcell C adv j r).
    { intros j r Hj Hd. unfold tcell, adv', set_cell.
      destruct (Nat.eqb_spec (nth j (hc_table C) 0%nat) (nth 0 (hc_table C) 0%nat)) as [E|E]; [|reflexivity].
      destruct (Nat.eqb_spec r calcs) as [E2|E2]; [|reflexivity]. exfalso. destruct Hd as [Hd|Hd]; [|contradiction].
      apply (table_cols_apart C HC j 0 Hj ltac:(lia) Hd E). }
    assert (A : forall c r, (cs_adv (hc_host C) <= c)%nat -> adv' c r = adv c r).
    { intros c' r Hc'. unfold adv', set_cell. destruct (Nat.eqb_spec c' (nth 0 (hc_table C) 0%nat)) as [->|]; [|reflexivity].
      pose proof (table_cols_host C HC 0 ltac:(lia)). lia. }
    assert (LH : contc C adv calcs = 0). { exact (head_1 C _ n calcs adv OK calcs ltac:(lia) (last_head C _ n calcs adv OK H1)). }
    eapply (sat_change C (poseidon_permutation c) h HC HP mode calcs t L0 L1 L copies n u adv adv' HL Hu Hh Hn SAT).
    - intros c' r Hc' _. now apply A.
    - intros r Hr. pose proof (ok_rows _ _ _ _ _ OK r Hr) as R. unfold row_eqs in *. cbn zeta in *.
      unfold auxc, contc, invc, control, head, domain, in1, in2, digest in *. unfold contc in LH.
      rewrite !A by (unfold A0; lia). rewrite !(T 3%nat), !(T 4%nat), !(T 5%nat), !(T 1%nat), !(T 2%nat) by lia. rewrite (T 0%nat (r - 1)%nat) by lia.
      destruct (Nat.eq_dec r calcs) as [->|Nr]; [|now rewrite (T 0%nat r) by lia].
      rewrite LH in *. intuition ring.
    - pose proof (ok_first _ _ _ _ _ OK) as R. unfold custom_eqs, control, in1, in2 in *. now rewrite !T by lia.
    - pose proof (ok_last _ _ _ _ _ OK) as R. unfold custom_eqs, control, in1, in2 in *. now rewrite !T by lia.
    - assumption.
    - intros r Hr. destruct (sat_range C _ h HC HP mode calcs t L0 L1 L copies n u adv HL ltac:(lia) Hn SAT r Hr) as (k & Hk & E).
      exists k. split; [assumption|]. unfold head, control in *. now rewrite !T by lia.
    - assumption.
    - assumption.
    - assumption.
  Qed.

  (** C31 *)
  Theorem custom_row_claim : forall c (C : hash_circuit F) mode calcs t L0 L1 L copies n u adv,
    set_up c C mode calcs t L0 L1 L copies n u -> satisfied n u (hc_cs C) L adv ->
    in1 C adv 0 = 0 /\ in2 C adv 0 = 0 /\ control C adv 0 = 0
    /\ ((Z.of_nat (calcs * hc_step C + hc_range C) * (if hc_legacy C then 1 else 2 ^ 64) < modulus (F := F))%Z ->
        forall d dom hd, hd = head C adv 0 \/ control C adv (n - 1) = 0 ->
        exists adv',
          digest C adv' 0 = d /\ domain C adv' 0 = dom /\ head C adv' 0 = hd
          /\ (forall col r, (col < cs_adv (hc_host C))%nat ->
               (r <> 0 \/ ~ In col (map (fun j => nth j (hc_table C) 0) [0; 4; 5]))%nat -> adv' col r = adv col r)
          /\ (host_ok C L0 L copies n u adv' -> satisfied n u (hc_cs C) L adv')).
  Proof.
    intros c C mode calcs t L0 L1 L copies n u adv (HC & HL & (short & h & B & Hh) & Hu & HR & Hn) SAT.
    destruct (build_facts _ _ _ _ _ B) as (_ & _ & HP & _ & _).
    pose proof (sat_ok C (poseidon_permutation c) h HC HP mode calcs t L0 L1 L copies n u adv HL Hu Hh Hn SAT) as OK.
    destruct (ok_first _ _ _ _ _ OK) as (F1 & F2 & F3).
    split; [assumption|]. split; [assumption|]. split; [assumption|]. intros Bd d dom hd Hhd.
    pose proof (first_head C _ n calcs adv OK (bound_N C calcs Bd)) as FH.
    set (adv1 := set_cell adv (nth 0 (hc_table C) 0%nat) 0 d). set (adv2 := set_cell adv1 (nth 4 (hc_table C) 0%nat) 0 dom).
    set (adv3 := set_cell adv2 (nth 5 (hc_table C) 0%nat) 0 hd). set (adv' := set_cell adv3 (5 + A0 C)%nat 0 d).
    assert (CA := table_cols_apart C HC). assert (CH := table_cols_host C HC).
    assert (X : forall col r, adv' col r =
      if (col =? 5 + A0 C)%nat && (r =? 0)%nat then d else if (col =? nth 5 (hc_table C) 0)%nat && (r =? 0)%nat then hd
      else if (col =? nth 4 (hc_table C) 0)%nat && (r =? 0)%nat then dom
      else if (col =? nth 0 (hc_table C) 0)%nat && (r =? 0)%nat then d else adv col r) by reflexivity.
    clearbody adv'. clear adv1 adv2 adv3.
    assert (Y : forall col r, (r <> 0)%nat -> adv' col r = adv col r).
    { intros col r Hr. rewrite X. apply Nat.eqb_neq in Hr. rewrite Hr, !andb_false_r. reflexivity. }
    assert (Z : forall j, (j < 6)%nat -> tcell C adv' j 0 = if (j =? 5)%nat then hd else if (j =? 4)%nat then dom else if (j =? 0)%nat then d else tcell C adv j 0).
    { intros j Hj. unfold tcell. rewrite X. rewrite !andb_true_r.
      destruct (Nat.eqb_spec (nth j (hc_table C) 0%nat) (5 + A0 C)%nat) as [E|_].
      { exfalso. pose proof (CH j Hj). unfold A0 in E. lia. }
      assert (W : forall k, (k < 6)%nat -> (nth j (hc_table C) 0 =? nth k (hc_table C) 0)%nat = (j =? k)%nat).
      { intros k Hk. destruct (Nat.eqb_spec j k) as [->|N]; [apply Nat.eqb_refl|]. apply Nat.eqb_neq. now apply CA. }
      rewrite !W by lia. reflexivity. }
    assert (T : forall j r, (j < 6)%nat -> (r <> 0 \/ (j = 1 \/ j = 2 \/ j = 3))%nat -> tcell C adv' j r = tcell C adv j r).
    { intros j r Hj [Hr|Hr]; [apply Y; assumption|]. destruct r; [|apply Y; lia]. rewrite Z by assumption.
      destruct Hr as [->|[->| ->]]; reflexivity. }
    assert (A5 : forall k, (k < 8)%nat -> adv' (k + A0 C)%nat 0%nat = if (k =? 5)%nat then d else adv (k + A0 C)%nat 0%nat).
    { intros k Hk. rewrite X, !andb_true_r.
      assert (W : forall j, (j < 6)%nat -> (k + A0 C =? nth j (hc_table C) 0)%nat = false).
      { intros j Hj. apply Nat.eqb_neq. pose proof (CH j Hj). unfold A0. lia. }
      rewrite !W by lia. destruct (Nat.eqb_spec k 5) as [->|N]; [now rewrite Nat.eqb_refl|].
      replace (k + A0 C =? 5 + A0 C)%nat with false by (symmetry; apply Nat.eqb_neq; lia). reflexivity. }
    exists adv'. split; [exact (Z 0%nat ltac:(lia))|]. split; [exact (Z 4%nat ltac:(lia))|]. split; [exact (Z 5%nat ltac:(lia))|]. split.
    { intros col r Hcol [Hr|Hr]; [now apply Y|]. destruct r; [|apply Y; lia]. cbn [map In] in Hr. rewrite X, !andb_true_r.
      replace (col =? 5 + A0 C)%nat with false by (symmetry; apply Nat.eqb_neq; unfold A0; lia).
      destruct (Nat.eqb_spec col (nth 5 (hc_table C) 0%nat)) as [->|_]; [exfalso; apply Hr; auto|].
      destruct (Nat.eqb_spec col (nth 4 (hc_table C) 0%nat)) as [->|_]; [exfalso; apply Hr; auto|].
      destruct (Nat.eqb_spec col (nth 0 (hc_table C) 0%nat)) as [->|_]; [exfalso; apply Hr; auto|]. reflexivity. }
    intros (G & Lk & Cp).
    eapply (sat_change C (poseidon_permutation c) h HC HP mode calcs t L0 L1 L copies n u adv adv' HL Hu Hh Hn SAT); try assumption.
    - intros col r Hcol Hr. destruct r; [|apply Y; lia].
      destruct (Nat.lt_ge_cases col (8 + A0 C)) as [K|K]; [specialize (Hr K); lia|].
      rewrite X, !andb_true_r.
      replace (col =? 5 + A0 C)%nat with false by (symmetry; apply Nat.eqb_neq; lia).
      assert (W : forall j, (j < 6)%nat -> (col =? nth j (hc_table C) 0)%nat = false).
      { intros j Hj. apply Nat.eqb_neq. pose proof (CH j Hj). lia. }
      rewrite !W by lia. reflexivity.
    - intros r Hr. pose proof (ok_rows _ _ _ _ _ OK r Hr) as R. unfold row_eqs in *. cbn zeta in *.
      assert (CT : contc C adv 1 = 0).
      { destruct (Nat.le_gt_cases 1 calcs) as [K|K]; [|lia]. exact (head_1 C _ n calcs adv OK 1 ltac:(lia) (FH K)). }
      unfold auxc, contc, invc, control, head, domain, in1, in2, digest in *.
      assert (Hr0 : (r <> 0)%nat) by lia. rewrite !(Y _ r Hr0). rewrite !(T _ r) by lia.
      destruct (Nat.eq_dec r 1) as [->|Nr].
      + change (1 - 1)%nat with 0%nat in *. rewrite (A5 5%nat), (A5 3%nat), (A5 4%nat) by lia. cbn [Nat.eqb].
        rewrite (Z 0%nat) by lia. cbn [Nat.eqb]. rewrite (T 3%nat) by lia. rewrite CT in *. intuition ring.
      + assert (Hp : (r - 1 <> 0)%nat) by lia. rewrite !(Y _ (r - 1)%nat Hp). rewrite !(T _ (r - 1)%nat) by lia. exact R.
    - unfold custom_eqs, control, in1, in2 in *. rewrite !T by lia. auto.
    - pose proof (ok_last _ _ _ _ _ OK) as R. unfold custom_eqs, control, in1, in2 in *. now rewrite !T by lia.
    - intros r Hr. destruct (sat_range C _ h HC HP mode calcs t L0 L1 L copies n u adv HL ltac:(lia) Hn SAT r Hr) as (k & Hk & E).
      unfold range_eq, head, control in *. destruct r as [|r].
      + cbn [Nat.eqb] in *. rewrite (T 3%nat) by lia. rewrite (Z 5%nat) by lia. cbn [Nat.eqb].
        destruct Hhd as [->|E0]; [exists k; auto|]. exists 0%nat. split; [lia|]. rewrite E0.
        change (N.of_nat 0) with 0%N. rewrite (flag_0 (hc_legacy C)). ring.
      + exists k. split; [assumption|]. rewrite (T 5%nat), (T 3%nat) by lia. exact E.
  Qed.

  (** C32 *)
  Theorem complete_claim : forall c (C : hash_circuit F) mode calcs t L0 L1 L copies n u blind,
    set_up c C mode calcs t L0 L1 L copies n u ->
    (forall i, (Z.of_N (row_control t i + N.of_nat (hc_step C)) * (if hc_legacy C then 1 else 2 ^ 64) < modulus (F := F))%Z) ->
    let adv := honest u L blind in
    satisfied n u (hc_cs C) L adv <-> well_formed (hc_range C) (hc_step C) calcs t /\ host_ok C L0 L copies n u adv.
  Proof.
    intros c C mode calcs t L0 L1 L copies n u blind (HC & HL & (short & h & B & Hh) & Hu & HR & Hn) Bd adv.
    destruct (build_facts _ _ _ _ _ B) as (_ & _ & HP & HS & _).
    assert (Bd' : forall i, (Z.of_N ((row_control t i + N.of_nat (hc_step C)) * hashable_domain_spec (hc_legacy C)) < modulus (F := F))%Z).
    { intros i. specialize (Bd i). rewrite N2Z.inj_mul.
      replace (Z.of_N (hashable_domain_spec (hc_legacy C))) with (if hc_legacy C then 1 else 2 ^ 64)%Z by (destruct (hc_legacy C); reflexivity).
      exact Bd. }
    destruct (honest_sat C (poseidon_permutation c) h HC HP HS mode calcs t L0 L1 L copies n u blind HL Hu Hh Hn Bd') as [H1 H2].
    fold adv in H1, H2. split.
    - intros SAT. split; [now apply H1|].
      exact (sat_host C (poseidon_permutation c) h HC HP mode calcs t L0 L1 L copies n u adv HL SAT).
    - intros [W (G & Lk & Cp)]. now apply H2.
  Qed.
End Claims.
