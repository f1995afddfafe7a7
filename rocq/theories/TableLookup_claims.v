(** The lemmas behind C45 to C47 in PropertiesLookup.v: what lookups into the exposed table prove. *)
From Coq Require Import ZArith NArith List Arith Lia Bool.
From Verif Require Import Field Rust ListAux Primitives Specs BaseHash SpecHash BigSum Link Base_claims Halo2 PermuteChip
  ChipUse SpongeTable Contract TableUse LookupUse TableInv_proof TableLoad_proof TableGate_proof TableSound_proof TableMsg_proof TableSat_proof Table_claims.
Import ListNotations.
Local Open Scope nat_scope.

Section Claims.
  Context {F : Type} {FO : FieldOps F} {PF : PrimeField F}.
  Add Field Ffield : f_field.

  (** C45: the enable column *)
  Theorem enabled_claim : forall c (C : hash_circuit F) mode calcs t L0 L1 L copies n u,
    set_up c C mode calcs t L0 L1 L copies n u ->
    forall r, fixed_at L (hc_enable C) r = if (1 <=? r) && (r <=? calcs) then fone else fzero.
  Proof.
    intros c C mode calcs t L0 L1 L copies n u (HC & HL & (short & h & B & Hh) & _).
    destruct (build_facts _ _ _ _ _ B) as (_ & _ & HP & _ & _).
    destruct (chip_is_here C (poseidon_permutation c) h HC HP) as [D HD].
    destruct (loaded_final C (poseidon_permutation c) h HC D mode calcs t L0 L1 L copies HD HL) as (_ & ins & finals & _ & FF).
    exact (proj1 (proj2 FF)).
  Qed.

  Local Open Scope F_scope.

  Lemma code_flag : forall legacy x, length_code (F := F) legacy x = flag_of legacy x.
  Proof. intros. symmetry. apply flag_code. Qed.

  (** C45: a two-word row *)
  Theorem lookup_claim : forall c (C : hash_circuit F) mode calcs t L0 L1 L copies n u adv r d a b dom,
    set_up c C mode calcs t L0 L1 L copies n u -> satisfied n u (hc_cs C) L adv ->
    (Z.of_nat (calcs * hc_step C + hc_range C) * (if hc_legacy C then 1 else 2 ^ 64) < modulus (F := F))%Z ->
    fixed_at L (hc_enable C) r = 1 -> table_tuple C adv r = [d; a; b; 0; dom; 1] ->
    (a, b) <> (0, 0) -> hash_with_domain (hc_spec C) (a, b) dom = Ok d.
  Proof.
    intros c C mode calcs t L0 L1 L copies n u adv r d a b dom SU SAT Bd En Tu Hab.
    assert (HA : accepted c C calcs adv) by (exists mode, t, L0, L1, L, copies, n, u; now split).
    rewrite (enabled_claim c C mode calcs t L0 L1 L copies n u SU) in En.
    destruct ((1 <=? r) && (r <=? calcs))%nat eqn:Er; [|exfalso; apply f_1_neq_0; now symmetry].
    apply andb_prop in Er. destruct Er as [R1 R2]. apply Nat.leb_le in R1, R2.
    clear SU SAT En. unfold table_tuple in Tu. cbn [map] in Tu.
    change (tcell C adv 0 r) with (digest C adv r) in Tu. change (tcell C adv 1 r) with (in1 C adv r) in Tu.
    change (tcell C adv 2 r) with (in2 C adv r) in Tu. change (tcell C adv 3 r) with (control C adv r) in Tu.
    change (tcell C adv 4 r) with (domain C adv r) in Tu. change (tcell C adv 5 r) with (head C adv r) in Tu.
    injection Tu as <- <- <- Tc <- Th.
    assert (Rl : (r < calcs)%nat).
    { destruct (Nat.eq_dec r calcs) as [E|]; [|lia]. exfalso. apply Hab. subst r.
      destruct (last_row_claim c C calcs adv HA ltac:(lia)) as (E1 & E2 & _). now rewrite E1, E2. }
    destruct (every_row_claim c C calcs adv r HA Bd ltac:(lia)) as (s & e & HM & Hr & _).
    pose proof HM as (M1 & M2 & M3 & Mh & Mc & Me).
    assert (Es : s = r).
    { destruct (Nat.eq_dec s r) as [|N]; [assumption|]. exfalso. apply f_1_neq_0. rewrite <- Th. apply Mc. lia. }
    subst s. assert (Ee : e = r).
    { destruct (Nat.eq_dec e r) as [|N]; [assumption|]. exfalso.
      destruct (proj1 (control_claim c C calcs adv HA) r e HM) as (x & X1 & X2 & X3).
      rewrite (X3 r) in Tc by lia. rewrite code_flag in Tc.
      apply (flag_nonzero _ _ (N.of_nat (calcs * hc_step C + hc_range C))) in Tc.
      - assert (0 < x)%nat by (apply X2; lia). lia.
      - assert ((e - r) * hc_step C <= calcs * hc_step C)%nat by (apply Nat.mul_le_mono_r; lia). lia.
      - exact (bound_N C calcs Bd). }
    subst e.
    exact (proj2 (proj2 (two_word_row_claim c C calcs adv r HA ltac:(lia) Th Me)) Tc).
  Qed.

  (** the rows of a message from its control *)
  Lemma message_rows : forall c (C : hash_circuit F) calcs adv k len r s e, accepted c C calcs adv ->
    (Z.of_nat (calcs * hc_step C + hc_range C) * (if hc_legacy C then 1 else 2 ^ 64) < modulus (F := F))%Z ->
    (hc_range C <= hc_step C)%nat ->
    (Z.of_nat len * (if hc_legacy C then 1 else 2 ^ 64) < modulus (F := F))%Z ->
    (k * hc_step C < len)%nat -> (len <= k * hc_step C + hc_range C)%nat ->
    message C adv calcs s e -> (s <= r <= e)%nat -> control C adv r = length_code (hc_legacy C) (N.of_nat len) ->
    (e - r = k)%nat.
  Proof.
    intros c C calcs adv k len r s e HA Bd HR Bl H1 H2 HM Hr E.
    destruct (proj1 (control_claim c C calcs adv HA) s e HM) as (x & X1 & X2 & X3). rewrite (X3 r Hr), !code_flag in E.
    destruct HM as (M1 & M2 & M3 & _).
    assert (Q : ((e - r) * hc_step C <= calcs * hc_step C)%nat) by (apply Nat.mul_le_mono_r; lia).
    assert (EN : (x + (e - r) * hc_step C = len)%nat).
    { apply Nat2N.inj. destruct (Nat.le_ge_cases len (calcs * hc_step C + hc_range C)) as [K|K].
      - apply (flag_inj (hc_legacy C) _ _ (N.of_nat (calcs * hc_step C + hc_range C))); [lia|lia|exact (bound_N C calcs Bd)|exact E].
      - apply (flag_inj (hc_legacy C) _ _ (N.of_nat len)); [lia|lia| |exact E]. rewrite N2Z.inj_mul, nat_N_Z.
        replace (Z.of_N (hashable_domain_spec (hc_legacy C))) with (if hc_legacy C then 1 else 2 ^ 64)%Z by (destruct (hc_legacy C); reflexivity).
        exact Bl. }
    destruct (rows_of_control (hc_step C) (hc_range C) x (e - r)%nat (len - k * hc_step C)%nat k HR X1 ltac:(lia)) as [_ K].
    - intros. apply X2. lia.
    - intros. lia.
    - lia.
    - exact K.
  Qed.

  (** C46: the rows a host looks up *)
  Definition looked_up (C : hash_circuit F) (adv : nat -> nat -> F) (calcs : nat) (d : F) (len : nat) (ws : list (F * F)) (row : nat -> nat) : Prop :=
    (forall i, (i < length ws)%nat -> (1 <= row i <= calcs)%nat
       /\ digest C adv (row i) = d /\ (in1 C adv (row i), in2 C adv (row i)) = nth i ws (0, 0)
       /\ control C adv (row i) = length_code (hc_legacy C) (N.of_nat (len - i * hc_step C))
       /\ domain C adv (row i) = 0)
    /\ head C adv (row 0%nat) = 1.
  (** every looked up row is in a message, in front of [k - i] rows; the first is the head of its message *)
  Lemma looked_up_rows : forall c (C : hash_circuit F) calcs adv d len (ws : list (F * F)) (row : nat -> nat),
    accepted c C calcs adv ->
    (Z.of_nat (calcs * hc_step C + hc_range C) * (if hc_legacy C then 1 else 2 ^ 64) < modulus (F := F))%Z ->
    (hc_range C <= hc_step C)%nat ->
    ws <> [] -> ((length ws - 1) * hc_step C < len <= (length ws - 1) * hc_step C + hc_range C)%nat ->
    (Z.of_nat len * (if hc_legacy C then 1 else 2 ^ 64) < modulus (F := F))%Z ->
    looked_up C adv calcs d len ws row ->
    let k := (length ws - 1)%nat in let s := row 0%nat in
    length ws = S k /\ message C adv calcs s (s + k)
    /\ forall i, (i <= k)%nat -> exists s e, message C adv calcs s e /\ (s <= row i <= e)%nat /\ (e - row i = k - i)%nat
         /\ digest C adv s = d.
  Proof.
    intros c C calcs adv d len ws row HA Bd HR Hne [Hl1 Hl2] Bl [HI Hh] k s0.
    fold k in Hl1, Hl2.
    assert (Lk : length ws = S k) by (unfold k; destruct ws; [contradiction|cbn [length]; lia]).
    (* every looked up row is in a message, in front of k - i rows *)
    assert (IN : forall i, (i <= k)%nat -> exists s e, message C adv calcs s e /\ (s <= row i <= e)%nat /\ (e - row i = k - i)%nat).
    { intros i Hi. destruct (HI i ltac:(lia)) as (Hr & _ & _ & Ec & _).
      assert (Q : (i * hc_step C <= k * hc_step C)%nat) by (apply Nat.mul_le_mono_r; lia).
      assert (Q2 : (k * hc_step C = (k - i) * hc_step C + i * hc_step C)%nat) by (rewrite <- Nat.mul_add_distr_r; f_equal; lia).
      assert (Bl' : (Z.of_nat (len - i * hc_step C) * (if hc_legacy C then 1 else 2 ^ 64) < modulus (F := F))%Z).
      { eapply Z.le_lt_trans; [|exact Bl]. apply Z.mul_le_mono_nonneg_r; [destruct (hc_legacy C); lia|]. lia. }
      assert (Rl : (row i < calcs)%nat).
      { destruct (Nat.eq_dec (row i) calcs) as [E|]; [|lia]. exfalso. rewrite E in Ec.
        destruct (last_row_claim c C calcs adv HA ltac:(lia)) as (_ & _ & E3 & _). rewrite E3, code_flag in Ec. symmetry in Ec.
        apply (flag_nonzero _ _ (N.of_nat (len - i * hc_step C))) in Ec; [lia|lia|].
        rewrite N2Z.inj_mul, nat_N_Z.
        replace (Z.of_N (hashable_domain_spec (hc_legacy C))) with (if hc_legacy C then 1 else 2 ^ 64)%Z by (destruct (hc_legacy C); reflexivity).
        exact Bl'. }
      destruct (every_row_claim c C calcs adv (row i) HA Bd ltac:(lia)) as (s & e & HM & Hse & _).
      exists s, e. split; [assumption|]. split; [assumption|].
      apply (message_rows c C calcs adv (k - i)%nat (len - i * hc_step C)%nat (row i) s e HA Bd HR Bl'); [lia|lia|assumption|assumption|exact Ec]. }
    split; [exact Lk|]. split.
    - destruct (IN 0%nat ltac:(lia)) as (s & e & HM & Hse & He).
      assert (Es : s = row 0%nat).
      { destruct (Nat.eq_dec s (row 0%nat)) as [|N]; [assumption|]. exfalso. destruct HM as (_ & _ & _ & _ & Mc & _).
        apply f_1_neq_0. rewrite <- Hh. apply Mc. lia. }
      assert (Ee : e = (s + k)%nat) by lia. unfold s0. rewrite <- Es, <- Ee. exact HM.
    - intros i Hi. destruct (IN i Hi) as (s' & e' & HM' & Hse' & He'). exists s', e'.
      split; [exact HM'|]. split; [exact Hse'|]. split; [exact He'|].
      destruct (HI i ltac:(lia)) as (_ & Di & _ & _ & _). rewrite <- Di.
      destruct (message_claim c C calcs adv s' e' HA HM') as [K _]. rewrite (K s' ltac:(lia)), (K (row i) ltac:(lia)). reflexivity.
  Qed.
  (** if they are, row by row, the rows of one message, the digest is the hash *)
  Lemma looked_up_hash : forall c (C : hash_circuit F) calcs adv d len (ws : list (F * F)) (row : nat -> nat),
    accepted c C calcs adv ->
    (Z.of_nat (calcs * hc_step C + hc_range C) * (if hc_legacy C then 1 else 2 ^ 64) < modulus (F := F))%Z ->
    (hc_range C <= hc_step C)%nat ->
    ws <> [] -> ((length ws - 1) * hc_step C < len <= (length ws - 1) * hc_step C + hc_range C)%nat ->
    (Z.of_nat len * (if hc_legacy C then 1 else 2 ^ 64) < modulus (F := F))%Z ->
    looked_up C adv calcs d len ws row ->
    (forall i, (1 <= i <= length ws - 1)%nat -> domain C adv (row 0%nat + i) = domain C adv (row i)
       /\ in1 C adv (row 0%nat + i) = in1 C adv (row i) /\ in2 C adv (row 0%nat + i) = in2 C adv (row i)) ->
    hash_msg (hc_legacy C) (hc_spec C) (flat_map (fun '(a, b) => [a; b]) ws)
      (Some (N.of_nat len * (if hc_legacy C then 1 else 2 ^ 64))%N) = Ok d.
  Proof.
    intros c C calcs adv d len ws row HA Bd HR Hne Hl Bl LU EQ.
    destruct (looked_up_rows c C calcs adv d len ws row HA Bd HR Hne Hl Bl LU) as (Lk & HM & _). destruct LU as [HI Hh].
    set (k := (length ws - 1)%nat) in *. remember (row 0%nat) as s eqn:Es. set (e := (s + k)%nat) in *.
    assert (Ee : e = (s + k)%nat) by reflexivity. clearbody e.
    destruct (HI 0%nat ltac:(lia)) as (_ & D0 & _ & C0 & Dm0). rewrite <- Es in D0, C0, Dm0.
    destruct (message_claim c C calcs adv s e HA HM) as [_ K].
    assert (Z0 : forall i, (s < i <= e)%nat -> domain C adv i = 0).
    { intros i Hi. destruct (EQ (i - s)%nat ltac:(lia)) as (E1 & _). replace (s + (i - s))%nat with i in E1 by lia. rewrite E1.
      apply HI. lia. }
    specialize (K Z0). cbv zeta in K. destruct K as [_ K].
    assert (W : words C adv s e = flat_map (fun '(a, b) => [a; b]) ws).
    { unfold words. replace (S e - s)%nat with (length ws) by lia.
      assert (P : forall i, (i < length ws)%nat -> (in1 C adv (s + i), in2 C adv (s + i)) = nth i ws (0, 0)).
      { intros i Hi. destruct i as [|i].
        - rewrite Nat.add_0_r, Es. apply HI. lia.
        - destruct (EQ (S i) ltac:(lia)) as (_ & E2 & E3). rewrite E2, E3. apply HI. lia. }
      clear - P. revert s P. induction ws as [|[a b] l IH]; intros s P; [reflexivity|]. cbn [length seq flat_map app].
      pose proof (P 0%nat ltac:(cbn [length]; lia)) as P0. rewrite Nat.add_0_r in P0. cbn [nth] in P0. injection P0 as E1 E2. rewrite E1, E2.
      f_equal. f_equal. apply IH. intros i Hi. specialize (P (S i) ltac:(cbn [length]; lia)). cbn [nth] in P.
      now replace (S s + i)%nat with (s + S i)%nat by lia. }
    rewrite <- W, <- D0. apply K. rewrite C0, Dm0, Nat.mul_0_l, Nat.sub_0_r. unfold length_code.
    rewrite N2Z.inj_mul. replace (Z.of_N (if hc_legacy C then 1 else 2 ^ 64)) with (if hc_legacy C then 1 else 2 ^ 64)%Z by (destruct (hc_legacy C); reflexivity).
    ring.
  Qed.

  (** without collisions, they are *)
  Lemma looked_up_same : forall c (C : hash_circuit F) calcs adv d len (ws : list (F * F)) (row : nat -> nat),
    accepted c C calcs adv ->
    (Z.of_nat (calcs * hc_step C + hc_range C) * (if hc_legacy C then 1 else 2 ^ 64) < modulus (F := F))%Z ->
    (hc_range C <= hc_step C)%nat -> collision_free C adv calcs ->
    ws <> [] -> ((length ws - 1) * hc_step C < len <= (length ws - 1) * hc_step C + hc_range C)%nat ->
    (Z.of_nat len * (if hc_legacy C then 1 else 2 ^ 64) < modulus (F := F))%Z ->
    looked_up C adv calcs d len ws row ->
    forall i, (1 <= i <= length ws - 1)%nat -> domain C adv (row 0%nat + i) = domain C adv (row i)
      /\ in1 C adv (row 0%nat + i) = in1 C adv (row i) /\ in2 C adv (row 0%nat + i) = in2 C adv (row i).
  Proof.
    intros c C calcs adv d len ws row HA Bd HR CF Hne Hl Bl LU.
    destruct (looked_up_rows c C calcs adv d len ws row HA Bd HR Hne Hl Bl LU) as (Lk & HM & IN). destruct LU as [HI Hh].
    destruct (HI 0%nat ltac:(lia)) as (_ & D0 & _ & _ & _).
    set (k := (length ws - 1)%nat) in *. set (s := row 0%nat) in *. set (e := (s + k)%nat) in *.
    intros i Hi. destruct (IN i ltac:(lia)) as (s' & e' & HM' & Hse' & He' & Ds).
    pose proof (CF s e s' e' HM HM' ltac:(congruence)) as EQ.
    assert (EL : (e - s = e' - s')%nat).
    { apply (f_equal (@length _)) in EQ. unfold sponge_input in EQ. rewrite !map_length, !seq_length in EQ.
      destruct HM as (_ & ? & _). destruct HM' as (_ & ? & _). lia. }
    assert (Er : row i = (s' + i)%nat) by lia.
    apply (f_equal (fun l => nth i l (0, 0, 0))) in EQ. unfold sponge_input in EQ.
    assert (G : forall s e, (i < S e - s)%nat -> nth i (map (fun r => (fadd (if (r =? s)%nat then control C adv s else 0) (domain C adv r), in1 C adv r, in2 C adv r)) (seq s (S e - s))) (0, 0, 0)
              = (domain C adv (s + i), in1 C adv (s + i), in2 C adv (s + i))).
    { clear - Hi PF. intros s e Hb.
set (f := fun r => _). rewrite (nth_indep _ _ (f 0%nat)) by (now rewrite map_length, seq_length).
      rewrite map_nth, seq_nth by assumption. unfold f. replace (s + i =? s)%nat with false by (symmetry; apply Nat.eqb_neq; lia).
      f_equal. f_equal. ring. }
    rewrite !G in EQ by lia. rewrite Er. injection EQ as E1 E2 E3. auto.
  Qed.

  (** C46 *)
  Theorem message_lookup_claim : forall c (C : hash_circuit F) calcs adv d len (ws : list (F * F)) (row : nat -> nat),
    accepted c C calcs adv ->
    (Z.of_nat (calcs * hc_step C + hc_range C) * (if hc_legacy C then 1 else 2 ^ 64) < modulus (F := F))%Z ->
    (hc_range C <= hc_step C)%nat -> collision_free C adv calcs ->
    ws <> [] -> ((length ws - 1) * hc_step C < len <= (length ws - 1) * hc_step C + hc_range C)%nat ->
    (Z.of_nat len * (if hc_legacy C then 1 else 2 ^ 64) < modulus (F := F))%Z ->
    (forall i, (i < length ws)%nat -> (1 <= row i <= calcs)%nat
       /\ digest C adv (row i) = d /\ (in1 C adv (row i), in2 C adv (row i)) = nth i ws (0, 0)
       /\ control C adv (row i) = length_code (hc_legacy C) (N.of_nat (len - i * hc_step C))
       /\ domain C adv (row i) = 0) ->
    head C adv (row 0%nat) = 1 ->
    hash_msg (hc_legacy C) (hc_spec C) (flat_map (fun '(a, b) => [a; b]) ws)
      (Some (N.of_nat len * (if hc_legacy C then 1 else 2 ^ 64))%N) = Ok d.
  Proof.
    intros c C calcs adv d len ws row HA Bd HR CF Hne Hl Bl HI Hh.
    assert (LU : looked_up C adv calcs d len ws row) by (split; assumption).
    exact (looked_up_hash c C calcs adv d len ws row HA Bd HR Hne Hl Bl LU (looked_up_same c C calcs adv d len ws row HA Bd HR CF Hne Hl Bl LU)).
  Qed.

  (** the digest determines the message *)
  Theorem same_message_claim : forall c (C : hash_circuit F) calcs adv d len1 len2 (ws1 ws2 : list (F * F)) (row1 row2 : nat -> nat),
    accepted c C calcs adv ->
    (Z.of_nat (calcs * hc_step C + hc_range C) * (if hc_legacy C then 1 else 2 ^ 64) < modulus (F := F))%Z ->
    (hc_range C <= hc_step C)%nat -> collision_free C adv calcs ->
    ws1 <> [] -> ((length ws1 - 1) * hc_step C < len1 <= (length ws1 - 1) * hc_step C + hc_range C)%nat ->
    ws2 <> [] -> ((length ws2 - 1) * hc_step C < len2 <= (length ws2 - 1) * hc_step C + hc_range C)%nat ->
    (Z.of_nat len1 * (if hc_legacy C then 1 else 2 ^ 64) < modulus (F := F))%Z ->
    (Z.of_nat len2 * (if hc_legacy C then 1 else 2 ^ 64) < modulus (F := F))%Z ->
    looked_up C adv calcs d len1 ws1 row1 -> looked_up C adv calcs d len2 ws2 row2 ->
    len1 = len2 /\ ws1 = ws2.
  Proof.
    intros c C calcs adv d len1 len2 ws1 ws2 row1 row2 HA Bd HR CF N1 L1 N2 L2 B1 B2 U1 U2.
    pose proof (looked_up_same c C calcs adv d len1 ws1 row1 HA Bd HR CF N1 L1 B1 U1) as S1.
    pose proof (looked_up_same c C calcs adv d len2 ws2 row2 HA Bd HR CF N2 L2 B2 U2) as S2.
    destruct (looked_up_rows c C calcs adv d len1 ws1 row1 HA Bd HR N1 L1 B1 U1) as (K1 & M1 & _).
    destruct (looked_up_rows c C calcs adv d len2 ws2 row2 HA Bd HR N2 L2 B2 U2) as (K2 & M2 & _).
    destruct U1 as [I1 _]. destruct U2 as [I2 _].
    destruct (I1 0%nat ltac:(lia)) as (_ & D1 & _ & C1 & Z1). destruct (I2 0%nat ltac:(lia)) as (_ & D2 & _ & C2 & Z2).
    pose proof (CF _ _ _ _ M1 M2 ltac:(congruence)) as EQ. clear M1 M2.
    unfold sponge_input in EQ.
    replace (S (row1 0 + (length ws1 - 1)) - row1 0)%nat with (length ws1) in EQ by lia.
    replace (S (row2 0 + (length ws2 - 1)) - row2 0)%nat with (length ws2) in EQ by lia.
    assert (LL : length ws1 = length ws2) by (apply (f_equal (@length _)) in EQ; rewrite !map_length, !seq_length in EQ; exact EQ).
    assert (G : forall ws row i, (i < length ws)%nat ->
      nth i (map (fun r => (fadd (if (r =? row 0)%nat then control C adv (row 0%nat) else 0) (domain C adv r), in1 C adv r, in2 C adv r)) (seq (row 0%nat) (length (ws : list (F * F))))) (0, 0, 0)
      = (fadd (if (i =? 0)%nat then control C adv (row 0%nat) else 0) (domain C adv (row 0 + i)%nat), in1 C adv (row 0 + i)%nat, in2 C adv (row 0 + i)%nat)).
    { clear. intros ws row i Hi. set (f := fun r => _). rewrite (nth_indep _ _ (f 0%nat)) by (now rewrite map_length, seq_length).
      rewrite map_nth, seq_nth by assumption. unfold f.
      replace (row 0 + i =? row 0)%nat with (i =? 0)%nat; [reflexivity|]. destruct i; [symmetry; apply Nat.eqb_eq; lia|].
      symmetry. apply Nat.eqb_neq. lia. }
    assert (E : forall i, (i < length ws1)%nat -> nth i ws1 (0, 0) = nth i ws2 (0, 0)).
    { intros i Hi. pose proof (f_equal (fun l => nth i l (0, 0, 0)) EQ) as E. cbn beta in E. rewrite !G in E by lia. injection E as _ E1 E2.
      destruct (I1 i Hi) as (_ & _ & <- & _). destruct (I2 i ltac:(lia)) as (_ & _ & <- & _).
      destruct i as [|i]; [rewrite !Nat.add_0_r in *; congruence|].
      destruct (S1 (S i) ltac:(lia)) as (_ & X1 & X2). destruct (S2 (S i) ltac:(lia)) as (_ & Y1 & Y2). congruence. }
    split; [|apply (nth_ext _ _ (0, 0) (0, 0) LL); exact E].
    pose proof (f_equal (fun l => nth 0 l (0, 0, 0)) EQ) as E0. cbn beta in E0. rewrite !G in E0 by lia. cbn [Nat.eqb] in E0.
    injection E0 as E0 _ _. rewrite !Nat.add_0_r, Z1, Z2, C1, C2, !Nat.mul_0_l, !Nat.sub_0_r in E0.
    assert (E1 : length_code (F := F) (hc_legacy C) (N.of_nat len1) = length_code (hc_legacy C) (N.of_nat len2)).
    { transitivity (length_code (F := F) (hc_legacy C) (N.of_nat len1) + 0); [ring|]. rewrite E0. ring. }
    unfold length_code in E1. rewrite !nat_N_Z in E1. destruct (hc_legacy C); apply of_Z_inj in E1; lia.
  Qed.

  (** C47 *)
  Lemma heads_agree : forall c c' (C : hash_circuit F) calcs adv adv', accepted c C calcs adv -> accepted c' C calcs adv' ->
    (Z.of_nat (calcs * hc_step C + hc_range C) * (if hc_legacy C then 1 else 2 ^ 64) < modulus (F := F))%Z ->
    (hc_range C <= hc_step C)%nat -> same_inputs C calcs adv adv' ->
    forall r, (1 <= r <= calcs)%nat -> head C adv r = 1 -> head C adv' r = 1.
  Proof.
    intros c c' C calcs adv adv' HA HA' Bd HR SI r Hr H.
    destruct (Nat.eq_dec r 1) as [->|N1]; [exact (first_row_claim c' C calcs adv' HA' Bd ltac:(lia))|].
    destruct (Nat.eq_dec r calcs) as [->|N2].
    { exact (proj2 (proj2 (proj2 (last_row_claim c' C calcs adv' HA' ltac:(lia))))). }
    destruct (every_row_claim c' C calcs adv' r HA' Bd ltac:(lia)) as (s' & e' & HM' & Hr' & _).
    destruct (Nat.eq_dec s' r) as [->|N3]; [exact (proj1 (proj2 (proj2 (proj2 HM'))))|]. exfalso.
    destruct (every_row_claim c C calcs adv (r - 1) HA Bd ltac:(lia)) as (s & e & HM & Hr1 & _).
    assert (Ee : e = (r - 1)%nat).
    { destruct (Nat.eq_dec e (r - 1)) as [|N]; [assumption|]. exfalso. apply f_1_neq_0. rewrite <- H. apply HM. lia. }
    destruct (proj1 (control_claim c C calcs adv HA) s e HM) as (x & X1 & X2 & X3).
    destruct (proj1 (control_claim c' C calcs adv' HA') s' e' HM') as (x' & X1' & X2' & X3').
    assert (E : control C adv (r - 1) = control C adv' (r - 1)) by (apply (SI (r - 1) 3)%nat; lia).
    rewrite (X3 (r - 1)%nat ltac:(lia)), (X3' (r - 1)%nat ltac:(lia)), !code_flag in E.
    destruct HM' as (_ & _ & M3 & _).
    assert (Q : ((e' - (r - 1)) * hc_step C <= calcs * hc_step C)%nat) by (apply Nat.mul_le_mono_r; lia).
    assert (Q1 : (1 * hc_step C <= (e' - (r - 1)) * hc_step C)%nat) by (apply Nat.mul_le_mono_r; lia).
    assert (Q0 : ((e - (r - 1)) * hc_step C = 0)%nat) by (replace (e - (r - 1))%nat with 0%nat by lia; reflexivity).
    apply (flag_inj (hc_legacy C) _ _ (N.of_nat (calcs * hc_step C + hc_range C))) in E; [|lia|lia|exact (bound_N C calcs Bd)].
    assert (0 < x')%nat by (apply X2'; lia). lia.
  Qed.
  Theorem determined_claim : forall c (C : hash_circuit F) calcs adv adv', accepted c C calcs adv -> accepted c C calcs adv' ->
    (Z.of_nat (calcs * hc_step C + hc_range C) * (if hc_legacy C then 1 else 2 ^ 64) < modulus (F := F))%Z ->
    (hc_range C <= hc_step C)%nat -> same_inputs C calcs adv adv' ->
    (forall r, (1 <= r <= calcs)%nat -> head C adv r = head C adv' r)
    /\ (forall r, (1 <= r < calcs)%nat -> digest C adv r = digest C adv' r).
  Proof.
    intros c C calcs adv adv' HA HA' Bd HR SI.
    assert (SI' : same_inputs C calcs adv' adv) by (intros r j Hr Hj; symmetry; now apply SI).
    pose proof (heads_agree c c C calcs adv adv' HA HA' Bd HR SI) as H1.
    pose proof (heads_agree c c C calcs adv' adv HA' HA Bd HR SI') as H2.
    assert (BL : forall adv, accepted c C calcs adv -> forall r, (1 <= r <= calcs)%nat -> head C adv r = 1 \/ head C adv r = 0).
    { clear - PF. intros adv HA r Hr. destruct (accepted_ok _ _ _ _ HA) as (n & short & h & B & OK).
      destruct (bool_head C _ n calcs adv OK r Hr) as [[E _]|[E _]]; auto. }
    assert (HH : forall r, (1 <= r <= calcs)%nat -> head C adv r = head C adv' r).
    { intros r Hr. destruct (BL adv HA r Hr) as [E|E].
      - rewrite E. symmetry. now apply H1.
      - destruct (BL adv' HA' r Hr) as [E'|E']; [|now rewrite E, E']. rewrite E'. now apply H2. }
    split; [exact HH|]. intros r Hr.
    destruct (every_row_claim c C calcs adv r HA Bd Hr) as (s & e & HM & Hse & ED).
    assert (HM' : message C adv' calcs s e).
    { destruct HM as (M1 & M2 & M3 & M4 & M5 & M6). split; [assumption|]. split; [assumption|]. split; [assumption|].
      split; [rewrite <- HH by lia; assumption|]. split; [intros i Hi; rewrite <- HH by lia; now apply M5|rewrite <- HH by lia; assumption]. }
    destruct (message_claim c C calcs adv' s e HA' HM') as [K _]. rewrite (K r Hse), ED. f_equal.
    destruct HM as (M1 & M2 & M3 & _).
    unfold absorbed. replace (control C adv s) with (control C adv' s) by (symmetry; apply (SI s 3%nat); lia).
    assert (G : forall l st, (forall i, In i l -> (1 <= i <= calcs)%nat) ->
      fold_left (fun st r => poseidon_permutation c [nth 0 st 0 + domain C adv r; nth 1 st 0 + in1 C adv r; nth 2 st 0 + in2 C adv r]) l st
      = fold_left (fun st r => poseidon_permutation c [nth 0 st 0 + domain C adv' r; nth 1 st 0 + in1 C adv' r; nth 2 st 0 + in2 C adv' r]) l st).
    { clear - SI PF. induction l as [|i l IH]; intros st Hl; [reflexivity|]. cbn [fold_left].
      assert (Hi := Hl i (or_introl eq_refl)).
      replace (domain C adv i) with (domain C adv' i) by (symmetry; apply (SI i 4%nat); lia).
      replace (in1 C adv i) with (in1 C adv' i) by (symmetry; apply (SI i 1%nat); lia).
      replace (in2 C adv i) with (in2 C adv' i) by (symmetry; apply (SI i 2%nat); lia).
      apply IH. intros j Hj. apply Hl. now right. }
    apply G. intros i Hi. apply in_seq in Hi. lia.
  Qed.
End Claims.
