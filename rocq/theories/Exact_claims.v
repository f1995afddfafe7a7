(** The lemmas behind C63 in PropertiesExact.v. *)
From Coq Require Import ZArith NArith List Arith Lia Bool.
From Verif Require Import Field Rust ListAux Primitives Specs BaseHash SpecHash Halo2 Septidon PermuteChip ChipUse Layout_proof SeptVal_proof
  Contract Stack_proof SpongeTable TableRows_proof TableLoad_proof TableUse TableInv_proof TableGate_proof TableSound_proof TableMsg_proof
  TableVals_proof TableHonest_proof TableSat_proof Link Table_claims ExactUse TableExact_proof.
Import ListNotations.
Local Open Scope nat_scope.

Section Fill.
  Context {F : Type} {FO : FieldOps F} {PF : PrimeField F}.
  Add Field Ffield : f_field.
  Local Open Scope F_scope.
  Variable perm : list F -> list F.
  Variable C : hash_circuit F.
  Variables n u calcs : nat.
  Variable adv : nat -> nat -> F.
  Notation head := (head C adv).
  Notation digest := (digest C adv).
  Notation control := (control C adv).

  (** the state before and after the permutation of a row *)
  Fixpoint fin (r : nat) : F * F * F :=
    match r with
    | O => (digest 0%nat, 0, 0)
    | S p =>
      let '(a, b, c) := fin p in
      let x := if feqb (head r) 1 then [control r + domain C adv r; in1 C adv r; in2 C adv r]
               else [a + domain C adv r; b + in1 C adv r; c + in2 C adv r] in
      (nth 0 (perm x) 0, nth 1 (perm x) 0, nth 2 (perm x) 0)
    end.
  Definition sin (r : nat) : F * F * F :=
    let '(a, b, c) := fin (r - 1) in
    if feqb (head r) 1 then (control r + domain C adv r, in1 C adv r, in2 C adv r)
    else (a + domain C adv r, b + in1 C adv r, c + in2 C adv r).
  Lemma fin_sin : forall r, (1 <= r)%nat ->
    fin r = (nth 0 (perm (of3 (sin r))) 0, nth 1 (perm (of3 (sin r))) 0, nth 2 (perm (of3 (sin r))) 0).
  Proof.
    intros [|r] H; [lia|]. unfold sin. cbn [fin]. replace (S r - 1)%nat with r by lia. destruct (fin r) as [[a b] c].
    destruct (feqb (head (S r)) 1); reflexivity.
  Qed.

  Hypothesis REL : table_relation perm C n u calcs adv.

  Lemma rel_head : forall r, (1 <= r <= calcs)%nat -> head r = 1 \/ (head r = 0 /\ feqb (head r) 1 = false).
  Proof.
    intros r Hr. destruct REL as (_ & _ & H & _). destruct (H r Hr) as [E|E]; [now left|right].
    destruct E as (_ & E & _). split; [assumption|]. apply feqb_neq. rewrite E. intros X. apply f_1_neq_0. now symmetry.
  Qed.

  (** the state of a message *)
  Lemma fin_absorbed : forall s k, (1 <= s)%nat -> (s + k <= calcs)%nat -> head s = 1 -> (forall i, (s < i <= s + k)%nat -> head i = 0) ->
    fin (s + k) = (nth 0 (absorbed C adv perm s (s + k)) 0, nth 1 (absorbed C adv perm s (s + k)) 0, nth 2 (absorbed C adv perm s (s + k)) 0).
  Proof.
    intros s k Hs. induction k as [|k IH]; intros Hk H1 H0.
    - rewrite Nat.add_0_r. rewrite fin_sin by lia. unfold sin. destruct (fin (s - 1)) as [[a b] c].
      rewrite H1, feqb_refl. unfold absorbed. replace (S s - s)%nat with 1%nat by lia. cbn [seq fold_left nth of3].
      replace (0 + in1 C adv s) with (in1 C adv s) by ring. replace (0 + in2 C adv s) with (in2 C adv s) by ring. reflexivity.
    - specialize (IH ltac:(lia) H1 ltac:(intros; apply H0; lia)).
      assert (E : absorbed C adv perm s (s + S k) = perm (of3 (sin (s + S k)))).
      { unfold absorbed. replace (S (s + S k) - s)%nat with (S (S (s + k) - s))%nat by lia. rewrite seq_S, fold_left_app. cbn [fold_left].
        fold (absorbed C adv perm s (s + k)). replace (s + (S (s + k) - s))%nat with (s + S k)%nat by lia.
        unfold sin. replace (s + S k - 1)%nat with (s + k)%nat by lia. rewrite IH.
        destruct (rel_head (s + S k) ltac:(lia)) as [X|[_ X]].
        { exfalso. apply f_1_neq_0. rewrite <- X. apply H0. lia. }
        rewrite X. reflexivity. }
      rewrite fin_sin by lia. rewrite E. reflexivity.
  Qed.

  Lemma start_of : forall r, (1 <= r <= calcs)%nat ->
    exists s, (1 <= s <= r)%nat /\ head s = 1 /\ forall i, (s < i <= r)%nat -> head i = 0.
  Proof.
    induction r as [|r IH]; intros Hr; [lia|].
    pose proof REL as (_ & _ & HH & _). destruct (HH (S r) Hr) as [E|E].
    - exists (S r). split; [lia|]. split; [assumption|]. intros; lia.
    - destruct E as (E1 & E2 & _). destruct (IH ltac:(lia)) as (s & H1 & H2 & H3). exists s. split; [lia|]. split; [assumption|].
      intros i Hi. destruct (Nat.eq_dec i (S r)) as [->|]; [assumption|]. apply H3. lia.
  Qed.

  (** before a head row stands the digest *)
  Lemma fin_digest : forall r, (1 <= r <= calcs)%nat -> head r = 1 -> fst (fst (fin (r - 1))) = digest (r - 1).
  Proof.
    intros r Hr E. destruct (Nat.eq_dec r 1) as [->|N]; [reflexivity|].
    destruct (start_of (r - 1) ltac:(lia)) as (s & H1 & H2 & H3).
    assert (M : message C adv calcs s (r - 1)).
    { split; [lia|]. split; [lia|]. split; [lia|]. split; [assumption|]. split; [assumption|]. replace (S (r - 1)) with r by lia. assumption. }
    destruct REL as (_ & _ & _ & D & _). rewrite (D s (r - 1)%nat M).
    pose proof (fin_absorbed s (r - 1 - s) ltac:(lia) ltac:(lia) H2 ltac:(intros; apply H3; lia)) as K.
    replace (s + (r - 1 - s))%nat with (r - 1)%nat in K by lia. rewrite K. reflexivity.
  Qed.

  (** the assignment *)
  Definition filled (chip : nat -> nat -> F) (top : nat) : nat -> nat -> F := fun c r =>
    if (c <? A0 C)%nat then adv c r else if (top <=? c)%nat then adv c r else if (8 + A0 C <=? c)%nat then chip c r else
    match (c - A0 C)%nat with
    | 0%nat => fst (fst (sin r)) | 1%nat => snd (fst (sin r)) | 2%nat => snd (sin r)
    | 3%nat => snd (fst (fin r)) | 4%nat => snd (fin r) | 5%nat => fst (fst (fin r))
    | 6%nat => 1 - head r
    | _ => if feqb (control r) 0 then 0 else finv (control r)
    end.

  Hypothesis HC : host_columns C.
  Variables (chip : nat -> nat -> F) (top : nat).
  Hypothesis Htop : (8 + A0 C <= top)%nat.
  Notation adv' := (filled chip top).

  Lemma filled_table : forall j r, (j < 6)%nat -> tcell C adv' j r = tcell C adv j r.
  Proof.
    intros j r Hj. unfold tcell, filled. pose proof (table_cols_host C HC j Hj) as T.
    replace (_ <? A0 C)%nat with true; [reflexivity|]. symmetry. apply Nat.ltb_lt. exact T.
  Qed.
  Lemma filled_outside : forall c r, ~ (A0 C <= c < top)%nat -> adv' c r = adv c r.
  Proof.
    intros c r N. unfold filled. destruct (Nat.ltb_spec c (A0 C)); [reflexivity|]. destruct (Nat.leb_spec top c); [reflexivity|lia].
  Qed.
  Lemma filled_chip : forall c r, (8 + A0 C <= c < top)%nat -> adv' c r = chip c r.
  Proof.
    intros c r N. unfold filled. destruct (Nat.ltb_spec c (A0 C)); [lia|]. destruct (Nat.leb_spec top c); [lia|].
    destruct (Nat.leb_spec (8 + A0 C) c); [reflexivity|lia].
  Qed.
  Lemma filled_aux : forall j r, (j < 8)%nat -> adv' (j + A0 C)%nat r =
    match j with
    | 0%nat => fst (fst (sin r)) | 1%nat => snd (fst (sin r)) | 2%nat => snd (sin r)
    | 3%nat => snd (fst (fin r)) | 4%nat => snd (fin r) | 5%nat => fst (fst (fin r))
    | 6%nat => 1 - head r
    | _ => if feqb (control r) 0 then 0 else finv (control r)
    end.
  Proof.
    intros j r Hj. unfold filled. destruct (Nat.ltb_spec (j + A0 C) (A0 C)); [lia|]. destruct (Nat.leb_spec top (j + A0 C)); [lia|].
    destruct (Nat.leb_spec (8 + A0 C) (j + A0 C)); [lia|]. replace (j + A0 C - A0 C)%nat with j by lia. reflexivity.
  Qed.

  Lemma filled_rows : forall r, (1 <= r <= calcs)%nat -> row_eqs C adv' r.
  Proof.
    intros r Hr. unfold row_eqs. cbv zeta. unfold TableUse.control, TableUse.digest, in1, in2, domain, TableUse.head, auxc, contc, invc.
    rewrite !filled_table by lia. rewrite !filled_aux by lia.
    fold (control r) (control (r - 1)) (digest r) (digest (r - 1)) (in1 C adv r) (in2 C adv r) (domain C adv r) (head r).
    pose proof (fin_digest r Hr) as FD.
    pose proof REL as (_ & _ & HH & _).
    assert (INV : control r * (1 - control r * (if feqb (control r) 0 then 0 else finv (control r))) = 0).
    { destruct (feqb (control r) 0) eqn:E.
      - apply feqb_eq in E. rewrite E. ring.
      - apply feqb_neq in E. rewrite (finv_r _ E). ring. }
    unfold sin. destruct (fin (r - 1)) as [[a b] c] eqn:Ef. cbn [fst snd] in *.
    destruct (HH r Hr) as [E|(E1 & E & E3 & E4 & E5)].
    - specialize (FD E). rewrite E, feqb_refl in *. cbn [fst snd]. rewrite FD.
      repeat split; try ring. exact INV.
    - assert (X : feqb (head r) 1 = false). { apply feqb_neq. rewrite E. intros X. apply f_1_neq_0. now symmetry. }
      rewrite X. cbn [fst snd]. rewrite E, E3, E5.
      assert (X2 : feqb (control r) 0 = false) by now apply feqb_neq.
      rewrite X2 in *. rewrite (finv_r _ E4). unfold stepf. rewrite flag_code.
      repeat split; ring.
  Qed.
End Fill.

Section Claims.
  Context {F : Type} {FO : FieldOps F} {PF : PrimeField F}.
  Add Field Ffield2 : f_field.
  Local Open Scope F_scope.

  (** the relation is about the exposed columns only *)
  Lemma relation_ext : forall perm (C C' : hash_circuit F) n u calcs adv adv', same_reading C C' ->
    (forall j r, (j < 6)%nat -> tcell C' adv' j r = tcell C adv j r) ->
    table_relation perm C n u calcs adv -> table_relation perm C' n u calcs adv'.
  Proof.
    intros perm C C' n u calcs adv adv' (E1 & E2 & E3) TT.
    assert (AB : forall s e, absorbed C' adv' perm s e = absorbed C adv perm s e).
    { intros s e. unfold absorbed, domain, in1, in2, control. rewrite (TT 3%nat s) by lia. generalize [tcell C adv 3 s; 0; 0].
      generalize (seq s (S e - s)). intros l. induction l as [|r l IH]; intros st; [reflexivity|]. cbn [fold_left]. rewrite IH.
      rewrite !TT by lia. reflexivity. }
    intros (R1 & R2 & R3 & R4 & R5). split; [|split; [|split; [|split]]].
    - unfold zero_row, in1, in2, control in *. rewrite !TT by lia. exact R1.
    - unfold zero_row, in1, in2, control in *. rewrite !TT by lia. exact R2.
    - intros r Hr. specialize (R3 r Hr). unfold continues, head, digest, control in *. rewrite !TT, E1, E3 by lia. exact R3.
    - intros s e (M1 & M2 & M3 & M4 & M5 & M6). unfold digest, head in *. rewrite TT, AB by lia. apply R4.
      unfold message, head. rewrite TT in M4, M6 by lia. repeat split; try assumption.
      intros i Hi. rewrite <- TT by lia. now apply M5.
    - intros r Hr. destruct (R5 r Hr) as (x & Hx & E). exists x. rewrite E1, E2. split; [assumption|].
      unfold head, control in *. rewrite !TT by lia. exact E.
  Qed.

  Theorem relation_needed : forall c (C : hash_circuit F) mode calcs t L0 L1 L copies n u adv,
    set_up c C mode calcs t L0 L1 L copies n u ->
    (Z.of_nat (calcs * hc_step C + hc_range C) * (if hc_legacy C then 1 else 2 ^ 64) < modulus (F := F))%Z ->
    satisfied n u (hc_cs C) L adv ->
    table_relation (poseidon_permutation c) C n u calcs adv /\ host_ok C L0 L copies n u adv.
  Proof.
    intros c C mode calcs t L0 L1 L copies n u adv SU Bd SAT.
    pose proof SU as (HC & HL & (short & h & B & Hh) & Hu & HR & Hn).
    destruct (build_facts _ _ _ _ _ B) as (_ & _ & HP & _ & _).
    pose proof (sat_ok C _ h HC HP mode calcs t L0 L1 L copies n u adv HL Hu Hh Hn SAT) as OK.
    split; [|exact (sat_host C _ h HC HP mode calcs t L0 L1 L copies n u adv HL SAT)].
    split; [exact (ok_first _ _ _ _ _ OK)|]. split; [exact (ok_last _ _ _ _ _ OK)|]. split; [|split].
    - intros r Hr. destruct (bool_head C _ n calcs adv OK r Hr) as [[E _]|[E _]]; [now left|right].
      destruct (cont_row C _ n calcs adv OK r Hr E) as (_ & _ & _ & E1 & E2 & E3).
      split.
      { destruct (Nat.eq_dec r 1) as [->|N]; [|lia]. exfalso. apply f_1_neq_0.
        rewrite <- (first_head C _ n calcs adv OK (bound_N C calcs Bd) ltac:(lia)). exact E. }
      split; [assumption|]. split; [assumption|]. split; [assumption|]. rewrite <- flag_code. exact E2.
    - intros s e HM. apply (run_hash C _ n calcs adv OK s e HM). destruct HM as (? & ? & _). lia.
    - intros r Hr. destruct (sat_range C _ h HC HP mode calcs t L0 L1 L copies n u adv HL ltac:(lia) Hn SAT r Hr) as (k & Hk & E).
      exists k. split; [assumption|]. rewrite <- flag_code. exact E.
  Qed.

  Theorem relation_enough : forall c (C : hash_circuit F) mode calcs t L0 L1 L copies n u adv,
    set_up c C mode calcs t L0 L1 L copies n u ->
    table_relation (poseidon_permutation c) C n u calcs adv ->
    exists adv', same_outside C adv adv' /\ (host_ok C L0 L copies n u adv' -> satisfied n u (hc_cs C) L adv').
  Proof.
    intros c C mode calcs t L0 L1 L copies n u adv SU REL.
    pose proof SU as (HC & HL & (short & h & B & Hh) & Hu & HR & Hn).
    destruct (build_facts _ _ _ _ _ B) as (_ & _ & HP & _ & _).
    destruct (chip_is_here C _ h HC HP) as (D & HD).
    set (P := poseidon_permutation c) in *.
    pose proof HD as HD'. destruct HD' as (_ & _ & _ & _ & _ & _ & _ & _ & (Ht & _)). cbn [csm cs_adv] in Ht.
    set (chip := chip_fill h D (sin P C adv)).
    exists (filled P C adv chip (cs_adv (hc_cs C))). split.
    { intros c' r N. apply filled_outside; assumption. }
    intros HO.
    pose proof (filled_table P C adv HC chip (cs_adv (hc_cs C))) as TT.
    pose proof (fun j r => filled_aux P C adv chip (cs_adv (hc_cs C)) Ht j r) as AX.
    apply (sat_build C P h HC D mode calcs t L0 L1 L copies n u _ (sin P C adv) HD HL Hu Hh Hn HR).
    - intros c' r Hc. apply filled_chip; assumption.
    - intros r Hr. unfold auxc. rewrite !AX by lia. destruct (sin P C adv r) as [[a b] d]. reflexivity.
    - intros r Hr. unfold auxc. cbn [map]. rewrite !AX by lia. rewrite (fin_sin P C adv r) by lia. reflexivity.
    - intros r Hr. exact (filled_rows P C n u calcs adv REL HC chip _ Ht r Hr).
    - destruct REL as (Z & _). unfold custom_eqs, control, in1, in2 in *. unfold zero_row, control, in1, in2 in Z. rewrite !TT by lia. exact Z.
    - destruct REL as (_ & Z & _). unfold custom_eqs, control, in1, in2 in *. unfold zero_row, control, in1, in2 in Z. rewrite !TT by lia. exact Z.
    - intros r Hr. destruct REL as (_ & _ & _ & _ & Z). destruct (Z r Hr) as (x & Hx & E). exists x. split; [assumption|].
      rewrite flag_code. unfold head, control in *. rewrite !TT by lia. exact E.
    - exact HO.
  Qed.

  Theorem any_host_claim : forall c (C : hash_circuit F) mode calcs t L0 L1 L copies n u adv,
    set_up c C mode calcs t L0 L1 L copies n u ->
    (Z.of_nat (calcs * hc_step C + hc_range C) * (if hc_legacy C then 1 else 2 ^ 64) < modulus (F := F))%Z ->
    (satisfied n u (hc_cs C) L adv ->
       table_relation (poseidon_permutation c) C n u calcs adv /\ host_ok C L0 L copies n u adv)
    /\ (table_relation (poseidon_permutation c) C n u calcs adv ->
        exists adv', same_outside C adv adv' /\ (host_ok C L0 L copies n u adv' -> satisfied n u (hc_cs C) L adv')).
  Proof.
    intros c C mode calcs t L0 L1 L copies n u adv SU Bd. split.
    - exact (relation_needed c C mode calcs t L0 L1 L copies n u adv SU Bd).
    - exact (relation_enough c C mode calcs t L0 L1 L copies n u adv SU).
  Qed.

  (** C63 *)
  Theorem exact_claim : forall c (C : hash_circuit F) mode calcs t L0 L1 L copies n u adv,
    set_up c C mode calcs t L0 L1 L copies n u ->
    (Z.of_nat (calcs * hc_step C + hc_range C) * (if hc_legacy C then 1 else 2 ^ 64) < modulus (F := F))%Z ->
    host_apart C L0 L copies n u ->
    ((exists adv', same_outside C adv adv' /\ satisfied n u (hc_cs C) L adv')
     <-> table_relation (poseidon_permutation c) C n u calcs adv /\ host_ok C L0 L copies n u adv).
  Proof.
    intros c C mode calcs t L0 L1 L copies n u adv SU Bd HA. pose proof SU as (HC & _). split.
    - intros (adv' & Eq & SAT). destruct (relation_needed c C mode calcs t L0 L1 L copies n u adv' SU Bd SAT) as [R H].
      split.
      + assert (TT : forall j r, (j < 6)%nat -> tcell C adv' j r = tcell C adv j r).
        { intros j r Hj. unfold tcell. apply Eq. pose proof (table_cols_host C HC j Hj). lia. }
        apply (relation_ext _ C C n u calcs adv' adv); [repeat split| |assumption]. intros j r Hj. symmetry. now apply TT.
      + apply (HA adv' adv); [|assumption]. intros c' r N. symmetry. now apply Eq.
    - intros [R H]. destruct (relation_enough c C mode calcs t L0 L1 L copies n u adv SU R) as (adv' & Eq & S).
      exists adv'. split; [assumption|]. apply S. exact (HA adv adv' Eq H).
  Qed.

  (** C63: two circuits, one table *)
  Theorem same_tables_claim : forall c (C C' : hash_circuit F) mode mode' calcs t t' L0 L1 L L0' L1' L' copies copies' n u adv adv0,
    set_up c C mode calcs t L0 L1 L copies n u -> set_up c C' mode' calcs t' L0' L1' L' copies' n u ->
    same_reading C C' ->
    (Z.of_nat (calcs * hc_step C + hc_range C) * (if hc_legacy C then 1 else 2 ^ 64) < modulus (F := F))%Z ->
    satisfied n u (hc_cs C) L adv ->
    (forall j r, (j < 6)%nat -> tcell C' adv0 j r = tcell C adv j r) ->
    exists adv', same_outside C' adv0 adv' /\ (host_ok C' L0' L' copies' n u adv' -> satisfied n u (hc_cs C') L' adv').
  Proof.
    intros c C C' mode mode' calcs t t' L0 L1 L L0' L1' L' copies copies' n u adv adv0 SU SU' SR Bd SAT TT.
    destruct (relation_needed c C mode calcs t L0 L1 L copies n u adv SU Bd SAT) as [R _].
    apply (relation_enough c C' mode' calcs t' L0' L1' L' copies' n u adv0 SU').
    exact (relation_ext _ C C' n u calcs adv adv0 SR TT R).
  Qed.
End Claims.
