(** The lemmas behind C52: the domain of a continuing row is free, and what a host must ask for. *)
From Coq Require Import ZArith NArith List Arith Lia Bool.
From Verif Require Import Field Rust ListAux Primitives Specs BaseHash SpecHash Link Halo2 PermuteChip ChipUse Layout_proof Contract
  Stack_proof SpongeTable TableRows_proof TableLoad_proof TableUse TableInv_proof TableGate_proof TableSound_proof TableMsg_proof
  TableHonest_proof TableSat_proof TableState_proof Table_claims LookupUse TableLookup_claims.
Import ListNotations.
Local Open Scope nat_scope.

Section Change.
  Context {F : Type} {FO : FieldOps F} {PF : PrimeField F}.
  Variable C : hash_circuit F.
  Hypothesis HC : host_columns C.
  Variable adv : nat -> nat -> F.

  (** other values in the exposed columns, the continue column and the inverse column *)
  Definition relabel (tb : nat -> nat -> F) (ct iv : nat -> F) : nat -> nat -> F := fun c r =>
    match find (fun j => nth j (hc_table C) 0 =? c) (seq 0 6) with
    | Some j => tb j r
    | None => if c =? 6 + A0 C then ct r else if c =? 7 + A0 C then iv r else adv c r
    end.
  Lemma relabel_table : forall tb ct iv j r, j < 6 -> tcell C (relabel tb ct iv) j r = tb j r.
  Proof.
    intros tb ct iv j r Hj. unfold tcell, relabel.
    destruct (find _ _) as [k|] eqn:E.
    - apply find_some in E. destruct E as [E1 E2]. apply in_seq in E1. apply Nat.eqb_eq in E2.
      destruct (Nat.eq_dec k j) as [->|N]; [reflexivity|]. exfalso. exact (table_cols_apart C HC k j ltac:(lia) Hj N E2).
    - pose proof (find_none _ _ E j) as K. cbn beta in K. rewrite Nat.eqb_refl in K. discriminate K. apply in_seq. lia.
  Qed.
  Lemma relabel_own : forall tb ct iv c r, cs_adv (hc_host C) <= c ->
    relabel tb ct iv c r = if c =? 6 + A0 C then ct r else if c =? 7 + A0 C then iv r else adv c r.
  Proof.
    intros tb ct iv c r Hc. unfold relabel. destruct (find _ _) as [k|] eqn:E; [|reflexivity]. exfalso.
    apply find_some in E. destruct E as [E1 E2]. apply in_seq in E1. apply Nat.eqb_eq in E2.
    pose proof (table_cols_host C HC k ltac:(lia)). lia.
  Qed.
End Change.

Section Forge.
  Context {F : Type} {FO : FieldOps F} {PF : PrimeField F}.
  Add Field Ffield : f_field.
  Local Open Scope F_scope.

  (** the state in which the second row of the message [v], [w] is permuted *)
  Definition second_state (perm : list F -> list F) (cap : F) (v w : F * F) : list F :=
    let st := perm [cap; fst v; snd v] in [nth 0 st 0; nth 1 st 0 + fst w; nth 2 st 0 + snd w].
  (** the table that makes the permutations of the forged assignment *)
  Definition forge_table (perm : list F -> list F) (legacy : bool) (step : nat) (len : N) (w0 w1 v : F * F) (dv : F) : hash_table F :=
    let x := second_state perm (length_code legacy len + dv) v w1 in
    {| ht_inputs := [w0; (nth 1 x 0, nth 2 x 0); v; w1]; ht_controls := [0; 0; len; len - N.of_nat step]%N;
       ht_domain := [Some (length_code legacy len); Some (nth 0 x 0); Some dv]; ht_checks := [] |}.

  (** with a permutation that reaches every state, any digest *)
  Lemma steer : forall perm : list F -> list F,
    (forall y, length y = 3%nat -> exists x, length x = 3%nat /\ perm x = y) ->
    forall cap w d, exists v dv, nth 0 (perm (second_state perm (cap + dv) v w)) 0 = d.
  Proof.
    intros perm S cap w d. destruct (S [d; 0; 0] eq_refl) as (x & Lx & Ex).
    destruct x as [|x0 [|x1 [|x2 [|]]]]; try discriminate Lx.
    destruct (S [x0; x1 - fst w; x2 - snd w] eq_refl) as (q & Lq & Eq).
    destruct q as [|q0 [|q1 [|q2 [|]]]]; try discriminate Lq.
    exists (q1, q2), (q0 - cap). unfold second_state. cbv zeta. cbn [fst snd].
    replace (cap + (q0 - cap)) with q0 by ring. rewrite Eq. cbn [nth].
    replace (x1 - fst w + fst w) with x1 by ring. replace (x2 - snd w + snd w) with x2 by ring. rewrite Ex. reflexivity.
  Qed.

  Theorem forge_claim : forall c (C : hash_circuit F) mode L0 L1 L copies n u (blind : nat -> nat -> F) w0 w1 v dv len,
    set_up c C mode 5 (forge_table (poseidon_permutation c) (hc_legacy C) (hc_step C) len w0 w1 v dv) L0 L1 L copies n u ->
    (hc_range C <= hc_step C)%nat -> (N.of_nat (hc_step C) < len <= N.of_nat (hc_step C + hc_range C))%N ->
    (Z.of_N (len + N.of_nat (hc_step C)) * (if hc_legacy C then 1 else 2 ^ 64) < modulus (F := F))%Z ->
    (forall adv, host_ok C L0 L copies n u adv) ->
    let d := nth 0 (poseidon_permutation c (second_state (poseidon_permutation c) (length_code (hc_legacy C) len + dv) v w1)) 0 in
    exists adv a b dom, satisfied n u (hc_cs C) L adv
      /\ table_tuple C adv 1 = [d; fst w0; snd w0; length_code (hc_legacy C) len; 0; 1]
      /\ table_tuple C adv 2 = [d; a; b; length_code (hc_legacy C) (len - N.of_nat (hc_step C)); dom; 0]
      /\ table_tuple C adv 3 = [d; fst v; snd v; length_code (hc_legacy C) len; dv; 1]
      /\ table_tuple C adv 4 = [d; fst w1; snd w1; length_code (hc_legacy C) (len - N.of_nat (hc_step C)); 0; 0]
      /\ head C adv 5 = 1.
  Proof.
    intros c C mode L0 L1 L copies n u blind w0 w1 v dv len SU HRS Hlen Bl HO d.
    set (t := forge_table _ _ _ _ _ _ _ _) in *.
    pose proof SU as (HC & HL & (short & h & B & Hh) & Hu & HR & Hn).
    destruct (build_facts _ _ _ _ _ B) as (_ & _ & HP & HS & _).
    set (adv := honest u L blind).
    assert (RC : forall i, (row_control t i <= len)%N).
    { intros i. unfold t, row_control. cbn [forge_table ht_controls]. do 4 (destruct i as [|i]; [cbn [nth]; lia|]). destruct i; cbn [nth]; lia. }
    assert (WF : well_formed (hc_range C) (hc_step C) 5 t).
    { split; [|intros _; split; reflexivity]. intros i Hi. unfold t, row_control, row_domain. cbn [forge_table ht_controls ht_domain].
      destruct i as [|[|[|[|i]]]]; cbn [nth]; intros K; try lia.
      split; [lia|]. split; [lia|reflexivity]. }
    assert (SAT : satisfied n u (hc_cs C) L adv).
    { apply (complete_claim c C mode 5 t L0 L1 L copies n u blind SU); [|split; [exact WF|apply HO]].
      intros i. eapply Z.le_lt_trans; [|exact Bl]. apply Z.mul_le_mono_nonneg_r; [destruct (hc_legacy C); lia|]. specialize (RC i). lia. }
    pose proof (fun i => honest_rows C _ h HC HP HS mode 5 t L0 L1 L copies u blind HL Hu i) as R.
    fold adv in R. cbv zeta in R. clearbody adv.
    pose proof (sat_ok C (poseidon_permutation c) h HC HP mode 5 t L0 L1 L copies n u adv HL Hu Hh Hn SAT) as OK.
    pose proof (fun r => sat_range C (poseidon_permutation c) h HC HP mode 5 t L0 L1 L copies n u adv HL ltac:(lia) Hn SAT r) as RG.
    set (P := poseidon_permutation c) in *.
    set (code := length_code (F := F) (hc_legacy C)) in *.
    assert (Z0 : code 0%N = 0). { unfold code. rewrite code_flag. apply flag_0. }
    destruct (R 0%nat ltac:(lia)) as (A1 & B1 & C1 & D1 & H1 & _). destruct (R 1%nat ltac:(lia)) as (A2 & B2 & C2 & D2 & H2 & G2 & _).
    destruct (R 2%nat ltac:(lia)) as (A3 & B3 & C3 & D3 & H3 & G3 & _). destruct (R 3%nat ltac:(lia)) as (A4 & B4 & C4 & D4 & H4 & G4 & _).
    destruct (R 4%nat ltac:(lia)) as (_ & _ & C5 & _ & H5 & _). clear R.
    assert (K3 : row_control t 2 = len) by reflexivity. assert (K4 : row_control t 3 = (len - N.of_nat (hc_step C))%N) by reflexivity.
    assert (S2 : row_state P (hc_legacy C) (hc_range C) t 1 = P (second_state P (code len + dv) v w1)).
    { cbn [row_state]. replace (row_control t 0 <=? N.of_nat (hc_range C))%N with true by (symmetry; apply N.leb_le; cbn; lia).
      f_equal. unfold row_fresh. cbn [t forge_table row_control row_domain row_input ht_controls ht_domain ht_inputs nth fst snd].
      fold code. rewrite Z0. set (x := second_state _ _ _ _). cbv zeta. unfold second_state in x. cbv zeta in x. unfold x. cbn [nth].
      f_equal. ring. }
    assert (S3 : row_state P (hc_legacy C) (hc_range C) t 3 = P (second_state P (code len + dv) v w1)).
    { cbn [row_state]. rewrite K3. replace (len <=? N.of_nat (hc_range C))%N with false by (symmetry; apply N.leb_gt; lia).
      replace (row_control t 1 <=? N.of_nat (hc_range C))%N with true by (symmetry; apply N.leb_le; cbn; lia).
      unfold row_fresh. rewrite K3. fold code.
      change (row_domain t 2) with dv. change (row_input t 2) with v. change (row_input t 3) with w1.
      reflexivity. }
    assert (E2 : digest C adv 2 = d).
    { rewrite (G2 0%nat); [cbn [Nat.add]; rewrite S2; reflexivity|lia|intros; lia|]. cbn. lia. }
    assert (E3 : digest C adv 3 = d).
    { rewrite (G3 1%nat); [cbn [Nat.add]; rewrite S3; reflexivity|lia| |].
      - intros j Hj. replace j with 2%nat by lia. rewrite K3. lia.
      - cbn [Nat.add]. rewrite K4. lia. }
    assert (E4 : digest C adv 4 = d).
    { rewrite (G4 0%nat); [cbn [Nat.add]; rewrite S3; reflexivity|lia|intros; lia|]. cbn [Nat.add]. rewrite K4. lia. }
    clear G2 G3 G4 S2 S3.
    assert (H1' : head C adv 1 = 1) by exact H1.
    assert (H2' : head C adv 2 = 1). { rewrite H2. replace (row_control t 0 <=? N.of_nat (hc_range C))%N with true by (symmetry; apply N.leb_le; cbn; lia). reflexivity. }
    assert (H3' : head C adv 3 = 1). { rewrite H3. replace (row_control t 1 <=? N.of_nat (hc_range C))%N with true by (symmetry; apply N.leb_le; cbn; lia). reflexivity. }
    assert (H4' : head C adv 4 = 0). { rewrite H4, K3. replace (len <=? N.of_nat (hc_range C))%N with false by (symmetry; apply N.leb_gt; lia). reflexivity. }
    assert (H5' : head C adv 5 = 1). { rewrite H5, K4. replace (len - N.of_nat (hc_step C) <=? N.of_nat (hc_range C))%N with true by (symmetry; apply N.leb_le; lia). reflexivity. }
    clear H1 H2 H3 H4 H5.
    change (row_input t 0) with w0 in *. change (row_input t 2) with v in *. change (row_input t 3) with w1 in *.
    rewrite K3 in C3. rewrite K4 in C4. fold code in C3, C4.
    change (row_control t 0) with 0%N in C1. fold code in C1. rewrite Z0 in C1.
    change (row_control t 1) with 0%N in C2. fold code in C2. rewrite Z0 in C2.
    change (row_domain t 0) with (code len) in D1. change (row_domain t 2) with dv in D3. change (row_domain t 3) with (0 : F) in D4.
    set (len' := (len - N.of_nat (hc_step C))%N) in *.
    assert (NZ : forall k, (0 < k <= len)%N -> code k <> 0).
    { intros k Hk E. unfold code in E. rewrite code_flag in E. apply (flag_nonzero _ _ len) in E; [lia|lia|].
      rewrite N2Z.inj_mul.
      replace (Z.of_N (hashable_domain_spec (hc_legacy C))) with (if hc_legacy C then 1 else 2 ^ 64)%Z by (destruct (hc_legacy C); reflexivity).
      eapply Z.le_lt_trans; [|exact Bl]. apply Z.mul_le_mono_nonneg_r; [destruct (hc_legacy C); lia|]. lia. }
    assert (N1 : code len <> 0) by (apply NZ; lia). assert (N2 : code len' <> 0) by (apply NZ; unfold len'; lia).
    assert (CS : code len' + stepf C = code len).
    { unfold code, stepf. rewrite !code_flag, <- flag_add. f_equal. unfold len'. lia. }
    assert (CB : forall r, (1 <= r <= 5)%nat -> head C adv r = 1 - contc C adv r) by (intros r Hr; apply (ok_rows _ _ _ _ _ OK r Hr)).
    assert (CZ : forall r, (1 <= r <= 5)%nat -> head C adv r = 1 -> contc C adv r = 0).
    { intros r Hr E. exact (head_1 C _ n 5 adv OK r Hr E). }
    pose proof (CZ 1%nat ltac:(lia) H1') as T1. pose proof (CZ 2%nat ltac:(lia) H2') as T2. pose proof (CZ 3%nat ltac:(lia) H3') as T3.
    pose proof (CZ 5%nat ltac:(lia) H5') as T5.
    set (a := auxc C adv 1 2 - auxc C adv 3 1). set (b := auxc C adv 2 2 - auxc C adv 4 1). set (dom := auxc C adv 0 2 - auxc C adv 5 1).
    set (tb := fun j r => match r with
      | 1%nat => nth j [d; fst w0; snd w0; code len; 0; 1] 0
      | 2%nat => nth j [d; a; b; code len'; dom; 0] 0
      | _ => tcell C adv j r end).
    set (ct := fun r => if (r =? 2)%nat then 1 else contc C adv r).
    set (iv := fun r => match r with 1%nat => finv (code len) | 2%nat => finv (code len') | _ => invc C adv r end).
    set (adv' := relabel C adv tb ct iv).
    assert (TT : forall j r, (j < 6)%nat -> tcell C adv' j r = tb j r) by (intros; now apply relabel_table).
    assert (AX : forall j r, (j < 6)%nat -> auxc C adv' j r = auxc C adv j r).
    { intros j r Hj. unfold auxc, adv'. rewrite relabel_own by (try exact HC; unfold A0; lia).
      replace (j + A0 C =? 6 + A0 C)%nat with false by (symmetry; apply Nat.eqb_neq; lia).
      replace (j + A0 C =? 7 + A0 C)%nat with false by (symmetry; apply Nat.eqb_neq; lia). reflexivity. }
    assert (CT : forall r, contc C adv' r = ct r).
    { intros r. unfold contc, adv'. rewrite relabel_own by (try exact HC; unfold A0; lia). now rewrite Nat.eqb_refl. }
    assert (IV : forall r, invc C adv' r = iv r).
    { intros r. unfold invc, adv'. rewrite relabel_own by (try exact HC; unfold A0; lia).
      replace (7 + A0 C =? 6 + A0 C)%nat with false by (symmetry; apply Nat.eqb_neq; lia). now rewrite Nat.eqb_refl. }
    assert (OWN : forall c r, (cs_adv (hc_host C) <= c)%nat -> (c < 8 + A0 C -> c < 6 + A0 C /\ 1 <= r)%nat -> adv' c r = adv c r).
    { intros c' r Hc Hr. unfold adv'. rewrite relabel_own by assumption.
      replace (c' =? 6 + A0 C)%nat with false by (symmetry; apply Nat.eqb_neq; lia).
      replace (c' =? 7 + A0 C)%nat with false by (symmetry; apply Nat.eqb_neq; lia). reflexivity. }
    clearbody adv'.
    assert (SAT' : satisfied n u (hc_cs C) L adv').
    { destruct (HO adv') as (Hg & Hk & Hcp).
      apply (sat_change C P h HC HP mode 5 t L0 L1 L copies n u adv adv' HL Hu Hh Hn SAT OWN); try assumption.
      - intros r Hr. pose proof (ok_rows _ _ _ _ _ OK r Hr) as Q. unfold row_eqs in *. cbn zeta in *.
        unfold control, digest, in1, in2, domain, head in *.
        rewrite !TT, !AX, !CT, !IV by lia.
        assert (KK : (r = 1 \/ r = 2 \/ r = 3 \/ r = 4 \/ r = 5)%nat) by lia.
        destruct KK as [->|[->|[->|[->| ->]]]]; cbn [Nat.sub] in *; unfold tb, ct, iv; cbn [Nat.eqb nth].
        + rewrite T1 in *. destruct Q as (_ & _ & _ & _ & _ & _ & Q7 & Q8 & Q9 & Q10 & _).
          rewrite C1, D1 in Q10. rewrite A1 in Q8. rewrite B1 in Q9.
          repeat split; try ring.
          * rewrite (finv_r _ N1). ring.
          * exact Q7.
          * rewrite Q8. ring.
          * rewrite Q9. ring.
          * etransitivity; [|exact Q10]. ring.
        + unfold a, b, dom. repeat split; try ring.
          * rewrite (finv_r _ N2). ring.
          * rewrite (finv_r _ N2). ring.
          * rewrite CS. ring.
        + rewrite T3 in *. destruct Q as (_ & Q2 & _ & Q4 & _ & _ & Q7 & Q8 & Q9 & Q10 & _). rewrite E2 in Q7.
          repeat split; try ring; assumption.
        + exact Q.
        + exact Q.
      - pose proof (ok_first _ _ _ _ _ OK) as Q. unfold custom_eqs, control, in1, in2 in *. rewrite !TT by lia. exact Q.
      - pose proof (ok_last _ _ _ _ _ OK) as Q. unfold custom_eqs, control, in1, in2 in *. rewrite !TT by lia. exact Q.
      - intros r Hr. unfold range_eq, head, control. rewrite !TT by lia.
        destruct r as [|[|[|[|r]]]]; cbn [Nat.eqb Nat.sub].
        + destruct (RG 0%nat Hr) as (k & Hk' & E). exists k. split; [assumption|]. unfold tb. cbn [Nat.eqb] in E.
          destruct (n - 1)%nat as [|[|[|m]]] eqn:En; [exact E|lia|lia|exact E].
        + destruct (RG 1%nat Hr) as (k & Hk' & E). exists k. split; [assumption|]. unfold tb. cbn [nth].
          cbn [Nat.eqb Nat.sub] in E. rewrite H1' in E. exact E.
        + exists 0%nat. split; [lia|]. unfold tb. cbn [nth]. change (N.of_nat 0) with 0%N. rewrite (flag_0 (hc_legacy C)). ring.
        + exists (N.to_nat len'). split; [unfold len'; lia|]. unfold tb. cbn [nth]. rewrite N2Nat.id.
          change (tcell C adv 5 3) with (head C adv 3). rewrite H3'. unfold code. rewrite code_flag. ring.
        + destruct (RG (S (S (S (S r)))) Hr) as (k & Hk' & E). exists k. split; [assumption|]. exact E. }
    exists adv', a, b, dom. split; [exact SAT'|].
    unfold table_tuple, head. cbn [map]. rewrite !TT by lia. unfold tb. cbn [nth].
    change (tcell C adv 0 3) with (digest C adv 3). change (tcell C adv 1 3) with (in1 C adv 3). change (tcell C adv 2 3) with (in2 C adv 3).
    change (tcell C adv 3 3) with (control C adv 3). change (tcell C adv 4 3) with (domain C adv 3). change (tcell C adv 5 3) with (head C adv 3).
    change (tcell C adv 0 4) with (digest C adv 4). change (tcell C adv 1 4) with (in1 C adv 4). change (tcell C adv 2 4) with (in2 C adv 4).
    change (tcell C adv 3 4) with (control C adv 4). change (tcell C adv 4 4) with (domain C adv 4). change (tcell C adv 5 4) with (head C adv 4).
    change (tcell C adv 5 5) with (head C adv 5).
    rewrite A3, B3, C3, D3, E3, H3', A4, B4, C4, D4, E4, H4'. repeat split. exact H5'.
  Qed.
End Forge.

(** ** With zero domains in the continuing rows *)
Section Zero.
  Context {F : Type} {FO : FieldOps F} {PF : PrimeField F}.
  Add Field Ffield1 : f_field.
  Local Open Scope F_scope.

  Lemma all_or : forall (A : nat -> Prop) B k, (forall i, (1 <= i <= k)%nat -> A i \/ B) -> (forall i, (1 <= i <= k)%nat -> A i) \/ B.
  Proof.
    intros A B k H. induction k as [|k IH]; [left; intros; lia|].
    destruct IH as [IH|IH]; [intros i Hi; apply H; lia| |now right].
    destruct (H (S k) ltac:(lia)) as [X|X]; [|now right]. left. intros i Hi.
    destruct (Nat.eq_dec i (S k)) as [->|N]; [exact X|apply IH; lia].
  Qed.
  Lemma list_dec : forall x y : list F, x = y \/ x <> y.
  Proof. intros x y. destruct (list_eq_dec feq_dec x y); auto. Qed.

  Variable C : hash_circuit F.
  Variable P : list F -> list F.
  Variable adv : nat -> nat -> F.
  Variable calcs : nat.

  Lemma absorbed_call : forall s r, (1 <= s <= r)%nat -> absorbed C adv P s r = P (row_call C P adv s r).
  Proof.
    intros s r H. unfold row_call, absorbed. replace (S r - s)%nat with (S (S (r - 1) - s))%nat by lia.
    rewrite seq_S, fold_left_app. cbn [fold_left]. replace (s + (S (r - 1) - s))%nat with r by lia. reflexivity.
  Qed.

  Hypothesis ZD : forall r, (1 <= r <= calcs)%nat -> head C adv r = 0 -> domain C adv r = 0.

  (** two messages with the same digest, from the last row backwards *)
  Lemma same_calls : forall s e s' e', message C adv calcs s e -> message C adv calcs s' e' ->
    nth 0 (absorbed C adv P s e) 0 = nth 0 (absorbed C adv P s' e') 0 ->
    forall j, (s + j <= e)%nat -> (s' + j <= e')%nat ->
    row_call C P adv s (e - j) = row_call C P adv s' (e' - j) \/ table_collision C P adv calcs.
  Proof.
    intros s e s' e' HM HM' HD j. pose proof HM as (M1 & M2 & M3 & _ & Mc & _). pose proof HM' as (M1' & M2' & M3' & _ & Mc' & _).
    assert (G : forall r r', (s <= r <= e)%nat -> (s' <= r' <= e')%nat ->
      nth 0 (P (row_call C P adv s r)) 0 = nth 0 (P (row_call C P adv s' r')) 0 ->
      row_call C P adv s r = row_call C P adv s' r' \/ table_collision C P adv calcs).
    { intros r r' Hr Hr' E. destruct (list_dec (row_call C P adv s r) (row_call C P adv s' r')) as [X|X]; [now left|]. right.
      exists (row_call C P adv s r), (row_call C P adv s' r'). split; [exists s, e, r; auto|]. split; [exists s', e', r'; auto|]. auto. }
    induction j as [|j IH]; intros H H'.
    - rewrite !Nat.sub_0_r. apply G; [lia|lia|]. rewrite <- !absorbed_call by lia. exact HD.
    - destruct (IH ltac:(lia) ltac:(lia)) as [X|X]; [|now right]. apply G; [lia|lia|].
      unfold row_call in X at 1 2. cbv zeta in X. injection X as X _ _.
      rewrite !ZD in X by (try lia; [apply Mc; lia|apply Mc'; lia] || (try lia; apply Mc; lia) || (try lia; apply Mc'; lia)).
      replace (e - j - 1)%nat with (e - S j)%nat in X by lia. replace (e' - j - 1)%nat with (e' - S j)%nat in X by lia.
      rewrite !absorbed_call in X by lia.
      transitivity (nth 0 (P (row_call C P adv s (e - S j))) 0 + 0); [ring|]. rewrite X. ring.
  Qed.
End Zero.

Section Host.
  Context {F : Type} {FO : FieldOps F} {PF : PrimeField F}.
  Add Field Ffield2 : f_field.
  Local Open Scope F_scope.

  (** C52: with zero domains in the continuing rows, the looked up digest is the hash, unless the table itself
      shows a collision of the permutation or a state that leads to one of the controls *)
  Theorem zero_domain_claim : forall c (C : hash_circuit F) calcs adv d len (ws : list (F * F)) (row : nat -> nat),
    accepted c C calcs adv ->
    (Z.of_nat (calcs * hc_step C + hc_range C) * (if hc_legacy C then 1 else 2 ^ 64) < modulus (F := F))%Z ->
    (hc_range C <= hc_step C)%nat ->
    (forall r, (1 <= r <= calcs)%nat -> head C adv r = 0 -> domain C adv r = 0) ->
    ws <> [] -> ((length ws - 1) * hc_step C < len <= (length ws - 1) * hc_step C + hc_range C)%nat ->
    (Z.of_nat len * (if hc_legacy C then 1 else 2 ^ 64) < modulus (F := F))%Z ->
    (forall i, (i < length ws)%nat -> (1 <= row i <= calcs)%nat
       /\ digest C adv (row i) = d /\ (in1 C adv (row i), in2 C adv (row i)) = nth i ws (0, 0)
       /\ control C adv (row i) = length_code (hc_legacy C) (N.of_nat (len - i * hc_step C))
       /\ domain C adv (row i) = 0) ->
    head C adv (row 0%nat) = 1 ->
    hash_msg (hc_legacy C) (hc_spec C) (flat_map (fun '(a, b) => [a; b]) ws)
      (Some (N.of_nat len * (if hc_legacy C then 1 else 2 ^ 64))%N) = Ok d
    \/ table_collision C (poseidon_permutation c) adv calcs
    \/ exists i, (1 <= i < length ws)%nat
         /\ table_hits C (poseidon_permutation c) adv calcs (length_code (hc_legacy C) (N.of_nat (len - i * hc_step C))).
  Proof.
    intros c C calcs adv d len ws row HA Bd HR ZD Hne Hl Bl HI Hh.
    assert (LU : looked_up C adv calcs d len ws row) by (split; assumption).
    destruct (looked_up_rows c C calcs adv d len ws row HA Bd HR Hne Hl Bl LU) as (Lk & HM & IN).
    pose proof (looked_up_hash c C calcs adv d len ws row HA Bd HR Hne Hl Bl LU) as FIN.
    destruct (HI 0%nat ltac:(lia)) as (_ & D0 & _ & _ & _).
    set (k := (length ws - 1)%nat) in *. set (s := row 0%nat) in *. set (e := (s + k)%nat) in *.
    set (P := poseidon_permutation c) in *.
    assert (DG : forall s e, message C adv calcs s e -> digest C adv s = nth 0 (absorbed C adv P s e) 0).
    { intros s1 e1 H1. pose proof H1 as (_ & ? & _). apply (message_claim c C calcs adv s1 e1 HA H1). lia. }
    match goal with |- _ \/ ?R => destruct (all_or (fun i => domain C adv (s + i) = domain C adv (row i)
       /\ in1 C adv (s + i) = in1 C adv (row i) /\ in2 C adv (s + i) = in2 C adv (row i)) R k) as [EQ|R'] end;
      [|left; now apply FIN|now right].
    intros i Hi. destruct (IN i ltac:(lia)) as (s' & e' & HM' & Hse' & He' & Ds).
    destruct (HI i ltac:(lia)) as (_ & _ & _ & Ci & Zi).
    pose proof HM as (M1 & M2 & M3 & _ & Mc & _). pose proof HM' as (M1' & M2' & M3' & _ & Mc' & _).
    assert (DD : nth 0 (absorbed C adv P s e) 0 = nth 0 (absorbed C adv P s' e') 0).
    { rewrite <- (DG s e HM), <- (DG s' e' HM'). congruence. }
    assert (Ei : (s + i = e - (k - i))%nat) by (unfold e; lia).
    assert (Er : (row i = e' - (k - i))%nat) by lia.
    assert (Zs : domain C adv (s + i) = 0). { apply ZD; [unfold e in *; lia|]. apply Mc. unfold e. lia. }
    pose proof (same_calls C P adv calcs ZD s e s' e' HM HM' DD) as SC.
    destruct (SC (k - i)%nat ltac:(unfold e; lia) ltac:(lia)) as [X|X]; [|right; now left].
    rewrite <- Ei, <- Er in X.
    destruct (Nat.eq_dec (row i) s') as [Es|Es].
    - (* the looked up row is a head row *)
      right. right. exists i. split; [lia|]. exists (row_call C P adv s (s + i - 1)).
      split. { exists s, e, (s + i - 1)%nat. split; [exact HM|]. split; [unfold e; lia|reflexivity]. }
      unfold row_call in X at 1 2. cbv zeta in X. injection X as X _ _.
      rewrite absorbed_call in X by lia. rewrite Zs, Zi in X.
      assert (A0 : absorbed C adv P s' (row i - 1) = [control C adv s'; 0; 0]).
      { unfold absorbed. replace (S (row i - 1) - s')%nat with 0%nat by lia. reflexivity. }
      rewrite A0 in X. cbn [nth] in X. rewrite <- Es, Ci in X.
      transitivity (nth 0 (P (row_call C P adv s (s + i - 1))) 0 + 0); [ring|]. rewrite X. ring.
    - destruct (SC (S (k - i)) ltac:(unfold e; lia) ltac:(lia)) as [Y|Y]; [|right; now left]. left.
      replace (e - S (k - i))%nat with (s + i - 1)%nat in Y by lia. replace (e' - S (k - i))%nat with (row i - 1)%nat in Y by lia.
      unfold row_call in X at 1 2. cbv zeta in X. rewrite !absorbed_call in X by lia. rewrite Y in X. injection X as _ X1 X2.
      split; [congruence|]. split; [exact (fadd_cancel_l _ _ _ X1)|exact (fadd_cancel_l _ _ _ X2)].
  Qed.
End Host.
