(** C61: hash trees through the table (PathUse.v). *)
From Coq Require Import ZArith NArith List Arith Lia Bool.
From Verif Require Import Field Rust BigSum Primitives Specs BaseHash SpecHash Link Halo2 Septidon PermuteChip ChipUse Pow5 SpongeTable TableUse
  Base_claims TableState_proof TableBuild_claims Table_claims LookupUse TableLookup_claims PathUse.
Import ListNotations.
Local Open Scope nat_scope.

Section Claims.
  Context {F : Type} {FO : FieldOps F} {PF : PrimeField F}.

  Lemma pair_hash : forall c (C : hash_circuit F) calcs adv d w dom, accepted c C calcs adv ->
    (Z.of_nat (calcs * hc_step C + hc_range C) * (if hc_legacy C then 1 else 2 ^ 64) < modulus (F := F))%Z ->
    pair_found C adv calcs d w dom -> hash_with_domain (hc_spec C) w dom = Ok d.
  Proof.
    intros c C calcs adv d [a b] dom (mode & t & L0 & L1 & L & copies & n & u & SU & SAT) Bd (Hw & r & Hr & Tu).
    apply (lookup_claim c C mode calcs t L0 L1 L copies n u adv r d a b dom SU SAT Bd).
    - rewrite (enabled_claim c C mode calcs t L0 L1 L copies n u SU).
      destruct Hr as [R1 R2]. apply Nat.leb_le in R1, R2. now rewrite R1, R2.
    - exact Tu.
    - exact Hw.
  Qed.

  Lemma path_hash : forall c (C : hash_circuit F) calcs adv, accepted c C calcs adv ->
    (Z.of_nat (calcs * hc_step C + hc_range C) * (if hc_legacy C then 1 else 2 ^ 64) < modulus (F := F))%Z ->
    forall path root leaf, path_found C adv calcs root path leaf -> path_root (hc_spec C) path (Ok leaf) = Ok root.
  Proof.
    intros c C calcs adv HA Bd. induction path as [|st path IH]; intros root leaf H; cbn [path_root path_found] in *.
    - now subst.
    - destruct H as (x & Hx & Hp). rewrite (IH _ _ Hp). cbn [bind]. exact (pair_hash c C calcs adv _ _ _ HA Bd Hx).
  Qed.

  Theorem entry_claim : forall c (C : hash_circuit F) calcs adv root path words dom, accepted c C calcs adv ->
    (Z.of_nat (calcs * hc_step C + hc_range C) * (if hc_legacy C then 1 else 2 ^ 64) < modulus (F := F))%Z ->
    entry_found C adv calcs root path words dom ->
    path_root (hc_spec C) path (hash_with_domain (hc_spec C) words dom) = Ok root.
  Proof.
    intros c C calcs adv root path words dom HA Bd (leaf & Hp & Hl).
    rewrite (pair_hash c C calcs adv _ _ _ HA Bd Hl). exact (path_hash c C calcs adv HA Bd path root leaf Hp).
  Qed.

  (** two rows with the same digest *)
  Lemma pairs_meet : forall c (C : hash_circuit F) calcs adv d w1 w2 m1 m2, accepted c C calcs adv ->
    (Z.of_nat (calcs * hc_step C + hc_range C) * (if hc_legacy C then 1 else 2 ^ 64) < modulus (F := F))%Z ->
    pair_found C adv calcs d w1 m1 -> pair_found C adv calcs d w2 m2 ->
    (w1 = w2 /\ m1 = m2) \/ pair_collision C adv calcs (hc_spec C).
  Proof.
    intros c C calcs adv d w1 w2 m1 m2 HA Bd H1 H2.
    pose proof (pair_hash c C calcs adv _ _ _ HA Bd H1) as E1. pose proof (pair_hash c C calcs adv _ _ _ HA Bd H2) as E2.
    destruct H1 as (_ & r1 & R1 & T1), H2 as (_ & r2 & R2 & T2). destruct w1 as [a1 b1], w2 as [a2 b2]. cbn [fst snd] in *.
    assert (TT : forall r, table_tuple C adv r = [digest C adv r; in1 C adv r; in2 C adv r; control C adv r; domain C adv r; head C adv r]) by reflexivity.
    rewrite TT in T1, T2. injection T1 as D1 A1 B1 _ M1 _. injection T2 as D2 A2 B2 _ M2 _. clear TT.
    assert (DEC : (a1, b1, m1) = (a2, b2, m2) \/ (a1, b1, m1) <> (a2, b2, m2)).
    { destruct (feq_dec a1 a2) as [->|N]; [|right; congruence]. destruct (feq_dec b1 b2) as [->|N]; [|right; congruence].
      destruct (feq_dec m1 m2) as [->|N]; [now left|right; congruence]. }
    destruct DEC as [E|N]; [left; split; congruence|right].
    exists r1, r2. rewrite A1, B1, M1, A2, B2, M2, D1, D2. repeat split; try assumption; tauto.
  Qed.

  Theorem entries_claim : forall c (C : hash_circuit F) calcs adv bits root path1 path2 words1 words2 dom1 dom2, accepted c C calcs adv ->
    (Z.of_nat (calcs * hc_step C + hc_range C) * (if hc_legacy C then 1 else 2 ^ 64) < modulus (F := F))%Z ->
    directions path1 = firstn (length path1) bits -> directions path2 = firstn (length path2) bits ->
    Forall (fun st => step_domain st <> dom2) path1 -> Forall (fun st => step_domain st <> dom1) path2 ->
    entry_found C adv calcs root path1 words1 dom1 -> entry_found C adv calcs root path2 words2 dom2 ->
    (path1 = path2 /\ words1 = words2 /\ dom1 = dom2) \/ pair_collision C adv calcs (hc_spec C).
  Proof.
    intros c C calcs adv bits root path1 path2 words1 words2 dom1 dom2 HA Bd.
    revert bits root path2. induction path1 as [|[r1 s1 m1] path1 IH]; intros bits root path2 D1 D2 F1 F2 (l1 & P1 & Q1) (l2 & P2 & Q2);
      destruct path2 as [|[r2 s2 m2] path2]; cbn [path_found] in P1, P2.
    - subst. destruct (pairs_meet c C calcs adv _ _ _ _ _ HA Bd Q1 Q2) as [[-> ->]|X]; [now left|now right].
    - subst. destruct P2 as (x & P2 & _). apply Forall_inv in F2. cbn [step_domain] in *.
      destruct (pairs_meet c C calcs adv _ _ _ _ _ HA Bd Q1 P2) as [[_ E]|X]; [now elim F2|now right].
    - subst. destruct P1 as (x & P1 & _). apply Forall_inv in F1. cbn [step_domain] in *.
      destruct (pairs_meet c C calcs adv _ _ _ _ _ HA Bd P1 Q2) as [[_ E]|X]; [now elim F1|now right].
    - destruct P1 as (x1 & N1 & P1), P2 as (x2 & N2 & P2). destruct bits as [|b bits]; [discriminate D1|].
      cbn [directions map step_right length firstn] in D1, D2. injection D1 as B1 D1. injection D2 as B2 D2. subst r1 r2.
      apply Forall_inv_tail in F1, F2.
      destruct (pairs_meet c C calcs adv _ _ _ _ _ HA Bd N1 N2) as [[E1 E2]|X]; [|now right].
      unfold children in E1. cbn [step_right step_sibling step_domain] in E1, E2. subst m2.
      assert (E : x1 = x2 /\ s1 = s2) by (destruct b; injection E1; auto). destruct E as [<- <-].
      destruct (IH bits x1 path2 D1 D2 F1 F2) as [(-> & -> & ->)|X]; [now exists l1|now exists l2|now left|now right].
  Qed.

  (** the rows of a table made with fixed_inputs *)
  Lemma honest_pair : forall c (C : hash_circuit F) mode calcs nodes t L0 L1 L copies n u blind w dom d,
    builder_runs [FixedInputs (map (fun '(w, dom) => (w, dom, None)) nodes)] empty_table = Ok t -> length nodes <= calcs ->
    set_up c C mode calcs t L0 L1 L copies n u ->
    In (w, dom) nodes -> w <> (fzero, fzero) -> hash_with_domain (hc_spec C) w dom = Ok d ->
    pair_found C (honest u L blind) calcs d w dom.
  Proof.
    intros c C mode calcs nodes t L0 L1 L copies n u blind w dom d HB Hcap SU HIn Hw HH. split; [exact Hw|].
    pose proof HB as HT. cbn [builder_runs builder_run] in HT. injection HT as HT.
    destruct (In_nth_error _ _ HIn) as [i Hi]. assert (Li : i < length nodes) by (apply nth_error_Some; congruence).
    assert (SZ : table_size t = length nodes) by (subst t; unfold table_size, fixed_inputs; cbn; now rewrite !map_length).
    exists (S i). split; [lia|].
    pose proof (contents_claim c C mode calcs _ t L0 L1 L copies n u blind (hc_range C) HB
                  ltac:(repeat constructor) (le_n _) ltac:(lia) SU) as X.
    destruct SU as (HC & HL & (short & h & B & _) & Hu & _).
    destruct (build_facts _ _ _ _ _ B) as (_ & _ & HP & HS & _).
    destruct (honest_rows C _ h HC HP HS mode calcs t L0 L1 L copies u blind HL ltac:(lia) i ltac:(lia)) as (A0 & B0 & C0 & D0 & H0 & _).
    set (adv := honest u L blind) in *. clearbody adv. clear HC HL B Hu HP HS.
    assert (CT : forall j, row_control t j = 0%N).
    { intros j. subst t. unfold row_control, fixed_inputs. cbn [ht_controls empty_table ht_inputs length resize app firstn repeat].
      rewrite map_map. clear. revert j. induction nodes as [|x l IH]; intros [|j]; cbn; auto. }
    assert (ND : nth_error (map (fun '(w0, dom0) => (w0, dom0, @None F)) nodes) i = Some (w, dom, None)).
    { rewrite nth_error_map, Hi. reflexivity. }
    assert (RI : row_input t i = w).
    { subst t. unfold row_input, fixed_inputs. cbn [ht_inputs empty_table app]. apply nth_error_nth.
      rewrite nth_error_map, ND. reflexivity. }
    assert (RD : row_domain t i = dom).
    { subst t. unfold row_domain. pose proof (map_nth_error (fun x : (F * F) * F * option F => Some (snd (fst x))) _ _ ND) as Z. cbn [fst snd] in Z.
      
      match goal with |- match ?x with _ => _ end = _ => replace x with (Some dom); [reflexivity|symmetry; exact (nth_error_nth _ _ None Z)] end. }
    assert (DG : digest C adv (S i) = d).
    { apply (f_equal (fun l => nth_error l i)) in X. rewrite nth_error_map in X.
      rewrite SZ in X. rewrite (nth_error_nth' (seq 0 (length nodes)) 0) in X by (rewrite seq_length; exact Li).
      rewrite seq_nth in X by exact Li. cbn [option_map flat_map api_hashes Nat.add] in X. rewrite app_nil_r, nth_error_map, ND in X.
      cbn [option_map] in X. rewrite HH in X. now injection X. }
    assert (TT : forall r, table_tuple C adv r = [digest C adv r; in1 C adv r; in2 C adv r; control C adv r; domain C adv r; head C adv r]) by reflexivity.
    rewrite TT, DG, A0, B0, C0, D0, H0, RI, RD, CT.
    assert (FL : match i with O => true | S j => (row_control t j <=? N.of_nat (hc_range C))%N end = true).
    { destruct i; [reflexivity|]. rewrite CT. apply N.leb_le. lia. }
    assert (LC : length_code (hc_legacy C) 0 = fzero (F := F)) by (unfold length_code; destruct (hc_legacy C); exact of_Z_0).
    rewrite FL, LC. reflexivity.
  Qed.

  Theorem entry_complete_claim : forall c (C : hash_circuit F) mode calcs path words dom rows t L0 L1 L copies n u blind,
    path_rows (hc_spec C) path words dom = Ok rows -> Forall (fun x => fst x <> (fzero, fzero)) rows ->
    builder_runs [FixedInputs (map (fun '(w, m) => (w, m, None)) rows)] empty_table = Ok t -> length rows <= calcs ->
    set_up c C mode calcs t L0 L1 L copies n u ->
    exists root, path_root (hc_spec C) path (hash_with_domain (hc_spec C) words dom) = Ok root
      /\ entry_found C (honest u L blind) calcs root path words dom.
  Proof.
    intros c C mode calcs path words dom rows t L0 L1 L copies n u blind HR HZ HB Hcap SU.
    assert (OK : forall w m, exists d, hash_with_domain (hc_spec C) w m = Ok d).
    { intros w m. destruct SU as (_ & _ & (short & h & B & _) & _). destruct (build_facts _ _ _ _ _ B) as (Hc & (base & Hs) & _).
      destruct w as [a b]. exists (two_word_hash c a b m). exact (proj1 (two_word_claim base false c (hc_spec C) a b Hc Hs) m). }
    assert (G : forall path' rows', path_rows (hc_spec C) path' words dom = Ok rows' -> incl rows' rows ->
      exists root, path_root (hc_spec C) path' (hash_with_domain (hc_spec C) words dom) = Ok root
        /\ entry_found C (honest u L blind) calcs root path' words dom).
    { induction path' as [|st path' IH]; intros rows' H HI; cbn [path_rows path_root] in *.
      - injection H as <-. destruct (OK words dom) as [d Hd]. exists d. split; [exact Hd|]. exists d. split; [reflexivity|].
        apply (honest_pair c C mode calcs rows t L0 L1 L copies n u blind words dom d HB Hcap SU); [apply HI; now left| |exact Hd].
        rewrite Forall_forall in HZ. exact (HZ (words, dom) (HI _ (or_introl eq_refl))).
      - destruct (path_root (hc_spec C) path' (hash_with_domain (hc_spec C) words dom)) as [x|] eqn:Ex; [|discriminate]. cbn [bind] in H.
        destruct (path_rows (hc_spec C) path' words dom) as [rs|] eqn:Er; [|discriminate]. cbn [bind] in H. injection H as <-.
        destruct (IH rs eq_refl) as (root & Eq & leaf & HP & HL). { intros y Hy. apply HI. now right. }
        injection Eq as <-. cbn [bind]. destruct (OK (children st x) (step_domain st)) as [d Hd]. exists d. split; [exact Hd|].
        exists leaf. split; [|exact HL]. exists x. split; [|exact HP].
        apply (honest_pair c C mode calcs rows t L0 L1 L copies n u blind _ _ d HB Hcap SU); [apply HI; now left| |exact Hd].
        rewrite Forall_forall in HZ. exact (HZ _ (HI _ (or_introl eq_refl))). }
    exact (G path rows HR (incl_refl _)).
  Qed.
End Claims.
