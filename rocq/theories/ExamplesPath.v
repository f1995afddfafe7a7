(** Concrete instances that meet the hypotheses of PropertiesPath.v: a leaf two levels below the root. *)
From Coq Require Import ZArith NArith List Arith Lia Bool.
From Verif Require Import Field Rust ListAux ZpField Primes BigSum Primitives Specs Grain Mds Bn256 BaseHash SpecHash Link Const_proof Halo2 Septidon PermuteChip
  ChipUse Pow5 SpongeTable TableUse Base_claims Table_claims TableState_proof LookupUse PathUse Path_claims ExamplesTable ExamplesBase.
Import ListNotations.
Local Open Scope nat_scope.

(** from the root: right past the sibling 9, then left past the sibling 8; nodes have the domain 6, leaves 5 *)
Definition demo_path : list (path_step Fr) :=
  [{| step_right := true; step_sibling := fr 9; step_domain := fr 6 |};
   {| step_right := false; step_sibling := fr 8; step_domain := fr 6 |}].

Definition tree_rows (x y : Fr) : list ((Fr * Fr) * Fr) := [((fr 9, y), fr 6); ((x, fr 8), fr 6); ((fr 10, fr 20), fr 5)].
Definition tree_table (x y : Fr) : hash_table Fr :=
  {| ht_inputs := map fst (tree_rows x y); ht_controls := [0; 0; 0]%N;
     ht_domain := map (fun r => Some (snd r)) (tree_rows x y); ht_checks := [None; None; None] |}.
Lemma tree_built : forall x y, builder_runs [FixedInputs (map (fun '(w, m) => (w, m, None)) (tree_rows x y))] empty_table = Ok (tree_table x y).
Proof. reflexivity. Qed.
Lemma tree_no_check : forall x y i, row_check (tree_table x y) i = None.
Proof. intros x y i. unfold row_check, tree_table. cbn [ht_checks]. do 3 (destruct i as [|i]; [reflexivity|]). destruct i; reflexivity. Qed.
Lemma tree_control : forall x y i, row_control (tree_table x y) i = 0%N.
Proof. intros x y i. unfold row_control, tree_table. cbn [ht_controls]. do 3 (destruct i as [|i]; [reflexivity|]). destruct i; reflexivity. Qed.
Lemma tree_wf : forall x y, well_formed 62 62 4 (tree_table x y).
Proof. intros x y. split; [intros i _ H; rewrite tree_control in H; lia|]. intros _. split; reflexivity. Qed.
Lemma fr_apart : fr 9 <> fr 0 /\ fr 8 <> fr 0 /\ fr 10 <> fr 0 /\ fr 6 <> fr 5.
Proof. repeat split; intros H; discriminate H. Qed.

Lemma ex_path : forall short mode, mode_ok mode -> exists (C : hash_circuit Fr) h rows t L0 L1 n u root,
  build bn256_c short (hc_spec C) (hc_chip C) h /\ hc_range C = 62 /\ hc_step C = 62 /\ hc_legacy C = false
  /\ path_rows (hc_spec C) demo_path (fr 10, fr 20) (fr 5) = Ok rows /\ Forall (fun x => fst x <> (fr 0, fr 0)) rows
  /\ builder_runs [FixedInputs (map (fun '(w, m) => (w, m, None)) rows)] empty_table = Ok t /\ length rows <= 4
  /\ set_up bn256_c C mode 4 t L0 L1 L1 [] n u
  /\ directions demo_path = firstn (length demo_path) [true; false; true]
  /\ Forall (fun st => step_domain st <> fr 5) demo_path
  /\ forall blind, accepted bn256_c C 4 (honest u L1 blind)
     /\ (Z.of_nat (4 * hc_step C + hc_range C) * (if hc_legacy C then 1 else 2 ^ 64) < modulus (F := Fr))%Z
     /\ entry_found C (honest u L1 blind) 4 root demo_path (fr 10, fr 20) (fr 5).
Proof.
  intros short mode Hm. destruct (bn_build short) as (s & P & h & B & _).
  destruct (build_facts _ _ _ _ _ B) as (Hc & (base & Hs) & _).
  assert (OK : forall a b m, exists d, hash_with_domain s (a, b) m = Ok d).
  { intros a b m. eexists. exact (proj1 (two_word_claim base false bn256_c s a b Hc Hs) m). }
  destruct (OK (fr 10) (fr 20) (fr 5)) as [x Hx]. destruct (OK x (fr 8) (fr 6)) as [y Hy]. clear OK Hc Hs.
  assert (RS : path_rows s demo_path (fr 10, fr 20) (fr 5) = Ok (tree_rows x y)).
  { unfold demo_path. cbn [path_rows path_root]. rewrite Hx. cbn [bind].
    unfold children. cbn [step_right step_sibling step_domain]. rewrite Hy. reflexivity. }
  destruct fr_apart as (N9 & N8 & N10 & N65).
  assert (NZ : Forall (fun r => fst r <> (fr 0, fr 0)) (tree_rows x y)).
  { unfold tree_rows. repeat constructor; cbn [fst]; clear - N9 N8 N10; intros H; congruence. }
  destruct (demo_loads bn256_c short s P h false 62 62 mode 4 (tree_table x y) B Hm) as (L1 & E & SU & HO).
  { intros _. cbn. lia. }
  { intros i ck _ H. rewrite tree_no_check in H. discriminate. }
  set (C := demo P s false 62 62) in *. set (u := demo_rows h 4 62) in *.
  set (L0 := layout_empty (demo_host (F := Fr))) in *.
  assert (RS' : path_rows (hc_spec C) demo_path (fr 10, fr 20) (fr 5) = Ok (tree_rows x y)) by exact RS.
  pose proof (fun blind => entry_complete_claim bn256_c C mode 4 demo_path (fr 10, fr 20) (fr 5) (tree_rows x y) (tree_table x y) L0 L1 L1 [] u u blind
                RS' NZ (tree_built x y) ltac:(cbn; lia) SU) as EC.
  destruct (EC (fun _ _ => fzero)) as (root & Hroot & _).
  exists C, h, (tree_rows x y), (tree_table x y), L0, L1, u, u, root.
  split; [exact B|]. split; [reflexivity|]. split; [reflexivity|]. split; [reflexivity|]. split; [exact RS'|]. split; [exact NZ|].
  split; [exact (tree_built x y)|]. split; [cbn; lia|]. split; [exact SU|]. split; [reflexivity|].
  split. { unfold demo_path. clear - N65. repeat constructor; exact N65. }
  intros blind. split.
  { exists mode, (tree_table x y), L0, L1, L1, [], u, u. split; [exact SU|].
    apply (complete_claim bn256_c C mode 4 (tree_table x y) L0 L1 L1 [] u u blind SU).
    - intros i. rewrite tree_control. cbn [C demo hc_step hc_legacy].
      eapply Z.le_lt_trans; [|exact demo_bound]. apply Z.mul_le_mono_nonneg_r; [lia|]. lia.
    - split; [exact (tree_wf x y)|apply HO]. }
  split; [exact demo_bound|].
  destruct (EC blind) as (root' & Hroot' & EF). rewrite Hroot' in Hroot. injection Hroot as ->. exact EF.
Qed.
