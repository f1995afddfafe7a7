(** Instances for C63. *)
From Coq Require Import ZArith NArith List Arith Lia Bool.
From Verif Require Import Field Primes Rust ListAux Primitives Specs BaseHash SpecHash Bn256 Link Const_proof Halo2 Septidon PermuteChip ChipUse
  SpongeTable TableUse Table_claims ExactUse Exact_claims ExamplesTable ExamplesBase.
Import ListNotations.
Local Open Scope nat_scope.

Section Pairs.
  Context {F : Type} {FO : FieldOps F} {PF : PrimeField F}.
  Add Field Ffield : f_field.
  Local Open Scope F_scope.

  (** two-word messages [w 1], [w 2], ... with domains 0, in the columns 0 to 5; row 0 and the digests from row [calcs] on
      are [x] *)
  Definition pairs (perm : list F -> list F) (w : nat -> F * F) (x : F) (calcs : nat) : nat -> nat -> F := fun c r =>
    let inside := ((1 <=? r) && (r <? calcs))%nat in
    match c with
    | O => if inside then nth 0 (perm [0; fst (w r); snd (w r)]) 0 else x
    | 1%nat => if inside then fst (w r) else 0
    | 2%nat => if inside then snd (w r) else 0
    | 5%nat => 1
    | _ => 0
    end.

  Lemma pairs_relation : forall perm w x calcs P s legacy range step n u,
    table_relation perm (demo P s legacy range step) n u calcs (pairs perm w x calcs).
  Proof.
    intros perm w x calcs P s legacy range step n u. split; [|split; [|split; [|split]]].
    - repeat split.
    - unfold zero_row, in1, in2, control, tcell, pairs. cbn [demo hc_table nth]. rewrite Nat.ltb_irrefl, andb_false_r. repeat split.
    - intros r Hr. now left.
    - intros s' e (M1 & M2 & M3 & _ & M5 & _).
      assert (E : s' = e). { destruct (Nat.eq_dec s' e) as [E|N]; [exact E|]. exfalso. apply f_1_neq_0. exact (M5 e ltac:(lia)). }
      subst e. unfold absorbed. replace (S s' - s')%nat with 1%nat by lia. cbn [seq fold_left nth].
      unfold digest, in1, in2, control, domain, tcell. cbn [demo hc_table nth]. unfold pairs.
      replace ((1 <=? s') && (s' <? calcs))%nat with true
        by (symmetry; apply andb_true_iff; split; [apply Nat.leb_le|apply Nat.ltb_lt]; lia).
      replace (0 + fst (w s')) with (fst (w s')) by ring. replace (0 + snd (w s')) with (snd (w s')) by ring.
      replace (0 + 0) with (0 : F) by ring. reflexivity.
    - intros r Hr. exists 0%nat. split; [lia|]. unfold head, control, tcell. cbn [demo hc_table nth]. unfold pairs.
      change (N.of_nat 0) with 0%N. unfold length_code. cbn [Z.of_N]. rewrite Z.mul_0_l, of_Z_0. ring.
  Qed.
End Pairs.

(** 3 rows laid out with an empty table; the prover shows the hashes of (5, 6) and (7, 8) *)
Definition ex_words (r : nat) : Fr * Fr := match r with 1 => (fr 5, fr 6) | _ => (fr 7, fr 8) end.
Definition ex_shown : nat -> nat -> Fr := pairs (poseidon_permutation bn256_c) ex_words (fr 9) 3.

Lemma ex_exact : forall mode, mode_ok mode -> exists (C C' : hash_circuit Fr) L0 L L' n u,
  build bn256_c true (hc_spec C) (hc_chip C) 8 /\ build bn256_c false (hc_spec C') (hc_chip C') 38
  /\ set_up bn256_c C mode 3 empty_table L0 L L [] n u /\ set_up bn256_c C' mode 3 empty_table L0 L' L' [] n u
  /\ same_reading C C'
  /\ (Z.of_nat (3 * hc_step C + hc_range C) * (if hc_legacy C then 1 else 2 ^ 64) < modulus (F := Fr))%Z
  /\ host_apart C L0 L [] n u /\ host_apart C' L0 L' [] n u
  /\ (forall adv, host_ok C L0 L [] n u adv) /\ (forall adv, host_ok C' L0 L' [] n u adv)
  /\ table_relation (poseidon_permutation bn256_c) C n u 3 ex_shown
  /\ message C ex_shown 3 1 1 /\ message C ex_shown 3 2 2
  /\ (forall j r, tcell C' ex_shown j r = tcell C ex_shown j r)
  /\ exists adv, same_outside C ex_shown adv /\ satisfied n u (hc_cs C) L adv.
Proof.
  intros mode Hm.
  destruct (bn_build true) as (s & P & h & B & Eh). subst h. destruct (bn_build false) as (s' & P' & h' & B' & Eh'). subst h'.
  assert (NC : forall i, row_check (F := Fr) empty_table i = None) by (intros [|i]; reflexivity).
  destruct (demo_loads bn256_c true s P 8 false 62 62 mode 3 empty_table B Hm) as (L & _ & SU & HO).
  { intros _. cbn. lia. } { intros i ck _ H. rewrite NC in H. discriminate. }
  destruct (demo_loads bn256_c false s' P' 38 false 62 62 mode 3 empty_table B' Hm) as (L' & _ & SU' & HO').
  { intros _. cbn. lia. } { intros i ck _ H. rewrite NC in H. discriminate. }
  set (C := demo P s false 62 62) in *. set (C' := demo P' s' false 62 62) in *.
  set (L0 := layout_empty (demo_host (F := Fr))) in *. set (u := demo_rows 38 3 62) in *.
  assert (SU2 : set_up bn256_c C mode 3 empty_table L0 L L [] u u).
  { destruct SU as (H1 & H2 & (sh & h & H3 & H4) & H5 & H6 & H7).
    split; [exact H1|]. split; [exact H2|]. split; [exists sh, h; split; [exact H3|]|].
    - eapply Nat.le_trans; [exact H4|]. unfold u, demo_rows. lia.
    - unfold u, demo_rows. cbn [C demo hc_range]. split; [lia|]. split; lia. }
  assert (HO2 : forall adv, host_ok C L0 L [] u u adv).
  { intros adv. split; [intros g r []|]. split; [intros e tt r []|intros a b []]. }
  assert (REL : table_relation (poseidon_permutation bn256_c) C u u 3 ex_shown) by apply pairs_relation.
  exists C, C', L0, L, L', u, u. split; [exact B|]. split; [exact B'|]. split; [exact SU2|]. split; [exact SU'|].
  split; [repeat split|]. split.
  { eapply Z.le_lt_trans; [|exact demo_bound]. apply Z.mul_le_mono_nonneg_r; [lia|]. cbn [C demo hc_step hc_range]. lia. }
  split; [intros a a' _ _; apply HO2|]. split; [intros a a' _ _; apply HO'|]. split; [exact HO2|]. split; [exact HO'|].
  split; [exact REL|].
  split. { split; [lia|]. split; [lia|]. split; [lia|]. split; [reflexivity|]. split; [intros; lia|reflexivity]. }
  split. { split; [lia|]. split; [lia|]. split; [lia|]. split; [reflexivity|]. split; [intros; lia|reflexivity]. }
  split; [reflexivity|].
  destruct (relation_enough bn256_c C mode 3 empty_table L0 L L [] u u ex_shown SU2 REL) as (adv & E & S).
  exists adv. split; [exact E|]. apply S, HO2.
Qed.
