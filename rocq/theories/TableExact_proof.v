(** A satisfying assignment from the exposed columns. *)
From Coq Require Import ZArith NArith List Arith Lia Bool.
From Verif Require Import Field Rust ListAux Primitives Specs BaseHash SpecHash Halo2 Septidon PermuteChip ChipUse Layout_proof SeptVal_proof
  Contract Stack_proof SpongeTable TableRows_proof TableLoad_proof TableUse TableInv_proof TableGate_proof TableSound_proof TableMsg_proof
  TableVals_proof TableHonest_proof TableSat_proof ExactUse.
Import ListNotations.
Local Open Scope nat_scope.

Section Build.
  Context {F : Type} {FO : FieldOps F} {PF : PrimeField F}.
  Add Field Ffield : f_field.
  Variable C : hash_circuit F.
  Variable perm : list F -> list F.
  Variable h : nat.
  Hypothesis HC : host_columns C.
  Hypothesis HP : chip_correct (hc_chip C) perm h.

  (** the chip's columns, filled with the permutations of [sin 1], [sin 2], ... *)
  Definition chip_fill (D : chip_data (F := F)) (sin : nat -> F * F * F) (c r : nat) : F :=
    rda (cd_adv D (map3 Some (sin (S (r / h))))) c (r mod h).

  Lemma fill_block : forall D sin c i o, o < h -> chip_fill D sin c (o + h * i) = rda (cd_adv D (map3 Some (sin (S i)))) c o.
  Proof.
    intros D sin c i o Ho. unfold chip_fill.
    rewrite (Nat.mul_comm h i), Nat.div_add, Nat.mod_add, Nat.div_small, Nat.mod_small by lia. reflexivity.
  Qed.

  Lemma sat_build : forall D mode calcs t L0 L1 L copies n u adv (sin : nat -> F * F * F),
    chip_here C perm h D -> loaded C mode calcs t L0 L1 L copies ->
    calcs < u -> h * calcs <= u -> u <= n -> hc_range C < u ->
    (forall c r, 8 + A0 C <= c < cs_adv (hc_cs C) -> adv c r = chip_fill D sin c r) ->
    (forall r, 1 <= r <= calcs -> sin r = (auxc C adv 0 r, auxc C adv 1 r, auxc C adv 2 r)) ->
    (forall r, 1 <= r <= calcs ->
       map (fun j => auxc C adv j r) [5; 3; 4] = map (fun j => nth j (perm (of3 (sin r))) fzero) [0; 1; 2]) ->
    (forall r, 1 <= r <= calcs -> row_eqs C adv r) -> custom_eqs C adv 0 -> custom_eqs C adv calcs ->
    (forall r, r < u -> range_eq C adv n r) ->
    host_ok C L0 L copies n u adv ->
    satisfied n u (hc_cs C) L adv.
  Proof.
    intros D mode calcs t L0 L1 L copies n u adv sin HD HL Hu Hh Hn HS CH SI SO R1 R2 R3 Rg (Hg & Hl & Hc).
    destruct (loaded_final C perm h HC D mode calcs t L0 L1 L copies HD HL) as (_ & ins & finals & _ & FF).
    pose proof HD as HD'. destruct HD' as (Laws & Hh' & Own & Eg & El & _).
    assert (OwnA : forall c, cd_own D (Adv c) -> 8 + A0 C <= c < cs_adv (hc_cs C)).
    { intros c Hc'. apply Own in Hc'. cbn [added csm cs_adv] in Hc'. lia. }
    pose proof FF as FF'. destruct FF' as (INV & Er & Cr & Tb & LI & LF & _).
    assert (Lc : length (combine ins finals) = calcs) by (rewrite combine_length; lia).
    pose proof INV as INV'. destruct INV' as (_ & _ & OF & _ & OS & _). rewrite Lc in OF, OS.
    assert (Hpos : 0 < h) by (rewrite <- Hh'; apply (law_in D perm Laws 0); lia).
    assert (BL : forall i c o, cd_own D (Adv c) -> o < h -> adv c (o + h * i) = rda (cd_adv D (map3 Some (sin (S i)))) c o).
    { intros i c o Hc' Ho. rewrite CH by (now apply OwnA). now apply fill_block. }
    split; [|split].
    - rewrite Eg. apply gates_app. split; [assumption|]. apply gates_app. split.
      + apply (table_gates_rows C n L adv calcs Er Cr ltac:(lia)). auto.
      + apply (stack_gates D perm Laws L 0 calcs n adv OF OS); [rewrite Hh'; lia|]. intros i Hi.
        eapply (law_local D perm Laws); [|exact (proj1 (law_honest D perm Laws (sin (S i))))].
        intros c o Hc' Ho. cbn beta. rewrite Hh' in Ho |- *. rewrite Nat.add_0_r. symmetry. now apply BL.
    - rewrite El. apply lookups_app. split; [assumption|].
      destruct (range_lookup_rows C n u L adv ltac:(lia) Tb) as [_ RL]. now apply RL.
    - intros a b Hab.
      apply (table_copies C perm h HC D mode calcs t L0 L copies ins finals HD FF) in Hab. destruct Hab as [Hab|Hab]; [now apply Hc|].
      destruct Hab as (i & j & Hi & Hj & K).
      destruct (law_honest D perm Laws (sin (S i))) as (K1 & K2 & _).
      pose proof (law_in D perm Laws j Hj) as [KI _]. pose proof (law_out D perm Laws j Hj) as [KO KO'].
      specialize (SI (S i) ltac:(lia)). specialize (SO (S i) ltac:(lia)).
      destruct K as [[-> ->]|[-> ->]]; cbn [cell_at].
      + rewrite <- (Nat.add_0_l (h * i)). rewrite (BL i _ 0 KI Hpos), K2 by assumption. rewrite SI. unfold of3, auxc.
        destruct j as [|[|[|j]]]; [reflexivity..|lia].
      + rewrite (BL i _ _ KO) by (rewrite <- Hh'; assumption). rewrite (law_sound D perm Laws _ K1 j Hj).
        rewrite !K2 by lia. rewrite SI in *. cbn [of3 nth] in *. unfold auxc in *. cbn [map] in SO. injection SO as S0 S1 S2.
        destruct j as [|[|[|j]]]; [exact S0|exact S1|exact S2|lia].
  Qed.
End Build.
