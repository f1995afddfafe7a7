(** The lemmas behind PropertiesSboxSpec.v. *)
From Coq Require Import ZArith List Arith Lia.
From Verif Require Import Field Rust ListAux BigSum Primitives SpecHash Specs SboxSpec Link Perm_proof Halo2 ChipUse Pow5 Built Pow5Use
  Pow5_claims.
Import ListNotations.
Local Open Scope nat_scope.

Section Claims.
  Context {F : Type} {FO : FieldOps F} {PF : PrimeField F}.

  Lemma fold_full_hades : forall T (f : F -> F) m, square T m ->
    forall rcs st, Forall (fun r => length r = T) rcs -> length st = T ->
    fold_left (full_round T f m) rcs st = fold_left (hades_full f m) rcs st
    /\ length (fold_left (full_round T f m) rcs st) = T.
  Proof.
    intros T f m Hm. induction rcs as [|r rcs IH]; intros st Hr Hst; cbn; [auto|].
    inversion Hr as [|? ? Hr1 Hr2]; clear Hr.
    assert (E : full_round T f m st r = hades_full f m st r).
    { unfold full_round, hades_full. rewrite zip_mut_sbox by lia.
      rewrite apply_mds_mat_vec; [reflexivity|assumption|rewrite map_length, vadd_length; lia]. }
    rewrite E. apply IH; [assumption|]. rewrite <- E. apply full_round_length.
  Qed.
  Lemma fold_part_hades : forall T (f : F -> F) m, square T m ->
    forall rcs st, Forall (fun r => length r = T) rcs -> length st = T ->
    fold_left (part_round T f m) rcs st = fold_left (hades_partial f m) rcs st
    /\ length (fold_left (part_round T f m) rcs st) = T.
  Proof.
    intros T f m Hm. induction rcs as [|r rcs IH]; intros st Hr Hst; cbn; [auto|].
    inversion Hr as [|? ? Hr1 Hr2]; clear Hr.
    assert (E : part_round T f m st r = hades_partial f m st r).
    { unfold part_round, hades_partial. rewrite zip_mut_add by lia.
      rewrite apply_mds_mat_vec; [|assumption|rewrite sbox_first_length, vadd_length; lia].
      unfold sbox_first. destruct (vadd st r); reflexivity. }
    rewrite E. apply IH; [assumption|]. rewrite <- E. apply part_round_length.
  Qed.

  (** C58: the permutation of the API *)
  Theorem api_sbox_claim : forall T (s : spec F) st, tables_ok T s -> length st = T ->
    hash_permute T s st = hades_of (sbox s) s st.
  Proof.
    intros T s st (Hm & Hr & Hl) Hst. unfold hash_permute. rewrite permute_folds by exact Hl.
    unfold hades_of, hades.
    destruct (fold_full_hades T (sbox s) (mds s) Hm (firstn (Nat.div2 (full_rounds s)) (round_constants s)) st
      (Forall_firstn _ _ _ Hr) Hst) as [E1 L1].
    rewrite <- E1. set (st1 := fold_left _ _ st) in *.
    destruct (fold_part_hades T (sbox s) (mds s) Hm (firstn (partial_rounds s) (skipn (Nat.div2 (full_rounds s)) (round_constants s))) st1
      (Forall_firstn _ _ _ (Forall_skipn _ _ _ Hr)) L1) as [E2 L2].
    rewrite <- E2. set (st2 := fold_left _ _ st1) in *.
    apply (fold_full_hades T (sbox s) (mds s) Hm); [|exact L2]. apply Forall_firstn, Forall_skipn, Hr.
  Qed.

  (** the same tables with S-box x^5 *)
  Definition with_power5 (s : spec F) : spec F :=
    {| full_rounds := full_rounds s; partial_rounds := partial_rounds s; sbox := power5; round_constants := round_constants s;
       mds := mds s; mds_inv := mds_inv s |}.
  (** C58: the chip *)
  Theorem chip_sbox_claim : forall T (s : spec F) state sbox rc_a rc_b (cs0 cs1 : cs F) cfg m L0 L1 L ws out n adv,
    tables_ok T s -> 1 < T -> mat_prod_id T (mds s) (mds_inv s) -> mat_prod_id T (mds_inv s) (mds s) ->
    columns_ok T state sbox rc_a rc_b -> pow5_configure T (T - 1) s state sbox rc_a rc_b cs0 = (cfg, cs1) ->
    grows (layout_empty m) L0 -> words_in L0 ws -> length ws = T -> p5_permute s cfg ws L0 = Ok (L1, out) ->
    grows L1 L -> fits n L -> gates_hold n L adv (cs_gates cs1) -> copies_hold L adv ->
    map (word_at L adv) out = hades_of power5 s (map (word_at L adv) ws).
  Proof.
    intros T s state sb rc_a rc_b cs0 cs1 cfg m L0 L1 L ws out n adv (Hm & Hr & Hl) HT I1 I2 Hc Hcfg G0 W Hw E G1 Fi Ga Co.
    exact (pow5_sound_claim T (with_power5 s) state sb rc_a rc_b cs0 cs1 cfg m L0 L1 L ws out n adv
      (conj (fun x => eq_refl) (conj Hm (conj Hr Hl))) HT I1 I2 Hc Hcfg G0 W Hw E G1 Fi Ga Co).
  Qed.
End Claims.
