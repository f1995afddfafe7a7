(** The model permutation is the textbook permutation; it preserves the state width. *)
From Coq Require Import ZArith List Arith Lia.
From Verif Require Import Field Rust ListAux Primitives SpecHash Specs.
Import ListNotations.
Local Open Scope F_scope.

Section Proofs.
  Context {F : Type} {FO : FieldOps F} {PF : PrimeField F}.
  Add Field Ffield : f_field.

  (** a T x T matrix *)
  Definition square (T : nat) (m : list (list F)) : Prop :=
    length m = T /\ Forall (fun r => length r = T) m.

  Lemma fold_add : forall {A} (f : A -> F) l a,
    fold_left (fun acc j => acc + f j) l a = a + fsum (map f l).
  Proof.
    intros A f l. induction l as [|x l IH]; intros a; cbn.
    - ring.
    - rewrite IH. ring.
  Qed.

  Lemma dot_sum : forall n (a b : list F), length a = n -> length b = n ->
    dot a b = fsum (map (fun j => fnth a j * fnth b j) (seq 0 n)).
  Proof.
    induction n as [|n IH]; intros a b Ha Hb.
    - destruct a; [|discriminate]. reflexivity.
    - destruct a as [|x a]; [discriminate|]. destruct b as [|y b]; [discriminate|].
      cbn [dot seq map fsum]. rewrite (IH a b) by (cbn in *; lia).
      rewrite <- seq_shift, map_map. reflexivity.
  Qed.

  Lemma mat_mul_length : forall T m (v : list F), length (mat_mul T m v) = T.
  Proof. intros. unfold mat_mul. now rewrite map_length, seq_length. Qed.

  Lemma apply_mds_length : forall T m (v : list F), length (apply_mds T m v) = T.
  Proof. intros. unfold apply_mds. now rewrite map_length, seq_length. Qed.

  Lemma apply_mds_mat_vec : forall T m (v : list F), square T m -> length v = T ->
    apply_mds T m v = mat_vec m v.
  Proof.
    intros T m v [Hm Hr] Hv. apply nth_ext_len with (d := 0).
    - unfold mat_vec. now rewrite apply_mds_length, map_length.
    - intros i Hi. rewrite apply_mds_length in Hi. unfold apply_mds.
      rewrite nth_map_seq by assumption.
      unfold mat_vec. rewrite nth_indep with (d' := dot [] v) by (rewrite map_length; lia).
      change (dot [] v) with ((fun row => dot row v) []). rewrite map_nth.
      rewrite (dot_sum T); [|rewrite Forall_forall in Hr; apply Hr, nth_In; lia|assumption].
      rewrite fold_add. unfold mnth. ring.
  Qed.

  Lemma mat_mul_apply_mds : forall T m (v : list F), mat_mul T m v = apply_mds T m v.
  Proof. reflexivity. Qed.

  Lemma zip_mut_sbox : forall (sb : F -> F) st rc, length rc = length st ->
    zip_mut (fun w r => sb (w + r)) st rc = map sb (vadd st rc).
  Proof.
    induction st as [|x st IH]; intros [|r rc] H; cbn in *; try lia; auto.
    rewrite IH by lia. reflexivity.
  Qed.

  Lemma zip_mut_add : forall (st rc : list F), length rc = length st ->
    zip_mut (fun w r => w + r) st rc = vadd st rc.
  Proof.
    induction st as [|x st IH]; intros [|r rc] H; cbn in *; try lia; auto.
    rewrite IH by lia. reflexivity.
  Qed.

  Lemma vadd_length : forall a b : list F, length a = length b -> length (vadd a b) = length a.
  Proof.
    induction a as [|x a IH]; intros [|y b] H; cbn in *; try lia. rewrite IH; lia.
  Qed.

  Lemma sbox_first_length : forall (sb : F -> F) st, length (sbox_first sb st) = length st.
  Proof. destruct st; reflexivity. Qed.

  Lemma full_round_length : forall T sb m (st rc : list F), length (full_round T sb m st rc) = T.
  Proof. intros. apply apply_mds_length. Qed.

  Lemma part_round_length : forall T sb m (st rc : list F), length (part_round T sb m st rc) = T.
  Proof. intros. apply apply_mds_length. Qed.

  (** splitting the zipped rounds *)
  Lemma combine_repeat_app : forall {A B} (f : A) n (l2 : list A) (rcs : list B),
    (n <= length rcs)%nat ->
    combine (repeat f n ++ l2) rcs = map (pair f) (firstn n rcs) ++ combine l2 (skipn n rcs).
  Proof.
    induction n as [|n IH]; intros l2 rcs H; cbn; [reflexivity|].
    destruct rcs as [|r rcs]; cbn in *; [lia|]. rewrite IH by lia. reflexivity.
  Qed.

  Lemma fold_rounds : forall (f : list F -> list F -> list F) rcs st,
    fold_left (fun st '(round, rc) => round st rc) (map (pair f) rcs) st = fold_left f rcs st.
  Proof. induction rcs as [|r rcs IH]; intros st; cbn; auto. Qed.

  (** the permutation as three folds, for a table of exactly full + partial rows *)
  Lemma permute_folds : forall T (s : spec F) m rcs st,
    (Nat.div2 (full_rounds s) + partial_rounds s + Nat.div2 (full_rounds s) <= length rcs)%nat ->
    permute T s m rcs st =
      fold_left (full_round T (sbox s) m)
        (firstn (Nat.div2 (full_rounds s))
                (skipn (Nat.div2 (full_rounds s) + partial_rounds s) rcs))
        (fold_left (part_round T (sbox s) m)
           (firstn (partial_rounds s) (skipn (Nat.div2 (full_rounds s)) rcs))
           (fold_left (full_round T (sbox s) m) (firstn (Nat.div2 (full_rounds s)) rcs) st)).
  Proof.
    intros T s m rcs st H. unfold permute.
    set (h := Nat.div2 (full_rounds s)) in *. set (p := partial_rounds s) in *.
    rewrite combine_repeat_app by lia.
    rewrite combine_repeat_app by (rewrite skipn_length; lia).
    rewrite <- (app_nil_r (repeat _ h)) at 1.
    rewrite combine_repeat_app by (rewrite !skipn_length; lia).
    cbn [combine]. rewrite app_nil_r.
    rewrite !fold_left_app, !fold_rounds. rewrite skipn_skipn.
    rewrite (Nat.add_comm p h). reflexivity.
  Qed.

  Lemma fold_full_spec : forall T sb m, square T m -> (forall x, sb x = power5 x) ->
    forall rcs st, Forall (fun r => length r = T) rcs -> length st = T ->
    fold_left (full_round T sb m) rcs st = fold_left (spec_full m) rcs st
    /\ length (fold_left (full_round T sb m) rcs st) = T.
  Proof.
    intros T sb m Hm Hsb. induction rcs as [|r rcs IH]; intros st Hr Hst; cbn; [auto|].
    inversion Hr as [|? ? Hr1 Hr2]; clear Hr.
    assert (E : full_round T sb m st r = spec_full m st r).
    { unfold full_round, spec_full. rewrite zip_mut_sbox by lia.
      rewrite apply_mds_mat_vec; [|assumption|rewrite map_length, vadd_length; lia].
      f_equal. apply map_ext. exact Hsb. }
    rewrite E. apply IH; [assumption|].
    rewrite <- E. apply full_round_length.
  Qed.

  Lemma fold_part_spec : forall T sb m, square T m -> (forall x, sb x = power5 x) ->
    forall rcs st, Forall (fun r => length r = T) rcs -> length st = T ->
    fold_left (part_round T sb m) rcs st = fold_left (spec_partial m) rcs st
    /\ length (fold_left (part_round T sb m) rcs st) = T.
  Proof.
    intros T sb m Hm Hsb. induction rcs as [|r rcs IH]; intros st Hr Hst; cbn; [auto|].
    inversion Hr as [|? ? Hr1 Hr2]; clear Hr.
    assert (E : part_round T sb m st r = spec_partial m st r).
    { unfold part_round, spec_partial. rewrite zip_mut_add by lia.
      rewrite apply_mds_mat_vec; [|assumption|rewrite sbox_first_length, vadd_length; lia].
      f_equal. unfold sbox_first. destruct (vadd st r); [reflexivity|]. now rewrite Hsb. }
    rewrite E. apply IH; [assumption|].
    rewrite <- E. apply part_round_length.
  Qed.

  Lemma Forall_firstn : forall {A} (P : A -> Prop) n l, Forall P l -> Forall P (firstn n l).
  Proof.
    intros A P n l H. rewrite <- (firstn_skipn n l) in H. apply Forall_app in H. apply H.
  Qed.
  Lemma Forall_skipn : forall {A} (P : A -> Prop) n l, Forall P l -> Forall P (skipn n l).
  Proof.
    intros A P n l H. rewrite <- (firstn_skipn n l) in H. apply Forall_app in H. apply H.
  Qed.

  Theorem permute_spec : forall T (s : spec F) m rcs st,
    square T m -> Forall (fun r => length r = T) rcs -> length st = T ->
    (forall x, sbox s x = power5 x) ->
    (Nat.div2 (full_rounds s) + partial_rounds s + Nat.div2 (full_rounds s) <= length rcs)%nat ->
    permute T s m rcs st = spec_permute m (Nat.div2 (full_rounds s)) (partial_rounds s) rcs st.
  Proof.
    intros T s m rcs st Hm Hr Hst Hsb Hlen. rewrite permute_folds by assumption.
    unfold spec_permute.
    destruct (fold_full_spec T (sbox s) m Hm Hsb (firstn (Nat.div2 (full_rounds s)) rcs) st)
      as [E1 L1]; [now apply Forall_firstn|assumption|].
    destruct (fold_part_spec T (sbox s) m Hm Hsb
      (firstn (partial_rounds s) (skipn (Nat.div2 (full_rounds s)) rcs))
      (fold_left (full_round T (sbox s) m) (firstn (Nat.div2 (full_rounds s)) rcs) st))
      as [E2 L2]; [now apply Forall_firstn, Forall_skipn|assumption|].
    destruct (fold_full_spec T (sbox s) m Hm Hsb
      (firstn (Nat.div2 (full_rounds s)) (skipn (Nat.div2 (full_rounds s) + partial_rounds s) rcs))
      (fold_left (part_round T (sbox s) m)
         (firstn (partial_rounds s) (skipn (Nat.div2 (full_rounds s)) rcs))
         (fold_left (full_round T (sbox s) m) (firstn (Nat.div2 (full_rounds s)) rcs) st)))
      as [E3 L3]; [now apply Forall_firstn, Forall_skipn|assumption|].
    rewrite E3, E2, E1. reflexivity.
  Qed.

  Lemma permute_length : forall T (s : spec F) m rcs st,
    length st = T -> length (permute T s m rcs st) = T.
  Proof.
    intros T s m rcs st Hst. unfold permute.
    set (l := repeat _ _ ++ _).
    assert (Hl : Forall (fun f => forall st rc, length (f st rc) = T) l).
    { unfold l. rewrite !Forall_app. repeat split; apply Forall_forall; intros f Hf;
        apply repeat_spec in Hf; subst f; intros; apply apply_mds_length. }
    clearbody l. revert rcs st Hst. induction l as [|f l IH]; intros rcs st Hst; cbn; [assumption|].
    destruct rcs as [|r rcs]; cbn; [assumption|]. inversion Hl; subst.
    apply IH; [assumption|]. apply H1.
  Qed.

  (** both S-box implementations are the fifth power *)
  Lemma sbox_pow_power5 : forall x : F, sbox_pow x = power5 x.
  Proof. intros. unfold sbox_pow, power5. ring. Qed.
  Lemma sbox_mul_power5 : forall x : F, sbox_mul x = power5 x.
  Proof. intros. unfold sbox_mul, power5. ring. Qed.

  (** the permutation depends on the S-box only as a function *)
  Lemma permute_sbox_ext : forall T (s1 s2 : spec F) m rcs st,
    full_rounds s1 = full_rounds s2 -> partial_rounds s1 = partial_rounds s2 ->
    (forall x, sbox s1 x = sbox s2 x) -> permute T s1 m rcs st = permute T s2 m rcs st.
  Proof.
    intros T s1 s2 m rcs st Hf Hp Hs. unfold permute. rewrite Hf, Hp.
    set (f1 := full_round T (sbox s1) m). set (p1 := part_round T (sbox s1) m).
    set (f2 := full_round T (sbox s2) m). set (p2 := part_round T (sbox s2) m).
    assert (Ef : forall a b, f1 a b = f2 a b).
    { intros a b. unfold f1, f2, full_round. f_equal.
      revert b. induction a as [|x a IH]; intros [|y b]; cbn; auto. now rewrite IH, Hs. }
    assert (Ep : forall a b, p1 a b = p2 a b).
    { intros a b. unfold p1, p2, part_round. f_equal. unfold sbox_first.
      destruct (zip_mut _ a b); [reflexivity|]. now rewrite Hs. }
    clearbody f1 f2 p1 p2. clear Hf Hp Hs s1.
    assert (G : forall (l1 l2 : list (list F -> list F -> list F)), Forall2 (fun f g => forall a b, f a b = g a b) l1 l2 ->
      forall (rcs : list (list F)) (st : list F), fold_left (fun st '(round, rc) => round st rc) (combine l1 rcs) st
        = fold_left (fun st '(round, rc) => round st rc) (combine l2 rcs) (st : list F)).
    { intros l1 l2 H. induction H as [|f g l1 l2 Hfg H IH]; intros r st0; [reflexivity|].
      destruct r as [|r0 r]; cbn; [reflexivity|]. rewrite Hfg. apply IH. }
    apply G.
    assert (R : forall (f g : list F -> list F -> list F) n, (forall a b, f a b = g a b) ->
      Forall2 (fun f g : list F -> list F -> list F => forall a b, f a b = g a b) (repeat f n) (repeat g n)).
    { intros f g n H. induction n; cbn; constructor; auto. }
    repeat apply Forall2_app; apply R; assumption.
  Qed.
End Proofs.
