(** The permutation is a bijection when x -> x^5 is one and the matrix is invertible. *)
From Coq Require Import ZArith Znumtheory List Arith Lia.
From Verif Require Import Field Rust ListAux NumTheory Primitives SpecHash Specs Perm_proof BigSum.
Import ListNotations.
Local Open Scope F_scope.

Section Proofs.
  Context {F : Type} {FO : FieldOps F} {PF : PrimeField F}.
  Add Field Ffield : f_field.

  Lemma of_Z_pow : forall z n, of_Z (F := F) (z ^ Z.of_nat n)%Z = fpow (of_Z z) n.
  Proof.
    intros z n. induction n as [|n IH]; [apply of_Z_1|].
    rewrite Nat2Z.inj_succ, Z.pow_succ_r by lia. rewrite of_Z_mul, IH. reflexivity.
  Qed.

  Lemma power5_of_Z : forall z, power5 (of_Z (F := F) z) = of_Z (z ^ 5)%Z.
  Proof.
    intros z. change 5%Z with (Z.of_nat 5). rewrite of_Z_pow. unfold power5. cbn [fpow]. ring.
  Qed.

  Section Exponent.
    Hypothesis H5 : rel_prime 5 (modulus (F := F) - 1).

    Lemma exponent : exists d k, (0 <= d /\ 0 <= k /\ 5 * d = 1 + k * (modulus (F := F) - 1))%Z.
    Proof.
      destruct (rel_prime_bezout _ _ H5) as [u v Huv].
      pose proof (modulus_gt_1 (F := F)).
      set (q := (modulus (F := F) - 1)%Z) in *.
      set (n := (Z.abs u + Z.abs v)%Z).
      exists (u + n * q)%Z, (5 * n - v)%Z. unfold n. repeat split; nia.
    Qed.

    Lemma power5_root : forall d k x, (0 <= d)%Z -> (0 <= k)%Z ->
      (5 * d = 1 + k * (modulus (F := F) - 1))%Z ->
      power5 (of_Z (to_Z x ^ d)%Z) = x /\ of_Z (to_Z (power5 x) ^ d)%Z = x.
    Proof.
      intros d k x Hd Hk E. set (p := modulus (F := F)) in *.
      pose proof (modulus_gt_1 (F := F)) as Hp. fold p in Hp.
      assert (Hkey : forall z, of_Z (F := F) (z ^ (5 * d))%Z = of_Z z).
      { intros z. rewrite E.
        rewrite <- (of_Z_mod (F := F) (z ^ _)%Z), <- (of_Z_mod (F := F) z). f_equal. fold p.
        destruct (Zdivide_dec p z) as [Hz|Hz].
        - assert (E1 : (z mod p = 0)%Z) by (apply Z.mod_divide; [lia|assumption]). rewrite E1.
          apply Z.mod_divide; [lia|].
          rewrite Z.pow_add_r by nia. apply Z.divide_mul_l. now rewrite Z.pow_1_r.
        - rewrite Z.pow_add_r, Z.pow_1_r by nia.
          rewrite <- Z.mul_mod_idemp_r by lia.
          rewrite (Z.mul_comm k), Z.pow_mul_r by lia.
          rewrite (pow_mod_1 p (z ^ (p - 1))) by (first [lia|apply fermat; [apply modulus_prime|assumption]]).
          now rewrite Z.mul_1_r. }
      split.
      - rewrite power5_of_Z, <- Z.pow_mul_r by lia. rewrite (Z.mul_comm d 5), Hkey. apply of_to_Z.
      - rewrite <- (of_to_Z x) at 1. rewrite power5_of_Z.
        rewrite to_of_Z. fold p.
        rewrite <- of_Z_mod. fold p.
        rewrite <- (Zpow_facts.Zpower_mod _ _ p) by lia.
        unfold p at 1. rewrite of_Z_mod.
        rewrite <- Z.pow_mul_r by lia. rewrite Hkey. apply of_to_Z.
    Qed.

    Lemma power5_bijective : (forall x y : F, power5 x = power5 y -> x = y)
      /\ (forall y : F, exists x, power5 x = y).
    Proof.
      destruct exponent as (d & k & Hd & Hk & E).
      split.
      - intros x y H. rewrite <- (proj2 (power5_root d k x Hd Hk E)), H.
        apply (power5_root d k y Hd Hk E).
      - intros y. exists (of_Z (to_Z y ^ d)%Z). apply (power5_root d k y Hd Hk E).
    Qed.
  End Exponent.

  (** bijection on the lists of length T *)
  Definition bij (T : nat) (f : list F -> list F) : Prop :=
    (forall x, length x = T -> length (f x) = T)
    /\ (forall x y, length x = T -> length y = T -> f x = f y -> x = y)
    /\ (forall y, length y = T -> exists x, length x = T /\ f x = y).

  Lemma bij_compose : forall T f g, bij T f -> bij T g -> bij T (fun x => g (f x)).
  Proof.
    intros T f g (F1 & F2 & F3) (G1 & G2 & G3). split; [|split]; intros; auto.
    destruct (G3 y H) as [z [Hz Ez]]. destruct (F3 z Hz) as [x [Hx Ex]].
    exists x. split; [assumption|]. now rewrite Ex.
  Qed.

  Lemma bij_mds : forall T m mi, mat_prod_id T m mi -> mat_prod_id T mi m -> bij T (apply_mds T m).
  Proof.
    intros T m mi H1 H2. split; [|split].
    - intros; apply apply_mds_length.
    - intros x y Hx Hy E. rewrite <- (apply_mds_inverse T mi m x), <- (apply_mds_inverse T mi m y) by assumption.
      now rewrite E.
    - intros y Hy. exists (apply_mds T mi y). split; [apply apply_mds_length|].
      now apply apply_mds_inverse.
  Qed.

  Lemma bij_arc : forall T rc, length rc = T -> bij T (fun st => vadd st rc).
  Proof.
    intros T rc. revert T. induction rc as [|r rc IH]; intros T H; cbn in H; subst T.
    - split; [|split]; intros; destruct x || idtac; cbn in *; try discriminate; auto.
      + destruct y; cbn in *; [reflexivity|discriminate].
      + destruct y; [|discriminate]. now exists [].
    - destruct (IH _ eq_refl) as (I1 & I2 & I3). split; [|split].
      + intros [|x st] Hx; cbn in *; [discriminate|]. rewrite I1; lia.
      + intros [|x st] [|y st'] Hx Hy E; cbn in *; try discriminate.
        injection E as E1 E2. f_equal; [now apply (fadd_cancel_r x y r)|]. apply I2; auto.
      + intros [|y st] Hy; cbn in *; [discriminate|].
        destruct (I3 st) as [x [Hx Ex]]; [lia|].
        exists ((y - r) :: x). cbn. rewrite Hx, Ex. split; [reflexivity|]. f_equal. ring.
  Qed.

  Lemma bij_map : forall T (sb : F -> F), (forall x y, sb x = sb y -> x = y) ->
    (forall y, exists x, sb x = y) -> bij T (map sb).
  Proof.
    intros T sb Hi Hs. split; [|split].
    - intros. now rewrite map_length.
    - intros x. revert T. induction x as [|a x IH]; intros T [|b y] Hx Hy E; cbn in *; subst; try discriminate; auto.
      injection E as E1 E2. f_equal; [now apply Hi|]. apply (IH (length x)); auto; lia.
    - intros y. revert T. induction y as [|b y IH]; intros T Hy; cbn in *; subst.
      + now exists [].
      + destruct (IH _ eq_refl) as [x [Hx Ex]]. destruct (Hs b) as [a Ea].
        exists (a :: x). cbn. now rewrite Hx, Ex, Ea.
  Qed.

  Lemma bij_sbox_first : forall T (sb : F -> F), (forall x y, sb x = sb y -> x = y) ->
    (forall y, exists x, sb x = y) -> bij T (sbox_first sb).
  Proof.
    intros T sb Hi Hs. split; [|split].
    - intros. now rewrite sbox_first_length.
    - intros [|a x] [|b y] Hx Hy E; cbn in *; subst; try discriminate; auto.
      injection E as E1 E2. f_equal; auto.
    - intros [|b y] Hy; cbn in *; subst.
      + now exists [].
      + destruct (Hs b) as [a Ea]. exists (a :: y). cbn. now rewrite Ea.
  Qed.

  Lemma bij_ext : forall T f g, (forall x, length x = T -> f x = g x) -> bij T f -> bij T g.
  Proof.
    intros T f g E (F1 & F2 & F3). split; [|split].
    - intros x Hx. rewrite <- E by assumption. auto.
    - intros x y Hx Hy H. rewrite <- !E in H by assumption. auto.
    - intros y Hy. destruct (F3 y Hy) as [x [Hx Ex]]. exists x. now rewrite <- E.
  Qed.

  Lemma bij_fold : forall T (f : list F -> list F -> list F) rcs,
    (forall rc, length rc = T -> bij T (fun st => f st rc)) ->
    Forall (fun r => length r = T) rcs -> bij T (fold_left f rcs).
  Proof.
    intros T f rcs Hf H. induction H as [|r rcs Hr H IH].
    - split; [|split]; cbn; auto. intros y Hy. now exists y.
    - cbn. apply (bij_compose T (fun st => f st r) (fold_left f rcs)); auto.
  Qed.

  Theorem permute_bijective : forall T (s : spec F) m mi rcs,
    rel_prime 5 (modulus (F := F) - 1) ->
    (forall x, sbox s x = power5 x) ->
    mat_prod_id T m mi -> mat_prod_id T mi m ->
    Forall (fun r => length r = T) rcs ->
    (Nat.div2 (full_rounds s) + partial_rounds s + Nat.div2 (full_rounds s) <= length rcs)%nat ->
    bij T (permute T s m rcs).
  Proof.
    intros T s m mi rcs H5 Hsb H1 H2 Hrc Hlen.
    destruct (power5_bijective H5) as [Pi Ps].
    assert (Si : forall x y, sbox s x = sbox s y -> x = y) by (intros x y; rewrite !Hsb; apply Pi).
    assert (Ss : forall y, exists x, sbox s x = y)
      by (intros y; destruct (Ps y) as [x Hx]; exists x; now rewrite Hsb).
    assert (Bf : forall rc, length rc = T -> bij T (fun st => full_round T (sbox s) m st rc)).
    { intros rc Hr. apply (bij_ext T (fun st => apply_mds T m (map (sbox s) (vadd st rc)))).
      - intros x Hx. unfold full_round. rewrite zip_mut_sbox by lia. reflexivity.
      - apply (bij_compose T (fun st => map (sbox s) (vadd st rc)) (apply_mds T m)).
        + apply (bij_compose T (fun st => vadd st rc) (map (sbox s))).
          * now apply bij_arc.
          * now apply bij_map.
        + now apply (bij_mds T m mi). }
    assert (Bp : forall rc, length rc = T -> bij T (fun st => part_round T (sbox s) m st rc)).
    { intros rc Hr. apply (bij_ext T (fun st => apply_mds T m (sbox_first (sbox s) (vadd st rc)))).
      - intros x Hx. unfold part_round. rewrite zip_mut_add by lia. reflexivity.
      - apply (bij_compose T (fun st => sbox_first (sbox s) (vadd st rc)) (apply_mds T m)).
        + apply (bij_compose T (fun st => vadd st rc) (sbox_first (sbox s))).
          * now apply bij_arc.
          * now apply bij_sbox_first.
        + now apply (bij_mds T m mi). }
    eapply bij_ext; [intros x Hx; symmetry; now apply permute_folds|].
    set (l3 := firstn _ (skipn _ rcs)). set (l2 := firstn _ (skipn _ rcs)). set (l1 := firstn _ rcs).
    apply (bij_compose T (fun st => fold_left (part_round T (sbox s) m) l2 (fold_left (full_round T (sbox s) m) l1 st))
                         (fold_left (full_round T (sbox s) m) l3)).
    - apply (bij_compose T (fold_left (full_round T (sbox s) m) l1) (fold_left (part_round T (sbox s) m) l2));
        apply bij_fold; auto; unfold l1, l2; repeat first [apply Forall_firstn|apply Forall_skipn]; assumption.
    - apply bij_fold; auto; unfold l3; repeat first [apply Forall_firstn|apply Forall_skipn]; assumption.
  Qed.
End Proofs.
