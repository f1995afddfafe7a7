(** C62: subspace trails through the rounds (SubspaceUse.v), width 3. *)
From Coq Require Import ZArith List Arith Lia setoid_ring.Field.
From Verif Require Import Field ZpField Primes Rust ListAux Primitives Specs Mds Bn256 Pasta BaseHash SpecHash Link Perm_proof BigSum Mds_proof Bij_proof
  BaseHash_proof Const_proof Base_claims Bij_claims SboxUse Sbox_proof Sbox_claims SubspaceUse.
Import ListNotations.
Local Open Scope F_scope.
Local Notation "x / y" := (fmul x (finv y)) : F_scope.

Section Trails.
  Context {F : Type} {FO : FieldOps F} {PF : PrimeField F}.
  Add Field Ffield : f_field.

  Ltac lists := cbn [vadd map vminus fnth nth]; repeat (apply f_equal2; [ring|]); try reflexivity.

  Lemma sub_combine : forall (U : list F -> Prop), subspace 3 U -> forall a x b y, U x -> U y -> U (vadd (map (fmul a) x) (map (fmul b) y)).
  Proof. intros U HU a x b y Hx Hy. apply (sub_add _ _ HU); now apply (sub_scale _ _ HU). Qed.

  Lemma span3 : forall (U : list F -> Prop) a b c, subspace 3 U -> U a -> U b -> U c -> det3 a b c <> 0 -> forall y, length y = 3%nat -> U y.
  Proof.
    intros U a b c HU Ha Hb Hc D y Hy. pose proof (sub_length _ _ HU _ Ha) as La. pose proof (sub_length _ _ HU _ Hb) as Lb. pose proof (sub_length _ _ HU _ Hc) as Lc.
    pose proof (sub_combine U HU (det3 y b c / det3 a b c) a (det3 a y c / det3 a b c) b Ha Hb) as H1.
    pose proof (sub_combine U HU 1 _ (det3 a b y / det3 a b c) c H1 Hc) as H2.
    match type of H2 with U ?z => replace y with z; [exact H2|] end. clear H1 H2 Ha Hb Hc HU.
    destruct (length_list3 _ La) as (a0 & a1 & a2 & ->). destruct (length_list3 _ Lb) as (b0 & b1 & b2 & ->).
    destruct (length_list3 _ Lc) as (c0 & c1 & c2 & ->). destruct (length_list3 _ Hy) as (y0 & y1 & y2 & ->).
    unfold det3, fnth in *. cbn [nth vadd map] in *. repeat (apply f_equal2; [field; exact D|]). reflexivity.
  Qed.

  Variable m : list (list F).
  Hypothesis Hm : square 3 m.
  Hypothesis H30 : of_Z (F := F) 30 <> 0.

  Lemma mat_vec_combine : forall a x b y, length x = 3%nat -> length y = 3%nat ->
    mat_vec m (vadd (map (fmul a) x) (map (fmul b) y)) = vadd (map (fmul a) (mat_vec m x)) (map (fmul b) (mat_vec m y)).
  Proof.
    intros a x b y Hx Hy. destruct Hm as [Hl Hr].
    destruct (length_list3 m Hl) as (r0 & r1 & r2 & ->). inversion Hr as [|? ? A0 Hr1]. inversion Hr1 as [|? ? A1 Hr2]. inversion Hr2 as [|? ? A2 _]. subst.
    destruct (length_list3 _ A0) as (? & ? & ? & ->). destruct (length_list3 _ A1) as (? & ? & ? & ->). destruct (length_list3 _ A2) as (? & ? & ? & ->).
    destruct (length_list3 _ Hx) as (? & ? & ? & ->). destruct (length_list3 _ Hy) as (? & ? & ? & ->).
    unfold mat_vec. cbn [map dot vadd]. lists.
  Qed.
  Lemma mat_vec_length : forall x, length (mat_vec m x) = 3%nat.
  Proof. intros x. unfold mat_vec. rewrite map_length. exact (proj1 Hm). Qed.

  Definition unit_vec (i : nat) : list F := map (fun j => if (j =? i)%nat then 1 else 0) (seq 0 3).

  (** the difference that the S-box makes of [u] at [z] *)
  Definition push (u z : F) : F := power5 (z + u) - power5 z.
  Lemma push_varies : forall u, push u u - push u 0 = of_Z 30 * power5 u.
  Proof.
    intros u. assert (E : of_Z (F := F) 30 = (1 + 1) * (1 + 1 + 1) * (1 + 1 + 1 + 1 + 1)).
    { change 30%Z with ((1 + 1) * (1 + 1 + 1) * (1 + 1 + 1 + 1 + 1))%Z. rewrite !of_Z_mul, !of_Z_add, of_Z_1. reflexivity. }
    rewrite E. unfold push, power5. ring.
  Qed.
  Lemma push_0 : forall z, push 0 z = 0.
  Proof. intros z. unfold push, power5. ring. Qed.
  Lemma power5_nz : forall u : F, u <> 0 -> power5 u <> 0.
  Proof.
    intros u H E. unfold power5 in E. apply H. repeat (apply fmul_eq_0 in E; destruct E as [E|E]; [|exact E]). exact E.
  Qed.

  (** one partial round *)
  Section Partial.
    Variables (U W : list F -> Prop) (rc : list F).
    Hypothesis HU : subspace 3 U.
    Hypothesis HW : subspace 3 W.
    Hypothesis Hrc : length rc = 3%nat.
    Hypothesis HR : maps_cosets 3 (fun st => spec_partial m st rc) U W.

    Lemma partial_push : forall u z, U u -> W (mat_vec m [push (fnth u 0) z; fnth u 1; fnth u 2]).
    Proof.
      intros u z Hu. pose proof (sub_length _ _ HU _ Hu) as Lu. destruct (length_list3 _ Lu) as (u0 & u1 & u2 & ->).
      destruct (length_list3 _ Hrc) as (c0 & c1 & c2 & Erc).
      pose proof (HR [z - c0 + u0; u1; u2] [z - c0; 0; 0] eq_refl eq_refl) as H.
      match type of H with ?A -> _ => assert (X : A) end.
      { match goal with |- U ?l => replace l with [u0; u1; u2]; [exact Hu|] end. unfold vminus. lists. }
      specialize (H X). clear X. unfold spec_partial in H. rewrite Erc in H. cbn [vadd] in H.
      pose proof (mat_vec_combine 1 [power5 (z - c0 + u0 + c0); u1 + c1; u2 + c2] (- (1)) [power5 (z - c0 + c0); 0 + c1; 0 + c2] eq_refl eq_refl) as Q.
      assert (V : forall x y, length x = 3%nat -> length y = 3%nat -> vminus x y = vadd (map (fmul 1) x) (map (fmul (- (1))) y)).
      { clear - PF. intros x y Hx Hy. destruct (length_list3 _ Hx) as (? & ? & ? & ->). destruct (length_list3 _ Hy) as (? & ? & ? & ->). unfold vminus. lists. }
      rewrite V in H by apply mat_vec_length. rewrite <- Q in H.
      match type of H with W (mat_vec m ?l) => replace l with [push u0 z; u1; u2] in H; [exact H|] end.
      unfold push, power5. lists.
    Qed.
    Lemma partial_unit : forall u, U u -> fnth u 0 <> 0 -> W (mat_vec m (unit_vec 0)).
    Proof.
      intros u Hu H0. set (u0 := fnth u 0) in *. set (k := of_Z 30 * power5 u0).
      assert (Hk : k <> 0). { intros E. apply fmul_eq_0 in E. destruct E as [E|E]; [contradiction|]. exact (power5_nz u0 H0 E). }
      pose proof (sub_combine W HW (1 / k) _ (- (1 / k)) _ (partial_push u u0 Hu) (partial_push u 0 Hu)) as H. fold u0 in H.
      rewrite <- mat_vec_combine in H by reflexivity.
      match type of H with W (mat_vec m ?l) => replace l with (unit_vec 0) in H; [exact H|] end.
      unfold unit_vec. cbn [map seq Nat.eqb vadd].
      apply f_equal2; [|lists]. transitivity ((push u0 u0 - push u0 0) / k); [rewrite push_varies; fold k; field; exact Hk|field; exact Hk].
    Qed.
    Lemma partial_step : forall u, U u -> W (mat_vec m u).
    Proof.
      intros u Hu. pose proof (sub_length _ _ HU _ Hu) as Lu. destruct (feq_dec (fnth u 0) 0) as [E|N].
      - pose proof (partial_push u 0 Hu) as H. destruct (length_list3 _ Lu) as (u0 & u1 & u2 & ->). unfold fnth in E, H. cbn [nth] in *. subst u0.
        rewrite push_0 in H. exact H.
      - pose proof (partial_unit u Hu N) as H1. pose proof (partial_push u 0 Hu) as H.
        pose proof (sub_combine W HW 1 _ (fnth u 0 - push (fnth u 0) 0) _ H H1) as H2.
        rewrite <- mat_vec_combine in H2 by reflexivity.
        match type of H2 with W (mat_vec m ?l) => replace l with u in H2; [exact H2|] end.
        destruct (length_list3 _ Lu) as (u0 & u1 & u2 & ->). unfold unit_vec, fnth. cbn [nth map seq Nat.eqb vadd]. lists.
    Qed.
  End Partial.

  (** one full round *)
  Section Full.
    Variables (U W : list F -> Prop) (rc : list F).
    Hypothesis HU : subspace 3 U.
    Hypothesis HW : subspace 3 W.
    Hypothesis Hrc : length rc = 3%nat.
    Hypothesis HR : maps_cosets 3 (fun st => spec_full m st rc) U W.

    Lemma full_push : forall u z0 z1 z2, U u -> W (mat_vec m [push (fnth u 0) z0; push (fnth u 1) z1; push (fnth u 2) z2]).
    Proof.
      intros u z0 z1 z2 Hu. pose proof (sub_length _ _ HU _ Hu) as Lu. destruct (length_list3 _ Lu) as (u0 & u1 & u2 & ->).
      destruct (length_list3 _ Hrc) as (c0 & c1 & c2 & Erc).
      pose proof (HR [z0 - c0 + u0; z1 - c1 + u1; z2 - c2 + u2] [z0 - c0; z1 - c1; z2 - c2] eq_refl eq_refl) as H.
      match type of H with ?A -> _ => assert (X : A) end.
      { match goal with |- U ?l => replace l with [u0; u1; u2]; [exact Hu|] end. unfold vminus. lists. }
      specialize (H X). clear X. unfold spec_full in H. rewrite Erc in H. cbn [vadd map] in H.
      pose proof (mat_vec_combine 1 [power5 (z0 - c0 + u0 + c0); power5 (z1 - c1 + u1 + c1); power5 (z2 - c2 + u2 + c2)]
                    (- (1)) [power5 (z0 - c0 + c0); power5 (z1 - c1 + c1); power5 (z2 - c2 + c2)] eq_refl eq_refl) as Q.
      assert (V : forall x y, length x = 3%nat -> length y = 3%nat -> vminus x y = vadd (map (fmul 1) x) (map (fmul (- (1))) y)).
      { clear - PF. intros x y Hx Hy. destruct (length_list3 _ Hx) as (? & ? & ? & ->). destruct (length_list3 _ Hy) as (? & ? & ? & ->). unfold vminus. lists. }
      rewrite V in H by apply mat_vec_length. rewrite <- Q in H.
      match type of H with W (mat_vec m ?l) => replace l with [push u0 z0; push u1 z1; push u2 z2] in H; [exact H|] end.
      unfold push, power5. lists.
    Qed.
    Lemma full_unit : forall u i, (i < 3)%nat -> U u -> fnth u i <> 0 -> W (mat_vec m (unit_vec i)).
    Proof.
      intros u i Hi Hu H0. set (ui := fnth u i) in *. set (k := of_Z 30 * power5 ui).
      assert (Hk : k <> 0). { intros E. apply fmul_eq_0 in E. destruct E as [E|E]; [contradiction|]. exact (power5_nz ui H0 E). }
      pose proof (sub_combine W HW (1 / k) _ (- (1 / k)) _
        (full_push u (if (i =? 0)%nat then ui else 0) (if (i =? 1)%nat then ui else 0) (if (i =? 2)%nat then ui else 0) Hu) (full_push u 0 0 0 Hu)) as H.
      rewrite <- mat_vec_combine in H by reflexivity.
      match type of H with W (mat_vec m ?l) => replace l with (unit_vec i) in H; [exact H|] end.
      assert (K : forall a, 1 / k * a + - (1 / k) * a = 0) by (intros; field; exact Hk).
      assert (K1 : 1 / k * push ui ui + - (1 / k) * push ui 0 = 1).
      { transitivity ((push ui ui - push ui 0) / k); [field; exact Hk|]. rewrite push_varies. fold k. field. exact Hk. }
      destruct i as [|[|[|i]]]; [| | |lia]; unfold unit_vec; cbn [map seq Nat.eqb vadd]; rewrite !K; fold ui; rewrite K1; reflexivity.
    Qed.
  End Full.

  (** ** Two full rounds *)
  Theorem full_spreads : (forall i j, (i < 3)%nat -> (j < 3)%nat -> fnth (mat_vec m (unit_vec j)) i <> 0) ->
    det3 (mat_vec m (unit_vec 0)) (mat_vec m (unit_vec 1)) (mat_vec m (unit_vec 2)) <> 0 ->
    spreads 3 2 (full_rounds_of m).
  Proof.
    intros Hne Hd rcs U V Hn Hrcs HU HV HT x Hx Nx y Hy.
    destruct rcs as [|rc1 [|rc2 [|]]]; try discriminate Hn. inversion Hrcs as [|? ? R1 Hr]. inversion Hr as [|? ? R2 _]. subst.
    destruct HT as (W1 & HW1 & M1 & W2 & HW2 & M2 & HT). apply HT.
    assert (K : exists i, (i < 3)%nat /\ fnth x i <> 0).
    { pose proof (sub_length _ _ HU _ Hx) as Lx. destruct (length_list3 _ Lx) as (x0 & x1 & x2 & ->).
      destruct (feq_dec x0 0) as [->|]; [|now exists 0%nat; split; [lia|]]. destruct (feq_dec x1 0) as [->|]; [|now exists 1%nat; split; [lia|]].
      destruct (feq_dec x2 0) as [->|]; [|now exists 2%nat; split; [lia|]]. now elim Nx. }
    destruct K as (i & Hi & N).
    pose proof (full_unit U W1 rc1 HU HW1 R1 M1 x i Hi Hx N) as E.
    assert (A : forall j, (j < 3)%nat -> W2 (mat_vec m (unit_vec j))).
    { intros j Hj. apply (full_unit W1 W2 rc2 HW1 HW2 R2 M2 _ j Hj E). now apply Hne. }
    apply (span3 W2 _ _ _ HW2 (A 0%nat ltac:(lia)) (A 1%nat ltac:(lia)) (A 2%nat ltac:(lia)) Hd y Hy).
  Qed.

  (** ** Four partial rounds *)
  Definition power (k : nat) (v : list F) : list F := Nat.iter k (mat_vec m) v.
  (** it reaches the S-box in the third round only *)
  Definition late : list F := [0; fnth (nth 0 m []) 2; - fnth (nth 0 m []) 1].

  Theorem partial_spreads : no_quiet_trail 3 3 m -> fnth (nth 0 m []) 0 <> 0 -> fnth (nth 0 m []) 2 <> 0 ->
    det3 (power 1 (unit_vec 0)) (power 2 (unit_vec 0)) (power 3 (unit_vec 0)) <> 0 ->
    det3 (power 1 (unit_vec 0)) (power 2 (unit_vec 0)) (power 4 late) <> 0 ->
    spreads 3 4 (partial_rounds_of m).
  Proof.
    intros HQ H00 H02 D1 D2 rcs U V Hn Hrcs HU HV HT x Hx Nx y Hy.
    destruct rcs as [|rc1 [|rc2 [|rc3 [|rc4 [|]]]]]; try discriminate Hn.
    inversion Hrcs as [|? ? R1 Hr]. inversion Hr as [|? ? R2 Hr']. inversion Hr' as [|? ? R3 Hr'']. inversion Hr'' as [|? ? R4 _]. subst. clear Hr Hr' Hr'' Hrcs Hn.
    destruct HT as (W1 & HW1 & M1 & W2 & HW2 & M2 & W3 & HW3 & M3 & W4 & HW4 & M4 & HT). apply HT. clear HT HV V.
    assert (A0 : fnth (mat_vec m (unit_vec 0)) 0 = fnth (nth 0 m []) 0).
    { destruct Hm as [Hl Hr]. destruct (length_list3 m Hl) as (r0 & r1 & r2 & ->). pose proof (Forall_inv Hr) as L0. cbn beta in L0.
      destruct (length_list3 _ L0) as (? & ? & ? & ->). unfold unit_vec, fnth. cbn. ring. }
    assert (A : fnth (mat_vec m (unit_vec 0)) 0 <> 0) by (now rewrite A0).
    (* the unit vector reaches every later subspace *)
    assert (G2 : W1 (mat_vec m (unit_vec 0)) -> W2 (mat_vec m (unit_vec 0))) by (intros H; exact (partial_unit W1 W2 rc2 HW1 HW2 R2 M2 _ H A)).
    assert (G3 : W2 (mat_vec m (unit_vec 0)) -> W3 (mat_vec m (unit_vec 0))) by (intros H; exact (partial_unit W2 W3 rc3 HW2 HW3 R3 M3 _ H A)).
    assert (G4 : W3 (mat_vec m (unit_vec 0)) -> W4 (mat_vec m (unit_vec 0))) by (intros H; exact (partial_unit W3 W4 rc4 HW3 HW4 R4 M4 _ H A)).
    pose proof (partial_step W2 W3 rc3 HW2 HW3 R3 M3) as S3. pose proof (partial_step W3 W4 rc4 HW3 HW4 R4 M4) as S4.
    assert (E2 : W2 (mat_vec m (unit_vec 0)) -> W4 y).
    { intros H. apply (span3 W4 (power 1 (unit_vec 0)) (power 2 (unit_vec 0)) (power 3 (unit_vec 0)) HW4); [now apply G4, G3| | |exact D1|exact Hy].
      - now apply (S4 (power 1 (unit_vec 0))), G3.
      - now apply (S4 (power 2 (unit_vec 0))), (S3 (power 1 (unit_vec 0))). }
    pose proof (sub_length _ _ HU _ Hx) as Lx.
    destruct (feq_dec (fnth x 0) 0) as [Z0|N0]; [|apply E2, G2; exact (partial_unit U W1 rc1 HU HW1 R1 M1 x Hx N0)].
    pose proof (partial_step U W1 rc1 HU HW1 R1 M1 x Hx) as X1.
    destruct (feq_dec (fnth (power 1 x) 0) 0) as [Z1|N1]; [|apply E2; exact (partial_unit W1 W2 rc2 HW1 HW2 R2 M2 _ X1 N1)].
    pose proof (partial_step W1 W2 rc2 HW1 HW2 R2 M2 _ X1) as X2.
    destruct (feq_dec (fnth (power 2 x) 0) 0) as [Z2|N2].
    { elim Nx. apply HQ; [exact Lx|]. intros i Hi. destruct i as [|[|[|i]]]; [exact Z0|exact Z1|exact Z2|lia]. }
    pose proof (partial_unit W2 W3 rc3 HW2 HW3 R3 M3 _ X2 N2) as E3.
    pose proof (S3 _ X2) as X3. pose proof (S4 _ X3) as X4. change (W4 (power 4 x)) in X4.
    (* x is a multiple of [late] *)
    assert (XL : exists t, x = map (fmul t) late /\ t <> 0).
    { destruct (length_list3 _ Lx) as (x0 & x1 & x2 & ->). unfold fnth in Z0. cbn [nth] in Z0. subst x0.
      unfold late. destruct Hm as [Hl Hr]. clear - Hl Hr Z1 H02 Nx PF. destruct (length_list3 m Hl) as (r0 & r1 & r2 & Em).
      unfold power in Z1. rewrite Em in Hr, Z1, H02 |- *. clear Em Hl.
      pose proof (Forall_inv Hr) as L0. cbn beta in L0. destruct (length_list3 _ L0) as (a & b & c & ->).
      unfold fnth in *. cbn in Z1, H02, Nx |- *.
      exists (x1 / c). assert (X2 : x2 = - (x1 / c * b)).
      { assert (E : b * x1 + c * x2 = 0) by (rewrite <- Z1; ring). transitivity ((b * x1 + c * x2) / c - x1 / c * b); [field; exact H02|]. rewrite E. field. exact H02. }
      split.
      - rewrite X2. apply f_equal2; [ring|]. apply f_equal2; [field; exact H02|]. apply f_equal2; [ring|reflexivity].
      - intros T0. apply Nx. assert (x1 = 0) by (transitivity (x1 / c * c); [field; exact H02|]; rewrite T0; ring). subst x1.
        rewrite X2. cbn [repeat]. apply f_equal2; [reflexivity|]. apply f_equal2; [reflexivity|]. apply f_equal2; [|reflexivity]. field. exact H02. }
    destruct XL as (t & XL & Ht).
    assert (PL : forall k v, length v = 3%nat -> power k (map (fmul t) v) = map (fmul t) (power k v) /\ length (power k v) = 3%nat).
    { clear - Hm PF. intros k v Lv. induction k as [|k [IH IL]]; [now split|]. split; [|apply mat_vec_length].
      change (mat_vec m (power k (map (fmul t) v)) = map (fmul t) (mat_vec m (power k v))). rewrite IH.
      pose proof (mat_vec_combine t (power k v) 0 (power k v) IL IL) as Q.
      assert (V : forall w, length w = 3%nat -> vadd (map (fmul t) w) (map (fmul 0) w) = map (fmul t) w).
      { clear - PF. intros w Hw. destruct (length_list3 _ Hw) as (? & ? & ? & ->). lists. }
      rewrite !V in Q; [exact Q|apply mat_vec_length|exact IL]. }
    apply (span3 W4 (power 1 (unit_vec 0)) (power 2 (unit_vec 0)) (power 4 late) HW4); [now apply G4| | |exact D2|exact Hy].
    - now apply (S4 (power 1 (unit_vec 0))).
    - rewrite XL in X4. rewrite (proj1 (PL 4%nat late eq_refl)) in X4. pose proof (sub_scale _ _ HW4 (1 / t) _ X4) as X5.
      match type of X5 with W4 ?l => replace l with (power 4 late) in X5; [exact X5|] end.
      pose proof (proj2 (PL 4%nat late eq_refl)) as L4. clear - L4 Ht PF. set (w := power 4 late) in *. clearbody w.
      destruct (length_list3 _ L4) as (? & ? & ? & ->). cbn [map]. repeat (apply f_equal2; [field; exact Ht|]). reflexivity.
  Qed.

  (** ** Three partial rounds do not do *)
  Definition line (a : list F) : list F -> Prop := fun x => exists t, x = map (fmul t) a.
  Lemma line_subspace : forall a, length a = 3%nat -> subspace 3 (line a).
  Proof.
    intros a La. destruct (length_list3 _ La) as (a0 & a1 & a2 & ->). split.
    - intros x (t & ->). reflexivity.
    - exists 0. cbn [repeat]. lists.
    - intros x y (t & ->) (t' & ->). exists (t + t'). lists.
    - intros b x (t & ->). exists (b * t). lists.
  Qed.
  (** the images of the vectors whose last two words are on a line *)
  Definition slab (g1 g2 : F) : list F -> Prop :=
    fun x => exists w0 w1 w2, x = mat_vec m [w0; w1; w2] /\ g1 * w1 + g2 * w2 = 0.
  Lemma slab_subspace : forall g1 g2, subspace 3 (slab g1 g2).
  Proof.
    intros g1 g2. split.
    - intros x (w0 & w1 & w2 & -> & _). apply mat_vec_length.
    - exists 0, 0, 0. split; [|ring]. pose proof (mat_vec_combine 0 [0; 0; 0] 0 [0; 0; 0] eq_refl eq_refl) as Q.
      transitivity (vadd (map (fmul 0) (mat_vec m [0; 0; 0])) (map (fmul 0) (mat_vec m [0; 0; 0]))).
      + pose proof (mat_vec_length [0; 0; 0]) as L. destruct (length_list3 _ L) as (? & ? & ? & ->). cbn [repeat]. lists.
      + rewrite <- Q. f_equal. lists.
    - intros x y (w0 & w1 & w2 & -> & E) (v0 & v1 & v2 & -> & E'). exists (w0 + v0), (w1 + v1), (w2 + v2). split.
      + pose proof (mat_vec_combine 1 [w0; w1; w2] 1 [v0; v1; v2] eq_refl eq_refl) as Q.
        match type of Q with mat_vec m ?l = _ => replace l with [w0 + v0; w1 + v1; w2 + v2] in Q by lists end. rewrite Q.
        pose proof (mat_vec_length [w0; w1; w2]) as L. destruct (length_list3 _ L) as (? & ? & ? & ->).
        pose proof (mat_vec_length [v0; v1; v2]) as L'. destruct (length_list3 _ L') as (? & ? & ? & ->). lists.
      + transitivity (g1 * w1 + g2 * w2 + (g1 * v1 + g2 * v2)); [ring|]. rewrite E, E'. ring.
    - intros a x (w0 & w1 & w2 & -> & E). exists (a * w0), (a * w1), (a * w2). split.
      + pose proof (mat_vec_combine a [w0; w1; w2] 0 [w0; w1; w2] eq_refl eq_refl) as Q.
        match type of Q with mat_vec m ?l = _ => replace l with [a * w0; a * w1; a * w2] in Q by lists end. rewrite Q.
        pose proof (mat_vec_length [w0; w1; w2]) as L. destruct (length_list3 _ L) as (? & ? & ? & ->). lists.
      + transitivity (a * (g1 * w1 + g2 * w2)); [ring|]. rewrite E. ring.
  Qed.

  Lemma minus_mat_vec : forall x y, length x = 3%nat -> length y = 3%nat -> vminus (mat_vec m x) (mat_vec m y) = mat_vec m (vminus x y).
  Proof.
    intros x y Hx Hy. pose proof (mat_vec_combine 1 x (- (1)) y Hx Hy) as Q.
    assert (V : forall x y, length x = 3%nat -> length y = 3%nat -> vminus x y = vadd (map (fmul 1) x) (map (fmul (- (1))) y)).
    { clear - PF. intros x y Hx Hy. destruct (length_list3 _ Hx) as (? & ? & ? & ->). destruct (length_list3 _ Hy) as (? & ? & ? & ->). unfold vminus. lists. }
    rewrite V by apply mat_vec_length. rewrite <- Q. now rewrite <- V.
  Qed.
  (** what a partial round makes of a difference that is zero in word 0 or not *)
  Lemma partial_difference : forall rc x y, length rc = 3%nat -> length x = 3%nat -> length y = 3%nat ->
    exists d, vminus (spec_partial m x rc) (spec_partial m y rc) = mat_vec m [d; fnth (vminus x y) 1; fnth (vminus x y) 2]
      /\ (fnth (vminus x y) 0 = 0 -> d = 0).
  Proof.
    intros rc x y Lc Lx Ly. destruct (length_list3 _ Lc) as (c0 & c1 & c2 & ->). destruct (length_list3 _ Lx) as (x0 & x1 & x2 & ->).
    destruct (length_list3 _ Ly) as (y0 & y1 & y2 & ->). unfold spec_partial. cbn [vadd]. rewrite minus_mat_vec by reflexivity.
    exists (power5 (x0 + c0) - power5 (y0 + c0)). unfold vminus, fnth. cbn [vadd map nth]. split.
    - f_equal. lists.
    - intros E. assert (X : x0 = y0) by (transitivity (x0 + - y0 + y0); [ring|]; rewrite E; ring). rewrite X. ring.
  Qed.

  Theorem three_do_not_spread : (forall x y, length x = 3%nat -> length y = 3%nat -> mat_vec m x = mat_vec m y -> x = y) ->
    fnth (nth 0 m []) 2 <> 0 -> forall rcs, length rcs = 3%nat -> Forall (fun rc => length rc = 3%nat) rcs ->
    exists U V x y, subspace 3 U /\ subspace 3 V /\ subspace_trail 3 (partial_rounds_of m rcs) U V
      /\ U x /\ x <> repeat 0 3 /\ length y = 3%nat /\ ~ V y.
  Proof.
    intros Hinj H02 rcs Hn Hrcs.
    destruct rcs as [|rc1 [|rc2 [|rc3 [|]]]]; try discriminate Hn.
    inversion Hrcs as [|? ? R1 Hr]. inversion Hr as [|? ? R2 Hr']. inversion Hr' as [|? ? R3 _]. subst. clear Hr Hr' Hrcs Hn.
    set (q := power 2 late). assert (Lq : length q = 3%nat) by apply mat_vec_length.
    assert (G : exists g1 g2, g1 * fnth q 1 + g2 * fnth q 2 = 0 /\ (g1 <> 0 \/ g2 <> 0)).
    { destruct (feq_dec (fnth q 2) 0) as [E2|N2]; [|exists (fnth q 2), (- fnth q 1); split; [ring|now left]].
      destruct (feq_dec (fnth q 1) 0) as [E1|N1]; [exists 1, 0; split; [rewrite E1; ring|left; exact f_1_neq_0]|].
      exists 0, 1. split; [rewrite E2; ring|right; exact f_1_neq_0]. }
    destruct G as (g1 & g2 & GE & GN).
    assert (L0 : length late = 3%nat) by reflexivity.
    assert (P0 : fnth late 0 = 0) by reflexivity.
    assert (P1 : fnth (power 1 late) 0 = 0).
    { destruct Hm as [Hl Hr]. unfold late, power. destruct (length_list3 m Hl) as (r0 & r1 & r2 & Em). rewrite Em in Hr |- *.
      pose proof (Forall_inv Hr) as A. cbn beta in A. destruct (length_list3 _ A) as (a & b & c & ->). unfold fnth. cbn. ring. }
    assert (STEP : forall a rc, length a = 3%nat -> length rc = 3%nat -> fnth a 0 = 0 ->
              maps_cosets 3 (fun st => spec_partial m st rc) (line a) (line (mat_vec m a))).
    { intros a rc La Lc A0 x y Lx Ly (t & E). destruct (partial_difference rc x y Lc Lx Ly) as (d & E' & D0). rewrite E', E in *.
      destruct (length_list3 _ La) as (a0 & a1 & a2 & ->). unfold fnth in *. cbn [map nth] in *. subst a0. rewrite D0 by ring.
      exists t. pose proof (mat_vec_combine t [0; a1; a2] 0 [0; a1; a2] eq_refl eq_refl) as Q.
      match type of Q with mat_vec m ?l = _ => replace l with [0; t * a1; t * a2] in Q by lists end. rewrite Q.
      pose proof (mat_vec_length [0; a1; a2]) as L. destruct (length_list3 _ L) as (? & ? & ? & ->). lists. }
    assert (LAST : forall rc, length rc = 3%nat -> maps_cosets 3 (fun st => spec_partial m st rc) (line q) (slab g1 g2)).
    { intros rc Lc x y Lx Ly (t & E). destruct (partial_difference rc x y Lc Lx Ly) as (d & E' & _). rewrite E', E in *.
      destruct (length_list3 _ Lq) as (q0 & q1 & q2 & Eq). rewrite Eq in *. unfold fnth in *. cbn [map nth] in *.
      exists d, (t * q1), (t * q2). split; [reflexivity|]. transitivity (t * (g1 * q1 + g2 * q2)); [ring|]. rewrite GE. ring. }
    assert (TR : subspace_trail 3 (partial_rounds_of m [rc1; rc2; rc3]) (line late) (slab g1 g2)).
    { exists (line (power 1 late)). split; [apply line_subspace, mat_vec_length|]. split; [now apply (STEP late)|].
      exists (line q). split; [now apply line_subspace|]. split; [apply (STEP (power 1 late)); [apply mat_vec_length|exact R2|exact P1]|].
      exists (slab g1 g2). split; [apply slab_subspace|]. split; [now apply LAST|exact (fun x H => H)]. }
    exists (line late), (slab g1 g2), late, (mat_vec m (if feqb g1 0 then [0; 0; 1] else [0; 1; 0])).
    split; [now apply line_subspace|]. split; [apply slab_subspace|]. split; [exact TR|].
    split. { exists 1. unfold late. lists. }
    split. { unfold late. intros E. cbn [repeat] in E. injection E as E _. contradiction. }
    split; [apply mat_vec_length|]. intros (v0 & v1 & v2 & E1 & Z1).
    destruct (feqb g1 0) eqn:Eg; apply Hinj in E1; try reflexivity; injection E1 as <- <- <-.
    - apply feqb_eq in Eg. destruct GN as [N|N]; [contradiction|]. apply N. rewrite <- Z1. ring.
    - apply feqb_neq in Eg. apply Eg. rewrite <- Z1. ring.
  Qed.

  (** ** A trail of four rounds that spreads from a line *)
  Lemma longer_trail : forall rc fs (U V : list F -> Prop), subspace_trail 3 fs U V -> subspace 3 V ->
    (forall x, length x = 3%nat -> length (rc x) = 3%nat) -> subspace_trail 3 (fs ++ [rc]) U (fun x => length x = 3%nat).
  Proof.
    assert (A : subspace 3 (fun x : list F => length x = 3%nat)).
    { split; [auto|reflexivity| |].
      - intros x y Hx Hy. destruct (length_list3 _ Hx) as (? & ? & ? & ->). destruct (length_list3 _ Hy) as (? & ? & ? & ->). reflexivity.
      - intros a x Hx. now rewrite map_length. }
    intros rc fs. induction fs as [|f fs IH]; intros U V HT HV Hf.
    - exists (fun x => length x = 3%nat). split; [exact A|]. split; [|exact (fun x H => H)].
      intros x y Lx Ly _. apply Hf in Lx, Ly. destruct (length_list3 _ Lx) as (? & ? & ? & ->). destruct (length_list3 _ Ly) as (? & ? & ? & ->). reflexivity.
    - destruct HT as (W & HW & HM & HT). exists W. split; [exact HW|]. split; [exact HM|]. exact (IH W V HT HV Hf).
  Qed.
End Trails.

(** ** The matrices in use *)
Local Open Scope nat_scope.

Lemma inverse_injective : forall F (FO : FieldOps F) (PF : PrimeField F) T (m mi : list (list F)), square T m -> mat_prod_id T m mi -> mat_prod_id T mi m ->
  forall x y, length x = T -> length y = T -> mat_vec m x = mat_vec m y -> x = y.
Proof.
  intros F FO PF T m mi Sq I1 I2 x y Hx Hy E. destruct (bij_mds T m mi I1 I2) as (_ & J & _). apply J; auto.
  now rewrite !apply_mds_mat_vec by assumption.
Qed.

Definition entries_nz {F} {FO : FieldOps F} (m : list (list F)) : bool :=
  forallb (fun '(i, j) => negb (feqb (fnth (mat_vec m (unit_vec j)) i) fzero)) (list_prod (seq 0 3) (seq 0 3)).
Lemma entries_nz_all : forall F (FO : FieldOps F) (PF : PrimeField F) (m : list (list F)), entries_nz m = true ->
  forall i j, i < 3 -> j < 3 -> fnth (mat_vec m (unit_vec j)) i <> fzero.
Proof.
  intros F FO PF m H i j Hi Hj. unfold entries_nz in H. rewrite forallb_forall in H.
  specialize (H (i, j)). cbn beta iota in H. apply feqb_neq. apply Bool.negb_true_iff. apply H. apply in_prod; apply in_seq; lia.
Qed.

Lemma bn254_30 : of_Z (F := Fr) 30 <> fzero.
Proof. apply feqb_neq. vm_compute. reflexivity. Qed.
Lemma bn254_entries : entries_nz bn256_mds = true.
Proof. vm_compute. reflexivity. Qed.
Lemma bn254_columns : det3 (mat_vec bn256_mds (unit_vec 0)) (mat_vec bn256_mds (unit_vec 1)) (mat_vec bn256_mds (unit_vec 2)) <> fzero.
Proof. apply feqb_neq. vm_compute. reflexivity. Qed.
Theorem bn254_full : spreads 3 2 (full_rounds_of bn256_mds).
Proof. exact (full_spreads bn256_mds bn256_square bn254_30 (entries_nz_all _ _ _ _ bn254_entries) bn254_columns). Qed.
Lemma bn254_corner : fnth (nth 0 bn256_mds []) 0 <> fzero /\ fnth (nth 0 bn256_mds []) 2 <> fzero.
Proof. split; apply feqb_neq; vm_compute; reflexivity. Qed.
Lemma bn254_reach : det3 (power bn256_mds 1 (unit_vec 0)) (power bn256_mds 2 (unit_vec 0)) (power bn256_mds 3 (unit_vec 0)) <> fzero.
Proof. apply feqb_neq. vm_compute. reflexivity. Qed.
Lemma bn254_late : det3 (power bn256_mds 1 (unit_vec 0)) (power bn256_mds 2 (unit_vec 0)) (power bn256_mds 4 (late bn256_mds)) <> fzero.
Proof. apply feqb_neq. vm_compute. reflexivity. Qed.
Theorem bn254_partial : spreads 3 4 (partial_rounds_of bn256_mds).
Proof. exact (partial_spreads bn256_mds bn256_square bn254_30 bn254_trail (proj1 bn254_corner) (proj2 bn254_corner) bn254_reach bn254_late). Qed.
Theorem bn254_three : forall rcs, length rcs = 3 -> Forall (fun rc => length rc = 3) rcs ->
  exists U V x y, subspace 3 U /\ subspace 3 V /\ subspace_trail 3 (partial_rounds_of bn256_mds rcs) U V
    /\ U x /\ x <> repeat fzero 3 /\ length y = 3 /\ ~ V y.
Proof.
  apply three_do_not_spread; [exact bn256_square| |exact (proj2 bn254_corner)].
  destruct bn256_inverse as (_ & I1 & I2). exact (inverse_injective _ _ _ 3 _ _ bn256_square I1 I2).
Qed.
Lemma pallas_30 : of_Z (F := Pallas) 30 <> fzero.
Proof. apply feqb_neq. vm_compute. reflexivity. Qed.
Lemma pallas_entries : entries_nz pasta_mds = true.
Proof. vm_compute. reflexivity. Qed.
Lemma pallas_columns : det3 (mat_vec pasta_mds (unit_vec 0)) (mat_vec pasta_mds (unit_vec 1)) (mat_vec pasta_mds (unit_vec 2)) <> fzero.
Proof. apply feqb_neq. vm_compute. reflexivity. Qed.
Theorem pallas_full : spreads 3 2 (full_rounds_of pasta_mds).
Proof. exact (full_spreads pasta_mds (proj1 pasta_ok) pallas_30 (entries_nz_all _ _ _ _ pallas_entries) pallas_columns). Qed.
Lemma pallas_corner : fnth (nth 0 pasta_mds []) 0 <> fzero /\ fnth (nth 0 pasta_mds []) 2 <> fzero.
Proof. split; apply feqb_neq; vm_compute; reflexivity. Qed.
Lemma pallas_reach : det3 (power pasta_mds 1 (unit_vec 0)) (power pasta_mds 2 (unit_vec 0)) (power pasta_mds 3 (unit_vec 0)) <> fzero.
Proof. apply feqb_neq. vm_compute. reflexivity. Qed.
Lemma pallas_late : det3 (power pasta_mds 1 (unit_vec 0)) (power pasta_mds 2 (unit_vec 0)) (power pasta_mds 4 (late pasta_mds)) <> fzero.
Proof. apply feqb_neq. vm_compute. reflexivity. Qed.
Theorem pallas_partial : spreads 3 4 (partial_rounds_of pasta_mds).
Proof. exact (partial_spreads pasta_mds (proj1 pasta_ok) pallas_30 pallas_trail (proj1 pallas_corner) (proj2 pallas_corner) pallas_reach pallas_late). Qed.
Theorem pallas_three : forall rcs, length rcs = 3 -> Forall (fun rc => length rc = 3) rcs ->
  exists U V x y, subspace 3 U /\ subspace 3 V /\ subspace_trail 3 (partial_rounds_of pasta_mds rcs) U V
    /\ U x /\ x <> repeat fzero 3 /\ length y = 3 /\ ~ V y.
Proof.
  apply three_do_not_spread; [exact (proj1 pasta_ok)| |exact (proj2 pallas_corner)].
  exact (inverse_injective _ _ _ 3 _ _ (proj1 pasta_ok) (proj1 pasta_inverse) (proj2 pasta_inverse)).
Qed.

(** the rounds of the permutation behind the hash API *)
Lemma fold_rounds : forall F (f : list F -> list F -> list F) (g : list F -> list F -> list F) rcs st,
  (forall st rc, f st rc = g rc st) -> fold_left f rcs st = fold_left (fun st r => r st) (map g rcs) st.
Proof. intros F f g rcs. induction rcs as [|rc rcs IH]; intros st H; [reflexivity|]. cbn [fold_left map]. rewrite H. now apply IH. Qed.
Lemma permute_rounds : forall F (FO : FieldOps F) (m : list (list F)) half partial rcs st,
  spec_permute m half partial rcs st
  = fold_left (fun st r => r st) (full_rounds_of m (firstn half rcs) ++ partial_rounds_of m (firstn partial (skipn half rcs))
                                  ++ full_rounds_of m (firstn half (skipn (half + partial) rcs))) st.
Proof.
  intros F FO m half partial rcs st. unfold spec_permute, full_rounds_of, partial_rounds_of. rewrite !fold_left_app.
  rewrite <- !(fold_rounds F (spec_full m) (fun rc st => spec_full m st rc)) by reflexivity.
  now rewrite <- !(fold_rounds F (spec_partial m) (fun rc st => spec_partial m st rc)) by reflexivity.
Qed.
Theorem bn254_rounds_claim : forall short s, cached_hash_spec short bn256_c = Ok s -> forall x, length x = 3 ->
  hash_permute 3 s x
  = fold_left (fun st r => r st)
      (full_rounds_of bn256_mds (firstn 4 bn256_round_constants) ++ partial_rounds_of bn256_mds (firstn 57 (skipn 4 bn256_round_constants))
       ++ full_rounds_of bn256_mds (firstn 4 (skipn 61 bn256_round_constants))) x.
Proof.
  intros short s Hs x Hx. rewrite (proj1 (cached_agrees short bn256_c s bn256_ok Hs x Hx)).
  exact (permute_rounds _ _ bn256_mds 4 57 bn256_round_constants x).
Qed.
Theorem pallas_rounds_claim : forall short s, cached_hash_spec short pasta_constants = Ok s -> forall x, length x = 3 ->
  hash_permute 3 s x
  = fold_left (fun st r => r st)
      (full_rounds_of pasta_mds (firstn 4 pasta_round_constants) ++ partial_rounds_of pasta_mds (firstn 56 (skipn 4 pasta_round_constants))
       ++ full_rounds_of pasta_mds (firstn 4 (skipn 60 pasta_round_constants))) x.
Proof.
  intros short s Hs x Hx. rewrite (proj1 (cached_agrees short pasta_constants s pasta_ok Hs x Hx)).
  exact (permute_rounds _ _ pasta_mds 4 56 pasta_round_constants x).
Qed.

(** ** Instances *)
Lemma ex_subspace : forall rcs, length rcs = 4 -> Forall (fun rc => length rc = 3) rcs ->
  exists U x, subspace 3 U /\ subspace 3 (fun x : list Fr => length x = 3)
    /\ subspace_trail 3 (partial_rounds_of bn256_mds rcs) U (fun x => length x = 3)
    /\ U x /\ x <> repeat fzero 3.
Proof.
  intros rcs Hn Hr. destruct rcs as [|r1 [|r2 [|r3 [|r4 [|]]]]]; try discriminate Hn.
  destruct (bn254_three [r1; r2; r3] eq_refl) as (U & V & x & y & HU & HV & HT & Hx & Nx & _).
  { inversion Hr as [|? ? A1 B1]. inversion B1 as [|? ? A2 B2]. inversion B2 as [|? ? A3 B3]. repeat constructor; assumption. }
  exists U, x. split; [exact HU|]. split; [|split; [|now split]].
  - split; [auto|reflexivity| |].
    + intros a b Ha Hb. destruct (length_list3 _ Ha) as (? & ? & ? & ->). destruct (length_list3 _ Hb) as (? & ? & ? & ->). reflexivity.
    + intros a b Hb. now rewrite map_length.
  - change (partial_rounds_of bn256_mds [r1; r2; r3; r4]) with (partial_rounds_of bn256_mds [r1; r2; r3] ++ [fun st => spec_partial bn256_mds st r4]).
    apply (longer_trail _ _ U V HT HV). intros st _. exact (mat_vec_length bn256_mds bn256_square _).
Qed.
