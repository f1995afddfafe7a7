(** The square root: powers, and the invariant of the loops. *)
From Coq Require Import ZArith Znumtheory NArith List Arith Lia Bool.
From Verif Require Import Field NumTheory Sqrt SqrtUse Bij_proof.
Import ListNotations.
Local Open Scope F_scope.

Section Proofs.
  Context {F : Type} {FO : FieldOps F} {PF : PrimeField F}.
  Add Field Ffield : f_field.

  (** * powers *)
  Lemma fpow_add : forall (x : F) a b, fpow x (a + b) = fpow x a * fpow x b.
  Proof. intros x a b. induction a as [|a IH]; cbn; [ring|]. rewrite IH. ring. Qed.

  Lemma fpow_mul : forall (x : F) a b, fpow x (a * b) = fpow (fpow x a) b.
  Proof.
    intros x a b. induction b as [|b IH]; [now rewrite Nat.mul_0_r|].
    rewrite Nat.mul_succ_r, fpow_add, IH. cbn. ring.
  Qed.

  Lemma fpow_1 : forall a, fpow (1 : F) a = 1.
  Proof. induction a as [|a IH]; cbn; [reflexivity|]. rewrite IH. ring. Qed.

  Lemma fpow_pow2 : forall n (x : F), squared n x = fpow x (2 ^ n).
  Proof.
    induction n as [|n IH]; intros x; [cbn; ring|].
    cbn [squared Nat.pow]. rewrite IH. replace (2 * 2 ^ n)%nat with (2 ^ n + 2 ^ n)%nat by lia. now rewrite fpow_add.
  Qed.

  Definition npow (x : F) (e : N) : F := fpow x (N.to_nat e).

  Lemma npow_double : forall x e, npow x (2 * e) = npow x e * npow x e.
  Proof. intros x e. unfold npow. rewrite <- fpow_add. f_equal. lia. Qed.

  Lemma npow_succ : forall x e, npow x (e + 1) = npow x e * x.
  Proof. intros x e. unfold npow. rewrite N2Nat.inj_add, fpow_add. change (N.to_nat 1) with 1%nat. cbn [fpow]. ring. Qed.

  Lemma bits_low : forall e n, (e mod 2 ^ N.of_nat (S n) = (if N.testbit e (N.of_nat n) then 2 ^ N.of_nat n else 0) + e mod 2 ^ N.of_nat n)%N.
  Proof.
    intros e n. rewrite Nat2N.inj_succ, N.pow_succ_r'.
    assert (H0 : (2 ^ N.of_nat n <> 0)%N) by (apply N.pow_nonzero; discriminate).
    rewrite (N.mul_comm 2), N.mod_mul_r by (auto; discriminate).
    rewrite N.testbit_eqb, N.add_comm. f_equal.
    assert (H : ((e / 2 ^ N.of_nat n) mod 2 < 2)%N) by (apply N.mod_lt; discriminate).
    generalize dependent ((e / 2 ^ N.of_nat n) mod 2)%N. intros q H.
    destruct (N.eqb_spec q 1) as [E|E].
    - rewrite E. apply N.mul_1_r.
    - assert (E0 : q = 0%N) by lia. rewrite E0. apply N.mul_0_r.
  Qed.

  Lemma limb_pow : forall x e n a,
    fold_left (pow_bit x e) (rev (seq 0 n)) (npow x a) = npow x (a * 2 ^ N.of_nat n + e mod 2 ^ N.of_nat n).
  Proof.
    intros x e. induction n as [|n IH]; intros a.
    - cbn [seq rev fold_left N.of_nat]. f_equal. rewrite N.mod_1_r. lia.
    - rewrite seq_S, rev_app_distr. cbn [rev app fold_left Nat.add].
      replace (pow_bit x e (npow x a) n) with (npow x (2 * a + if N.testbit e (N.of_nat n) then 1 else 0)).
      2:{ unfold pow_bit. cbv zeta. destruct (N.testbit e (N.of_nat n)).
          - rewrite npow_succ. now rewrite npow_double.
          - rewrite N.add_0_r. now rewrite npow_double. }
      rewrite IH, bits_low. f_equal. rewrite Nat2N.inj_succ, N.pow_succ_r'.
      destruct (N.testbit e (N.of_nat n)); lia.
  Qed.

  Lemma pow_vartime_spec : forall x l, Forall (fun e => (e < 2 ^ 64)%N) l -> pow_vartime x l = npow x (limbs_value l).
  Proof.
    intros x l H. unfold pow_vartime.
    induction H as [|e l He Hl IH]; [reflexivity|].
    cbn [rev]. rewrite fold_left_app, IH. cbn [fold_left limbs_value].
    rewrite limb_pow. f_equal. change (N.of_nat 64) with 64%N. rewrite N.mod_small by exact He. lia.
  Qed.

  Lemma fermat_field : forall y : F, y <> 0 -> npow y (Z.to_N (modulus (F := F) - 1)) = 1.
  Proof.
    intros y Hy. pose proof (modulus_gt_1 (F := F)) as Hp. unfold npow.
    rewrite <- (of_to_Z y), <- of_Z_pow, N_nat_Z, Z2N.id by lia.
    rewrite <- of_Z_mod, fermat; [apply of_Z_1|apply modulus_prime|].
    intros H. apply of_Z_eq_0 in H. rewrite of_to_Z in H. contradiction.
  Qed.

  (** * repeated squaring *)
  Lemma squared_add : forall a b (x : F), squared (a + b) x = squared a (squared b x).
  Proof. induction a as [|a IH]; intros b x; [reflexivity|]. cbn. now rewrite IH. Qed.

  Lemma squared_mul : forall a (x y : F), squared a (x * y) = squared a x * squared a y.
  Proof. induction a as [|a IH]; intros x y; [reflexivity|]. cbn. rewrite IH. ring. Qed.

  Lemma squared_1 : forall a, squared a (1 : F) = 1.
  Proof. induction a as [|a IH]; [reflexivity|]. cbn. rewrite IH. ring. Qed.

  Lemma squared_sq : forall a (x : F), squared a x * squared a x = squared a (x * x).
  Proof. intros. now rewrite squared_mul. Qed.

  Lemma unit_sign : forall x : F, x * x = 1 -> x <> 1 -> x = - (1).
  Proof.
    intros x H Hn. assert (E : (x - 1) * (x + 1) = 0) by (replace ((x - 1) * (x + 1)) with (x * x - 1) by ring; rewrite H; ring).
    apply fmul_eq_0 in E. destruct E as [E|E].
    - apply (proj1 (fsub_eq_0 _ _)) in E. contradiction.
    - apply (fadd_cancel_r _ _ 1). rewrite E. ring.
  Qed.

  Lemma least_one : forall n (b : F), squared n b = 1 -> exists m, (m <= n)%nat /\ forall j, squared j b = 1 <-> (m <= j)%nat.
  Proof.
    induction n as [|n IH]; intros b H.
    - exists 0%nat. split; [lia|]. intros j. split; [lia|]. intros _. cbn in H. rewrite H. apply squared_1.
    - destruct (feq_dec (squared n b) 1) as [E|E].
      + destruct (IH b E) as (m & Hm & Hj). exists m. split; [lia|assumption].
      + exists (S n). split; [lia|]. intros j. split.
        * intros Hj. destruct (le_lt_dec (S n) j) as [|Hl]; [assumption|]. exfalso. apply E.
          replace n with ((n - j) + j)%nat by lia. rewrite squared_add, Hj. apply squared_1.
        * intros Hj. replace j with ((j - S n) + S n)%nat by lia. rewrite squared_add, H. apply squared_1.
  Qed.

  (** * the inner loop: [m] is the exponent of the order of [b] *)
  Lemma inner_loop : forall (b z : F) m v, (forall j, squared j b = 1 <-> (m <= j)%nat) -> (1 <= v)%nat ->
    forall n, exists jl z',
      fold_left (inner_step v) (seq 2 n) (1%nat, b * b, true, z)
        = (Nat.min (S n) (Nat.max m 1), squared (Nat.min (S n) (Nat.max m 1)) b, jl, z')
      /\ (v = 1%nat -> exists c, z' = squared c z)
      /\ ((2 <= v)%nat -> jl = negb (Nat.leb v (S n)) /\ z' = squared (Nat.min (S n) (v - 1) - Nat.max m 1) z).
  Proof.
    intros b z m v Hm Hv. induction n as [|n IH].
    - exists true, z. replace (Nat.min 1 (Nat.max m 1)) with 1%nat by lia. cbn [seq fold_left squared].
      split; [reflexivity|]. split; [intros _; now exists 0%nat|].
      intros H2. split; [destruct v as [|[|v]]; [lia|lia|reflexivity]|].
      replace (Nat.min 1 (v - 1) - Nat.max m 1)%nat with 0%nat by lia. reflexivity.
    - destruct IH as (jl & z' & E & H1 & H2). rewrite seq_S, fold_left_app, E. cbn [fold_left Nat.add].
      unfold inner_step. destruct (feqb (squared (Nat.min (S n) (Nat.max m 1)) b) 1) eqn:Et.
      + apply feqb_eq in Et. rewrite Et. apply Hm in Et. cbn [select].
        exists (jl && negb (Nat.eqb (S (S n)) v)), (select z' (z' * z') (jl && negb (Nat.eqb (S (S n)) v))).
        replace (Nat.min (S (S n)) (Nat.max m 1)) with (Nat.min (S n) (Nat.max m 1)) by lia.
        split. { do 3 f_equal. symmetry. apply Hm. lia. }
        split.
        { intros Hv1. destruct (H1 Hv1) as (c & Ec). destruct (jl && negb (Nat.eqb (S (S n)) v)); cbn [select].
          - exists (S c). cbn. now rewrite Ec.
          - exists c. assumption. }
        intros Hv2. destruct (H2 Hv2) as (Ej & Ez). subst jl.
        destruct (Nat.leb_spec v (S n)) as [L|L]; cbn [negb andb].
        * split; [symmetry; apply negb_false_iff, Nat.leb_le; lia|]. cbn [select]. rewrite Ez. f_equal. lia.
        * destruct (Nat.eqb_spec (S (S n)) v) as [L2|L2]; cbn [negb select].
          -- split; [symmetry; apply negb_false_iff, Nat.leb_le; lia|]. rewrite Ez. f_equal. lia.
          -- split; [symmetry; apply negb_true_iff, Nat.leb_gt; lia|].
             replace (Nat.min (S (S n)) (v - 1) - Nat.max m 1)%nat with (S (Nat.min (S n) (v - 1) - Nat.max m 1)) by lia.
             cbn [squared]. now rewrite Ez.
      + apply feqb_neq in Et. assert (Hlt : (S n < m)%nat).
        { destruct (le_lt_dec m (S n)) as [L|L]; [|assumption]. exfalso. apply Et. apply Hm. lia. }
        cbn [select].
        replace (Nat.min (S n) (Nat.max m 1)) with (S n) by lia. replace (Nat.min (S (S n)) (Nat.max m 1)) with (S (S n)) by lia.
        exists (jl && negb (Nat.eqb (S (S n)) v)), z'. split.
        { f_equal. destruct (jl && negb (Nat.eqb (S (S n)) v)); reflexivity. }
        split; [assumption|].
        intros Hv2. destruct (H2 Hv2) as (Ej & Ez). subst jl. split.
        * destruct (Nat.leb_spec v (S n)) as [L|L]; cbn [negb andb].
          -- symmetry. apply negb_false_iff, Nat.leb_le; lia.
          -- destruct (Nat.eqb_spec (S (S n)) v) as [L2|L2]; cbn [negb]; symmetry.
             ++ apply negb_false_iff, Nat.leb_le; lia.
             ++ apply negb_true_iff, Nat.leb_gt; lia.
        * rewrite Ez. f_equal. lia.
  Qed.

  (** * the outer loop *)
  Definition searching (f : F) (max_v : nat) (st : outer_vars (F := F)) : Prop :=
    let '(v, x, b, z) := st in
    (1 <= v <= max_v)%nat /\ squared (v - 1) z = - (1) /\ squared (v - 1) b = 1 /\ x * x = b * f.

  Definition found (f : F) (st : outer_vars (F := F)) : Prop :=
    let '(v, x, b, z) := st in v = 1%nat /\ z * z = 1 /\ b * b = 1 /\ x * x = f.

  Lemma found_step : forall f st max_v, found f st -> found f (outer_step st max_v).
  Proof.
    intros f [[[v x] b] z] max_v (Hv & Hz & Hb & Hx). subst v. unfold outer_step.
    destruct (least_one 1 b) as (m & Hm1 & Hm); [exact Hb|].
    destruct (inner_loop b z m 1 Hm (le_n _) (max_v - 2)) as (jl & z' & E & H1 & _). rewrite E.
    destruct (H1 eq_refl) as (c & Ec).
    assert (Hz' : z' * z' = 1) by (rewrite Ec, squared_sq, Hz; apply squared_1).
    unfold found. split; [lia|]. rewrite Hz'. split; [ring|]. split.
    - transitivity (b * b); [ring|assumption].
    - destruct (feqb b 1); cbn [select]; [assumption|].
      transitivity ((x * x) * (z' * z')); [ring|]. rewrite Hz', Hx. ring.
  Qed.

  Lemma searching_step : forall f st max_v, searching f (S max_v) st ->
    searching f max_v (outer_step st (S max_v)) \/ found f (outer_step st (S max_v)).
  Proof.
    intros f [[[v x] b] z] max_v (Hv & Hz & Hb & Hx). unfold outer_step.
    destruct (least_one (v - 1) b Hb) as (m & Hmv & Hm).
    destruct (inner_loop b z m v Hm (proj1 Hv) (S max_v - 2)) as (jl & z' & E & H1 & H2). rewrite E. clear E.
    destruct (Nat.eq_dec v 1) as [V|V].
    - subst v. right. cbn in Hz, Hb. destruct (H1 eq_refl) as (c & Ec).
      assert (Hz' : (z' * z') * (z' * z') = 1).
      { rewrite Ec, !squared_sq. rewrite Hz. replace (- (1) * - (1) * (- (1) * - (1)) : F) with (1 : F) by ring. apply squared_1. }
      unfold found. split; [lia|]. split; [assumption|]. split.
      + rewrite Hb. transitivity ((z' * z') * (z' * z')); [ring|assumption].
      + rewrite (proj2 (feqb_eq b 1) Hb). cbn [select]. rewrite Hx, Hb. ring.
    - assert (Hv2 : (2 <= v)%nat) by lia. destruct (H2 Hv2) as (_ & Ez). clear H1 H2.
      destruct (feq_dec b 1) as [B|B].
      + right. assert (m = 0)%nat by (assert (m <= 0)%nat by (now apply Hm); lia). subst m.
        replace (Nat.min (S (S max_v - 2)) (v - 1) - Nat.max 0 1)%nat with (v - 2)%nat in Ez by lia.
        assert (Hz' : z' * z' = - (1)).
        { rewrite Ez. rewrite <- Hz. replace (v - 1)%nat with (S (v - 2)) by lia. reflexivity. }
        unfold found. rewrite Hz'. split; [lia|]. split; [ring|]. rewrite B. split; [ring|].
        rewrite feqb_refl. cbn [select]. rewrite Hx, B. ring.
      + left. assert (Hm1 : (1 <= m)%nat).
        { destruct m; [|lia]. exfalso. apply B. now apply (proj2 (Hm 0%nat)). }
        replace (Nat.min (S (S max_v - 2)) (v - 1) - Nat.max m 1)%nat with (v - 1 - m)%nat in Ez by lia.
        assert (Ez2 : z' * z' = squared (v - m) z).
        { rewrite Ez. replace (v - m)%nat with (S (v - 1 - m)) by lia. reflexivity. }
        assert (Hs : squared (m - 1) (z' * z') = - (1)).
        { rewrite Ez2, <- squared_add, <- Hz. f_equal. lia. }
        replace (Nat.min (S (S max_v - 2)) (Nat.max m 1)) with m by lia.
        unfold searching. split; [lia|]. split; [assumption|]. split.
        * rewrite squared_mul, Hs.
          assert (Hbm : squared (m - 1) b = - (1)).
          { apply unit_sign.
            - change (squared (S (m - 1)) b = 1). apply Hm. lia.
            - intros K. apply Hm in K. lia. }
          rewrite Hbm. ring.
        * rewrite (proj2 (feqb_neq b 1) B). cbn [select].
          transitivity ((x * x) * (z' * z')); [ring|]. rewrite Hx. ring.
  Qed.

  Lemma outer_loop : forall f n st, searching f n st \/ found f st -> (1 <= n)%nat \/ found f st ->
    found f (fold_left outer_step (rev (seq 1 n)) st).
  Proof.
    intros f. induction n as [|n IH]; intros st H Hn.
    - destruct Hn as [Hn|Hn]; [lia|assumption].
    - rewrite seq_S, rev_app_distr. cbn [rev app fold_left Nat.add].
      assert (H' : searching f n (outer_step st (S n)) \/ found f (outer_step st (S n))).
      { destruct H as [H|H]; [now apply searching_step|right; now apply found_step]. }
      apply IH; [assumption|]. destruct H' as [H'|H']; [|now right]. left.
      destruct (outer_step st (S n)) as [[[v x] b] z]. destruct H' as (Hv & _). lia.
  Qed.

  Lemma zero_loop : forall l v b z, exists v' b' z', fold_left outer_step l (v, 0 : F, b, z) = (v', 0, b', z').
  Proof.
    induction l as [|a l IH]; intros v b z; [cbn; eauto|].
    cbn [fold_left]. unfold outer_step at 2.
    destruct (fold_left (inner_step v) (seq 2 (a - 2)) (1%nat, b * b, true, z)) as [[[k t] jl] z'].
    replace (select (0 * z') (0 : F) (feqb b 1)) with (0 : F) by (destruct (feqb b 1); cbn; ring). apply IH.
  Qed.

  (** * the square root *)
  Lemma sqrt_sound : forall s root (f : F) tm1d2 x, sqrt_tonelli_shanks s root f tm1d2 = Some x -> x * x = f.
  Proof.
    intros s root f l x. unfold sqrt_tonelli_shanks.
    destruct (fold_left outer_step _ _) as [[[v x'] b] z]. destruct (feqb (x' * x') f) eqn:E; [|discriminate].
    intros H. injection H as <-. now apply feqb_eq.
  Qed.

  Lemma unit_order : forall s e (y : F), (modulus (F := F) - 1 = 2 ^ Z.of_nat s * (2 * Z.of_N e + 1))%Z -> y <> 0 ->
    squared s (npow y (2 * e + 1)) = 1.
  Proof.
    intros s e y Hp Y. rewrite <- (fermat_field y Y), Hp, fpow_pow2. unfold npow. rewrite <- fpow_mul. f_equal.
    rewrite Z2N.inj_mul, N2Nat.inj_mul by lia. rewrite Nat.mul_comm. f_equal.
    - apply Nat2Z.inj. rewrite Nat2Z.inj_pow, N_nat_Z, Z2N.id; [reflexivity|]. apply Z.pow_nonneg. lia.
    - lia.
  Qed.

  Lemma sqrt_finds : forall s root (y : F) tm1d2, sqrt_parameters s root tm1d2 ->
    exists x, sqrt_tonelli_shanks s root (y * y) tm1d2 = Some x.
  Proof.
    intros s root y l (Hl & Hp & Hr1 & Hr). unfold sqrt_tonelli_shanks. cbv zeta.
    rewrite (pow_vartime_spec _ _ Hl). set (e := limbs_value l) in *. clearbody e.
    set (w := npow (y * y) e).
    destruct (feq_dec y 0) as [Y|Y].
    { subst y. replace (w * (0 * 0)) with (0 : F) by ring.
      destruct (zero_loop (rev (seq 1 s)) s (0 * w) root) as (v' & b' & z' & E). rewrite E.
      rewrite feqb_refl. eauto. }
    assert (Hb : w * (y * y) * w = npow y (2 * (2 * e + 1))).
    { rewrite (npow_double y (2 * e + 1)), (npow_succ y (2 * e)), (npow_double y e). unfold w.
      replace (npow (y * y) e) with (npow y e * npow y e); [ring|].
      unfold npow. rewrite <- fpow_add. replace (N.to_nat e + N.to_nat e)%nat with (2 * N.to_nat e)%nat by lia.
      rewrite fpow_mul. f_equal. cbn. ring. }
    assert (Hx : w * (y * y) * (w * (y * y)) = w * (y * y) * w * (y * y)) by ring.
    assert (Hone := unit_order s e y Hp Y).
    destruct s as [|s].
    - cbn [seq rev fold_left]. assert (E : w * (y * y) * (w * (y * y)) = y * y).
      { rewrite Hx, Hb, npow_double. cbn [squared] in Hone. rewrite Hone. ring. }
      rewrite E, feqb_refl. eauto.
    - assert (Hsearch : searching (y * y) (S s) (S s, w * (y * y), w * (y * y) * w, root)).
      { unfold searching. split; [lia|]. replace (S s - 1)%nat with s by lia. split.
        - apply unit_sign; [exact Hr1|apply Hr; lia].
        - split; [|exact Hx]. rewrite Hb, npow_double, squared_mul. exact Hone. }
      assert (Hf := outer_loop (y * y) (S s) _ (or_introl Hsearch) (or_introl (le_n_S _ _ (Nat.le_0_l s)))).
      destruct (fold_left outer_step _ _) as [[[v x'] b] z]. destruct Hf as (_ & _ & _ & E).
      rewrite E, feqb_refl. eauto.
  Qed.

  (** the root of unity is not a square, so that the answer None occurs *)
  Lemma root_nonsquare : forall s root tm1d2 (y : F), sqrt_parameters (S s) root tm1d2 -> y * y <> root.
  Proof.
    intros s root l y (_ & Hp & Hr1 & Hr) E. set (e := limbs_value l) in *. clearbody e.
    assert (Y : y <> 0).
    { intros ->. apply f_1_neq_0. rewrite <- Hr1, <- E. replace (0 * 0 : F) with (0 : F) by ring.
      clear - PF. induction s as [|s IH]; cbn [squared] in *; [ring|]. rewrite IH. ring. }
    assert (Hone := unit_order (S s) e y Hp Y).
    assert (Hm : squared s root = - (1)) by (apply unit_sign; [exact Hr1|apply Hr; lia]).
    assert (H2 : squared s (npow root (2 * e + 1)) = 1).
    { rewrite <- E. replace (npow (y * y) (2 * e + 1)) with (npow y (2 * e + 1) * npow y (2 * e + 1)).
      - rewrite squared_mul. exact Hone.
      - unfold npow. generalize (N.to_nat (2 * e + 1)). intros n. clear - PF.
        induction n as [|n IH]; cbn [fpow]; [ring|]. rewrite <- IH. ring. }
    apply (Hr s); [lia|]. rewrite <- H2, !fpow_pow2. unfold npow. rewrite <- fpow_mul, Nat.mul_comm, fpow_mul, <- fpow_pow2, Hm.
    replace (N.to_nat (2 * e + 1)) with (1 + 2 * N.to_nat e)%nat by lia.
    rewrite fpow_add, fpow_mul. replace (fpow (- (1)) 2) with (1 : F) by (cbn [fpow]; ring).
    rewrite fpow_1. cbn [fpow]. ring.
  Qed.
End Proofs.
