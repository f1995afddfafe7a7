(** Inverses of matrices: the Cauchy matrix of any size and the 3x3 cofactor formula. *)
From Coq Require Import ZArith List Arith Lia Bool setoid_ring.Field.
From Verif Require Import Field Rust ListAux Primitives Grain Mds Bn256 SpecHash Perm_proof BigSum.
Import ListNotations.
Local Open Scope F_scope.

Section Poly.
  Context {F : Type} {FO : FieldOps F} {PF : PrimeField F}.
  Add Field Ffield : f_field.

  (** polynomials by their coefficients, constant first *)
  Fixpoint peval (c : list F) (x : F) : F :=
    match c with [] => 0 | a :: c' => a + x * peval c' x end.

  Definition is_poly (n : nat) (f : F -> F) : Prop :=
    exists c, (length c <= n)%nat /\ forall x, f x = peval c x.

  Lemma is_poly_weaken : forall n n' f, (n <= n')%nat -> is_poly n f -> is_poly n' f.
  Proof. intros n n' f H (c & Hc & E). exists c. split; [lia|assumption]. Qed.

  Lemma is_poly_const : forall a n, is_poly (S n) (fun _ => a).
  Proof. intros a n. exists [a]. split; [cbn; lia|]. intros x; cbn. ring. Qed.

  Fixpoint padd (a b : list F) : list F :=
    match a, b with
    | [], _ => b
    | _, [] => a
    | x :: a', y :: b' => (x + y) :: padd a' b'
    end.

  Lemma padd_eval : forall a b x, peval (padd a b) x = peval a x + peval b x.
  Proof.
    induction a as [|u a IH]; intros [|v b] x; cbn; try ring. rewrite IH. ring.
  Qed.

  Lemma padd_length : forall a b, length (padd a b) = Nat.max (length a) (length b).
  Proof. induction a as [|u a IH]; intros [|v b]; cbn; auto. Qed.

  Lemma is_poly_add : forall n f g, is_poly n f -> is_poly n g -> is_poly n (fun x => f x + g x).
  Proof.
    intros n f g (a & Ha & Ea) (b & Hb & Eb). exists (padd a b).
    rewrite padd_length. split; [lia|]. intros x. now rewrite padd_eval, Ea, Eb.
  Qed.

  Lemma is_poly_scale : forall n k f, is_poly n f -> is_poly n (fun x => k * f x).
  Proof.
    intros n k f (a & Ha & Ea). exists (map (fmul k) a). rewrite map_length. split; [assumption|].
    intros x. rewrite Ea. clear Ea Ha. induction a as [|u a IH]; cbn; [ring|]. rewrite <- IH. ring.
  Qed.

  Lemma is_poly_ext : forall n f g, (forall x, f x = g x) -> is_poly n f -> is_poly n g.
  Proof. intros n f g E (a & Ha & Ea). exists a. split; [assumption|]. intros; now rewrite <- E. Qed.

  Lemma is_poly_linear : forall n a f, is_poly n f -> is_poly (S n) (fun x => (x - a) * f x).
  Proof.
    intros n a f Hf.
    apply (is_poly_ext (S n) (fun x => (x * f x) + (- a) * f x)); [intros; ring|].
    apply is_poly_add.
    - destruct Hf as (c & Hc & Ec). exists (0 :: c). split; [cbn; lia|].
      intros x. cbn. rewrite Ec. ring.
    - apply is_poly_scale. apply is_poly_weaken with n; [lia|assumption].
  Qed.

  Lemma is_poly_sum : forall n k (f : nat -> F -> F), (forall i, (i < k)%nat -> is_poly n (f i)) ->
    is_poly n (fun x => sum_n k (fun i => f i x)).
  Proof.
    intros n k f H. induction k as [|k IH]; cbn.
    - exists []. split; [cbn; lia|reflexivity].
    - apply is_poly_add; [apply IH; intros; apply H; lia|apply H; lia].
  Qed.

  (** synthetic division *)
  Lemma poly_divide : forall c a, exists q, (length q <= pred (length c))%nat /\
    forall x, peval c x = (x - a) * peval q x + peval c a.
  Proof.
    induction c as [|u c IH]; intros a.
    - exists []. split; [cbn; lia|]. intros; cbn; ring.
    - destruct (IH a) as (q & Hq & Eq). cbn [length pred].
      destruct c as [|v c].
      + exists []. split; [cbn; lia|]. intros; cbn; ring.
      + exists (peval (v :: c) a :: q). split; [cbn in *; lia|].
        intros x. cbn [peval] in *. rewrite Eq. ring.
  Qed.

  Lemma poly_roots : forall n c roots, (length c <= n)%nat -> length roots = n -> NoDup roots ->
    (forall r, In r roots -> peval c r = 0) -> forall x, peval c x = 0.
  Proof.
    induction n as [|n IH]; intros c roots Hc Hr Hnd Hz x.
    - destruct c; [reflexivity|cbn in Hc; lia].
    - destruct roots as [|r roots]; [discriminate|].
      inversion Hnd as [|? ? Hnin Hnd']; subst.
      destruct (poly_divide c r) as (q & Hq & Eq).
      rewrite (Hz r) in Eq by (now left).
      rewrite Eq. rewrite (IH q roots).
      + ring.
      + lia.
      + cbn in Hr; lia.
      + assumption.
      + intros r' Hin. specialize (Hz r' (or_intror Hin)). rewrite Eq in Hz.
        assert (E : (r' - r) * peval q r' = 0) by (rewrite <- Hz; ring).
        apply fmul_eq_0 in E. destruct E as [E|E]; [|assumption].
        apply (proj1 (fsub_eq_0 r' r)) in E. subst. contradiction.
  Qed.

  Lemma is_poly_unique : forall n f g roots, is_poly n f -> is_poly n g -> length roots = n -> NoDup roots ->
    (forall r, In r roots -> f r = g r) -> forall x, f x = g x.
  Proof.
    intros n f g roots Hf Hg Hr Hnd Hz x.
    destruct (is_poly_add n f (fun x => (- (1)) * g x) Hf) as (c & Hc & Ec);
      [now apply is_poly_scale|].
    apply fsub_eq_0. transitivity (f x + - (1) * g x); [ring|]. rewrite Ec.
    apply (poly_roots n c roots); auto. intros r Hin. rewrite <- Ec, Hz by assumption. ring.
  Qed.
End Poly.

Section Lagrange.
  Context {F : Type} {FO : FieldOps F} {PF : PrimeField F}.
  Add Field Ffield2 : f_field.

  Variable T : nat.
  Variable xs : list F.
  Hypothesis Hlen : length xs = T.
  Hypothesis Hnd : NoDup xs.

  Let X (i : nat) : F := fnth xs i.

  Lemma X_inj : forall i j, (i < T)%nat -> (j < T)%nat -> X i = X j -> i = j.
  Proof.
    intros i j Hi Hj E. apply (proj1 (NoDup_nth xs 0) Hnd); auto; lia.
  Qed.

  Lemma X_diff : forall i j, (i < T)%nat -> (j < T)%nat -> i <> j -> X i - X j <> 0.
  Proof.
    intros i j Hi Hj Hij E. apply Hij. apply X_inj; auto. now apply fsub_eq_0.
  Qed.

  (** product of the factors with indices in L *)
  Definition lagL (L : list nat) (j : nat) (x : F) : F :=
    fprod (map (fun m => (x - X m) * finv (X j - X m)) L).

  Definition lag (j : nat) (x : F) : F :=
    lagL (filter (fun m => negb (m =? j)%nat) (seq 0 T)) j x.

  Lemma fprod_app : forall l1 l2 : list F, fprod (l1 ++ l2) = fprod l1 * fprod l2.
  Proof. induction l1 as [|a l1 IH]; intros l2; cbn; [ring|]. rewrite IH. ring. Qed.

  Lemma lagL_poly : forall L j, is_poly (S (length L)) (lagL L j).
  Proof.
    induction L as [|m L IH]; intros j; unfold lagL in *; cbn.
    - apply is_poly_const.
    - apply (is_poly_ext _ (fun x => (x - X m) * (finv (X j - X m) *
        fprod (map (fun m0 => (x - X m0) * finv (X j - X m0)) L)))); [intros; ring|].
      apply is_poly_linear. apply is_poly_scale. apply IH.
  Qed.

  Lemma filter_neq_split : forall j L, NoDup L -> In j L ->
    exists L1 L2, L = L1 ++ j :: L2 /\ filter (fun m => negb (m =? j)%nat) L = L1 ++ L2.
  Proof.
    intros j L HL Hin. apply in_split in Hin. destruct Hin as (L1 & L2 & ->).
    exists L1, L2. split; [reflexivity|].
    apply NoDup_remove_2 in HL.
    rewrite filter_app. cbn. rewrite Nat.eqb_refl. cbn.
    assert (E : forall l, ~ In j l -> filter (fun m => negb (m =? j)%nat) l = l).
    { induction l as [|a l IH]; intros H; cbn; [reflexivity|].
      destruct (a =? j)%nat eqn:Ea; [apply Nat.eqb_eq in Ea; subst; exfalso; apply H; now left|].
      cbn. f_equal. apply IH. intros Hx; apply H; now right. }
    rewrite in_app_iff in HL. rewrite !E; tauto.
  Qed.

  Lemma others_facts : forall j, (j < T)%nat ->
    let L := filter (fun m => negb (m =? j)%nat) (seq 0 T) in
    S (length L) = T /\ NoDup L /\ (forall m, In m L <-> (m < T)%nat /\ m <> j).
  Proof.
    intros j Hj L. subst L.
    assert (Hin : In j (seq 0 T)) by (apply in_seq; lia).
    destruct (filter_neq_split j (seq 0 T) (seq_NoDup _ _) Hin) as (L1 & L2 & E1 & E2).
    split; [|split].
    - rewrite E2. assert (H : length (seq 0 T) = T) by apply seq_length.
      rewrite E1 in H. rewrite app_length in *. cbn in H. lia.
    - apply NoDup_filter, seq_NoDup.
    - intros m. rewrite filter_In, in_seq. split.
      + intros [H1 H2]. apply negb_true_iff, Nat.eqb_neq in H2. lia.
      + intros [H1 H2]. split; [lia|]. apply negb_true_iff, Nat.eqb_neq. assumption.
  Qed.

  Lemma lag_poly : forall j, (j < T)%nat -> is_poly T (lag j).
  Proof.
    intros j Hj. unfold lag. destruct (others_facts j Hj) as (H & _).
    apply is_poly_weaken with (2 := lagL_poly _ j). apply Nat.eq_le_incl. exact H.
  Qed.

  Lemma lagL_self : forall L j, (j < T)%nat -> (forall m, In m L -> (m < T)%nat /\ m <> j) ->
    lagL L j (X j) = 1.
  Proof.
    intros L j Hj. induction L as [|m L IH]; intros H; unfold lagL in *; cbn; [reflexivity|].
    rewrite IH by (intros; apply H; now right).
    destruct (H m (or_introl eq_refl)) as [Hm Hmj].
    rewrite finv_r by (apply X_diff; auto). ring.
  Qed.

  Lemma lag_self : forall j, (j < T)%nat -> lag j (X j) = 1.
  Proof.
    intros j Hj. unfold lag. apply lagL_self; [assumption|].
    intros m. apply (others_facts j Hj).
  Qed.

  (** factoring out the root at another node *)
  Lemma lag_factor : forall i j, (i < T)%nat -> (j < T)%nat -> i <> j ->
    exists Q, is_poly (pred T) Q /\ forall x, lag j x = (x - X i) * Q x.
  Proof.
    intros i j Hi Hj Hij. destruct (others_facts j Hj) as (H1 & H2 & H3).
    unfold lag. set (L := filter _ _) in *.
    assert (Hin : In i L) by (apply H3; auto).
    apply in_split in Hin. destruct Hin as (L1 & L2 & EL).
    exists (fun x => finv (X j - X i) * lagL (L1 ++ L2) j x). split.
    - apply is_poly_scale. apply is_poly_weaken with (S (length (L1 ++ L2))); [|apply lagL_poly].
      rewrite EL in H1. rewrite app_length in *. cbn in H1. lia.
    - intros x. rewrite EL. unfold lagL. rewrite !map_app, !fprod_app. cbn. ring.
  Qed.

  Lemma lag_other : forall i j, (i < T)%nat -> (j < T)%nat -> i <> j -> lag j (X i) = 0.
  Proof.
    intros i j Hi Hj Hij. destruct (lag_factor i j Hi Hj Hij) as (Q & _ & E).
    rewrite E. ring.
  Qed.

  (** Lagrange interpolation *)
  Theorem interpolation : forall P, is_poly T P ->
    forall x, sum_n T (fun k => P (X k) * lag k x) = P x.
  Proof.
    intros P HP. apply (is_poly_unique T _ P xs); auto.
    - apply (is_poly_sum T T (fun k x => P (X k) * lag k x)).
      intros i Hi. apply is_poly_scale. now apply lag_poly.
    - intros r Hr. apply In_nth with (d := 0) in Hr. destruct Hr as (n & Hn & <-).
      change (nth n xs 0) with (X n). rewrite Hlen in Hn.
      rewrite (sum_n_ext T _ (fun k => (if (n =? k)%nat then 1 else 0) * P (X k))).
      + exact (sum_n_delta T n (fun k => P (X k)) Hn).
      + intros k Hk. destruct (n =? k)%nat eqn:E.
        * apply Nat.eqb_eq in E. subst. rewrite lag_self by assumption. ring.
        * apply Nat.eqb_neq in E. rewrite lag_other by auto. ring.
  Qed.

  (** the code computes [lag] without panicking *)
  Lemma lagrange_ok : forall j x, (j < T)%nat -> lagrange xs j x = Ok (lag j x).
  Proof.
    intros j x Hj. unfold lagrange. rewrite Hlen.
    assert (G : forall n s acc, (s + n <= T)%nat ->
      fold_r (fun acc '(m, x_m) =>
        if (m =? j)%nat then Ok acc
        else let d := fnth xs j - x_m in
             do _ <- rassert (negb (feqb d 0)); Ok (acc * (x - x_m) * finv d))
        (combine (seq s n) (firstn n (skipn s xs))) acc
      = Ok (acc * lagL (filter (fun m => negb (m =? j)%nat) (seq s n)) j x)).
    { induction n as [|n IH]; intros s acc Hs; cbn [seq firstn combine fold_r filter].
      - unfold lagL. cbn. f_equal. ring.
      - assert (E : skipn s xs = X s :: skipn (S s) xs).
        { clear - Hs Hlen. unfold X, fnth. assert (H : (s < length xs)%nat) by lia. clear Hs Hlen.
          revert s H. induction xs as [|a l IHl]; intros [|s] H; cbn in *; try lia; auto.
          apply IHl. lia. }
        rewrite E. cbn [firstn combine fold_r].
        destruct (s =? j)%nat eqn:Esj; cbn [negb].
        + cbn [bind]. rewrite IH by lia. reflexivity.
        + apply Nat.eqb_neq in Esj.
          assert (Hd : feqb (fnth xs j - X s) 0 = false).
          { apply feqb_neq. apply X_diff; auto; lia. }
          rewrite Hd. cbn [negb rassert bind]. rewrite IH by lia.
          unfold lagL. cbn [map fprod]. f_equal. unfold X. ring. }
    specialize (G T 0%nat 1 ltac:(lia)). cbn [skipn] in G.
    rewrite <- Hlen in G at 2. rewrite firstn_all in G. rewrite G.
    f_equal. unfold lag. ring.
  Qed.
End Lagrange.

Section Cauchy.
  Context {F : Type} {FO : FieldOps F} {PF : PrimeField F}.
  Add Field Ffield3 : f_field.

  Lemma map_r_ok : forall {A B} (f : A -> result B) (g : A -> B) l,
    (forall x, In x l -> f x = Ok (g x)) -> map_r f l = Ok (map g l).
  Proof.
    induction l as [|x l IH]; intros H; cbn; [reflexivity|].
    rewrite H by (now left). cbn [bind]. rewrite IH by (intros; apply H; now right). reflexivity.
  Qed.

  Lemma map_r_inv : forall {A B} (f : A -> result B) l r, map_r f l = Ok r ->
    forall x, In x l -> exists y, f x = Ok y.
  Proof.
    induction l as [|a l IH]; intros r H x Hin; cbn in *; [contradiction|].
    destruct (f a) as [y|] eqn:E; [|discriminate]. cbn in H.
    destruct (map_r f l) as [r'|] eqn:E2; [|discriminate].
    destruct Hin as [->|Hin]; [now exists y|]. now apply (IH r').
  Qed.

  Lemma mnth_map : forall T (f : nat -> nat -> F) i j, (i < T)%nat -> (j < T)%nat ->
    mnth (map (fun i => map (fun j => f i j) (seq 0 T)) (seq 0 T)) i j = f i j.
  Proof.
    intros T f i j Hi Hj. unfold mnth, fnth. rewrite nth_map_seq by assumption.
    now rewrite nth_map_seq.
  Qed.

  Lemma cauchy_ok : forall T (xs ys : list F) m, cauchy T xs ys = Ok m ->
    (forall i j, (i < T)%nat -> (j < T)%nat -> fnth xs i + fnth ys j <> 0)
    /\ m = map (fun i => map (fun j => finv (fnth xs i + fnth ys j)) (seq 0 T)) (seq 0 T).
  Proof.
    intros T xs ys m H. unfold cauchy in H.
    assert (Hnz : forall i j, (i < T)%nat -> (j < T)%nat -> fnth xs i + fnth ys j <> 0).
    { intros i j Hi Hj E.
      destruct (map_r_inv _ _ _ H i) as [row Hrow]; [apply in_seq; lia|].
      destruct (map_r_inv _ _ _ Hrow j) as [y Hy]; [apply in_seq; lia|].
      cbn in Hy. rewrite (proj2 (feqb_eq _ _) E) in Hy. discriminate. }
    split; [assumption|].
    rewrite (map_r_ok _ (fun i => map (fun j => finv (fnth xs i + fnth ys j)) (seq 0 T))) in H.
    - congruence.
    - intros i Hi. apply in_seq in Hi. apply map_r_ok. intros j Hj. apply in_seq in Hj.
      cbn zeta. rewrite (proj2 (feqb_neq _ _)) by (apply Hnz; lia). reflexivity.
  Qed.

  Lemma fnth_map_opp : forall (ys : list F) i, (i < length ys)%nat -> fnth (map fopp ys) i = - fnth ys i.
  Proof.
    intros ys i H. unfold fnth. rewrite nth_indep with (d' := - 0) by (now rewrite map_length).
    apply map_nth.
  Qed.

  Lemma NoDup_map_opp : forall ys : list F, NoDup ys -> NoDup (map fopp ys).
  Proof.
    intros ys H. apply FinFun.Injective_map_NoDup; [|assumption].
    intros a b E. transitivity (- - a); [ring|]. rewrite E. ring.
  Qed.

  Lemma cauchy_inv_ok : forall T (xs ys : list F), length xs = T -> length ys = T ->
    NoDup xs -> NoDup ys ->
    cauchy_inv T xs ys = Ok (map (fun i => map (fun j =>
      (fnth xs j - fnth (map fopp ys) i) * lag T xs j (fnth (map fopp ys) i)
      * lag T (map fopp ys) i (fnth xs j)) (seq 0 T)) (seq 0 T)).
  Proof.
    intros T xs ys Hx Hy Nx Ny. unfold cauchy_inv. cbn zeta.
    apply map_r_ok. intros i Hi. apply in_seq in Hi. apply map_r_ok. intros j Hj. apply in_seq in Hj.
    rewrite (lagrange_ok T xs) by (assumption || lia). cbn [bind].
    rewrite (lagrange_ok T (map fopp ys)); [reflexivity|now rewrite map_length|now apply NoDup_map_opp|lia].
  Qed.

  (** Schechter's formula: one product.  [X]/[Z] nodes, entry (k,j) is
      (x_j - z_k) A_j(z_k) B_k(x_j) *)
  Lemma schechter : forall T (xs zs : list F), length xs = T -> length zs = T -> NoDup xs -> NoDup zs ->
    (forall i j, (i < T)%nat -> (j < T)%nat -> fnth xs i - fnth zs j <> 0) ->
    forall i j, (i < T)%nat -> (j < T)%nat ->
    sum_n T (fun k => finv (fnth xs i - fnth zs k) *
      ((fnth xs j - fnth zs k) * lag T xs j (fnth zs k) * lag T zs k (fnth xs j)))
    = if (i =? j)%nat then 1 else 0.
  Proof.
    intros T xs zs Hx Hz Nx Nz Hd i j Hi Hj.
    destruct (i =? j)%nat eqn:E.
    - apply Nat.eqb_eq in E. subst j.
      rewrite (sum_n_ext T _ (fun k => lag T xs i (fnth zs k) * lag T zs k (fnth xs i))).
      + rewrite (interpolation T zs Hz Nz (lag T xs i)); [|now apply lag_poly].
        now apply lag_self.
      + intros k Hk. field. now apply Hd.
    - apply Nat.eqb_neq in E.
      destruct (lag_factor T xs Hx i j Hi Hj E) as (Q & HQ & EQ).
      rewrite (sum_n_ext T _ (fun k => ((fnth zs k - fnth xs j) * Q (fnth zs k)) * lag T zs k (fnth xs j))).
      + rewrite (interpolation T zs Hz Nz (fun z => (z - fnth xs j) * Q z)).
        * ring.
        * replace T with (S (pred T)) at 1 by lia. now apply is_poly_linear.
      + intros k Hk. rewrite EQ. field. now apply Hd.
  Qed.

  Theorem cauchy_inverse : forall T (xs ys : list F) m mi,
    length xs = T -> length ys = T -> NoDup xs -> NoDup ys ->
    cauchy T xs ys = Ok m -> cauchy_inv T xs ys = Ok mi ->
    mat_prod_id T m mi /\ mat_prod_id T mi m.
  Proof.
    intros T xs ys m mi Hx Hy Nx Ny Hm Hmi.
    destruct (cauchy_ok T xs ys m Hm) as [Hnz ->].
    rewrite cauchy_inv_ok in Hmi by assumption. injection Hmi as <-.
    set (zs := map fopp ys) in *.
    assert (Hz : length zs = T) by (unfold zs; now rewrite map_length).
    assert (Nz : NoDup zs) by (now apply NoDup_map_opp).
    assert (Ez : forall j, (j < T)%nat -> fnth zs j = - fnth ys j)
      by (intros j Hj; apply fnth_map_opp; lia).
    assert (Hd : forall i j, (i < T)%nat -> (j < T)%nat -> fnth xs i - fnth zs j <> 0).
    { intros i j Hi Hj H0. apply (Hnz i j Hi Hj). rewrite Ez in H0 by assumption.
      rewrite <- H0. ring. }
    split; intros i j Hi Hj.
    - rewrite <- (schechter T xs zs Hx Hz Nx Nz Hd i j Hi Hj).
      apply sum_n_ext. intros k Hk. rewrite !mnth_map by assumption.
      f_equal. f_equal. rewrite Ez by assumption. ring.
    - assert (Hd' : forall i j, (i < T)%nat -> (j < T)%nat -> fnth zs i - fnth xs j <> 0).
      { intros a b Ha Hb H0. apply (Hd b a Hb Ha).
        transitivity (- (fnth zs a - fnth xs b)); [ring|]. rewrite H0. ring. }
      transitivity (if (j =? i)%nat then (1 : F) else 0); [|now rewrite Nat.eqb_sym].
      rewrite <- (schechter T zs xs Hz Hx Nz Nx Hd' j i Hj Hi).
      apply sum_n_ext. intros k Hk. rewrite !mnth_map by assumption.
      assert (E : fnth xs k + fnth ys j = - (fnth zs j - fnth xs k))
        by (rewrite Ez by assumption; ring).
      rewrite E. field. split; [apply Hd'; assumption|].
      intros H0. apply (Hd' j k Hj Hk). transitivity (- - (fnth zs j - fnth xs k)); [ring|].
      rewrite H0. ring.
  Qed.

  Lemma all_distinct_NoDup : forall l : list F, all_distinct l = true -> NoDup l.
  Proof.
    induction l as [|x l IH]; cbn; intros H; constructor.
    - apply andb_prop in H. destruct H as [H _]. apply negb_true_iff in H. intros Hin.
      assert (existsb (feqb x) l = true); [|congruence].
      apply existsb_exists. exists x. split; [assumption|apply feqb_refl].
    - apply IH. apply andb_prop in H. apply H.
  Qed.

  Lemma draw_length : forall (next : grain -> option (F * grain)) n g l g',
    draw next n g = Some (l, g') -> length l = n.
  Proof.
    induction n as [|n IH]; intros g l g' H; cbn in H.
    - injection H as <- <-. reflexivity.
    - destruct (next g) as [[x g1]|]; [|discriminate].
      destruct (draw next n g1) as [[l2 g2]|] eqn:E; [|discriminate].
      injection H as <- <-. cbn. f_equal. eapply IH. eassumption.
  Qed.

  Lemma NoDup_app_parts : forall (l1 l2 : list F), NoDup (l1 ++ l2) -> NoDup l1 /\ NoDup l2.
  Proof.
    intros l1 l2 H. split.
    - induction l1 as [|a l1 IH]; [constructor|]. cbn in H. inversion H; subst. constructor.
      + intros Hin. apply H2. apply in_app_iff. now left.
      + now apply IH.
    - induction l1 as [|a l1 IH]; [assumption|]. cbn in H. inversion H; subst. now apply IH.
  Qed.

  Lemma draw_unique_facts : forall tries fuel T g (xs ys : list F) g',
    draw_unique tries fuel T g = Some (xs, ys, g') ->
    length xs = T /\ length ys = T /\ NoDup (xs ++ ys).
  Proof.
    induction tries as [|k IH]; intros fuel T g xs ys g' H; cbn [draw_unique] in H; [discriminate|].
    destruct (draw _ (2 * T) g) as [[vals g1]|] eqn:E; [|discriminate].
    apply draw_length in E.
    destruct (all_distinct vals) eqn:Ed.
    - injection H as <- <- <-. rewrite firstn_length, skipn_length, firstn_skipn.
      repeat split; try lia. now apply all_distinct_NoDup.
    - eapply IH. eassumption.
  Qed.

  Lemma draw_selected_facts : forall select tries fuel T g (xs ys : list F) g',
    draw_selected select tries fuel T g = Some (xs, ys, g') ->
    length xs = T /\ length ys = T /\ NoDup (xs ++ ys).
  Proof.
    induction select as [|k IH]; intros tries fuel T g xs ys g' H; cbn [draw_selected] in H.
    - destruct (draw_unique tries fuel T g) as [[[a b] c]|] eqn:E; [|discriminate].
      injection H as <- <- <-. eapply draw_unique_facts. eassumption.
    - destruct (draw_unique tries fuel T g) as [[[a b] c]|] eqn:E; [|discriminate].
      eapply IH. eassumption.
  Qed.

  Theorem generate_mds_inverse : forall tries fuel T select g m mi,
    generate_mds (F := F) tries fuel T select g = Some (Ok (m, mi)) ->
    mat_prod_id T m mi /\ mat_prod_id T mi m /\
    exists xs ys, length xs = T /\ length ys = T /\ NoDup (xs ++ ys) /\
      forall i j, (i < T)%nat -> (j < T)%nat -> (fnth xs i + fnth ys j) * mnth m i j = 1.
  Proof.
    intros tries fuel T select g m mi H. unfold generate_mds in H.
    destruct (draw_selected select tries fuel T g) as [[[xs ys] g']|] eqn:E; [|discriminate].
    apply draw_selected_facts in E. destruct E as (Hx & Hy & Hnd).
    injection H as H. destruct (cauchy T xs ys) as [m0|] eqn:Em; [|discriminate]. cbn [bind] in H.
    destruct (cauchy_inv T xs ys) as [mi0|] eqn:Ei; [|discriminate]. cbn [bind] in H.
    injection H as <- <-.
    destruct (NoDup_app_parts xs ys Hnd) as [Nx Ny].
    destruct (cauchy_inverse T xs ys m0 mi0 Hx Hy Nx Ny Em Ei) as [P1 P2].
    split; [assumption|]. split; [assumption|]. exists xs, ys. repeat split; auto.
    intros i j Hi Hj. destruct (cauchy_ok T xs ys m0 Em) as [Hnz ->].
    rewrite mnth_map by assumption. apply finv_r. now apply Hnz.
  Qed.

  (** ... and it panics only on a zero sum x_i + y_j *)
  Theorem generate_mds_panic : forall tries fuel T select g,
    generate_mds (F := F) tries fuel T select g = Some Panic ->
    exists xs ys i j, length xs = T /\ length ys = T /\ NoDup (xs ++ ys) /\
      (i < T)%nat /\ (j < T)%nat /\ fnth xs i + fnth ys j = (0 : F).
  Proof.
    intros tries fuel T select g H. unfold generate_mds in H.
    destruct (draw_selected select tries fuel T g) as [[[xs ys] g']|] eqn:E; [|discriminate].
    apply draw_selected_facts in E. destruct E as (Hx & Hy & Hnd).
    destruct (NoDup_app_parts xs ys Hnd) as [Nx Ny].
    injection H as H. rewrite cauchy_inv_ok in H by assumption.
    destruct (cauchy T xs ys) as [m0|] eqn:Em; [discriminate|]. clear H.
    exists xs, ys.
    destruct (existsb (fun i => existsb (fun j => feqb (fnth xs i + fnth ys j) 0) (seq 0 T)) (seq 0 T)) eqn:Ex.
    - apply existsb_exists in Ex. destruct Ex as (i & Hi & Ex).
      apply existsb_exists in Ex. destruct Ex as (j & Hj & Ex).
      apply in_seq in Hi, Hj. apply feqb_eq in Ex. exists i, j. repeat split; auto; lia.
    - exfalso. unfold cauchy in Em.
      rewrite (map_r_ok _ (fun i => map (fun j => finv (fnth xs i + fnth ys j)) (seq 0 T))) in Em;
        [discriminate|].
      intros i Hi. apply map_r_ok. intros j Hj. cbn zeta.
      destruct (feqb (fnth xs i + fnth ys j) 0) eqn:E0; [|reflexivity].
      exfalso. assert (X : existsb (fun i => existsb (fun j => feqb (fnth xs i + fnth ys j) 0) (seq 0 T)) (seq 0 T) = true); [|congruence].
      apply existsb_exists. exists i. split; [assumption|]. apply existsb_exists. exists j. auto.
  Qed.
End Cauchy.

Section Cofactor.
  Context {F : Type} {FO : FieldOps F} {PF : PrimeField F}.
  Add Field Ffield4 : f_field.

  (** the determinant of a 3x3 matrix, by the rule of Sarrus *)
  Definition det_spec (m : list (list F)) : F :=
    let e := mnth m in
    e 0%nat 0%nat * (e 1%nat 1%nat * e 2%nat 2%nat - e 1%nat 2%nat * e 2%nat 1%nat)
    - e 0%nat 1%nat * (e 1%nat 0%nat * e 2%nat 2%nat - e 1%nat 2%nat * e 2%nat 0%nat)
    + e 0%nat 2%nat * (e 1%nat 0%nat * e 2%nat 1%nat - e 1%nat 1%nat * e 2%nat 0%nat).

  Lemma det3_spec : forall m, det3 m = det_spec m.
  Proof. intros m. unfold det3, det_items, det_spec. cbn. ring. Qed.

  Theorem inverse3_spec : forall m : list (list F),
    match inverse3 m with
    | Ok mi => det_spec m <> 0 /\ square 3 mi /\ mat_prod_id 3 m mi /\ mat_prod_id 3 mi m
    | Panic => det_spec m = 0
    end.
  Proof.
    intros m. unfold inverse3. rewrite det3_spec.
    destruct (feqb (det_spec m) 0) eqn:E; cbn [negb rassert bind].
    - now apply feqb_eq.
    - apply feqb_neq in E. split; [assumption|].
      split; [split; [reflexivity|repeat constructor]|].
      unfold mat_prod_id, cofactor, det_spec in *. cbn zeta in *.
      split; intros i j Hi Hj;
        destruct i as [|[|[|i]]]; try lia; destruct j as [|[|[|j]]]; try lia;
        cbn; field; exact E.
  Qed.
End Cofactor.

Section Minors.
  Context {F : Type} {FO : FieldOps F} {PF : PrimeField F}.
  Add Field Ffield5 : f_field.

  (** the rows and columns of a matrix with the given indices *)
  Definition submatrix (m : list (list F)) (rows cols : list nat) : list (list F) :=
    map (fun i => map (fun j => mnth m i j) cols) rows.

  Definition indices (T k : nat) (l : list nat) : Prop :=
    length l = k /\ NoDup l /\ Forall (fun i => (i < T)%nat) l.

  Lemma mnth_submatrix : forall m rows cols k i j, length rows = k -> length cols = k ->
    (i < k)%nat -> (j < k)%nat ->
    mnth (submatrix m rows cols) i j = mnth m (nth i rows 0%nat) (nth j cols 0%nat).
  Proof.
    intros m rows cols k i j Hr Hc Hi Hj. unfold submatrix, mnth at 1, fnth at 1.
    rewrite nth_indep with (d' := map (fun j => mnth m 0%nat j) cols) by (rewrite map_length; lia).
    rewrite (map_nth (fun i => map (fun j => mnth m i j) cols)).
    rewrite nth_indep with (d' := mnth m (nth i rows 0%nat) 0%nat) by (rewrite map_length; lia).
    now rewrite (map_nth (fun j => mnth m (nth i rows 0%nat) j)).
  Qed.

  Lemma NoDup_select : forall (xs : list F) T l, length xs = T -> NoDup xs -> NoDup l ->
    Forall (fun i => (i < T)%nat) l -> NoDup (map (fnth xs) l).
  Proof.
    intros xs T l Hx Nx. induction l as [|i l IH]; intros Nl Hl; cbn; [constructor|].
    inversion Nl as [|? ? Hnin Nl']. inversion Hl as [|? ? Hi Hl']. subst. constructor.
    - intros Hin. apply in_map_iff in Hin. destruct Hin as (j & Ej & Hj).
      rewrite Forall_forall in Hl'. specialize (Hl' j Hj).
      assert (j = i); [|subst; contradiction].
      apply (proj1 (NoDup_nth xs 0) Nx); auto.
    - now apply IH.
  Qed.

  Lemma fnth_select : forall (xs : list F) l i, (i < length l)%nat ->
    fnth (map (fnth xs) l) i = fnth xs (nth i l 0%nat).
  Proof.
    intros xs l i H. unfold fnth at 1.
    rewrite nth_indep with (d' := fnth xs 0%nat) by (now rewrite map_length).
    apply map_nth.
  Qed.

  Lemma cauchy_make : forall T (xs ys : list F),
    (forall i j, (i < T)%nat -> (j < T)%nat -> fnth xs i + fnth ys j <> 0) ->
    cauchy T xs ys = Ok (map (fun i => map (fun j => finv (fnth xs i + fnth ys j)) (seq 0 T)) (seq 0 T)).
  Proof.
    intros T xs ys Hnz. unfold cauchy. apply map_r_ok.
    intros i Hi. apply in_seq in Hi. apply map_r_ok. intros j Hj. apply in_seq in Hj.
    cbn zeta. rewrite (proj2 (feqb_neq _ _)) by (apply Hnz; lia). reflexivity.
  Qed.

  Theorem generate_mds_minors : forall tries fuel T select g m mi,
    generate_mds (F := F) tries fuel T select g = Some (Ok (m, mi)) ->
    forall k rows cols, indices T k rows -> indices T k cols ->
    exists inv, mat_prod_id k (submatrix m rows cols) inv /\ mat_prod_id k inv (submatrix m rows cols).
  Proof.
    intros tries fuel T select g m mi H k rows cols (Lr & Nr & Hr) (Lc & Nc & Hc).
    destruct (generate_mds_inverse _ _ _ _ _ _ _ H) as (_ & _ & xs & ys & Hx & Hy & Hnd & Hent).
    destruct (NoDup_app_parts xs ys Hnd) as [Nx Ny].
    set (xs' := map (fnth xs) rows). set (ys' := map (fnth ys) cols).
    rewrite Forall_forall in Hr, Hc.
    assert (Ri : forall i, (i < k)%nat -> (nth i rows 0%nat < T)%nat) by (intros; apply Hr, nth_In; lia).
    assert (Ci : forall i, (i < k)%nat -> (nth i cols 0%nat < T)%nat) by (intros; apply Hc, nth_In; lia).
    assert (Hnz : forall i j, (i < k)%nat -> (j < k)%nat -> fnth xs' i + fnth ys' j <> 0).
    { intros i j Hi Hj E. unfold xs', ys' in E. rewrite !fnth_select in E by lia.
      specialize (Hent _ _ (Ri i Hi) (Ci j Hj)). rewrite E in Hent.
      apply f_1_neq_0. rewrite <- Hent. ring. }
    assert (Nx' : NoDup xs') by (apply NoDup_select with T; auto; now apply Forall_forall).
    assert (Ny' : NoDup ys') by (apply NoDup_select with T; auto; now apply Forall_forall).
    assert (Lx' : length xs' = k) by (unfold xs'; now rewrite map_length).
    assert (Ly' : length ys' = k) by (unfold ys'; now rewrite map_length).
    destruct (cauchy_inverse k xs' ys' _ _ Lx' Ly' Nx' Ny' (cauchy_make k xs' ys' Hnz)
                (cauchy_inv_ok k xs' ys' Lx' Ly' Nx' Ny')) as [P1 P2].
    eexists.
    assert (Eq : forall i j, (i < k)%nat -> (j < k)%nat ->
      mnth (submatrix m rows cols) i j
      = mnth (map (fun i => map (fun j => finv (fnth xs' i + fnth ys' j)) (seq 0 k)) (seq 0 k)) i j).
    { intros i j Hi Hj. rewrite (mnth_submatrix m rows cols k) by assumption.
      rewrite mnth_map by assumption. unfold xs', ys'. rewrite !fnth_select by lia.
      specialize (Hent _ _ (Ri i Hi) (Ci j Hj)).
      apply (fmul_cancel_l (fnth xs (nth i rows 0%nat) + fnth ys (nth j cols 0%nat))).
      - intros E. rewrite E in Hent. apply f_1_neq_0. rewrite <- Hent. ring.
      - rewrite Hent. symmetry. apply finv_r. intros E. rewrite E in Hent.
        apply f_1_neq_0. rewrite <- Hent. ring. }
    split.
    - intros i j Hi Hj. rewrite <- (P1 i j Hi Hj). apply sum_n_ext. intros l Hl.
      now rewrite Eq by assumption.
    - intros i j Hi Hj. rewrite <- (P2 i j Hi Hj). apply sum_n_ext. intros l Hl.
      now rewrite (Eq l j) by assumption.
  Qed.
End Minors.

Lemma gen_constants_mds : forall {F} {FO : FieldOps F} tries fuel T r_f r_p sec (rc m mi : list (list F)),
  gen_constants tries fuel T r_f r_p sec = Some (Ok (rc, m, mi)) ->
  exists g, generate_mds tries fuel T sec g = Some (Ok (m, mi)).
Proof.
  intros F FO tries fuel T r_f r_p sec rc m mi H. unfold gen_constants in H. cbn zeta in H.
  destruct (draw_rows _ _ _ _) as [[rc' g]|]; [|discriminate]. exists g.
  destruct (generate_mds tries fuel T sec g) as [[[m' mi']|]|]; try discriminate.
  cbn [bind] in H. injection H as _ <- <-. reflexivity.
Qed.
