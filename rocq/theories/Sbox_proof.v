(** Differences through the rounds of the permutation. *)
From Coq Require Import ZArith Znumtheory List Arith Lia Bool.
From Verif Require Import Field Rust ListAux Primitives SpecHash Perm_proof BigSum Mds_proof SboxUse.
Import ListNotations.
Local Open Scope F_scope.

Section Branch.
  Context {F : Type} {FO : FieldOps F} {PF : PrimeField F}.
  Add Field Ffield : f_field.

  Fixpoint vsub (a b : list F) : list F :=
    match a, b with
    | x :: a', y :: b' => (x - y) :: vsub a' b'
    | _, _ => []
    end.

  Lemma feqb_sub : forall x y : F, feqb (x - y) 0 = feqb x y.
  Proof.
    intros x y. destruct (feqb x y) eqn:E.
    - apply feqb_eq in E. subst. apply feqb_eq. ring.
    - apply feqb_neq. apply feqb_neq in E. intros H. apply E. now apply fsub_eq_0.
  Qed.
  Lemma differences_weight : forall a b, differences a b = weight (vsub a b).
  Proof. induction a as [|x a IH]; intros [|y b]; cbn; auto. now rewrite feqb_sub, IH. Qed.
  Lemma vsub_length : forall a b : list F, length a = length b -> length (vsub a b) = length a.
  Proof. induction a as [|x a IH]; intros [|y b] H; cbn in *; try lia. rewrite IH; lia. Qed.
  Lemma differences_app : forall a b c d, length a = length b -> differences (a ++ c) (b ++ d) = (differences a b + differences c d)%nat.
  Proof. induction a as [|x a IH]; intros [|y b] c d H; cbn in *; try lia. rewrite IH by lia. lia. Qed.
  Lemma differences_zero : forall a b, length a = length b -> differences a b = 0%nat -> a = b.
  Proof.
    induction a as [|x a IH]; intros [|y b] H E; cbn in *; try lia; auto.
    destruct (feqb x y) eqn:X; [|lia]. apply feqb_eq in X. subst. f_equal. apply IH; lia.
  Qed.
  Lemma differences_refl : forall a, differences a a = 0%nat.
  Proof. induction a as [|x a IH]; cbn; auto. now rewrite feqb_refl. Qed.
  Lemma differences_map : forall f : F -> F, (forall x y, f x = f y -> x = y) -> forall a b, differences (map f a) (map f b) = differences a b.
  Proof.
    intros f Hf. induction a as [|x a IH]; intros [|y b]; cbn; auto. rewrite IH. f_equal.
    destruct (feqb x y) eqn:E.
    - apply feqb_eq in E. subst. now rewrite feqb_refl.
    - apply feqb_neq in E. assert (f x <> f y) as H by auto. apply feqb_neq in H. now rewrite H.
  Qed.
  Lemma vsub_vadd : forall a b c, length a = length c -> length b = length c -> vsub (vadd a c) (vadd b c) = vsub a b.
  Proof. induction a as [|x a IH]; intros [|y b] [|z c] H1 H2; cbn in *; try lia; auto. rewrite IH by lia. f_equal. ring. Qed.
  Lemma differences_vadd : forall a b c, length a = length c -> length b = length c -> differences (vadd a c) (vadd b c) = differences a b.
  Proof. intros. now rewrite !differences_weight, vsub_vadd. Qed.

  Lemma dot_vsub : forall r a b, length a = length b -> dot r (vsub a b) = dot r a - dot r b.
  Proof.
    induction r as [|x r IH]; intros [|y a] [|z b] H; cbn in *; try lia; try ring. rewrite IH by lia. ring.
  Qed.
  Lemma mat_vec_vsub : forall m a b, length a = length b -> mat_vec m (vsub a b) = vsub (mat_vec m a) (mat_vec m b).
  Proof. induction m as [|r m IH]; intros a b H; cbn; auto. rewrite dot_vsub by assumption. f_equal. now apply IH. Qed.

  Lemma weight_bound : forall v : list F, (weight v <= length v)%nat.
  Proof. induction v as [|x v IH]; cbn; [lia|]. destruct (feqb x 0); lia. Qed.
  Lemma weight_zero : forall v : list F, weight v = 0%nat -> v = repeat 0 (length v).
  Proof. induction v as [|x v IH]; intros H; cbn in *; auto. destruct (feqb x 0) eqn:E; [|lia]. apply feqb_eq in E. f_equal; auto. Qed.

  (** the positions of the words that are not zero, and of those that are *)
  Definition is_zero_at (v : list F) (i : nat) : bool := feqb (fnth v i) 0.
  Lemma weight_filter : forall v : list F, length (filter (fun i => negb (is_zero_at v i)) (seq 0 (length v))) = weight v
    /\ length (filter (is_zero_at v) (seq 0 (length v))) = (length v - weight v)%nat.
  Proof.
    intros v. assert (H : forall (v : list F) f k, (forall i, (i < length v)%nat -> f (k + i)%nat = is_zero_at v i) ->
      length (filter (fun i => negb (f i)) (seq k (length v))) = weight v
      /\ length (filter f (seq k (length v))) = (length v - weight v)%nat).
    { clear v. induction v as [|x v IH]; intros f k H; [split; reflexivity|]. cbn [length seq filter weight].
      pose proof (H 0%nat ltac:(cbn; lia)) as H0. rewrite Nat.add_0_r in H0. unfold is_zero_at, fnth in H0. cbn in H0.
      destruct (IH f (S k)) as [A B].
      { intros i Hi. replace (S k + i)%nat with (k + S i)%nat by lia. rewrite H by (cbn; lia). reflexivity. }
      pose proof (weight_bound v). rewrite H0. destruct (feqb x 0); cbn [negb length]; lia. }
    destruct (H v (is_zero_at v) 0%nat) as [A B]; [reflexivity|]. split; assumption.
  Qed.

  Lemma fsum_filter : forall (p : nat -> bool) (f : nat -> F) l, (forall i, p i = false -> f i = 0) -> fsum (map f l) = fsum (map f (filter p l)).
  Proof.
    intros p f l H. induction l as [|i l IH]; cbn; auto. destruct (p i) eqn:E; cbn; rewrite IH; [reflexivity|]. rewrite (H i E). ring.
  Qed.
  Lemma fsum_nth : forall (f : nat -> F) l, fsum (map f l) = sum_n (length l) (fun j => f (nth j l 0%nat)).
  Proof.
    intros f l. rewrite <- fsum_map_seq. f_equal. induction l as [|i l IH]; cbn; auto. f_equal. rewrite IH, <- seq_shift, map_map. reflexivity.
  Qed.

  Definition minors (T : nat) (m : list (list F)) : Prop := forall k rows cols, indices T k rows -> indices T k cols ->
    exists inv, mat_prod_id k (submatrix m rows cols) inv /\ mat_prod_id k inv (submatrix m rows cols).

  Lemma nth_mat_vec : forall T m v i, square T m -> length v = T -> (i < T)%nat ->
    fnth (mat_vec m v) i = sum_n T (fun j => mnth m i j * fnth v j).
  Proof. intros T m v i Hm Hv Hi. rewrite <- (apply_mds_mat_vec T) by assumption. now apply nth_apply_mds. Qed.

  Lemma firstn_NoDup : forall {A} n (l : list A), NoDup l -> NoDup (firstn n l).
  Proof.
    intros A n l. rewrite <- (firstn_skipn n l) at 1. generalize (skipn n l), (firstn n l). intros b a. induction a as [|x a IH]; intros H; [constructor|].
    cbn in H. inversion H as [|? ? N ND]. subst. constructor; [|now apply IH]. intros X. apply N, in_or_app. now left.
  Qed.
  Lemma firstn_In : forall {A} n (l : list A) x, In x (firstn n l) -> In x l.
  Proof. intros A n l x H. rewrite <- (firstn_skipn n l). apply in_or_app. now left. Qed.

  (** the branch number of a matrix without singular square submatrix is T + 1 *)
  Lemma branch : forall T m v, square T m -> minors T m -> length v = T -> v <> repeat 0 T ->
    (T + 1 <= weight v + weight (mat_vec m v))%nat.
  Proof.
    intros T m v Hm Hmin Hv Hne.
    assert (Lm : length (mat_vec m v) = T) by (unfold mat_vec; rewrite map_length; apply Hm).
    destruct (le_lt_dec (T + 1) (weight v + weight (mat_vec m v))) as [|C]; [assumption|exfalso].
    destruct (weight_filter v) as [W1 _]. destruct (weight_filter (mat_vec m v)) as [_ W2]. rewrite Hv in W1. rewrite Lm in W2.
    set (cols := filter (fun i => negb (is_zero_at v i)) (seq 0 T)) in *.
    set (zs := filter (is_zero_at (mat_vec m v)) (seq 0 T)) in *.
    set (k := weight v) in *. set (rows := firstn k zs).
    assert (Lr : length rows = k) by (unfold rows; rewrite firstn_length; lia).
    assert (Rin : forall i, In i rows -> (i < T)%nat /\ fnth (mat_vec m v) i = 0).
    { intros i Hi. apply firstn_In in Hi. apply filter_In in Hi. destruct Hi as [Hi E]. apply in_seq in Hi. apply feqb_eq in E. split; [lia|exact E]. }
    assert (Cin : forall i, In i cols -> (i < T)%nat /\ fnth v i <> 0).
    { intros i Hi. apply filter_In in Hi. destruct Hi as [Hi E]. apply in_seq in Hi. apply negb_true_iff in E. apply feqb_neq in E. split; [lia|exact E]. }
    destruct (Hmin k rows cols) as (inv & _ & I).
    { split; [exact Lr|]. split; [apply firstn_NoDup, NoDup_filter, seq_NoDup|]. apply Forall_forall. intros i Hi. now apply Rin. }
    { split; [exact W1|]. split; [apply NoDup_filter, seq_NoDup|]. apply Forall_forall. intros i Hi. now apply Cin. }
    (* the chosen rows, restricted to the chosen columns, send the non-zero words to zero *)
    assert (Z : forall i, (i < k)%nat -> sum_n k (fun j => mnth (submatrix m rows cols) i j * fnth v (nth j cols 0%nat)) = 0).
    { intros i Hi. destruct (Rin (nth i rows 0%nat)) as [Ri Rz]; [apply nth_In; lia|].
      rewrite (nth_mat_vec T m v _ Hm Hv Ri), <- fsum_map_seq in Rz.
      rewrite (fsum_filter (fun i => negb (is_zero_at v i))) in Rz.
      - rewrite fsum_nth in Rz. fold cols in Rz. rewrite W1 in Rz. rewrite <- Rz. apply sum_n_ext. intros j Hj.
        rewrite (mnth_submatrix m rows cols k) by assumption. reflexivity.
      - intros j Ej. apply negb_false_iff, feqb_eq in Ej. rewrite Ej. ring. }
    destruct k as [|k'] eqn:Ek.
    { apply Hne. unfold k in Ek. apply weight_zero in Ek. now rewrite Hv in Ek. }
    destruct (Cin (nth 0 cols 0%nat)) as [_ N]; [apply nth_In; lia|]. apply N.
    rewrite <- (sum_n_delta (S k') 0 (fun j => fnth v (nth j cols 0%nat))) by lia.
    rewrite (sum_n_ext (S k') _ (fun j => sum_n (S k') (fun i => mnth inv 0 i * (mnth (submatrix m rows cols) i j * fnth v (nth j cols 0%nat))))).
    - rewrite sum_n_swap. rewrite (sum_n_ext (S k') _ (fun _ => 0)); [apply sum_n_zero|]. intros i Hi. rewrite sum_n_mul_l, Z by assumption. ring.
    - intros j Hj. rewrite <- (I 0%nat j) by lia. rewrite <- sum_n_mul_r. apply sum_n_ext. intros. ring.
  Qed.
End Branch.

Section Rounds.
  Context {F : Type} {FO : FieldOps F} {PF : PrimeField F} (T : nat) (m : list (list F)).
  Context (Hm : square T m) (Hmin : minors T m) (Hp : forall x y : F, power5 x = power5 y -> x = y).
  Set Default Proof Using "All".
  Local Open Scope nat_scope.

  Lemma mat_vec_len : forall v : list F, length (mat_vec m v) = T.
  Proof. intros. unfold mat_vec. rewrite map_length. apply Hm. Qed.
  Lemma not_zero : forall x y : list F, length x = T -> length y = T -> x <> y -> vsub x y <> repeat fzero T.
  Proof.
    intros x y Hx Hy N E. apply N. apply differences_zero; [congruence|]. rewrite differences_weight, E.
    clear - PF. induction T as [|n IH]; cbn; auto. now rewrite feqb_refl.
  Qed.
  Lemma mix : forall a b : list F, length a = T -> length b = T -> a <> b ->
    T + 1 <= differences a b + differences (mat_vec m a) (mat_vec m b).
  Proof.
    intros a b Ha Hb N. rewrite !differences_weight, <- mat_vec_vsub by congruence.
    apply branch; [exact Hm|exact Hmin| |now apply not_zero]. rewrite vsub_length; congruence.
  Qed.
  Lemma mix_ne : forall a b : list F, length a = T -> length b = T -> a <> b -> mat_vec m a <> mat_vec m b.
  Proof.
    intros a b Ha Hb N E. pose proof (mix a b Ha Hb N) as M. rewrite E, differences_refl in M.
    rewrite differences_weight in M. pose proof (weight_bound (vsub a b)) as W. rewrite vsub_length in W by congruence. lia.
  Qed.
  Lemma differences_ne : forall a b : list F, length a = length b -> a <> b <-> 0 < differences a b.
  Proof.
    intros a b H. split; intros N.
    - destruct (differences a b) eqn:E; [|lia]. exfalso. apply N. now apply differences_zero.
    - intros ->. rewrite differences_refl in N. lia.
  Qed.

  Lemma full_len : forall st rc : list F, length (spec_full m st rc) = T.
  Proof. intros. apply mat_vec_len. Qed.
  Lemma partial_len : forall st rc : list F, length (spec_partial m st rc) = T.
  Proof. intros. apply mat_vec_len. Qed.

  Lemma full_round_diff : forall x y rc : list F, length x = T -> length y = T -> length rc = T -> x <> y ->
    T + 1 <= differences x y + differences (spec_full m x rc) (spec_full m y rc) /\ spec_full m x rc <> spec_full m y rc.
  Proof.
    intros x y rc Hx Hy Hr N.
    set (a := map power5 (vadd x rc)). set (b := map power5 (vadd y rc)).
    assert (La : length a = T) by (unfold a; rewrite map_length, vadd_length; congruence).
    assert (Lb : length b = T) by (unfold b; rewrite map_length, vadd_length; congruence).
    assert (D : differences a b = differences x y) by (unfold a, b; rewrite differences_map by exact Hp; apply differences_vadd; congruence).
    assert (Nab : a <> b) by (apply differences_ne; [congruence|]; rewrite D; apply differences_ne; [congruence|exact N]).
    split; [rewrite <- D; exact (mix a b La Lb Nab)|exact (mix_ne a b La Lb Nab)].
  Qed.

  Definition sbox_head (v : list F) : list F := match v with [] => [] | x :: t => power5 x :: t end.
  Lemma partial_round_ne : forall x y rc : list F, length x = T -> length y = T -> length rc = T -> x <> y ->
    spec_partial m x rc <> spec_partial m y rc.
  Proof.
    intros x y rc Hx Hy Hr N. apply (mix_ne (sbox_head (vadd x rc)) (sbox_head (vadd y rc))).
    - transitivity (length (vadd x rc)); [destruct (vadd x rc); reflexivity|]. rewrite vadd_length; congruence.
    - transitivity (length (vadd y rc)); [destruct (vadd y rc); reflexivity|]. rewrite vadd_length; congruence.
    - intros E. apply N. apply differences_zero; [congruence|]. rewrite <- (differences_vadd x y rc) by congruence.
      assert (vadd x rc = vadd y rc) as ->; [|apply differences_refl].
      assert (L : length (vadd x rc) = length (vadd y rc)) by (rewrite !vadd_length; congruence).
      destruct (vadd x rc) as [|p u], (vadd y rc) as [|q w]; cbn in *; try congruence. injection E as E1 E2. apply Hp in E1. congruence.
  Qed.

  Lemma full_fold : forall rcs (x y : list F), Forall (fun r => length r = T) rcs -> length x = T -> length y = T -> x <> y ->
    fold_left (spec_full m) rcs x <> fold_left (spec_full m) rcs y
    /\ length (fold_left (spec_full m) rcs x) = T /\ length (fold_left (spec_full m) rcs y) = T.
  Proof.
    induction rcs as [|rc rcs IH]; intros x y Hr Hx Hy N; [auto|]. pose proof (Forall_inv Hr) as R1. pose proof (Forall_inv_tail Hr) as R2. cbn beta in R1. cbn [fold_left].
    apply IH; [assumption|apply full_len|apply full_len|]. now apply full_round_diff.
  Qed.
  Lemma partial_fold : forall rcs (x y : list F), Forall (fun r => length r = T) rcs -> length x = T -> length y = T -> x <> y ->
    fold_left (spec_partial m) rcs x <> fold_left (spec_partial m) rcs y
    /\ length (fold_left (spec_partial m) rcs x) = T /\ length (fold_left (spec_partial m) rcs y) = T.
  Proof.
    induction rcs as [|rc rcs IH]; intros x y Hr Hx Hy N; [auto|]. pose proof (Forall_inv Hr) as R1. pose proof (Forall_inv_tail Hr) as R2. cbn beta in R1. cbn [fold_left].
    apply IH; [assumption|apply partial_len|apply partial_len|]. now apply partial_round_ne.
  Qed.

  Lemma full_inputs_len : forall rcs (x : list F), Forall (fun r => length r = T) rcs -> length x = T -> length (full_inputs m rcs x) = length rcs * T.
  Proof.
    induction rcs as [|rc rcs IH]; intros x Hr Hx; [reflexivity|]. pose proof (Forall_inv Hr) as R1. pose proof (Forall_inv_tail Hr) as R2. cbn beta in R1. cbn [full_inputs length].
    rewrite app_length, vadd_length, IH; [|assumption|apply full_len|congruence]. lia.
  Qed.
  Lemma partial_inputs_len : forall rcs (x y : list F), Forall (fun r => length r = T) rcs -> length x = T -> length y = T ->
    length (partial_inputs m rcs x) = length (partial_inputs m rcs y).
  Proof.
    induction rcs as [|rc rcs IH]; intros x y Hr Hx Hy; [reflexivity|]. pose proof (Forall_inv Hr) as R1. pose proof (Forall_inv_tail Hr) as R2. cbn beta in R1. cbn [partial_inputs length].
    rewrite !app_length, !firstn_length, !vadd_length by congruence. rewrite (IH _ (spec_partial m y rc)); [lia|assumption|apply partial_len|apply partial_len].
  Qed.

  (** full rounds: T + 1 active S-boxes in every two *)
  Lemma full_active : forall n rcs (x y : list F), length rcs = n -> Forall (fun r => length r = T) rcs -> length x = T -> length y = T -> x <> y ->
    (T + 1) * (n / 2) <= differences (full_inputs m rcs x) (full_inputs m rcs y).
  Proof.
    induction n as [n IH] using lt_wf_ind. intros rcs x y Hn Hr Hx Hy N.
    destruct rcs as [|r1 [|r2 rcs]]; cbn [length] in Hn; [subst n; cbn; lia|subst n; change (1 / 2) with 0; lia|].
    pose proof (Forall_inv Hr) as R1. pose proof (Forall_inv_tail Hr) as Hr'. pose proof (Forall_inv Hr') as R2. pose proof (Forall_inv_tail Hr') as R3. cbn beta in R1, R2. subst n.
    destruct (full_round_diff x y r1) as [D N1]; auto. destruct (full_round_diff (spec_full m x r1) (spec_full m y r1) r2) as [_ N2]; auto using full_len.
    cbn [full_inputs]. rewrite !differences_app by (rewrite !vadd_length; rewrite ?full_len; congruence).
    rewrite !differences_vadd by (rewrite ?full_len; congruence).
    pose proof (IH (length rcs) ltac:(lia) rcs _ _ eq_refl R3 (full_len _ _) (full_len _ _) N2) as I.
    replace (S (S (length rcs))) with (length rcs + 1 * 2) by lia. rewrite Nat.div_add by lia. nia.
  Qed.

  (** partial rounds without an active S-box are linear *)
  Lemma iter_r : forall k (f : list F -> list F) x, Nat.iter (S k) f x = Nat.iter k f (f x).
  Proof. induction k as [|k IH]; intros f x; [reflexivity|]. change (f (Nat.iter (S k) f x) = f (Nat.iter k f (f x))). now rewrite IH. Qed.
  Lemma quiet : forall rcs (x y : list F), Forall (fun r => length r = T) rcs -> length x = T -> length y = T ->
    differences (partial_inputs m rcs x) (partial_inputs m rcs y) = 0 ->
    forall i, i < length rcs -> nth 0 (Nat.iter i (mat_vec m) (vsub x y)) fzero = fzero.
  Proof.
    induction rcs as [|rc rcs IH]; intros x y Hr Hx Hy D i Hi; [cbn in Hi; lia|]. pose proof (Forall_inv Hr) as R1. pose proof (Forall_inv_tail Hr) as R2. cbn beta in R1. cbn [partial_inputs] in D.
    rewrite differences_app in D by (rewrite !firstn_length, !vadd_length; congruence).
    assert (Z : vsub (sbox_head (vadd x rc)) (sbox_head (vadd y rc)) = vsub x y /\ nth 0 (vsub x y) fzero = fzero).
    { assert (D1 : differences (firstn 1 (vadd x rc)) (firstn 1 (vadd y rc)) = 0) by lia.
      rewrite <- (vsub_vadd x y rc) by congruence.
      destruct (vadd x rc) as [|p u], (vadd y rc) as [|q w]; cbn in *; try (split; reflexivity).
      destruct (feqb p q) eqn:E; [|lia]. apply feqb_eq in E. subst q.
      assert (X : forall z : F, fsub z z = fzero) by (intros z; now apply fsub_eq_0). rewrite !X. split; reflexivity. }
    destruct Z as [Z1 Z0]. destruct i as [|i]; [exact Z0|].
    assert (P : vsub (spec_partial m x rc) (spec_partial m y rc) = mat_vec m (vsub x y)).
    { rewrite <- Z1. symmetry. apply mat_vec_vsub.
      assert (L : length (vadd x rc) = length (vadd y rc)) by (rewrite !vadd_length; congruence).
      destruct (vadd x rc), (vadd y rc); cbn in *; congruence. }
    rewrite iter_r, <- P. apply IH; [assumption|apply partial_len|apply partial_len|lia|cbn in Hi; lia].
  Qed.

  Context (n : nat) (Hn : 0 < n) (Hq : no_quiet_trail T n m).
  Lemma partial_active : forall k rcs (x y : list F), length rcs = k -> Forall (fun r => length r = T) rcs -> length x = T -> length y = T -> x <> y ->
    k / n <= differences (partial_inputs m rcs x) (partial_inputs m rcs y).
  Proof.
    induction k as [k IH] using lt_wf_ind. intros rcs x y Hk Hr Hx Hy N.
    destruct (le_lt_dec n k) as [G|G]; [|rewrite Nat.div_small by assumption; lia].
    assert (Sp : forall a b (z : list F), partial_inputs m (a ++ b) z = partial_inputs m a z ++ partial_inputs m b (fold_left (spec_partial m) a z)).
    { clear. induction a as [|r a IH]; intros b z; [reflexivity|]. cbn [app partial_inputs fold_left]. now rewrite IH, app_assoc. }
    set (a := firstn n rcs) in *. set (b := skipn n rcs) in *.
    assert (E : rcs = a ++ b) by (symmetry; apply firstn_skipn).
    assert (La : length a = n) by (unfold a; rewrite firstn_length; lia).
    assert (Lb : length b = k - n) by (unfold b; rewrite skipn_length; lia).
    rewrite E in Hr. apply Forall_app in Hr. destruct Hr as [Ra Rb]. rewrite E, !Sp.
    rewrite differences_app by (apply partial_inputs_len; assumption).
    destruct (partial_fold a x y Ra Hx Hy N) as (N' & L1 & L2).
    pose proof (IH (k - n) ltac:(lia) b _ _ Lb Rb L1 L2 N') as I.
    assert (1 <= differences (partial_inputs m a x) (partial_inputs m a y)).
    { destruct (differences (partial_inputs m a x) (partial_inputs m a y)) eqn:D; [|lia]. exfalso.
      apply (not_zero x y Hx Hy N). apply Hq; [rewrite vsub_length; congruence|]. rewrite <- La. exact (quiet a x y Ra Hx Hy D). }
    replace k with ((k - n) + 1 * n) by lia. rewrite Nat.div_add by lia. lia.
  Qed.

  Theorem active : forall half partial rcs (x y : list F), half + partial + half <= length rcs -> Forall (fun r => length r = T) rcs ->
    length x = T -> length y = T -> x <> y ->
    2 * ((T + 1) * (half / 2)) + partial / n
      <= differences (sbox_inputs m half partial rcs x) (sbox_inputs m half partial rcs y).
  Proof.
    intros half partial rcs x y Hl Hr Hx Hy N. unfold sbox_inputs.
    set (r1 := firstn half rcs). set (r2 := firstn partial (skipn half rcs)). set (r3 := firstn half (skipn (half + partial) rcs)).
    assert (F1 : Forall (fun r => length r = T) r1) by now apply Forall_firstn.
    assert (F2 : Forall (fun r => length r = T) r2) by now apply Forall_firstn, Forall_skipn.
    assert (F3 : Forall (fun r => length r = T) r3) by now apply Forall_firstn, Forall_skipn.
    assert (L1 : length r1 = half) by (unfold r1; rewrite firstn_length; lia).
    assert (L2 : length r2 = partial) by (unfold r2; rewrite firstn_length, skipn_length; lia).
    assert (L3 : length r3 = half) by (unfold r3; rewrite firstn_length, skipn_length; lia).
    destruct (full_fold r1 x y F1 Hx Hy N) as (N1 & X1 & Y1). destruct (partial_fold r2 _ _ F2 X1 Y1 N1) as (N2 & X2 & Y2).
    rewrite !differences_app; [|now apply partial_inputs_len|now rewrite !full_inputs_len].
    pose proof (full_active half r1 x y L1 F1 Hx Hy N). pose proof (partial_active partial r2 _ _ L2 F2 X1 Y1 N1).
    pose proof (full_active half r3 _ _ L3 F3 X2 Y2 N2). lia.
  Qed.
End Rounds.

(** width 3: the trail condition is a determinant *)
Section Trail3.
  Context {F : Type} {FO : FieldOps F} {PF : PrimeField F}.
  Add Field Ffield2 : f_field.

  Definition trail_det (m : list (list F)) : F :=
    mnth m 0 1 * (mnth m 0 1 * mnth m 1 2 + mnth m 0 2 * mnth m 2 2)
    - mnth m 0 2 * (mnth m 0 1 * mnth m 1 1 + mnth m 0 2 * mnth m 2 1).

  Lemma quiet3 : forall m, square 3 m -> trail_det m <> 0 -> no_quiet_trail 3 3 m.
  Proof.
    intros m [Hl Hr] Hd d Ld Z.
    destruct (length_list3 m Hl) as (r0 & r1 & r2 & ->). inversion Hr as [|? ? A0 Hr1]. inversion Hr1 as [|? ? A1 Hr2]. inversion Hr2 as [|? ? A2 _]. subst.
    destruct (length_list3 _ A0) as (a & b & c & ->). destruct (length_list3 _ A1) as (e & f & g & ->). destruct (length_list3 _ A2) as (h & i & j & ->).
    destruct (length_list3 d Ld) as (x & y & z & ->).
    pose proof (Z 0%nat ltac:(lia)) as Z0. pose proof (Z 1%nat ltac:(lia)) as Z1. pose proof (Z 2%nat ltac:(lia)) as Z2.
    cbn in Z0, Z1, Z2. unfold trail_det, mnth, fnth in Hd. cbn in Hd. subst x.
    set (D := b * (b * g + c * j) - c * (b * f + c * i)) in *.
    set (u := b * f + c * i) in *. set (w := b * g + c * j) in *.
    assert (P1 : b * y + c * z = 0) by (rewrite <- Z1; ring).
    assert (P2 : u * y + w * z = 0).
    { transitivity (a * (b * y + c * z) + (u * y + w * z)); [rewrite P1; ring|]. unfold u, w. rewrite <- Z2. ring. }
    assert (Y : D * y = 0). { transitivity (w * (b * y + c * z) - c * (u * y + w * z)); [unfold D; ring|]. rewrite P1, P2. ring. }
    assert (Zz : D * z = 0). { transitivity (b * (u * y + w * z) - u * (b * y + c * z)); [unfold D; ring|]. rewrite P1, P2. ring. }
    apply fmul_eq_0 in Y, Zz. destruct Y as [Y|Y]; [contradiction|]. destruct Zz as [Zz|Zz]; [contradiction|]. subst. reflexivity.
  Qed.

  (** the columns M e0, M^2 e0, M^3 e0 *)
  Definition det3 (a b c : list F) : F :=
    fnth a 0 * (fnth b 1 * fnth c 2 - fnth b 2 * fnth c 1) - fnth a 1 * (fnth b 0 * fnth c 2 - fnth b 2 * fnth c 0)
    + fnth a 2 * (fnth b 0 * fnth c 1 - fnth b 1 * fnth c 0).
  Definition sum_det (m : list (list F)) : F :=
    let c1 := mat_vec m [1; 0; 0] in let c2 := mat_vec m c1 in let c3 := mat_vec m c2 in det3 c1 c2 c3.

  Lemma cramer : forall a b c f : list F, length a = 3%nat -> length b = 3%nat -> length c = 3%nat -> length f = 3%nat ->
    det3 a b c <> 0 -> dot f a = 0 -> dot f b = 0 -> dot f c = 0 -> f = [0; 0; 0].
  Proof.
    intros a b c f La Lb Lc Lf D A B C.
    destruct (length_list3 a La) as (a0 & a1 & a2 & ->). destruct (length_list3 b Lb) as (b0 & b1 & b2 & ->).
    destruct (length_list3 c Lc) as (c0 & c1 & c2 & ->). destruct (length_list3 f Lf) as (x & y & z & ->).
    unfold det3, fnth in D. cbn in D, A, B, C.
    set (d := a0 * (b1 * c2 - b2 * c1) - a1 * (b0 * c2 - b2 * c0) + a2 * (b0 * c1 - b1 * c0)) in *.
    assert (X : d * x = 0). { transitivity ((b1 * c2 - b2 * c1) * (x * a0 + (y * a1 + (z * a2 + 0))) - (a1 * c2 - a2 * c1) * (x * b0 + (y * b1 + (z * b2 + 0)))
      + (a1 * b2 - a2 * b1) * (x * c0 + (y * c1 + (z * c2 + 0)))); [unfold d; ring|]. rewrite A, B, C. ring. }
    assert (Y : d * y = 0). { transitivity (0 - (b0 * c2 - b2 * c0) * (x * a0 + (y * a1 + (z * a2 + 0))) + (a0 * c2 - a2 * c0) * (x * b0 + (y * b1 + (z * b2 + 0)))
      - (a0 * b2 - a2 * b0) * (x * c0 + (y * c1 + (z * c2 + 0)))); [unfold d; ring|]. rewrite A, B, C. ring. }
    assert (Z : d * z = 0). { transitivity ((b0 * c1 - b1 * c0) * (x * a0 + (y * a1 + (z * a2 + 0))) - (a0 * c1 - a1 * c0) * (x * b0 + (y * b1 + (z * b2 + 0)))
      + (a0 * b1 - a1 * b0) * (x * c0 + (y * c1 + (z * c2 + 0)))); [unfold d; ring|]. rewrite A, B, C. ring. }
    apply fmul_eq_0 in X, Y, Z. destruct X; [contradiction|]. destruct Y; [contradiction|]. destruct Z; [contradiction|]. subst. reflexivity.
  Qed.

  Lemma vadd_vsub_tl : forall x y rc : list F, length x = length rc -> length y = length rc -> vsub (tl (vadd x rc)) (tl (vadd y rc)) = tl (vsub x y).
  Proof. intros x y rc Hx Hy. rewrite <- (vsub_vadd x y rc) by assumption. destruct (vadd x rc), (vadd y rc); cbn; try reflexivity. now destruct l. Qed.

  Lemma blind3 : forall m, square 3 m -> sum_det m <> 0 -> no_blind_sum 3 3 m.
  Proof.
    intros m Hm Hd rcs st f Lr Fr Ls Lf B.
    assert (Lv : forall v, length (mat_vec m v) = 3%nat) by (intros; unfold mat_vec; rewrite map_length; apply Hm).
    destruct (length_list3 rcs Lr) as (r0 & r1 & r2 & ->).
    pose proof (Forall_inv Fr) as A0. pose proof (Forall_inv (Forall_inv_tail Fr)) as A1. pose proof (Forall_inv (Forall_inv_tail (Forall_inv_tail Fr))) as A2. cbn beta in A0, A1, A2.
    (* two runs: the difference of the results *)
    assert (Dif : forall vs vs', length vs = 3%nat -> length vs' = 3%nat -> dot f (vsub (free_rounds m [r0; r1; r2] vs st) (free_rounds m [r0; r1; r2] vs' st)) = 0).
    { intros vs vs' H1 H2. destruct (length_list3 vs H1) as (? & ? & ? & ->). destruct (length_list3 vs' H2) as (? & ? & ? & ->).
      rewrite dot_vsub by (cbn [free_rounds]; rewrite !Lv; reflexivity). apply fsub_eq_0. apply B; reflexivity. }
    assert (Step : forall x y rc v w, length x = 3%nat -> length y = 3%nat -> length rc = 3%nat ->
      vsub (mat_vec m (v :: tl (vadd x rc))) (mat_vec m (w :: tl (vadd y rc))) = mat_vec m ((v - w) :: tl (vsub x y))).
    { intros x y rc v w Hx Hy Hrc. rewrite <- mat_vec_vsub.
      - cbn [vsub]. now rewrite vadd_vsub_tl by congruence.
      - destruct (length_list3 x Hx) as (? & ? & ? & ->). destruct (length_list3 y Hy) as (? & ? & ? & ->). destruct (length_list3 rc Hrc) as (? & ? & ? & ->). reflexivity. }
    assert (Self : forall x : list F, length x = 3%nat -> tl (vsub x x) = [0; 0]).
    { intros x Hx. destruct (length_list3 x Hx) as (p & q & r & ->). cbn. f_equal; [ring|]. f_equal. ring. }
    assert (Hdt : forall v : list F, length v = 3%nat -> fnth v 0 :: tl v = v) by (intros v Hv; destruct (length_list3 v Hv) as (? & ? & ? & ->); reflexivity).
    set (c1 := mat_vec m [1; 0; 0]). set (c2 := mat_vec m c1). set (c3 := mat_vec m c2).
    assert (E1 : dot f c1 = 0).
    { rewrite <- (Dif [0; 0; 1] [0; 0; 0]) by reflexivity. f_equal. cbn [free_rounds]. rewrite Step by auto. rewrite Self by auto.
      unfold c1. do 2 f_equal. ring. }
    assert (E2 : dot f c2 = 0).
    { rewrite <- (Dif [0; 1; fnth c1 0] [0; 0; 0]) by reflexivity. f_equal. cbn [free_rounds]. rewrite Step by auto. rewrite Step by auto. rewrite Self by auto.
      replace (1 - 0) with (1 : F) by ring. fold c1. replace (fnth c1 0 - 0) with (fnth c1 0) by ring. now rewrite Hdt by apply Lv. }
    assert (E3 : dot f c3 = 0).
    { rewrite <- (Dif [1; fnth c1 0; fnth c2 0] [0; 0; 0]) by reflexivity. f_equal. cbn [free_rounds]. rewrite !Step by auto. rewrite Self by auto.
      replace (1 - 0) with (1 : F) by ring. fold c1. replace (fnth c1 0 - 0) with (fnth c1 0) by ring. rewrite Hdt by apply Lv. fold c2.
      replace (fnth c2 0 - 0) with (fnth c2 0) by ring. now rewrite Hdt by apply Lv. }
    apply (cramer c1 c2 c3 f); auto; apply Lv.
  Qed.
End Trail3.
