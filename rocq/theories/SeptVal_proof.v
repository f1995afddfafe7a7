(** The rounds of the Septidon chip on values, and their relation to the textbook permutation. *)
From Coq Require Import ZArith List Arith Lia Bool.
From Verif Require Import Field Rust ListAux Primitives Specs SpecHash Link Perm_proof Compact_proof
  Halo2 Septidon.
Import ListNotations.
Local Open Scope nat_scope.

Lemma Ok_inj : forall {A} (a b : A), Ok a = Ok b -> a = b.
Proof. intros A a b H. now inversion H. Qed.

Definition of3 {A} (a : arr3 A) : list A := let '(x, y, z) := a in [x; y; z].
Definition fst3 {A} (a : arr3 A) : A := let '(x, _, _) := a in x.

Section Proofs.
  Context {F : Type} {FO : FieldOps F} {PF : PrimeField F}.
  Add Field Ffield : f_field.
  Variable rcs : list (list F).
  Variable m : list (list F).

  Definition fr (i : nat) (st : arr3 F) : arr3 F :=
    let '(x, y, z) := st in
    matmul_value m (sbox_value x (mnth rcs i 0), sbox_value y (mnth rcs i 1),
                    sbox_value z (mnth rcs i 2)).
  Definition pr (rc : F) (st : arr3 F) : arr3 F :=
    let '(x, y, z) := st in matmul_value m (sbox_value x rc, y, z).
  Definition is_full (i : nat) : bool := (i <? 4) || (61 <=? i).
  Definition round (i : nat) (st : arr3 F) : arr3 F :=
    if is_full i then fr i st else pr (mnth rcs i 0) st.
  (** the state before round [i] *)
  Fixpoint st_at (init : arr3 F) (i : nat) : arr3 F :=
    match i with 0 => init | S i' => round i' (st_at init i') end.

  (** a compact table for 8 full and at least 57 partial rounds *)
  Definition table_ok : Prop :=
    square 3 m /\ 65 <= length rcs /\ Forall (fun r => length r = 3) rcs
    /\ forall i, 4 <= i < 61 -> mnth rcs i 1 = fzero /\ mnth rcs i 2 = fzero.

  Lemma table_rows : table_ok -> 65 <= length rcs.
  Proof. intros (_ & H & _). exact H. Qed.

  Lemma sbox_value_power5 : forall x rc : F, sbox_value x rc = power5 (fadd x rc).
  Proof. intros. unfold sbox_value, pow_5_value, power5. ring. Qed.

  Lemma row3 : forall i, table_ok -> i < 65 ->
    nth i rcs [] = [mnth rcs i 0; mnth rcs i 1; mnth rcs i 2].
  Proof.
    intros i (_ & Hl & Hr & _) Hi. unfold mnth, fnth.
    assert (H : length (nth i rcs []) = 3).
    { rewrite Forall_forall in Hr. apply Hr, nth_In. lia. }
    destruct (length_list3 _ H) as (a & b & c & ->). reflexivity.
  Qed.

  Lemma matmul_mat_vec : forall v, square 3 m -> of3 (matmul_value m v) = mat_vec m (of3 v).
  Proof.
    intros [[x y] z] [Hl Hr].
    destruct (length_list3 m Hl) as (r0 & r1 & r2 & ->).
    rewrite Forall_forall in Hr.
    destruct (length_list3 r0 (Hr r0 ltac:(cbn; auto))) as (? & ? & ? & ->).
    destruct (length_list3 r1 (Hr r1 ltac:(cbn; auto))) as (? & ? & ? & ->).
    destruct (length_list3 r2 (Hr r2 ltac:(cbn; auto))) as (? & ? & ? & ->).
    cbn. f_equal; [ring|]. f_equal; [ring|]. f_equal. ring.
  Qed.

  Lemma fr_spec : forall i st, table_ok -> i < 65 ->
    of3 (fr i st) = spec_full m (of3 st) (nth i rcs []).
  Proof.
    intros i [[x y] z] H Hi. rewrite row3 by assumption. unfold fr, spec_full.
    rewrite matmul_mat_vec by apply H. cbn [of3 vadd map]. now rewrite !sbox_value_power5.
  Qed.

  Lemma pr_spec : forall i st, table_ok -> 4 <= i < 61 ->
    of3 (pr (mnth rcs i 0) st) = spec_partial m (of3 st) (nth i rcs []).
  Proof.
    intros i [[x y] z] H Hi. rewrite row3 by (assumption || lia). unfold pr, spec_partial.
    rewrite matmul_mat_vec by apply H. cbn [of3 vadd map]. rewrite !sbox_value_power5.
    destruct H as (_ & _ & _ & Hz). destruct (Hz i Hi) as [-> ->].
    f_equal. f_equal. f_equal; [ring|]. f_equal. ring.
  Qed.

  Lemma firstn_skipn_seq : forall {A} (l : list A) d j k, j + k <= length l ->
    firstn k (skipn j l) = map (fun i => nth i l d) (seq j k).
  Proof.
    intros A l d j k H. apply (nth_ext_len _ _ d).
    - rewrite firstn_length, skipn_length, map_length, seq_length. lia.
    - intros i Hi. rewrite firstn_length, skipn_length in Hi.
      rewrite nth_firstn by lia. rewrite nth_skipn. now rewrite nth_map_seq_from by lia.
  Qed.

  Lemma fold_left_map_ : forall {A B C} (g : A -> B -> A) (f : C -> B) l a,
    fold_left g (map f l) a = fold_left (fun a x => g a (f x)) l a.
  Proof. induction l; intros; cbn; auto. Qed.

  Lemma fold_round_seq : forall (g : list F -> list F -> list F) init j k,
    (forall i st, j <= i < j + k -> of3 (round i st) = g (of3 st) (nth i rcs [])) ->
    fold_left (fun st i => g st (nth i rcs [])) (seq j k) (of3 (st_at init j)) = of3 (st_at init (j + k)).
  Proof.
    intros g init j k. revert j. induction k as [|k IH]; intros j H; cbn [seq fold_left].
    - now rewrite Nat.add_0_r.
    - rewrite <- H by lia. change (round j (st_at init j)) with (st_at init (S j)).
      rewrite IH by (intros; apply H; lia). f_equal. f_equal. lia.
  Qed.

  Theorem st_at_permute : forall init, table_ok ->
    of3 (st_at init 65) = spec_permute m 4 57 rcs (of3 init).
  Proof.
    intros init H. unfold spec_permute.
    assert (Hl : 65 <= length rcs) by apply H.
    change (firstn 4 rcs) with (firstn 4 (skipn 0 rcs)).
    rewrite !(firstn_skipn_seq rcs []) by lia. rewrite !fold_left_map_.
    change (of3 init) with (of3 (st_at init 0)).
    rewrite (fold_round_seq (spec_full m) init 0 4).
    2:{ intros i st Hi. unfold round, is_full.
        replace (i <? 4) with true by (symmetry; apply Nat.ltb_lt; lia). apply fr_spec; [assumption|lia]. }
    rewrite (fold_round_seq (spec_partial m) init 4 57).
    2:{ intros i st Hi. unfold round, is_full.
        replace (i <? 4) with false by (symmetry; apply Nat.ltb_ge; lia).
        replace (61 <=? i) with false by (symmetry; apply Nat.leb_gt; lia).
        apply pr_spec; [assumption|lia]. }
    rewrite (fold_round_seq (spec_full m) init 61 4); [reflexivity|].
    intros i st Hi. unfold round, is_full.
    replace (61 <=? i) with true by (symmetry; apply Nat.leb_le; lia). rewrite orb_true_r.
    apply fr_spec; [assumption|lia].
  Qed.
End Proofs.

Section Compact.
  Context {F : Type} {FO : FieldOps F} {PF : PrimeField F}.

  Lemma push_zero_tail : forall (m : list (list F)) p rows i, Forall (fun r => length r = 3) rows ->
    i < p -> p < length rows ->
    mnth (push m p rows) i 1 = fzero /\ mnth (push m p rows) i 2 = fzero.
  Proof.
    intros m p. induction p as [|p IH]; intros rows i Hw Hi Hp; [lia|].
    destruct rows as [|r [|r1 rest]]; cbn in Hp; try lia.
    inversion Hw as [|? ? H1 H2]; subst. inversion H2 as [|? ? H3 H4]; subst.
    cbn [push]. destruct i as [|i].
    - destruct (length_list3 r H1) as (a & b & c & ->). split; reflexivity.
    - change (mnth (?a :: ?l) (S i) 1) with (mnth l i 1).
      change (mnth (?a :: ?l) (S i) 2) with (mnth l i 2).
      apply IH; [|lia|cbn; lia].
      constructor; [|assumption]. unfold vec_accumulate. now rewrite zip_mut_length.
  Qed.

  (** the compact table of well-shaped constants is what Septidon expects *)
  Lemma compact_table_ok : forall (c : p128_constants F) rc,
    constants_ok c -> 57 <= pc_partial_rounds c ->
    compact_round_constants 8 (pc_partial_rounds c) (pc_mds c) (pc_round_constants c) = Ok rc ->
    table_ok rc (pc_mds c).
  Proof.
    intros c rc (Hm & Hr & Hl) Hp Hc.
    rewrite compact_ok in Hc by (rewrite Hl; cbn; lia).
    change (Nat.div2 8) with 4 in Hc. apply Ok_inj in Hc. subst rc.
    set (rows := pc_round_constants c) in *.
    assert (H4 : length (firstn 4 rows) = 4) by (rewrite firstn_length; lia).
    split; [exact Hm|]. split; [|split].
    - rewrite app_length, push_length, skipn_length. lia.
    - apply Forall_app. split; [now apply Forall_firstn|].
      apply push_width. now apply Forall_skipn.
    - intros i Hi. unfold mnth. rewrite app_nth2 by lia. rewrite H4.
      apply push_zero_tail; [now apply Forall_skipn|lia|rewrite skipn_length; lia].
  Qed.
End Compact.
