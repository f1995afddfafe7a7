(** Finite sums over index ranges and matrix identities. *)
From Coq Require Import ZArith List Arith Lia.
From Verif Require Import Field Rust ListAux Primitives SpecHash Perm_proof.
Import ListNotations.
Local Open Scope F_scope.

Section Sums.
  Context {F : Type} {FO : FieldOps F}.

  Fixpoint sum_n (n : nat) (f : nat -> F) : F :=
    match n with O => 0 | S n' => sum_n n' f + f n' end.

  (** product of two T x T matrices is the identity *)
  Definition mat_prod_id (T : nat) (a b : list (list F)) : Prop :=
    forall i j, (i < T)%nat -> (j < T)%nat ->
      sum_n T (fun k => mnth a i k * mnth b k j) = if (i =? j)%nat then 1 else 0.
End Sums.

Section Proofs.
  Context {F : Type} {FO : FieldOps F} {PF : PrimeField F}.
  Add Field Ffield : f_field.

  Lemma sum_n_ext : forall n (f g : nat -> F), (forall i, (i < n)%nat -> f i = g i) ->
    sum_n n f = sum_n n g.
  Proof.
    induction n as [|n IH]; intros f g H; cbn; [reflexivity|].
    rewrite (IH f g) by (intros; apply H; lia). now rewrite H by lia.
  Qed.

  Lemma sum_n_zero : forall n, sum_n n (fun _ => 0 : F) = 0.
  Proof. induction n as [|n IH]; cbn; [reflexivity|]. rewrite IH. ring. Qed.

  Lemma sum_n_add : forall n (f g : nat -> F), sum_n n (fun i => f i + g i) = sum_n n f + sum_n n g.
  Proof. induction n as [|n IH]; intros f g; cbn; [ring|]. rewrite IH. ring. Qed.

  Lemma sum_n_mul_l : forall n c (f : nat -> F), sum_n n (fun i => c * f i) = c * sum_n n f.
  Proof. induction n as [|n IH]; intros c f; cbn; [ring|]. rewrite IH. ring. Qed.

  Lemma sum_n_mul_r : forall n c (f : nat -> F), sum_n n (fun i => f i * c) = sum_n n f * c.
  Proof. induction n as [|n IH]; intros c f; cbn; [ring|]. rewrite IH. ring. Qed.

  Lemma sum_n_swap : forall n k (f : nat -> nat -> F),
    sum_n n (fun i => sum_n k (fun j => f i j)) = sum_n k (fun j => sum_n n (fun i => f i j)).
  Proof.
    induction n as [|n IH]; intros k f; cbn.
    - now rewrite sum_n_zero.
    - rewrite IH. rewrite <- sum_n_add. reflexivity.
  Qed.

  Lemma sum_n_delta : forall n i (f : nat -> F), (i < n)%nat ->
    sum_n n (fun k => (if (i =? k)%nat then 1 else 0) * f k) = f i.
  Proof.
    induction n as [|n IH]; intros i f H; cbn; [lia|].
    destruct (Nat.eq_dec i n) as [->|E].
    - rewrite Nat.eqb_refl.
      rewrite (sum_n_ext n _ (fun _ => 0)).
      + rewrite sum_n_zero. ring.
      + intros k Hk. replace (n =? k)%nat with false by (symmetry; apply Nat.eqb_neq; lia). ring.
    - rewrite IH by lia. replace (i =? n)%nat with false by (symmetry; apply Nat.eqb_neq; lia). ring.
  Qed.

  Lemma fsum_app : forall l1 l2 : list F, fsum (l1 ++ l2) = fsum l1 + fsum l2.
  Proof. induction l1 as [|x l1 IH]; intros l2; cbn; [ring|]. rewrite IH. ring. Qed.

  Lemma fsum_map_seq : forall n (f : nat -> F), fsum (map f (seq 0 n)) = sum_n n f.
  Proof.
    induction n as [|n IH]; intros f; [reflexivity|].
    rewrite seq_S, map_app, fsum_app, IH. cbn. ring.
  Qed.

  Lemma nth_apply_mds : forall T m (v : list F) i, (i < T)%nat ->
    fnth (apply_mds T m v) i = sum_n T (fun j => mnth m i j * fnth v j).
  Proof.
    intros T m v i Hi. unfold apply_mds, fnth at 1. rewrite nth_map_seq by assumption.
    rewrite fold_add, fsum_map_seq. ring.
  Qed.

  Lemma apply_mds_inverse : forall T a b (v : list F), mat_prod_id T a b -> length v = T ->
    apply_mds T a (apply_mds T b v) = v.
  Proof.
    intros T a b v Hab Hv. apply nth_ext_len with (d := 0).
    - now rewrite apply_mds_length.
    - intros i Hi. rewrite apply_mds_length in Hi.
      change (nth i ?l 0) with (fnth l i). rewrite nth_apply_mds by assumption.
      rewrite (sum_n_ext T _ (fun j => sum_n T (fun k => mnth a i j * mnth b j k * fnth v k))).
      2:{ intros j Hj. rewrite nth_apply_mds by assumption. rewrite <- sum_n_mul_l.
          apply sum_n_ext. intros; ring. }
      rewrite sum_n_swap.
      rewrite (sum_n_ext T _ (fun k => (if (i =? k)%nat then 1 else 0) * fnth v k)).
      2:{ intros k Hk. rewrite sum_n_mul_r. now rewrite Hab. }
      now apply sum_n_delta.
  Qed.
End Proofs.
