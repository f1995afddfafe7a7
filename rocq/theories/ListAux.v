(** List lemmas. *)
From Coq Require Import List Arith Lia.
From Verif Require Import Rust.
Import ListNotations.

Lemma upd_length : forall {A} (l : list A) i x, length (upd l i x) = length l.
Proof. induction l; destruct i; cbn; intros; auto. Qed.

Lemma nth_upd_same : forall {A} (l : list A) i x d, i < length l -> nth i (upd l i x) d = x.
Proof.
  induction l as [|a l IH]; intros [|i] x d H; cbn in *; try lia; auto.
  apply IH; lia.
Qed.

Lemma nth_upd_other : forall {A} (l : list A) i j x d, i <> j -> nth j (upd l i x) d = nth j l d.
Proof.
  induction l as [|a l IH]; intros [|i] [|j] x d H; cbn in *; try lia; auto.
Qed.

Lemma nth_error_upd_same : forall {A} (l : list A) i x, i < length l -> nth_error (upd l i x) i = Some x.
Proof.
  induction l as [|a l IH]; intros [|i] x H; cbn in *; try lia; auto.
  apply IH; lia.
Qed.

Lemma nth_error_upd_other : forall {A} (l : list A) i j x, i <> j -> nth_error (upd l i x) j = nth_error l j.
Proof.
  induction l as [|a l IH]; intros [|i] [|j] x H; cbn in *; try lia; auto.
Qed.

Lemma zip_mut_length : forall {A B} (f : A -> B -> A) a b, length (zip_mut f a b) = length a.
Proof. induction a; destruct b; cbn; auto. Qed.

Lemma nth_ext_len : forall {A} (l l' : list A) d, length l = length l' ->
  (forall i, i < length l -> nth i l d = nth i l' d) -> l = l'.
Proof. intros. apply nth_ext with (d := d) (d' := d); auto. Qed.

Lemma nth_map_seq : forall {A} (f : nat -> A) n i d, i < n -> nth i (map f (seq 0 n)) d = f i.
Proof.
  intros A f n i d H. rewrite nth_indep with (d' := f 0) by (rewrite map_length, seq_length; lia).
  rewrite map_nth, seq_nth by lia. reflexivity.
Qed.

Lemma nth_map_seq_from : forall {A} (f : nat -> A) s n i d, i < n -> nth i (map f (seq s n)) d = f (s + i).
Proof.
  intros A f s n i d H. rewrite nth_indep with (d' := f 0) by (rewrite map_length, seq_length; lia).
  rewrite map_nth, seq_nth by lia. reflexivity.
Qed.

Lemma map_seq_nth : forall {A} (l : list A) d, map (fun i => nth i l d) (seq 0 (length l)) = l.
Proof.
  intros A l d. apply nth_ext_len with (d := d).
  - now rewrite map_length, seq_length.
  - intros i H. rewrite map_length, seq_length in H. now rewrite nth_map_seq.
Qed.

Lemma firstn_skipn_nth : forall {A} (l : list A) i d, i < length l ->
  l = firstn i l ++ nth i l d :: skipn (S i) l.
Proof.
  induction l as [|a l IH]; intros [|i] d H; cbn in *; try lia; auto.
  f_equal. apply IH. lia.
Qed.

Lemma length_list3 : forall {A} (l : list A), length l = 3 -> exists a b c, l = [a; b; c].
Proof.
  intros A [|a [|b [|c [|? ?]]]] H; cbn in H; try discriminate. now exists a, b, c.
Qed.

Lemma fold_r_app : forall {A B} (f : B -> A -> result B) l1 l2 b,
  fold_r f (l1 ++ l2) b = bind (fold_r f l1 b) (fold_r f l2).
Proof.
  induction l1 as [|x l1 IH]; intros l2 b; cbn; [reflexivity|].
  destruct (f b x); cbn; [apply IH|reflexivity].
Qed.

Lemma repeat_snoc : forall {A} (x : A) n, repeat x n ++ [x] = repeat x (S n).
Proof. induction n; cbn; [reflexivity|now rewrite IHn]. Qed.

Lemma skipn_skipn : forall {A} x y (l : list A), skipn x (skipn y l) = skipn (x + y) l.
Proof.
  intros A x y. revert x. induction y as [|y IH]; intros x l.
  - now rewrite Nat.add_0_r.
  - rewrite Nat.add_succ_r. destruct l; cbn; [now rewrite skipn_nil|apply IH].
Qed.

Lemma nth_skipn : forall {A} n i (l : list A) d, nth i (skipn n l) d = nth (n + i) l d.
Proof.
  intros A n. induction n as [|n IH]; intros i l d; cbn; [reflexivity|].
  destruct l as [|x l]; [now destruct i|]. apply IH.
Qed.

Lemma nth_firstn : forall {A} n i (l : list A) d, i < n -> nth i (firstn n l) d = nth i l d.
Proof.
  intros A n. induction n as [|n IH]; intros i l d H; [lia|].
  destruct l as [|x l]; [reflexivity|]. destruct i as [|i]; [reflexivity|]. cbn. apply IH. lia.
Qed.
