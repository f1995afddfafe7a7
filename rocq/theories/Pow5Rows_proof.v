(** The rows of a Pow5 permutation: what each computes, that together they are the permutation, and what the
    chip writes into them. *)
From Coq Require Import ZArith List Arith Lia Bool.
From Verif Require Import Field Rust ListAux Primitives Specs SpecHash Perm_proof BigSum Link Halo2 Pow5
  Layout_proof Pow5Gate_proof.
Import ListNotations.
Local Open Scope nat_scope.

(** a row: one full round, two partial rounds or one partial round, starting with a round number *)
Inductive kind : Type := KFull (r : nat) | KPair (r : nat) | KSingle (r : nat).

Section Rows.
  Context {F : Type} {FO : FieldOps F} {PF : PrimeField F}.
  Add Field Ffield : f_field.
  Variable T : nat.
  Variable s : spec F.
  Notation hf := (half_full s).
  Notation hp := (half_partial s).
  Notation odd := (Nat.modulo (partial_rounds s) 2).
  Notation rcs := (round_constants s).
  Definition rcl (r : nat) : list F := nth r rcs [].
  Definition rcf (r i : nat) : F := mnth rcs r i.

  Definition p5_rows : list kind :=
    map KFull (seq 0 hf) ++ map (fun r => KPair (hf + 2 * r)) (seq 0 hp)
    ++ (if odd =? 1 then [KSingle (hf + 2 * hp)] else [])
    ++ map (fun r => KFull (hf + 2 * hp + odd + r)) (seq 0 hf).
  Definition p5_R : nat := hf + hp + odd + hf.

  Lemma odd_cases : odd = 0 \/ odd = 1.
  Proof. pose proof (Nat.mod_upper_bound (partial_rounds s) 2). lia. Qed.
  Lemma odd_partial : partial_rounds s = 2 * hp + odd.
  Proof. unfold half_partial. apply Nat.div_mod. lia. Qed.
  Lemma p5_rows_length : length p5_rows = p5_R.
  Proof.
    unfold p5_rows, p5_R. rewrite !app_length, !map_length, !seq_length.
    destruct odd_cases as [-> | ->]; cbn [Nat.eqb length]; lia.
  Qed.
  Lemma odd_test : (hp * 2 <? partial_rounds s) = (odd =? 1).
  Proof.
    rewrite odd_partial at 1. destruct odd_cases as [-> | ->]; cbn [Nat.eqb].
    - apply Nat.ltb_ge. lia.
    - apply Nat.ltb_lt. lia.
  Qed.

  (** ** Values *)
  Definition kind_step (k : kind) (st : list F) : list F :=
    match k with
    | KFull r => spec_full (mds s) st (rcl r)
    | KPair r => spec_partial (mds s) (spec_partial (mds s) st (rcl r)) (rcl (r + 1))
    | KSingle r => spec_partial (mds s) st (rcl r)
    end.
  Definition kind_ok (k : kind) (cu nx : nat -> F) (sb : F) : Prop :=
    match k with
    | KFull r => full_ok T s (rcf r) cu nx
    | KPair r => pair_ok T s (rcf r) (rcf (r + 1)) cu nx sb
    | KSingle r => single_ok T s (rcf r) cu nx
    end.
  (** the number of rounds is available *)
  Definition kind_fits (k : kind) : Prop :=
    match k with KFull r | KSingle r => r < length rcs | KPair r => r + 1 < length rcs end.
  Definition lst (f : nat -> F) : list F := map f (seq 0 T).

  Hypothesis Hspec : poseidon_spec T s.
  Hypothesis HT : 1 < T.

  Lemma spec_square : square T (mds s).
  Proof. apply Hspec. Qed.
  Lemma rcl_length : forall r, r < length rcs -> length (rcl r) = T.
  Proof.
    intros r H. destruct Hspec as (_ & _ & Hl & _). rewrite Forall_forall in Hl. apply Hl, nth_In, H.
  Qed.
  Lemma lst_length : forall f, length (lst f) = T.
  Proof. intros f. unfold lst. now rewrite map_length, seq_length. Qed.
  Lemma lst_nth : forall f i, i < T -> nth i (lst f) fzero = f i.
  Proof. intros f i H. now apply nth_map_seq. Qed.
  Lemma lst_ext : forall f g, (forall i, i < T -> f i = g i) <-> lst f = lst g.
  Proof.
    intros f g. split.
    - intros H. apply map_ext_in. intros i Hi. apply in_seq in Hi. apply H. lia.
    - intros H i Hi. apply (f_equal (fun l => nth i l fzero)) in H. now rewrite !lst_nth in H.
  Qed.
  Lemma lst_of : forall l, length l = T -> lst (fnth l) = l.
  Proof. intros l H. unfold lst. rewrite <- H. apply map_seq_nth. Qed.

  Lemma mat_vec_lst : forall v, mat_vec (mds s) (lst v) = lst (mix T s v).
  Proof.
    intros v. rewrite <- (apply_mds_mat_vec T) by (try apply spec_square; apply lst_length).
    apply nth_ext_len with (d := fzero).
    - now rewrite apply_mds_length, lst_length.
    - intros i Hi. rewrite apply_mds_length in Hi. rewrite lst_nth by assumption.
      change (nth i ?l fzero) with (fnth l i). rewrite nth_apply_mds by assumption. unfold mix.
      apply sum_n_ext. intros j Hj. f_equal. now apply lst_nth.
  Qed.
  Lemma vadd_nth : forall (a b : list F) i, length a = length b -> i < length a ->
    nth i (vadd a b) fzero = fadd (nth i a fzero) (nth i b fzero).
  Proof.
    induction a as [|x a IH]; intros [|y b] [|i] H1 H2; cbn in *; try lia; [reflexivity|]. apply IH; lia.
  Qed.
  Lemma vadd_lst : forall cu r, r < length rcs -> vadd (lst cu) (rcl r) = lst (fun i => fadd (cu i) (rcf r i)).
  Proof.
    intros cu r H. pose proof (rcl_length r H) as L. apply nth_ext_len with (d := fzero).
    - rewrite vadd_length; rewrite lst_length; [now rewrite lst_length|congruence].
    - intros i Hi. rewrite vadd_length, lst_length in Hi by (rewrite lst_length; congruence).
      rewrite vadd_nth, !lst_nth by (rewrite ?lst_length; congruence || assumption). reflexivity.
  Qed.
  Lemma lst_first : forall f, lst f = f 0 :: map f (seq 1 (T - 1)).
  Proof. intros f. unfold lst. replace T with (S (T - 1)) at 1 by lia. reflexivity. Qed.

  Lemma full_lst : forall r cu, r < length rcs ->
    spec_full (mds s) (lst cu) (rcl r) = lst (mix T s (fun j => power5 (fadd (cu j) (rcf r j)))).
  Proof.
    intros r cu H. unfold spec_full. rewrite vadd_lst by assumption. unfold lst at 1. rewrite map_map. apply mat_vec_lst.
  Qed.
  Lemma partial_lst : forall r cu, r < length rcs ->
    spec_partial (mds s) (lst cu) (rcl r) = lst (mix T s (psb (rcf r) cu)).
  Proof.
    intros r cu H. unfold spec_partial. rewrite vadd_lst by assumption. rewrite lst_first.
    rewrite <- mat_vec_lst. f_equal. rewrite (lst_first (psb _ _)). f_equal. apply map_ext_in.
    intros i Hi. apply in_seq in Hi. unfold psb. replace (i =? 0) with false by (symmetry; apply Nat.eqb_neq; lia). reflexivity.
  Qed.

  Lemma kind_iff : forall k cu nx sb, kind_fits k ->
    (kind_ok k cu nx sb <-> lst nx = kind_step k (lst cu)
       /\ match k with KPair r => sb = power5 (fadd (cu 0) (rcf r 0)) | _ => True end).
  Proof.
    intros [r|r|r] cu nx sb H; cbn [kind_ok kind_step kind_fits] in *.
    - rewrite full_lst by assumption. unfold full_ok. rewrite lst_ext. tauto.
    - rewrite partial_lst, partial_lst by lia. unfold pair_ok. rewrite lst_ext. tauto.
    - rewrite partial_lst by assumption. unfold single_ok. rewrite lst_ext. tauto.
  Qed.

  Lemma half_full_div2 : hf = Nat.div2 (full_rounds s).
  Proof. unfold half_full. symmetry. apply Nat.div2_div. Qed.
  Lemma enough_rounds : hf + 2 * hp + odd + hf <= length rcs.
  Proof.
    destruct Hspec as (_ & _ & _ & H). rewrite half_full_div2. rewrite odd_partial in H. lia.
  Qed.
  Lemma rows_fit : Forall kind_fits p5_rows.
  Proof.
    pose proof enough_rounds as E. unfold p5_rows. rewrite !Forall_app. repeat split; apply Forall_forall; intros k Hk.
    - apply in_map_iff in Hk. destruct Hk as (r & <- & Hr). apply in_seq in Hr. cbn. lia.
    - apply in_map_iff in Hk. destruct Hk as (r & <- & Hr). apply in_seq in Hr. cbn [kind_fits]. lia.
    - destruct odd_cases as [E1|E1]; rewrite E1 in Hk; cbn [Nat.eqb] in Hk; [easy|]. destruct Hk as [<-|[]]. cbn [kind_fits]. lia.
    - apply in_map_iff in Hk. destruct Hk as (r & <- & Hr). apply in_seq in Hr. cbn [kind_fits]. lia.
  Qed.

  Lemma firstn_skipn_map : forall (l : list (list F)) k a, a + k <= length l ->
    firstn k (skipn a l) = map (fun i => nth i l []) (seq a k).
  Proof.
    intros l k a H. apply nth_ext_len with (d := []).
    - rewrite map_length, seq_length, firstn_length, skipn_length. lia.
    - intros i Hi. rewrite firstn_length, skipn_length in Hi. rewrite nth_firstn, nth_skipn by lia.
      rewrite nth_map_seq_from by lia. reflexivity.
  Qed.
  Lemma fold_map : forall {A B C} (f : A -> B -> A) (g : C -> B) l a,
    fold_left f (map g l) a = fold_left (fun a c => f a (g c)) l a.
  Proof. intros A B C f g l. induction l as [|x l IH]; intros a; cbn; [reflexivity|apply IH]. Qed.
  Lemma fold_pairs : forall {A} (g : A -> nat -> A) a b k,
    fold_left (fun st r => g (g st (b + 2 * r)) (b + 2 * r + 1)) (seq 0 k) a = fold_left g (seq b (2 * k)) a.
  Proof.
    intros A g a b k. induction k as [|k IH]; [reflexivity|].
    rewrite seq_S, fold_left_app, IH. replace (2 * S k) with (2 * k + 2) by lia. rewrite seq_app, fold_left_app.
    cbn [fold_left seq Nat.add]. f_equal. lia.
  Qed.

  (** the rows are the permutation *)
  Theorem rows_permutation : forall st,
    fold_left (fun st k => kind_step k st) p5_rows st = textbook s st.
  Proof.
    intros st. pose proof enough_rounds as E. pose proof odd_partial as O. unfold textbook, spec_permute. rewrite <- half_full_div2.
    unfold p5_rows. rewrite !fold_left_app.
    change (firstn hf rcs) with (firstn hf (skipn 0 rcs)). rewrite !firstn_skipn_map by lia.
    rewrite !fold_map. cbn [kind_step].
    rewrite (fold_pairs (fun st r => spec_partial (mds s) st (rcl r))).
    assert (M : forall x, fold_left (fun st k => kind_step k st) (if odd =? 1 then [KSingle (hf + 2 * hp)] else [])
        (fold_left (fun st r => spec_partial (mds s) st (rcl r)) (seq hf (2 * hp)) x)
      = fold_left (fun st r => spec_partial (mds s) st (rcl r)) (seq hf (partial_rounds s)) x).
    { intros x. replace (seq hf (partial_rounds s)) with (seq hf (2 * hp + odd)) by (f_equal; lia).
      rewrite seq_app, fold_left_app. destruct odd_cases as [-> | ->]; reflexivity. }
    rewrite M. replace (hf + partial_rounds s) with (hf + 2 * hp + odd) by lia.
    assert (S1 : forall k a (y : list F), fold_left (fun st r => spec_full (mds s) st (rcl (a + r))) (seq 0 k) y
      = fold_left (fun st r => spec_full (mds s) st (rcl r)) (seq a k) y).
    { intros k a y. replace (seq a k) with (map (Nat.add a) (seq 0 k)).
      - now rewrite fold_map.
      - clear. revert a. induction k as [|k IH]; intros a; [reflexivity|]. cbn [seq map]. rewrite Nat.add_0_r. f_equal.
        rewrite <- (IH (S a)), <- seq_shift, map_map. apply map_ext. intros. lia. }
    rewrite S1. reflexivity.
  Qed.
End Rows.
