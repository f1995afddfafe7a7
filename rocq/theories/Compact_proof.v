(** Pushing the constants of partial rounds forward does not change the permutation. *)
From Coq Require Import ZArith List Arith Lia.
From Verif Require Import Field Rust ListAux Primitives SpecHash Specs Perm_proof.
Import ListNotations.
Local Open Scope F_scope.

Section Proofs.
  Context {F : Type} {FO : FieldOps F} {PF : PrimeField F}.
  Add Field Ffield : f_field.

  (** the loop as a recursion on the rows from the first partial round on *)
  Fixpoint push (m : list (list F)) (p : nat) (rows : list (list F)) : list (list F) :=
    match p, rows with
    | S p', r :: r1 :: rest =>
      fst (vec_remove_tail r)
      :: push m p' (vec_accumulate r1 (mat_mul 3 m (snd (vec_remove_tail r))) :: rest)
    | _, _ => rows
    end.

  Lemma upd_app_r : forall {A} (l1 l2 : list A) i x,
    upd (l1 ++ l2) (length l1 + i) x = l1 ++ upd l2 i x.
  Proof. induction l1 as [|y l1 IH]; intros; cbn; [reflexivity|now rewrite IH]. Qed.

  Lemma compact_step_app : forall m (pre : list (list F)) r r1 rest,
    compact_step m (pre ++ r :: r1 :: rest) (length pre)
    = Ok (pre ++ fst (vec_remove_tail r)
              :: vec_accumulate r1 (mat_mul 3 m (snd (vec_remove_tail r))) :: rest).
  Proof.
    intros m pre r r1 rest. unfold compact_step, index.
    rewrite nth_error_app2, Nat.sub_diag by lia. cbn [nth_error unwrap bind].
    destruct (vec_remove_tail r) as [r' t] eqn:E. cbn [fst snd].
    pose proof (upd_app_r pre (r :: r1 :: rest) 0 r') as U. rewrite Nat.add_0_r in U.
    rewrite U. cbn [upd].
    rewrite nth_error_app2 by lia.
    replace (length pre + 1 - length pre)%nat with 1%nat by lia. cbn [nth_error unwrap bind].
    rewrite upd_app_r. reflexivity.
  Qed.

  Lemma compact_push : forall m p (pre rows : list (list F)), (p < length rows)%nat ->
    fold_r (compact_step m) (seq (length pre) p) (pre ++ rows) = Ok (pre ++ push m p rows).
  Proof.
    intros m p. induction p as [|p IH]; intros pre rows H; cbn [seq fold_r].
    - destruct rows; reflexivity.
    - destruct rows as [|r [|r1 rest]]; cbn in H; try lia.
      rewrite compact_step_app. cbn [bind push].
      set (r' := fst (vec_remove_tail r)). set (n1 := vec_accumulate r1 _).
      replace (pre ++ r' :: n1 :: rest) with ((pre ++ [r']) ++ n1 :: rest)
        by (rewrite <- app_assoc; reflexivity).
      replace (S (length pre)) with (length (pre ++ [r'])) by (rewrite app_length; cbn; lia).
      rewrite IH by (cbn; lia). rewrite <- app_assoc. reflexivity.
  Qed.

  Lemma push_length : forall m p rows, length (push m p rows) = length rows.
  Proof.
    intros m p. induction p as [|p IH]; intros rows; [reflexivity|].
    destruct rows as [|r [|r1 rest]]; cbn [push length]; auto. now rewrite IH.
  Qed.

  Lemma push_width : forall m p rows, Forall (fun r => length r = 3%nat) rows ->
    Forall (fun r => length r = 3%nat) (push m p rows).
  Proof.
    intros m p. induction p as [|p IH]; intros rows H; [assumption|].
    destruct rows as [|r [|r1 rest]]; cbn [push]; auto.
    inversion H as [|? ? H1 H2]; subst. inversion H2 as [|? ? H3 H4]; subst.
    constructor.
    - destruct r as [|a t]; cbn in *; [assumption|]. now rewrite map_length.
    - apply IH. constructor; [|assumption]. unfold vec_accumulate. now rewrite zip_mut_length.
  Qed.

  Lemma push_tail : forall m p rows, skipn (S p) (push m p rows) = skipn (S p) rows.
  Proof.
    intros m p. induction p as [|p IH]; intros rows; [reflexivity|].
    destruct rows as [|r [|r1 rest]]; try reflexivity.
    cbn [push]. change (skipn (S (S p)) (?a :: ?l)) with (skipn (S p) l).
    rewrite IH. destruct p; reflexivity.
  Qed.

  (** the invariant: plain and compact states differ by the constants still to be added *)
  Lemma partial_rounds_push : forall sb m p r r' rest st st',
    length r = 3%nat -> length r' = 3%nat -> Forall (fun x => length x = 3%nat) rest ->
    length st = 3%nat -> length st' = 3%nat -> (p <= length rest)%nat ->
    vadd st r = vadd st' r' ->
    vadd (fold_left (part_round 3 sb m) (firstn p (r :: rest)) st) (nth p (r :: rest) [])
    = vadd (fold_left (part_round 3 sb m) (firstn p (push m p (r' :: rest))) st')
           (nth p (push m p (r' :: rest)) []).
  Proof.
    intros sb m p. induction p as [|p IH]; intros r r' rest st st' Hr Hr' Hrest Hst Hst' Hp Heq.
    - exact Heq.
    - destruct rest as [|r1 rest]; [cbn in Hp; lia|].
      inversion Hrest as [|? ? Hr1 Hrest']; subst.
      cbn [push firstn fold_left nth].
      apply IH; try assumption.
      + unfold vec_accumulate. now rewrite zip_mut_length.
      + apply part_round_length.
      + apply part_round_length.
      + cbn in Hp. lia.
      + destruct (length_list3 r Hr) as (a & b & c & ->).
        destruct (length_list3 r' Hr') as (a' & b' & c' & ->).
        destruct (length_list3 r1 Hr1) as (x & y & z & ->).
        destruct (length_list3 st Hst) as (s0 & s1 & s2 & ->).
        destruct (length_list3 st' Hst') as (t0 & t1 & t2 & ->).
        cbn in Heq. injection Heq as E0 E1 E2.
        cbn. rewrite E0, E1, E2. f_equal; [ring|]. f_equal; [ring|]. f_equal. ring.
  Qed.

  Lemma full_round_vadd : forall sb m (st st' r r' : list F),
    length st = 3%nat -> length st' = 3%nat -> length r = 3%nat -> length r' = 3%nat ->
    vadd st r = vadd st' r' -> full_round 3 sb m st r = full_round 3 sb m st' r'.
  Proof.
    intros sb m st st' r r' H1 H2 H3 H4 E. unfold full_round.
    rewrite !zip_mut_sbox by lia. now rewrite E.
  Qed.

  Theorem compact_ok : forall full partial m (rc : list (list F)),
    (Nat.div2 full + partial < length rc)%nat ->
    compact_round_constants full partial m rc
    = Ok (firstn (Nat.div2 full) rc ++ push m partial (skipn (Nat.div2 full) rc)).
  Proof.
    intros full partial m rc H. unfold compact_round_constants.
    set (h := Nat.div2 full) in *. cbn zeta.
    rewrite <- (firstn_skipn h rc) at 1.
    assert (Hh : length (firstn h rc) = h) by (rewrite firstn_length; lia).
    rewrite <- Hh at 1. apply compact_push. rewrite skipn_length. lia.
  Qed.

  Lemma nth_skipn0 : forall {A} (l : list A) n d, nth n l d = nth 0 (skipn n l) d.
  Proof. induction l as [|x l IH]; intros [|n] d; cbn; auto. Qed.

  Theorem compact_same_permutation : forall (s : spec F) m (rc rc' : list (list F)) st,
    square 3 m -> Forall (fun r => length r = 3%nat) rc -> length st = 3%nat ->
    (2 <= full_rounds s)%nat ->
    (Nat.div2 (full_rounds s) + partial_rounds s + Nat.div2 (full_rounds s) <= length rc)%nat ->
    compact_round_constants (full_rounds s) (partial_rounds s) m rc = Ok rc' ->
    permute 3 s m rc' st = permute 3 s m rc st.
  Proof.
    intros s m rc rc' st Hm Hrc Hst Hfull Hlen Hc.
    assert (Hh : (1 <= Nat.div2 (full_rounds s))%nat).
    { destruct (full_rounds s) as [|[|n]]; cbn; lia. }
    rewrite compact_ok in Hc by lia. injection Hc as <-.
    set (h := Nat.div2 (full_rounds s)) in *. set (p := partial_rounds s) in *.
    rewrite !permute_folds; fold h; fold p; [|assumption|].
    2:{ rewrite app_length, push_length, firstn_length, skipn_length. lia. }
    assert (Lf : length (firstn h rc) = h) by (rewrite firstn_length; lia).
    assert (Ls : length (skipn h rc) = (length rc - h)%nat) by apply skipn_length.
    rewrite (firstn_app h (firstn h rc)), Lf, Nat.sub_diag. cbn [firstn].
    rewrite app_nil_r. rewrite firstn_firstn, Nat.min_id.
    rewrite (skipn_app h (firstn h rc)), Lf, Nat.sub_diag. cbn [skipn].
    rewrite (skipn_all2 (firstn h rc)) by lia. cbn [app].
    replace (skipn (h + p) (firstn h rc ++ push m p (skipn h rc)))
      with (skipn p (push m p (skipn h rc))).
    2:{ rewrite skipn_app, Lf. rewrite (skipn_all2 (firstn h rc)) by lia. cbn [app].
        f_equal. lia. }
    replace (skipn (h + p) rc) with (skipn p (skipn h rc))
      by (rewrite skipn_skipn; f_equal; lia).
    set (st1 := fold_left (full_round 3 (sbox s) m) (firstn h rc) st).
    assert (Hst1 : length st1 = 3%nat).
    { unfold st1. clear -Hst. generalize (firstn h rc) as l. intros l. revert st Hst.
      induction l; intros; cbn [fold_left]; [assumption|]. apply IHl. apply full_round_length. }
    clearbody st1.
    assert (Hrows : Forall (fun r => length r = 3%nat) (skipn h rc)) by (now apply Forall_skipn).
    assert (Hprows : Forall (fun r => length r = 3%nat) (push m p (skipn h rc)))
      by (now apply push_width).
    assert (Hrl : (p < length (skipn h rc))%nat) by lia.
    set (rows := skipn h rc) in *. clearbody rows. clear Lf Ls Hrc Hlen rc st Hst.
    assert (Hpart : forall l st0, length st0 = 3%nat ->
              length (fold_left (part_round 3 (sbox s) m) l st0) = 3%nat).
    { induction l; intros st0 H0; cbn [fold_left]; [assumption|]. apply IHl. apply part_round_length. }
    assert (E : vadd (fold_left (part_round 3 (sbox s) m) (firstn p rows) st1) (nth p rows [])
      = vadd (fold_left (part_round 3 (sbox s) m) (firstn p (push m p rows)) st1)
             (nth p (push m p rows) [])).
    { destruct rows as [|r rest]; [cbn in Hrl; lia|].
      inversion Hrows; subst. apply partial_rounds_push; auto. cbn in Hrl. lia. }
    assert (Enth : forall l : list (list F), (p < length l)%nat ->
              skipn p l = nth p l [] :: skipn (S p) l).
    { induction p as [|q IHq]; intros [|x l] Hl; cbn in *; try lia; auto.
      clear - Hl. revert l Hl. induction q; intros [|y l] Hl; cbn in *; try lia; auto.
      apply IHq. lia. }
    rewrite (Enth (push m p rows)) by (rewrite push_length; assumption).
    rewrite (Enth rows) by assumption.
    rewrite push_tail.
    destruct h as [|h']; [lia|]. cbn [firstn fold_left].
    f_equal. symmetry. apply full_round_vadd; auto.
    - rewrite Forall_forall in Hrows. apply Hrows, nth_In. assumption.
    - rewrite Forall_forall in Hprows. apply Hprows, nth_In. now rewrite push_length.
  Qed.
End Proofs.
