(** How often two words of the textbook permutation agree when the input varies along two different lines (PolyUse.v). *)
From Coq Require Import List Arith Lia setoid_ring.Field.
From Verif Require Import Field SpecHash PolyUse Poly_proof.
Import ListNotations.
Local Open Scope F_scope.

Section Order.
  Context {F : Type} {FO : FieldOps F} {PF : PrimeField F}.
  Add Field Ffield : f_field.
  Variable T : nat.
  Variable m : list (list F).
  Hypothesis Hm : length m = T.

  Lemma lines_coincide : forall half partial rcs st st' v w j xs, Forall (fun rc => length rc = T) rcs ->
    (2 * half + partial <= length rcs)%nat -> length st = T -> length st' = T -> length v = T -> length w = T ->
    nth j (lead_permute m half partial v) 0 <> nth j (lead_permute m half partial w) 0 -> NoDup xs ->
    (forall x, In x xs -> nth j (spec_permute m half partial rcs (on_line st v x)) 0 = nth j (spec_permute m half partial rcs (on_line st' w x)) 0) ->
    (length xs <= 5 ^ (2 * half + partial))%nat.
  Proof.
    intros half partial rcs st st' v w j xs Hr Hn Hs Hs' Hv Hw N Hd Hx.
    destruct (permute_leads T m Hm half partial rcs st v Hr Hn Hs Hv) as (f & Hf & Ef).
    destruct (permute_leads T m Hm half partial rcs st' w Hr Hn Hs' Hw) as (g & Hg & Eg).
    apply leads_nth with (j := j) in Hf. apply leads_nth with (j := j) in Hg.
    pose proof (lead_add _ _ _ _ _ Hf (lead_scale _ _ (- (1)) _ Hg)) as H. cbv beta in H.
    refine (lead_roots _ _ _ xs _ H Hd _).
    - intros E. apply N. apply (proj1 (fsub_eq_0 _ _)). refine (eq_trans _ E). ring.
    - intros x X. specialize (Hx x X). rewrite Ef, Eg in Hx. rewrite Hx. ring.
  Qed.

  (** ** When the leading coefficients differ *)
  Hypothesis HI : forall x y : F, power5 x = power5 y -> x = y.
  Definition injective (f : F -> F) : Prop := forall x y, f x = f y -> x = y.

  Lemma full_iter_coefficient : forall n, exists f, injective f
    /\ forall k v, Nat.iter n (lead_full m) (map (fmul k) v) = map (fmul (f k)) (Nat.iter n (lead_full m) v).
  Proof.
    induction n as [|n (f & Hf & IH)].
    - exists (fun k => k). split; [intros x y E; exact E|reflexivity].
    - exists (fun k => power5 (f k)). split; [intros x y E; apply Hf, HI; exact E|]. intros k v.
      change (lead_full m (Nat.iter n (lead_full m) (map (fmul k) v)) = map (fmul (power5 (f k))) (lead_full m (Nat.iter n (lead_full m) v))).
      now rewrite IH, full_scale.
  Qed.
  Lemma partial_iter_coefficient : forall n, (0 < T)%nat -> nth 0 (first_column T m) 0 <> 0 -> exists f, injective f
    /\ forall v, length v = T -> Nat.iter (S n) (lead_partial m) v = map (fmul (f (nth 0 v 0))) (first_column T m).
  Proof.
    intros n Pos N1. assert (LC : length (first_column T m) = T) by (unfold first_column, mat_vec; now rewrite map_length).
    induction n as [|n (f & Hf & IH)].
    - exists power5. split; [exact HI|]. intros v Hv. now apply partial_column.
    - exists (fun a => power5 (f a * nth 0 (first_column T m) 0)). split.
      + intros x y E. apply HI in E. apply Hf. assert (P : (f x - f y) * nth 0 (first_column T m) 0 = 0).
        { replace ((f x - f y) * nth 0 (first_column T m) 0) with (f x * nth 0 (first_column T m) 0 - f y * nth 0 (first_column T m) 0) by ring.
          rewrite E. ring. }
        apply fmul_eq_0 in P. destruct P as [P|P]; [now apply (proj1 (fsub_eq_0 _ _))|contradiction].
      + intros v Hv. change (lead_partial m (Nat.iter (S n) (lead_partial m) v) = map (fmul (power5 (f (nth 0 v 0) * nth 0 (first_column T m) 0))) (first_column T m)).
        rewrite (IH v Hv), (partial_column T) by (rewrite ?map_length; assumption). now rewrite nth_scale.
  Qed.
  Lemma lead_differs : forall half partial v w j, (0 < T)%nat -> length v = T -> length w = T ->
    nth 0 (Nat.iter half (lead_full m) v) 0 <> nth 0 (Nat.iter half (lead_full m) w) 0 -> nth 0 (first_column T m) 0 <> 0 ->
    nth j (Nat.iter half (lead_full m) (first_column T m)) 0 <> 0 ->
    nth j (lead_permute m half (S partial) v) 0 <> nth j (lead_permute m half (S partial) w) 0.
  Proof.
    intros half partial v w j Pos Hv Hw N0 N1 N2. unfold lead_permute.
    assert (L1 : forall v, length v = T -> length (Nat.iter half (lead_full m) v) = T).
    { clear - Hm. intros v Hv. destruct half as [|h]; [exact Hv|]. change (length (lead_full m (Nat.iter h (lead_full m) v)) = T). unfold lead_full, mat_vec. now rewrite map_length. }
    destruct (partial_iter_coefficient partial Pos N1) as (f & Hf & Ef). destruct (full_iter_coefficient half) as (g & Hg & Eg).
    rewrite !Ef, !Eg, !nth_scale by (now apply L1). intros E. apply N0. apply Hf, Hg.
    set (a := g _) in *. set (b := g (f (nth 0 (Nat.iter half (lead_full m) w) 0))) in *. set (u := nth j _ 0) in *.
    assert (P : (a - b) * u = 0) by (replace ((a - b) * u) with (a * u - b * u) by ring; rewrite E; ring).
    apply fmul_eq_0 in P. destruct P as [P|P]; [now apply (proj1 (fsub_eq_0 _ _))|contradiction].
  Qed.
End Order.
