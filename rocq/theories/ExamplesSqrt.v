(** The constants of the Pallas base field and of BN254 meet the hypothesis of C64. *)
From Coq Require Import ZArith NArith List Arith Lia.
From Verif Require Import Field ZpField Primes Sqrt SqrtUse Sqrt_proof.
Import ListNotations.

(** [Fp::S], [Fp::ROOT_OF_UNITY] and (t - 1) / 2 of pasta_curves *)
Definition pallas_root : Pallas := of_Z 19814229590243028906643993866117402072516588566294623396325693409366934201135.
Definition pallas_tm1d2 : list N := [335092170750335094; 287526014; 0; 536870912]%N.

(** [Fr::S], [Fr::ROOT_OF_UNITY] and (t - 1) / 2 of BN254 in halo2curves *)
Definition fr_root : Fr := of_Z 1748695177688661943023146337482803886740723238769601073607632802312037301404.
Definition fr_tm1d2 : list N := [14829091926808964255; 867720185306366531; 688207751544974772; 6495040407]%N.

Lemma order_from_last : forall F (FO : FieldOps F) (PF : PrimeField F) s (z : F),
  squared (S s) z = fone -> squared s z <> fone -> root_of_order (S s) z.
Proof.
  intros F FO PF s z H1 H0. split; [assumption|]. intros j Hj E. apply H0.
  replace s with ((s - j) + j)%nat by lia. rewrite squared_add, E. apply squared_1.
Qed.

Lemma pallas_sqrt_parameters : sqrt_parameters 32 pallas_root pallas_tm1d2.
Proof.
  split; [repeat constructor|]. split; [vm_compute; reflexivity|].
  apply (order_from_last _ _ _ 31).
  - apply feqb_eq. vm_compute. reflexivity.
  - apply feqb_neq. vm_compute. reflexivity.
Qed.

Lemma fr_sqrt_parameters : sqrt_parameters 28 fr_root fr_tm1d2.
Proof.
  split; [repeat constructor|]. split; [vm_compute; reflexivity|].
  apply (order_from_last _ _ _ 27).
  - apply feqb_eq. vm_compute. reflexivity.
  - apply feqb_neq. vm_compute. reflexivity.
Qed.

Lemma ex_sqrt :
  (exists x, sqrt_tonelli_shanks 32 pallas_root (of_Z 4) pallas_tm1d2 = Some x /\ (x = of_Z 2 \/ x = of_Z (-2)))
  /\ sqrt_tonelli_shanks 32 pallas_root pallas_root pallas_tm1d2 = None.
Proof.
  split.
  - destruct (sqrt_tonelli_shanks 32 pallas_root (of_Z 4) pallas_tm1d2) as [x|] eqn:E.
    + exists x. split; [reflexivity|].
      assert (H := sqrt_sound _ _ _ _ _ E).
      assert (H0 : fmul (fsub x (of_Z 2)) (fsub x (of_Z (-2))) = fzero).
      { transitivity (fsub (fmul x x) (of_Z 4)).
        - replace (of_Z (F := Pallas) (-2)) with (fopp (of_Z (F := Pallas) 2)) by (symmetry; apply (of_Z_opp 2)).
          replace (of_Z (F := Pallas) 4) with (fmul (of_Z (F := Pallas) 2) (of_Z 2)) by (symmetry; apply (of_Z_mul 2 2)).
          generalize (of_Z (F := Pallas) 2). intros a. clear. Add Field Pf : (f_field (F := Pallas)). ring.
        - rewrite H. now apply fsub_eq_0. }
      apply fmul_eq_0 in H0. destruct H0 as [H0|H0]; [left|right]; now apply (proj1 (fsub_eq_0 _ _)) in H0.
    + exfalso. destruct (sqrt_finds 32 pallas_root (of_Z 2) pallas_tm1d2 pallas_sqrt_parameters) as (x & Ex).
      rewrite <- of_Z_mul in Ex. change (2 * 2)%Z with 4%Z in Ex. congruence.
  - destruct (sqrt_tonelli_shanks 32 pallas_root pallas_root pallas_tm1d2) as [x|] eqn:E; [|reflexivity].
    exfalso. exact (root_nonsquare 31 pallas_root pallas_tm1d2 x pallas_sqrt_parameters (sqrt_sound _ _ _ _ _ E)).
Qed.
