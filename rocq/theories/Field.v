(** Fields.

    [FieldOps] is what the Rust code needs from its [F: FromUniformBytes<64> + Ord] type
    parameter (poseidon-base/src/primitives.rs:12-21, 40-45): arithmetic, equality and the
    canonical integer encoding.  The model code depends on [FieldOps] only, so that it runs on
    every instance.  [PrimeField] adds the laws; proofs depend on it. *)
From Coq Require Import ZArith Znumtheory Field Bool List Lia.
Import ListNotations.

Class FieldOps (F : Type) := {
  fzero : F;
  fone : F;
  fadd : F -> F -> F;
  fmul : F -> F -> F;
  fsub : F -> F -> F;
  fopp : F -> F;
  finv : F -> F;            (* [invert()]; the model checks for zero where the code does *)
  feqb : F -> F -> bool;
  of_Z : Z -> F;            (* reduction of an integer into the field *)
  to_Z : F -> Z;            (* canonical representative, [to_repr()] *)
  modulus : Z
}.

Declare Scope F_scope.
Delimit Scope F_scope with F.
Infix "+" := fadd : F_scope.
Infix "*" := fmul : F_scope.
Infix "-" := fsub : F_scope.
Notation "- x" := (fopp x) : F_scope.
Notation "0" := fzero : F_scope.
Notation "1" := fone : F_scope.

Class PrimeField (F : Type) {FO : FieldOps F} := {
  f_field : field_theory fzero fone fadd fmul fsub fopp (fun x y => fmul x (finv y)) finv (@eq F);
  feqb_eq : forall x y : F, feqb x y = true <-> x = y;
  modulus_prime : prime (modulus (F := F));
  of_to_Z : forall x : F, of_Z (to_Z x) = x;
  to_of_Z : forall z, to_Z (of_Z (F := F) z) = (z mod modulus (F := F))%Z;
  of_Z_0 : of_Z (F := F) 0%Z = fzero;
  of_Z_1 : of_Z (F := F) 1%Z = fone;
  of_Z_add : forall a b, of_Z (F := F) (a + b)%Z = fadd (of_Z a) (of_Z b);
  of_Z_mul : forall a b, of_Z (F := F) (a * b)%Z = fmul (of_Z a) (of_Z b)
}.

Section Facts.
  Context {F : Type} {FO : FieldOps F} {PF : PrimeField F}.
  Open Scope F_scope.
  Add Field Ffield : f_field.

  Lemma feqb_refl : forall x : F, feqb x x = true.
  Proof. intros; now apply feqb_eq. Qed.

  Lemma feqb_neq : forall x y : F, feqb x y = false <-> x <> y.
  Proof.
    intros x y. destruct (feqb x y) eqn:E.
    - apply feqb_eq in E. split; [discriminate|contradiction].
    - split; [|reflexivity]. intros _ H. apply feqb_eq in H. congruence.
  Qed.

  Lemma feq_dec : forall x y : F, {x = y} + {x <> y}.
  Proof.
    intros x y. destruct (feqb x y) eqn:E.
    - left; now apply feqb_eq.
    - right; now apply feqb_neq.
  Defined.

  Lemma f_1_neq_0 : (1 : F) <> 0.
  Proof. apply (F_1_neq_0 f_field). Qed.

  Lemma finv_l : forall x : F, x <> 0 -> finv x * x = 1.
  Proof. apply (Finv_l f_field). Qed.

  Lemma finv_r : forall x : F, x <> 0 -> x * finv x = 1.
  Proof. intros x H. rewrite (F_R f_field).(Rmul_comm). now apply finv_l. Qed.

  Lemma fmul_cancel_l : forall x y z : F, x <> 0 -> x * y = x * z -> y = z.
  Proof.
    intros x y z Hx H.
    transitivity (finv x * (x * y)); [field; assumption|].
    rewrite H. field; assumption.
  Qed.

  Lemma fmul_eq_0 : forall x y : F, x * y = 0 -> x = 0 \/ y = 0.
  Proof.
    intros x y H. destruct (feq_dec x 0) as [E|E]; [now left|right].
    apply (fmul_cancel_l x); [assumption|]. rewrite H. ring.
  Qed.

  Lemma fmul_neq_0 : forall x y : F, x <> 0 -> y <> 0 -> x * y <> 0.
  Proof. intros x y Hx Hy H. apply fmul_eq_0 in H. tauto. Qed.

  Lemma finv_neq_0 : forall x : F, x <> 0 -> finv x <> 0.
  Proof.
    intros x Hx H. apply f_1_neq_0. rewrite <- (finv_l x Hx), H. ring.
  Qed.

  Lemma fsub_eq_0 : forall x y : F, x - y = 0 <-> x = y.
  Proof.
    intros x y. split; intros H.
    - transitivity (x - y + y); [ring|]. rewrite H. ring.
    - subst. ring.
  Qed.

  Lemma fadd_cancel_r : forall x y z : F, x + z = y + z -> x = y.
  Proof.
    intros x y z H. transitivity (x + z - z); [ring|]. rewrite H. ring.
  Qed.

  Lemma fadd_cancel_l : forall x y z : F, z + x = z + y -> x = y.
  Proof.
    intros x y z H. transitivity (z + x - z); [ring|]. rewrite H. ring.
  Qed.

  Lemma modulus_gt_1 : (1 < modulus (F := F))%Z.
  Proof. pose proof (prime_ge_2 _ modulus_prime). lia. Qed.

  Lemma to_Z_range : forall x : F, (0 <= to_Z x < modulus (F := F))%Z.
  Proof.
    intros x. rewrite <- (of_to_Z x), to_of_Z.
    apply Z.mod_pos_bound. pose proof modulus_gt_1. lia.
  Qed.

  Lemma to_Z_inj : forall x y : F, to_Z x = to_Z y -> x = y.
  Proof. intros x y H. rewrite <- (of_to_Z x), <- (of_to_Z y). now rewrite H. Qed.

  Lemma of_Z_inj : forall a b, (0 <= a < modulus (F := F))%Z -> (0 <= b < modulus (F := F))%Z ->
    of_Z (F := F) a = of_Z b -> a = b.
  Proof.
    intros a b Ha Hb H. apply (f_equal to_Z) in H. rewrite !to_of_Z in H.
    now rewrite !Z.mod_small in H.
  Qed.

  Lemma of_Z_opp : forall a, of_Z (F := F) (- a)%Z = - of_Z a.
  Proof.
    intros a. apply (fadd_cancel_r _ _ (of_Z a)). rewrite <- of_Z_add.
    replace (- a + a)%Z with 0%Z by lia. rewrite of_Z_0. ring.
  Qed.

  Lemma of_Z_sub : forall a b, of_Z (F := F) (a - b)%Z = of_Z a - of_Z b.
  Proof.
    intros a b. unfold Z.sub. rewrite of_Z_add, of_Z_opp. ring.
  Qed.

  Lemma of_Z_mod : forall a, of_Z (F := F) (a mod modulus (F := F))%Z = of_Z a.
  Proof.
    intros a. apply to_Z_inj. rewrite !to_of_Z. apply Z.mod_mod.
    pose proof modulus_gt_1. lia.
  Qed.

  Lemma of_Z_eq_0 : forall a, of_Z (F := F) a = 0 <-> (modulus (F := F) | a)%Z.
  Proof.
    intros a. pose proof modulus_gt_1. split; intros H0.
    - apply (f_equal to_Z) in H0. rewrite <- of_Z_0, !to_of_Z in H0.
      rewrite Z.mod_0_l in H0 by lia. apply Z.mod_divide; lia.
    - rewrite <- of_Z_mod. apply Z.mod_divide in H0; [|lia]. rewrite H0. apply of_Z_0.
  Qed.
End Facts.

(** powers, [pow_vartime] *)
Fixpoint fpow {F} {FO : FieldOps F} (x : F) (n : nat) : F :=
  match n with O => fone | S n' => fmul x (fpow x n') end.

(** sums over lists and index ranges *)
Fixpoint fsum {F} {FO : FieldOps F} (l : list F) : F :=
  match l with [] => fzero | x :: l' => fadd x (fsum l') end.

Fixpoint fprod {F} {FO : FieldOps F} (l : list F) : F :=
  match l with [] => fone | x :: l' => fmul x (fprod l') end.
