(** The lemmas behind C64. *)
From Coq Require Import ZArith NArith List Arith.
From Verif Require Import Field Sqrt SqrtUse Sqrt_proof.
Import ListNotations.
Local Open Scope F_scope.

Section Claims.
  Context {F : Type} {FO : FieldOps F} {PF : PrimeField F}.

  Lemma pow_claim : forall (x : F) limbs, Forall (fun e => (e < 2 ^ 64)%N) limbs ->
    pow_vartime x limbs = fpow x (N.to_nat (limbs_value limbs)).
  Proof. exact pow_vartime_spec. Qed.

  Lemma sqrt_claim : forall s root tm1d2 (f : F), sqrt_parameters s root tm1d2 ->
    match sqrt_tonelli_shanks s root f tm1d2 with
    | Some x => x * x = f
    | None => forall y, y * y <> f
    end.
  Proof.
    intros s root l f Hp. destruct (sqrt_tonelli_shanks s root f l) as [x|] eqn:E.
    - exact (sqrt_sound _ _ _ _ _ E).
    - intros y Hy. subst f. destruct (sqrt_finds s root y l Hp) as (x & Ex). congruence.
  Qed.

  Lemma sqrt_any_claim : forall s root tm1d2 (f x : F), sqrt_tonelli_shanks s root f tm1d2 = Some x -> x * x = f.
  Proof. intros s root l f x. apply sqrt_sound. Qed.
End Claims.
