(** The integers modulo a prime as an instance of [FieldOps]/[PrimeField].
    The Rust code uses halo2curves' [bn256::Fr] and [pasta::Fp]; those are dependencies outside
    /repo, replaced here by the mathematical field with the same modulus. *)
From Coq Require Import ZArith Znumtheory Zpow_facts Field Bool Eqdep_dec Lia List.
From Verif Require Import NumTheory Field.
Import ListNotations.
Open Scope Z_scope.

Local Arguments Z.modulo : simpl never.
Local Arguments pow_mod : simpl never.

Record Fp (p : Z) : Type := mkFp { fval : Z; fok : (fval mod p =? fval) = true }.
Arguments mkFp {p} _ _.
Arguments fval {p} _.

Lemma fp_ext : forall p (x y : Fp p), fval x = fval y -> x = y.
Proof.
  intros p [a Ha] [b Hb] H. cbn in H. subst b. f_equal.
  apply UIP_dec. decide equality.
Qed.

Lemma mod_ok : forall p z, ((z mod p) mod p =? z mod p) = true.
Proof.
  intros p z. apply Z.eqb_eq. destruct (Z.eq_dec p 0) as [->|H].
  - now rewrite !Zmod_0_r.
  - now apply Z.mod_mod.
Qed.

Definition fp_of_Z (p z : Z) : Fp p := mkFp (z mod p) (mod_ok p z).

(** Inversion.  [egcd_step] is a binary extended Euclid step used to guess the inverse fast; the
    guess is checked and Fermat's formula is the fallback, so nothing rests on the guess. *)
Definition half_mod (p x : Z) : Z := if Z.even x then Z.div2 x else Z.div2 (x + p).

Fixpoint egcd_guess (fuel : nat) (p u v x y : Z) : Z :=
  match fuel with
  | O => 0
  | S f =>
    if u =? 1 then x
    else if v =? 1 then y
    else if Z.even u then egcd_guess f p (Z.div2 u) v (half_mod p x) y
    else if Z.even v then egcd_guess f p u (Z.div2 v) x (half_mod p y)
    else if v <=? u then
      egcd_guess f p (u - v) v (let d := x - y in if d <? 0 then d + p else d) y
    else
      egcd_guess f p u (v - u) x (let d := y - x in if d <? 0 then d + p else d)
  end.

Definition inv_mod (p x : Z) : Z :=
  if x =? 0 then 0
  else let c := egcd_guess 2000 p x p 1 0 in
       if (c * x) mod p =? 1 then c else pow_mod p x (p - 2).

Local Arguments inv_mod : simpl never.

#[global] Instance FpOps (p : Z) : FieldOps (Fp p) := {
  fzero := fp_of_Z p 0;
  fone := fp_of_Z p 1;
  fadd x y := fp_of_Z p (fval x + fval y);
  fmul x y := fp_of_Z p (fval x * fval y);
  fsub x y := fp_of_Z p (fval x - fval y);
  fopp x := fp_of_Z p (- fval x);
  finv x := fp_of_Z p (inv_mod p (fval x));
  feqb x y := fval x =? fval y;
  of_Z z := fp_of_Z p z;
  to_Z x := fval x;
  modulus := p
}.

Section Prime.
  Variable p : Z.
  Hypothesis Hp : prime p.

  Lemma fval_mod : forall x : Fp p, fval x mod p = fval x.
  Proof. intros [x H]. cbn. now apply Z.eqb_eq. Qed.

  Lemma p_ge_2 : 2 <= p.
  Proof. now apply prime_ge_2. Qed.

  Lemma fp_inv_l : forall x : Fp p, x <> fp_of_Z p 0 ->
    fp_of_Z p (fval (fp_of_Z p (inv_mod p (fval x))) * fval x) = fp_of_Z p 1.
  Proof.
    intros x Hx. apply fp_ext. cbn. pose proof p_ge_2.
    rewrite Z.mul_mod_idemp_l by lia.
    unfold inv_mod.
    destruct (fval x =? 0) eqn:E0.
    { apply Z.eqb_eq in E0. exfalso. apply Hx. apply fp_ext. cbn. rewrite E0.
      now rewrite Z.mod_0_l by lia. }
    set (c := egcd_guess _ _ _ _ _ _). clearbody c. cbv zeta.
    destruct ((c * fval x) mod p =? 1) eqn:Ec.
    { apply Z.eqb_eq in Ec. rewrite Ec. symmetry. apply Z.mod_1_l. lia. }
    rewrite pow_mod_spec by lia. rewrite Z.mul_mod_idemp_l by lia.
    rewrite <- (Z.pow_1_r (fval x)) at 2. rewrite <- Z.pow_add_r by lia.
    replace (p - 2 + 1) with (p - 1) by lia.
    rewrite fermat; [|assumption|].
    - symmetry. apply Z.mod_1_l. lia.
    - intros Hd. apply Hx. apply fp_ext. cbn. rewrite Z.mod_0_l by lia.
      apply Z.mod_divide in Hd; [|lia]. now rewrite fval_mod in Hd.
  Qed.

  Lemma fp_field_theory :
    field_theory (R := Fp p) fzero fone fadd fmul fsub fopp (fun x y => fmul x (finv y)) finv (@eq (Fp p)).
  Proof.
    pose proof p_ge_2 as H2.
    constructor.
    - constructor; intros; apply fp_ext; cbn.
      + rewrite Z.mod_0_l by lia. rewrite Z.add_0_l. apply fval_mod.
      + now rewrite Z.add_comm.
      + rewrite Z.add_mod_idemp_l, Z.add_mod_idemp_r by lia. now rewrite Z.add_assoc.
      + rewrite Z.mul_mod_idemp_l by lia. rewrite Z.mul_1_l. apply fval_mod.
      + now rewrite Z.mul_comm.
      + rewrite Z.mul_mod_idemp_l, Z.mul_mod_idemp_r by lia. now rewrite Z.mul_assoc.
      + rewrite Z.mul_mod_idemp_l by lia. rewrite <- Z.add_mod by lia. f_equal. ring.
      + rewrite Z.add_mod_idemp_r by lia. reflexivity.
      + rewrite Z.add_mod_idemp_r by lia. now rewrite Z.add_opp_r, Z.sub_diag.
    - intros H. apply (f_equal fval) in H. cbn in H.
      rewrite Z.mod_0_l, Z.mod_1_l in H by lia. lia.
    - reflexivity.
    - intros x Hx. apply fp_inv_l. exact Hx.
  Qed.

  Lemma FpField_of_prime : PrimeField (Fp p).
  Proof.
    pose proof p_ge_2 as H2.
    constructor.
    - apply fp_field_theory.
    - intros x y. cbn. split.
      + intros H. apply Z.eqb_eq in H. now apply fp_ext.
      + intros ->. apply Z.eqb_refl.
    - exact Hp.
    - intros x. apply fp_ext. cbn. apply fval_mod.
    - reflexivity.
    - reflexivity.
    - reflexivity.
    - intros a b. apply fp_ext. cbn. now apply Z.add_mod; lia.
    - intros a b. apply fp_ext. cbn. now apply Z.mul_mod; lia.
  Qed.
End Prime.
