(** Property C64: the square root of the pasta module.  Vocabulary: SqrtUse.v. *)
From Coq Require Import ZArith NArith List Arith.
From Verif Require Import Field Primes Sqrt SqrtUse Sqrt_claims ExamplesSqrt.
Import ListNotations.
Local Open Scope F_scope.

(** C64: a root when there is one, none otherwise *)
Theorem C64_square_root : forall F (FO : FieldOps F) (PF : PrimeField F) s root tm1d2 (f : F),
  sqrt_parameters s root tm1d2 ->
  match sqrt_tonelli_shanks s root f tm1d2 with
  | Some x => x * x = f
  | None => forall y, y * y <> f
  end.
Proof. exact (fun F FO PF => sqrt_claim). Qed.
Print Assumptions C64_square_root.

(** C64: with any exponent and any constants a value that is returned is a root *)
Theorem C64_never_wrong : forall F (FO : FieldOps F) (PF : PrimeField F) s root tm1d2 (f x : F),
  sqrt_tonelli_shanks s root f tm1d2 = Some x -> x * x = f.
Proof. exact (fun F FO PF => sqrt_any_claim). Qed.
Print Assumptions C64_never_wrong.

(** C64: the exponentiation over 64-bit limbs *)
Theorem C64_power : forall F (FO : FieldOps F) (PF : PrimeField F) (x : F) limbs,
  Forall (fun e => (e < 2 ^ 64)%N) limbs -> pow_vartime x limbs = fpow x (N.to_nat (limbs_value limbs)).
Proof. exact (fun F FO PF => pow_claim). Qed.
Print Assumptions C64_power.

(** the constants of the Pallas base field and of BN254 *)
Example C64_instance : sqrt_parameters 32 pallas_root pallas_tm1d2 /\ sqrt_parameters 28 fr_root fr_tm1d2.
Proof. exact (conj pallas_sqrt_parameters fr_sqrt_parameters). Qed.

(** on Pallas: a root of 4, none of the root of unity *)
Example C64_instance_values :
  (exists x, sqrt_tonelli_shanks 32 pallas_root (of_Z 4) pallas_tm1d2 = Some x /\ (x = of_Z 2 \/ x = of_Z (-2)))
  /\ sqrt_tonelli_shanks 32 pallas_root pallas_root pallas_tm1d2 = None.
Proof. exact ex_sqrt. Qed.
