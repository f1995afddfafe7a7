(** Vocabulary for C64: powers and roots of unity. *)
From Coq Require Import ZArith NArith List.
From Verif Require Import Field.
Import ListNotations.
Local Open Scope F_scope.

(** [x] squared [n] times, that is [x^(2^n)] *)
Fixpoint squared {F} {FO : FieldOps F} (n : nat) (x : F) : F :=
  match n with O => x | S n' => let y := squared n' x in y * y end.

(** [z] has order exactly [2^s] *)
Definition root_of_order {F} {FO : FieldOps F} (s : nat) (z : F) : Prop :=
  squared s z = 1 /\ forall j, (j < s)%nat -> squared j z <> 1.

(** the integer of little-endian 64-bit limbs *)
Fixpoint limbs_value (l : list N) : N :=
  match l with [] => 0 | x :: l' => x + 2 ^ 64 * limbs_value l' end%N.

(** the constants [F::S], [F::ROOT_OF_UNITY] of a field and the argument [tm1d2]: [p - 1 = 2^s * t] with [t] odd, and
    the limbs spell [(t - 1) / 2] *)
Definition sqrt_parameters {F} {FO : FieldOps F} (s : nat) (root : F) (tm1d2 : list N) : Prop :=
  Forall (fun x => (x < 2 ^ 64)%N) tm1d2
  /\ (modulus (F := F) - 1 = 2 ^ Z.of_nat s * (2 * Z.of_N (limbs_value tm1d2) + 1))%Z
  /\ root_of_order s root.
