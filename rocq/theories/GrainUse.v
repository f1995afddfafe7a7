(** What the constants generator should draw from the Grain bits, from the Poseidon paper (appendix E).  Specification,
    not a model of code. *)
From Coq Require Import ZArith NArith List Arith.
From Verif Require Import Field.
Import ListNotations.
Local Open Scope nat_scope.

(** the [n] low bits of a number, most significant first *)
Definition msb_bits (n : nat) (v : N) : list bool := map (fun i => N.testbit v (N.of_nat (n - 1 - i))) (seq 0 n).
(** the initial state: field type 1, S-box type 0, field size in bits, width, full and partial rounds, and thirty 1s *)
Definition seed_spec (num_bits t r_f r_p : N) : list bool :=
  msb_bits 2 1 ++ msb_bits 4 0 ++ msb_bits 12 num_bits ++ msb_bits 12 t ++ msb_bits 10 r_f ++ msb_bits 10 r_p
  ++ repeat true 30.

(** the number written by bits, most significant first *)
Definition number (l : list bool) : Z := fold_left (fun (acc : Z) (b : bool) => 2 * acc + (if b then 1 else 0))%Z l 0%Z.

Section Use.
  Context {F : Type} {FO : FieldOps F}.

  (** the elements drawn with rejection: chunks that are not below the modulus are dropped *)
  Definition accepted_elements (chunks : list (list bool)) : list F :=
    map of_Z (filter (fun v => v <? modulus (F := F))%Z (map number chunks)).
  (** the elements drawn without rejection: chunks are reduced modulo the field order *)
  Definition reduced_elements (chunks : list (list bool)) : list F := map (fun c => of_Z (number c)) chunks.
End Use.
