(** What the limbs stand for. *)
From Coq Require Import ZArith List.
From Verif Require Import Rust.
Import ListNotations.
Local Open Scope Z_scope.

(** a word of 64 bits *)
Definition word (x : Z) : Prop := 0 <= x < 2 ^ 64.
(** least significant word first *)
Fixpoint number (l : list Z) : Z := match l with [] => 0 | x :: l' => x + 2 ^ 64 * number l' end.

(** a word operation with carry, along two numbers of the same length: the use [adc] and [sbb] are made for *)
Fixpoint along (op : Z -> Z -> Z -> result (Z * Z)) (carry : Z) (a b : list Z) : result (list Z * Z) :=
  match a, b with
  | x :: a', y :: b' => do (d, carry) <- op x y carry; do (r, carry) <- along op carry a' b'; Ok (d :: r, carry)
  | _, _ => Ok ([], carry)
  end.
