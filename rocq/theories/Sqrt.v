(** Model of the square root of poseidon-base/src/primitives/pasta/mod.rs:45-85 ([sqrt_tonelli_shanks], a private
    function marked [allow(dead_code)]). *)
From Coq Require Import NArith List Arith Bool.
From Verif Require Import Field.
Import ListNotations.
Local Open Scope F_scope.

Section Sqrt.
  Context {F : Type} {FO : FieldOps F}.

  (** One bit of [pow_vartime]: [res = res.square(); if ((e >> i) & 1) == 1 { res *= self }] (trait [Field] of the
      dependency ff, called at pasta/mod.rs:50). *)
  Definition pow_bit (x : F) (e : N) (res : F) (i : nat) : F :=
    let sq := res * res in if N.testbit e (N.of_nat i) then sq * x else sq.

  (** [pow_vartime]: the limbs from the last, the 64 bits of each from the highest (dependency ff, called at
      pasta/mod.rs:50). *)
  Definition pow_vartime (x : F) (limbs : list N) : F :=
    fold_left (fun res e => fold_left (pow_bit x e) (rev (seq 0 64)) res) (rev limbs) 1.

  (** [conditional_select(&a, &b, c)] of the dependency subtle (pasta/mod.rs:66-75): [b] if [c], else [a]. *)
  Definition select {A} (a b : A) (c : bool) : A := if c then b else a.

  (** The variables of the inner loop: [k], [tmp], [j_less_than_v], [z] (pasta/mod.rs:57, 60-62). *)
  Definition inner_vars : Type := nat * F * bool * F.

  (** Body of the inner loop (pasta/mod.rs:65-71).  [u32] counters are [nat]: they stay below [S]. *)
  Definition inner_step (v : nat) (st : inner_vars) (j : nat) : inner_vars :=
    let '(k, tmp, j_less_than_v, z) := st in
    let tmp_is_one := feqb tmp 1 in
    let squared := let y := select tmp z tmp_is_one in y * y in
    let tmp := select squared tmp tmp_is_one in
    let new_z := select z squared tmp_is_one in
    let j_less_than_v := j_less_than_v && negb (Nat.eqb j v) in
    let k := select j k tmp_is_one in
    let z := select z new_z j_less_than_v in
    (k, tmp, j_less_than_v, z).

  (** The variables of the outer loop: [v], [x], [b], [z] (pasta/mod.rs:52-57). *)
  Definition outer_vars : Type := nat * F * F * F.

  (** Body of the outer loop (pasta/mod.rs:60-78); [for j in 2..max_v] is a fold over 2, ..., max_v - 1. *)
  Definition outer_step (st : outer_vars) (max_v : nat) : outer_vars :=
    let '(v, x, b, z) := st in
    let '(k, _, _, z) := fold_left (inner_step v) (seq 2 (max_v - 2)) (1%nat, b * b, true, z) in
    let result := x * z in
    let x := select result x (feqb b 1) in
    let z := z * z in
    (k, x, b * z, z).

  (** [sqrt_tonelli_shanks(f, tm1d2)] (pasta/mod.rs:46-85).  [s] and [root] are the associated constants [F::S] and
      [F::ROOT_OF_UNITY] of the field; the [CtOption] is an option. *)
  Definition sqrt_tonelli_shanks (s : nat) (root : F) (f : F) (tm1d2 : list N) : option F :=
    let w := pow_vartime f tm1d2 in
    let x := w * f in
    let b := x * w in
    let '(_, x, _, _) := fold_left outer_step (rev (seq 1 s)) (s, x, b, root) in
    if feqb (x * x) f then Some x else None.
End Sqrt.
