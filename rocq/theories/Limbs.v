(** The 64-bit limb arithmetic of poseidon-base/src/primitives/fields.rs.  The [mod fields] line in primitives.rs:13 is a comment, so no
    build contains this code today. *)
From Coq Require Import ZArith List.
From Verif Require Import Rust.
Import ListNotations.
Local Open Scope Z_scope.

(** [u64] and [u128] are integers; [+] and [*] of [u128] panic on overflow, as in a build with overflow checks *)
Definition u64_size : Z := 2 ^ 64.
Definition u128_size : Z := 2 ^ 128.
Definition add128 (x y : Z) : result Z := if x + y <? u128_size then Ok (x + y) else Panic.
Definition mul128 (x y : Z) : result Z := if x * y <? u128_size then Ok (x * y) else Panic.
(** [wrapping_sub] *)
Definition wsub128 (x y : Z) : Z := (x - y) mod u128_size.
(** [(ret as u64, (ret >> 64) as u64)] *)
Definition halves (ret : Z) : Z * Z := (ret mod u64_size, Z.shiftr ret 64 mod u64_size).

(** [adc] (fields.rs:3-6) *)
Definition adc (a b carry : Z) : result (Z * Z) :=
  do s <- add128 a b; do ret <- add128 s carry; Ok (halves ret).
(** [sbb] (fields.rs:10-13) *)
Definition sbb (a b borrow : Z) : result (Z * Z) :=
  do s <- add128 b (Z.shiftr borrow 63); Ok (halves (wsub128 a s)).
(** [mac] (fields.rs:17-20) *)
Definition mac (a b c carry : Z) : result (Z * Z) :=
  do p <- mul128 b c; do s <- add128 a p; do ret <- add128 s carry; Ok (halves ret).
(** [macx] (fields.rs:24-27) *)
Definition macx (a b c : Z) : result (Z * Z) :=
  do p <- mul128 b c; do res <- add128 a p; Ok (halves res).

(** [mul_512] (fields.rs:31-53); the arrays are lists, with panic on a wrong length *)
Definition mul_512 (a b : list Z) : result (list Z) :=
  match a, b with
  | [a0; a1; a2; a3], [b0; b1; b2; b3] =>
    do (r0, carry) <- macx 0 a0 b0;
    do (r1, carry) <- macx carry a0 b1;
    do (r2, carry) <- macx carry a0 b2;
    do (r3, carry_out) <- macx carry a0 b3;
    do (r1, carry) <- macx r1 a1 b0;
    do (r2, carry) <- mac r2 a1 b1 carry;
    do (r3, carry) <- mac r3 a1 b2 carry;
    do (r4, carry_out) <- mac carry_out a1 b3 carry;
    do (r2, carry) <- macx r2 a2 b0;
    do (r3, carry) <- mac r3 a2 b1 carry;
    do (r4, carry) <- mac r4 a2 b2 carry;
    do (r5, carry_out) <- mac carry_out a2 b3 carry;
    do (r3, carry) <- macx r3 a3 b0;
    do (r4, carry) <- mac r4 a3 b1 carry;
    do (r5, carry) <- mac r5 a3 b2 carry;
    do (r6, carry_out) <- mac carry_out a3 b3 carry;
    Ok [r0; r1; r2; r3; r4; r5; r6; carry_out]
  | _, _ => Panic
  end.
