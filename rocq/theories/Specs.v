(** Model of the two Poseidon specifications
    poseidon-base/src/primitives/p128pow5t3.rs and p128pow5t3_compact.rs. *)
From Coq Require Import ZArith List Arith.
From Verif Require Import Field Rust Primitives.
Import ListNotations.
Local Open Scope F_scope.

Section Model.
  Context {F : Type} {FO : FieldOps F}.

  (** trait [P128Pow5T3Constants] (p128pow5t3.rs:8-15) *)
  Record p128_constants : Type := {
    pc_partial_rounds : nat;
    pc_round_constants : list (list F);
    pc_mds : list (list F);
    pc_mds_inv : list (list F)
  }.

  (** [P128Pow5T3::sbox] (p128pow5t3.rs:37-39): [val.pow_vartime([5])], square and multiply over
      the bits 101 of the exponent, most significant first, starting from one
      (the ff crate's [Field::pow_vartime]; squarings of one for the leading zero bits are left
      out) *)
  Definition sbox_pow (v : F) : F :=
    let r := 1 in
    let r := r * r in let r := r * v in      (* bit 1 *)
    let r := r * r in                        (* bit 0 *)
    let r := r * r in r * v.                 (* bit 1 *)

  (** [P128Pow5T3Compact::sbox] (p128pow5t3_compact.rs:27-32) *)
  Definition sbox_mul (v : F) : F := let a := v * v in let b := a * a in b * v.

  (** [mat_mul] (p128pow5t3_compact.rs:63-72) *)
  Definition mat_mul (T : nat) (m : list (list F)) (input : list F) : list F :=
    map (fun i => fold_left (fun acc j => acc + mnth m i j * fnth input j) (seq 0 T) 0) (seq 0 T).

  (** [vec_accumulate] (p128pow5t3_compact.rs:74-78) *)
  Definition vec_accumulate (a b : list F) : list F := zip_mut fadd a b.

  (** [vec_remove_tail] (p128pow5t3_compact.rs:80-87): (the array after the call, the tail) *)
  Definition vec_remove_tail (a : list F) : list F * list F :=
    match a with
    | [] => ([], [])
    | x :: t => (x :: map (fun _ => 0) t, 0 :: t)
    end.

  (** one iteration of the loop at p128pow5t3_compact.rs:45-56; [rc[i]] and [rc[i+1]] panic when
      out of bounds *)
  Definition compact_step (m : list (list F)) (rc : list (list F)) (i : nat)
    : result (list (list F)) :=
    do row <- index rc i;
    let '(row', rc_tail) := vec_remove_tail row in
    let rc := upd rc i row' in
    let rc_carry := mat_mul 3 m rc_tail in
    do nxt <- index rc (i + 1);
    Ok (upd rc (i + 1) (vec_accumulate nxt rc_carry)).

  (** [P128Pow5T3Compact::constants] (p128pow5t3_compact.rs:38-60), round constants only; the
      matrices are returned unchanged *)
  Definition compact_round_constants (full partial : nat) (m : list (list F)) (rc : list (list F))
    : result (list (list F)) :=
    let first_partial := Nat.div2 full in
    fold_r (compact_step m) (seq first_partial partial) rc.

  (** [impl Spec for P128Pow5T3] (p128pow5t3.rs:28-48), with its own constants *)
  Definition p128_spec (c : p128_constants) : spec F :=
    {| full_rounds := 8; partial_rounds := pc_partial_rounds c; sbox := sbox_pow;
       round_constants := pc_round_constants c; mds := pc_mds c; mds_inv := pc_mds_inv c |}.

  (** [impl Spec for P128Pow5T3Compact] (p128pow5t3_compact.rs:16-61) *)
  Definition compact_spec (c : p128_constants) : result (spec F) :=
    do rc <- compact_round_constants 8 (pc_partial_rounds c) (pc_mds c) (pc_round_constants c);
    Ok {| full_rounds := 8; partial_rounds := pc_partial_rounds c; sbox := sbox_mul;
          round_constants := rc; mds := pc_mds c; mds_inv := pc_mds_inv c |}.

  (** Cached constants (poseidon-base/src/params.rs:21-48): both the [CachedConstants] of the field and
      the [CachedSpec] of [HashSpec] use the compact table; [HashSpec] is the compact spec with
      feature "short" and the plain one without (hash.rs:6-30). *)
  Definition cached_hash_spec (short : bool) (c : p128_constants) : result (spec F) :=
    do rc <- compact_round_constants 8 (pc_partial_rounds c) (pc_mds c) (pc_round_constants c);
    Ok {| full_rounds := 8; partial_rounds := pc_partial_rounds c;
          sbox := if short then sbox_mul else sbox_pow;
          round_constants := rc; mds := pc_mds c; mds_inv := pc_mds_inv c |}.
End Model.
Arguments p128_constants F : clear implicits.
