(** Model of poseidon-base/src/primitives/mds.rs and of the default [Spec::constants]
    (primitives.rs:65-87). *)
From Coq Require Import ZArith List Arith Bool.
From Verif Require Import Field Rust Primitives Grain.
Import ListNotations.
Local Open Scope F_scope.

Section Model.
  Context {F : Type} {FO : FieldOps F}.

  (** the uniqueness test (mds.rs:16-20): sort, dedup and compare lengths; modelled as the test that all
      elements are pairwise different *)
  Fixpoint all_distinct (l : list F) : bool :=
    match l with
    | [] => true
    | x :: l' => negb (existsb (feqb x) l') && all_distinct l'
    end.

  (** the inner loop (mds.rs:11-24) *)
  Fixpoint draw_unique (tries fuel T : nat) (g : grain) : option (list F * list F * grain) :=
    match tries with
    | O => None
    | S k =>
      match draw (next_field_element_without_rejection fuel) (2 * T) g with
      | None => None
      | Some (vals, g) =>
        if all_distinct vals then Some (firstn T vals, skipn T vals, g)
        else draw_unique k fuel T g
      end
    end.

  (** the Cauchy matrix (mds.rs:51-60); panics on a zero sum *)
  Definition cauchy (T : nat) (xs ys : list F) : result (list (list F)) :=
    map_r (fun i =>
      map_r (fun j =>
        let sum := fnth xs i + fnth ys j in
        do _ <- rassert (negb (feqb sum 0));
        Ok (finv sum)) (seq 0 T)) (seq 0 T).

  (** the closure [l] (mds.rs:78-89), the j-th Lagrange basis polynomial of [xs] at [x];
      [invert().unwrap()] panics on zero *)
  Definition lagrange (xs : list F) (j : nat) (x : F) : result F :=
    let x_j := fnth xs j in
    fold_r (fun acc '(m, x_m) =>
      if (m =? j)%nat then Ok acc
      else let d := x_j - x_m in
           do _ <- rassert (negb (feqb d 0));
           Ok (acc * (x - x_m) * finv d)) (combine (seq 0 (length xs)) xs) 1.

  (** the inverse (mds.rs:77, 90-95) *)
  Definition cauchy_inv (T : nat) (xs ys : list F) : result (list (list F)) :=
    let neg_ys := map fopp ys in
    map_r (fun i =>
      map_r (fun j =>
        do a <- lagrange xs j (fnth neg_ys i);
        do b <- lagrange neg_ys i (fnth xs j);
        Ok ((fnth xs j - fnth neg_ys i) * a * b)) (seq 0 T)) (seq 0 T).

  (** the outer loop (mds.rs:9-63): [select] draws are skipped *)
  Fixpoint draw_selected (select tries fuel T : nat) (g : grain) : option (list F * list F * grain) :=
    match draw_unique tries fuel T g with
    | None => None
    | Some (xs, ys, g) =>
      match select with
      | O => Some (xs, ys, g)
      | S k => draw_selected k tries fuel T g
      end
    end.

  (** [generate_mds] (mds.rs:5-98).  [None]: a loop bound was hit. *)
  Definition generate_mds (tries fuel T select : nat) (g : grain)
    : option (result (list (list F) * list (list F))) :=
    match draw_selected select tries fuel T g with
    | None => None
    | Some (xs, ys, _) =>
      Some (do m <- cauchy T xs ys; do mi <- cauchy_inv T xs ys; Ok (m, mi))
    end.

  (** default [Spec::constants] (primitives.rs:65-87).  [t], [r_f], [r_p] are cast [as u16]; the values in
      use are below 2^10. *)
  Definition gen_constants (tries fuel T r_f r_p secure_mds : nat)
    : option (result (list (list F) * list (list F) * list (list F))) :=
    let g := grain_new (N.of_nat (num_bits (F := F))) (N.of_nat T) (N.of_nat r_f) (N.of_nat r_p) in
    match draw_rows (next_field_element tries fuel) T (r_f + r_p) g with
    | None => None
    | Some (rc, g) =>
      match generate_mds tries fuel T secure_mds g with
      | None => None
      | Some r => Some (do (m, mi) <- r; Ok (rc, m, mi))
      end
    end.
End Model.
