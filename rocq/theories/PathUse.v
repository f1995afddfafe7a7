(** Binary hash trees over the two-word rows of the exposed table, as a state tree circuit uses it: a leaf is the hash of
    two words in a leaf domain, a node the hash of its two children in a node domain.  Specification, not a model of
    code. *)
From Coq Require Import ZArith List Arith.
From Verif Require Import Field Rust Primitives BaseHash SpongeTable TableUse LookupUse.
Import ListNotations.
Local Open Scope nat_scope.

(** one step down from a node: whether the path goes on in the right child, the other child, the domain of the node *)
Record path_step (F : Type) : Type := { step_right : bool; step_sibling : F; step_domain : F }.
Arguments step_right {F} _.
Arguments step_sibling {F} _.
Arguments step_domain {F} _.

Section Use.
  Context {F : Type} {FO : FieldOps F}.

  Definition directions (path : list (path_step F)) : list bool := map step_right path.
  (** the children of a node, [x] being the one on the path *)
  Definition children (st : path_step F) (x : F) : F * F :=
    if step_right st then (step_sibling st, x) else (x, step_sibling st).

  (** the root over a leaf, the path being given from the root down *)
  Fixpoint path_root (s : spec F) (path : list (path_step F)) (leaf : result F) : result F :=
    match path with
    | [] => leaf
    | st :: path' => do x <- path_root s path' leaf; hash_with_domain s (children st x) (step_domain st)
    end.
  (** what has to be hashed for it: two words and a domain each, from the root down *)
  Fixpoint path_rows (s : spec F) (path : list (path_step F)) (words : F * F) (leaf_domain : F) : result (list ((F * F) * F)) :=
    match path with
    | [] => Ok [(words, leaf_domain)]
    | st :: path' =>
      do x <- path_root s path' (hash_with_domain s words leaf_domain);
      do rows <- path_rows s path' words leaf_domain;
      Ok ((children st x, step_domain st) :: rows)
    end.

  Section Lookups.
    Variables (C : hash_circuit F) (adv : nat -> nat -> F) (calcs : nat).

    (** a circuit finds the two words, not both zero, with digest [d] in the table *)
    Definition pair_found (d : F) (words : F * F) (dom : F) : Prop :=
      words <> (fzero, fzero)
      /\ exists r, 1 <= r <= calcs /\ table_tuple C adv r = [d; fst words; snd words; fzero; dom; fone].
    (** it finds every node of a path from [root] to [leaf] *)
    Fixpoint path_found (root : F) (path : list (path_step F)) (leaf : F) : Prop :=
      match path with
      | [] => root = leaf
      | st :: path' => exists x, pair_found root (children st x) (step_domain st) /\ path_found x path' leaf
      end.
    Definition entry_found (root : F) (path : list (path_step F)) (words : F * F) (leaf_domain : F) : Prop :=
      exists leaf, path_found root path leaf /\ pair_found leaf words leaf_domain.

    (** two rows of the table are a collision of the two-word hash *)
    Definition pair_collision (s : spec F) : Prop :=
      exists r1 r2, 1 <= r1 <= calcs /\ 1 <= r2 <= calcs
        /\ (in1 C adv r1, in2 C adv r1, domain C adv r1) <> (in1 C adv r2, in2 C adv r2, domain C adv r2)
        /\ digest C adv r1 = digest C adv r2
        /\ hash_with_domain s (in1 C adv r1, in2 C adv r1) (domain C adv r1) = Ok (digest C adv r1)
        /\ hash_with_domain s (in1 C adv r2, in2 C adv r2) (domain C adv r2) = Ok (digest C adv r2).
  End Lookups.
End Use.
