(** Vocabulary for hosts that look up rows of the exposed table.  Specification, not a model of code. *)
From Coq Require Import ZArith List Arith.
From Verif Require Import Field Rust BaseHash Halo2 SpongeTable TableUse.
Import ListNotations.
Local Open Scope nat_scope.

Section Use.
  Context {F : Type} {FO : FieldOps F}.
  Variable C : hash_circuit F.

  (** what the rows [s..e] add to the sponge state, row by row; the control of the head row is part of its capacity *)
  Definition sponge_input (adv : nat -> nat -> F) (s e : nat) : list (F * F * F) :=
    map (fun r => (fadd (if r =? s then control C adv s else fzero) (domain C adv r), in1 C adv r, in2 C adv r))
        (seq s (S e - s)).
  (** no two messages of the table are a collision of the sponge *)
  Definition collision_free (adv : nat -> nat -> F) (calcs : nat) : Prop :=
    forall s e s' e', message C adv calcs s e -> message C adv calcs s' e' -> digest C adv s = digest C adv s' ->
      sponge_input adv s e = sponge_input adv s' e'.

  (** the row a host looks up: digest, two words, control, domain, head *)
  Definition table_tuple (adv : nat -> nat -> F) (r : nat) : list F := map (fun j => tcell C adv j r) [0; 1; 2; 3; 4; 5].

  (** what row [r] of the message that starts in row [s] (at least 1) hands to the permutation *)
  Definition row_call (perm : list F -> list F) (adv : nat -> nat -> F) (s r : nat) : list F :=
    let st := absorbed C adv perm s (r - 1) in
    [fadd (nth 0 st fzero) (domain C adv r); fadd (nth 1 st fzero) (in1 C adv r); fadd (nth 2 st fzero) (in2 C adv r)].
  Definition called (perm : list F -> list F) (adv : nat -> nat -> F) (calcs : nat) (x : list F) : Prop :=
    exists s e r, message C adv calcs s e /\ s <= r <= e /\ x = row_call perm adv s r.
  (** two different states of the table have the same first word after the permutation *)
  Definition table_collision (perm : list F -> list F) (adv : nat -> nat -> F) (calcs : nat) : Prop :=
    exists x y, called perm adv calcs x /\ called perm adv calcs y /\ x <> y /\ nth 0 (perm x) fzero = nth 0 (perm y) fzero.
  (** a state of the table has this first word after the permutation *)
  Definition table_hits (perm : list F -> list F) (adv : nat -> nat -> F) (calcs : nat) (v : F) : Prop :=
    exists x, called perm adv calcs x /\ nth 0 (perm x) fzero = v.

  (** two assignments have the same inputs on the enabled rows *)
  Definition same_inputs (calcs : nat) (adv adv' : nat -> nat -> F) : Prop :=
    forall r j, 1 <= r <= calcs -> (1 <= j <= 4) -> tcell C adv j r = tcell C adv' j r.
End Use.
