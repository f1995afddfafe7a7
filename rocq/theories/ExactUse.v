(** Which exposed tables the circuit accepts, as a relation on the 6 exposed columns alone.  Specification, not a
    model of code. *)
From Coq Require Import ZArith NArith List Arith.
From Verif Require Import Field Rust Primitives Specs BaseHash SpecHash Halo2 PermuteChip ChipUse SpongeTable TableUse.
Import ListNotations.
Local Open Scope nat_scope.

Section Exact.
  Context {F : Type} {FO : FieldOps F}.
  Variable perm : list F -> list F.
  Variable C : hash_circuit F.
  Variables n u calcs : nat.
  Variable adv : nat -> nat -> F.

  (** a row without words and without control *)
  Definition zero_row (r : nat) : Prop := in1 C adv r = fzero /\ in2 C adv r = fzero /\ control C adv r = fzero.
  (** a row that continues the message of the row before it: it has the same digest, and a control that is not
      zero and less by one step *)
  Definition continues (r : nat) : Prop :=
    1 < r /\ head C adv r = fzero /\ digest C adv r = digest C adv (r - 1)
    /\ control C adv r <> fzero
    /\ control C adv (r - 1) = fadd (control C adv r) (length_code (hc_legacy C) (N.of_nat (hc_step C))).
  (** the row before [r], cyclically *)
  Definition row_before (r : nat) : nat := if r =? 0 then n - 1 else r - 1.

  (** - row 0 and the last enabled row are zero rows;
      - an enabled row starts a message or continues one;
      - the digest of a message that is followed by an enabled row is the sponge over its rows;
      - in each usable row, head mark times the control before it is one of the numbers 0 to [hc_range]. *)
  Definition table_relation : Prop :=
    zero_row 0 /\ zero_row calcs
    /\ (forall r, 1 <= r <= calcs -> head C adv r = fone \/ continues r)
    /\ (forall s e, message C adv calcs s e -> digest C adv e = nth 0 (absorbed C adv perm s e) fzero)
    /\ (forall r, r < u -> exists x, x <= hc_range C
          /\ fmul (head C adv r) (control C adv (row_before r)) = length_code (hc_legacy C) (N.of_nat x)).
End Exact.

Section Same.
  Context {F : Type} {FO : FieldOps F}.
  (** two assignments that differ only in the advice columns that [configure_sub] adds *)
  Definition same_outside (C : hash_circuit F) (adv adv' : nat -> nat -> F) : Prop :=
    forall c r, ~ (cs_adv (hc_host C) <= c < cs_adv (hc_cs C)) -> adv' c r = adv c r.
  (** the host's constraints do not look into these columns *)
  Definition host_apart (C : hash_circuit F) (L0 L : layout F) (copies : list ((column * nat) * (column * nat))) (n u : nat) : Prop :=
    forall adv adv', same_outside C adv adv' -> host_ok C L0 L copies n u adv -> host_ok C L0 L copies n u adv'.
  (** two circuits that read the table in the same way: same feature "legacy", range and step *)
  Definition same_reading (C C' : hash_circuit F) : Prop :=
    hc_legacy C' = hc_legacy C /\ hc_range C' = hc_range C /\ hc_step C' = hc_step C.
End Same.
