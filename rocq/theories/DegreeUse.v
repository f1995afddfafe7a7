(** Vocabulary for the cost of a constraint system: the degrees and the rotations of its polynomials.  Specification,
    not a model of code; halo2's [Expression::degree] and [ConstraintSystem::degree] compute the same numbers. *)
From Coq Require Import ZArith List Arith.
From Verif Require Import Field Rust Halo2.
Import ListNotations.
Local Open Scope nat_scope.

Section Use.
  Context {F : Type}.

  (** a selector or a cell counts as one variable *)
  Fixpoint degree (e : expr F) : nat :=
    match e with
    | EConst _ => 0
    | ESel _ | EFix _ _ | EAdv _ _ => 1
    | ENeg a => degree a
    | ESum a b => max (degree a) (degree b)
    | EProd a b => degree a + degree b
    | EScaled a _ => degree a
    end.

  (** the rows relative to the current one that are read *)
  Fixpoint rotations (e : expr F) : list Z :=
    match e with
    | EConst _ | ESel _ => []
    | EFix _ r | EAdv _ r => [r]
    | ENeg a => rotations a
    | ESum a b | EProd a b => rotations a ++ rotations b
    | EScaled a _ => rotations a
    end.

  (** the largest of the gates' degrees, 3 for the copy constraints, and for each lookup of an expression in a
      column 2 more than the sum of their degrees, at least 4 *)
  Definition required_degree (m : cs F) : nat :=
    fold_right max 3 (map degree (cs_gates m) ++ map (fun l => max 4 (2 + degree (fst l) + 1)) (cs_lookups m)).

  (** the gates added to [m0] by a configuration that gives [m1]; all of them read rows [lo] to [hi] only *)
  Definition adds_gates (m0 m1 : cs F) (deg : nat) (lo hi : Z) : Prop :=
    exists gs, cs_gates m1 = cs_gates m0 ++ gs
      /\ (forall g, In g gs -> degree g <= deg /\ forall r, In r (rotations g) -> (lo <= r <= hi)%Z)
      /\ exists g, In g gs /\ degree g = deg.
  (** the columns added *)
  Definition adds_columns (m0 m1 : cs F) (advice fixed selectors : nat) : Prop :=
    cs_adv m1 = advice + cs_adv m0 /\ cs_fix m1 = fixed + cs_fix m0 /\ cs_sel m1 = selectors + cs_sel m0.
End Use.
