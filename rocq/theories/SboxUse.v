(** Vocabulary for differences: the S-box inputs of a run of the textbook permutation (SpecHash.v), and in how many places
    two runs differ.  Specification, not a model of code. *)
From Coq Require Import List Arith.
From Verif Require Import Field SpecHash.
Import ListNotations.

Section Use.
  Context {F : Type} {FO : FieldOps F}.

  (** the S-box inputs of consecutive full rounds, and of consecutive partial rounds, which have one S-box each *)
  Fixpoint full_inputs (m : list (list F)) (rcs : list (list F)) (st : list F) : list F :=
    match rcs with
    | [] => []
    | rc :: rcs' => vadd st rc ++ full_inputs m rcs' (spec_full m st rc)
    end.
  Fixpoint partial_inputs (m : list (list F)) (rcs : list (list F)) (st : list F) : list F :=
    match rcs with
    | [] => []
    | rc :: rcs' => firstn 1 (vadd st rc) ++ partial_inputs m rcs' (spec_partial m st rc)
    end.
  (** the S-box inputs of [spec_permute], in order *)
  Definition sbox_inputs (m : list (list F)) (half partial : nat) (rcs : list (list F)) (st : list F) : list F :=
    let first := firstn half rcs in
    let middle := firstn partial (skipn half rcs) in
    let last := firstn half (skipn (half + partial) rcs) in
    let st1 := fold_left (spec_full m) first st in
    let st2 := fold_left (spec_partial m) middle st1 in
    full_inputs m first st ++ partial_inputs m middle st1 ++ full_inputs m last st2.

  (** the number of positions in which two lists differ *)
  Fixpoint differences (a b : list F) : nat :=
    match a, b with
    | x :: a', y :: b' => (if feqb x y then 0 else 1) + differences a' b'
    | _, _ => 0
    end.

  (** the number of words that are not zero *)
  Fixpoint weight (v : list F) : nat :=
    match v with
    | [] => 0
    | x :: v' => (if feqb x fzero then 0 else 1) + weight v'
    end.

  (** a difference that reaches word 0, the one with an S-box, in no partial round of [n] is no difference *)
  Definition no_quiet_trail (T n : nat) (m : list (list F)) : Prop :=
    forall d, length d = T -> (forall i, i < n -> nth 0 (Nat.iter i (mat_vec m) d) fzero = fzero) -> d = repeat fzero T.

  (** partial rounds with any values [vs] in place of the S-box outputs *)
  Fixpoint free_rounds (m : list (list F)) (rcs : list (list F)) (vs st : list F) : list F :=
    match rcs, vs with
    | rc :: rcs', v :: vs' => free_rounds m rcs' vs' (mat_vec m (v :: tl (vadd st rc)))
    | _, _ => st
    end.
  (** no linear combination of the words after [n] partial rounds, from any state and with any constants, is blind to
      what the S-boxes do *)
  Definition no_blind_sum (T n : nat) (m : list (list F)) : Prop :=
    forall rcs st f, length rcs = n -> Forall (fun r => length r = T) rcs -> length st = T -> length f = T ->
    (forall vs vs', length vs = n -> length vs' = n -> dot f (free_rounds m rcs vs st) = dot f (free_rounds m rcs vs' st)) ->
    f = repeat fzero T.
End Use.
