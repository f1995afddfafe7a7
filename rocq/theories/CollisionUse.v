(** Vocabulary for collisions of the sponge.  Specification, not a model of code. *)
From Coq Require Import List Arith.
From Verif Require Import Field SpecHash.
Import ListNotations.
Local Open Scope nat_scope.

Section Use.
  Context {F : Type} {FO : FieldOps F}.

  (** the states that are permuted while blocks are absorbed, in order *)
  Fixpoint permuted (perm : list F -> list F) (off : nat) (bs : list (list F)) (st : list F) : list (list F) :=
    match bs with
    | [] => []
    | b :: r => let x := add_block off st b in x :: permuted perm off r (perm x)
    end.
  (** the states permuted by a hash *)
  Definition hash_calls (perm : list F -> list F) (T rate off pos : nat) (cap : F) (msg : list F) : list (list F) :=
    permuted perm off (blocks rate (pad_zeros rate msg)) (init_state T pos cap).

  (** two states agree on the words that are not absorbed into *)
  Definition capacity_agree (T rate off : nat) (u v : list F) : Prop :=
    forall i, i < T -> (i < off \/ off + rate <= i) -> nth i u fzero = nth i v fzero.

  (** a collision of the permutation among two lists of states: the last two have the same first word after it,
      or two have the same capacity words after it *)
  Definition last_collision (perm : list F -> list F) (l1 l2 : list (list F)) : Prop :=
    last l1 [] <> last l2 [] /\ nth 0 (perm (last l1 [])) fzero = nth 0 (perm (last l2 [])) fzero.
  Definition inner_collision (perm : list F -> list F) (T rate off : nat) (l1 l2 : list (list F)) : Prop :=
    exists x y, In x l1 /\ In y l2 /\ x <> y /\ capacity_agree T rate off (perm x) (perm y).
  (** a state with the capacity words of an initial state after the permutation *)
  Definition capacity_preimage (perm : list F -> list F) (T rate off pos : nat) (l : list (list F)) (cap : F) : Prop :=
    exists x, In x l /\ capacity_agree T rate off (perm x) (init_state T pos cap).
End Use.
