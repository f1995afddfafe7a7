(** Vocabulary for degrees: polynomials in one variable, lines of states, and how fast a leading coefficient can vanish.
    Specification, not a model of code. *)
From Coq Require Import List Arith.
From Verif Require Import Field SpecHash.
Import ListNotations.
Local Open Scope F_scope.

Section Use.
  Context {F : Type} {FO : FieldOps F}.

  (** the polynomial with coefficients [c], constant first *)
  Fixpoint polynomial (c : list F) (x : F) : F :=
    match c with [] => 0 | a :: c' => a + x * polynomial c' x end.

  (** the states on a line: [st + x v] *)
  Definition on_line (st v : list F) (x : F) : list F := vadd (map (fmul x) v) st.
  (** the state with word [i] replaced by [x] *)
  Definition with_word (i : nat) (st : list F) (x : F) : list F := firstn i st ++ x :: skipn (S i) st.

  (** [f] is a polynomial of degree [d] exactly: no polynomial of smaller degree agrees with it in more than [d] places *)
  Definition degree (d : nat) (f : F -> F) : Prop :=
    (exists c, length c = S d /\ forall x, f x = polynomial c x)
    /\ (forall c xs, length c <= d -> NoDup xs -> (forall x, In x xs -> f x = polynomial c x) -> length xs <= d)%nat.

  (** the leading coefficients of a state after a full and after a partial round, from those before *)
  Definition lead_full (m : list (list F)) (v : list F) : list F := mat_vec m (map power5 v).
  Definition lead_partial (m : list (list F)) (v : list F) : list F :=
    mat_vec m (match v with [] => [] | x :: t => power5 x :: map (fun _ => 0) t end).
  Definition lead_permute (m : list (list F)) (half partial : nat) (v : list F) : list F :=
    Nat.iter half (lead_full m) (Nat.iter partial (lead_partial m) (Nat.iter half (lead_full m) v)).
End Use.
