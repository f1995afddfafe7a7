(** Vocabulary for the rows and copies of in-circuit hashing.  Specification, not a model of code. *)
From Coq Require Import ZArith List Arith.
From Verif Require Import Field Primitives Halo2 Pow5 Pow5Use.
Import ListNotations.
Local Open Scope nat_scope.

Section Use.
  Context {F : Type} {FO : FieldOps F}.

  (** the first row that is free in all of [cols] *)
  Definition top (cols : list column) (L : layout F) : nat := fold_right (fun c m => Nat.max (lo_next L c) m) 0 cols.

  (** the columns a chip was configured with, and its selectors *)
  Definition p5_columns (cfg : pow5) : list column :=
    map Adv (p5_sbox cfg :: p5_state cfg) ++ map Fix (p5_rc_a cfg ++ p5_rc_b cfg) ++ map Sel (p5_selectors cfg).

  (** rows of a permutation: one for the input, one per full round, one per two partial rounds *)
  Definition permute_rows (s : spec F) : nat := 1 + 2 * (full_rounds s / 2) + (partial_rounds s + 1) / 2.
  (** rows of absorbing a block: input, message and sum, then a permutation *)
  Definition block_rows (s : spec F) : nat := 3 + permute_rows s.
  (** rows of a session that absorbs [n] words in blocks of [rate] and squeezes [k] words *)
  Definition session_rows (s : spec F) (rate n k : nat) : nat :=
    1 + (n / rate) * block_rows s + ((k - 1) / rate) * permute_rows s.

  (** words that may be copied *)
  Definition copyable (m : cs F) (w : acell F) : Prop := In (ce_col (ac_cell w)) (cs_eq m).
  Definition padded_copyable (m : cs F) (w : padded_word F) : Prop :=
    match w with Message a => copyable m a | Padding _ => True end.
End Use.
