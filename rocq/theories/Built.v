(** Vocabulary for circuits laid out region by region around a chip that shares its columns with the rest of the
    circuit.  Specification, not a model of code. *)
From Coq Require Import ZArith List Arith.
From Verif Require Import Field Rust Halo2.
Import ListNotations.
Local Open Scope nat_scope.

Section Built.
  Context {F : Type} {FO : FieldOps F}.

  (** [L'] comes from [L] by assigning any regions and any tables *)
  Inductive grows : layout F -> layout F -> Prop :=
  | grows_refl : forall L, grows L L
  | grows_region : forall L L1 L2 A (p : Region F A) x,
      grows L L1 -> assign_region p L1 = Ok (L2, x) -> grows L L2
  | grows_table : forall L L1 L2 c vals x,
      grows L L1 -> assign_table c vals L1 = Ok (L2, x) -> grows L L2.

  (** words that live in regions laid out so far *)
  Definition words_in (L : layout F) (ws : list (acell F)) : Prop :=
    Forall (fun w => ce_region (ac_cell w) < length (lo_starts L)) ws.

  (** the value the layout writes to a cell *)
  Definition cell_has (L : layout F) (x : column * nat) (v : F) : Prop :=
    match x with
    | (Adv c, r) => last_write (lo_adv L) c r = Some (Some v)
    | (Fix c, r) => last_write (lo_fix L) c r = Some v
    | (Sel _, _) => False
    end.
  (** a word of some region laid out so far whose value is known and is what was written to its cell *)
  Definition carries (L : layout F) (w : acell F) (v : F) : Prop :=
    ce_region (ac_cell w) < length (lo_starts L) /\ ac_val w = Some v
    /\ cell_has L (abs_cell (lo_starts L) (ac_cell w)) v.

  (** a region that does not enable the given selectors *)
  Definition quiet {A} (sels : list nat) (p : Region F A) : Prop :=
    forall ri evs x q o, p ri = Ok (evs, x) -> In (EnableSelector q o) evs -> ~ In q sels.

  (** a circuit made of the operations [op] of a chip and of regions and tables that leave the chip's selectors
      alone; also the copy constraints made by the latter *)
  Inductive made (sels : list nat) (op : layout F -> layout F -> Prop)
    : layout F -> list ((column * nat) * (column * nat)) -> Prop :=
  | made_start : forall m, made sels op (layout_empty m) []
  | made_op : forall L L' other, made sels op L other -> op L L' -> made sels op L' other
  | made_region : forall L L' A (p : Region F A) x other copies,
      made sels op L other -> quiet sels p -> assign_region p L = Ok (L', x) ->
      lo_copy L' = lo_copy L ++ copies -> made sels op L' (other ++ copies)
  | made_table : forall L L' c vals x other,
      made sels op L other -> assign_table c vals L = Ok (L', x) -> made sels op L' other.
End Built.
