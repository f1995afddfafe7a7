(** Vocabulary for circuits that contain a permutation chip: any sequence of calls of the chip,
    interleaved with anything that leaves the chip's columns alone.  Specification, not a model of code. *)
From Coq Require Import ZArith List Arith.
From Verif Require Import Field Rust Halo2 Septidon PermuteChip.
Import ListNotations.
Local Open Scope nat_scope.
Local Open Scope rust_scope.

(** columns added by a configuration step *)
Definition added {F} (c c' : cs F) (col : column) : Prop :=
  match col with
  | Adv i => cs_adv c <= i < cs_adv c'
  | Fix i => cs_fix c <= i < cs_fix c'
  | Sel i => cs_sel c <= i < cs_sel c'
  end.

Section Use.
  Context {F : Type} {FO : FieldOps F}.

  (** the value a word has in an assignment *)
  Definition word_at (L : layout F) (adv : nat -> nat -> F) (w : acell F) : F :=
    cell_at L adv (abs_cell (lo_starts L) (ac_cell w)).
  (** three words that live in regions laid out so far *)
  Definition three_words (L : layout F) (ws : list (acell F)) : Prop :=
    length ws = 3 /\ Forall (fun w => ce_region (ac_cell w) < length (lo_starts L)) ws.

  (** a layout that has nothing in the given columns *)
  Definition unused (own : column -> Prop) (L : layout F) : Prop :=
    (forall c, own c -> lo_next L c = 0)
    /\ (forall c r v, In (c, r, v) (lo_adv L) -> ~ own (Adv c))
    /\ (forall c r v, In (c, r, v) (lo_fix L) -> ~ own (Fix c))
    /\ (forall s r, In (s, r) (lo_sel L) -> ~ own (Sel s)).

  (** [L'] comes from [L] by steps that do not touch the given columns *)
  Definition elsewhere (own : column -> Prop) (L L' : layout F) (copies : list ((column * nat) * (column * nat)))
    : Prop :=
    exists starts adv fix_ sel,
      lo_starts L' = lo_starts L ++ starts
      /\ (forall c, own c -> lo_next L' c = lo_next L c)
      /\ lo_adv L' = lo_adv L ++ adv /\ (forall c r v, In (c, r, v) adv -> ~ own (Adv c))
      /\ lo_fix L' = lo_fix L ++ fix_ /\ (forall c r v, In (c, r, v) fix_ -> ~ own (Fix c))
      /\ lo_sel L' = lo_sel L ++ sel /\ (forall s r, In (s, r) sel -> ~ own (Sel s))
      /\ lo_copy L' = lo_copy L ++ copies.

  (** a circuit with calls of the chip: the calls (words given, words returned) and the copy constraints
      made by everything else *)
  Inductive chip_used (P : permute_chip F) (cfg : pc_config P) (own : column -> Prop)
    : layout F -> list (list (acell F) * list (acell F)) -> list ((column * nat) * (column * nat)) -> Prop :=
  | used_start : forall L, unused own L -> chip_used P cfg own L [] (lo_copy L)
  | used_permute : forall L calls other ws L' out,
      chip_used P cfg own L calls other -> three_words L ws -> pc_permute P cfg ws L = Ok (L', out) ->
      chip_used P cfg own L' (calls ++ [(ws, out)]) other
  | used_batch : forall L calls other threads wss L' outs,
      chip_used P cfg own L calls other -> 0 < threads -> Forall (three_words L) wss ->
      pc_permute_batch P threads cfg wss L = Ok (L', outs) ->
      chip_used P cfg own L' (calls ++ combine wss outs) other
  | used_elsewhere : forall L calls other L' copies,
      chip_used P cfg own L calls other -> elsewhere own L L' copies ->
      chip_used P cfg own L' calls (other ++ copies).

  (** a region placed at a given row, by any floor planner *)
  Definition place {A} (row : nat) (p : Region F A) : Layouter F A :=
    fun L =>
      let ri := length (lo_starts L) in
      do (evs, a) <- p ri;
      Ok (commit ri evs {| lo_starts := lo_starts L ++ [row]; lo_next := lo_next L; lo_adv := lo_adv L;
                           lo_fix := lo_fix L; lo_sel := lo_sel L; lo_copy := lo_copy L;
                           lo_tables := lo_tables L; lo_const := lo_const L |}, a).
  (** intervals of [h] rows that do not overlap *)
  Definition disjoint_blocks (h : nat) (rows : list nat) : Prop :=
    ForallOrdPairs (fun s s' => s + h <= s' \/ s' + h <= s) rows.
End Use.
