(** Vocabulary for a circuit with several hash tables.  Specification, not a model of code. *)
From Coq Require Import ZArith List Arith.
From Verif Require Import Field Rust Primitives Specs Halo2 Septidon PermuteChip ChipUse SpongeTable TableUse.
Import ListNotations.
Local Open Scope nat_scope.

(** one of the tables: the constants of its hash, its configuration, and what it is filled with *)
Record table_use (F : Type) : Type := {
  tu_constants : p128_constants F;
  tu_circuit : hash_circuit F;
  tu_mode : assignment_mode;
  tu_calcs : nat;
  tu_table : hash_table F
}.
Arguments tu_constants {F} _.
Arguments tu_circuit {F} _.
Arguments tu_mode {F} _.
Arguments tu_calcs {F} _.
Arguments tu_table {F} _.

Section Use.
  Context {F : Type} {FO : FieldOps F}.

  (** the constraint system: the host configures what it likes, in between [configure_sub] is called for the tables;
      also the gates and lookup arguments of everything but the tables *)
  Inductive tables_configured : cs F -> list (table_use F) -> list (expr F) -> list (expr F * nat) -> Prop :=
  | conf_host : forall m, tables_configured m [] (cs_gates m) (cs_lookups m)
  | conf_table : forall Ts T gates lookups,
      tables_configured (hc_host (tu_circuit T)) Ts gates lookups -> host_columns (tu_circuit T) ->
      tables_configured (hc_cs (tu_circuit T)) (Ts ++ [T]) gates lookups
  | conf_more : forall m m' Ts gates lookups g l,
      tables_configured m Ts gates lookups ->
      cs_adv m <= cs_adv m' -> cs_fix m <= cs_fix m' -> cs_sel m <= cs_sel m' ->
      cs_gates m' = cs_gates m ++ g -> cs_lookups m' = cs_lookups m ++ l ->
      tables_configured m' Ts (gates ++ g) (lookups ++ l).

  (** no two tables use the same column *)
  Definition tables_apart (Ts : list (table_use F)) : Prop :=
    ForallOrdPairs (fun T T' => forall col, table_columns (tu_circuit T) col -> ~ table_columns (tu_circuit T') col) Ts.
  Definition some_table (Ts : list (table_use F)) (col : column) : Prop :=
    exists T, In T Ts /\ table_columns (tu_circuit T) col.

  (** the layout: [load] is called for the tables, once for each and in any order, in between anything is laid out in
      other columns; also the tables loaded so far and the copy constraints of everything but the tables *)
  Inductive tables_laid (Ts : list (table_use F))
    : layout F -> list (table_use F) -> list ((column * nat) * (column * nat)) -> Prop :=
  | laid_start : forall L, (forall T, In T Ts -> table_free (tu_circuit T) L) -> tables_laid Ts L [] (lo_copy L)
  | laid_load : forall L done other T L',
      tables_laid Ts L done other -> In T Ts -> ~ In T done ->
      hc_load (tu_circuit T) (tu_mode T) (tu_calcs T) (tu_table T) L = Ok (L', tt) ->
      tables_laid Ts L' (done ++ [T]) other
  | laid_other : forall L done other L' copies ts,
      tables_laid Ts L done other -> elsewhere (some_table Ts) L L' copies ->
      lo_tables L' = lo_tables L ++ ts -> (forall col vals, In (col, vals) ts -> ~ some_table Ts (Fix col)) ->
      tables_laid Ts L' done (other ++ copies).

  (** a table the circuit of [n] rows, the first [u] of them usable, has room for *)
  Definition table_room (n u : nat) (T : table_use F) : Prop :=
    mode_ok (tu_mode T)
    /\ (exists short h, build (tu_constants T) short (hc_spec (tu_circuit T)) (hc_chip (tu_circuit T)) h /\ h * tu_calcs T <= u)
    /\ tu_calcs T < u /\ hc_range (tu_circuit T) < u /\ u <= n.

  Definition tables_set_up (m : cs F) (Ts : list (table_use F)) (gates : list (expr F)) (lookups : list (expr F * nat))
             (L : layout F) (done : list (table_use F)) (other : list ((column * nat) * (column * nat))) (n u : nat) : Prop :=
    tables_configured m Ts gates lookups /\ tables_apart Ts /\ tables_laid Ts L done other
    /\ forall T, In T Ts -> table_room n u T.
End Use.
