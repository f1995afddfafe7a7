(** Vocabulary for C71: the worker threads of [assign_regions] and the rows they write.  Specification, not a model of
    code. *)
From Coq Require Import List Arith.
From Verif Require Import Field Rust Halo2.
Import ListNotations.

Section Workers.
  Context {F A : Type}.

  (** the rows from [a] to [b], cut into non-empty parts one after the other *)
  Fixpoint tiled (a b : nat) (rs : list (nat * nat)) : Prop :=
    match rs with [] => a = b | (x, y) :: r => x = a /\ x < y /\ tiled y b r end.

  (** the workers with closures [ps], started on layout [L]: there are at most [threads] of them; the rows reserved for
      them are the ones from [t] on, [sizes] rows each; and each writes to its own rows only *)
  Definition split_rows (threads t : nat) (sizes : list nat) (ps : list (Region F A * Region F A)) (L : layout F) : Prop :=
    exists rs, row_ranges (length (lo_starts L)) ps L = Ok rs
      /\ length rs = length ps /\ length rs <= threads
      /\ tiled t (list_sum sizes + t) rs /\ map (fun '(a, b) => b - a) rs = sizes
      /\ forall i p1 p2 a b evs x, nth_error ps i = Some (p1, p2) -> nth_error rs i = Some (a, b) ->
           p2 (i + length (lo_starts L)) = Ok (evs, x) -> forall c o, In (c, o) (touched evs) -> o + a < b.
End Workers.
