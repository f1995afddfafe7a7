(** Vocabulary for C65: circuits that hash and hash again (chains, trees, any graph of hashes).  Specification, not a
    model of code. *)
From Coq Require Import ZArith List Arith.
From Verif Require Import Field Rust Primitives SpecHash Link Halo2 Built Pow5 Gadget.
Import ListNotations.
Local Open Scope nat_scope.

(** A hash program over a list of words: each step hashes the words at the given indices and appends the digest. *)
Definition program : Type := list (list nat).

Section Use.
  Context {F : Type} {FO : FieldOps F}.

  (** the textbook sponge over a message of known length, which is what [ConstantLength] hashing computes (C02) *)
  Definition fixed_hash (T : nat) (s : spec F) (msg : list F) : F :=
    sponge_hash (textbook s) T (T - 1) 0 (T - 1) (of_Z (Z.of_nat (length msg) * 2 ^ 64)) msg.

  (** what it computes with the hash [H] of a message *)
  Fixpoint evaluate (H : list F -> F) (prog : program) (xs : list F) : list F :=
    match prog with
    | [] => xs
    | op :: prog' => evaluate H prog' (xs ++ [H (map (fun i => nth i xs fzero) op)])
    end.

  (** the messages hashed by it, in order *)
  Fixpoint messages (H : list F -> F) (prog : program) (xs : list F) : list (list F) :=
    match prog with
    | [] => []
    | op :: prog' => let msg := map (fun i => nth i xs fzero) op in msg :: messages H prog' (xs ++ [H msg])
    end.

  (** every step has a message, and of words that exist *)
  Fixpoint well_formed (n : nat) (prog : program) : Prop :=
    match prog with
    | [] => True
    | op :: prog' => op <> [] /\ Forall (fun i => i < n) op /\ well_formed (S n) prog'
    end.

  (** the words at the given indices *)
  Fixpoint pick {A} (ws : list A) (op : list nat) : option (list A) :=
    match op with
    | [] => Some []
    | i :: op' => match nth_error ws i, pick ws op' with Some w, Some l => Some (w :: l) | _, _ => None end
    end.

  (** the calls in a circuit; the host may lay out anything before, inside and after each step *)
  Inductive calls (T RATE : nat) (s : spec F) (cfg : pow5) :
    program -> list (acell F) -> layout F -> list (acell F) -> layout F -> Prop :=
  | calls_done : forall ws L L', grows L L' -> calls T RATE s cfg [] ws L ws L'
  | calls_hash : forall op prog ws ws' L L0 L1 L2 L3 L' h msg out,
      grows L L0 -> circuit_hash_init RATE cfg (length op) L0 = Ok (L1, h) -> grows L1 L2 ->
      pick ws op = Some msg -> circuit_hash T RATE s cfg (length op) h msg L2 = Ok (L3, out) ->
      calls T RATE s cfg prog (ws ++ [out]) L3 ws' L' -> calls T RATE s cfg (op :: prog) ws L ws' L'.

  (** the same without a host in between, as a function *)
  Fixpoint circuit_program (T RATE : nat) (s : spec F) (cfg : pow5) (prog : program) (ws : list (acell F))
    : Layouter F (list (acell F)) :=
    match prog with
    | [] => lret ws
    | op :: prog' =>
        lbind (circuit_hash_init RATE cfg (length op)) (fun h =>
        lbind (llift (match pick ws op with Some msg => Ok msg | None => Panic end)) (fun msg =>
        lbind (circuit_hash T RATE s cfg (length op) h msg) (fun out =>
        circuit_program T RATE s cfg prog' (ws ++ [out]))))
    end.
End Use.

(** [depends n prog i j]: with [n] words at the start, word [i] is [j] or is hashed from words of which one depends on [j] *)
Inductive depends (n : nat) (prog : program) : nat -> nat -> Prop :=
| depends_self : forall i, depends n prog i i
| depends_step : forall k op i j, nth_error prog k = Some op -> In i op -> depends n prog i j -> depends n prog (n + k) j.
