(** Vocabulary for the hash table circuit: a host circuit that contains it, and the exposed table as a verifier
    reads it.  Specification, not a model of code. *)
From Coq Require Import ZArith List Arith.
From Verif Require Import Field Rust Primitives Specs BaseHash SpecHash BigSum Link Halo2 Septidon PermuteChip ChipUse Pow5
  SpongeTable.
Import ListNotations.
Local Open Scope nat_scope.

(** the circuit: the "legacy" feature, the permutation chip, the hasher, the const parameter STEP, and the
    arguments of [configure_sub]: the host's constraint system, its fixed column and 6 advice columns, the step *)
Record hash_circuit (F : Type) : Type := {
  hc_legacy : bool;
  hc_chip : permute_chip F;
  hc_spec : spec F;
  hc_range : nat;
  hc_host : cs F;
  hc_enable : nat;
  hc_table : list nat;
  hc_step : nat
}.
Arguments hc_legacy {F} _.
Arguments hc_chip {F} _.
Arguments hc_spec {F} _.
Arguments hc_range {F} _.
Arguments hc_host {F} _.
Arguments hc_enable {F} _.
Arguments hc_table {F} _.
Arguments hc_step {F} _.

Section Use.
  Context {F : Type} {FO : FieldOps F}.

  (** [SpecType], whose own constants the Pow5 chip reads (pow5.rs:263-279 with SpecType = HashSpec, base hash.rs:6-30);
      [base] is feature "short" of poseidon-base *)
  Definition spec_type (base : bool) (c : p128_constants F) : result (spec F) :=
    if base then compact_spec c else Ok (p128_spec c).

  (** the builds: the hasher, the chip and the rows per permutation.  The boolean is feature "short" of
      poseidon-circuit, which selects the chip (hash.rs:9-37); feature "short" of poseidon-base selects [HashSpec] and
      is on by default, so it can be on in either build (Cargo.toml of both crates) *)
  Inductive build (c : p128_constants F) : bool -> spec F -> permute_chip F -> nat -> Prop :=
  | build_short : forall base s, constants_ok c -> pc_partial_rounds c = 57 -> cached_hash_spec base c = Ok s ->
      build c true s (septidon_chip (round_constants s) (mds s)) 8
  | build_long : forall base s p, constants_ok c ->
      mat_prod_id 3 (pc_mds c) (pc_mds_inv c) -> mat_prod_id 3 (pc_mds_inv c) (pc_mds c) ->
      cached_hash_spec base c = Ok s -> spec_type base c = Ok p ->
      build c false s (pow5_chip p) (9 + (pc_partial_rounds c + 1) / 2).

  Section Circuit.
    Variable C : hash_circuit F.

    Definition hc_config : sponge_config (hc_chip C) :=
      fst (configure_sub (hc_legacy C) (hc_chip C) (hc_enable C) (hc_table C) (hc_step C) (hc_host C)).
    Definition hc_cs : cs F :=
      snd (configure_sub (hc_legacy C) (hc_chip C) (hc_enable C) (hc_table C) (hc_step C) (hc_host C)).
    Definition hc_load (mode : assignment_mode) (calcs : nat) (t : hash_table F) : Layouter F unit :=
      load (hc_legacy C) (hc_chip C) (hc_range C) (hc_spec C) hc_config mode calcs t.

    (** the host gives a fixed column and 6 different advice columns *)
    Definition host_columns : Prop :=
      hc_enable C < cs_fix (hc_host C)
      /\ length (hc_table C) = 6 /\ NoDup (hc_table C) /\ Forall (fun c => c < cs_adv (hc_host C)) (hc_table C).
    (** these columns and the ones [configure_sub] adds *)
    Definition table_columns (c : column) : Prop :=
      added (hc_host C) hc_cs c
      \/ match c with Adv i => In i (hc_table C) | Fix i => i = hc_enable C | Sel _ => False end.

    Definition mode_ok (mode : assignment_mode) : Prop :=
      match mode with Serial => True | Parallel threads => 0 < threads end.

    (** nothing is in these columns yet, and the range table is not assigned *)
    Definition table_free (L : layout F) : Prop :=
      unused table_columns L /\ forall vals, ~ In (sc_range hc_config, vals) (lo_tables L).
    (** a layout with the table: something before, [load], and something in other columns after, which makes
        the copy constraints [copies] *)
    Definition loaded (mode : assignment_mode) (calcs : nat) (t : hash_table F) (L0 L1 L : layout F)
               (copies : list ((column * nat) * (column * nat))) : Prop :=
      table_free L0 /\ mode_ok mode
      /\ hc_load mode calcs t L0 = Ok (L1, tt)
      /\ elsewhere table_columns L1 L copies /\ (exists ts, lo_tables L = lo_tables L1 ++ ts).

    (** any regions assigned later, in any columns *)
    Inductive later_regions (L : layout F) : layout F -> Prop :=
    | later_none : later_regions L L
    | later_region : forall L' L'' A (p : Region F A) a,
        later_regions L L' -> assign_region p L' = Ok (L'', a) -> later_regions L L''.

    (** ** The exposed table in an assignment *)
    Section View.
      Variable adv : nat -> nat -> F.
      Definition tcell (j r : nat) : F := adv (nth j (hc_table C) 0) r.
      Definition digest := tcell 0.
      Definition in1 := tcell 1.
      Definition in2 := tcell 2.
      Definition control := tcell 3.
      Definition domain := tcell 4.
      Definition head := tcell 5.

      (** rows [s..e] are a message that is followed by an enabled row; rows [1..calcs] are enabled *)
      Definition message (calcs s e : nat) : Prop :=
        1 <= s /\ s <= e /\ e < calcs
        /\ head s = fone /\ (forall i, s < i <= e -> head i = fzero) /\ head (S e) = fone.
      (** its words *)
      Definition words (s e : nat) : list F := flat_map (fun r => [in1 r; in2 r]) (seq s (S e - s)).
      (** the sponge over its rows: each row adds its domain and words to the state, then permutes *)
      Definition absorbed (perm : list F -> list F) (s e : nat) : list F :=
        fold_left (fun st r => perm [fadd (nth 0 st fzero) (domain r); fadd (nth 1 st fzero) (in1 r);
                                     fadd (nth 2 st fzero) (in2 r)])
                  (seq s (S e - s)) [control s; fzero; fzero].
    End View.
  End Circuit.

  (** the number that stands for a control value: the value times HASHABLE_DOMAIN_SPEC *)
  Definition length_code (legacy : bool) (x : N) : F := of_Z (Z.of_N x * (if legacy then 1 else 2 ^ 64)).

  (** ** Table contents *)

  (** row [i] of a table, missing entries read as zero *)
  Definition row_input (t : hash_table F) (i : nat) : F * F := nth i (ht_inputs t) (fzero, fzero).
  Definition row_control (t : hash_table F) (i : nat) : N := nth i (ht_controls t) 0%N.
  Definition row_domain (t : hash_table F) (i : nat) : F :=
    match nth i (ht_domain t) None with Some d => d | None => fzero end.
  Definition row_check (t : hash_table F) (i : nat) : option F := nth i (ht_checks t) None.

  (** within each message controls decrease by exactly [step], do not reach zero and domains are zero; the last
      row is a zero row *)
  Definition well_formed (range step calcs : nat) (t : hash_table F) : Prop :=
    (forall i, S i < calcs -> (N.of_nat range < row_control t i)%N ->
       (row_control t (S i) + N.of_nat step = row_control t i)%N
       /\ row_control t (S i) <> 0%N /\ row_domain t (S i) = fzero)
    /\ (0 < calcs -> row_input t (calcs - 1) = (fzero, fzero) /\ row_control t (calcs - 1) = 0%N).

  (** the state after row [i]: a row after the end of a message starts with a new state *)
  Section State.
    Variable perm : list F -> list F.
    Variable legacy : bool.
    Variable range : nat.
    Variable t : hash_table F.
    Definition row_fresh (i : nat) : list F :=
      [fadd (length_code legacy (row_control t i)) (row_domain t i); fst (row_input t i); snd (row_input t i)].
    Fixpoint row_state (i : nat) : list F :=
      match i with
      | O => perm (row_fresh 0)
      | S j => if (row_control t j <=? N.of_nat range)%N then perm (row_fresh i)
               else perm [nth 0 (row_state j) fzero; fadd (nth 1 (row_state j) fzero) (fst (row_input t i));
                          fadd (nth 2 (row_state j) fzero) (snd (row_input t i))]
      end.
  End State.

  (** ** A finished circuit *)

  (** the table circuit inside a host, filled by [load] with [calcs] rows, in a circuit of [n] rows of which the
      first [u] are usable; [copies] are the copy constraints of what the host lays out afterwards *)
  Definition set_up (c : p128_constants F) (C : hash_circuit F) (mode : assignment_mode) (calcs : nat)
             (t : hash_table F) (L0 L1 L : layout F) (copies : list ((column * nat) * (column * nat))) (n u : nat) : Prop :=
    host_columns C /\ loaded C mode calcs t L0 L1 L copies
    /\ (exists short h, build c short (hc_spec C) (hc_chip C) h /\ h * calcs <= u)
    /\ calcs < u /\ hc_range C < u /\ u <= n.
  (** the host's own constraints *)
  Definition host_ok (C : hash_circuit F) (L0 L : layout F) (copies : list ((column * nat) * (column * nat)))
             (n u : nat) (adv : nat -> nat -> F) : Prop :=
    gates_hold n L adv (cs_gates (hc_host C)) /\ lookups_hold n u L adv (cs_lookups (hc_host C))
    /\ forall a b, In (a, b) (lo_copy L0 ++ copies) -> cell_at L adv a = cell_at L adv b.

  (** an assignment accepted by some such circuit: the witness [adv] is the prover's choice, whatever table the
      circuit was laid out with *)
  Definition accepted (c : p128_constants F) (C : hash_circuit F) (calcs : nat) (adv : nat -> nat -> F) : Prop :=
    exists mode t L0 L1 L copies n u, set_up c C mode calcs t L0 L1 L copies n u /\ satisfied n u (hc_cs C) L adv.

  (** ** The builder *)
  Inductive builder_call : Type :=
  | ConstantInputs (src : list (F * F))
  | ConstantInputsWithCheck (src : list (F * F * F))
  | FixedInputs (src : list ((F * F) * F * option F))
  | StreamInputs (src : list (F * F)) (check : option F) (ctrl_start : N) (step : nat)
  | StreamInputsUnchecked (src : list (F * F)) (ctrl_start : N) (step : nat).

  Definition builder_run (b : builder_call) (t : hash_table F) : result (hash_table F) :=
    match b with
    | ConstantInputs src => Ok (constant_inputs src t)
    | ConstantInputsWithCheck src => Ok (constant_inputs_with_check src t)
    | FixedInputs src => Ok (fixed_inputs src t)
    | StreamInputs src check c step => stream_inputs_with_check src check c step t
    | StreamInputsUnchecked src c step => stream_inputs src c step t
    end.
  Fixpoint builder_runs (bs : list builder_call) (t : hash_table F) : result (hash_table F) :=
    match bs with
    | [] => Ok t
    | b :: bs' => match builder_run b t with Ok t' => builder_runs bs' t' | Panic => Panic end
    end.

  (** rows as a user means them: input, control, domain, check *)
  Definition table_row : Type := ((F * F) * N * F * option F)%type.
  Definition stream_rows (src : list (F * F)) (check : option F) (c : N) (step : nat) : list table_row :=
    map (fun '(i, x) => (x, (c - N.of_nat (i * step))%N, fzero, if S i =? length src then check else None))
        (combine (seq 0 (length src)) src).
  Definition builder_rows (b : builder_call) : list table_row :=
    match b with
    | ConstantInputs src => map (fun x => (x, 0%N, fzero, None)) src
    | ConstantInputsWithCheck src => map (fun '(x, ck) => (x, 0%N, fzero, Some ck)) src
    | FixedInputs src => map (fun '(x, d, ck) => (x, 0%N, d, ck)) src
    | StreamInputs src check c step => stream_rows src check c step
    | StreamInputsUnchecked src c step => stream_rows src None c step
    end.
  Definition row_of (t : hash_table F) (i : nat) : table_row :=
    (row_input t i, row_control t i, row_domain t i, row_check t i).
  Definition no_row : table_row := ((fzero, fzero), 0%N, fzero, None).

  (** a session of builder calls that does not panic.  [aligned]: every input so far has got its control; the inputs
      of constant_inputs do not, until fixed_inputs fills the gap *)
  Definition stream_fits (src : list (F * F)) (c : N) (step : nat) : Prop :=
    0 < length src /\ (length src = 1 \/ (N.of_nat ((length src - 1) * step) < c)%N).
  Fixpoint session_ok (aligned : bool) (bs : list builder_call) : Prop :=
    match bs with
    | [] => True
    | ConstantInputs src :: bs' => session_ok (aligned && (length src =? 0)) bs'
    | ConstantInputsWithCheck _ :: bs' => session_ok aligned bs'
    | FixedInputs _ :: bs' => session_ok true bs'
    | StreamInputs src _ c step :: bs' | StreamInputsUnchecked src c step :: bs' =>
      aligned = true /\ stream_fits src c step /\ session_ok true bs'
    end.

  (** the hash API on the rows of a call: one result per row *)
  Definition api_hashes (legacy : bool) (s : spec F) (b : builder_call) : list (result F) :=
    match b with
    | ConstantInputs src => map (fun x => hash_with_domain s x fzero) src
    | ConstantInputsWithCheck src => map (fun '(x, _) => hash_with_domain s x fzero) src
    | FixedInputs src => map (fun '(x, d, _) => hash_with_domain s x d) src
    | StreamInputs src _ c _ | StreamInputsUnchecked src c _ =>
      repeat (hash_msg legacy s (flat_map (fun '(a, b) => [a; b]) src) (Some (c * (if legacy then 1 else 2 ^ 64))%N))
             (length src)
    end.
  (** a stream that is long enough for its start, so that its message ends with it *)
  Definition sized (range step : nat) (b : builder_call) : Prop :=
    match b with
    | StreamInputs src _ c st | StreamInputsUnchecked src c st =>
      st = step /\ (c <= N.of_nat ((length src - 1) * step + range))%N
    | _ => True
    end.
End Use.
