(** Model of the Septidon permutation chip, poseidon-circuit/src/poseidon/septidon/*.rs.

    Rust arrays [X; 3] are Coq triples here.  The cached constants [round_constant(i)] and [mds()]
    (poseidon-base/src/params.rs:50-56) are parameters [rcs] and [m].  Every row of the table has 3
    words by its type; an index beyond the table panics when a permutation is assigned.  [configure]
    also reads entry 4 (transition_round.rs:67-69), and so does the first partial round while
    assigning; these two reads are total here, and a table too short for them fails later anyway. *)
From Coq Require Import ZArith List Arith.
From Verif Require Import Field Rust Primitives Halo2.
Import ListNotations.
Local Open Scope nat_scope.

Definition arr3 (A : Type) : Type := (A * A * A)%type.
Definition map3 {A B} (f : A -> B) (a : arr3 A) : arr3 B :=
  let '(x, y, z) := a in (f x, f y, f z).

Section Model.
  Context {F : Type} {FO : FieldOps F}.
  Variable rcs : list (list F).
  Variable m : list (list F).

  (** [round_constant(i)] (params.rs:50-52) *)
  Definition round_constant (i : nat) : arr3 F := (mnth rcs i 0, mnth rcs i 1, mnth rcs i 2).
  (** the same while assigning: the index is checked *)
  Definition read_constant (i : nat) : Region F (arr3 F) :=
    if i <? length rcs then rret (round_constant i) else rfail.

  (** ** util.rs *)

  (** [query] (util.rs:15-26): also creates a gate that is constantly zero *)
  Definition query_gate (c : cs F) : cs F := create_gate [EConst fzero] c.

  (** [join_values], [split_values] (util.rs:28-41) *)
  Definition join_values (v : arr3 (option F)) : option (arr3 F) :=
    match v with (Some a, Some b, Some c) => Some (a, b, c) | _ => None end.
  Definition split_values (v : option (arr3 F)) : arr3 (option F) :=
    (option_map (fun v => fst (fst v)) v, option_map (fun v => snd (fst v)) v, option_map snd v).

  (** [pow_5] (util.rs:43-56) *)
  Definition pow_5_expr (v : expr F) : expr F :=
    let v2 := EProd v v in EProd (EProd v2 v2) v.
  Definition pow_5_value (v : F) : F := let v2 := fmul v v in fmul (fmul v2 v2) v.

  (** [matmul] (util.rs:58-92) *)
  Definition matmul_expr (v : arr3 (expr F)) : arr3 (expr F) :=
    let '(x, y, z) := v in
    let row i := ESum (ESum (EScaled x (mnth m i 0)) (EScaled y (mnth m i 1))) (EScaled z (mnth m i 2)) in
    (row 0, row 1, row 2).
  Definition matmul_value (v : arr3 F) : arr3 F :=
    let '(x, y, z) := v in
    let row i := fadd (fadd (fmul x (mnth m i 0)) (fmul y (mnth m i 1))) (fmul z (mnth m i 2)) in
    (row 0, row 1, row 2).

  (** [select::expr] (util.rs:94-109) *)
  Definition select_expr (s when_true when_false : expr F) : expr F :=
    ESum (EProd s when_true) (EProd (esub (EConst (of_Z 1)) s) when_false).

  (** ** params.rs *)

  (** [sbox] (params.rs:5-21) *)
  Definition sbox_expr (input rc : expr F) : expr F := pow_5_expr (ESum input rc).
  Definition sbox_value (input rc : F) : F := pow_5_value (fadd input rc).

  (** [GATE_DEGREE_5] (params.rs:3); what is configured depends on it, so those definitions also exist with it as an
      argument, named [.._as] *)
  Definition gate_degree_5 : bool := false.

  (** ** state.rs *)

  (** [Cell] (state.rs:10-58); offsets are i32 *)
  Record scell : Type := { sc_col : nat; sc_off : Z }.
  Definition cell_configure (c : cs F) : scell * cs F :=
    let '(col, c) := advice_column c in ({| sc_col := col; sc_off := 0 |}, c).
  Definition rotated (c : scell) (off : Z) : scell :=
    {| sc_col := sc_col c; sc_off := sc_off c + off |}.
  Definition cell_query (c : scell) (off : Z) : expr F := EAdv (sc_col c) (sc_off c + off).
  Definition region_offset (c : scell) : Region F nat :=
    if (0 <=? sc_off c)%Z then rret (Z.to_nat (sc_off c)) else rfail.
  Definition cell_assign (c : scell) (origin : nat) (input : option F) : Region F unit :=
    let off := (Z.of_nat origin + sc_off c)%Z in
    if (0 <=? off)%Z
    then rdo _ <- assign_advice (sc_col c) (Z.to_nat off) input; rret tt
    else rfail.

  (** [SBox] (state.rs:60-110) *)
  Record sbox_chip : Type := { sb_input : scell; sb_rc : nat }.
  Definition sbox_configure (c : cs F) : sbox_chip * cs F :=
    let '(i, c) := cell_configure c in
    let '(f, c) := fixed_column c in
    ({| sb_input := i; sb_rc := f |}, c).
  Definition sbox_assign (s : sbox_chip) (offset : nat) (rc : F) (input : option F)
    : Region F (option F) :=
    rdo o <- region_offset (sb_input s);
    rdo _ <- assign_fixed (sb_rc s) (o + offset) rc;
    rdo _ <- assign_advice (sc_col (sb_input s)) (o + offset) input;
    rret (option_map (fun i => sbox_value i rc) input).
  Definition input_expr (s : sbox_chip) : expr F := cell_query (sb_input s) 0.
  Definition rc_expr (s : sbox_chip) : expr F := EFix (sb_rc s) (sc_off (sb_input s)).
  Definition output_expr (s : sbox_chip) : expr F := sbox_expr (input_expr s) (rc_expr s).

  (** ** control.rs *)

  (** [ControlSignals] (control.rs:14-22) *)
  Record signals : Type := {
    sg_break_full : expr F;
    sg_transition : expr F;
    sg_break_partial : expr F;
    sg_selector : expr F
  }.
  (** [derive_selector] (control.rs:64-80): one query per rotation 0..7, summed from the left *)
  Definition derive_selector_as (degree_5 : bool) (is_last : nat) : expr F :=
    if degree_5 then EConst fone
    else fold_left (fun acc i => ESum acc (EFix is_last i)) [1; 2; 3; 4; 5; 6; 7]%Z (EFix is_last 0).
  Definition derive_selector : nat -> expr F := derive_selector_as gate_degree_5.
  (** [ControlChip::configure] (control.rs:24-43) *)
  Definition control_configure_as (degree_5 : bool) (c : cs F) : nat * signals * cs F :=
    let '(is_last, c) := fixed_column c in
    let middle := EFix is_last 4 in
    let last := EFix is_last 0 in
    (is_last,
     {| sg_break_full := ESum middle last; sg_transition := middle; sg_break_partial := last;
        sg_selector := derive_selector_as degree_5 is_last |},
     query_gate c).
  (** [ControlChip::assign_with_offset] (control.rs:50-63) *)
  Definition control_assign (is_last begin : nat) : Region F unit :=
    rdo _ <- assign_fixed is_last (7 + begin) fone; rret tt.

  (** ** loop_chip.rs *)

  (** [LoopBody] (loop_chip.rs:10-14) *)
  Record loop_body : Type := { lb_next : arr3 (expr F); lb_output : arr3 (expr F) }.
  (** [LoopChip::configure] (loop_chip.rs:17-41) *)
  Definition loop_configure (q : expr F) (body : loop_body) (break_signal : expr F)
             (output : arr3 scell) (c : cs F) : cs F :=
    let '(o0, o1, o2) := output in
    let '(n0, n1, n2) := lb_next body in
    let '(b0, b1, b2) := lb_output body in
    let one o n b := esub (select_expr break_signal (cell_query o 0) n) b in
    create_gate (with_selector q [one o0 n0 b0; one o1 n1 b1; one o2 n2 b2]) c.

  (** ** full_round.rs *)

  (** [FullRoundChip::configure] (full_round.rs:13-23, 25-31) *)
  Definition full_configure (c : cs F) : arr3 sbox_chip * loop_body * cs F :=
    let '(s0, c) := sbox_configure c in
    let '(s1, c) := sbox_configure c in
    let '(s2, c) := sbox_configure c in
    let chip := (s0, s1, s2) in
    (chip,
     {| lb_next := map3 (fun s => cell_query (sb_input s) 1) chip;
        lb_output := matmul_expr (map3 output_expr chip) |},
     query_gate c).
  (** [FullRoundChip::assign] (full_round.rs:38-52) *)
  Definition full_assign (chip : arr3 sbox_chip) (offset : nat) (rc : arr3 F)
             (input : arr3 (option F)) : Region F (arr3 (option F)) :=
    let '(s0, s1, s2) := chip in
    let '(r0, r1, r2) := rc in
    let '(i0, i1, i2) := input in
    rdo o0 <- sbox_assign s0 offset r0 i0;
    rdo o1 <- sbox_assign s1 offset r1 i1;
    rdo o2 <- sbox_assign s2 offset r2 i2;
    rret (split_values (option_map matmul_value (join_values (o0, o1, o2)))).

  (** ** septuple_round.rs *)

  (** [SeptupleRoundChip] (septuple_round.rs:10-14); [sp_following] has 6 entries *)
  Record septuple_chip : Type := {
    sp_first : sbox_chip;
    sp_linears : scell * scell;
    sp_following : list sbox_chip
  }.
  (** [input] (septuple_round.rs:87-93) *)
  Definition septuple_input (chip : septuple_chip) : arr3 scell :=
    (sb_input (sp_first chip), fst (sp_linears chip), snd (sp_linears chip)).
  (** [partial_round_expr] (septuple_round.rs:78-85) *)
  Definition partial_round_expr (s : sbox_chip) (input : arr3 (expr F)) : arr3 (expr F) :=
    let '(_, i1, i2) := input in matmul_expr (output_expr s, i1, i2).
  Fixpoint sbox_configure_n (n : nat) (c : cs F) : list sbox_chip * cs F :=
    match n with
    | 0 => ([], c)
    | S n' =>
      let '(s, c) := sbox_configure c in
      let '(l, c) := sbox_configure_n n' c in (s :: l, c)
    end.
  (** the loop in the gate (septuple_round.rs:56-66): constraints and the last state with its S-box *)
  Fixpoint septuple_constraints (checked : sbox_chip) (state : arr3 (expr F)) (l : list sbox_chip)
    : list (expr F) * (sbox_chip * arr3 (expr F)) :=
    match l with
    | [] => ([], (checked, state))
    | s :: l' =>
      let state := partial_round_expr checked state in
      let '(st0, _, _) := state in
      let '(constraints, last) := septuple_constraints s state l' in
      (esub st0 (input_expr s) :: constraints, last)
    end.
  (** [configure] (septuple_round.rs:17-76) *)
  Definition septuple_configure (q : expr F) (c : cs F) : septuple_chip * loop_body * cs F :=
    let '(first, c) := sbox_configure c in
    let '(l0, c) := cell_configure c in
    let '(l1, c) := cell_configure c in
    let '(following, c) := sbox_configure_n 6 c in
    let chip := {| sp_first := first; sp_linears := (l0, l1); sp_following := following |} in
    let input := septuple_input chip in
    let c := query_gate c in
    let input_state := map3 (fun i => cell_query i 0) input in
    let next_state := map3 (fun i => cell_query i 1) input in
    let '(constraints, (checked, state)) := septuple_constraints first input_state following in
    let state := partial_round_expr checked state in
    (chip, {| lb_next := next_state; lb_output := state |},
     create_gate (with_selector q constraints) c).
  (** the closure [assign_partial_round] (septuple_round.rs:108-114) *)
  Definition assign_partial_round (s : sbox_chip) (offset : nat) (rc : F) (state : arr3 (option F))
    : Region F (arr3 (option F)) :=
    let '(s0, s1, s2) := state in
    rdo s0 <- sbox_assign s offset rc s0;
    rret (split_values (option_map matmul_value (join_values (s0, s1, s2)))).
  (** [assign] (septuple_round.rs:96-125); [constants] are the 7 round constants *)
  Definition septuple_assign (chip : septuple_chip) (offset : nat) (constants : list F)
             (input : arr3 (option F)) : Region F (arr3 (option F)) :=
    let '(_, i1, i2) := input in
    rdo _ <- cell_assign (fst (sp_linears chip)) offset i1;
    rdo _ <- cell_assign (snd (sp_linears chip)) offset i2;
    rdo state <- assign_partial_round (sp_first chip) offset (fnth constants 0) input;
    rfold (fun state '(i, s) => assign_partial_round s offset (fnth constants (1 + i)) state)
          (combine (seq 0 6) (sp_following chip)) state.

  (** ** transition_round.rs *)

  (** [input], [helper_cell] (transition_round.rs:73-84) *)
  Definition transition_input (col : nat) : arr3 scell :=
    ({| sc_col := col; sc_off := -2 |}, {| sc_col := col; sc_off := -1 |},
     {| sc_col := col; sc_off := 0 |}).
  Definition transition_helper (col : nat) : scell := {| sc_col := col; sc_off := -3 |}.
  (** [round_constant] (transition_round.rs:67-69) *)
  Definition transition_rc : F := mnth rcs 4 0.
  (** [first_partial_round_expr] (transition_round.rs:55-65) *)
  Definition first_partial_round_expr (input : arr3 (expr F)) : arr3 (expr F) :=
    let '(i0, i1, i2) := input in
    matmul_expr (sbox_expr i0 (EConst transition_rc), i1, i2).
  (** [configure] (transition_round.rs:14-51) *)
  Definition transition_configure (signal : expr F) (next_state : arr3 scell) (c : cs F)
    : nat * cs F :=
    let '(col, c) := advice_column c in
    let input := map3 (fun i => cell_query i 0) (transition_input col) in
    let '(o0, o1, o2) := first_partial_round_expr input in
    let '(n0, n1, n2) := map3 (fun i => cell_query i (-3)) next_state in
    (col, create_gate (with_selector signal [esub o0 n0; esub o1 n1; esub o2 n2]) c).
  (** [first_partial_round] (transition_round.rs:102-110) *)
  Definition first_partial_round (input : arr3 (option F)) : arr3 (option F) :=
    let '(i0, i1, i2) := input in
    let i0 := option_map (fun f => sbox_value f transition_rc) i0 in
    split_values (option_map matmul_value (join_values (i0, i1, i2))).
  (** [assign_final_state] (transition_round.rs:112-125) *)
  Definition assign_final_state (col offset : nat) (input : arr3 (option F)) : Region F unit :=
    let '(i0, i1, i2) := input in
    let '(c0, c1, c2) := transition_input col in
    rdo _ <- cell_assign c0 offset i0;
    rdo _ <- cell_assign c1 offset i1;
    rdo _ <- cell_assign c2 offset i2;
    cell_assign (transition_helper col) offset (Some fzero).
  (** [assign_first_partial_state] (transition_round.rs:86-100): the same assignments, and the round's
      output *)
  Definition assign_first_partial_state (col offset : nat) (input : arr3 (option F))
    : Region F (arr3 (option F)) :=
    rdo _ <- assign_final_state col offset input;
    rret (first_partial_round input).

  (** ** septidon_chip.rs *)

  (** [SeptidonChip] (septidon_chip.rs:25-34) *)
  Record septidon : Type := {
    s_is_last : nat;
    s_transition : nat;
    s_full : arr3 sbox_chip;
    s_partial : septuple_chip
  }.

  (** [SeptidonChip::configure] (septidon_chip.rs:37-89) *)
  Definition septidon_configure_chip_as (degree_5 : bool) (c : cs F) : septidon * cs F :=
    let '(is_last, sg, c) := control_configure_as degree_5 c in
    let q := sg_selector sg in
    let '(full, full_body, c) := full_configure c in
    let '(partial, partial_body, c) := septuple_configure q c in
    let '(transition, c) := transition_configure (sg_transition sg) (septuple_input partial) c in
    let c := loop_configure q full_body (sg_break_full sg) (transition_input transition) c in
    let c := loop_configure q partial_body (sg_break_partial sg)
               (map3 (fun s => rotated (sb_input s) (-3)) full) c in
    ({| s_is_last := is_last; s_transition := transition; s_full := full; s_partial := partial |}, c).

  (** [height_per_permutation], [final_offset] (septidon_chip.rs:91-98) *)
  Definition height_per_permutation : nat := 8.
  Definition final_offset : nat := height_per_permutation - 1.

  (** [initial_state_cells], [final_state_cells] (septidon_chip.rs:100-113) *)
  Definition initial_state_cells (chip : septidon) : arr3 scell := map3 sb_input (s_full chip).
  Definition final_state_cells (chip : septidon) : arr3 scell :=
    map3 (fun c => rotated c (Z.of_nat final_offset)) (transition_input (s_transition chip)).

  (** [assign_permutation_with_offset] (septidon_chip.rs:124-184) *)
  Definition assign_permutation (chip : septidon) (state : arr3 (option F)) (begin : nat)
    : Region F (arr3 (option F)) :=
    rdo _ <- control_assign (s_is_last chip) begin;
    rdo state <- rfold (fun state offset =>
                   rdo rc <- read_constant offset;
                   full_assign (s_full chip) (offset + begin) rc state)
                 (seq 0 4) state;
    rdo state <- assign_first_partial_state (s_transition chip) (3 + begin) state;
    rdo state <- rfold (fun state offset =>
                   let round_index := 5 + offset * 7 in
                   rdo rc <- rmap (fun idx => rdo c <- read_constant idx; rret (fst (fst c)))
                               (seq round_index 7);
                   septuple_assign (s_partial chip) (offset + begin) rc state)
                 (seq 0 8) state;
    rdo state <- rfold (fun state offset =>
                   rdo rc <- read_constant (offset + 57);
                   full_assign (s_full chip) (offset + begin) rc state)
                 (seq 4 4) state;
    rdo _ <- assign_final_state (s_transition chip) (7 + begin) state;
    rret state.

  (** ** instruction.rs *)

  (** [PermuteChip::configure] (instruction.rs:18-30) *)
  Definition septidon_configure_as (degree_5 : bool) (c : cs F) : septidon * cs F :=
    let '(chip, c) := septidon_configure_chip_as degree_5 c in
    let '(i0, i1, i2) := initial_state_cells chip in
    let c := fold_left (fun c ce => enable_equality (Adv (sc_col ce)) c) [i0; i1; i2] c in
    let '(f0, f1, f2) := final_state_cells chip in
    let c := fold_left (fun c ce => enable_equality (Adv (sc_col ce)) c) [f0; f1; f2] c in
    (chip, c).
  Definition septidon_configure : cs F -> septidon * cs F := septidon_configure_as gate_degree_5.

  (** one permutation in a region, from row [last_offset]: the loop body at instruction.rs:118-155; with
      [last_offset] = 0 it is the region of [permute] (instruction.rs:46-85).  Words are assigned cells;
      the state has 3 of them by its type. *)
  Definition permute_at (chip : septidon) (initial : list (acell F)) (last_offset : nat)
    : Region F (list (acell F)) :=
    match initial with
    | [w0; w1; w2] =>
      let '(i0, i1, i2) := initial_state_cells chip in
      rdo _ <- copy_advice w0 (sc_col i0) (Z.to_nat (sc_off i0) + last_offset);
      rdo _ <- copy_advice w1 (sc_col i1) (Z.to_nat (sc_off i1) + last_offset);
      rdo _ <- copy_advice w2 (sc_col i2) (Z.to_nat (sc_off i2) + last_offset);
      rdo final <- assign_permutation chip (ac_val w0, ac_val w1, ac_val w2) last_offset;
      let '(v0, v1, v2) := final in
      let '(o0, o1, o2) := final_state_cells chip in
      rdo r0 <- assign_advice (sc_col o0) (Z.to_nat (sc_off o0) + last_offset) v0;
      rdo r1 <- assign_advice (sc_col o1) (Z.to_nat (sc_off o1) + last_offset) v1;
      rdo r2 <- assign_advice (sc_col o2) (Z.to_nat (sc_off o2) + last_offset) v2;
      rret [r0; r1; r2]
    | _ => rfail
    end.

  (** [permute] (instruction.rs:42-85) *)
  Definition septidon_permute (chip : septidon) (initial : list (acell F))
    : Layouter F (list (acell F)) :=
    assign_region (permute_at chip initial 0).

  (** [slice::chunks(k)] with k > 0 *)
  Fixpoint chunks_aux {A} (fuel k : nat) (l : list A) : list (list A) :=
    match fuel, l with
    | S f, _ :: _ => firstn k l :: chunks_aux f k (skipn k l)
    | _, _ => []
    end.
  Definition chunks {A} (k : nat) (l : list A) : list (list A) := chunks_aux (length l) k l.

  (** the closure of [permute_batch] the first time it runs (instruction.rs:106-117) *)
  Definition batch_shape (chip : septidon) (states : list (list (acell F)))
    : Region F (list (list (acell F))) :=
    let '(c, _, _) := final_state_cells chip in
    rdo _ <- assign_advice (sc_col c) (length states * 8 - 1) (Some fzero); rret [].
  (** ... and the second time (instruction.rs:118-157) *)
  Fixpoint batch_body (chip : septidon) (states : list (list (acell F))) (last_offset : nat)
    : Region F (list (list (acell F))) :=
    match states with
    | [] => rret []
    | st :: states' =>
      rdo f <- permute_at chip st last_offset;
      rdo r <- batch_body chip states' (8 + last_offset);
      rret (f :: r)
    end.
  (** [permute_batch] (instruction.rs:87-163); [threads] is available_parallelism (or 32), at least 1 *)
  Definition septidon_permute_batch (threads : nat) (chip : septidon)
             (initial : list (list (acell F))) : Layouter F (list (list (acell F))) :=
    let chunks_len := length initial / threads + 2 in
    ldo r <- assign_regions (map (fun states => (batch_shape chip states, batch_body chip states 0))
                                 (chunks chunks_len initial));
    lret (concat r).
End Model.
