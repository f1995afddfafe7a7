(** Model of the hash table circuit, poseidon-circuit/src/hash.rs.

    The permutation chip is any [permute_chip] (hash.rs:9-36 picks one by feature).  [usize] and [u64]
    numbers that only count rows are [nat], controls are [N]; products with HASHABLE_DOMAIN_SPEC are
    computed in u128 by the code and cannot overflow there.  Logging and timing are dropped. *)
From Coq Require Import ZArith List Arith.
From Verif Require Import Field Rust Primitives Specs BaseHash Halo2 Septidon PermuteChip.
Import ListNotations.
Local Open Scope nat_scope.
Local Open Scope rust_scope.

(** [Option::unwrap_or] *)
Definition unwrap_or {A} (o : option A) (d : A) : A := match o with Some a => a | None => d end.

(** [Vec::resize] *)
Definition resize {A} (n : nat) (x : A) (l : list A) : list A := firstn n l ++ repeat x (n - length l).

(** * The table builder *)

(** [PoseidonHashTable] (hash.rs:229-240) *)
Record hash_table (F : Type) : Type := {
  ht_inputs : list (F * F);
  ht_controls : list N;
  ht_domain : list (option F);
  ht_checks : list (option F)
}.
Arguments ht_inputs {F} _.
Arguments ht_controls {F} _.
Arguments ht_domain {F} _.
Arguments ht_checks {F} _.

Section Builder.
  Context {F : Type}.

  (** [PoseidonHashTable::default()] *)
  Definition empty_table : hash_table F :=
    {| ht_inputs := []; ht_controls := []; ht_domain := []; ht_checks := [] |}.

  (** [constant_inputs] (hash.rs:243-248) *)
  Definition constant_inputs (src : list (F * F)) (t : hash_table F) : hash_table F :=
    {| ht_inputs := ht_inputs t ++ src; ht_controls := ht_controls t; ht_domain := ht_domain t;
       ht_checks := ht_checks t |}.

  (** [constant_inputs_with_check] (hash.rs:250-261); the loop of pushes is an append *)
  Definition constant_inputs_with_check (src : list (F * F * F)) (t : hash_table F) : hash_table F :=
    {| ht_inputs := ht_inputs t ++ map fst src;
       ht_controls := ht_controls t ++ map (fun _ => 0%N) src;
       ht_domain := ht_domain t;
       ht_checks := resize (length (ht_inputs t)) None (ht_checks t) ++ map (fun x => Some (snd x)) src |}.

  (** [fixed_inputs] (hash.rs:263-276) *)
  Definition fixed_inputs (src : list ((F * F) * F * option F)) (t : hash_table F) : hash_table F :=
    let n := length (ht_inputs t) in
    {| ht_inputs := ht_inputs t ++ map (fun x => fst (fst x)) src;
       ht_controls := resize n 0%N (ht_controls t) ++ map (fun _ => 0%N) src;
       ht_domain := resize n None (ht_domain t) ++ map (fun x => Some (snd (fst x))) src;
       ht_checks := resize n None (ht_checks t) ++ map snd src |}.

  (** [successors(Some(n), |n| if *n > step { Some(n - step) } else { None }).take(k)]
      (hash.rs:298-306) *)
  Fixpoint control_series (k : nat) (n step : N) : list N :=
    match k with
    | O => []
    | S k' => n :: (if (step <? n)%N then control_series k' (n - step)%N step else [])
    end.

  (** [stream_inputs_with_check] (hash.rs:288-315) *)
  Definition stream_inputs_with_check (src : list (F * F)) (check : option F) (ctrl_start : N) (step : nat)
             (t : hash_table F) : result (hash_table F) :=
    do _ <- rassert (negb (length src =? 0));
    let series := control_series (length src) ctrl_start (N.of_nat step) in
    do _ <- rassert (length src =? length series);
    let inputs := ht_inputs t ++ src in
    let controls := ht_controls t ++ series in
    do _ <- rassert (length inputs =? length controls);
    Ok {| ht_inputs := inputs; ht_controls := controls;
          ht_domain := resize (length inputs) None (ht_domain t);
          ht_checks := resize (length inputs - 1) None (ht_checks t) ++ [check] |}.

  (** [stream_inputs] (hash.rs:278-286) *)
  Definition stream_inputs (src : list (F * F)) (ctrl_start : N) (step : nat) (t : hash_table F)
    : result (hash_table F) := stream_inputs_with_check src None ctrl_start step t.

  (** [table_size] (hash.rs:317-321) *)
  Definition table_size (t : hash_table F) : nat := length (ht_inputs t).

  (** [minimum_row_require] (hash.rs:325-329) *)
  Definition minimum_row_require (short : bool) (s : spec F) (t : hash_table F) : nat :=
    length (ht_inputs t) * hash_block_size short s.
End Builder.

(** * The circuit *)

(** [SpongeConfig] (hash.rs:48-61); [hash_table] and [hash_table_aux] are the indices of 6 advice columns *)
Record sponge_config {F} (P : permute_chip F) : Type := {
  sc_permute : pc_config P;
  sc_table : list nat;
  sc_aux : list nat;
  sc_control_aux : nat;
  sc_continue : nat;
  sc_range : nat;
  sc_enable : nat;
  sc_custom : nat;
  sc_step : nat
}.
Arguments sc_permute {F P} _.
Arguments sc_table {F P} _.
Arguments sc_aux {F P} _.
Arguments sc_control_aux {F P} _.
Arguments sc_continue {F P} _.
Arguments sc_range {F P} _.
Arguments sc_enable {F P} _.
Arguments sc_custom {F P} _.
Arguments sc_step {F P} _.

Section Model.
  Context {F : Type} {FO : FieldOps F}.
  Variable legacy : bool.
  Variable P : permute_chip F.

  (** [cols[i]] of an array of columns *)
  Definition col (cols : list nat) (i : nat) : nat := nth i cols 0.

  (** [F::from_u128(x as u128 * HASHABLE_DOMAIN_SPEC)] (hash.rs:150, 441, 739) *)
  Definition flag_of (x : N) : F := from_u128 (x * hashable_domain_spec legacy)%N.

  Definition cur (c : nat) : expr F := EAdv c 0.
  Definition prev (c : nat) : expr F := EAdv c (-1).
  Definition e1 : expr F := EConst fone.

  (** gate "custom row" (hash.rs:101-109) *)
  Definition custom_gate (table : list nat) (s_custom : nat) : list (expr F) :=
    let q := ESel s_custom in
    [EProd q (cur (col table 1)); EProd q (cur (col table 2)); EProd q (cur (col table 3))].

  (** gate "control constrain" (hash.rs:111-133) *)
  Definition control_gate (table : list nat) (q_enable s_continue control_aux : nat) : list (expr F) :=
    let q := EFix q_enable 0 in
    let ctrl := cur (col table 3) in
    let ctrl_bool := EProd ctrl (cur control_aux) in
    let s := cur s_continue in
    [EProd (EProd q s) (esub e1 s);
     EProd (EProd q ctrl) (esub e1 ctrl_bool);
     EProd (EProd q s) (esub e1 ctrl_bool);
     EProd q (esub (esub e1 s) (cur (col table 5)))].

  (** gate "control step" (hash.rs:135-154) *)
  Definition step_gate (table : list nat) (q_enable s_continue control_aux step : nat) : list (expr F) :=
    let s := cur s_continue in
    let q := EProd (EFix q_enable 0) s in
    let ctrl := cur (col table 3) in
    let ctrl_prev := prev (col table 3) in
    let ctrl_bool := EProd ctrl (cur control_aux) in
    [EProd q (esub (ESum ctrl (EConst (flag_of (N.of_nat step)))) ctrl_prev);
     EProd q (esub e1 ctrl_bool)].

  (** lookup "control range check" (hash.rs:156-161) *)
  Definition range_input (table : list nat) : expr F := EProd (cur (col table 5)) (prev (col table 3)).

  (** gate "hash index constrain" (hash.rs:163-176) *)
  Definition index_gate (table aux : list nat) (q_enable s_continue : nat) : list (expr F) :=
    let q := EFix q_enable 0 in
    let s := cur s_continue in
    let hash_ind := cur (col table 0) in
    let hash_prev := prev (col table 0) in
    let hash_out := prev (col aux 5) in
    [EProd (EProd q s) (esub hash_ind hash_prev);
     EProd (EProd q (esub e1 s)) (esub hash_out hash_prev)].

  (** gate "input constrain" (hash.rs:178-211) *)
  Definition input_gate (table aux : list nat) (q_enable s_continue : nat) : list (expr F) :=
    let q := EFix q_enable 0 in
    let s := cur s_continue in
    let ext inp prev_inp ext_inp :=
      EProd q (esub (ESum (EProd (prev prev_inp) s) (cur ext_inp)) (cur inp)) in
    let domain := cur (col table 4) in
    let inp_hash := cur (col aux 0) in
    let inp_hash_prev := prev (col aux 5) in
    let inp_hash_init := ESum (cur (col table 3)) domain in
    [ext (col aux 1) (col aux 3) (col table 1);
     ext (col aux 2) (col aux 4) (col table 2);
     EProd (EProd q (esub e1 s)) (esub inp_hash inp_hash_init);
     EProd (EProd q s) (esub (esub inp_hash inp_hash_prev) domain)].

  Fixpoint advice_columns (k : nat) (m : cs F) : list nat * cs F :=
    match k with
    | O => ([], m)
    | S k' => let '(c, m) := advice_column m in let '(cs, m) := advice_columns k' m in (c :: cs, m)
    end.

  (** [configure_sub] (hash.rs:74-226) *)
  Definition configure_sub (q_enable : nat) (table : list nat) (step : nat) (m : cs F)
    : sponge_config P * cs F :=
    let '(s_custom, m) := complex_selector m in
    let '(aux, m) := advice_columns 6 m in
    let m := fold_left (fun m c => enable_equality (Adv c) m) (aux ++ firstn 1 table) m in
    let '(s_continue, m) := advice_column m in
    let m := enable_equality (Adv s_continue) m in
    let '(control_aux, m) := advice_column m in
    let '(range, m) := fixed_column m in
    let m := create_gate (custom_gate table s_custom) m in
    let m := create_gate (control_gate table q_enable s_continue control_aux) m in
    let m := create_gate (step_gate table q_enable s_continue control_aux step) m in
    let m := lookup (range_input table) range m in
    let m := create_gate (index_gate table aux q_enable s_continue) m in
    let m := create_gate (input_gate table aux q_enable s_continue) m in
    let '(permute_config, m) := pc_configure P m in
    ({| sc_permute := permute_config; sc_table := table; sc_aux := aux; sc_control_aux := control_aux;
        sc_continue := s_continue; sc_range := range; sc_enable := q_enable; sc_custom := s_custom;
        sc_step := step |}, m).

  (** ** Assignment *)

  (** [STEP] and the hasher [F::hasher()] *)
  Variable STEP : nat.
  Variable s : spec F.
  Variable cfg : sponge_config P.

  (** an item of the zipped iterators (hash.rs:398-422, 781-814): input, control, domain, check *)
  Definition raw_row : Type := ((option (F * F) * option N) * (option F * option F))%type.

  (** [iter().chain(repeat(None)).take(calcs)] *)
  Definition padded {A} (calcs : nat) (l : list (option A)) : list (option A) :=
    firstn calcs (l ++ repeat None calcs).
  (** the rows of the table (hash.rs:398-422, 431-433 and 781-814) *)
  Definition raw_rows (calcs : nat) (t : hash_table F) : list raw_row :=
    combine (combine (padded calcs (map Some (ht_inputs t))) (padded calcs (map Some (ht_controls t))))
            (combine (padded calcs (ht_domain t)) (padded calcs (ht_checks t))).

  (** [invert().unwrap_or(F::ZERO)] *)
  Definition invert_or_zero (x : F) : F := if feqb x fzero then fzero else finv x.
  Definition flag_bool (b : bool) : F := if b then fone else fzero.

  (** [fill_hash_tbl_custom] (hash.rs:364-384) *)
  Definition fill_custom : Region F nat :=
    rdo _ <- enable_selector (sc_custom cfg) 0;
    rdo _ <- rmap (fun c => assign_advice c 0 (Some fzero))
                  (sc_table cfg ++ sc_aux cfg ++ [sc_control_aux cfg] ++ [sc_continue cfg]);
    rret 1.

  (** variables of the loop: [is_new_sponge], [process_start], [state] *)
  Record loop : Type := { lp_new : bool; lp_start : nat; lp_state : list F }.
  Definition loop_start : loop := {| lp_new := true; lp_start := 0; lp_state := [fzero; fzero; fzero] |}.

  (** body of the loop (hash.rs:436-556; hash.rs:597-716 is the same code with [offset = i], recording the
      states before the digest column is filled); returns the words before and after the permutation *)
  Definition fill_row (offset : nat) (lp : loop) (row : raw_row)
    : Region F (loop * (list (acell F) * list (acell F))) :=
    let '((inp, control), (domain, check)) := row in
    let control := unwrap_or control 0%N in
    let domain := unwrap_or domain fzero in
    let flag := flag_of control in
    let new := lp_new lp in
    let start := if new then offset else lp_start lp in
    let '(a, b) := unwrap_or inp (fzero, fzero) in
    let st := lp_state lp in
    let state_start := [if new then fadd flag domain else nth 0 st fzero;
                        if new then a else fadd (nth 1 st fzero) a;
                        if new then b else fadd (nth 2 st fzero) b] in
    let state := hash_permute 3 s state_start in
    rdo _ <- rlift (match check with
                    | Some ck => rassert (feqb ck (nth 0 state fzero))
                    | None => Ok tt
                    end);
    rdo _ <- assign_fixed (sc_enable cfg) offset fone;
    rdo c_start <- rmap (fun i => assign_advice (col (sc_aux cfg) i) offset (Some (nth i state_start fzero)))
                        [0; 1; 2];
    rdo c_end <- rmap (fun '(i, j) => assign_advice (col (sc_aux cfg) j) offset (Some (nth i state fzero)))
                      [(0, 5); (1, 3); (2, 4)];
    rdo _ <- rmap (fun '(c, v) => assign_advice c offset (Some v))
               [(col (sc_table cfg) 1, a); (col (sc_table cfg) 2, b); (col (sc_table cfg) 3, flag);
                (col (sc_table cfg) 4, domain); (col (sc_table cfg) 5, flag_bool new);
                (sc_control_aux cfg, invert_or_zero flag); (sc_continue cfg, flag_bool (negb new))];
    let new := (control <=? N.of_nat STEP)%N in
    rdo _ <- (if new then
                rdo _ <- rmap (fun ith => assign_advice (col (sc_table cfg) 0) ith (Some (nth 0 state fzero)))
                              (seq start (S offset - start));
                rret tt
              else rret tt);
    rret ({| lp_new := new; lp_start := start; lp_state := state |}, (c_start, c_end)).

  (** the loop (hash.rs:431-557, 596-717) *)
  Fixpoint fill_rows (offset : nat) (lp : loop) (rows : list raw_row)
    : Region F (list (list (acell F)) * list (list (acell F))) :=
    match rows with
    | [] => rret ([], [])
    | row :: rows' =>
      rdo (lp', (c_start, c_end)) <- fill_row offset lp row;
      rdo (states_in, states_out) <- fill_rows (S offset) lp' rows';
      rret (c_start :: states_in, c_end :: states_out)
    end.

  (** [fill_hash_tbl_body] (hash.rs:386-563) *)
  Definition fill_body (calcs : nat) (t : hash_table F) (begin_offset : nat)
    : Region F (list (list (acell F)) * list (list (acell F))) :=
    rdo _ <- rlift (rassert (andb (length (ht_inputs t) <=? calcs) (length (ht_controls t) <=? calcs)));
    rdo states <- fill_rows begin_offset loop_start (raw_rows calcs t);
    let last_offset := match calcs with O => 0 | S k => k + begin_offset end in
    rdo _ <- enable_selector (sc_custom cfg) last_offset;
    rret states.

  (** [fill_hash_tbl_body_partial] (hash.rs:566-723), first pass and second pass *)
  Definition fill_partial_shape (data : list raw_row)
    : Region F (list (list (acell F)) * list (list (acell F))) :=
    rdo _ <- assign_advice (col (sc_aux cfg) 0) (length data - 1) (Some fzero);
    rret ([], []).
  Definition fill_partial (data : list raw_row) (is_last : bool)
    : Region F (list (list (acell F)) * list (list (acell F))) :=
    rdo states <- fill_rows 0 loop_start data;
    rdo _ <- (if is_last then enable_selector (sc_custom cfg) (length data - 1) else rret tt);
    rret states.

  (** chunks that end with a message and have at least [min_len] rows, and the rest (hash.rs:816-838);
      [chunk] is [data[cur_chunk_begin..i]] *)
  Fixpoint chunks (min_len : nat) (chunk data : list raw_row) : list (list raw_row) :=
    match data with
    | [] => match chunk with [] => [] | _ => [chunk] end
    | row :: data' =>
      let control := unwrap_or (snd (fst row)) 0%N in
      let chunk' := chunk ++ [row] in
      if andb (control <=? N.of_nat STEP)%N (min_len <=? length chunk')
      then chunk' :: chunks min_len [] data'
      else chunks min_len chunk' data'
    end.

  (** the closures given to [assign_regions] (hash.rs:839-855) *)
  Definition partial_regions (cks : list (list raw_row))
    : list (Region F (list (list (acell F)) * list (list (acell F)))
            * Region F (list (list (acell F)) * list (list (acell F)))) :=
    map (fun '(i, data) => (fill_partial_shape data, fill_partial data (i =? length cks - 1)))
        (combine (seq 0 (length cks)) cks).

  (** [feature = "parallel_syn"] and [CIRCUIT_ASSIGNMENT_TYPE] (hash.rs:746-763); in parallel mode the
      number of threads of the machine *)
  Inductive assignment_mode : Type := Serial | Parallel (threads : nat).

  (** the hash table part of [load] (hash.rs:765-869) *)
  Definition load_rows (mode : assignment_mode) (calcs : nat) (t : hash_table F)
    : Layouter F (list (list (acell F)) * list (list (acell F))) :=
    match mode with
    | Serial => assign_region (rdo begin_offset <- fill_custom; fill_body calcs t begin_offset)
    | Parallel threads =>
      ldo _ <- assign_region fill_custom;
      let min_len := calcs / threads + 1 in
      ldo ret <- assign_regions (partial_regions (chunks min_len [] (raw_rows calcs t)));
      lret (concat (map fst ret), concat (map snd ret))
    end.

  (** the permutations (hash.rs:871-888) *)
  Definition load_permutations (mode : assignment_mode) (states_in : list (list (acell F)))
    : Layouter F (list (list (acell F))) :=
    match mode with
    | Serial => lmap (pc_permute P (sc_permute cfg)) states_in
    | Parallel threads => pc_permute_batch P threads (sc_permute cfg) states_in
    end.

  (** region "final state dummy" (hash.rs:890-903) *)
  Definition final_copies (states_out finals : list (list (acell F))) : Region F unit :=
    rdo _ <- rmap (fun '(st, fin) =>
                     rdo _ <- rmap (fun '(x, y) => constrain_equal (ac_cell x) (ac_cell y)) (combine st fin);
                     rret tt)
                  (combine states_out finals);
    rret tt.

  (** values of the range table (hash.rs:730-744) *)
  Definition range_table : list F := map (fun i => flag_of (N.of_nat i)) (seq 0 (STEP + 1)).

  (** [load] (hash.rs:726-904) *)
  Definition load (mode : assignment_mode) (calcs : nat) (t : hash_table F) : Layouter F unit :=
    ldo _ <- assign_table (sc_range cfg) range_table;
    ldo (states_in, states_out) <- load_rows mode calcs t;
    ldo finals <- load_permutations mode states_in;
    assign_region (final_copies states_out finals).
End Model.
