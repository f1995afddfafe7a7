(** Model of the Pow5 permutation chip and its sponge instructions,
    poseidon-circuit/src/poseidon/pow5.rs.

    The const generics WIDTH and RATE are arguments [T] and [RATE]; arrays of that size are lists.
    [Pow5Config] stores the constants of the [Spec] it was configured with (pow5.rs:45-50); here they are
    the parameter [s]. *)
From Coq Require Import ZArith List Arith Bool.
From Verif Require Import Field Rust Primitives Specs Halo2 PermuteChip.
Import ListNotations.
Local Open Scope nat_scope.

Section Model.
  Context {F : Type} {FO : FieldOps F}.
  Variable T RATE : nat.
  Variable s : spec F.

  (** [Pow5Config] (pow5.rs:33-51): the columns and selectors *)
  Record pow5 : Type := {
    p5_state : list nat;
    p5_sbox : nat;
    p5_rc_a : list nat;
    p5_rc_b : list nat;
    p5_full : nat;
    p5_partial : nat;
    p5_single : nat;
    p5_pad : nat
  }.
  (** pow5.rs:86-87 *)
  Definition half_full : nat := Nat.div (full_rounds s) 2.
  Definition half_partial : nat := Nat.div (partial_rounds s) 2.

  (** the closure [pow_5] (pow5.rs:108-111) *)
  Definition p5_pow (v : expr F) : expr F := let v2 := EProd v v in EProd (EProd v2 v2) v.
  (** [reduce(|acc, term| acc + term).expect("WIDTH > 0")]; the empty case panics in Rust and is excluded by
      [pow5_asserts] *)
  Definition sum_exprs (l : list (expr F)) : expr F :=
    match l with [] => EConst fzero | e :: l' => fold_left ESum l' e end.
  Definition col (l : list nat) (i : nat) : nat := nth i l 0.

  Section Gates.
    Variable cfg : pow5.
    Notation m_reg := (mds s).
    Notation m_inv := (mds_inv s).
    Definition cur (i : nat) : expr F := EAdv (col (p5_state cfg) i) 0.
    Definition nxt (i : nat) : expr F := EAdv (col (p5_state cfg) i) 1.
    Definition prv (i : nat) : expr F := EAdv (col (p5_state cfg) i) (-1).
    Definition qrc_a (i : nat) : expr F := EFix (col (p5_rc_a cfg) i) 0.
    Definition qrc_b (i : nat) : expr F := EFix (col (p5_rc_b cfg) i) 0.

    (** gate "full round" (pow5.rs:113-130) *)
    Definition full_gates : list (expr F) :=
      map (fun next_idx =>
        EProd (ESel (p5_full cfg))
          (esub (sum_exprs (map (fun idx => EScaled (p5_pow (ESum (cur idx) (qrc_a idx))) (mnth m_reg next_idx idx))
                                (seq 0 T)))
                (nxt next_idx))) (seq 0 T).

    (** gate "partial rounds" (pow5.rs:132-174) *)
    Definition mid_0 : expr F := EAdv (p5_sbox cfg) 0.
    Definition mid (idx : nat) : expr F :=
      fold_left (fun acc cur_idx =>
        ESum acc (EScaled (ESum (cur cur_idx) (qrc_a cur_idx)) (mnth m_reg idx cur_idx)))
        (seq 1 (T - 1)) (EScaled mid_0 (mnth m_reg idx 0)).
    Definition next (idx : nat) : expr F :=
      sum_exprs (map (fun next_idx => EScaled (nxt next_idx) (mnth m_inv idx next_idx)) (seq 0 T)).
    Definition partial_round_linear (idx : nat) : expr F := esub (ESum (mid idx) (qrc_b idx)) (next idx).
    Definition partial_gates : list (expr F) :=
      map (EProd (ESel (p5_partial cfg)))
        ([esub (p5_pow (ESum (cur 0) (qrc_a 0))) mid_0;
          esub (p5_pow (ESum (mid 0) (qrc_b 0))) (next 0)]
         ++ map partial_round_linear (seq 1 (T - 1))).

    (** gate "partial round single" (pow5.rs:176-198) *)
    Definition single_gates : list (expr F) :=
      map (fun next_idx =>
        EProd (ESel (p5_single cfg))
          (esub (ESum (EScaled (p5_pow (ESum (cur 0) (qrc_a 0))) (mnth m_reg next_idx 0))
                      (sum_exprs (map (fun idx => EScaled (ESum (cur idx) (qrc_a idx)) (mnth m_reg next_idx idx))
                                      (seq 1 (T - 1)))))
                (nxt next_idx))) (seq 0 T).

    (** gate "pad-and-add" (pow5.rs:200-222) *)
    Definition pad_gates : list (expr F) :=
      map (EProd (ESel (p5_pad cfg)))
        (map (fun idx => esub (ESum (prv idx) (cur idx)) (nxt idx)) (seq 0 RATE)
         ++ [esub (prv RATE) (nxt RATE)]).
  End Gates.

  (** the assertions of [configure] (pow5.rs:74-87) and the [expect]s of its gates *)
  Definition pow5_asserts : bool :=
    (RATE =? T - 1) && Nat.even (full_rounds s) && (1 <? T).

  (** [Pow5Chip::configure] (pow5.rs:74-240), given that [pow5_asserts] holds *)
  Definition pow5_configure (state : list nat) (partial_sbox : nat) (rc_a rc_b : list nat) (c : cs F)
    : pow5 * cs F :=
    let c := fold_left (fun c col => enable_equality col c) (map Adv state ++ map Fix rc_b) c in
    let '(s_full, c) := complex_selector c in
    let '(s_partial, c) := complex_selector c in
    let '(s_single, c) := complex_selector c in
    let '(s_pad, c) := complex_selector c in
    let cfg := {| p5_state := state; p5_sbox := partial_sbox; p5_rc_a := rc_a; p5_rc_b := rc_b;
                  p5_full := s_full; p5_partial := s_partial; p5_single := s_single; p5_pad := s_pad |} in
    let c := create_gate (full_gates cfg) c in
    let c := create_gate (partial_gates cfg) c in
    let c := create_gate (single_gates cfg) c in
    let c := create_gate (pad_gates cfg) c in
    (cfg, c).

  (** ** Assignment *)

  (** arithmetic of [Value]s *)
  Definition val_add (a b : option F) : option F :=
    match a, b with Some x, Some y => Some (fadd x y) | _, _ => None end.
  Definition val_mul (a b : option F) : option F :=
    match a, b with Some x, Some y => Some (fmul x y) | _, _ => None end.
  (** [q.pow(&[5, 0, 0, 0])]: square and multiply as in [pow_vartime] *)
  Definition val_pow (a : option F) : option F := option_map sbox_pow a.
  (** [m.iter().map(|m_i| ... fold(Value::known(F::ZERO), |acc, ..| acc + Value::known(m_ij) * r_j))] *)
  Definition mat_values (m : list (list F)) (r : list (option F)) : list (option F) :=
    map (fun m_i => fold_left (fun acc '(m_ij, r_j) => val_add acc (val_mul (Some m_ij) r_j)) (combine m_i r)
                              (Some fzero)) m.
  Definition add_constants (st : list (option F)) (rc : list F) : list (option F) :=
    map (fun '(w, c) => val_add w (Some c)) (combine st rc).
  Definition pow_first (st : list (option F)) : list (option F) :=
    match st with [] => [] | w :: t => val_pow w :: t end.
  Definition values (l : list (acell F)) : list (option F) := map ac_val l.

  Section Assign.
    Variable cfg : pow5.

    (** [Pow5State::load] (pow5.rs:652-666) *)
    Definition p5_load (initial : list (acell F)) : Region F (list (acell F)) :=
      rmap (fun '(c, w) => copy_advice w c 0) (combine (p5_state cfg) initial).

    (** [Pow5State::round] (pow5.rs:668-707) *)
    Definition p5_round (round offset : nat) (round_gate : nat)
               (round_fn : Region F (list (option F))) : Region F (list (acell F)) :=
      rdo _ <- enable_selector round_gate offset;
      rdo rc <- rlift (index (round_constants s) round);
      rdo _ <- rmap (fun '(c, v) => assign_fixed c offset v) (combine (p5_rc_a cfg) rc);
      rdo next_state <- round_fn;
      rmap (fun '(c, v) => assign_advice c (offset + 1) v) (combine (p5_state cfg) next_state).

    (** [full_round] (pow5.rs:514-538) *)
    Definition p5_full_round (st : list (acell F)) (round offset : nat) : Region F (list (acell F)) :=
      p5_round round offset (p5_full cfg)
        (rdo rc <- rlift (index (round_constants s) round);
         let r := map val_pow (add_constants (values st) rc) in
         rret (mat_values (mds s) r)).

    (** [partial_round_single] (pow5.rs:540-577) *)
    Definition p5_partial_single (st : list (acell F)) (round offset : nat) : Region F (list (acell F)) :=
      p5_round round offset (p5_single cfg)
        (rdo rc <- rlift (index (round_constants s) round);
         let r := pow_first (add_constants (values st) rc) in
         rret (mat_values (mds s) r)).

    (** [partial_round] (pow5.rs:579-650) *)
    Definition p5_partial_round (st : list (acell F)) (round offset : nat) : Region F (list (acell F)) :=
      p5_round round offset (p5_partial cfg)
        (rdo rc <- rlift (index (round_constants s) round);
         let r := pow_first (add_constants (values st) rc) in
         rdo _ <- assign_advice (p5_sbox cfg) offset (hd None r);
         let p_mid := mat_values (mds s) r in
         rdo rc2 <- rlift (index (round_constants s) (round + 1));
         rdo _ <- rmap (fun '(c, v) => assign_fixed c offset v) (combine (p5_rc_b cfg) rc2);
         let r_mid := pow_first (add_constants p_mid rc2) in
         rret (mat_values (mds s) r_mid)).

    (** the closure of [permute] (pow5.rs:294-352).  The configuration does not carry the type of its [Spec]: the
        number of partial rounds is taken once from the configuration ([half_partial]) and once from the [Spec] named
        at the call, [rp] *)
    Definition p5_permute_region_as (rp : nat) (initial : list (acell F)) : Region F (list (acell F)) :=
      rdo st <- p5_load initial;
      rdo st <- rfold (fun st r => p5_full_round st r r) (seq 0 half_full) st;
      rdo st <- rfold (fun st r => p5_partial_round st (half_full + 2 * r) (half_full + r))
                      (seq 0 half_partial) st;
      rdo st <- (if half_partial * 2 <? rp
                 then p5_partial_single st (half_full + 2 * half_partial) (half_full + half_partial)
                 else rret st);
      let odd_offset := Nat.modulo rp 2 in
      rfold (fun st r => p5_full_round st (half_full + 2 * half_partial + odd_offset + r)
                                       (half_full + half_partial + odd_offset + r))
            (seq 0 half_full) st.
    (** [PoseidonInstructions::permute] (pow5.rs:294-352) with a [Spec] of [rp] partial rounds *)
    Definition p5_permute_as (rp : nat) (initial : list (acell F)) : Layouter F (list (acell F)) :=
      assign_region (p5_permute_region_as rp initial).
    (** the same with the [Spec] of the configuration *)
    Definition p5_permute_region (initial : list (acell F)) : Region F (list (acell F)) :=
      p5_permute_region_as (partial_rounds s) initial.
    Definition p5_permute (initial : list (acell F)) : Layouter F (list (acell F)) :=
      assign_region (p5_permute_region initial).

    (** [initial_state] (pow5.rs:363-394) for a domain with initial capacity element [cap] *)
    Definition p5_initial_state (cap : F) : Layouter F (list (acell F)) :=
      assign_region
        (rmap (fun '(c, v) => assign_advice_from_constant c 0 v)
              (combine (p5_state cfg) (repeat fzero RATE ++ [cap]))).

    (** [PaddedWord] (poseidon.rs:27-33) *)
    Inductive padded_word : Type := Message (w : acell F) | Padding (v : F).

    (** [add_input] (pow5.rs:396-470); [input] is the content of [Absorbing] *)
    Definition load_input_word (input : list (option padded_word)) (i : nat) : Region F (acell F) :=
      match nth i input None with
      | Some (Message w) => copy_advice w (col (p5_state cfg) i) 1
      | Some (Padding v) =>
        rdo w <- assign_fixed (col (p5_rc_b cfg) i) 1 v;
        copy_advice w (col (p5_state cfg) i) 1
      | None => rfail
      end.
    Definition p5_add_input (initial : list (acell F)) (input : list (option padded_word))
      : Layouter F (list (acell F)) :=
      assign_region
        (rdo _ <- enable_selector (p5_pad cfg) 1;
         rdo st <- p5_load initial;
         rdo inp <- rmap (load_input_word input) (seq 0 RATE);
         rmap (fun i =>
           assign_advice (col (p5_state cfg) i) 2
             (match nth_error (values inp) i with
              | Some v => val_add (nth i (values st) None) v
              | None => nth i (values st) None
              end)) (seq 0 T)).

    (** [get_output] (pow5.rs:472-481) *)
    Definition p5_get_output (st : list (acell F)) : list (option (acell F)) :=
      map Some (firstn RATE st).
  End Assign.
End Model.
Arguments padded_word F : clear implicits.

(** [n] calls of a column allocator *)
Fixpoint columns {F} (alloc : cs F -> nat * cs F) (n : nat) (c : cs F) : list nat * cs F :=
  match n with
  | O => ([], c)
  | S n' => let '(i, c) := alloc c in let '(l, c) := columns alloc n' c in (i :: l, c)
  end.

(** [impl PermuteChip for Pow5Chip<F, 3, 2>] (pow5.rs:263-283), with the default [permute_batch] *)
Definition pow5_chip {F} {FO : FieldOps F} (s : spec F) : permute_chip F :=
  {| pc_config := pow5;
     pc_configure := fun c =>
       let '(state, c) := columns advice_column 3 c in
       let '(partial_sbox, c) := advice_column c in
       let '(constants, c) := columns fixed_column 6 c in
       pow5_configure 3 2 s state partial_sbox (firstn 3 constants) (skipn 3 constants) c;
     pc_permute := p5_permute s;
     pc_permute_batch := default_batch (p5_permute s) |}.
