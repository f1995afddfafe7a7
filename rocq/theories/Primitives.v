(** Model of poseidon-base/src/primitives.rs: the permutation, the sponge and the hashers.
    Rust arrays [F; T] are lists; the const generics T and RATE are arguments. *)
From Coq Require Import ZArith List Arith.
From Verif Require Import Field Rust.
Import ListNotations.
Local Open Scope F_scope.

Section Model.
  Context {F : Type} {FO : FieldOps F}.

  (** read [a[i]] of an array whose type guarantees the bound *)
  Definition fnth (l : list F) (i : nat) : F := nth i l fzero.
  Definition mnth (m : list (list F)) (i j : nat) : F := fnth (nth i m []) j.

  (** traits [Spec] and [CachedSpec] (primitives.rs:43-96): one record per implementation.
      The associated functions return constants, so they are fields. *)
  Record spec : Type := {
    full_rounds : nat;
    partial_rounds : nat;
    sbox : F -> F;
    round_constants : list (list F);
    mds : list (list F);
    mds_inv : list (list F)
  }.

  (** the closure [apply_mds] (primitives.rs:112-122) *)
  Definition apply_mds (T : nat) (m : list (list F)) (st : list F) : list F :=
    map (fun i => fold_left (fun acc j => acc + mnth m i j * fnth st j) (seq 0 T) 0) (seq 0 T).

  (** the closure [full_round] (primitives.rs:124-129) *)
  Definition full_round (T : nat) (sb : F -> F) (m : list (list F)) (st rcs : list F) : list F :=
    apply_mds T m (zip_mut (fun w rc => sb (w + rc)) st rcs).

  (** [state[0] = S::sbox(state[0])] (primitives.rs:136); T >= 1 *)
  Definition sbox_first (sb : F -> F) (st : list F) : list F :=
    match st with [] => [] | w :: st' => sb w :: st' end.

  (** the closure [part_round] (primitives.rs:131-138) *)
  Definition part_round (T : nat) (sb : F -> F) (m : list (list F)) (st rcs : list F) : list F :=
    apply_mds T m (sbox_first sb (zip_mut (fun w rc => w + rc) st rcs)).

  (** [permute] (primitives.rs:99-149) *)
  Definition permute (T : nat) (s : spec) (m : list (list F)) (rcs : list (list F))
             (st : list F) : list F :=
    let r_f := Nat.div2 (full_rounds s) in
    let r_p := partial_rounds s in
    let rounds := repeat (full_round T (sbox s) m) r_f
                  ++ repeat (part_round T (sbox s) m) r_p
                  ++ repeat (full_round T (sbox s) m) r_f in
    fold_left (fun st '(round, rc) => round st rc) (combine rounds rcs) st.

  (** [poseidon_sponge] (primitives.rs:151-178).  RATE <= T is assumed where the Rust
      subtraction [T - RATE] would underflow. *)
  Definition poseidon_sponge (T RATE : nat) (s : spec) (st : list F)
             (input : option (list (option F) * nat)) : result (list F * list (option F)) :=
    do st1 <-
      match input with
      | None => Ok st
      | Some (inp, layout_offset) =>
        do _ <- rassert (layout_offset <=? T - RATE);
        do tl <- zip_mut_r (fun w v => do x <- unwrap v; Ok (w + x)) (skipn layout_offset st) inp;
        Ok (firstn layout_offset st ++ tl)
      end;
    let st2 := permute T s (mds s) (round_constants s) st1 in
    Ok (st2, zip_mut (fun _ v => Some v) (repeat None RATE) st2).

  (** [Sponge] in either mode (primitives.rs:214-225); the mode is the buffer content of
      [Absorbing]/[Squeezing], and the two phases are kept apart by which function is called. *)
  Record sponge : Type := { sp_mode : list (option F); sp_state : list F; sp_layout : nat }.

  (** [Absorbing::init_with] (primitives.rs:200-210) *)
  Definition init_with (RATE : nat) (v : F) : result (list (option F)) :=
    let l := Some v :: repeat None (RATE - 1) in
    if length l =? RATE then Ok l else Panic.

  (** [Sponge::new] (primitives.rs:235-246) *)
  Definition sponge_new (T RATE : nat) (cap : F) (layout : nat) : sponge :=
    {| sp_mode := repeat None RATE;
       sp_state := upd (repeat 0 T) ((RATE + layout) mod T)%nat cap;
       sp_layout := layout |}.

  (** [Sponge::update_capacity] (primitives.rs:249-251) *)
  Definition update_capacity (T RATE : nat) (sp : sponge) (cap : F) : sponge :=
    let i := ((RATE + sp_layout sp) mod T)%nat in
    {| sp_mode := sp_mode sp;
       sp_state := upd (sp_state sp) i (fnth (sp_state sp) i + cap);
       sp_layout := sp_layout sp |}.

  (** the loop at primitives.rs:255-260: put [v] in the first empty entry *)
  Fixpoint fill_first (v : F) (l : list (option F)) : option (list (option F)) :=
    match l with
    | [] => None
    | None :: l' => Some (Some v :: l')
    | Some x :: l' => option_map (cons (Some x)) (fill_first v l')
    end.

  (** [Sponge::absorb] (primitives.rs:254-270) *)
  Definition absorb (T RATE : nat) (s : spec) (sp : sponge) (v : F) : result sponge :=
    match fill_first v (sp_mode sp) with
    | Some m => Ok {| sp_mode := m; sp_state := sp_state sp; sp_layout := sp_layout sp |}
    | None =>
      do (st, _) <- poseidon_sponge T RATE s (sp_state sp) (Some (sp_mode sp, sp_layout sp));
      do m <- init_with RATE v;
      Ok {| sp_mode := m; sp_state := st; sp_layout := sp_layout sp |}
    end.

  (** [Sponge::finish_absorbing] (primitives.rs:273-287) *)
  Definition finish_absorbing (T RATE : nat) (s : spec) (sp : sponge) : result sponge :=
    do (st, m) <- poseidon_sponge T RATE s (sp_state sp) (Some (sp_mode sp, sp_layout sp));
    Ok {| sp_mode := m; sp_state := st; sp_layout := sp_layout sp |}.

  (** the loop at primitives.rs:300-304: take the first filled entry *)
  Fixpoint take_first (l : list (option F)) : option (F * list (option F)) :=
    match l with
    | [] => None
    | Some x :: l' => Some (x, None :: l')
    | None :: l' => option_map (fun '(x, r) => (x, None :: r)) (take_first l')
    end.

  (** [Sponge::squeeze] (primitives.rs:298-314).  The Rust loop runs at most twice when
      RATE >= 1; with RATE = 0 it would not terminate, which is shown as [Panic] here. *)
  Definition squeeze (T RATE : nat) (s : spec) (sp : sponge) : result (F * sponge) :=
    match take_first (sp_mode sp) with
    | Some (x, m) => Ok (x, {| sp_mode := m; sp_state := sp_state sp; sp_layout := sp_layout sp |})
    | None =>
      do (st, m) <- poseidon_sponge T RATE s (sp_state sp) None;
      match take_first m with
      | Some (x, m') => Ok (x, {| sp_mode := m'; sp_state := st; sp_layout := sp_layout sp |})
      | None => Panic
      end
    end.

  (** trait [Domain] (primitives.rs:318-337) *)
  Record domain : Type := {
    initial_capacity_element : F;
    padding : nat -> result (list F);
    layout : nat -> nat
  }.

  (** [F::from_u128] *)
  Definition from_u128 (n : N) : F := of_Z (Z.of_N n).

  (** [ConstantLength<L>] (primitives.rs:343-369) *)
  Definition constant_length_padding (RATE L input_len : nat) : result (list F) :=
    do _ <- rassert (input_len =? L)%nat;
    let k := Nat.div (L + RATE - 1) RATE in
    Ok (repeat 0 (k * RATE - L)%nat).
  Definition constant_length (RATE L : nat) : domain :=
    {| initial_capacity_element := from_u128 (N.shiftl (N.of_nat L) 64);
       padding := constant_length_padding RATE L;
       layout := fun _ => 0%nat |}.

  (** [ConstantLengthIden3<L>] (primitives.rs:373-396) *)
  Definition constant_length_iden3 (RATE L : nat) : domain :=
    {| initial_capacity_element := 0;
       padding := constant_length_padding RATE L;
       layout := fun width => (width - RATE)%nat |}.

  (** [VariableLengthIden3] (primitives.rs:400-422) *)
  Definition variable_length_iden3 (RATE : nat) : domain :=
    {| initial_capacity_element := 0;
       padding := fun input_len =>
                    let k := (input_len mod RATE)%nat in
                    Ok (repeat 0 (if (k =? 0)%nat then 0%nat else (RATE - k)%nat));
       layout := fun width => (width - RATE)%nat |}.

  (** [Hash::init] (primitives.rs:465-470); a [Hash] is its sponge *)
  Definition hash_init (T RATE : nat) (d : domain) : sponge :=
    sponge_new T RATE (initial_capacity_element d) (layout d T).

  (** [Hash::permute] (primitives.rs:473-475) *)
  Definition hash_permute (T : nat) (s : spec) (st : list F) : list F :=
    permute T s (mds s) (round_constants s) st.

  (** absorb all values, finish, squeeze one *)
  Definition absorb_all (T RATE : nat) (s : spec) (l : list F) (sp : sponge) : result sponge :=
    fold_r (absorb T RATE s) l sp.

  (** [Hash<ConstantLength<L>>::hash] (primitives.rs:487-495); the message is [F; L] *)
  Definition hash_constant_length (T RATE L : nat) (s : spec) (h : sponge) (message : list F)
    : result F :=
    do pad <- constant_length_padding RATE L L;
    do sp <- absorb_all T RATE s (message ++ pad) h;
    do sp <- finish_absorbing T RATE s sp;
    do (x, _) <- squeeze T RATE s sp;
    Ok x.

  (** [Hash<ConstantLengthIden3<L>>::hash] (primitives.rs:507-517) *)
  Definition hash_constant_length_iden3 (T RATE L : nat) (s : spec) (h : sponge)
             (message : list F) (dom : F) : result F :=
    let h := update_capacity T RATE h dom in
    do pad <- constant_length_padding RATE L L;
    do sp <- absorb_all T RATE s (message ++ pad) h;
    do sp <- finish_absorbing T RATE s sp;
    do (x, _) <- squeeze T RATE s sp;
    Ok x.

  (** [Hash<VariableLengthIden3>::hash_with_cap] (primitives.rs:528-539) *)
  Definition hash_with_cap (T RATE : nat) (s : spec) (h : sponge) (message : list F) (cap : N)
    : result F :=
    let h := update_capacity T RATE h (from_u128 cap) in
    do sp <- absorb_all T RATE s message h;
    do pad <- padding (variable_length_iden3 RATE) (length message);
    do sp <- absorb_all T RATE s pad sp;
    do sp <- finish_absorbing T RATE s sp;
    do (x, _) <- squeeze T RATE s sp;
    Ok x.
End Model.

Arguments spec F : clear implicits.
Arguments sponge F : clear implicits.
Arguments domain F : clear implicits.
