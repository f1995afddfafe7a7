(** Model of poseidon-base/src/primitives/grain.rs. *)
From Coq Require Import ZArith List Arith Bool.
From Verif Require Import Field Rust Primitives.
Import ListNotations.

(** [const STATE] (grain.rs:8) *)
Definition STATE : nat := 80.

(** [Grain] (grain.rs:46-50): bits of the state in index order, and [next_bit] *)
Record grain : Type := { g_state : list bool; g_next_bit : nat }.

Definition bit (l : list bool) (i : nat) : bool := nth i l false.

(** the closure [set_bits] (grain.rs:56-61) *)
Definition set_bits (st : list bool) (offset len : nat) (value : N) : list bool :=
  fold_left (fun st i => upd st (offset + len - 1 - i) (N.testbit value (N.of_nat i))) (seq 0 len) st.

(** one new bit (grain.rs:87-92) *)
Definition new_bit (st : list bool) (i : nat) : bool :=
  xorb (bit st (i + 62)) (xorb (bit st (i + 51)) (xorb (bit st (i + 38))
    (xorb (bit st (i + 23)) (xorb (bit st (i + 13)) (bit st i))))).

(** [load_next_8_bits] (grain.rs:84-100).  The u8 accumulator [new_bits] is the list of its eight
    bits, least significant first; [rotate_left(8)] moves the first 8 bits to the end. *)
Definition load_next_8_bits (g : grain) : grain :=
  let new_bits := map (new_bit (g_state g)) (seq 0 8) in
  let rot := skipn 8 (g_state g) ++ firstn 8 (g_state g) in
  let nb := g_next_bit g - 8 in
  {| g_state := fold_left (fun st i => upd st (nb + i) (bit new_bits i)) (seq 0 8) rot;
     g_next_bit := nb |}.

(** [get_next_bit] (grain.rs:102-109) *)
Definition get_next_bit (g : grain) : bool * grain :=
  let g := if g_next_bit g =? STATE then load_next_8_bits g else g in
  (bit (g_state g) (g_next_bit g),
   {| g_state := g_state g; g_next_bit := g_next_bit g + 1 |}).

(** the initial LFSR bits set by [new] (grain.rs:55-67): field tag 1 (prime order) and S-box tag 0
    ([SboxType::Pow]; the other tags are dead code) *)
Definition grain_seed (num_bits t r_f r_p : N) : list bool :=
  let st := repeat true STATE in
  let st := set_bits st 0 2 1 in
  let st := set_bits st 2 4 0 in
  let st := set_bits st 6 12 num_bits in
  let st := set_bits st 18 12 t in
  let st := set_bits st 30 10 r_f in
  set_bits st 40 10 r_p.

(** the discard loop (grain.rs:75-79) *)
Fixpoint discard (n : nat) (g : grain) : grain :=
  match n with
  | O => g
  | S n' => discard n' {| g_state := g_state (load_next_8_bits g); g_next_bit := STATE |}
  end.

(** [Grain::new] (grain.rs:53-82) *)
Definition grain_new (num_bits t r_f r_p : N) : grain :=
  discard 20 {| g_state := grain_seed num_bits t r_f r_p; g_next_bit := STATE |}.

(** [Iterator::next] (grain.rs:171-179).  The Rust [while] loop has no bound; [fuel] bounds the number of
    discarded pairs and [None] means the bound was hit. *)
Fixpoint grain_next (fuel : nat) (g : grain) : option (bool * grain) :=
  match fuel with
  | O => None
  | S f =>
    let '(b, g) := get_next_bit g in
    if b then Some (get_next_bit g)
    else let '(_, g) := get_next_bit g in grain_next f g
  end.

(** [self.take(n)] *)
Fixpoint grain_take (fuel n : nat) (g : grain) : option (list bool * grain) :=
  match n with
  | O => Some ([], g)
  | S n' =>
    match grain_next fuel g with
    | None => None
    | Some (b, g) =>
      match grain_take fuel n' g with
      | None => None
      | Some (l, g) => Some (b :: l, g)
      end
    end
  end.

(** the byte view filled at grain.rs:124-131 / 155-162, as the integer it encodes: the i-th bit drawn has
    weight 2^(NUM_BITS - 1 - i) *)
Fixpoint bits_value (l : list bool) : Z :=
  match l with
  | [] => 0
  | b :: l' => (if b then 2 ^ Z.of_nat (length l') else 0) + bits_value l'
  end%Z.

Section FieldElements.
  Context {F : Type} {FO : FieldOps F}.

  (** [F::NUM_BITS] *)
  Definition num_bits : nat := Z.to_nat (Z.log2 (modulus (F := F)) + 1).

  (** [next_field_element] (grain.rs:112-137); [from_repr_vartime] accepts exactly the integers
      below the modulus; [fuel] bounds both unbounded loops *)
  Fixpoint next_field_element (tries fuel : nat) (g : grain) : option (F * grain) :=
    match tries with
    | O => None
    | S k =>
      match grain_take fuel num_bits g with
      | None => None
      | Some (l, g) =>
        let v := bits_value l in
        if (v <? modulus (F := F))%Z then Some (of_Z v, g) else next_field_element k fuel g
      end
    end.

  (** [next_field_element_without_rejection] (grain.rs:141-165); [from_uniform_bytes] reduces the
      512-bit little-endian integer modulo the field order *)
  Definition next_field_element_without_rejection (fuel : nat) (g : grain) : option (F * grain) :=
    match grain_take fuel num_bits g with
    | None => None
    | Some (l, g) => Some (of_Z (bits_value l), g)
    end.

  Fixpoint draw (next : grain -> option (F * grain)) (n : nat) (g : grain)
    : option (list F * grain) :=
    match n with
    | O => Some ([], g)
    | S n' =>
      match next g with
      | None => None
      | Some (x, g) =>
        match draw next n' g with
        | None => None
        | Some (l, g) => Some (x :: l, g)
        end
      end
    end.

  (** the round constants drawn by the default [Spec::constants] (primitives.rs:71-82) *)
  Fixpoint draw_rows (next : grain -> option (F * grain)) (T n : nat) (g : grain)
    : option (list (list F) * grain) :=
    match n with
    | O => Some ([], g)
    | S n' =>
      match draw next T g with
      | None => None
      | Some (row, g) =>
        match draw_rows next T n' g with
        | None => None
        | Some (l, g) => Some (row :: l, g)
        end
      end
    end.
End FieldElements.
