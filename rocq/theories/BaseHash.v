(** Model of poseidon-base/src/hash.rs: the public hashing API on the field. *)
From Coq Require Import ZArith List Arith.
From Verif Require Import Field Rust Primitives Specs.
Import ListNotations.
Local Open Scope F_scope.

(** [HASHABLE_DOMAIN_SPEC] (hash.rs:33-36), by the "legacy" feature *)
Definition hashable_domain_spec (legacy : bool) : N := if legacy then 1%N else 18446744073709551616%N.

Section Model.
  Context {F : Type} {FO : FieldOps F}.

  (** [Hash::init] as used by [Hashable::hasher] with [ConstantLengthIden3<2>] (hash.rs:65-67, 88) and by
      [MessageHashable::msg_hasher] with [VariableLengthIden3] (hash.rs:78-81, 103) *)
  Definition fresh_hasher : sponge F := hash_init 3 2 (constant_length_iden3 2 2).
  Definition fresh_msg_hasher : sponge F := hash_init 3 2 (variable_length_iden3 2).

  (** [hash_with_domain] (hash.rs:90-92) on a fresh hasher *)
  Definition hash_with_domain (s : spec F) (inp : F * F) (dom : F) : result F :=
    hash_constant_length_iden3 3 2 2 s fresh_hasher [fst inp; snd inp] dom.

  (** deprecated [hash] (hash.rs:47-49) *)
  Definition hash (s : spec F) (inp : F * F) : result F := hash_with_domain s inp 0.

  (** the capacity chosen by [hash_msg] (hash.rs:107): cap.unwrap_or(len * HASHABLE_DOMAIN_SPEC);
      the product of a usize and 2^64 fits u128 *)
  Definition msg_cap (legacy : bool) (len : nat) (cap : option N) : N :=
    match cap with
    | Some c => c
    | None => (N.of_nat len * hashable_domain_spec legacy)%N
    end.

  (** [hash_msg] (hash.rs:105-108) on a fresh hasher *)
  Definition hash_msg (legacy : bool) (s : spec F) (msg : list F) (cap : option N) : result F :=
    hash_with_cap 3 2 s fresh_msg_hasher msg (msg_cap legacy (length msg) cap).

  (** [hash_block_size] (hash.rs:54-63); [short] is the feature of poseidon-base *)
  Definition hash_block_size (short : bool) (s : spec F) : nat :=
    if short then 1 + full_rounds s
    else 1 + full_rounds s + (partial_rounds s + 1) / 2.

  (** ** The cached hashers (hash.rs:94-99, 110-116) *)

  (** process-wide [OnceCell]s *)
  Record cells : Type := {
    c_hasher : option (sponge F);
    c_msg_hasher : option (sponge F)
  }.
  Definition empty_cells : cells := {| c_hasher := None; c_msg_hasher := None |}.

  (** [INIT.get_or_init(Hash::init).clone()] (hash.rs:98): the hasher handed out and the cells after *)
  Definition hasher (w : cells) : sponge F * cells :=
    match c_hasher w with
    | Some h => (h, w)
    | None => (fresh_hasher, {| c_hasher := Some fresh_hasher; c_msg_hasher := c_msg_hasher w |})
    end.
  Definition msg_hasher (w : cells) : sponge F * cells :=
    match c_msg_hasher w with
    | Some h => (h, w)
    | None => (fresh_msg_hasher, {| c_hasher := c_hasher w; c_msg_hasher := Some fresh_msg_hasher |})
    end.

  (** calls of the public API *)
  Inductive call : Type :=
  | CallHash (a b : F)                         (* Fr::hash *)
  | CallHashDomain (a b d : F)                 (* Fr::hash_with_domain *)
  | CallHashMsg (msg : list F) (cap : option N) (* Fr::hash_msg *)
  | CallPermute (st : list F).                 (* Fr::hasher().permute *)

  (** one call: result and the cells afterwards.  The clone is consumed by the call (methods take [self]),
      so nothing is written back to the cell. *)
  Definition run_call (legacy : bool) (s : spec F) (w : cells) (c : call)
    : result (list F) * cells :=
    match c with
    | CallHash a b =>
      let '(h, w) := hasher w in
      ((do x <- hash_constant_length_iden3 3 2 2 s h [a; b] 0; Ok [x]), w)
    | CallHashDomain a b d =>
      let '(h, w) := hasher w in
      ((do x <- hash_constant_length_iden3 3 2 2 s h [a; b] d; Ok [x]), w)
    | CallHashMsg msg cap =>
      let '(h, w) := msg_hasher w in
      ((do x <- hash_with_cap 3 2 s h msg (msg_cap legacy (length msg) cap); Ok [x]), w)
    | CallPermute st =>
      let '(h, w) := hasher w in
      (Ok (hash_permute 3 s st), w)
    end.

  Fixpoint run_calls (legacy : bool) (s : spec F) (w : cells) (l : list call)
    : list (result (list F)) * cells :=
    match l with
    | [] => ([], w)
    | c :: l' =>
      let '(r, w1) := run_call legacy s w c in
      let '(rs, w2) := run_calls legacy s w1 l' in
      (r :: rs, w2)
    end.
End Model.
Arguments cells F : clear implicits.
Arguments call F : clear implicits.
