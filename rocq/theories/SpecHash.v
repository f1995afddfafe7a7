(** Independent specifications of the Poseidon permutation and sponge (textbook definitions).
    Nothing here refers to the model of the Rust code. *)
From Coq Require Import ZArith List Arith.
From Verif Require Import Field.
Import ListNotations.
Local Open Scope F_scope.

Section Spec.
  Context {F : Type} {FO : FieldOps F}.

  (** vectors *)
  Fixpoint dot (a b : list F) : F :=
    match a, b with
    | x :: a', y :: b' => x * y + dot a' b'
    | _, _ => 0
    end.
  Definition mat_vec (m : list (list F)) (v : list F) : list F := map (fun row => dot row v) m.
  Fixpoint vadd (a b : list F) : list F :=
    match a, b with
    | x :: a', y :: b' => (x + y) :: vadd a' b'
    | _, _ => []
    end.
  Definition power5 (x : F) : F := x * x * x * x * x.

  (** the Poseidon round functions: add constants, S-box on all words or on the first, mix *)
  Definition spec_full (m : list (list F)) (st rc : list F) : list F :=
    mat_vec m (map power5 (vadd st rc)).
  Definition spec_partial (m : list (list F)) (st rc : list F) : list F :=
    mat_vec m (match vadd st rc with [] => [] | x :: t => power5 x :: t end).

  (** the permutation: half the full rounds, the partial rounds, the other half *)
  Definition spec_permute (m : list (list F)) (half partial : nat) (rcs : list (list F))
             (st : list F) : list F :=
    let first := firstn half rcs in
    let middle := firstn partial (skipn half rcs) in
    let last := firstn half (skipn (half + partial) rcs) in
    fold_left (spec_full m) last
      (fold_left (spec_partial m) middle
        (fold_left (spec_full m) first st)).

  (** ** The sponge *)

  (** cut a list into blocks of [n] words *)
  Fixpoint blocks_aux (fuel n : nat) (l : list F) : list (list F) :=
    match fuel, l with
    | S f, _ :: _ => firstn n l :: blocks_aux f n (skipn n l)
    | _, _ => []
    end.
  Definition blocks (n : nat) (l : list F) : list (list F) := blocks_aux (length l) n l.

  (** add a block into the state from word [off] on *)
  Definition add_block (off : nat) (st b : list F) : list F :=
    map (fun i => nth i st 0 + (if (off <=? i)%nat then nth (i - off) b 0 else 0))
        (seq 0 (length st)).

  (** zero padding to a multiple of [n] *)
  Definition pad_zeros (n : nat) (l : list F) : list F :=
    l ++ repeat 0 ((n - length l mod n) mod n)%nat.

  (** initial state of width [T]: zero except word [pos] *)
  Definition init_state (T pos : nat) (cap : F) : list F :=
    map (fun i => if (i =? pos)%nat then cap else 0) (seq 0 T).

  (** absorb blocks with permutation [perm] *)
  Definition absorb_blocks (perm : list F -> list F) (off : nat) (bs : list (list F)) (st : list F)
    : list F :=
    fold_left (fun st b => perm (add_block off st b)) bs st.

  (** the whole sponge hash: word 0 after absorbing *)
  Definition sponge_hash (perm : list F -> list F) (T rate off pos : nat) (cap : F) (msg : list F) : F :=
    nth 0 (absorb_blocks perm off (blocks rate (pad_zeros rate msg)) (init_state T pos cap)) 0.
End Spec.
