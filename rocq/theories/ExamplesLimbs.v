(** Cases for PropertiesLimbs.v. *)
From Coq Require Import ZArith List Lia.
From Verif Require Import Rust Limbs LimbsSpec.
Import ListNotations.
Local Open Scope Z_scope.

(** the largest word and the largest numbers of four words *)
Definition top_word : Z := 2 ^ 64 - 1.
Definition top_number : list Z := [top_word; top_word; top_word; top_word].
Lemma ex_words : word top_word /\ mac top_word top_word top_word top_word = Ok (top_word, top_word)
  /\ adc top_word top_word top_word = Ok (2 ^ 64 - 3, 2) /\ sbb 0 top_word top_word = Ok (0, top_word).
Proof. unfold word, top_word. split; [lia|]. repeat split. Qed.
Lemma ex_product : length top_number = 4%nat /\ Forall word top_number
  /\ mul_512 top_number top_number = Ok [1; 0; 0; 0; 2 ^ 64 - 2; top_word; top_word; top_word].
Proof.
  split; [reflexivity|]. split; [|reflexivity]. repeat (apply Forall_cons; [unfold word, top_word; lia|]). apply Forall_nil.
Qed.
Lemma ex_chain : along adc 0 [top_word; top_word] [1; 0] = Ok ([0; 0], 1) /\ along sbb 0 [0; 1] [1; 0] = Ok ([top_word; 0], 0).
Proof. split; reflexivity. Qed.
(** a borrow other than zero and all ones counts by its top bit *)
Lemma ex_borrow : exists a b borrow, word a /\ word b /\ word borrow /\ sbb a b borrow = Ok (a - b, 0) /\ 0 < borrow <= a - b.
Proof. exists 5, 2, 1. unfold word. split; [lia|]. split; [lia|]. split; [lia|]. split; [reflexivity|lia]. Qed.
