(** Witnesses for PropertiesSeptUtil.v, over the field of 19 elements. *)
From Coq Require Import ZArith List Arith Bool.
From Verif Require Import Field ZpField Primes Rust Halo2 Septidon SeptUtil ExamplesPow5.
Import ListNotations.
Local Open Scope nat_scope.

Lemma ex_or_zero : exists a b : F19, or_value a b = fzero /\ a <> fzero /\ b <> fzero.
Proof. exists (of_Z 2), (of_Z 2). split; [reflexivity|]. split; discriminate. Qed.

Lemma ex_partly_known : exists v : arr3 (option F19), split_values (join_values v) <> v.
Proof. exists (Some fone, None, None). discriminate. Qed.

Lemma ex_matrix : exists m : list (list F19), length m = 3 /\ Forall (fun row => length row = 3) m
  /\ matmul_value m (fone, of_Z 2, of_Z 3) = (of_Z 14, of_Z 13, of_Z 12).
Proof.
  exists [[of_Z 1; of_Z 2; of_Z 3]; [of_Z 4; of_Z 5; of_Z 6]; [of_Z 7; of_Z 8; of_Z 9]].
  split; [reflexivity|]. split; [repeat constructor|]. unfold matmul_value. apply pair_equal_spec; split; [apply pair_equal_spec; split|]; apply to_Z_inj; vm_compute; reflexivity.
Qed.

(** a cell that is rotated by two rows up, in a region where the chip starts at row 1 and at row 2 *)
Lemma ex_cells : let c := rotated {| sc_col := 4; sc_off := 0 |} (-2) in
  cell_assign (F := F19) c 1 None 0 = Panic /\ cell_assign (F := F19) c 2 None 0 = Ok ([AssignAdvice 4 0 None], tt).
Proof. split; reflexivity. Qed.
