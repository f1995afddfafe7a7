(** Property C80: the helpers of the Septidon chip, as expressions and as values. *)
From Coq Require Import ZArith List Arith Bool.
From Verif Require Import Field ZpField Primes Rust Primitives SpecHash Halo2 Septidon SeptUtil SeptUtil_claims ExamplesPow5 ExamplesSeptUtil.
Import ListNotations.
Local Open Scope nat_scope.

(** C80: on every row of every circuit an expression made by a helper has the value that the helper for values gives *)
Theorem C80_expressions : forall F (FO : FieldOps F) (PF : PrimeField F) n (fx sl adv : nat -> nat -> F) r, let ev := eval n fx sl adv r in
  (forall e, ev (pow_5_expr e) = pow_5_value (ev e))
  /\ (forall e c, ev (sbox_expr e c) = sbox_value (ev e) (ev c))
  /\ (forall m v, map3 ev (matmul_expr m v) = matmul_value m (map3 ev v))
  /\ (forall s t f, ev (select_expr s t f) = select_value (ev s) (ev t) (ev f))
  /\ (forall a b, ev (or_expr a b) = or_value (ev a) (ev b)).
Proof. exact (fun F FO PF => util_agree). Qed.
Print Assumptions C80_expressions.

(** the values are the fifth power, the product of matrix and vector, the choice by a bit, and the disjunction of bits; the disjunction is
    1 for just those field elements of which one is 1 *)
Theorem C80_values : forall F (FO : FieldOps F) (PF : PrimeField F),
  (forall x : F, pow_5_value x = fmul (fmul (fmul (fmul x x) x) x) x)
  /\ (forall m (v : arr3 F), length m = 3 -> Forall (fun row => length row = 3) m ->
       (let '(x, y, z) := matmul_value m v in [x; y; z]) = mat_vec m (let '(x, y, z) := v in [x; y; z]))
  /\ (forall b (t f : F), select_value (bit b) t f = if b then t else f)
  /\ (forall a b : bool, or_value (bit a) (bit b) = bit (F := F) (a || b))
  /\ (forall a b : F, or_value a b = fone <-> a = fone \/ b = fone).
Proof. exact (fun F FO PF => util_values). Qed.
Print Assumptions C80_values.
Example C80_instance : exists m : list (list F19), length m = 3 /\ Forall (fun row => length row = 3) m
  /\ matmul_value m (fone, of_Z 2, of_Z 3) = (of_Z 14, of_Z 13, of_Z 12).
Proof. exact ex_matrix. Qed.

(** without bits the disjunction can be 0 although neither side is *)
Theorem C80_or_zero_refuted : exists a b : F19, or_value a b = fzero /\ a <> fzero /\ b <> fzero.
Proof. exact ex_or_zero. Qed.
Print Assumptions C80_or_zero_refuted.

(** joining undoes splitting; splitting undoes joining just for states that are all known or all unknown *)
Theorem C80_join : forall F (FO : FieldOps F) (PF : PrimeField F) (w : option (arr3 F)) (v : arr3 (option F)),
  join_values (split_values w) = w
  /\ (split_values (join_values v) = v <-> (exists x, v = map3 Some x) \/ v = (None, None, None)).
Proof. exact (fun F FO PF => util_join). Qed.
Print Assumptions C80_join.
Theorem C80_partly_known_refuted : exists v : arr3 (option F19), split_values (join_values v) <> v.
Proof. exact ex_partly_known. Qed.
Print Assumptions C80_partly_known_refuted.

(** a rotated cell is assigned in the row it stands for; a row before the region panics *)
Theorem C80_cells : forall F (FO : FieldOps F) (PF : PrimeField F) (c : scell) (d k : Z) origin (input : option F) ri,
  (forall r, Z.of_nat r = (Z.of_nat origin + sc_off c + d)%Z -> cell_assign (rotated c d) origin input ri = Ok ([AssignAdvice (sc_col c) r input], tt))
  /\ ((Z.of_nat origin + sc_off c + d < 0)%Z -> cell_assign (rotated c d) origin input ri = Panic)
  /\ (forall r, Z.of_nat r = (sc_off c + d)%Z -> region_offset (F := F) (rotated c d) ri = Ok ([], r))
  /\ ((sc_off c + d < 0)%Z -> region_offset (F := F) (rotated c d) ri = Panic)
  /\ cell_query (F := F) (rotated c d) k = cell_query c (d + k).
Proof. exact (fun F FO PF => util_cells). Qed.
Print Assumptions C80_cells.
Example C80_cells_instance : let c := rotated {| sc_col := 4; sc_off := 0 |} (-2) in
  cell_assign (F := F19) c 1 None 0 = Panic /\ cell_assign (F := F19) c 2 None 0 = Ok ([AssignAdvice 4 0 None], tt).
Proof. exact ex_cells. Qed.
