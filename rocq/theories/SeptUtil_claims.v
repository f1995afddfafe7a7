(** The lemmas behind PropertiesSeptUtil.v. *)
From Coq Require Import ZArith List Arith Lia Bool.
From Verif Require Import Field Rust Primitives SpecHash Halo2 Septidon SeptUtil.
Import ListNotations.
Local Open Scope F_scope.

Section Claims.
  Context {F : Type} {FO : FieldOps F} {PF : PrimeField F}.
  Add Field Ffield_util : (f_field (F := F)).

  Theorem util_agree : forall n (fx sl adv : nat -> nat -> F) r, let ev := eval n fx sl adv r in
    (forall e, ev (pow_5_expr e) = pow_5_value (ev e))
    /\ (forall e c, ev (sbox_expr e c) = sbox_value (ev e) (ev c))
    /\ (forall m v, map3 ev (matmul_expr m v) = matmul_value m (map3 ev v))
    /\ (forall s t f, ev (select_expr s t f) = select_value (ev s) (ev t) (ev f))
    /\ (forall a b, ev (or_expr a b) = or_value (ev a) (ev b)).
  Proof.
    intros n fx sl adv r ev. split; [reflexivity|]. split; [reflexivity|]. split; [now intros m [[x y] z]|].
    unfold select_value, or_value, ev. split; intros; cbn [select_expr or_expr esub eval]; rewrite of_Z_1; ring.
  Qed.

  Theorem util_values :
    (forall x : F, pow_5_value x = x * x * x * x * x)
    /\ (forall m (v : arr3 F), length m = 3%nat -> Forall (fun row => length row = 3%nat) m ->
         (let '(x, y, z) := matmul_value m v in [x; y; z]) = mat_vec m (let '(x, y, z) := v in [x; y; z]))
    /\ (forall b (t f : F), select_value (bit b) t f = if b then t else f)
    /\ (forall a b : bool, or_value (bit a) (bit b) = bit (F := F) (a || b))
    /\ (forall a b : F, or_value a b = 1 <-> a = 1 \/ b = 1).
  Proof.
    split; [intros x; unfold pow_5_value; ring|]. split.
    { intros m [[x y] z] H3 HR. destruct m as [|r0 [|r1 [|r2 [|]]]]; try discriminate.
      inversion HR as [|? ? R0 HR1]; inversion HR1 as [|? ? R1 HR2]; inversion HR2 as [|? ? R2 _]; subst.
      destruct r0 as [|a0 [|b0 [|c0 [|]]]]; try discriminate. destruct r1 as [|a1 [|b1 [|c1 [|]]]]; try discriminate.
      destruct r2 as [|a2 [|b2 [|c2 [|]]]]; try discriminate. unfold matmul_value, mnth, fnth, mat_vec. cbn [nth map dot].
      f_equal; [ring|]. f_equal; [ring|]. f_equal. ring. }
    split; [intros [|] t f; unfold select_value, bit; ring|].
    split; [intros [|] [|]; unfold or_value, bit; cbn; ring|].
    intros a b. unfold or_value. split.
    - intros H. assert (Z : (1 - a) * (1 - b) = 0) by (transitivity (1 - (1 - (1 - a) * (1 - b))); [ring|rewrite H; ring]).
      apply fmul_eq_0 in Z. destruct Z as [Z|Z]; [left|right]; symmetry; apply fsub_eq_0; exact Z.
    - intros [->| ->]; ring.
  Qed.

  Theorem util_join : forall (w : option (arr3 F)) (v : arr3 (option F)),
    join_values (split_values w) = w
    /\ (split_values (join_values v) = v <-> (exists x, v = map3 Some x) \/ v = (None, None, None)).
  Proof.
    intros w v. split; [now destruct w as [[[x y] z]|]|]. destruct v as [[a b] c]. split.
    - destruct a as [x|], b as [y|], c as [z|]; cbn; intros H; try discriminate; [left; now exists (x, y, z)|now right].
    - intros [[[[x y] z] H]|H]; inversion H; subst; reflexivity.
  Qed.

  Theorem util_cells : forall (c : scell) (d k : Z) origin (input : option F) ri,
    (forall r, Z.of_nat r = (Z.of_nat origin + sc_off c + d)%Z -> cell_assign (rotated c d) origin input ri = Ok ([AssignAdvice (sc_col c) r input], tt))
    /\ ((Z.of_nat origin + sc_off c + d < 0)%Z -> cell_assign (rotated c d) origin input ri = Panic)
    /\ (forall r, Z.of_nat r = (sc_off c + d)%Z -> region_offset (F := F) (rotated c d) ri = Ok ([], r))
    /\ ((sc_off c + d < 0)%Z -> region_offset (F := F) (rotated c d) ri = Panic)
    /\ cell_query (F := F) (rotated c d) k = cell_query c (d + k).
  Proof.
    intros c d k origin input ri. unfold cell_assign, region_offset, cell_query, rotated. cbn [sc_off sc_col]. rewrite Z.add_assoc.
    split; [|split; [|split; [|split]]].
    - intros r <-. replace (0 <=? Z.of_nat r)%Z with true by (symmetry; apply Z.leb_le; lia). now rewrite Nat2Z.id.
    - intros H. now replace (0 <=? Z.of_nat origin + sc_off c + d)%Z with false by (symmetry; apply Z.leb_gt; lia).
    - intros r <-. replace (0 <=? Z.of_nat r)%Z with true by (symmetry; apply Z.leb_le; lia). now rewrite Nat2Z.id.
    - intros H. now replace (0 <=? sc_off c + d)%Z with false by (symmetry; apply Z.leb_gt; lia).
    - now rewrite Z.add_assoc.
  Qed.
End Claims.
