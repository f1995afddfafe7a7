(** Model of the helpers of poseidon-circuit/src/poseidon/septidon/util.rs that the chip itself does not call; the others are in
    Septidon.v. *)
From Coq Require Import ZArith List Bool.
From Verif Require Import Field Halo2 Septidon.
Import ListNotations.

Section Model.
  Context {F : Type} {FO : FieldOps F}.

  (** [select::value] (util.rs:111-115) *)
  Definition select_value (selector when_true when_false : F) : F :=
    fadd (fmul selector when_true) (fmul (fsub fone selector) when_false).

  (** [or::expr] (util.rs:123-128) *)
  Definition or_expr (a b : expr F) : expr F :=
    let one := EConst (of_Z 1) in esub one (EProd (esub one a) (esub one b)).
  (** [or::value] (util.rs:130-135) *)
  Definition or_value (a b : F) : F := fsub fone (fmul (fsub fone a) (fsub fone b)).

  (** a boolean as a field element, for the statements *)
  Definition bit (b : bool) : F := if b then fone else fzero.
End Model.
