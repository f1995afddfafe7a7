(** Concrete case for C58: the width-2 chip of ExamplesPow5.v configured with a spec whose S-box is x^7, which is a
    bijection of the field with 19 elements. *)
From Coq Require Import ZArith List Arith Lia Bool.
From Verif Require Import Field ZpField Primes Rust ListAux BigSum Primitives Specs SpecHash SboxSpec Link Halo2 ChipUse Pow5 Built Pow5Use
  Pow5_claims SboxSpec_claims ExamplesPow5 ExamplesBase.
Import ListNotations.
Local Open Scope nat_scope.

Definition seventh (x : F19) : F19 := fmul (power5 x) (fmul x x).
Definition toy7 : spec F19 := {|
  full_rounds := full_rounds toy; partial_rounds := partial_rounds toy; sbox := seventh; round_constants := round_constants toy;
  mds := mds toy; mds_inv := mds_inv toy |}.

Lemma seventh_inj : forall x y, seventh x = seventh y -> x = y.
Proof.
  assert (X : forall x : F19, In x (map (fun n => g (Z.of_nat n)) (seq 0 19))).
  { intros x. apply in_map_iff. exists (Z.to_nat (fval x)).
    assert (B : (0 <= fval x < 19)%Z) by (rewrite <- (fval_mod 19 x); apply Z.mod_pos_bound; lia).
    split; [|apply in_seq; lia]. rewrite Z2Nat.id by lia. apply fp_ext. exact (fval_mod 19 x). }
  assert (Y : forallb (fun x => forallb (fun y => implb (feqb (seventh x) (seventh y)) (feqb x y))
                (map (fun n => g (Z.of_nat n)) (seq 0 19))) (map (fun n => g (Z.of_nat n)) (seq 0 19)) = true)
    by (vm_compute; reflexivity).
  intros x y H. rewrite forallb_forall in Y. specialize (Y x (X x)). rewrite forallb_forall in Y. specialize (Y y (X y)).
  apply feqb_eq in H. rewrite H in Y. now apply feqb_eq.
Qed.

Lemma ex_toy7 : tables_ok 2 toy7 /\ mat_prod_id 2 (mds toy7) (mds_inv toy7) /\ mat_prod_id 2 (mds_inv toy7) (mds toy7)
  /\ columns_ok 2 [0; 1] 2 [0; 1] [2; 3] /\ pow5_configure 2 1 toy7 [0; 1] 2 [0; 1] [2; 3] toy_host = (toy_cfg, toy_cs)
  /\ grows (layout_empty toy_cs) toy_L0 /\ words_in toy_L0 toy_ws /\ length toy_ws = 2
  /\ p5_permute toy7 toy_cfg toy_ws toy_L0 = Ok (toy_L1, toy_out) /\ grows toy_L1 toy_L /\ fits 14 toy_L
  /\ forall blind, gates_hold 14 toy_L (honest 14 toy_L blind) (cs_gates toy_cs) /\ copies_hold toy_L (honest 14 toy_L blind).
Proof.
  destruct ex_toy as ((S1 & S2) & I1 & I2 & CO & CF & G0 & W & HL & E & G1 & Fi & _ & _ & C & HO).
  repeat (split; [first [exact S2|exact I1|exact I2|exact CO|exact CF|exact G0|exact W|exact HL|exact E|exact G1|exact Fi]|]).
  exact HO.
Qed.

Lemma ex_sbox_ignored : (forall x y, seventh x = seventh y -> x = y) /\ tables_ok 2 toy7
  /\ pow5_configure 2 1 toy7 [0; 1] 2 [0; 1] [2; 3] toy_host = (toy_cfg, toy_cs)
  /\ exists L0 ws L1 out L, grows (layout_empty toy_cs) L0 /\ words_in L0 ws /\ length ws = 2
     /\ p5_permute toy7 toy_cfg ws L0 = Ok (L1, out) /\ grows L1 L /\ fits 14 L
     /\ forall blind, let adv := honest 14 L blind in
        gates_hold 14 L adv (cs_gates toy_cs) /\ copies_hold L adv
        /\ map (word_at L adv) out <> hash_permute 2 toy7 (map (word_at L adv) ws).
Proof.
  destruct ex_toy7 as (S & I1 & I2 & CO & CF & G0 & W & HL & E & G1 & Fi & HO).
  split; [exact seventh_inj|]. split; [exact S|]. split; [exact CF|].
  exists toy_L0, toy_ws, toy_L1, toy_out, toy_L.
  repeat (split; [first [exact G0|exact W|exact HL|exact E|exact G1|exact Fi]|]).
  intros blind adv. destruct (HO blind) as [Ga Co]. split; [exact Ga|]. split; [exact Co|].
  destruct ex_toy as (_ & _ & _ & _ & _ & _ & _ & _ & E' & _ & _ & M & _ & C & _).
  destruct (pow5_complete_claim 2 toy [0; 1] 2 [0; 1] [2; 3] toy_host toy_cs toy_cfg toy_spec_ok ltac:(lia) I1 I2 CO eq_refl)
    as (_ & _ & H3).
  destruct (H3 toy_L0 [] toy_L1 toy_L toy_ws [g 7; g 11] toy_out 14 blind M HL C E' G1 Fi) as (_ & X & Y).
  fold adv in X, Y. rewrite X, Y. clear. intros Z. apply (f_equal (fun l => nth 0 l fzero)) in Z. revert Z.
  apply feqb_neq. vm_compute. reflexivity.
Qed.
