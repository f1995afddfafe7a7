(** Concrete circuits that meet the hypotheses of the theorems about the Pow5 chip: a width-2 chip with an odd number
    of partial rounds over the field of 19 elements, sharing its columns with the caller; and BN254. *)
From Coq Require Import ZArith List Arith Lia Bool.
From Verif Require Import Field ZpField Primes Rust ListAux BigSum Perm_proof Primitives Specs Bn256 Const_proof Link Base_claims
  Halo2 Septidon PermuteChip ChipUse Layout_proof Contract Stack_proof Sept_claims ExamplesSept Pow5 Pow5Rows_proof Built Pow5Use Trace_proof Pow5_claims
  ExamplesBase.
Import ListNotations.
Local Open Scope nat_scope.

Definition F19 : Type := Fp 19.
#[global] Instance F19_field : PrimeField F19 := FpField_of_prime 19 prime_19.
Definition g (z : Z) : F19 := of_Z z.

Definition toy : spec F19 := {|
  full_rounds := 2; partial_rounds := 3; sbox := sbox_pow;
  round_constants := [[g 3; g 1]; [g 4; g 1]; [g 5; g 9]; [g 2; g 6]; [g 5; g 3]];
  mds := [[g 1; g 2]; [g 3; g 5]]; mds_inv := [[g 14; g 2]; [g 3; g 18]] |}.

Definition toy_host : cs F19 := cs_empty.
Definition toy_conf : pow5 * cs F19 := pow5_configure 2 1 toy [0; 1] 2 [0; 1] [2; 3] toy_host.
Notation toy_cfg := (fst toy_conf).
Notation toy_cs := (snd toy_conf).
Definition toy_word (o : nat) (v : F19) : acell F19 :=
  {| ac_cell := {| ce_region := 0; ce_off := o; ce_col := Adv 0 |}; ac_val := Some v |}.
Definition toy_start : Layouter F19 (list (acell F19)) :=
  assign_region (rmap (fun '(o, v) => assign_advice 0 o (Some v)) [(0, g 7); (1, g 11)]).
Definition layout_of {A} (r : result (layout F19 * A)) : layout F19 :=
  match r with Ok (L, _) => L | Panic => layout_empty toy_cs end.
Definition value_of {A} (d : A) (r : result (layout F19 * A)) : A := match r with Ok (_, x) => x | Panic => d end.
Definition toy_ws : list (acell F19) := [toy_word 0 (g 7); toy_word 1 (g 11)].
Definition toy_L0 : layout F19 := layout_of (toy_start (layout_empty toy_cs)).
Definition toy_call : result (layout F19 * list (acell F19)) := p5_permute toy toy_cfg toy_ws toy_L0.
Definition toy_L1 : layout F19 := layout_of toy_call.
Definition toy_out : list (acell F19) := value_of [] toy_call.
Definition toy_call2 : result (layout F19 * list (acell F19)) := p5_permute toy toy_cfg toy_out toy_L1.
Definition toy_L : layout F19 := layout_of toy_call2.

Lemma toy_spec_ok : poseidon_spec 2 toy.
Proof.
  split. { intros x. apply sbox_pow_power5. }
  split; [split; [reflexivity|repeat constructor]|]. split; [repeat constructor|]. cbn. lia.
Qed.
Lemma toy_inv : mat_prod_id 2 (mds toy) (mds_inv toy) /\ mat_prod_id 2 (mds_inv toy) (mds toy).
Proof.
  split; intros i k Hi Hk; (destruct i as [|[|i]]; [| |lia]); (destruct k as [|[|k]]; [| |lia]);
    apply feqb_eq; vm_compute; reflexivity.
Qed.
Lemma toy_columns : columns_ok 2 [0; 1] 2 [0; 1] [2; 3].
Proof. repeat split; try reflexivity; repeat (constructor; [cbn; lia|]); constructor. Qed.

Lemma toy_start_ok : toy_start (layout_empty toy_cs) = Ok (toy_L0, toy_ws).
Proof. reflexivity. Qed.

Lemma toy_call_ok : toy_call = Ok (toy_L1, toy_out) /\ toy_call2 = Ok (toy_L, value_of [] toy_call2).
Proof.
  destruct toy_inv as [I1 I2].
  assert (X : forall ws L, length ws = 2 -> exists L' out, p5_permute toy toy_cfg ws L = Ok (L', out) /\ length out = 2).
  { intros ws L H. unfold p5_permute. eexists. eexists. split.
    - apply assign_region_ok.
      + apply (Pow5Block_proof.permute_region_ok 2 1 toy toy_spec_ok ltac:(lia) eq_refl toy_cfg eq_refl eq_refl eq_refl); try assumption;
          repeat (constructor; [cbn; lia|]); constructor.
      + apply (Pow5Block_proof.const_permute 2 1 toy toy_spec_ok ltac:(lia) eq_refl toy_cfg eq_refl eq_refl eq_refl);
          repeat (constructor; [cbn; lia|]); constructor.
    - reflexivity. }
  destruct (X toy_ws toy_L0 eq_refl) as (L1 & out & E & Hl).
  assert (E1 : toy_call = Ok (toy_L1, toy_out)) by (unfold toy_L1, toy_out; unfold toy_call; rewrite E; reflexivity).
  split; [exact E1|]. assert (E2 : toy_out = out) by (unfold toy_out, toy_call; rewrite E; reflexivity).
  destruct (X toy_out toy_L1 ltac:(now rewrite E2)) as (L2 & out2 & E3 & _).
  unfold toy_L, toy_call2. rewrite E3. reflexivity.
Qed.

Definition rows_below (u : nat) (L : layout F19) : bool :=
  forallb (fun '(_, r, _) => r <? u) (lo_adv L) && forallb (fun '(_, r, _) => r <? u) (lo_fix L)
  && forallb (fun '(_, r) => r <? u) (lo_sel L) && forallb (fun '(_, vals) => length vals <=? u) (lo_tables L).
Lemma rows_below_fits : forall u L, rows_below u L = true -> fits u L.
Proof.
  intros u L H. unfold rows_below in H. rewrite !andb_true_iff, !forallb_forall in H. destruct H as [[[H1 H2] H3] H4].
  split; [|split; [|split]].
  - intros c r v X. apply H1 in X. now apply Nat.ltb_lt.
  - intros c r v X. apply H2 in X. now apply Nat.ltb_lt.
  - intros s r X. apply H3 in X. now apply Nat.ltb_lt.
  - intros c v X. apply H4 in X. now apply Nat.leb_le.
Qed.

Lemma ex_toy : poseidon_spec 2 toy /\ mat_prod_id 2 (mds toy) (mds_inv toy) /\ mat_prod_id 2 (mds_inv toy) (mds toy)
  /\ columns_ok 2 [0; 1] 2 [0; 1] [2; 3] /\ pow5_configure 2 1 toy [0; 1] 2 [0; 1] [2; 3] toy_host = (toy_cfg, toy_cs)
  /\ grows (layout_empty toy_cs) toy_L0 /\ words_in toy_L0 toy_ws /\ length toy_ws = 2
  /\ p5_permute toy toy_cfg toy_ws toy_L0 = Ok (toy_L1, toy_out) /\ grows toy_L1 toy_L /\ fits 14 toy_L
  /\ made (p5_selectors toy_cfg) (p5_instruction 2 1 toy toy_cfg) toy_L0 []
  /\ made (p5_selectors toy_cfg) (p5_instruction 2 1 toy toy_cfg) toy_L []
  /\ Forall2 (carries toy_L0) toy_ws [g 7; g 11]
  /\ forall blind, gates_hold 14 toy_L (honest 14 toy_L blind) (cs_gates toy_cs) /\ copies_hold toy_L (honest 14 toy_L blind).
Proof.
  destruct toy_inv as [I1 I2]. destruct toy_call_ok as [E1 E2].
  assert (G0 : grows (layout_empty toy_cs) toy_L0) by (eapply grows_one; exact toy_start_ok).
  assert (Fi : fits 14 toy_L) by (apply rows_below_fits; vm_compute; reflexivity).
  assert (M0 : made (p5_selectors toy_cfg) (p5_instruction 2 1 toy toy_cfg) toy_L0 []).
  { change (@nil ((column * nat) * (column * nat))) with (@nil ((column * nat) * (column * nat)) ++ []).
    eapply made_region; [apply made_start| |exact toy_start_ok|reflexivity].
    intros ri evs x q o H X. cbn in H. injection H as <- _. cbn in X. decompose [or] X; easy. }
  assert (C0 : Forall2 (carries toy_L0) toy_ws [g 7; g 11]).
  { constructor; [|constructor; [|constructor]]; (split; [cbn; lia|split; reflexivity]). }
  assert (M1 : made (p5_selectors toy_cfg) (p5_instruction 2 1 toy toy_cfg) toy_L1 []).
  { eapply made_op; [exact M0|]. eapply do_permute; [|exact C0|exact E1]. reflexivity. }
  destruct (pow5_complete_claim 2 toy [0; 1] 2 [0; 1] [2; 3] toy_host toy_cs toy_cfg toy_spec_ok ltac:(lia) I1 I2 toy_columns eq_refl)
    as (_ & H2 & H3).
  assert (G1 : grows toy_L1 toy_L) by (eapply grows_one; exact E2).
  destruct (H3 toy_L0 [] toy_L1 toy_L1 toy_ws [g 7; g 11] toy_out 14 (fun _ _ => g 0) M0 eq_refl C0 E1 (grows_refl _)
    ltac:(apply rows_below_fits; vm_compute; reflexivity)) as (C1 & _).
  assert (M2 : made (p5_selectors toy_cfg) (p5_instruction 2 1 toy toy_cfg) toy_L []).
  { eapply made_op; [exact M1|]. eapply do_permute; [|exact C1|exact E2]. unfold toy_out. rewrite E1. vm_compute. reflexivity. }
  do 14 (split; [first [assumption | exact toy_spec_ok | exact toy_columns | reflexivity | repeat constructor]|]).
  intros blind. destruct (H2 toy_L [] 14 14 blind M2 Fi (le_n _)) as [X Y]. split; [apply X; intros gt r []|apply Y; intros a b []].
Qed.

(** BN254, width 3, through the interface the hash circuit uses *)
Lemma bn256_mds_inverse : mat_prod_id 3 (pc_mds bn256_c) (pc_mds_inv bn256_c) /\ mat_prod_id 3 (pc_mds_inv bn256_c) (pc_mds bn256_c).
Proof. exact (proj2 bn256_inverse). Qed.
Lemma ex_bn_pow5 : mat_prod_id 3 (pc_mds bn256_c) (pc_mds_inv bn256_c) /\ mat_prod_id 3 (pc_mds_inv bn256_c) (pc_mds bn256_c)
  /\ let P := pow5_chip (p128_spec bn256_c) in
     let cfg := fst (pc_configure P (host (F := Fr))) in let cs1 := snd (pc_configure P host) in
     exists L ws out out2, let calls := [(ws, out); (out, out2)] in
       chip_used P cfg (added host cs1) L calls [] /\ 38 * length calls <= 79
       /\ forall blind, let adv := honest 79 L blind in
          known L adv calls /\ map (word_at L adv) ws = [fr 5; fr 7; fr 11]
          /\ gates_hold 79 L adv (cs_gates cs1) /\ copies_hold L adv.
Proof.
  destruct bn256_mds_inverse as [I1 I2]. split; [exact I1|]. split; [exact I2|].
  assert (E : S (p5_R (p128_spec bn256_c)) = 38) by reflexivity.
  pose proof (pow5_poseidon bn256_c (p128_spec bn256_c) bn256_ok I1 I2 (or_introl eq_refl)) as PC. rewrite E in PC.
  destruct (two_calls _ _ 38 PC (fr 5) (fr 7) (fr 11)) as (L & out & out2 & H).
  exists L. eexists. exists out, out2. exact H.
Qed.
