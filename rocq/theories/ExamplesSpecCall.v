(** Concrete cases for C57: the width-2 chip of ExamplesPow5.v, configured with a spec of 3 partial rounds, called with
    others. *)
From Coq Require Import ZArith List Arith Lia Bool.
From Verif Require Import Field ZpField Primes Rust ListAux BigSum Primitives Specs SpecHash Link Halo2 PermuteChip ChipUse Layout_proof Perm_proof Base_claims Pow5 Built Pow5Use
  Pow5_claims Rounds_claims SpecCall_claims ExamplesPow5 ExamplesBase.
Import ListNotations.
Local Open Scope nat_scope.

(** the same number of rounds, other constants *)
Definition toy_other : spec F19 := {|
  full_rounds := 2; partial_rounds := 3; sbox := sbox_pow;
  round_constants := [[g 2; g 7]; [g 1; g 8]; [g 2; g 8]; [g 1; g 8]; [g 2; g 8]];
  mds := [[g 1; g 2]; [g 3; g 5]]; mds_inv := [[g 14; g 2]; [g 3; g 18]] |}.
(** one partial round *)
Definition toy_less : spec F19 := {|
  full_rounds := 2; partial_rounds := 1; sbox := sbox_pow;
  round_constants := [[g 3; g 1]; [g 4; g 1]; [g 5; g 9]];
  mds := [[g 1; g 2]; [g 3; g 5]]; mds_inv := [[g 14; g 2]; [g 3; g 18]] |}.
Lemma toy_other_ok : poseidon_spec 2 toy_other.
Proof.
  split. { intros x. apply sbox_pow_power5. }
  split; [split; [reflexivity|repeat constructor]|]. split; [repeat constructor|]. cbn. lia.
Qed.
Lemma toy_less_ok : poseidon_spec 2 toy_less.
Proof.
  split. { intros x. apply sbox_pow_power5. }
  split; [split; [reflexivity|repeat constructor]|]. split; [repeat constructor|]. cbn. lia.
Qed.

(** a decision procedure for small circuits *)
Definition accepts (n : nat) (L : layout F19) (adv : nat -> nat -> F19) (gs : list (expr F19)) : bool :=
  forallb (fun p => forallb (fun r => feqb (eval n (fixed_at L) (selector_at L) adv r p) fzero) (seq 0 n)) gs
  && forallb (fun '(a, b) => feqb (cell_at L adv a) (cell_at L adv b)) (lo_copy L).
Lemma accepts_ok : forall n L adv gs, accepts n L adv gs = true -> gates_hold n L adv gs /\ copies_hold L adv.
Proof.
  intros n L adv gs H. unfold accepts in H. apply andb_true_iff in H. destruct H as [H1 H2].
  rewrite forallb_forall in H1, H2. split.
  - intros p r Hp Hr. apply feqb_eq. specialize (H1 p Hp). rewrite forallb_forall in H1. apply H1, in_seq. lia.
  - intros a b H. apply feqb_eq. exact (H2 _ H).
Qed.

Lemma ex_other_spec : let rp := partial_rounds toy_other in
  poseidon_spec 2 toy /\ poseidon_spec 2 toy_other /\ pow5_configure 2 1 toy [0; 1] 2 [0; 1] [2; 3] toy_host = (toy_cfg, toy_cs)
  /\ exists L0 ws L1 out L adv, grows (layout_empty toy_cs) L0 /\ words_in L0 ws /\ length ws = 2
     /\ p5_permute_as toy toy_cfg rp ws L0 = Ok (L1, out) /\ grows L1 L /\ fits 14 L
     /\ gates_hold 14 L adv (cs_gates toy_cs) /\ copies_hold L adv
     /\ map (word_at L adv) out <> textbook toy_other (map (word_at L adv) ws).
Proof.
  intros rp. split; [exact toy_spec_ok|]. split; [exact toy_other_ok|]. split; [reflexivity|].
  destruct ex_toy as (S & I1 & I2 & CO & CF & G0 & W & HL & E & G1 & Fi & _ & _ & C & HO).
  destruct (HO (fun _ _ => g 0)) as [Ga Co].
  exists toy_L0, toy_ws, toy_L1, toy_out, toy_L, (honest 14 toy_L (fun _ _ => g 0)).
  repeat (split; [first [exact G0|exact W|exact HL|exact E|exact G1|exact Fi|exact Ga|exact Co]|]).
  rewrite (pow5_sound_claim 2 toy [0; 1] 2 [0; 1] [2; 3] toy_host toy_cs toy_cfg toy_cs toy_L0 toy_L1 toy_L toy_ws toy_out 14
    (honest 14 toy_L (fun _ _ => g 0)) S ltac:(lia) I1 I2 CO CF G0 W HL E G1 Fi Ga Co).
  assert (Y : map (word_at toy_L (honest 14 toy_L (fun _ _ => g 0))) toy_ws = [g 7; g 11]).
  { assert (X : forallb (fun '(w, x) => feqb (word_at toy_L (honest 14 toy_L (fun _ _ => g 0)) w) x) (combine toy_ws [g 7; g 11]) = true)
      by (vm_compute; reflexivity).
    cbn [combine toy_ws forallb] in X. rewrite !andb_true_iff in X. destruct X as (X1 & X2 & _).
    apply feqb_eq in X1, X2. cbn [map toy_ws]. now rewrite X1, X2. }
  rewrite Y. intros Z. apply (f_equal (fun l => nth 0 l fzero)) in Z. revert Z.
  apply feqb_neq. vm_compute. reflexivity.
Qed.

(** a call with one partial round leaves a row of the state unassigned *)
Definition gap_call : result (layout F19 * list (acell F19)) := p5_permute_as toy toy_cfg (partial_rounds toy_less) toy_ws toy_L0.
Definition gap_L : layout F19 := layout_of gap_call.
Definition gap_out : list (acell F19) := value_of [] gap_call.
Definition gap_adv (x : list F19) (c r : nat) : F19 :=
  if r =? 5 then nth c x fzero
  else if r =? 6 then nth c (spec_full (mds toy) x (nth 4 (round_constants toy) [])) fzero
  else honest 14 gap_L (fun _ _ => g 0) c r.
Lemma ex_gap : let rp := partial_rounds toy_less in
  poseidon_spec 2 toy /\ poseidon_spec 2 toy_less /\ pow5_configure 2 1 toy [0; 1] 2 [0; 1] [2; 3] toy_host = (toy_cfg, toy_cs)
  /\ exists L0 ws L out adv adv', grows (layout_empty toy_cs) L0 /\ words_in L0 ws /\ length ws = 2
     /\ p5_permute_as toy toy_cfg rp ws L0 = Ok (L, out) /\ fits 14 L
     /\ gates_hold 14 L adv (cs_gates toy_cs) /\ copies_hold L adv
     /\ gates_hold 14 L adv' (cs_gates toy_cs) /\ copies_hold L adv'
     /\ map (word_at L adv) ws = map (word_at L adv') ws /\ map (word_at L adv) out <> map (word_at L adv') out.
Proof.
  intros rp. split; [exact toy_spec_ok|]. split; [exact toy_less_ok|]. split; [reflexivity|].
  destruct ex_toy as (_ & _ & _ & _ & _ & G0 & W & HL & _).
  assert (E : gap_call = Ok (gap_L, gap_out)).
  { assert (X : match gap_call with Ok _ => true | Panic => false end = true) by (vm_compute; reflexivity).
    unfold gap_L, gap_out. destruct gap_call as [[L out]|]; [reflexivity|discriminate X]. }
  destruct (accepts_ok 14 gap_L (gap_adv [g 1; g 2]) (cs_gates toy_cs) ltac:(vm_compute; reflexivity)) as [A1 A2].
  destruct (accepts_ok 14 gap_L (gap_adv [g 1; g 3]) (cs_gates toy_cs) ltac:(vm_compute; reflexivity)) as [B1 B2].
  exists toy_L0, toy_ws, gap_L, gap_out, (gap_adv [g 1; g 2]), (gap_adv [g 1; g 3]).
  split; [exact G0|]. split; [exact W|]. split; [exact HL|]. split; [exact E|].
  split; [apply rows_below_fits; vm_compute; reflexivity|].
  split; [exact A1|]. split; [exact A2|]. split; [exact B1|]. split; [exact B2|]. split.
  - assert (X : forall w, In w toy_ws -> word_at gap_L (gap_adv [g 1; g 2]) w = word_at gap_L (gap_adv [g 1; g 3]) w).
    { intros w H. apply feqb_eq. revert w H. apply forallb_forall. vm_compute. reflexivity. }
    apply map_ext_in. exact X.
  - intros Z. apply (f_equal (fun l => nth 0 l fzero)) in Z. revert Z. apply feqb_neq. vm_compute. reflexivity.
Qed.

(** two partial rounds are accepted and computed; four are not: the table has no constants for them *)
Lemma ex_even_call : let h := partial_rounds toy / 2 in
  (2 * h < 2 <-> 2 mod 2 = 1) /\ 1 + (2 * h + 2 mod 2) + 1 <= length (round_constants toy)
  /\ exists L1 out, p5_permute_as toy toy_cfg 2 toy_ws toy_L0 = Ok (L1, out).
Proof.
  split; [cbn; lia|]. split; [cbn; lia|].
  assert (X : match p5_permute_as toy toy_cfg 2 toy_ws toy_L0 with Ok _ => true | Panic => false end = true) by (vm_compute; reflexivity).
  destruct (p5_permute_as toy toy_cfg 2 toy_ws toy_L0) as [[L out]|]; [eauto|discriminate X].
Qed.
