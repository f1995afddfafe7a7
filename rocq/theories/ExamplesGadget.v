(** Concrete circuits that meet the hypotheses of the theorems about the in-circuit sponge: a width-3 chip over the
    field of 19 elements hashing three words (so with padding), with the caller laying out the message between
    [Hash::init] and [hash]. *)
From Coq Require Import ZArith List Arith Lia Bool.
From Verif Require Import Field ZpField Primes Rust ListAux BigSum Perm_proof SpecHash Primitives Specs Link
  Halo2 ChipUse Pow5 Built Pow5Use Gadget GadgetUse WitnessUse Trace_proof Pow5_claims Gadget_claims ExamplesPow5.
Import ListNotations.
Local Open Scope nat_scope.

Definition tri : spec F19 := {|
  full_rounds := 2; partial_rounds := 2; sbox := sbox_pow;
  round_constants := [[g 3; g 1; g 4]; [g 1; g 5; g 9]; [g 2; g 6; g 5]; [g 3; g 5; g 8]];
  mds := [[g 1; g 2; g 3]; [g 4; g 5; g 7]; [g 2; g 9; g 1]];
  mds_inv := [[g 9; g 3; g 9]; [g 5; g 7; g 12]; [g 13; g 7; g 8]] |}.
Definition tri_host : cs F19 := enable_constant 6 cs_empty.
Definition tri_conf : pow5 * cs F19 := pow5_configure 3 2 tri [0; 1; 2] 3 [0; 1; 2] [3; 4; 5] tri_host.
Notation tri_cfg := (fst tri_conf).
Notation tri_cs := (snd tri_conf).
Notation tri_circuit := (made (p5_selectors tri_cfg) (p5_instruction 3 2 tri tri_cfg)).

Lemma tri_spec_ok : poseidon_spec 3 tri.
Proof.
  split. { intros x. apply sbox_pow_power5. }
  split; [split; [reflexivity|repeat constructor]|]. split; [repeat constructor|]. cbn. lia.
Qed.
Lemma tri_inv : mat_prod_id 3 (mds tri) (mds_inv tri) /\ mat_prod_id 3 (mds_inv tri) (mds tri).
Proof.
  split; intros i k Hi Hk; (destruct i as [|[|[|i]]]; [| | |lia]); (destruct k as [|[|[|k]]]; [| | |lia]);
    apply feqb_eq; vm_compute; reflexivity.
Qed.
Lemma tri_columns : columns_ok 3 [0; 1; 2] 3 [0; 1; 2] [3; 4; 5].
Proof. repeat split; try reflexivity; repeat (constructor; [cbn; lia|]); constructor. Qed.

(** the caller's region: three words in advice column 0 *)
Definition tri_message : Layouter F19 (list (acell F19)) :=
  assign_region (rmap (fun '(o, v) => assign_advice 0 o (Some v)) [(0, g 7); (1, g 11); (2, g 5)]).
Definition tri_word (ri o : nat) (v : F19) : acell F19 :=
  {| ac_cell := {| ce_region := ri; ce_off := o; ce_col := Adv 0 |}; ac_val := Some v |}.
Definition tri_msg (ri : nat) : list (acell F19) := [tri_word ri 0 (g 7); tri_word ri 1 (g 11); tri_word ri 2 (g 5)].
Definition tri_digest : F19 := sponge_hash (textbook tri) 3 2 0 2 (of_Z (3 * 2 ^ 64)) [g 7; g 11; g 5].

Lemma tri_message_quiet : quiet (p5_selectors tri_cfg)
  (rmap (fun '(o, v) => assign_advice 0 o (Some v)) [(0, g 7); (1, g 11); (2, g 5)]).
Proof. intros ri evs x q o H X. cbn in H. injection H as <- _. cbn in X. decompose [or] X; easy. Qed.

Definition no_copy : list ((column * nat) * (column * nat)) := [].

Lemma ex_circuit_hash_written : poseidon_spec 3 tri /\ mat_prod_id 3 (mds tri) (mds_inv tri) /\ mat_prod_id 3 (mds_inv tri) (mds tri)
  /\ columns_ok 3 [0; 1; 2] 3 [0; 1; 2] [3; 4; 5] /\ pow5_configure 3 2 tri [0; 1; 2] 3 [0; 1; 2] [3; 4; 5] tri_host = (tri_cfg, tri_cs)
  /\ tri_circuit (layout_empty tri_cs) no_copy /\ lo_const (layout_empty tri_cs) <> None
  /\ exists L1 L2 L3 h msg out, grows (layout_empty tri_cs) (layout_empty tri_cs)
     /\ circuit_hash_init 2 tri_cfg 3 (layout_empty tri_cs) = Ok (L1, h) /\ grows L1 L2 /\ tri_circuit L2 no_copy
     /\ words_in L2 msg /\ length msg = 3 /\ Forall2 (carries L2) msg [g 7; g 11; g 5]
     /\ circuit_hash 3 2 tri tri_cfg 3 h msg L2 = Ok (L3, out) /\ fits 20 L3
     /\ (exists r, written L2 L3 3 r)
     /\ forall blind, let adv := honest 20 L3 blind in
        gates_hold 23 L3 adv (cs_gates tri_cs) /\ copies_hold L3 adv
        /\ map (word_at L3 adv) msg = [g 7; g 11; g 5] /\ word_at L3 adv out = tri_digest.
Proof.
  destruct tri_inv as [I1 I2]. do 5 (split; [first [assumption|exact tri_spec_ok|exact tri_columns|reflexivity]|]).
  split; [apply made_start|]. split; [discriminate|].
  destruct (circuit_hash_complete_claim 3 tri [0; 1; 2] 3 [0; 1; 2] [3; 4; 5] tri_host tri_cs tri_cfg 3 (layout_empty tri_cs) no_copy
    tri_spec_ok ltac:(lia) I1 I2 tri_columns eq_refl (made_start _ _ _) ltac:(discriminate)) as (L1 & h & E1 & M1 & G1 & K).
  assert (V1 : circuit_hash_init 2 tri_cfg 3 (layout_empty tri_cs) = Ok (L1, h)) by exact E1.
  vm_compute in E1. injection E1 as EL Eh.
  destruct (tri_message L1) as [[L2 msg]|] eqn:E2; [|rewrite <- EL in E2; vm_compute in E2; discriminate E2].
  assert (W2 : L2 = layout_of (tri_message L1) /\ msg = value_of [] (tri_message L1)) by (rewrite E2; auto).
  destruct W2 as [W2 Wm]. rewrite <- EL in W2, Wm. vm_compute in W2, Wm.
  assert (G2 : grows L1 L2) by (eapply grows_one; exact E2).
  assert (M2 : tri_circuit L2 no_copy).
  { change no_copy with (no_copy ++ []). eapply made_region; [exact M1|exact tri_message_quiet|exact E2|].
    rewrite W2, <- EL. reflexivity. }
  assert (C2 : Forall2 (carries L2) msg [g 7; g 11; g 5]).
  { rewrite W2, Wm. constructor; [|constructor; [|constructor; [|constructor]]]; (split; [cbn; lia|split; reflexivity]). }
  destruct (K L2 no_copy msg _ G2 M2 ltac:(now rewrite Wm) C2) as [_ K2]. destruct (K2 ltac:(lia)) as (L3 & out & E3 & M3 & G3 & C3 & K3).
  clear K K2. assert (F3 : fits 20 L3).
  { assert (W3 : L3 = layout_of (circuit_hash 3 2 tri tri_cfg 3 h msg L2)) by (cbn [Nat.sub] in E3; rewrite E3; reflexivity).
    rewrite <- Eh, W2, Wm in W3. rewrite W3. apply rows_below_fits. vm_compute. reflexivity. }
  assert (Z3 : exists r, written L2 L3 3 r).
  { assert (W3 : L3 = layout_of (circuit_hash 3 2 tri tri_cfg 3 h msg L2)) by (cbn [Nat.sub] in E3; rewrite E3; reflexivity).
    assert (Q : existsb (fun x => fst (fst x) =? 3) (skipn (length (lo_adv L2)) (lo_adv L3)) = true)
      by (rewrite W3, <- Eh, W2, Wm; vm_compute; reflexivity).
    apply existsb_exists in Q. destruct Q as ([[c r] v] & Q & E). apply Nat.eqb_eq in E. cbn in E. subst c. now exists r, v. }
  exists L1, L2, L3, h, msg, out. split; [apply grows_refl|]. split; [exact V1|]. split; [exact G2|]. split; [exact M2|].
  split. { clear - C2. induction C2 as [|w v l y H]; constructor; [apply H|assumption]. }
  split; [now rewrite Wm|]. split; [exact C2|]. split; [exact E3|]. split; [exact F3|]. split; [exact Z3|].
  intros blind adv. apply (K3 L3 no_copy 20 23 blind (grows_refl _) M3 F3 ltac:(lia)); [intros a b []|intros gt r []].
Qed.

Lemma ex_circuit_hash : poseidon_spec 3 tri /\ mat_prod_id 3 (mds tri) (mds_inv tri) /\ mat_prod_id 3 (mds_inv tri) (mds tri)
  /\ columns_ok 3 [0; 1; 2] 3 [0; 1; 2] [3; 4; 5] /\ pow5_configure 3 2 tri [0; 1; 2] 3 [0; 1; 2] [3; 4; 5] tri_host = (tri_cfg, tri_cs)
  /\ tri_circuit (layout_empty tri_cs) no_copy /\ lo_const (layout_empty tri_cs) <> None
  /\ exists L1 L2 L3 h msg out, grows (layout_empty tri_cs) (layout_empty tri_cs)
     /\ circuit_hash_init 2 tri_cfg 3 (layout_empty tri_cs) = Ok (L1, h) /\ grows L1 L2 /\ tri_circuit L2 no_copy
     /\ words_in L2 msg /\ length msg = 3 /\ Forall2 (carries L2) msg [g 7; g 11; g 5]
     /\ circuit_hash 3 2 tri tri_cfg 3 h msg L2 = Ok (L3, out) /\ fits 20 L3
     /\ forall blind, let adv := honest 20 L3 blind in
        gates_hold 23 L3 adv (cs_gates tri_cs) /\ copies_hold L3 adv
        /\ map (word_at L3 adv) msg = [g 7; g 11; g 5] /\ word_at L3 adv out = tri_digest.
Proof.
  destruct ex_circuit_hash_written as (A & B & C & D & E & G & K & L1 & L2 & L3 & h & msg & out & X1 & X2 & X3 & X4 & X5 & X6 & X7 & X8 & X9 & _ & X10).
  do 7 (split; [assumption|]). exists L1, L2, L3, h, msg, out. do 9 (split; [assumption|]). exact X10.
Qed.

(** two blocks of input with a constant word, five words of output *)
Lemma ex_circuit_sponge : exists L1 L2 msg out, tri_message (layout_empty tri_cs) = Ok (L1, msg)
  /\ tri_circuit L1 no_copy /\ lo_const L1 <> None
  /\ let input := map Message msg ++ [Padding (g 1)] in
     padded_in L1 input /\ Forall2 (padded_carries L1) input [g 7; g 11; g 5; g 1]
     /\ circuit_session 3 2 tri tri_cfg (g 9) input 5 L1 = Ok (L2, out) /\ fits 40 L2
     /\ forall blind, let adv := honest 40 L2 blind in
        gates_hold 43 L2 adv (cs_gates tri_cs) /\ copies_hold L2 adv
        /\ map (word_at L2 adv) out = sponge_stream (textbook tri) 3 2 0 2 (g 9) [g 7; g 11; g 5; g 1] 5.
Proof.
  destruct tri_inv as [I1 I2].
  destruct (tri_message (layout_empty tri_cs)) as [[L1 msg]|] eqn:E1; [|vm_compute in E1; discriminate E1].
  assert (V1 := E1). vm_compute in V1. injection V1 as VL Vm.
  assert (M1 : tri_circuit L1 no_copy).
  { change no_copy with (no_copy ++ []). eapply made_region; [apply made_start|exact tri_message_quiet|exact E1|]. rewrite <- VL. reflexivity. }
  assert (K1 : lo_const L1 <> None) by (rewrite <- VL; discriminate).
  set (input := map Message msg ++ [Padding (g 1)]).
  assert (C1 : Forall2 (padded_carries L1) input [g 7; g 11; g 5; g 1]).
  { unfold input. rewrite <- VL, <- Vm. cbn [map app]. repeat (constructor; [first [reflexivity|split; [cbn; lia|split; reflexivity]]|]). constructor. }
  assert (P1 : padded_in L1 input).
  { intros w Hw. clear - C1 Hw. induction C1 as [|a b l y H C IH]; [destruct Hw|].
    destruct Hw as [->|Hw]; [apply H|now apply IH]. }
  destruct (circuit_sponge_claim 3 tri [0; 1; 2] 3 [0; 1; 2] [3; 4; 5] tri_host tri_cs tri_cfg
    tri_spec_ok ltac:(lia) I1 I2 tri_columns eq_refl) as (S1 & S2 & _). cbn [Nat.sub] in S1, S2.
  specialize (S2 L1 no_copy (g 9) input _ 5 M1 K1 C1). rewrite (session_stream 3 tri) in S2 by (try exact tri_spec_ok; lia).
  cbn [length Nat.eqb orb] in S2. change (4 mod (3 - 1) =? 0) with true in S2. cbn [negb] in S2.
  destruct S2 as (L2 & out & E2 & M2 & G2 & C2). cbn [Nat.sub] in C2.
  assert (F2 : fits 40 L2).
  { assert (W : L2 = layout_of (circuit_session 3 2 tri tri_cfg (g 9) input 5 L1)) by (rewrite E2; reflexivity).
    rewrite W. unfold input. rewrite <- VL, <- Vm. apply rows_below_fits. vm_compute. reflexivity. }
  exists L1, L2, msg, out. split; [reflexivity|]. split; [exact M1|]. split; [exact K1|]. split; [exact P1|]. split; [exact C1|].
  split; [exact E2|]. split; [exact F2|]. intros blind adv.
  destruct (made_honest 3 tri [0; 1; 2] 3 [0; 1; 2] [3; 4; 5] tri_host tri_cs tri_cfg tri_spec_ok ltac:(lia) I1 I2 tri_columns eq_refl
    L2 no_copy 40 43 blind M2 F2 ltac:(lia)) as [X Y].
  split; [apply X; intros gt r []|]. split; [apply Y; intros a b []|].
  clear - C2 F2. induction C2 as [|w v l y X1 X IH]; [reflexivity|]. cbn [map]. rewrite IH. f_equal. now apply carries_word.
Qed.

(** C43: the chip ignores the position at which a domain puts the message *)
Lemma iden3_sponge_claim : exists (s : spec F19) (cfg : pow5) (cs0 cs1 : cs F19) L0 L1 ws out adv v,
  let d := constant_length_iden3 2 2 in
  poseidon_spec 3 s /\ mat_prod_id 3 (mds s) (mds_inv s) /\ mat_prod_id 3 (mds_inv s) (mds s)
  /\ pow5_configure 3 2 s [0; 1; 2] 3 [0; 1; 2] [3; 4; 5] cs0 = (cfg, cs1)
  /\ grows (layout_empty cs1) L0 /\ words_in L0 ws
  /\ circuit_session 3 2 s cfg (initial_capacity_element d) (map Message ws) 1 L0 = Ok (L1, [out])
  /\ fits 20 L1 /\ gates_hold 20 L1 adv (cs_gates cs1) /\ copies_hold L1 adv
  /\ session 3 2 s (initial_capacity_element d) (Primitives.layout d 3) (map (word_at L1 adv) ws) 1 = Ok [v]
  /\ word_at L1 adv out <> v.
Proof.
  destruct tri_inv as [I1 I2].
  pose (start := assign_region (rmap (fun '(o, v) => assign_advice 0 o (Some v)) [(0, g 7); (1, g 11)])).
  destruct (start (layout_empty tri_cs)) as [[L0 ws]|] eqn:E0; [|vm_compute in E0; discriminate E0].
  assert (V0 := E0). vm_compute in V0. injection V0 as VL Vw.
  assert (M0 : tri_circuit L0 no_copy).
  { change no_copy with (no_copy ++ []). eapply made_region; [apply made_start| |exact E0|rewrite <- VL; reflexivity].
    intros ri evs x q o H X. cbn in H. injection H as <- _. cbn in X. decompose [or] X; easy. }
  assert (K0 : lo_const L0 <> None) by (rewrite <- VL; discriminate).
  assert (C0 : Forall2 (carries L0) ws [g 7; g 11]).
  { rewrite <- VL, <- Vw. constructor; [|constructor; [|constructor]]; (split; [cbn; lia|split; reflexivity]). }
  assert (P0 : Forall2 (padded_carries L0) (map Message ws) [g 7; g 11]) by (clear - C0; induction C0; constructor; assumption).
  destruct (circuit_sponge_claim 3 tri [0; 1; 2] 3 [0; 1; 2] [3; 4; 5] tri_host tri_cs tri_cfg
    tri_spec_ok ltac:(lia) I1 I2 tri_columns eq_refl) as (_ & S2 & _). cbn [Nat.sub] in S2.
  specialize (S2 L0 no_copy (g 0) (map Message ws) _ 1 M0 K0 P0).
  destruct (session 3 2 tri (g 0) 0 [g 7; g 11] 1) as [ys|] eqn:ES; [|vm_compute in ES; discriminate ES].
  destruct S2 as (L1 & out & E1 & M1 & G1 & C1).
  destruct out as [|out [|o2 rest]]; [inversion C1; subst; vm_compute in ES; discriminate ES| |inversion C1 as [|? ? ? ? ? C2]; subst; inversion C2; subst; vm_compute in ES; discriminate ES].
  assert (F1 : fits 20 L1).
  { assert (W : L1 = layout_of (circuit_session 3 2 tri tri_cfg (g 0) (map Message ws) 1 L0)) by (rewrite E1; reflexivity).
    rewrite W, <- VL, <- Vw. apply rows_below_fits. vm_compute. reflexivity. }
  destruct (made_honest 3 tri [0; 1; 2] 3 [0; 1; 2] [3; 4; 5] tri_host tri_cs tri_cfg tri_spec_ok ltac:(lia) I1 I2 tri_columns eq_refl
    L1 no_copy 20 20 (fun _ _ => g 0) M1 F1 ltac:(lia)) as [X Y].
  exists tri, tri_cfg, tri_host, tri_cs, L0, L1, ws, out, (honest 20 L1 (fun _ _ => g 0)). eexists.
  split; [exact tri_spec_ok|]. split; [exact I1|]. split; [exact I2|]. split; [reflexivity|].
  split; [eapply grows_one; exact E0|].
  split. { clear - C0. induction C0 as [|w v l y H]; constructor; [apply H|assumption]. }
  split; [exact E1|]. split; [exact F1|]. split; [apply X; intros gt r []|]. split; [apply Y; intros a b []|].
  assert (WS : map (word_at L1 (honest 20 L1 (fun _ _ => g 0))) ws = [g 7; g 11]).
  { assert (CL : Forall2 (carries L1) ws [g 7; g 11])
      by (exact (carries_later 3 tri [0; 1; 2] 3 [0; 1; 2] [3; 4; 5] tri_host tri_cs tri_cfg tri_spec_ok ltac:(lia) I1 I2 tri_columns eq_refl L0 no_copy L1 _ _ M0 G1 C0)).
    clear - CL F1. induction CL as [|w v l y X1 X IH]; [reflexivity|]. cbn [map]. rewrite IH. f_equal. now apply carries_word. }
  split; [rewrite WS; vm_compute; reflexivity|].
  inversion C1 as [|a b c d' HC HN]; subst. inversion HN; subst.
  rewrite (carries_word L1 out b 20 (fun _ _ => g 0) F1 HC).
  vm_compute in ES. injection ES as <-. intros H. vm_compute in H. discriminate H.
Qed.
