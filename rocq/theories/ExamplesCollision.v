(** Instances and witnesses for PropertiesCollision.v. *)
From Coq Require Import ZArith NArith List Arith Lia Bool.
From Verif Require Import Field Rust ListAux ZpField Primes Primitives Specs BaseHash Bn256 SpecHash BigSum Link Const_proof Base_claims BaseHash_proof
  Halo2 Layout_proof Septidon PermuteChip ChipUse Pow5 Contract SpongeTable TableUse LookupUse CollisionUse TableInv_proof TableLoad_proof
  Table_claims TableForge_claims ExamplesPow5 ExamplesTable ExamplesGadget ExamplesBase.
Import ListNotations.
Local Open Scope nat_scope.

(** ** C52 *)

Lemma bn_reaches : forall y : list Fr, length y = 3 -> exists x, length x = 3 /\ poseidon_permutation bn256_c x = y.
Proof.
  intros y Hy. destruct (cached_spec_exists false bn256_c bn256_ok) as [s Hs].
  destruct (proj2 (bn256_bijective_claim false s Hs) y Hy) as (x & Lx & Ex). exists x. split; [exact Lx|].
  rewrite <- Ex. symmetry. exact (proj1 (cached_agrees false bn256_c s bn256_ok Hs x Lx)).
Qed.

(** any words with any digest *)
Lemma forged_witness : forall short w0 w1 d len, (62 < len <= 124)%N -> exists (C : hash_circuit Fr) h adv,
  build bn256_c short (hc_spec C) (hc_chip C) h /\ hc_range C = 62 /\ hc_step C = 62 /\ hc_legacy C = false
  /\ accepted bn256_c C 5 adv
  /\ table_tuple C adv 1 = [d; fst w0; snd w0; length_code false len; fr 0; fr 1]
  /\ table_tuple C adv 4 = [d; fst w1; snd w1; length_code false (len - 62); fr 0; fr 0].
Proof.
  intros short w0 w1 d len Hl. destruct (bn_build short) as (s & P & h & B & _).
  destruct (steer (poseidon_permutation bn256_c) bn_reaches (length_code false len) w1 d) as (v & dv & Ed).
  set (t := forge_table (poseidon_permutation bn256_c) false 62 len w0 w1 v dv).
  destruct (demo_loads bn256_c short s P h false 62 62 Serial 5 t B I) as (L1 & E & SU & HO).
  { intros _. cbn. lia. }
  { intros i ck _ H. unfold row_check, t in H. cbn [forge_table ht_checks] in H. destruct i; discriminate H. }
  set (C := demo P s false 62 62) in *. set (u := demo_rows h 5 62) in *.
  destruct (forge_claim bn256_c C Serial (layout_empty demo_host) L1 L1 [] u u (fun _ _ => fzero) w0 w1 v dv len SU) as (adv & a & b & dom & SAT & T1 & _ & _ & T4 & _).
  - cbn [C demo hc_range hc_step]. lia.
  - cbn [C demo hc_range hc_step]. lia.
  - cbn [C demo hc_step hc_legacy]. eapply Z.lt_le_trans; [|exact ex_modulus].
    assert (Z.of_N (len + N.of_nat 62) <= 186)%Z by lia. assert (2 ^ 64 * 186 < 2 ^ 128)%Z by reflexivity. lia.
  - exact HO.
  - cbn [C demo hc_step hc_legacy] in T1, T4. rewrite Ed in T1, T4.
    exists C, h, adv. split; [exact B|]. split; [reflexivity|]. split; [reflexivity|]. split; [reflexivity|].
    split; [exists Serial, t, (layout_empty demo_host), L1, L1, [], u, u; split; [exact SU|exact SAT]|].
    split; [exact T1|exact T4].
Qed.

(** a digest that is not the hash *)
Definition forged_words : list (Fr * Fr) := [(fr 1, fr 2); (fr 3, fr 4)].
Definition forged_row (i : nat) : nat := if i =? 0 then 1 else 4.
Lemma forged_refutation : forall short, exists (C : hash_circuit Fr) h adv d,
  build bn256_c short (hc_spec C) (hc_chip C) h /\ accepted bn256_c C 5 adv
  /\ (Z.of_nat (5 * hc_step C + hc_range C) * (if hc_legacy C then 1 else 2 ^ 64) < modulus (F := Fr))%Z
  /\ hc_range C <= hc_step C
  /\ (length forged_words - 1) * hc_step C < 100 <= (length forged_words - 1) * hc_step C + hc_range C
  /\ (Z.of_nat 100 * (if hc_legacy C then 1 else 2 ^ 64) < modulus (F := Fr))%Z
  /\ (forall i, i < length forged_words -> 1 <= forged_row i <= 5
     /\ digest C adv (forged_row i) = d /\ (in1 C adv (forged_row i), in2 C adv (forged_row i)) = nth i forged_words (fr 0, fr 0)
     /\ control C adv (forged_row i) = length_code (hc_legacy C) (N.of_nat (100 - i * hc_step C))
     /\ domain C adv (forged_row i) = fr 0)
  /\ head C adv (forged_row 0) = fr 1
  /\ hash_msg (hc_legacy C) (hc_spec C) (flat_map (fun '(a, b) => [a; b]) forged_words)
       (Some (N.of_nat 100 * (if hc_legacy C then 1 else 2 ^ 64))%N) <> Ok d.
Proof.
  intros short.
  set (msg := flat_map (fun '(a, b) => [a; b]) forged_words).
  set (cap := (N.of_nat 100 * 2 ^ 64)%N).
  set (d := fadd (message_hash bn256_c (of_Z (Z.of_N cap)) msg) fone).
  destruct (forged_witness short (fr 1, fr 2) (fr 3, fr 4) d 100%N ltac:(lia)) as (C & h & adv & B & ER & ES & EL & ACC & T1 & T4).
  exists C, h, adv, d. rewrite ER, ES, EL. split; [exact B|]. split; [exact ACC|].
  split. { eapply Z.lt_le_trans; [|exact ex_modulus]. reflexivity. }
  split; [lia|]. split; [cbn; lia|]. split. { eapply Z.lt_le_trans; [|exact ex_modulus]. reflexivity. }
  unfold table_tuple in T1, T4. cbn [map] in T1, T4.
  change (tcell C adv 0 1) with (digest C adv 1) in T1. change (tcell C adv 1 1) with (in1 C adv 1) in T1.
  change (tcell C adv 2 1) with (in2 C adv 1) in T1. change (tcell C adv 3 1) with (control C adv 1) in T1.
  change (tcell C adv 4 1) with (domain C adv 1) in T1. change (tcell C adv 5 1) with (head C adv 1) in T1.
  change (tcell C adv 0 4) with (digest C adv 4) in T4. change (tcell C adv 1 4) with (in1 C adv 4) in T4.
  change (tcell C adv 2 4) with (in2 C adv 4) in T4. change (tcell C adv 3 4) with (control C adv 4) in T4.
  change (tcell C adv 4 4) with (domain C adv 4) in T4. change (tcell C adv 5 4) with (head C adv 4) in T4.
  destruct (build_facts _ _ _ _ _ B) as (Hc & (base & Hs) & _).
  assert (HM := hash_msg_claim base false bn256_c (hc_spec C) msg (Some cap) Hc Hs).
  assert (Hd : Ok (message_hash bn256_c (of_Z (Z.of_N cap)) msg) <> Ok d).
  { unfold d. generalize (message_hash bn256_c (of_Z (Z.of_N cap)) msg). intros v X. injection X as X. exact (bump v (eq_sym X)). }
  clearbody d. clear B ACC Hs.
  injection T1 as D1 I1 J1 C1 M1 H1. injection T4 as D4 I4 J4 C4 M4 H4.
  split.
  { intros i Hi. destruct i as [|[|i]]; [| |cbn in Hi; lia]; unfold forged_row; cbn [Nat.eqb]; (split; [lia|]).
    - rewrite D1, I1, J1, C1, M1. repeat split; reflexivity.
    - rewrite D4, I4, J4, C4, M4. repeat split; reflexivity. }
  split; [exact H1|]. intros X. apply Hd. rewrite <- X. symmetry. exact HM.
Qed.

(** the honest table of [ex_table] has zero domains in its continuing row *)
Lemma ex_zero_domains : forall short mode, mode_ok mode -> exists (C : hash_circuit Fr) h adv,
  build bn256_c short (hc_spec C) (hc_chip C) h /\ hc_range C = 62 /\ hc_step C = 62 /\ hc_legacy C = false
  /\ accepted bn256_c C 4 adv
  /\ (forall r, 1 <= r <= 4 -> head C adv r = fr 0 -> domain C adv r = fr 0)
  /\ head C adv 2 = fr 1 /\ head C adv 3 = fr 0 /\ (in1 C adv 3, in2 C adv 3) = (fr 5, fr 6).
Proof.
  intros short mode Hm. destruct (ex_table short mode Hm) as (C & h & L0 & L1 & n & u & B & ER & ES & EL & SU & H).
  destruct (H (fun _ _ => fzero)) as (_ & ACC & R & _). clear H. set (adv := honest u L1 (fun _ _ => fzero)) in *. clearbody adv.
  exists C, h, adv. do 4 (split; [assumption|]). split; [exact ACC|].
  cbn [map] in R.
  assert (R1 := f_equal (fun l => nth 0 l (fr 0, fr 0, fr 0, fr 0)) R). assert (R2 := f_equal (fun l => nth 1 l (fr 0, fr 0, fr 0, fr 0)) R).
  assert (R3 := f_equal (fun l => nth 2 l (fr 0, fr 0, fr 0, fr 0)) R). assert (R4 := f_equal (fun l => nth 3 l (fr 0, fr 0, fr 0, fr 0)) R).
  cbn [nth] in R1, R2, R3, R4. clear R B SU ACC.
  assert (T : forall (a b c d a' b' c' d' : Fr), (a, b, c, d) = (a', b', c', d') -> a = a' /\ b = b' /\ c = c' /\ d = d').
  { clear. intros a b c d a' b' c' d' E. injection E as -> -> -> ->. auto. }
  apply T in R1, R2, R3, R4. destruct R1 as (_ & _ & _ & H1). destruct R2 as (_ & _ & D2 & H2). destruct R3 as (I3 & J3 & D3 & H3). destruct R4 as (_ & _ & D4 & H4).
  split. { intros r Hr E. assert (K : r = 1 \/ r = 2 \/ r = 3 \/ r = 4) by lia. destruct K as [->|[->|[->| ->]]]; [|exact D2|exact D3|exact D4].
           exfalso. rewrite H1 in E. unfold fr in E. rewrite of_Z_1, of_Z_0 in E. exact (f_1_neq_0 E). }
  split; [exact H2|]. split; [exact H3|]. now rewrite I3, J3.
Qed.

(** ** C51: collisions over the field of 19 elements *)
Definition toy_tables : p128_constants F19 :=
  {| pc_partial_rounds := 1; pc_round_constants := map (fun i => map (fun j => g (Z.of_nat (i * i + 3 * j + 1))) (seq 0 3)) (seq 0 9);
     pc_mds := mds tri; pc_mds_inv := mds_inv tri |}.
Definition value_is (r : result F19) (x : F19) : bool := match r with Ok y => feqb y x | Panic => false end.
Lemma value_is_ok : forall r x, value_is r x = true -> r = Ok x.
Proof. intros [y|] x H; [|discriminate H]. cbn [value_is] in H. apply feqb_eq in H. now rewrite H. Qed.

Lemma toy_tables_ok : constants_ok toy_tables.
Proof. split; [split; [reflexivity|repeat constructor]|]. split; [repeat constructor|reflexivity]. Qed.
(** two messages of 3 words and one of 4 *)
Lemma ex_msg_collision : exists s, constants_ok toy_tables /\ cached_hash_spec true toy_tables = Ok s
  /\ hash_msg true s [g 2; g 1; g 5] None = Ok (g 1) /\ hash_msg true s [g 4; g 1; g 5] None = Ok (g 1)
  /\ hash_msg true s [g 1; g 1; g 5; g 7] None = Ok (g 1).
Proof.
  destruct (cached_hash_spec true toy_tables) as [s|] eqn:E; [|exfalso; revert E; vm_compute; discriminate].
  exists s. split; [exact toy_tables_ok|]. split; [reflexivity|].
  assert (X : match cached_hash_spec true toy_tables with
    | Ok s => value_is (hash_msg true s [g 2; g 1; g 5] None) (g 1) && value_is (hash_msg true s [g 4; g 1; g 5] None) (g 1)
              && value_is (hash_msg true s [g 1; g 1; g 5; g 7] None) (g 1)
    | Panic => false end = true) by (vm_compute; reflexivity).
  rewrite E in X. apply andb_prop in X. destruct X as [X X3]. apply andb_prop in X. destruct X as [X1 X2].
  split; [now apply value_is_ok|]. split; now apply value_is_ok.
Qed.
Lemma ex_constant_collision : 0 < 2 < 3 /\ poseidon_spec 3 tri
  /\ hash_constant_length 3 2 3 tri (hash_init 3 2 (constant_length 2 3)) [g 0; g 1; g 5] = Ok (g 10)
  /\ hash_constant_length 3 2 3 tri (hash_init 3 2 (constant_length 2 3)) [g 4; g 1; g 5] = Ok (g 10).
Proof. split; [lia|]. split; [exact tri_spec_ok|]. split; apply value_is_ok; vm_compute; reflexivity. Qed.
Lemma ex_iden3_collision : 0 < 2 < 3 /\ poseidon_spec 3 tri
  /\ hash_constant_length_iden3 3 2 3 tri (hash_init 3 2 (constant_length_iden3 2 3)) [g 1; g 1; g 5] (g 4) = Ok (g 4)
  /\ hash_constant_length_iden3 3 2 3 tri (hash_init 3 2 (constant_length_iden3 2 3)) [g 6; g 1; g 5] (g 1) = Ok (g 4).
Proof. split; [lia|]. split; [exact tri_spec_ok|]. split; apply value_is_ok; vm_compute; reflexivity. Qed.

(** weak tables over the scalar field: nothing is added and the matrix only exchanges the outer words *)
Definition weak_tables : p128_constants Fr :=
  let m := [[fr 0; fr 0; fr 1]; [fr 0; fr 1; fr 0]; [fr 1; fr 0; fr 0]] in
  {| pc_partial_rounds := 1; pc_round_constants := repeat [fr 0; fr 0; fr 0] 9; pc_mds := m; pc_mds_inv := m |}.
Lemma ex_default_collision : exists s, constants_ok weak_tables /\ cached_hash_spec false weak_tables = Ok s
  /\ (2 ^ 128 <= modulus (F := Fr))%Z
  /\ hash_msg false s [fr 1; fr 2] None = hash_msg false s [fr 3; fr 2] None
  /\ hash_msg false s [fr 1; fr 2] None <> Panic.
Proof.
  assert (K : constants_ok weak_tables).
  { split; [split; [reflexivity|repeat constructor]|]. split; [repeat constructor|reflexivity]. }
  destruct (cached_spec_exists false weak_tables K) as [s E].
  exists s. split; [exact K|]. split; [exact E|]. split; [exact ex_modulus|].
  rewrite !(hash_msg_claim false false weak_tables s _ None K E). split; [|discriminate].
  cbn [length].
  assert (X : forall k, k = of_Z (Z.of_nat 2 * 2 ^ 64) -> message_hash weak_tables k [fr 1; fr 2] = message_hash weak_tables k [fr 3; fr 2]).
  { intros k ->. apply feqb_eq. vm_compute. reflexivity. }
  rewrite (X _ eq_refl). reflexivity.
Qed.
