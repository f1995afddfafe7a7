(** The lemmas behind PropertiesRounds.v. *)
From Coq Require Import ZArith List Arith Lia Bool.
From Verif Require Import Field Rust ListAux Primitives Specs SpecHash Link Perm_proof Sponge_proof BaseHash_proof Base_claims Halo2 Septidon
  PermuteChip ChipUse SeptVal_proof Contract Layout_proof SeptChip_proof Stack_proof Sept_claims.
Import ListNotations.
Local Open Scope nat_scope.

Section Claims.
  Context {F : Type} {FO : FieldOps F} {PF : PrimeField F}.

  Lemma rbind_inv : forall {A B} (p : Region F A) (k : A -> Region F B) ri r, rbind p k ri = Ok r ->
    exists e x r', p ri = Ok (e, x) /\ k x ri = Ok r'.
  Proof.
    intros A B p k ri r E. unfold rbind in E. destruct (p ri) as [[e x]|]; [|discriminate E].
    cbn in E. destruct (k x ri) as [r'|] eqn:K; [|discriminate E]. exists e, x, r'. split; [reflexivity|exact K].
  Qed.

  Lemma assign_permutation_short : forall rcs m chip v b ri, length rcs < 65 ->
    assign_permutation rcs m chip v b ri = Panic.
  Proof.
    intros rcs m chip v b ri H. destruct (assign_permutation rcs m chip v b ri) as [r|] eqn:E; [|reflexivity]. exfalso.
    unfold assign_permutation in E.
    do 4 (apply rbind_inv in E; destruct E as (? & ? & ? & _ & E)).
    apply rbind_inv in E. destruct E as (e & y & r' & E & _).
    cbn [seq rfold] in E.
    do 3 (apply rbind_inv in E; destruct E as (? & ? & ? & _ & E)).
    apply rbind_inv in E. destruct E as (? & ? & ? & E & _).
    apply rbind_inv in E. destruct E as (? & ? & ? & E & _).
    unfold read_constant in E. replace (7 + 57 <? length rcs) with false in E by (symmetry; apply Nat.ltb_ge; lia).
    discriminate E.
  Qed.
  Lemma permute_at_short : forall rcs m chip ws b ri, length rcs < 65 -> permute_at rcs m chip ws b ri = Panic.
  Proof.
    intros rcs m chip ws b ri H. destruct (permute_at rcs m chip ws b ri) as [r|] eqn:E; [|reflexivity]. exfalso.
    unfold permute_at in E. destruct ws as [|w0 [|w1 [|w2 [|]]]]; try discriminate E.
    destruct (initial_state_cells chip) as [[i0 i1] i2].
    do 3 (apply rbind_inv in E; destruct E as (? & ? & ? & _ & E)).
    apply rbind_inv in E. destruct E as (? & ? & ? & E & _).
    rewrite assign_permutation_short in E by exact H. discriminate E.
  Qed.
  Lemma chunks_head : forall {A} k (x : A) l, exists t ts, chunks (S k) (x :: l) = (x :: t) :: ts.
  Proof. intros A k x l. unfold chunks. cbn [length chunks_aux firstn]. eexists. eexists. reflexivity. Qed.

  Lemma septidon_short : forall rcs m chip, length rcs < 65 ->
    (forall ws L, septidon_permute rcs m chip ws L = Panic)
    /\ (forall threads wss L, wss <> [] -> septidon_permute_batch rcs m threads chip wss L = Panic).
  Proof.
    intros rcs m chip H. split.
    - intros ws L. unfold septidon_permute, assign_region. now rewrite permute_at_short.
    - intros threads [|ws wss] L N; [contradiction|].
      unfold septidon_permute_batch, lbind.
      replace (length (ws :: wss) / threads + 2) with (S (length (ws :: wss) / threads + 1)) by lia.
      destruct (chunks_head (length (ws :: wss) / threads + 1) ws wss) as (t & ts & ->).
      unfold assign_regions. cbn [map].
      destruct (row_ranges _ _ _) as [rs|]; [|reflexivity]. cbn [bind].
      destruct (rassert _); [|reflexivity]. cbn [bind].
      destruct (reserve_all _ _ _) as [L1|]; [|reflexivity]. cbn [bind commit_all batch_body].
      unfold rbind at 1. now rewrite permute_at_short.
  Qed.

  Lemma compact_rows : forall (c : p128_constants F) s, constants_ok c -> compact_spec c = Ok s ->
    length (round_constants s) = 8 + pc_partial_rounds c.
  Proof.
    intros c s (H1 & H2 & H3) Hs. unfold compact_spec in Hs.
    destruct (compact_round_constants 8 (pc_partial_rounds c) (pc_mds c) (pc_round_constants c)) as [rc|] eqn:E;
      [|discriminate]. cbn in Hs. apply Ok_inj in Hs. subst s. cbn [round_constants].
    destruct (compact_forall _ _ _ _ _ H1 H2 E) as [_ ->]. exact H3.
  Qed.

  (** C56: fewer rounds *)
  Theorem fewer_rounds_claim : forall (c : p128_constants F) s,
    constants_ok c -> pc_partial_rounds c < 57 -> compact_spec c = Ok s ->
    let P := septidon_chip (round_constants s) (mds s) in
    (forall cfg ws L, pc_permute P cfg ws L = Panic)
    /\ (forall cfg threads wss L, wss <> [] -> pc_permute_batch P threads cfg wss L = Panic).
  Proof.
    intros c s Hc Hp Hs P. pose proof (compact_rows c s Hc Hs) as HL.
    split; intros cfg; apply septidon_short; lia.
  Qed.

  Lemma long_table : forall (c : p128_constants F) s, constants_ok c -> 57 <= pc_partial_rounds c ->
    compact_spec c = Ok s -> table_ok (round_constants s) (mds s).
  Proof.
    intros c s Hc Hp Hs. unfold compact_spec in Hs.
    destruct (compact_round_constants 8 (pc_partial_rounds c) (pc_mds c) (pc_round_constants c)) as [rc|] eqn:E; [|discriminate].
    cbn in Hs. apply Ok_inj in Hs. subst s. cbn [round_constants mds]. now apply compact_table_ok.
  Qed.
  Lemma table_permute_length : forall rcs m (x : list F), table_ok rcs m -> length x = 3 ->
    length (spec_permute m 4 57 rcs x) = 3.
  Proof.
    intros rcs m x HT Hx. destruct (length_list3 x Hx) as (a & b & c & ->).
    change [a; b; c] with (of3 (a, b, c)). rewrite <- (st_at_permute rcs m (a, b, c) HT). destruct (st_at rcs m (a, b, c) 65) as [[u v] w]. reflexivity.
  Qed.

  (** C56: at least as many rounds *)
  Theorem more_rounds_claim : forall (c : p128_constants F) s (cs0 : cs F) L calls other n adv,
    constants_ok c -> 57 <= pc_partial_rounds c -> compact_spec c = Ok s ->
    let P := septidon_chip (round_constants s) (mds s) in
    let cfg := fst (pc_configure P cs0) in let cs1 := snd (pc_configure P cs0) in
    chip_used P cfg (added cs0 cs1) L calls other -> 8 * length calls <= n ->
    gates_hold n L adv (cs_gates cs1) -> copies_hold L adv ->
    forall ws out, In (ws, out) calls ->
    map (word_at L adv) out = spec_permute (mds s) 4 57 (round_constants s) (map (word_at L adv) ws).
  Proof.
    intros c s cs0 L calls other n adv Hc Hp Hs P cfg cs1 U Hn G C ws out H.
    pose proof (long_table c s Hc Hp Hs) as HT. pose proof (septidon_correct _ _ HT) as PC.
    pose proof (used_sound P _ 8 PC cs0 L calls other n adv U Hn G C ws out H) as E.
    rewrite E. apply as_list. apply table_permute_length; [exact HT|]. rewrite map_length.
    destruct (PC cs0) as (D & Laws & _ & Own & _ & _ & _ & _ & _ & _ & _ & R1 & R2).
    apply (used_own P cfg _ (cd_own D)) in U; [|intros col; symmetry; apply Own].
    pose proof (used_inv P D _ cfg L calls other Laws R1 R2 U) as I.
    apply In_nth_error in H. destruct H as [i Ei].
    destruct (inv_call D L calls other i ws out I Ei) as (_ & _ & [X _] & _). exact X.
  Qed.
End Claims.
