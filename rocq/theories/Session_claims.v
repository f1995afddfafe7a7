(** The lemmas behind the theorems of PropertiesSession.v. *)
From Coq Require Import ZArith NArith List Arith Lia Bool.
From Verif Require Import Field Rust ListAux ZpField Primes Primitives Specs BaseHash Bn256 SpecHash BigSum Link Const_proof Base_claims Halo2 Layout_proof Stack_proof PermuteChip ChipUse
  SpongeTable TableUse TableMsg_proof TableState_proof Table_claims TableLayout_claims TableBuild_claims KeyUse Key_claims SessionUse.
Import ListNotations.
Local Open Scope nat_scope.

Local Opaque hc_config hc_cs hc_load.

Section Calls.
  Context {F : Type} {FO : FieldOps F} {PF : PrimeField F}.
  Notation call := (builder_call (F := F)).

  (** the call that a row of the table comes from *)
  Lemma in_call : forall (bs : list call) i, i < length (flat_map builder_rows bs) ->
    exists pre b post j, bs = pre ++ b :: post /\ i = length (flat_map builder_rows pre) + j /\ j < length (builder_rows b).
  Proof.
    induction bs as [|b bs IH]; intros i Hi; [cbn in Hi; lia|]. cbn [flat_map] in Hi. rewrite app_length in Hi.
    destruct (Nat.lt_ge_cases i (length (builder_rows b))) as [L|L].
    - exists [], b, bs, i. auto.
    - destruct (IH (i - length (builder_rows b)) ltac:(lia)) as (pre & b' & post & j & E & Ei & Hj).
      exists (b :: pre), b', post, j. split; [cbn; now rewrite E|]. split; [|exact Hj]. cbn [flat_map]. rewrite app_length. lia.
  Qed.
  Lemma nth_call : forall {B} (f : call -> list B) pre b post j d, j < length (f b) -> nth (length (flat_map f pre) + j) (flat_map f (pre ++ b :: post)) d = nth j (f b) d.
  Proof.
    intros B f pre b post j d Hj. rewrite flat_map_app, app_nth2 by lia. replace (_ + j - _) with j by lia. cbn [flat_map]. now apply app_nth1.
  Qed.
  Lemma rows_length : forall src ck c st, length (stream_rows (F := F) src ck c st) = length src.
  Proof. intros. unfold stream_rows. rewrite map_length, combine_length, seq_length. lia. Qed.
  Lemma api_length : forall legacy s (b : call), length (api_hashes legacy s b) = length (builder_rows b).
  Proof. intros legacy s [src|src|src|src ck c st|src c st]; cbn [api_hashes builder_rows]; rewrite ?map_length, ?repeat_length, ?rows_length; reflexivity. Qed.
  Lemma api_lengths : forall legacy s (bs : list call), length (flat_map (api_hashes legacy s) bs) = length (flat_map builder_rows bs).
  Proof. intros legacy s bs. induction bs as [|b bs IH]; [reflexivity|]. cbn [flat_map]. rewrite !app_length, IH. f_equal. apply api_length. Qed.
  Lemma stream_nth : forall src ck c st j, j < length src -> nth j (stream_rows src ck c st) (no_row (F := F))
    = (nth j src (fzero, fzero), (c - N.of_nat (j * st))%N, fzero, if S j =? length src then ck else None).
  Proof.
    intros src ck c st j Hj. unfold stream_rows. rewrite (nth_fun _ _ j (0, (fzero, fzero))) by (rewrite combine_length, seq_length; lia).
    rewrite combine_nth by apply seq_length. now rewrite seq_nth by assumption.
  Qed.

  (** a row of a message that is not the last is followed by the next one *)
  Lemma call_steps : forall range step (b : call) j, accepted_call b -> sized range step b -> j < length (builder_rows b) ->
    (N.of_nat range < snd (fst (fst (nth j (builder_rows b) no_row))))%N ->
    S j < length (builder_rows b)
    /\ (snd (fst (fst (nth (S j) (builder_rows b) no_row))) + N.of_nat step = snd (fst (fst (nth j (builder_rows b) no_row))))%N
    /\ snd (fst (fst (nth (S j) (builder_rows b) no_row))) <> 0%N /\ snd (fst (nth (S j) (builder_rows b) no_row)) = fzero.
  Proof.
    intros range step b j HA HS Hj HC.
    assert (ST : forall src ck c st, 0 < length src -> (length src = 1 \/ (N.of_nat ((length src - 1) * st) < c)%N) -> st = step ->
      (c <= N.of_nat ((length src - 1) * step + range))%N -> j < length src -> (N.of_nat range < snd (fst (fst (nth j (stream_rows src ck c st) no_row))))%N ->
      S j < length src /\ (snd (fst (fst (nth (S j) (stream_rows src ck c st) no_row))) + N.of_nat step = snd (fst (fst (nth j (stream_rows src ck c st) (no_row (F := F))))))%N
      /\ snd (fst (fst (nth (S j) (stream_rows src ck c st) no_row))) <> 0%N /\ snd (fst (nth (S j) (stream_rows src ck c st) no_row)) = fzero (F := F)).
    { clear. intros src ck c st Pos HA -> HS Hj HC. rewrite stream_nth in HC by assumption. cbn [fst snd] in HC.
      assert (L : S j < length src).
      { destruct (Nat.lt_ge_cases (S j) (length src)) as [L|L]; [exact L|]. replace j with (length src - 1) in HC by lia. exfalso. lia. }
      split; [exact L|]. rewrite !stream_nth by assumption. cbn [fst snd]. destruct HA as [HA|HA]; [lia|].
      assert (M : S j * step <= (length src - 1) * step) by (apply Nat.mul_le_mono_r; lia). cbn [Nat.mul] in *.
      assert (M' : (N.of_nat (step + j * step) <= N.of_nat ((length src - 1) * step))%N) by lia.
      rewrite Nat2N.inj_add in *. split; [lia|]. split; [lia|reflexivity]. }
    destruct b as [src|src|src|src ck c st|src c st]; cbn [builder_rows accepted_call sized] in *.
    - exfalso. rewrite map_length in Hj. destruct src as [|a0 src]; [cbn in Hj; lia|]. rewrite (nth_fun _ _ j a0) in HC by assumption. cbn in HC. lia.
    - exfalso. rewrite map_length in Hj. destruct src as [|a0 src]; [cbn in Hj; lia|]. rewrite (nth_fun _ _ j a0) in HC by assumption.
      destruct (nth j (a0 :: src) a0). cbn in HC. lia.
    - exfalso. rewrite map_length in Hj. destruct src as [|a0 src]; [cbn in Hj; lia|]. rewrite (nth_fun _ _ j a0) in HC by assumption.
      destruct (nth j (a0 :: src) a0) as [[? ?] ?]. cbn in HC. lia.
    - rewrite rows_length in *. destruct HA, HS. now apply ST.
    - rewrite rows_length in *. destruct HA, HS. now apply ST.
  Qed.
  (** a digest is expected in the last row of a message only *)
  Lemma call_check : forall range step (b : call) j ck, accepted_call b -> sized range step b -> j < length (builder_rows b) ->
    snd (nth j (builder_rows b) no_row) = Some ck -> (snd (fst (fst (nth j (builder_rows b) no_row))) <= N.of_nat range)%N.
  Proof.
    intros range step b j ck HA HS Hj HC. destruct (N.le_gt_cases (snd (fst (fst (nth j (builder_rows b) no_row)))) (N.of_nat range)) as [L|L]; [exact L|].
    exfalso. destruct (call_steps range step b j HA HS Hj L) as (N & _).
    destruct b as [src|src|src|src ck' c st|src c st]; cbn [builder_rows] in *.
    - rewrite map_length in Hj. destruct src as [|a0 src]; [cbn in Hj; lia|]. rewrite (nth_fun _ _ j a0) in L by assumption. cbn in L. lia.
    - rewrite map_length in Hj. destruct src as [|a0 src]; [cbn in Hj; lia|]. rewrite (nth_fun _ _ j a0) in L by assumption.
      destruct (nth j (a0 :: src) a0). cbn in L. lia.
    - rewrite map_length in Hj. destruct src as [|a0 src]; [cbn in Hj; lia|]. rewrite (nth_fun _ _ j a0) in L by assumption.
      destruct (nth j (a0 :: src) a0) as [[? ?] ?]. cbn in L. lia.
    - rewrite rows_length in *. rewrite stream_nth in HC by assumption. cbn [snd] in HC. destruct (Nat.eqb_spec (S j) (length src)); [lia|discriminate].
    - rewrite rows_length in *. rewrite stream_nth in HC by assumption. cbn [snd] in HC. destruct (S j =? length src); discriminate.
  Qed.
  Lemma call_right : forall legacy s (b : call), accepted_call b ->
    (checks_right legacy s b <-> forall j ck, j < length (builder_rows b) -> snd (nth j (builder_rows b) no_row) = Some ck -> nth j (api_hashes legacy s b) Panic = Ok ck).
  Proof.
    intros legacy s b HA. destruct b as [src|src|src|src ck' c st|src c st]; cbn [checks_right builder_rows api_hashes accepted_call] in *.
    - split; [|trivial]. intros _ j ck Hj HC. rewrite map_length in Hj. destruct src as [|a0 src]; [cbn in Hj; lia|].
      rewrite (nth_fun _ _ j a0) in HC by assumption. discriminate HC.
    - split.
      + intros H j ck Hj HC. rewrite map_length in Hj. destruct src as [|a0 src]; [cbn in Hj; lia|].
        rewrite (nth_fun _ _ j a0) in HC by assumption. rewrite (nth_fun _ _ j a0) by assumption. pose proof (nth_In (a0 :: src) a0 Hj) as I.
        destruct (nth j (a0 :: src) a0) as [x k]. cbn [snd] in HC. injection HC as ->. now apply H.
      + intros H x ck I. destruct (In_nth src (x, ck) (x, ck) I) as (j & Hj & E). specialize (H j ck).
        rewrite map_length, !(nth_fun _ _ j (x, ck)), E in H by assumption. now apply H.
    - split.
      + intros H j ck Hj HC. rewrite map_length in Hj. destruct src as [|a0 src]; [cbn in Hj; lia|].
        rewrite (nth_fun _ _ j a0) in HC by assumption. rewrite (nth_fun _ _ j a0) by assumption. pose proof (nth_In (a0 :: src) a0 Hj) as I.
        destruct (nth j (a0 :: src) a0) as [[x d] k]. cbn [snd] in HC. subst k. now apply H.
      + intros H x d ck I. destruct (In_nth src (x, d, Some ck) (x, d, Some ck) I) as (j & Hj & E). specialize (H j ck).
        rewrite map_length, !(nth_fun _ _ j (x, d, Some ck)), E in H by assumption. now apply H.
    - rewrite rows_length. destruct HA as [Pos _]. split.
      + intros H j ck Hj HC. rewrite stream_nth in HC by assumption. cbn [snd] in HC.
        destruct (S j =? length src); [subst ck'|discriminate]. rewrite <- H. now rewrite nth_repeat_lt.
      + intros H. destruct ck' as [ck|]; [|exact I]. specialize (H (length src - 1) ck ltac:(lia)). rewrite stream_nth in H by lia. cbn [snd] in H.
        replace (S (length src - 1)) with (length src) in H by lia. rewrite Nat.eqb_refl in H. specialize (H eq_refl).
        rewrite nth_repeat_lt in H by lia. exact H.
    - split; [|trivial]. intros _ j ck Hj HC. rewrite rows_length in Hj. rewrite stream_nth in HC by assumption. cbn [snd] in HC. destruct (S j =? length src); discriminate.
  Qed.
End Calls.

Section Tables.
  Context {F : Type} {FO : FieldOps F} {PF : PrimeField F}.
  Notation call := (builder_call (F := F)).

  Section Built.
    Variables range step : nat.
    Variable bs : list call.
    Variable t : hash_table F.
    Hypothesis HB : builder_runs bs empty_table = Ok t.
    Hypothesis HS : Forall (sized range step) bs.

    Lemma row_in_call : forall i, i < table_size t -> exists pre b post j, bs = pre ++ b :: post /\ i = length (flat_map builder_rows pre) + j
      /\ j < length (builder_rows b) /\ accepted_call b /\ sized range step b /\ row_of t i = nth j (builder_rows b) no_row
      /\ (S j < length (builder_rows b) -> row_of t (S i) = nth (S j) (builder_rows b) no_row).
    Proof.
      intros i Hi. destruct (builder_claim bs t HB) as [E1 E2]. rewrite E1 in Hi. destruct (in_call bs i Hi) as (pre & b & post & j & E & Ei & Hj).
      exists pre, b, post, j. split; [exact E|]. split; [exact Ei|]. split; [exact Hj|].
      pose proof (runs_accepted bs _ _ HB) as A. rewrite E in A. apply Forall_elt in A. split; [exact A|].
      pose proof HS as A'. rewrite E in A'. apply Forall_elt in A'. split; [exact A'|].
      split; [rewrite E2, E, Ei; now apply nth_call|]. intros L. rewrite E2, E, Ei, plus_n_Sm. now apply nth_call.
    Qed.
    Lemma beyond : forall i, table_size t <= i -> row_of t i = no_row.
    Proof. intros i Hi. destruct (builder_claim bs t HB) as [E1 E2]. rewrite E2. apply nth_overflow. now rewrite <- E1. Qed.

    Lemma built_well_formed : forall calcs, table_size t <= calcs ->
      (well_formed range step calcs t <-> (table_size t = calcs -> 0 < calcs -> row_input t (calcs - 1) = (fzero, fzero) /\ row_control t (calcs - 1) = 0%N)).
    Proof.
      intros calcs Hc. split; [intros [_ W] _; exact W|]. intros W. split.
      - intros i Hi C. destruct (Nat.lt_ge_cases i (table_size t)) as [L|L].
        + destruct (row_in_call i L) as (pre & b & post & j & _ & _ & Hj & A & Z & R1 & R2).
          assert (X : (N.of_nat range < snd (fst (fst (nth j (builder_rows b) no_row))))%N) by (rewrite <- R1; exact C).
          destruct (call_steps range step b j A Z Hj X) as (Q & Q1 & Q2 & Q3). specialize (R2 Q). rewrite <- R2 in Q1, Q2, Q3. rewrite <- R1 in Q1. auto.
        + exfalso. pose proof (beyond i L) as B. unfold row_of, no_row in B. injection B as _ B _ _. rewrite B in C. lia.
      - intros Pos. destruct (Nat.eq_dec (table_size t) calcs) as [E|E]; [exact (W E Pos)|].
        pose proof (beyond (calcs - 1) ltac:(lia)) as B. unfold row_of, no_row in B. injection B as B1 B2 _ _. auto.
    Qed.
    Lemma built_controls : length (ht_controls t) <= table_size t.
    Proof. destruct (runs_shows bs _ _ _ empty_shows HB) as ((X & _) & _). exact X. Qed.
    Lemma built_start : Forall start_u64 bs -> forall i, (row_control t i < 2 ^ 64)%N.
    Proof.
      intros HU i. destruct (Nat.lt_ge_cases i (table_size t)) as [L|L].
      - destruct (row_in_call i L) as (pre & b & post & j & E & _ & Hj & A & Z & R1 & _). rewrite E in HU. apply Forall_elt in HU.
        change (row_control t i) with (snd (fst (fst (row_of t i)))). rewrite R1. clear - HU Hj.
        destruct b as [src|src|src|src ck c st|src c st]; cbn [builder_rows start_u64] in *.
        + rewrite map_length in Hj. destruct src as [|a0 src]; [cbn in Hj; lia|]. rewrite (nth_fun _ _ j a0) by assumption. reflexivity.
        + rewrite map_length in Hj. destruct src as [|a0 src]; [cbn in Hj; lia|]. rewrite (nth_fun _ _ j a0) by assumption. destruct (nth j (a0 :: src) a0). reflexivity.
        + rewrite map_length in Hj. destruct src as [|a0 src]; [cbn in Hj; lia|]. rewrite (nth_fun _ _ j a0) by assumption. destruct (nth j (a0 :: src) a0) as [[? ?] ?]. reflexivity.
        + rewrite rows_length in Hj. rewrite stream_nth by assumption. cbn [fst snd]. lia.
        + rewrite rows_length in Hj. rewrite stream_nth by assumption. cbn [fst snd]. lia.
      - pose proof (beyond i L) as B. unfold row_of, no_row in B. injection B as _ B _ _. rewrite B. reflexivity.
    Qed.

    (** where the message of a row ends *)
    Fixpoint message_end (fuel i : nat) : nat :=
      match fuel with
      | O => i
      | S f => if (row_control t i <=? N.of_nat range)%N then i else message_end f (S i)
      end.
    Lemma message_end_at : forall k i fuel, k < fuel -> (forall j, i <= j < i + k -> (N.of_nat range < row_control t j)%N) ->
      (row_control t (i + k) <= N.of_nat range)%N -> message_end fuel i = i + k.
    Proof.
      induction k as [|k IH]; intros i fuel Hf Hj Hk; (destruct fuel as [|f]; [lia|]); cbn [message_end].
      - rewrite Nat.add_0_r in *. apply N.leb_le in Hk. now rewrite Hk.
      - pose proof (Hj i ltac:(lia)) as H. apply N.leb_gt in H. rewrite H. rewrite (IH (S i) f) by (try lia; try (intros; apply Hj; lia); now rewrite Nat.add_succ_comm). lia.
    Qed.

    Variable c : p128_constants F.
    Variable base : bool.
    Variable s : spec F.
    Hypothesis Hc : constants_ok c.
    Hypothesis Hs : cached_hash_spec base c = Ok s.
    Hypothesis Hlen : forall x, length x = 3 -> length (poseidon_permutation c x) = 3.
    Variable legacy : bool.
    Hypothesis Hrs : range <= step.

    Lemma built_checks : forall calcs, table_size t <= calcs ->
      ((forall i ck, i < calcs -> row_check t i = Some ck -> ck = nth 0 (row_state (poseidon_permutation c) legacy range t i) fzero)
       <-> Forall (checks_right legacy s) bs).
    Proof.
      intros calcs Hcap. destruct (builder_claim bs t HB) as [E1 E2].
      set (state := row_state (poseidon_permutation c) legacy range t). set (dg := fun i => nth 0 (state (message_end (S calcs) i)) fzero).
      assert (H : map (fun i => Ok (dg i)) (seq 0 (length (flat_map builder_rows bs))) = flat_map (api_hashes legacy s) bs).
      { apply (calls_hashes c base s Hc Hs legacy range step calcs Hrs t dg Hlen).
        - intros i k Hi H1 H2. unfold dg. now rewrite (message_end_at k i (S calcs)) by (try assumption; lia).
        - exact (runs_accepted bs _ _ HB).
        - exact HS.
        - exact I.
        - rewrite <- E1. exact Hcap.
        - intros i _. exact (E2 i). }
      assert (K : forall i, i < table_size t -> nth i (flat_map (api_hashes legacy s) bs) Panic = Ok (dg i)).
      { intros i Hi. rewrite <- H. rewrite E1 in Hi. rewrite (nth_indep _ Panic (Ok (dg 0))) by (now rewrite map_length, seq_length).
        rewrite (map_nth (fun i => Ok (dg i))). now rewrite seq_nth. }
      assert (D : forall i, (row_control t i <= N.of_nat range)%N -> dg i = nth 0 (state i) fzero).
      { intros i Hi. unfold dg. rewrite (message_end_at 0 i (S calcs)); [now rewrite Nat.add_0_r|lia|intros; lia|now rewrite Nat.add_0_r]. }
      rewrite Forall_forall. split.
      - intros A b Hb. destruct (in_split b bs Hb) as (pre & post & E). 
        pose proof (runs_accepted bs _ _ HB) as A1. rewrite E in A1. apply Forall_elt in A1. pose proof HS as A2. rewrite E in A2. apply Forall_elt in A2.
        apply (call_right legacy s b A1). intros j ck Hj HC. set (i := length (flat_map builder_rows pre) + j).
        assert (Hi : i < table_size t). { rewrite E1, E, flat_map_app, app_length. cbn [flat_map]. rewrite app_length. unfold i. lia. }
        assert (R : row_of t i = nth j (builder_rows b) no_row) by (rewrite E2, E; now apply nth_call).
        pose proof (call_check range step b j ck A1 A2 Hj HC) as L. rewrite <- R in L, HC. specialize (A i ck ltac:(lia) HC).
        rewrite <- (D i L) in A. rewrite A. rewrite <- (K i Hi). rewrite E. unfold i.
        assert (EL : length (flat_map builder_rows pre) = length (flat_map (api_hashes legacy s) pre)) by (symmetry; apply api_lengths).
        rewrite EL. symmetry. apply nth_call. now rewrite api_length.
      - intros A i ck Hi HC. destruct (Nat.lt_ge_cases i (table_size t)) as [L|L].
        + destruct (row_in_call i L) as (pre & b & post & j & E & Ei & Hj & A1 & A2 & R & _).
          assert (HC' : snd (nth j (builder_rows b) no_row) = Some ck) by (rewrite <- R; exact HC).
          pose proof (call_check range step b j ck A1 A2 Hj HC') as Lc. rewrite <- R in Lc.
          assert (Ib : In b bs) by (rewrite E; apply in_elt). pose proof (proj1 (call_right legacy s b A1) (A b Ib) j ck Hj HC') as X.
          pose proof (K i L) as Y. rewrite E, Ei in Y. rewrite <- (api_lengths legacy s pre), nth_call in Y by (now rewrite api_length).
          rewrite (api_lengths legacy s pre), <- Ei in Y. rewrite <- (D i Lc). congruence.
        + pose proof (beyond i L) as B. unfold row_of, no_row in B. injection B as _ _ _ B. rewrite B in HC. discriminate HC.
    Qed.
  End Built.

  (** C75: a table of builder calls is loaded exactly if its expected digests are right *)
  Theorem session_load_claim : forall c (C : hash_circuit F) short h mode calcs bs t L0, build c short (hc_spec C) (hc_chip C) h -> host_columns C -> table_free C L0 ->
    mode_ok mode -> builder_runs bs empty_table = Ok t -> Forall (sized (hc_range C) (hc_step C)) bs -> hc_range C <= hc_step C -> table_size t <= calcs ->
    ((exists L1, hc_load C mode calcs t L0 = Ok (L1, tt)) <-> Forall (checks_right (hc_legacy C) (hc_spec C)) bs).
  Proof.
    intros c C short h mode calcs bs t L0 B HC TF Hm HB HS Hr Hcap.
    destruct (build_facts _ _ _ _ _ B) as (Hc & (base & Hs) & _ & _ & Hlen). pose proof (built_controls bs t HB) as LC.
    destruct (checks_claim c C short h mode calcs t L0 B HC TF Hm ltac:(intros _; lia)) as (Q1 & Q2 & _).
    rewrite <- (built_checks (hc_range C) (hc_step C) bs t HB HS c base (hc_spec C) Hc Hs Hlen (hc_legacy C) Hr calcs Hcap). split.
    - intros [L1 E] i ck Hi Hk. destruct (feq_dec ck (nth 0 (row_state (poseidon_permutation c) (hc_legacy C) (hc_range C) t i) fzero)) as [Y|N]; [exact Y|].
      exfalso. assert (P : hc_load C mode calcs t L0 = Panic) by (apply Q2; eauto). rewrite P in E. discriminate E.
    - intros A. destruct Q1 as [Q1|Q1]; [exact Q1|]. exfalso. apply Q2 in Q1. destruct Q1 as (i & ck & Hi & Hk & Hn). apply Hn. exact (A i ck Hi Hk).
  Qed.

  (** C75: and its honest witness is accepted *)
  Theorem session_accepted_claim : forall c (C : hash_circuit F) mode calcs bs t L0 L1 L copies n u blind, set_up c C mode calcs t L0 L1 L copies n u ->
    builder_runs bs empty_table = Ok t -> Forall (sized (hc_range C) (hc_step C)) bs -> table_size t <= calcs ->
    (forall i, (Z.of_N (row_control t i + N.of_nat (hc_step C)) * (if hc_legacy C then 1 else 2 ^ 64) < modulus (F := F))%Z) ->
    let adv := honest u L blind in
    satisfied n u (hc_cs C) L adv
    <-> (table_size t = calcs -> 0 < calcs -> row_input t (calcs - 1) = (fzero, fzero) /\ row_control t (calcs - 1) = 0%N) /\ host_ok C L0 L copies n u adv.
  Proof.
    intros c C mode calcs bs t L0 L1 L copies n u blind SU HB HS Hcap Hb adv.
    pose proof (complete_claim c C mode calcs t L0 L1 L copies n u blind SU Hb) as X. cbv zeta in X. fold adv in X.
    rewrite <- (built_well_formed (hc_range C) (hc_step C) bs t HB HS calcs Hcap). exact X.
  Qed.
End Tables.

(** ** The stand-alone circuit *)
Section Standalone.
  Context {F : Type} {FO : FieldOps F} {PF : PrimeField F}.
  Variable c : p128_constants F.
  Variables (short legacy : bool) (s : spec F) (P : permute_chip F) (h step : nat).
  Hypothesis B : build c short s P h.
  Notation C := (standalone P s legacy step).
  Notation L0 := (layout_empty (standalone_host (F := F))).

  Lemma standalone_columns : host_columns C.
  Proof.
    unfold host_columns. cbn [standalone hc_enable hc_host standalone_host cs_fix cs_adv hc_table]. split; [lia|]. split; [reflexivity|].
    split; [|repeat (apply Forall_cons; [lia|]); apply Forall_nil]. repeat (constructor; [cbn [In]; lia|]). constructor.
  Qed.
  Lemma standalone_free : table_free C L0.
  Proof. split; [|intros v []]. split; [reflexivity|]. split; [intros ? ? ? []|]. split; [intros ? ? ? []|intros ? ? []]. Qed.
  Lemma standalone_set_up : forall mode calcs t L1 n u, mode_ok mode -> hc_load C mode calcs t L0 = Ok (L1, tt) -> h * calcs <= u -> calcs < u -> step < u -> u <= n ->
    set_up c C mode calcs t L0 L1 L1 [] n u.
  Proof.
    intros mode calcs t L1 n u Hm E Hh Hc Hr Hn. split; [exact standalone_columns|]. split.
    { split; [exact standalone_free|]. split; [exact Hm|]. split; [exact E|]. split; [|exists []; symmetry; apply app_nil_r].
      exists [], [], [], []. rewrite !app_nil_r. split; [reflexivity|]. split; [reflexivity|].
      split; [reflexivity|]. split; [intros ? ? ? []|]. split; [reflexivity|]. split; [intros ? ? ? []|].
      split; [reflexivity|]. split; [intros ? ? []|reflexivity]. }
    split; [exists short, h; split; [exact B|exact Hh]|]. split; [exact Hc|]. split; [exact Hr|exact Hn].
  Qed.
  Lemma standalone_host_ok : forall L n u adv, host_ok C L0 L [] n u adv.
  Proof. intros L n u adv. split; [intros g r []|]. split; [intros e tt r []|intros a b []]. Qed.

  (** only the fixed parts of a layout count *)
  Lemma satisfied_key : forall (L L' : layout F) n u m adv, lo_fix L = lo_fix L' -> lo_copy L = lo_copy L' -> lo_tables L = lo_tables L' ->
    (forall q r, In (q, r) (lo_sel L) <-> In (q, r) (lo_sel L')) -> satisfied n u m L adv -> satisfied n u m L' adv.
  Proof.
    intros L L' n u m adv Ef Ec Et Es (A & D & E).
    assert (X : forall k r, fixed_at L k r = fixed_at L' k r) by (intros; unfold fixed_at; now rewrite Ef).
    assert (Z : forall k r, table_at L k r = table_at L' k r) by (intros; unfold table_at; now rewrite Et).
    assert (Y : forall k r, selector_at L k r = selector_at L' k r).
    { intros k r. destruct (selector_at_cases L k r) as [[I1 ->]|[I1 ->]], (selector_at_cases L' k r) as [[I2 ->]|[I2 ->]]; try reflexivity; exfalso;
        rewrite Es in I1; contradiction. }
    split; [|split].
    - intros g r Hg Hr. rewrite <- (A g r Hg Hr). apply eval_ext; intros; symmetry; auto.
    - intros e t r He Hr. destruct (D e t r He Hr) as (r' & Hr' & Q). exists r'. split; [exact Hr'|]. rewrite <- Z, <- Q. apply eval_ext; intros; symmetry; auto.
    - intros a b H. rewrite <- Ec in H. specialize (E a b H).
      destruct a as [[i|i|i] r], b as [[j|j|j] r']; cbn [cell_at] in *; rewrite <- ?X, <- ?Y; exact E.
  Qed.

  Theorem standalone_generic : forall mode mode' bs t calcs n u, mode_ok mode -> mode_ok mode' ->
    builder_runs bs empty_table = Ok t -> Forall (sized step step) bs -> Forall (checks_right legacy s) bs ->
    (forall i, (Z.of_N (row_control t i + N.of_nat step) * (if legacy then 1 else 2 ^ 64) < modulus (F := F))%Z) ->
    table_size t < calcs -> calcs < u -> h * calcs <= u -> step < u -> u <= n ->
    exists K L, synthesize P s legacy step mode' calcs empty_table = Ok (K, tt) /\ synthesize P s legacy step mode calcs t = Ok (L, tt)
      /\ fits u K /\ fits u L /\ copies_enabled (hc_cs C) K
      /\ (forall blind, satisfied n u (hc_cs C) K (honest u L blind)
          /\ map (fun i => Ok (digest C (honest u L blind) (S i))) (seq 0 (table_size t)) = flat_map (api_hashes legacy s) bs)
      /\ (forall adv, satisfied n u (hc_cs C) K adv -> accepted c C calcs adv).
  Proof.
    intros mode mode' bs t calcs n u Hm Hm' HB HS HK Hb Hcap Hc Hh Hr Hn. unfold synthesize.
    destruct (proj2 (session_load_claim c C short h mode calcs bs t L0 B standalone_columns standalone_free Hm HB HS (le_n step) ltac:(lia)) HK) as [L EL].
    destruct (proj2 (session_load_claim c C short h mode' calcs [] empty_table L0 B standalone_columns standalone_free Hm' eq_refl (Forall_nil _) (le_n step) ltac:(cbn; lia))
                    (Forall_nil _)) as [K EK].
    exists K, L. split; [exact EK|]. split; [exact EL|].
    destruct (budget_claim c C short short h mode' calcs empty_table L0 K B standalone_columns standalone_free Hm' EK) as (_ & _ & _ & _ & _ & _ & _ & FK & _ & CK).
    destruct (budget_claim c C short short h mode calcs t L0 L B standalone_columns standalone_free Hm EL) as (_ & _ & _ & _ & _ & _ & _ & FL & _).
    assert (F0 : fits u L0) by (repeat split; [intros ? ? ? []|intros ? ? ? []|intros ? ? []|intros ? ? []]).
    split; [apply FK; auto|]. split; [apply FL; auto|]. split; [apply CK; intros ? ? []|].
    pose proof (standalone_set_up mode calcs t L n u Hm EL Hh Hc Hr Hn) as SU.
    pose proof (standalone_set_up mode' calcs empty_table K n u Hm' EK Hh Hc Hr Hn) as SK.
    destruct (key_claim c C short h mode mode' calcs t empty_table L0 L0 L K B standalone_columns standalone_free standalone_free Hm Hm'
                eq_refl eq_refl eq_refl eq_refl EL EK) as (K1 & K2 & K3 & K4).
    split.
    - intros blind. split.
      + apply (satisfied_key L K); try assumption.
        apply (session_accepted_claim c C mode calcs bs t L0 L L [] n u blind SU HB HS ltac:(lia) Hb).
        split; [intros Q; lia|apply standalone_host_ok].
      + exact (contents_claim c C mode calcs bs t L0 L L [] n u blind step HB HS (le_n step) ltac:(lia) SU).
    - intros adv Hs. exists mode', empty_table, L0, K, K, [], n, u. split; [exact SK|exact Hs].
  Qed.
End Standalone.

Theorem standalone_claim : forall short legacy s P h step mode mode' bs (t : hash_table Fr) calcs n u, build bn256_c short s P h -> mode_ok mode -> mode_ok mode' ->
  builder_runs bs empty_table = Ok t -> Forall (sized step step) bs -> Forall start_u64 bs -> (Z.of_nat step < 2 ^ 64)%Z -> Forall (checks_right legacy s) bs ->
  table_size t < calcs -> calcs < u -> (if short then 8 else 38) * calcs <= u -> step < u -> u <= n ->
  let C := standalone P s legacy step in
  exists K L, synthesize P s legacy step mode' calcs empty_table = Ok (K, tt) /\ synthesize P s legacy step mode calcs t = Ok (L, tt)
    /\ fits u K /\ fits u L /\ copies_enabled (hc_cs C) K
    /\ (forall blind, satisfied n u (hc_cs C) K (honest u L blind)
        /\ map (fun i => Ok (digest C (honest u L blind) (S i))) (seq 0 (table_size t)) = flat_map (api_hashes legacy s) bs)
    /\ (forall adv, satisfied n u (hc_cs C) K adv -> accepted bn256_c C calcs adv).
Proof.
  intros short legacy s P h step mode mode' bs t calcs n u B Hm Hm' HB HS HU Hst HK Hcap Hc Hh Hr Hn C.
  assert (EH : h = if short then 8 else 38).
  { destruct (proj2 (session_load_claim bn256_c C short h mode calcs bs t (layout_empty standalone_host) B (standalone_columns _ _ _ _) (standalone_free _ _ _ _)
                       Hm HB HS (le_n step) ltac:(lia)) HK) as [L EL].
    destruct (budget_claim bn256_c C short short h mode calcs t _ L B (standalone_columns _ _ _ _) (standalone_free _ _ _ _) Hm EL) as (E1 & E2 & _).
    destruct short; [exact (E1 eq_refl)|exact (E2 eq_refl)]. }
  subst h. apply (standalone_generic bn256_c short legacy s P _ step B mode mode' bs t calcs n u Hm Hm' HB HS HK); try assumption.
  intros i. pose proof (built_start step step bs t HB HS HU i) as Q.
  assert (M : (2 ^ 129 <= modulus (F := Fr))%Z) by (vm_compute; discriminate). eapply Z.lt_le_trans; [|exact M]. clear M.
  assert (X : (Z.of_N (row_control t i + N.of_nat step) < 2 ^ 65)%Z) by (change (2 ^ 65)%Z with (2 ^ 64 + 2 ^ 64)%Z; lia).
  assert (Y : (0 < (if legacy then 1 else 2 ^ 64) <= 2 ^ 64)%Z) by (destruct legacy; lia).
  apply Z.lt_le_trans with (2 ^ 65 * 2 ^ 64)%Z; [nia|]. apply Z.leb_le. vm_compute. reflexivity.
Qed.
