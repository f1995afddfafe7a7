(** The lemmas behind PropertiesColumns.v. *)
From Coq Require Import ZArith NArith List Arith Lia Bool.
From Verif Require Import Field Rust ListAux Primitives Specs BaseHash SpecHash BigSum Link Base_claims Halo2 Layout_proof PermuteChip ChipUse
  SpongeTable TableUse TableMsg_proof TableRows_proof TableLoad_proof TableInv_proof TableHonest_proof TableSat_proof TableSound_proof TableState_proof Table_claims
  TableBuild_claims ColumnsUse.
Import ListNotations.
Local Open Scope nat_scope.

Lemma combine_app : forall {A B} (a a' : list A) (b b' : list B), length a = length b -> combine (a ++ a') (b ++ b') = combine a b ++ combine a' b'.
Proof.
  induction a as [|x a IH]; intros a' [|y b] b' H; try discriminate; [reflexivity|]. cbn. f_equal. apply IH. now injection H.
Qed.
Lemma combine_maps : forall {X A B} (f : X -> A) (g : X -> B) l, combine (map f l) (map g l) = map (fun x => (f x, g x)) l.
Proof. induction l as [|x l IH]; [reflexivity|]. cbn. now rewrite IH. Qed.

Lemma all_true : forall {A} (l : list A), map (fun _ => true) l = repeat true (length l).
Proof. induction l as [|a l IH]; [reflexivity|]. cbn. now rewrite IH. Qed.

Section Claims.
  Context {F : Type} {FO : FieldOps F} {PF : PrimeField F}.

  Lemma rows_stream : forall src check c0 st, length (stream_rows (F := F) src check c0 st) = length src.
  Proof. exact (stream_rows_length 0 0 (le_n 0)). Qed.
  Lemma seq_by : forall a k, seq a k = map (fun i => a + i) (seq 0 k).
  Proof. exact (seq_shift_by 0 0 (le_n 0)). Qed.
  Lemma starts_length : forall b : builder_call (F := F), length (starts b) = length (builder_rows b).
  Proof.
    intros [src|src|src|src ck c st|src c st]; cbn [starts builder_rows]; rewrite ?map_length, ?seq_length, ?rows_stream; reflexivity.
  Qed.
  Lemma hashes_length : forall legacy s (b : builder_call (F := F)), length (api_hashes legacy s b) = length (builder_rows b).
  Proof.
    intros legacy s [src|src|src|src ck c st|src c st]; cbn [api_hashes builder_rows]; rewrite ?map_length, ?repeat_length, ?rows_stream; reflexivity.
  Qed.
  Lemma lines_flat : forall legacy s (bs : list (builder_call (F := F))),
    flat_map (call_lines legacy s) bs
    = map (fun '(d, (row, first)) => filled legacy d row first)
          (combine (flat_map (api_hashes legacy s) bs) (combine (flat_map builder_rows bs) (flat_map starts bs))).
  Proof.
    induction bs as [|b bs IH]; [reflexivity|]. cbn [flat_map]. rewrite IH, (combine_app (builder_rows b)) by (symmetry; apply starts_length).
    rewrite combine_app by (rewrite combine_length, starts_length, Nat.min_id; apply hashes_length). now rewrite map_app.
  Qed.

  Section Heads.
    Variables range step : nat.
    Hypothesis Hrs : range <= step.
    Variable t : hash_table F.
    Definition first_row (i : nat) : bool := match i with O => true | S j => (row_control t j <=? N.of_nat range)%N end.
    Notation boundary := (boundary range t).
    Lemma boundary_first : forall o, boundary o -> first_row o = true.
    Proof. intros [|j] H; [reflexivity|]. apply N.leb_le. exact H. Qed.

    Lemma plain_starts : forall n o, boundary o -> (forall i, i < n -> row_control t (o + i) = 0%N) ->
      boundary (o + n) /\ map first_row (seq o n) = repeat true n.
    Proof.
      induction n as [|n IH]; intros o Bo H; [rewrite Nat.add_0_r; auto|]. destruct (IH (S o)) as [B E].
      - cbn. pose proof (H 0 ltac:(lia)) as H0. rewrite Nat.add_0_r in H0. rewrite H0. lia.
      - intros i Hi. rewrite Nat.add_succ_comm. apply H. lia.
      - split; [now rewrite <- Nat.add_succ_comm|]. cbn [seq map repeat]. now rewrite E, boundary_first.
    Qed.
    Lemma stream_starts : forall src check c0 o, boundary o -> 0 < length src ->
      (length src = 1 \/ (N.of_nat ((length src - 1) * step) < c0)%N) -> (c0 <= N.of_nat ((length src - 1) * step + range))%N ->
      (forall i, i < length src -> row_of t (o + i) = nth i (stream_rows src check c0 step) no_row) ->
      boundary (o + length src) /\ map first_row (seq o (length src)) = map (fun i => i =? 0) (seq 0 (length src)).
    Proof.
      intros src check c0 o Bo Hk Hacc Hsz HR. set (k := length src) in *.
      assert (RW : forall i, i < k -> row_control t (o + i) = (c0 - N.of_nat (i * step))%N).
      { intros i Hi. specialize (HR i Hi). unfold stream_rows in HR.
        rewrite (nth_fun _ _ i (0, (fzero, fzero))) in HR by (rewrite combine_length, seq_length; fold k; lia).
        rewrite combine_nth in HR by apply seq_length. fold k in HR. rewrite seq_nth in HR by assumption.
        unfold row_of in HR. injection HR as _ R2 _ _. exact R2. }
      split.
      - destruct (o + k) as [|j] eqn:E; [exact I|]. replace j with (o + (k - 1)) by lia. cbn. rewrite RW by lia. lia.
      - rewrite (seq_by o k), map_map. apply map_ext_in. intros i Hi. apply in_seq in Hi. destruct i as [|i].
        + rewrite Nat.add_0_r. now apply boundary_first.
        + rewrite <- plus_n_Sm. cbn [first_row Nat.eqb]. apply N.leb_gt. rewrite RW by lia. destruct Hacc as [Hacc|Hacc]; [lia|].
          assert (X : i * step + range <= (k - 1) * step) by nia.
          assert (Y : (N.of_nat (i * step) + N.of_nat range <= N.of_nat ((k - 1) * step))%N) by lia. lia.
    Qed.
    Lemma call_starts : forall b o, accepted_call b -> sized range step b -> boundary o ->
      (forall i, i < length (builder_rows b) -> row_of t (o + i) = nth i (builder_rows b) no_row) ->
      boundary (o + length (builder_rows b)) /\ map first_row (seq o (length (builder_rows b))) = starts b.
    Proof.
      intros b o HA HS Bo HR.
      assert (PL : Forall (fun r : table_row => snd (fst (fst r)) = 0%N) (builder_rows b) -> starts b = map (fun _ => true) (builder_rows b) ->
        boundary (o + length (builder_rows b)) /\ map first_row (seq o (length (builder_rows b))) = starts b).
      { intros Z E. rewrite E, all_true. apply plain_starts; [exact Bo|]. intros i Hi.
        rewrite Forall_forall in Z. specialize (Z _ (nth_In _ no_row Hi)). rewrite <- HR in Z by exact Hi. exact Z. }
      destruct b as [src|src|src|src check c0 st|src c0 st].
      - apply PL; [|reflexivity]. cbn [builder_rows]. apply Forall_map, Forall_forall. intros x _. reflexivity.
      - apply PL; [|reflexivity]. cbn [builder_rows]. apply Forall_map, Forall_forall. now intros [x ck] _.
      - apply PL; [|reflexivity]. cbn [builder_rows]. apply Forall_map, Forall_forall. now intros [[x d] ck] _.
      - cbn [builder_rows starts] in *. rewrite rows_stream in *. destruct HS as [-> HS]. destruct HA as [HA1 HA2].
        now apply (stream_starts src check c0).
      - cbn [builder_rows starts] in *. rewrite rows_stream in *. destruct HS as [-> HS]. destruct HA as [HA1 HA2].
        now apply (stream_starts src None c0).
    Qed.
    Lemma calls_starts : forall bs o, Forall accepted_call bs -> Forall (sized range step) bs -> boundary o ->
      (forall i, i < length (flat_map builder_rows bs) -> row_of t (o + i) = nth i (flat_map builder_rows bs) no_row) ->
      boundary (o + length (flat_map builder_rows bs)) /\ map first_row (seq o (length (flat_map builder_rows bs))) = flat_map starts bs.
    Proof.
      induction bs as [|b bs IH]; intros o HA HS Bo HR; [cbn; rewrite Nat.add_0_r; auto|]. cbn [flat_map] in *. rewrite app_length in *.
      inversion_clear HA as [|? ? A1 A2]. inversion_clear HS as [|? ? S1 S2].
      destruct (call_starts b o A1 S1 Bo) as [B1 E1].
      { intros i Hi. rewrite (HR i) by lia. now rewrite app_nth1. }
      destruct (IH _ A2 S2 B1) as [B2 E2].
      { intros i Hi. rewrite <- Nat.add_assoc, HR by lia. rewrite app_nth2 by lia. f_equal. lia. }
      split; [now rewrite Nat.add_assoc|]. now rewrite seq_app, map_app, E1, E2.
    Qed.
  End Heads.

  Lemma table_of : forall C : hash_circuit F, host_columns C -> sc_table (hc_config C) = hc_table C.
  Proof. intros C HC. destruct (configured C HC) as [E _]. rewrite E. reflexivity. Qed.
  Lemma index_of : forall C : hash_circuit F, host_columns C -> commitment_index (hc_config C) = hc_table C.
  Proof. intros C HC. unfold commitment_index, hash_tbl_cols. rewrite map_map, map_id. exact (table_of C HC). Qed.

  Theorem columns_claim : forall C : hash_circuit F, host_columns C ->
    hash_tbl_cols (hc_config C) = map Adv (hc_table C) /\ commitment_index (hc_config C) = hc_table C
    /\ length (commitment_index (hc_config C)) = 6 /\ NoDup (commitment_index (hc_config C))
    /\ forall c, In c (hash_tbl_cols (hc_config C)) -> ~ added (hc_host C) (hc_cs C) c.
  Proof.
    intros C HC. pose proof HC as (_ & H6 & HN & HF). rewrite (index_of C HC). unfold hash_tbl_cols. rewrite (table_of C HC).
    split; [reflexivity|]. split; [reflexivity|]. split; [exact H6|]. split; [exact HN|].
    intros c Hc Ha. apply in_map_iff in Hc. destruct Hc as (i & <- & Hi). rewrite Forall_forall in HF. specialize (HF i Hi).
    destruct Ha as [Ha _]. lia.
  Qed.

  Lemma zero_writes : forall (l : list nat) c r (v : option F), In (c, r, v) (map (fun c => (c, 0, Some fzero)) l) -> v = Some fzero.
  Proof. intros l c r v H. apply in_map_iff in H. destruct H as (c' & H & _). now injection H as _ _ <-. Qed.
  Lemma zero_before : forall (l : list nat) (w : list (nat * nat * option F)) c r, (forall v, ~ In (c, r, v) w) ->
    match last_write (map (fun c => (c, 0, Some fzero)) l ++ w) c r with Some (Some v) => v | _ => fzero end = fzero :> F.
  Proof.
    intros l w c r H. rewrite last_write_app, (last_write_none w) by exact H.
    destruct (last_write (map (fun c => (c, 0, Some fzero)) l) c r) as [[v|]|] eqn:E; try reflexivity.
    apply last_write_in, zero_writes in E. now injection E.
  Qed.
  Lemma six : forall (l : list nat) (adv : nat -> nat -> F) r, length l = 6 ->
    line l adv r = [adv (nth 0 l 0) r; adv (nth 1 l 0) r; adv (nth 2 l 0) r; adv (nth 3 l 0) r; adv (nth 4 l 0) r; adv (nth 5 l 0) r].
  Proof. intros l adv r H. do 7 (destruct l as [|? l]; try discriminate). reflexivity. Qed.

  Theorem lines_claim : forall c (C : hash_circuit F) mode calcs bs t L0 L1 L copies n u blind step,
    builder_runs bs empty_table = Ok t -> Forall (sized (hc_range C) step) bs -> hc_range C <= step -> table_size t <= calcs ->
    set_up c C mode calcs t L0 L1 L copies n u ->
    let here := line (commitment_index (hc_config C)) (honest u L blind) in
    map (fun i => Ok (here (S i))) (seq 0 (table_size t)) = flat_map (call_lines (hc_legacy C) (hc_spec C)) bs
    /\ (forall i, table_size t <= i < calcs -> Ok (here (S i)) = filled (hc_legacy C) (hash_with_domain (hc_spec C) (fzero, fzero) fzero) no_row true)
    /\ forall r, r < u -> r = 0 \/ calcs < r -> here r = blank.
  Proof.
    intros c C mode calcs bs t L0 L1 L copies n u blind step HB HS Hr Hcap SU here.
    pose proof (contents_claim c C mode calcs bs t L0 L1 L copies n u blind step HB HS Hr Hcap SU) as HD.
    destruct SU as (HC & HL & (short & h & B & Hh) & Hu & _).
    destruct (build_facts _ _ _ _ _ B) as (Hc & (base & Hs) & HP & HPm & Hlen).
    destruct (builder_claim bs t HB) as [E1 E2].
    assert (H6 : length (hc_table C) = 6) by apply HC.
    pose proof (honest_rows C _ h HC HP HPm mode calcs t L0 L1 L copies u blind HL Hu) as HR. cbn zeta in HR.
    assert (HN : forall i, i < calcs -> here (S i) = [digest C (honest u L blind) (S i); fst (row_input t i); snd (row_input t i);
      length_code (hc_legacy C) (row_control t i); row_domain t i; flag_bool (first_row (hc_range C) t i)]).
    { intros i Hi. unfold here. rewrite (index_of C HC), six by exact H6. destruct (HR i Hi) as (V1 & V2 & V3 & V4 & V5 & _).
      unfold in1, in2, control, domain, head, digest, tcell in *. now rewrite V1, V2, V3, V4, V5. }
    destruct (calls_starts (hc_range C) step Hr t bs 0 (runs_accepted _ _ _ HB) HS I) as [BD ST].
    { intros i _. exact (E2 i). }
    rewrite <- E1 in ST, BD. cbn [Nat.add] in BD. split; [|split].
    - rewrite lines_flat, <- HD, <- ST.
      assert (RS : flat_map builder_rows bs = map (row_of t) (seq 0 (table_size t))).
      { rewrite (map_ext _ _ E2), E1. symmetry. apply ListAux.map_seq_nth. }
      rewrite RS, !combine_maps, map_map. apply map_ext_in. intros i Hi. apply in_seq in Hi. rewrite HN by lia. reflexivity.
    - intros i [Hi1 Hi2]. rewrite HN by exact Hi2.
      pose proof (E2 i) as NR. rewrite nth_overflow in NR by lia. unfold row_of, no_row in NR. injection NR as N1 N2 N3 N4.
      assert (BI : boundary (hc_range C) t i).
      { destruct i as [|j]; [exact I|]. destruct (Nat.eq_dec (S j) (table_size t)) as [E|E]; [now rewrite E|]. cbn.
        pose proof (E2 j) as NJ. rewrite nth_overflow in NJ by lia. unfold row_of, no_row in NJ. injection NJ as _ NJ _ _. rewrite NJ. lia. }
      destruct (plain_rows c base (hc_spec C) Hc Hs (hc_legacy C) (hc_range C) step calcs Hr t (fun i => digest C (honest u L blind) (S i))
        ltac:(intros i' k' A1 A2 A3; destruct (HR i' ltac:(lia)) as (_ & _ & _ & _ & _ & X & _); exact (X k' A1 A2 A3))
        [((fzero, fzero), fzero, None)] i BI ltac:(cbn [length]; lia)) as [_ PD].
      { intros [|i'] Hi'; [|cbn [length] in Hi'; lia]. rewrite Nat.add_0_r. cbn [map nth]. unfold row_of. now rewrite N1, N2, N3, N4. }
      cbn [length seq map] in PD. injection PD as PD. rewrite <- PD. cbn [filled no_row fst snd].
      rewrite N1, N2, N3, boundary_first by exact BI. reflexivity.
    - intros r Hru Hr0. destruct (chip_is_here C _ h HC HP) as (D & HD').
      destruct (loaded_final C _ h HC D mode calcs t L0 L1 L copies HD' HL) as (_ & ins & finals & _ & FF).
      pose proof (honest_written C _ _ _ _ _ _ _ _ _ u blind FF) as W.
      assert (TL : length (sc_table (hc_config C)) = 6) by (rewrite (table_of C HC); exact H6).
      assert (AL : length (sc_aux (hc_config C)) = 6) by (destruct (configured C HC) as [E _]; rewrite E; reflexivity).
      assert (Z : forall j, j < 6 -> honest u L blind (nth j (hc_table C) 0) r = fzero).
      { intros j Hj. assert (IC : In (nth j (hc_table C) 0) (tcols (hc_chip C) (hc_config C))).
        { unfold tcols. rewrite (table_of C HC). apply in_or_app. left. apply nth_In. lia. }
        rewrite (W _ _ IC Hru). apply zero_before. intros v X.
        apply (rows_writes_in _ _ _ _ _ TL AL) in X; [|right; reflexivity]. destruct X as (_ & X1 & X2). rewrite raw_rows_length in X1.
        unfold r_start in X2. cbn [loop_start lp_new] in X2. clear - X1 X2 Hr0. lia. }
      unfold here. rewrite (index_of C HC), six by exact H6. rewrite !Z by lia. reflexivity.
  Qed.
End Claims.
