(** The lemmas behind PropertiesWorkers.v. *)
From Coq Require Import ZArith NArith List Arith Lia Bool.
From Verif Require Import Field Rust ListAux Primitives Specs BaseHash SpecHash BigSum Link Base_claims Halo2 Septidon PermuteChip
  ChipUse Pow5 Layout_proof Contract SeptVal_proof SeptGate_proof SeptBlock_proof SeptLayout_proof SeptChip_proof Stack_proof Sept_claims SpongeTable TableRows_proof TableLoad_proof TableUse
  TableInv_proof Table_claims Workers.
Import ListNotations.
Local Open Scope nat_scope.
Local Opaque hc_config hc_cs.

Section Claims.
  Context {F : Type} {FO : FieldOps F} {PF : PrimeField F}.

  Lemma single_split : forall {A} c lens (ps : list (Region F A * Region F A)) (L : layout F) threads,
    single_shape c (length (lo_starts L)) ps lens -> length lens <= threads ->
    split_rows threads (lo_next L (Adv c)) lens ps L.
  Proof.
    intros A c lens ps L threads H Ht. exists (spans (lo_next L (Adv c)) lens).
    split; [now apply single_ranges|]. generalize (lo_next L (Adv c)) as t. clear - H Ht.
    assert (G : forall lens (ps : list (Region F A * Region F A)) ri t, single_shape c ri ps lens ->
      length (spans t lens) = length ps /\ length (spans t lens) = length lens /\ tiled t (list_sum lens + t) (spans t lens)
      /\ map (fun '(a, b) => b - a) (spans t lens) = lens
      /\ forall i p1 p2 a b evs x, nth_error ps i = Some (p1, p2) -> nth_error (spans t lens) i = Some (a, b) ->
           p2 (i + ri) = Ok (evs, x) -> forall q o, In (q, o) (touched evs) -> o + a < b).
    { clear. induction lens as [|n lens IH]; intros [|[p1 p2] ps] ri t H; cbn [single_shape] in H; try easy.
      - cbn. do 4 (split; [reflexivity|]). intros [|i] * X; discriminate.
      - destruct H as (Hn & _ & K & H). destruct (IH ps (S ri) (n + t) H) as (I1 & I2 & I3 & I4 & I5).
        change (list_sum (n :: lens)) with (n + list_sum lens). cbn [spans length map tiled]. split; [congruence|]. split; [congruence|].
        split; [|split].
        + split; [reflexivity|]. split; [lia|]. replace (n + list_sum lens + t) with (list_sum lens + (n + t)) by lia. exact I3.
        + f_equal; [lia|exact I4].
        + intros [|i] q1 q2 a b evs x E1 E2 E3 q o Ho; cbn [nth_error] in E1, E2.
          * injection E1 as <- <-. injection E2 as <- <-. cbn [Nat.add] in E3. specialize (K _ _ E3 _ _ Ho). lia.
          * eapply I5; [exact E1|exact E2| |exact Ho]. rewrite Nat.add_succ_r. exact E3. }
    intros t. destruct (G lens ps _ t H) as (G1 & G2 & G3 & G4 & G5).
    split; [exact G1|]. split; [lia|]. split; [exact G3|]. split; [exact G4|exact G5].
  Qed.

  (** the table *)
  Lemma chunks_sizes : forall STEP m (data chunk : list (@raw_row F)),
    forall i x, S i < length (SpongeTable.chunks STEP m chunk data) -> nth_error (SpongeTable.chunks STEP m chunk data) i = Some x ->
      m <= length x /\ exists y r, x = y ++ [r] /\ (unwrap_or (snd (fst r)) 0 <= N.of_nat STEP)%N.
  Proof.
    intros STEP m data. induction data as [|r data IH]; intros chunk i x Hi E; cbn [SpongeTable.chunks] in *.
    - destruct chunk; cbn in Hi; lia.
    - destruct ((unwrap_or (snd (fst r)) 0 <=? N.of_nat STEP)%N && (m <=? length (chunk ++ [r]))) eqn:B.
      + apply andb_prop in B. destruct B as [B1 B2]. apply N.leb_le in B1. apply Nat.leb_le in B2.
        destruct i as [|i]; cbn [nth_error] in E.
        * injection E as <-. split; [exact B2|]. exists chunk, r. now split.
        * cbn [length] in Hi. eapply IH; [|exact E]. lia.
      + eapply IH; eassumption.
  Qed.
  Lemma few_parts : forall {A} (l : list (list A)) m n threads, 0 < threads -> (forall x, In x l -> x <> []) ->
    (forall i x, S i < length l -> nth_error l i = Some x -> m <= length x) -> length (concat l) = n -> n < m * threads ->
    length l <= threads.
  Proof.
    intros A l m n threads Ht Hne Hm Hn Hlt.
    assert (G : forall l : list (list A), (forall x, In x l -> x <> []) ->
      (forall i x, S i < length l -> nth_error l i = Some x -> m <= length x) -> m * (length l - 1) <= length (concat l)).
    { clear. induction l as [|x [|y l] IH]; intros Hne Hm; [cbn; lia|cbn; lia|].
      assert (H1 : m <= length x) by (apply (Hm 0); [cbn; lia|reflexivity]).
      assert (H2 : m * (length (y :: l) - 1) <= length (concat (y :: l))).
      { apply IH; [intros; apply Hne; now right|]. intros i z Hi E. apply (Hm (S i)); [cbn in *; lia|exact E]. }
      change (concat (x :: y :: l)) with (x ++ concat (y :: l)). rewrite app_length.
      change (length (x :: y :: l)) with (S (length (y :: l))). cbn [length] in *. nia. }
    specialize (G l Hne Hm). rewrite Hn in G.
    destruct (Nat.le_gt_cases (length l) threads) as [|X]; [assumption|exfalso].
    assert (m * threads <= m * (length l - 1)) by (apply Nat.mul_le_mono_l; lia). lia.
  Qed.
  Lemma div_cover : forall n threads k, 0 < threads -> 0 < k -> n < (n / threads + k) * threads.
  Proof.
    intros n threads k Ht Hk. pose proof (Nat.div_mod n threads ltac:(lia)). pose proof (Nat.mod_upper_bound n threads ltac:(lia)). nia.
  Qed.

  (** C71: the table *)
  Theorem table_workers_claim : forall c (C : hash_circuit F) short h threads calcs t L0,
    build c short (hc_spec C) (hc_chip C) h -> host_columns C -> table_free C L0 -> 0 < threads ->
    let rows := load_rows (hc_legacy C) (hc_chip C) (hc_range C) (hc_spec C) (hc_config C) (Parallel threads) calcs t in
    exists L ps parts,
      rows L0 = lbind (assign_regions ps) (fun ret => lret (concat (map fst ret), concat (map snd ret))) L
      /\ split_rows threads 1 (map (@length raw_row) parts) ps L
      /\ concat parts = raw_rows calcs t /\ length (raw_rows calcs t) = calcs
      /\ forall i x, S i < length parts -> nth_error parts i = Some x ->
           exists y r, x = y ++ [r] /\ (unwrap_or (snd (fst r)) 0 <= N.of_nat (hc_range C))%N.
  Proof.
    intros c C short h threads calcs t L0 B HC TF Ht rows.
    destruct (build_facts _ _ _ _ _ B) as (_ & _ & HP & _ & _). destruct (chip_is_here C _ h HC HP) as (D & HD).
    assert (FREE : tab_free (hc_chip C) (hc_config C) L0).
    { intros q Hq. apply (proj1 TF). eapply tab_table_columns; eassumption. }
    destruct (tab_length C HC) as [T1 T2].
    destruct (custom_region _ _ T1 T2 L0 FREE) as (L1 & E1 & S1 & N1 & _).
    set (cks := SpongeTable.chunks (hc_range C) (calcs / threads + 1) [] (raw_rows calcs t)).
    destruct (chunks_ok (hc_range C) (calcs / threads + 1) (raw_rows calcs t) []) as [Cc Ca].
    fold cks in Cc, Ca. cbn [app] in Cc.
    exists L1, (partial_regions (hc_legacy C) (hc_chip C) (hc_range C) (hc_spec C) (hc_config C) cks), cks.
    assert (X0 : lo_next L1 (Adv (col (sc_aux (hc_config C)) 0)) = 1).
    { rewrite N1. replace (existsb _ _) with true; [reflexivity|]. symmetry. apply existsb_exists.
      exists (col (sc_aux (hc_config C)) 0). split; [apply col_aux_in; (assumption || lia)|apply column_eqb_refl]. }
    split; [|split; [|split; [exact Cc|split; [apply raw_rows_length|]]]].
    - unfold rows, load_rows. rewrite (lbind_ok _ _ _ _ _ E1). reflexivity.
    - rewrite <- X0. rewrite partial_regions_from. apply single_split.
      + apply chunks_single; try assumption. eapply aligned_ne; exact Ca.
      + rewrite map_length. apply (few_parts cks (calcs / threads + 1) calcs threads Ht).
        * pose proof (aligned_ne _ _ Ca) as Z. rewrite Forall_forall in Z. exact Z.
        * intros i x Hi E. exact (proj1 (chunks_sizes _ _ _ _ i x Hi E)).
        * rewrite Cc. exact (raw_rows_length calcs t).
        * exact (div_cover calcs threads 1 Ht Nat.lt_0_1).
    - intros i x Hi E. exact (proj2 (chunks_sizes _ _ _ _ i x Hi E)).
  Qed.

  (** C71: the permutations *)
  Lemma cut_sizes : forall {A} k (l : list A), 0 < k -> forall i x, S i < length (Septidon.chunks k l) ->
    nth_error (Septidon.chunks k l) i = Some x -> length x = k.
  Proof.
    intros A k l Hk. unfold Septidon.chunks.
    assert (G : forall fuel (l : list A) i x, S i < length (chunks_aux fuel k l) -> nth_error (chunks_aux fuel k l) i = Some x -> length x = k).
    { induction fuel as [|fuel IH]; intros [|y l0] i x Hi E; cbn [chunks_aux] in *; try (cbn in Hi; lia).
      destruct i as [|i]; cbn [nth_error] in E.
      - injection E as <-. cbn [length] in Hi. rewrite firstn_length.
        destruct (Nat.le_gt_cases k (length (y :: l0))) as [|X]; [lia|exfalso].
        rewrite skipn_all2 in Hi by lia. destruct fuel; cbn in Hi; lia.
      - eapply IH; [|exact E]. cbn [length] in Hi. lia. }
    apply G.
  Qed.
  Theorem batch_workers_claim : forall (rcs m : list (list F)) host threads wss (L : layout F),
    65 <= length rcs -> 0 < threads -> Forall (fun ws => length ws = 3) wss ->
    let P := septidon_chip rcs m in
    let cfg := fst (pc_configure P host) in
    exists t sizes ps,
      pc_permute_batch P threads cfg wss L = lbind (assign_regions ps) (fun r => lret (concat r)) L
      /\ split_rows threads t (map (Nat.mul 8) sizes) ps L
      /\ list_sum sizes = length wss /\ (exists col, added host (snd (pc_configure P host)) (Adv col) /\ t = lo_next L (Adv col)).
  Proof.
    intros rcs m host threads wss L HL Ht H3 P cfg.
    set (css := Septidon.chunks (length wss / threads + 2) wss).
    destruct (chunks_concat rcs HL (length wss / threads + 2) wss ltac:(lia)) as [CC CN]. fold css in CC, CN.
    exists (lo_next L (Adv (12 + cs_adv host))), (map (@length _) css), (map (pass rcs m (cs_adv host) (cs_fix host)) css).
    assert (EC : cfg = chip_of (cs_adv host) (cs_fix host)) by (unfold cfg, P; cbn [pc_configure septidon_chip]; now rewrite configure_chip).
    split; [|split; [|split]].
    - rewrite EC. reflexivity.
    - rewrite map_map. apply single_split.
      + apply batch_single; [exact HL| |exact CN]. rewrite <- CC in H3. clear - H3.
        induction css as [|ch css IH]; constructor; cbn in H3; apply Forall_app in H3; [apply H3|apply IH, H3].
      + rewrite map_length. apply (few_parts css (length wss / threads + 2) (length wss) threads Ht).
        * rewrite Forall_forall in CN. exact CN.
        * intros i x Hi E. rewrite (cut_sizes (length wss / threads + 2) wss ltac:(lia) i x Hi E). lia.
        * now rewrite CC.
        * apply div_cover; lia.
    - transitivity (length (concat css)); [|now rewrite CC]. clear. induction css as [|ch css IH]; [reflexivity|]. cbn. rewrite app_length. unfold list_sum in IH. lia.
    - exists (12 + cs_adv host). split; [|reflexivity]. destruct (configure_cs rcs m host) as (A & _).
      change (cs_adv host <= 12 + cs_adv host < cs_adv (snd (septidon_configure rcs m host))). rewrite A. lia.
  Qed.
End Claims.
