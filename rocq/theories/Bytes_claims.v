(** The lemmas behind PropertiesBytes.v. *)
From Coq Require Import ZArith NArith List Arith Lia Bool.
From Coq.Init Require Import Byte.
From Verif Require Import Field Rust ListAux Primitives Specs BaseHash SpecHash Link Base_claims Halo2 PermuteChip ChipUse SpongeTable TableUse LookupUse
  CollisionUse Collision_claims TableBuild_claims TableLookup_claims BytesUse.
Import ListNotations.
Local Open Scope nat_scope.

Lemma byte_bound : forall b, (0 <= Z.of_N (Byte.to_N b) < 256)%Z.
Proof. intros b. pose proof (Byte.to_N_bounded b). lia. Qed.

Lemma byte_inj : forall a b, Byte.to_N a = Byte.to_N b -> a = b.
Proof. intros a b H. apply (f_equal Byte.of_N) in H. rewrite !Byte.of_to_N in H. now injection H. Qed.

Lemma word_bound : forall l, (0 <= word_value l < 256 ^ Z.of_nat (length l))%Z.
Proof.
  induction l as [|b l IH]; [cbn; lia|]. cbn [word_value fold_right length]. fold (word_value l).
  rewrite Nat2Z.inj_succ, Z.pow_succ_r by lia. pose proof (byte_bound b). lia.
Qed.

Lemma word_inj : forall l1 l2, length l1 = length l2 -> word_value l1 = word_value l2 -> l1 = l2.
Proof.
  induction l1 as [|a l1 IH]; intros [|b l2] L H; try discriminate L; [reflexivity|].
  cbn [word_value fold_right] in H. fold (word_value l1) (word_value l2) in H.
  pose proof (byte_bound a). pose proof (byte_bound b).
  assert (A : Z.of_N (Byte.to_N a) = Z.of_N (Byte.to_N b)) by lia.
  f_equal; [apply byte_inj; lia|]. apply IH; [now injection L|lia].
Qed.

(** the chunks of [k] bytes determine the message *)
Lemma chunks_eq : forall A k n (l1 l2 : list A), 0 < k -> length l1 <= n * k -> length l2 <= n * k ->
  (forall j, j < n -> firstn k (skipn (j * k) l1) = firstn k (skipn (j * k) l2)) -> l1 = l2.
Proof.
  intros A k n. induction n as [|n IH]; intros l1 l2 Hk H1 H2 H.
  - destruct l1, l2; cbn in *; try lia. reflexivity.
  - rewrite <- (firstn_skipn k l1), <- (firstn_skipn k l2). f_equal; [exact (H 0 ltac:(lia))|].
    apply IH; [exact Hk|rewrite skipn_length; lia..|]. intros j Hj. rewrite !skipn_skipn.
    replace (j * k + k) with (S j * k) by lia. apply H. lia.
Qed.

Lemma row_count_bounds : forall k l, 0 < k -> l <> [] ->
  byte_row_count k l <> 0 /\ (byte_row_count k l - 1) * (2 * k) < length l <= byte_row_count k l * (2 * k).
Proof.
  intros k l Hk Hl. unfold byte_row_count. assert (0 < length l) by (destruct l; [easy|cbn; lia]).
  set (q := (length l + (2 * k - 1)) / (2 * k)).
  assert (A : 2 * k * q <= length l + (2 * k - 1)) by (apply Nat.mul_div_le; lia).
  assert (B : length l + (2 * k - 1) < 2 * k * S q) by (apply Nat.mul_succ_div_gt; lia).
  assert (q <> 0) by (intros Z; rewrite Z in B; lia). nia.
Qed.

Section Claims.
  Context {F : Type} {FO : FieldOps F} {PF : PrimeField F}.

  Lemma byte_rows_length : forall k l, length (byte_rows (F := F) k l) = byte_row_count k l.
  Proof. intros k l. unfold byte_rows. now rewrite map_length, seq_length. Qed.

  Lemma byte_words_nth : forall k l j, j < 2 * byte_row_count k l -> nth j (byte_words (F := F) k l) fzero = byte_word k l j.
  Proof.
    intros k l. unfold byte_words, byte_rows. 
    assert (G : forall n s j, j < 2 * n ->
      nth j (flat_map (fun '(a, b) => [a; b]) (map (fun i => (byte_word (F := F) k l (2 * i), byte_word k l (2 * i + 1))) (seq s n))) fzero
      = byte_word k l (2 * s + j)).
    { induction n as [|n IH]; intros s j Hj; [lia|]. cbn [seq map flat_map app].
      destruct j as [|[|j]]; [cbn [nth]; f_equal; lia|cbn [nth]; f_equal; lia|]. cbn [nth]. rewrite IH by lia. f_equal. lia. }
    intros j Hj. rewrite G by exact Hj. f_equal.
  Qed.

  Lemma byte_words_length : forall k l, length (byte_words (F := F) k l) = 2 * byte_row_count k l.
  Proof.
    intros k l. unfold byte_words. rewrite <- (byte_rows_length k l). induction (byte_rows k l) as [|[a b] r IH]; [reflexivity|].
    cbn [flat_map app length]. lia.
  Qed.

  (** ** The encoding *)
  Lemma words_inj : forall k l1 l2, 0 < k -> (256 ^ Z.of_nat k <= modulus (F := F))%Z -> length l1 = length l2 ->
    byte_words (F := F) k l1 = byte_words k l2 -> l1 = l2.
  Proof.
    intros k l1 l2 Hk Hp L H.
    destruct (Nat.eq_dec (length l1) 0) as [Z|Z]. { destruct l1, l2; try discriminate; reflexivity. }
    assert (N1 : l1 <> []) by (now destruct l1). assert (N2 : l2 <> []) by (destruct l2; [cbn in L; lia|easy]).
    destruct (row_count_bounds k l1 Hk N1) as [_ [_ B1]]. destruct (row_count_bounds k l2 Hk N2) as [_ [_ B2]].
    assert (Q : byte_row_count k l1 = byte_row_count k l2) by (unfold byte_row_count; now rewrite L).
    apply (chunks_eq _ k (2 * byte_row_count k l1)); [exact Hk|lia|rewrite Q; lia|]. intros j Hj.
    apply word_inj; [rewrite !firstn_length, !skipn_length; lia|].
    pose proof (f_equal (fun l => nth j l fzero) H) as E. cbn beta in E. rewrite !byte_words_nth in E by lia. unfold byte_word in E.
    assert (R : forall l : list byte, (0 <= word_value (firstn k l) < modulus (F := F))%Z).
    { intros l. pose proof (word_bound (firstn k l)) as W. split; [apply W|]. eapply Z.lt_le_trans; [apply W|].
      eapply Z.le_trans; [|exact Hp]. apply Z.pow_le_mono_r; [lia|]. pose proof (firstn_le_length k l). lia. }
    exact (of_Z_inj _ _ (R _) (R _) E).
  Qed.

  Theorem encoding_claim : forall k l, 0 < k -> l <> [] ->
    length (byte_words (F := F) k l) = 2 * length (byte_rows (F := F) k l)
    /\ (length (byte_rows (F := F) k l) - 1) * (2 * k) < length l <= length (byte_rows (F := F) k l) * (2 * k)
    /\ ((256 ^ Z.of_nat k <= modulus (F := F))%Z -> forall l', length l' = length l -> byte_words (F := F) k l' = byte_words k l -> l' = l).
  Proof.
    intros k l Hk Hl. rewrite byte_words_length, byte_rows_length. destruct (row_count_bounds k l Hk Hl) as [_ B].
    split; [reflexivity|]. split; [exact B|]. intros Hp l' L E. exact (words_inj k l' l Hk Hp L E).
  Qed.

  Lemma blocks_even : forall m1 m2 : list F, length m1 mod 2 = 0 -> length m2 mod 2 = 0 ->
    blocks 2 (pad_zeros 2 m1) = blocks 2 (pad_zeros 2 m2) -> m1 = m2.
  Proof.
    intros m1 m2 H1 H2 H. apply (proj1 (proj1 (proj2 (commits_claim m1 m2)))) in H. destruct H as [H|[[O _]|[O _]]]; [exact H|..]; exfalso;
      apply Nat.odd_spec in O; destruct O as [q O]; rewrite O in *;
      replace (2 * q + 1) with (1 + q * 2) in * by lia; rewrite Nat.mod_add in * by lia; discriminate.
  Qed.

  (** ** Collisions *)
  Theorem byte_collision_claim : forall short legacy c s k l1 l2 (d : F), constants_ok c -> cached_hash_spec short c = Ok s ->
    0 < k -> (256 ^ Z.of_nat k <= modulus (F := F))%Z ->
    (Z.of_N (byte_capacity legacy l1) < modulus (F := F))%Z -> (Z.of_N (byte_capacity legacy l2) < modulus (F := F))%Z ->
    byte_hash legacy s k l1 = Ok d -> byte_hash legacy s k l2 = Ok d -> l1 <> l2 ->
    let P := poseidon_permutation c in
    let K l := of_Z (Z.of_N (byte_capacity legacy l)) in
    let calls l := hash_calls P 3 2 1 0 (K l) (byte_words k l) in
    inner_collision P 3 2 1 (calls l1) (calls l2)
    \/ capacity_preimage P 3 2 1 0 (calls l1) (K l2) \/ capacity_preimage P 3 2 1 0 (calls l2) (K l1).
  Proof.
    intros short legacy c s k l1 l2 d Hc Hs Hk Hp B1 B2 H1 H2 N P K calls.
    destruct (message_collision_claim short legacy c s _ _ _ _ d Hc Hs H1 H2) as [[A B]|A]; [|exact A].
    exfalso. apply N. cbn beta iota in A. apply of_Z_inj in A; [|split; [apply N2Z.is_nonneg|assumption]..].
    apply (words_inj k); [exact Hk|exact Hp| |].
    - unfold byte_capacity in A. destruct legacy; lia.
    - apply blocks_even; [rewrite byte_words_length, Nat.mul_comm; now apply Nat.mod_mul..|exact B].
  Qed.
  (** ** The table *)
  Theorem byte_table_claim : forall k msgs, 0 < k -> Forall (fun l => l <> []) msgs ->
    exists t, builder_runs (map (stream_bytes (F := F) k) msgs) empty_table = Ok t
      /\ let rows := flat_map (fun l => map (fun i => (l, i)) (seq 0 (byte_row_count k l))) msgs in
         table_size t = length rows
         /\ forall r l i, nth_error rows r = Some (l, i) ->
              row_of t r = ((byte_word k l (2 * i), byte_word k l (2 * i + 1)), N.of_nat (length l - i * (2 * k)), fzero, None)
              /\ (0 < length l - i * (2 * k) /\ (S i = byte_row_count k l -> length l - i * (2 * k) <= 2 * k)).
  Proof.
    intros k msgs Hk Hm.
    assert (S : session_ok true (map (stream_bytes (F := F) k) msgs)).
    { induction Hm as [|l msgs Hl Hm IH]; cbn [map session_ok]; [exact I|]. split; [reflexivity|]. split; [|exact IH].
      destruct (row_count_bounds k l Hk Hl) as [Q [B _]]. unfold stream_fits. rewrite byte_rows_length. split; [lia|right; lia]. }
    destruct (proj2 (session_claim _) S) as [t H]. exists t. split; [exact H|]. cbn zeta. clear S.
    destruct (builder_claim _ _ H) as [E1 E2]. clear H.
    assert (G : flat_map builder_rows (map (stream_bytes (F := F) k) msgs)
      = map (fun '(l, i) => ((byte_word k l (2 * i), byte_word k l (2 * i + 1)), N.of_nat (length l - i * (2 * k)), fzero, None))
            (flat_map (fun l => map (fun i => (l, i)) (seq 0 (byte_row_count k l))) msgs)).
    { clear. induction msgs as [|l msgs IH]; [reflexivity|]. cbn [map flat_map]. rewrite map_app, IH. f_equal.
      cbn [builder_rows stream_bytes]. unfold stream_rows. rewrite byte_rows_length, map_map. unfold byte_rows.
      assert (Q : forall n s, combine (seq s n) (map (fun i => (byte_word (F := F) k l (2 * i), byte_word k l (2 * i + 1))) (seq s n))
        = map (fun i => (i, (byte_word k l (2 * i), byte_word k l (2 * i + 1)))) (seq s n)).
      { induction n as [|n IHn]; intros s; [reflexivity|]. cbn [seq map combine]. now rewrite IHn. }
      rewrite Q, map_map. apply map_ext. intros i. destruct (_ =? _); (f_equal; f_equal; f_equal; lia). }
    rewrite G in E1, E2. rewrite map_length in E1. split; [exact E1|]. intros r l i Hr. rewrite E2. split.
    - apply nth_error_nth. rewrite nth_error_map, Hr. reflexivity.
    - apply nth_error_In in Hr. apply in_flat_map in Hr. destruct Hr as (l' & Hl' & Hi). apply in_map_iff in Hi.
      destruct Hi as (i' & E & Hi). injection E as -> ->. apply in_seq in Hi. rewrite Forall_forall in Hm.
      destruct (row_count_bounds k l Hk (Hm l Hl')) as [Q B]. nia.
  Qed.

  Theorem byte_contents_claim : forall c (C : hash_circuit F) mode calcs k msgs t L0 L1 L copies n u blind,
    0 < k -> Forall (fun l => l <> []) msgs -> hc_range C = 2 * k ->
    builder_runs (map (stream_bytes (F := F) k) msgs) empty_table = Ok t -> table_size t <= calcs ->
    set_up c C mode calcs t L0 L1 L copies n u ->
    map (fun i => Ok (digest C (honest u L blind) (S i))) (seq 0 (table_size t))
    = flat_map (fun l => repeat (byte_hash (hc_legacy C) (hc_spec C) k l) (byte_row_count k l)) msgs.
  Proof.
    intros c C mode calcs k msgs t L0 L1 L copies n u blind Hk Hm Hr H Hcap HS.
    rewrite (contents_claim c C mode calcs _ t L0 L1 L copies n u blind (2 * k) H); [|..|exact Hcap|exact HS].
    - clear. induction msgs as [|l msgs IH]; [reflexivity|]. cbn [map flat_map]. rewrite IH. f_equal.
      cbn [api_hashes stream_bytes]. now rewrite byte_rows_length.
    - clear - Hk Hm Hr. induction Hm as [|l msgs Hl Hm IH]; cbn [map]; constructor; [|exact IH]. cbn [sized stream_bytes].
      split; [reflexivity|]. rewrite byte_rows_length, Hr. destruct (row_count_bounds k l Hk Hl) as [Q B]. nia.
    - rewrite Hr. apply le_n.
  Qed.

  (** ** Lookups *)
  Lemma looks_up_rows : forall (C : hash_circuit F) adv calcs k l d row, hc_step C = 2 * k -> looks_up C adv calcs k l d row ->
    looked_up C adv calcs d (length l) (byte_rows k l) row.
  Proof.
    intros C adv calcs k l d row HS [Hh HI]. split; [|exact Hh].
    rewrite byte_rows_length. intros i Hi. destruct (HI i Hi) as [Hr E]. split; [exact Hr|].
    unfold table_tuple in E. cbn [map] in E. injection E as E0 E1 E2 E3 E4. unfold byte_rows.
    rewrite HS. split; [exact E0|]. split; [|split; [exact E3|exact E4]].
    rewrite (nth_indep _ _ (byte_word k l (2 * 0), byte_word k l (2 * 0 + 1))) by (now rewrite map_length, seq_length).
    rewrite (map_nth (fun i => (byte_word (F := F) k l (2 * i), byte_word k l (2 * i + 1)))), seq_nth by exact Hi.
    rewrite Nat.add_0_l. unfold in1, in2. now rewrite E1, E2.
  Qed.
  Lemma rows_nonempty : forall k l, 0 < k -> l <> [] -> byte_rows (F := F) k l <> [].
  Proof.
    intros k l Hk Hl E. destruct (row_count_bounds k l Hk Hl) as [Q _]. apply (f_equal (@length _)) in E.
    rewrite byte_rows_length in E. exact (Q E).
  Qed.

  Theorem byte_lookup_claim : forall c (C : hash_circuit F) calcs adv k l d row, accepted c C calcs adv ->
    (Z.of_nat (calcs * hc_step C + hc_range C) * (if hc_legacy C then 1 else 2 ^ 64) < modulus (F := F))%Z ->
    hc_step C = 2 * k -> hc_range C = 2 * k -> collision_free C adv calcs ->
    (Z.of_N (byte_capacity (hc_legacy C) l) < modulus (F := F))%Z ->
    0 < k -> l <> [] -> looks_up C adv calcs k l d row ->
    byte_hash (hc_legacy C) (hc_spec C) k l = Ok d.
  Proof.
    intros c C calcs adv k l d row HA Bd HS HR CF HC Hk Hl U. destruct (looks_up_rows C adv calcs k l d row HS U) as [HI Hh].
    destruct (row_count_bounds k l Hk Hl) as [Q B].
    refine (message_lookup_claim c C calcs adv d (length l) (byte_rows k l) row HA Bd _ CF _ _ _ HI Hh).
    - rewrite HS, HR. apply le_n.
    - now apply rows_nonempty.
    - rewrite byte_rows_length, HS, HR. nia.
    - unfold byte_capacity in HC. destruct (hc_legacy C); lia.
  Qed.

  (** two messages looked up with one digest *)
  Theorem byte_lookups_claim : forall c (C : hash_circuit F) calcs adv k l1 l2 d row1 row2, accepted c C calcs adv ->
    (Z.of_nat (calcs * hc_step C + hc_range C) * (if hc_legacy C then 1 else 2 ^ 64) < modulus (F := F))%Z ->
    hc_step C = 2 * k -> hc_range C = 2 * k -> collision_free C adv calcs -> (256 ^ Z.of_nat k <= modulus (F := F))%Z ->
    (Z.of_N (byte_capacity (hc_legacy C) l1) < modulus (F := F))%Z -> (Z.of_N (byte_capacity (hc_legacy C) l2) < modulus (F := F))%Z ->
    0 < k -> l1 <> [] -> l2 <> [] -> looks_up C adv calcs k l1 d row1 -> looks_up C adv calcs k l2 d row2 -> l1 = l2.
  Proof.
    intros c C calcs adv k l1 l2 d row1 row2 HA Bd HS HR CF Hp B1 B2 Hk N1 N2 U1 U2.
    assert (B : forall l, l <> [] -> (length (byte_rows (F := F) k l) - 1) * hc_step C < length l <= (length (byte_rows (F := F) k l) - 1) * hc_step C + hc_range C).
    { intros l Hl. destruct (row_count_bounds k l Hk Hl) as [Q B]. rewrite byte_rows_length, HS, HR. nia. }
    destruct (same_message_claim c C calcs adv d (length l1) (length l2) (byte_rows k l1) (byte_rows k l2) row1 row2 HA Bd) as [E W].
    - rewrite HS, HR. apply le_n.
    - exact CF.
    - now apply rows_nonempty.
    - now apply B.
    - now apply rows_nonempty.
    - now apply B.
    - unfold byte_capacity in B1. destruct (hc_legacy C); lia.
    - unfold byte_capacity in B2. destruct (hc_legacy C); lia.
    - now apply looks_up_rows.
    - now apply looks_up_rows.
    - apply (words_inj k l1 l2 Hk Hp E). unfold byte_words. now rewrite W.
  Qed.
End Claims.
