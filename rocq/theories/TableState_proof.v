(** The states that [load] computes, row by row, and the digests of an honest assignment. *)
From Coq Require Import ZArith NArith List Arith Lia Bool.
From Verif Require Import Field Rust ListAux Primitives Specs BaseHash Halo2 PermuteChip ChipUse Layout_proof Contract
  Stack_proof SpongeTable TableRows_proof TableLoad_proof TableUse TableInv_proof TableGate_proof TableSound_proof TableMsg_proof
  TableVals_proof TableHonest_proof TableSat_proof.
Import ListNotations.
Local Open Scope nat_scope.

Section State.
  Context {F : Type} {FO : FieldOps F} {PF : PrimeField F}.
  Variable legacy : bool.
  Variable range : nat.
  Variable s : spec F.
  Variable t : hash_table F.
  Variable calcs : nat.
  Notation rows := (raw_rows calcs t).
  Notation state_at := (state_at legacy range s).
  Notation r_before := (r_before legacy).
  Notation r_after := (r_after legacy s).
  Notation hp := (hash_permute 3 s).
  Notation row_state := (row_state hp legacy range t).

  Lemma flag_code : forall x, flag_of (F := F) legacy x = length_code legacy x.
  Proof.
    intros x. unfold flag_of, length_code, from_u128. f_equal. rewrite N2Z.inj_mul. f_equal. destruct legacy; reflexivity.
  Qed.

  Lemma after_state : forall i r, i < calcs -> nth_error rows i = Some r -> r_after (state_at rows i) r = row_state i.
  Proof.
    induction i as [|i IH]; intros r Hi Hr; destruct (raw_row_at calcs t _ Hi) as (r' & Hr' & Ri & Rc & Rd & _);
      assert (r' = r) by congruence; subst r'.
    - rewrite state_0. unfold TableRows_proof.r_after. cbn [TableUse.row_state]. f_equal. unfold TableRows_proof.r_before, row_fresh.
      cbn [loop_start lp_new]. unfold r_flag. rewrite Ri, Rc, Rd, flag_code. reflexivity.
    - destruct (raw_row_at calcs t i ltac:(lia)) as (p & Hp & _ & Pc & _).
      specialize (IH p ltac:(lia) Hp). unfold TableRows_proof.r_after at 1. cbn [TableUse.row_state].
      unfold TableRows_proof.r_before. rewrite (state_new legacy range s rows i p Hp), (state_state legacy range s rows i p Hp), IH.
      unfold r_fin. rewrite Pc. destruct (row_control t i <=? N.of_nat range)%N.
      + f_equal. unfold row_fresh, r_flag. rewrite Ri, Rc, Rd, flag_code. reflexivity.
      + f_equal. rewrite Ri. reflexivity.
  Qed.

  Lemma good_rows : forall (l : list (@raw_row F)) o lp, rows_good legacy range s o lp l = true <->
    forall i r, nth_error l i = Some r -> r_good legacy s (loop_after legacy range s o lp (firstn i l)) r = true.
  Proof.
    induction l as [|a l IH]; intros o lp; cbn [TableRows_proof.rows_good].
    - split; [|reflexivity]. intros _ i r H. destruct i; discriminate.
    - rewrite andb_true_iff, IH. split.
      + intros [H1 H2] [|i] r H; cbn [nth_error] in H.
        * injection H as <-. exact H1.
        * exact (H2 i r H).
      + intros H. split; [exact (H 0 a eq_refl)|]. intros i r Hr. exact (H (S i) r Hr).
  Qed.

  (** the checks that [load] makes *)
  Lemma checks_good : rows_good legacy range s 1 loop_start rows = true <->
    forall i ck, i < calcs -> row_check t i = Some ck -> ck = nth 0 (row_state i) fzero.
  Proof.
    rewrite good_rows. split.
    - intros H i ck Hi Hc. destruct (raw_row_at calcs t i Hi) as (r & Hr & _ & _ & _ & Rk).
      specialize (H i r Hr). unfold r_good in H. rewrite Rk, Hc in H. apply feqb_eq in H. rewrite H.
      change (loop_after legacy range s 1 loop_start (firstn i rows)) with (state_at rows i).
      now rewrite (after_state i r Hi Hr).
    - intros H i r Hr. assert (Hi : i < calcs) by (rewrite <- (raw_rows_length calcs t); apply nth_error_Some; congruence).
      destruct (raw_row_at calcs t i Hi) as (r' & Hr' & _ & _ & _ & Rk). assert (r' = r) by congruence. subst r'.
      unfold r_good. rewrite Rk. destruct (row_check t i) as [ck|] eqn:E; [|reflexivity]. apply feqb_eq.
      change (loop_after legacy range s 1 loop_start (firstn i rows)) with (state_at rows i).
      rewrite (after_state i r Hi Hr). now apply H.
  Qed.

  (** the digest of a message: word 0 after its last row *)
  Lemma dig_state : forall k i, i + k < calcs -> (forall j, i <= j < i + k -> (N.of_nat range < row_control t j)%N) ->
    (row_control t (i + k) <= N.of_nat range)%N ->
    dig legacy range s (S i) (state_at rows i) (skipn i rows) = Some (nth 0 (row_state (i + k)) fzero).
  Proof.
    induction k as [|k IH]; intros i Hi Hn He; destruct (raw_row_at calcs t i ltac:(lia)) as (r & Hr & _ & Rc & _);
      rewrite (dig_row legacy range s rows i r Hr); unfold r_fin; rewrite Rc.
    - rewrite Nat.add_0_r in *. apply N.leb_le in He. rewrite He. now rewrite (after_state i r Hi Hr).
    - assert (Hc : (row_control t i <=? N.of_nat range)%N = false) by (apply N.leb_gt, Hn; lia). rewrite Hc.
      replace (i + S k) with (S i + k) in * by lia. apply IH; [lia| |assumption]. intros j Hj. apply Hn. lia.
  Qed.
  Lemma dig_open : forall i, i < calcs -> (forall j, i <= j < calcs -> (N.of_nat range < row_control t j)%N) ->
    dig legacy range s (S i) (state_at rows i) (skipn i rows) = None.
  Proof.
    intros i Hi. remember (calcs - i) as k eqn:Ek. revert i Hi Ek. induction k as [|k IH]; intros i Hi Ek Hn; [lia|].
    destruct (raw_row_at calcs t i Hi) as (r & Hr & _ & Rc & _). rewrite (dig_row legacy range s rows i r Hr). unfold r_fin. rewrite Rc.
    assert (Hc : (row_control t i <=? N.of_nat range)%N = false) by (apply N.leb_gt, Hn; lia). rewrite Hc.
    destruct (Nat.eq_dec (S i) calcs) as [E|N].
    - rewrite skipn_all2 by (rewrite raw_rows_length; lia). reflexivity.
    - apply IH; [lia|lia|]. intros j Hj. apply Hn. lia.
  Qed.
End State.

Section Ext.
  Context {F : Type} {FO : FieldOps F}.
  Lemma row_state_ext : forall (p p' : list F -> list F) legacy range t, (forall x, length x = 3 -> p x = p' x) ->
    forall i, row_state p legacy range t i = row_state p' legacy range t i.
  Proof.
    intros p p' legacy range t H. induction i as [|i IH]; cbn [row_state]; [now apply H|].
    rewrite IH. destruct (row_control t i <=? N.of_nat range)%N; now apply H.
  Qed.
End Ext.

(** ** Digests of an honest assignment *)
Section Honest.
  Context {F : Type} {FO : FieldOps F} {PF : PrimeField F}.
  Variable C : hash_circuit F.
  Variable perm : list F -> list F.
  Variable h : nat.
  Hypothesis HC : host_columns C.
  Hypothesis HP : chip_correct (hc_chip C) perm h.
  Hypothesis HS : forall x, length x = 3 -> hash_permute 3 (hc_spec C) x = perm x.

  Lemma honest_rows : forall mode calcs t L0 L1 L copies u blind, loaded C mode calcs t L0 L1 L copies -> calcs < u ->
    let adv := honest u L blind in
    forall i, i < calcs ->
    in1 C adv (S i) = fst (row_input t i) /\ in2 C adv (S i) = snd (row_input t i)
    /\ control C adv (S i) = length_code (hc_legacy C) (row_control t i) /\ domain C adv (S i) = row_domain t i
    /\ head C adv (S i) = flag_bool (match i with O => true | S j => (row_control t j <=? N.of_nat (hc_range C))%N end)
    /\ (forall k, i + k < calcs -> (forall j, i <= j < i + k -> (N.of_nat (hc_range C) < row_control t j)%N) ->
          (row_control t (i + k) <= N.of_nat (hc_range C))%N ->
          digest C adv (S i) = nth 0 (row_state perm (hc_legacy C) (hc_range C) t (i + k)) fzero)
    /\ ((forall j, i <= j < calcs -> (N.of_nat (hc_range C) < row_control t j)%N) -> digest C adv (S i) = fzero).
  Proof.
    intros mode calcs t L0 L1 L copies u blind HL Hu adv i Hi.
    destruct (chip_is_here C perm h HC HP) as (D & HD).
    destruct (loaded_final C perm h HC D mode calcs t L0 L1 L copies HD HL) as (_ & ins & finals & _ & FF).
    pose proof (honest_written C _ _ _ _ _ _ _ _ _ u blind FF) as W. fold adv in W.
    assert (Lr : length (raw_rows calcs t) = calcs) by apply raw_rows_length.
    destruct (raw_row_at calcs t i Hi) as (r & Hr & Ri & Rc & Rd & _).
    destruct (row_values C HC (raw_rows calcs t) u adv W ltac:(lia) i r Hr) as (_ & _ & _ & _ & _ & _ & V1 & V2 & V3 & V4 & V5 & _ & _ & V6).
    rewrite <- Ri, <- Rd. split; [exact V1|]. split; [exact V2|].
    split. { rewrite V3. unfold r_flag. now rewrite Rc, flag_code. }
    split; [exact V4|]. split.
    { rewrite V5. f_equal. destruct i as [|j]; [reflexivity|].
      destruct (raw_row_at calcs t j ltac:(lia)) as (p & Hp & _ & Pc & _).
      rewrite (state_new _ _ _ _ j p Hp). unfold r_fin. now rewrite Pc. }
    split.
    - intros k Hk H1 H2. rewrite V6, (dig_state _ _ _ t calcs k i Hk H1 H2).
      now rewrite (row_state_ext _ perm _ _ _ HS).
    - intros H1. rewrite V6, (dig_open _ _ _ t calcs i Hi H1). reflexivity.
  Qed.
End Honest.
