(** The Grain generator against the LFSR recurrence. *)
From Coq Require Import ZArith List Arith Lia Bool.
From Verif Require Import Field Rust ListAux Primitives Grain.
Import ListNotations.

(** an infinite bit sequence follows the Grain recurrence from an initial 80-bit state *)
Definition grain_sequence (init : list bool) (b : nat -> bool) : Prop :=
  (forall i, i < 80 -> b i = nth i init false)
  /\ (forall i, b (i + 80) = xorb (b (i + 62)) (xorb (b (i + 51)) (xorb (b (i + 38))
        (xorb (b (i + 23)) (xorb (b (i + 13)) (b i)))))).

(** reading [n] bits off the generator *)
Fixpoint get_bits (n : nat) (g : grain) : list bool * grain :=
  match n with
  | O => ([], g)
  | S k => let '(b, g) := get_next_bit g in let '(l, g) := get_bits k g in (b :: l, g)
  end.

(** the self-shrunk output of the first [pairs] pairs from position [k] on *)
Definition shrunk (b : nat -> bool) (k pairs : nat) : list bool :=
  flat_map (fun p => if b (k + 2 * p) then [b (k + 2 * p + 1)] else []) (seq 0 pairs).

Section Proofs.
  Variable b : nat -> bool.
  Hypothesis Hrec : forall i, b (i + 80) = xorb (b (i + 62)) (xorb (b (i + 51)) (xorb (b (i + 38))
        (xorb (b (i + 23)) (xorb (b (i + 13)) (b i))))).

  (** the next bit to be read is b k *)
  Definition at_bit (k : nat) (g : grain) : Prop :=
    exists w, g_state g = map b (seq w 80) /\ 72 <= g_next_bit g <= 80 /\ k = w + g_next_bit g.

  Lemma upd_range : forall (f : nat -> bool) n st off, off + n <= length st ->
    fold_left (fun st i => upd st (off + i) (f i)) (seq 0 n) st
    = firstn off st ++ map f (seq 0 n) ++ skipn (off + n) st.
  Proof.
    intros f n st off. induction n as [|n IH]; intros H.
    - cbn. rewrite Nat.add_0_r. symmetry. apply firstn_skipn.
    - rewrite seq_S, fold_left_app, map_app. cbn [fold_left map Nat.add]. rewrite IH by lia.
      apply nth_ext_len with (d := false).
      + rewrite upd_length, !app_length, !map_length, !seq_length, firstn_length, !skipn_length. cbn. lia.
      + intros i Hi. rewrite upd_length in Hi.
        rewrite !app_length, !map_length, !seq_length, firstn_length, skipn_length in Hi.
        destruct (Nat.eq_dec i (off + n)) as [->|Hne].
        * rewrite nth_upd_same by (rewrite !app_length, !map_length, !seq_length, firstn_length, skipn_length; lia).
          rewrite app_nth2; rewrite firstn_length; [|lia].
          rewrite app_nth1 by (rewrite app_length, map_length, seq_length; cbn; lia).
          rewrite app_nth2; rewrite map_length, seq_length; [|lia].
          replace (off + n - Nat.min off (length st) - n) with 0 by lia. reflexivity.
        * rewrite nth_upd_other by auto.
          destruct (Nat.lt_ge_cases i off).
          { rewrite !app_nth1 by (rewrite firstn_length; lia). reflexivity. }
          rewrite !(app_nth2 (firstn off st)); rewrite firstn_length; try lia.
          destruct (Nat.lt_ge_cases i (off + n)).
          { rewrite !app_nth1; rewrite ?app_length, ?map_length, ?seq_length; cbn; try lia. reflexivity. }
          rewrite app_nth2; rewrite ?map_length, ?seq_length; [|lia].
          rewrite app_nth2; rewrite ?app_length, ?map_length, ?seq_length; cbn [length]; [|lia].
          rewrite !nth_skipn. f_equal. lia.
  Qed.

  Lemma bit_window : forall w n, n < 80 -> bit (map b (seq w 80)) n = b (w + n).
  Proof. intros w n H. unfold bit. now rewrite nth_map_seq_from. Qed.

  Lemma load_window : forall g w, g_state g = map b (seq w 80) -> g_next_bit g = 80 ->
    g_state (load_next_8_bits g) = map b (seq (w + 8) 80) /\ g_next_bit (load_next_8_bits g) = 72.
  Proof.
    intros g w Hs Hn. unfold load_next_8_bits. rewrite Hs, Hn. cbn [g_state g_next_bit].
    replace (80 - 8) with 72 by lia. split; [|reflexivity].
    rewrite (upd_range (fun i => bit (map (new_bit (map b (seq w 80))) (seq 0 8)) i) 8).
    - assert (Eall : forall l : list bool, length l = 80 -> skipn (72 + 8) l = [])
        by (intros l Hl; apply skipn_all2; lia).
      rewrite Eall by (rewrite app_length, skipn_length, firstn_length, !map_length, seq_length; lia).
      rewrite app_nil_r.
      replace (seq (w + 8) 80) with (seq (w + 8) 72 ++ seq (w + 8 + 72) 8)
        by (rewrite <- seq_app; reflexivity).
      rewrite map_app. f_equal.
      + rewrite skipn_map, firstn_app.
        rewrite map_length, skipn_length, seq_length. replace (72 - (80 - 8)) with 0 by lia.
        rewrite firstn_O, app_nil_r. rewrite firstn_map. f_equal.
        replace (seq w 80) with (seq w 8 ++ seq (w + 8) 72) by (rewrite <- seq_app; reflexivity).
        rewrite skipn_app, seq_length, skipn_all2 by (rewrite seq_length; lia).
        cbn [app Nat.sub skipn]. apply firstn_all2. rewrite seq_length. lia.
      + apply nth_ext_len with (d := false); [now rewrite !map_length, !seq_length|].
        intros i Hi. rewrite map_length, seq_length in Hi.
        rewrite nth_map_seq by assumption. rewrite nth_map_seq_from by assumption.
        unfold bit at 1. rewrite nth_map_seq by assumption. unfold new_bit.
        rewrite !bit_window by lia.
        replace (w + 8 + 72 + i) with (w + i + 80) by lia. rewrite Hrec, !Nat.add_assoc. reflexivity.
    - rewrite app_length, skipn_length, firstn_length, !map_length, seq_length. lia.
  Qed.

  Lemma get_next_bit_at : forall k g, at_bit k g ->
    fst (get_next_bit g) = b k /\ at_bit (S k) (snd (get_next_bit g)).
  Proof.
    intros k g (w & Hs & Hn & ->). unfold get_next_bit.
    destruct (g_next_bit g =? STATE) eqn:E; cbn [fst snd].
    - apply Nat.eqb_eq in E. unfold STATE in E.
      destruct (load_window g w Hs E) as [L1 L2]. rewrite L1, L2.
      rewrite bit_window by lia. split; [f_equal; lia|].
      exists (w + 8). cbn [g_state g_next_bit]. repeat split; try lia.
    - apply Nat.eqb_neq in E. unfold STATE in E. rewrite Hs. rewrite bit_window by lia.
      split; [reflexivity|]. exists w. cbn [g_state g_next_bit]. repeat split; try lia.
  Qed.

  Theorem get_bits_at : forall n k g, at_bit k g ->
    fst (get_bits n g) = map b (seq k n) /\ at_bit (k + n) (snd (get_bits n g)).
  Proof.
    induction n as [|n IH]; intros k g Hg; cbn [get_bits].
    - cbn. rewrite Nat.add_0_r. auto.
    - destruct (get_next_bit_at k g Hg) as [E1 E2].
      destruct (get_next_bit g) as [x g1]. cbn in E1, E2.
      destruct (IH (S k) g1 E2) as [E3 E4]. destruct (get_bits n g1) as [l g2]. cbn in *.
      split; [now rewrite E1, E3|]. now rewrite Nat.add_succ_r.
  Qed.

  Lemma discard_at : forall n g w, g_state g = map b (seq w 80) -> g_next_bit g = 80 ->
    g_state (discard n g) = map b (seq (w + 8 * n) 80) /\ g_next_bit (discard n g) = 80.
  Proof.
    induction n as [|n IH]; intros g w Hs Hn; cbn [discard].
    - rewrite Nat.mul_0_r, Nat.add_0_r. auto.
    - destruct (load_window g w Hs Hn) as [L1 L2].
      replace (w + 8 * S n) with (w + 8 + 8 * n) by lia. apply IH; [exact L1|reflexivity].
  Qed.

  Lemma shrunk_cons : forall k n,
    shrunk b k (S n) = (if b k then [b (k + 1)] else []) ++ shrunk b (k + 2) n.
  Proof.
    intros k n. unfold shrunk. cbn [seq flat_map]. rewrite Nat.mul_0_r, Nat.add_0_r. f_equal.
    rewrite <- seq_shift, flat_map_concat_map, map_map, <- flat_map_concat_map.
    apply flat_map_ext. intros p. replace (k + 2 * S p) with (k + 2 + 2 * p) by lia. reflexivity.
  Qed.

  Lemma grain_next_at : forall fuel k g x g', at_bit k g -> grain_next fuel g = Some (x, g') ->
    exists i, shrunk b k i = [x] /\ at_bit (k + 2 * i) g'.
  Proof.
    induction fuel as [|f IH]; intros k g x g' Hg H; cbn [grain_next] in H; [discriminate|].
    destruct (get_next_bit_at k g Hg) as [E1 E2]. destruct (get_next_bit g) as [y g1].
    cbn in E1, E2. destruct (get_next_bit_at (S k) g1 E2) as [E3 E4].
    destruct y.
    - destruct (get_next_bit g1) as [z g2]. injection H as <- <-. exists 1. cbn in E3, E4.
      rewrite shrunk_cons, <- E1. cbn. rewrite Nat.add_1_r, E3. split; [reflexivity|].
      replace (k + 2) with (S (S k)) by lia. assumption.
    - destruct (get_next_bit g1) as [y2 g2]. cbn in E3, E4.
      destruct (IH (S (S k)) g2 x g' E4 H) as (i & P1 & P2).
      exists (S i). rewrite shrunk_cons, <- E1. cbn [app].
      replace (k + 2) with (S (S k)) by lia. split; [assumption|].
      replace (k + 2 * S i) with (S (S k) + 2 * i) by lia. assumption.
  Qed.

  Lemma shrunk_app : forall i j k, shrunk b k (i + j) = shrunk b k i ++ shrunk b (k + 2 * i) j.
  Proof.
    induction i as [|i IH]; intros j k.
    - cbn [Nat.add]. rewrite Nat.mul_0_r, Nat.add_0_r. reflexivity.
    - cbn [Nat.add]. rewrite !shrunk_cons, IH, app_assoc. do 2 f_equal. lia.
  Qed.

  Theorem grain_take_at : forall n fuel k g l g', at_bit k g -> grain_take fuel n g = Some (l, g') ->
    length l = n /\ exists i, l = shrunk b k i /\ at_bit (k + 2 * i) g'.
  Proof.
    induction n as [|n IH]; intros fuel k g l g' Hg H; cbn [grain_take] in H.
    - injection H as <- <-. split; [reflexivity|]. exists 0. rewrite Nat.add_0_r. split; [reflexivity|assumption].
    - destruct (grain_next fuel g) as [[x g1]|] eqn:E1; [|discriminate].
      destruct (grain_take fuel n g1) as [[l2 g2]|] eqn:E2; [|discriminate].
      injection H as <- <-.
      destruct (grain_next_at fuel k g x g1 Hg E1) as (i & P1 & P2).
      destruct (IH fuel _ g1 l2 g2 P2 E2) as (P3 & j & P4 & P5).
      split; [cbn; now rewrite P3|]. exists (i + j).
      rewrite shrunk_app, P1, P4. split; [reflexivity|].
      replace (k + 2 * (i + j)) with (k + 2 * i + 2 * j) by lia. assumption.
  Qed.
End Proofs.

Lemma upd_bool_length : forall (l : list nat) f st (v : nat -> bool),
  length (fold_left (fun st i => upd st (f i) (v i)) l st) = length st.
Proof. induction l as [|x l IH]; intros; cbn; [reflexivity|]. rewrite IH. apply upd_length. Qed.

Lemma set_bits_length : forall st o n v, length (set_bits st o n v) = length st.
Proof. intros. unfold set_bits. apply upd_bool_length. Qed.

Lemma grain_seed_length : forall a t f p, length (grain_seed a t f p) = 80.
Proof. intros. unfold grain_seed. now rewrite !set_bits_length, repeat_length. Qed.

(** after [new] the generator stands at bit 240: the 80 seed bits and 160 produced bits are dropped *)
Theorem grain_new_at : forall nb t f p b, grain_sequence (grain_seed nb t f p) b ->
  at_bit b 240 (grain_new nb t f p).
Proof.
  intros nb t f p b [H1 H2]. unfold grain_new.
  destruct (discard_at b H2 20 {| g_state := grain_seed nb t f p; g_next_bit := STATE |} 0) as [E1 E2].
  - cbn [g_state]. apply nth_ext_len with (d := false).
    + now rewrite grain_seed_length, map_length, seq_length.
    + intros i Hi. rewrite grain_seed_length in Hi. rewrite nth_map_seq by assumption.
      symmetry. now apply H1.
  - reflexivity.
  - exists 160. rewrite E1, E2. repeat split; lia.
Qed.

Theorem grain_new_bits : forall nb t f p b n, grain_sequence (grain_seed nb t f p) b ->
  fst (get_bits n (grain_new nb t f p)) = map b (seq 240 n).
Proof.
  intros nb t f p b n H. apply get_bits_at; [apply H|]. now apply grain_new_at.
Qed.

Theorem grain_new_take : forall nb t f p b n fuel l g', grain_sequence (grain_seed nb t f p) b ->
  grain_take fuel n (grain_new nb t f p) = Some (l, g') ->
  length l = n /\ exists pairs, l = shrunk b 240 pairs.
Proof.
  intros nb t f p b n fuel l g' H E.
  destruct (grain_take_at b (proj2 H) n fuel 240 _ l g' (grain_new_at _ _ _ _ _ H) E) as (A & i & B & _).
  eauto.
Qed.

(** the sequence exists for every initial state *)
Fixpoint lfsr_iter (n : nat) (st : list bool) : list bool :=
  match n with O => st | S k => lfsr_iter k (skipn 1 st ++ [new_bit st 0]) end.
Definition lfsr (init : list bool) (i : nat) : bool := bit (lfsr_iter i init) 0.

Lemma lfsr_shift : forall n st j, length st = 80 -> j < 80 -> bit (lfsr_iter n st) j = lfsr st (n + j).
Proof.
  intros n st j. revert n st. induction j as [|j IH]; intros n st Hst Hj.
  - now rewrite Nat.add_0_r.
  - assert (L : length (lfsr_iter n st) = 80).
    { clear - Hst. revert st Hst. induction n as [|n IHn]; intros st Hst; cbn [lfsr_iter]; [assumption|].
      apply IHn. rewrite app_length, skipn_length. cbn. lia. }
    assert (E : bit (lfsr_iter (S n) st) j = bit (lfsr_iter n st) (S j)).
    { clear IH. assert (Hs : forall n st, lfsr_iter (S n) st
         = skipn 1 (lfsr_iter n st) ++ [new_bit (lfsr_iter n st) 0]).
      { clear. induction n as [|n IHn]; intros st; [reflexivity|]. cbn [lfsr_iter] in *. now rewrite IHn. }
      rewrite Hs. unfold bit. rewrite app_nth1 by (rewrite skipn_length; lia).
      rewrite nth_skipn. f_equal. }
    rewrite <- E, IH by lia. f_equal. lia.
Qed.

Theorem lfsr_sequence : forall init, length init = 80 -> grain_sequence init (lfsr init).
Proof.
  intros init H. split.
  - intros i Hi. symmetry. exact (lfsr_shift 0 init i H Hi).
  - intros i.
    assert (S1 : lfsr init (i + 80) = lfsr init (S i + 79)) by (f_equal; lia).
    rewrite S1. rewrite <- lfsr_shift by (auto; lia).
    assert (Hs : forall n st, lfsr_iter (S n) st
         = skipn 1 (lfsr_iter n st) ++ [new_bit (lfsr_iter n st) 0]).
    { clear. induction n as [|n IHn]; intros st; [reflexivity|]. cbn [lfsr_iter] in *. now rewrite IHn. }
    assert (L : length (lfsr_iter i init) = 80).
    { clear - H. revert init H. induction i as [|n IHn]; intros st Hst; cbn [lfsr_iter]; [assumption|].
      apply IHn. rewrite app_length, skipn_length. cbn. lia. }
    rewrite Hs. unfold bit at 1. rewrite app_nth2; rewrite skipn_length, L; [|lia].
    cbn [Nat.sub nth]. unfold new_bit. cbn [Nat.add].
    rewrite !lfsr_shift by (auto; lia). now rewrite Nat.add_0_r.
Qed.
