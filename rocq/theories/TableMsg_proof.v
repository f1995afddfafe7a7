(** Messages of a hash table, from the equations of its rows. *)
From Coq Require Import ZArith List Arith Lia Bool.
From Verif Require Import Field Rust ListAux Primitives Specs BaseHash SpecHash Link Halo2 PermuteChip ChipUse SpongeTable TableUse
  TableInv_proof TableGate_proof.
Import ListNotations.
Local Open Scope nat_scope.

Section Flag.
  Context {F : Type} {FO : FieldOps F} {PF : PrimeField F}.
  Add Field Ffield0 : f_field.
  Local Open Scope F_scope.
  Variable legacy : bool.
  Notation flag := (@flag_of F FO legacy).

  Lemma flag_add : forall a b, flag (a + b)%N = flag a + flag b.
  Proof.
    intros a b. unfold flag_of, from_u128. rewrite N.mul_add_distr_r, N2Z.inj_add. apply of_Z_add.
  Qed.
  Lemma flag_0 : flag 0%N = 0.
  Proof. unfold flag_of, from_u128. rewrite N.mul_0_l. apply of_Z_0. Qed.
  Lemma dspec_pos : (0 < hashable_domain_spec legacy)%N.
  Proof. destruct legacy; reflexivity. Qed.
  Lemma flag_inj : forall a b m, (a <= m)%N -> (b <= m)%N ->
    (Z.of_N (m * hashable_domain_spec legacy) < modulus (F := F))%Z -> flag a = flag b -> a = b.
  Proof.
    intros a b m Ha Hb Hm E. unfold flag_of, from_u128 in E. pose proof dspec_pos.
    assert (B : forall x, (x <= m)%N -> (x * hashable_domain_spec legacy <= m * hashable_domain_spec legacy)%N)
      by (intros; now apply N.mul_le_mono_r).
    assert (Q : Z.of_N (a * hashable_domain_spec legacy) = Z.of_N (b * hashable_domain_spec legacy)).
    { apply of_Z_inj in E; [assumption| |]; pose proof (B a Ha); pose proof (B b Hb); lia. }
    apply N2Z.inj in Q. apply N.mul_cancel_r in Q; [assumption|]. lia.
  Qed.
  Lemma flag_nonzero : forall a m, (a <= m)%N -> (Z.of_N (m * hashable_domain_spec legacy) < modulus (F := F))%Z ->
    flag a = 0 -> a = 0%N.
  Proof. intros a m Ha Hm E. rewrite <- flag_0 in E. apply (flag_inj a 0%N m); [assumption|lia|assumption|assumption]. Qed.
End Flag.

Section Msg.
  Context {F : Type} {FO : FieldOps F} {PF : PrimeField F}.
  Add Field Ffield : f_field.
  Local Open Scope F_scope.
  Variable C : hash_circuit F.
  Variable perm : list F -> list F.
  Variables (n calcs : nat) (adv : nat -> nat -> F).
  Notation digest := (digest C adv).
  Notation in1 := (in1 C adv).
  Notation in2 := (in2 C adv).
  Notation control := (control C adv).
  Notation domain := (domain C adv).
  Notation head := (head C adv).
  Notation message := (message C adv calcs).
  Notation absorbed := (absorbed C adv perm).
  Notation aux := (auxc C adv).
  Notation cont := (contc C adv).
  Notation flag := (@flag_of F FO (hc_legacy C)).
  Notation step := (hc_step C).
  Notation STEP := (hc_range C).

  (** what a satisfying assignment gives *)
  Record table_ok : Prop := {
    ok_rows : forall r, (1 <= r <= calcs)%nat -> row_eqs C adv r;
    ok_first : custom_eqs C adv 0;
    ok_last : custom_eqs C adv calcs;
    ok_range : forall r, (r <= calcs)%nat -> range_eq C adv n r;
    ok_perm : forall r, (1 <= r <= calcs)%nat ->
      map (fun j => aux j r) [5; 3; 4]%nat = map (fun j => nth j (perm [aux 0 r; aux 1 r; aux 2 r]%nat) 0) [0; 1; 2]%nat
  }.
  Hypothesis OK : table_ok.

  Lemma bool_head : forall r, (1 <= r <= calcs)%nat -> (head r = 1 /\ cont r = 0) \/ (head r = 0 /\ cont r = 1).
  Proof.
    intros r Hr. destruct (ok_rows OK r Hr) as (E1 & _ & _ & E4 & _).
    apply fmul_eq_0 in E1. rewrite E4. destruct E1 as [E|E].
    - left. rewrite E. split; [ring|reflexivity].
    - right. apply (proj1 (fsub_eq_0 _ _)) in E. rewrite <- E. split; [ring|reflexivity].
  Qed.
  Lemma head_1 : forall r, (1 <= r <= calcs)%nat -> head r = 1 -> cont r = 0.
  Proof.
    intros r Hr E. destruct (bool_head r Hr) as [[_ H]|[H _]]; [assumption|]. exfalso. apply f_1_neq_0. congruence.
  Qed.
  Lemma head_0 : forall r, (1 <= r <= calcs)%nat -> head r = 0 -> cont r = 1.
  Proof.
    intros r Hr E. destruct (bool_head r Hr) as [[H _]|[_ H]]; [|assumption]. exfalso. apply f_1_neq_0. congruence.
  Qed.

  (** a head row *)
  Lemma head_row : forall r, (1 <= r <= calcs)%nat -> head r = 1 ->
    aux 0 r = control r + domain r /\ aux 1 r = in1 r /\ aux 2 r = in2 r /\ digest (r - 1) = aux 5 (r - 1).
  Proof.
    intros r Hr E. apply head_1 in E; [|assumption].
    destruct (ok_rows OK r Hr) as (_ & _ & _ & _ & _ & _ & E7 & E8 & E9 & E10 & _). rewrite E in *.
    split; [|split; [|split]].
    - apply fsub_eq_0. rewrite <- E10. ring.
    - rewrite E8. ring.
    - rewrite E9. ring.
    - symmetry. apply fsub_eq_0. rewrite <- E7. ring.
  Qed.
  (** a continuing row *)
  Lemma cont_row : forall r, (1 <= r <= calcs)%nat -> head r = 0 ->
    aux 0 r = aux 5 (r - 1) + domain r /\ aux 1 r = aux 3 (r - 1) + in1 r /\ aux 2 r = aux 4 (r - 1) + in2 r
    /\ digest r = digest (r - 1) /\ control (r - 1) = control r + flag (N.of_nat step) /\ control r <> 0.
  Proof.
    intros r Hr E. apply head_0 in E; [|assumption].
    destruct (ok_rows OK r Hr) as (_ & _ & E3 & _ & E5 & E6 & _ & E8 & E9 & _ & E11). rewrite E in *.
    split; [|split; [|split; [|split; [|split]]]].
    - apply fsub_eq_0. rewrite <- E11. ring.
    - rewrite E8. ring.
    - rewrite E9. ring.
    - apply fsub_eq_0. rewrite <- E6. ring.
    - symmetry. apply fsub_eq_0. rewrite <- E5. unfold stepf. ring.
    - intros Z. rewrite Z in E3. apply f_1_neq_0. rewrite <- E3. ring.
  Qed.

  Lemma perm_row : forall r, (1 <= r <= calcs)%nat ->
    aux 5 r = nth 0 (perm [aux 0 r; aux 1 r; aux 2 r]%nat) 0
    /\ aux 3 r = nth 1 (perm [aux 0 r; aux 1 r; aux 2 r]%nat) 0
    /\ aux 4 r = nth 2 (perm [aux 0 r; aux 1 r; aux 2 r]%nat) 0.
  Proof. intros r Hr. pose proof (ok_perm OK r Hr) as E. cbn [map] in E. injection E as E1 E2 E3. auto. Qed.

  (** ** C26, C27 *)
  Lemma run_state : forall s k, (1 <= s)%nat -> (s + k <= calcs)%nat -> head s = 1 ->
    (forall i, (s < i <= s + k)%nat -> head i = 0) ->
    nth 0 (absorbed s (s + k)) 0 = aux 5 (s + k) /\ nth 1 (absorbed s (s + k)) 0 = aux 3 (s + k)
    /\ nth 2 (absorbed s (s + k)) 0 = aux 4 (s + k).
  Proof.
    intros s k Hs. induction k as [|k IH]; intros Hk H1 H0.
    - unfold TableUse.absorbed. rewrite Nat.add_0_r in *. replace (S s - s)%nat with 1%nat by lia. cbn [seq fold_left nth].
      destruct (head_row s ltac:(lia) H1) as (A0' & A1' & A2' & _).
      destruct (perm_row s ltac:(lia)) as (B0 & B1 & B2). rewrite B0, B1, B2, A0', A1', A2'.
      replace (0 + in1 s) with (in1 s) by ring. replace (0 + in2 s) with (in2 s) by ring. auto.
    - destruct IH as (I0 & I1 & I2); [lia|assumption|intros; apply H0; lia|].
      destruct (cont_row (s + S k) ltac:(lia) ltac:(apply H0; lia)) as (A0' & A1' & A2' & _).
      destruct (perm_row (s + S k) ltac:(lia)) as (B0 & B1 & B2).
      assert (E : absorbed s (s + S k) = perm [aux 0 (s + S k); aux 1 (s + S k); aux 2 (s + S k)]%nat).
      { unfold TableUse.absorbed. replace (S (s + S k) - s)%nat with (S (S k)) by lia.
        rewrite seq_S, fold_left_app. cbn [fold_left].
        fold (absorbed s (s + k)) in *.
        replace (S (s + k) - s)%nat with (S k) in * by lia.
        replace (s + S k - 1)%nat with (s + k)%nat in * by lia.
        unfold TableUse.absorbed in I0, I1, I2. replace (S (s + k) - s)%nat with (S k) in * by lia.
        rewrite I0, I1, I2, A0', A1', A2'. reflexivity. }
      rewrite E. auto.
  Qed.

  Lemma run_digest : forall s e, message s e -> forall i, (s <= i <= e)%nat -> digest i = digest e.
  Proof.
    intros s e (H1 & H2 & H3 & _ & H5 & _).
    assert (G : forall k, (k <= e - s)%nat -> digest (e - k) = digest e).
    { induction k as [|k IH]; intros Hk; [now rewrite Nat.sub_0_r|].
      rewrite <- IH by lia. destruct (cont_row (e - k) ltac:(lia) ltac:(apply H5; lia)) as (_ & _ & _ & E & _).
      rewrite E. f_equal. lia. }
    intros i Hi. rewrite <- (G (e - i)%nat) by lia. f_equal. lia.
  Qed.

  Lemma run_hash : forall s e, message s e -> forall i, (s <= i <= e)%nat -> digest i = nth 0 (absorbed s e) 0.
  Proof.
    intros s e M i Hi. rewrite (run_digest s e M i Hi). destruct M as (H1 & H2 & H3 & H4 & H5 & H6).
    destruct (head_row (S e) ltac:(lia) H6) as (_ & _ & _ & E). replace (S e - 1)%nat with e in E by lia.
    rewrite E. destruct (run_state s (e - s) H1) as (A & _); [lia|assumption|intros; apply H5; lia|].
    replace (s + (e - s))%nat with e in A by lia. now rewrite A.
  Qed.

  (** ** C28 *)
  Lemma run_controls : forall s e, message s e -> exists x,
    (x <= STEP)%nat /\ ((s < e)%nat -> (0 < x)%nat)
    /\ forall i, (s <= i <= e)%nat -> control i = flag (N.of_nat (x + (e - i) * step)).
  Proof.
    intros s e (H1 & H2 & H3 & H4 & H5 & H6).
    destruct (ok_range OK (S e) ltac:(lia)) as (x & Hx & E). cbn [Nat.eqb] in E. rewrite H6 in E.
    replace (S e - 1)%nat with e in E by lia.
    assert (E0 : control e = flag (N.of_nat x)) by (rewrite <- E; ring).
    exists x. split; [assumption|]. split.
    - intros L. destruct x; [|lia]. exfalso.
      destruct (cont_row e ltac:(lia) ltac:(apply H5; lia)) as (_ & _ & _ & _ & _ & Z). apply Z. rewrite E0. apply flag_0.
    - assert (G : forall k, (k <= e - s)%nat -> control (e - k) = flag (N.of_nat (x + k * step))).
      { induction k as [|k IH]; intros Hk; [now rewrite Nat.sub_0_r, Nat.mul_0_l, Nat.add_0_r|].
        destruct (cont_row (e - k) ltac:(lia) ltac:(apply H5; lia)) as (_ & _ & _ & _ & Z & _).
        replace (e - S k)%nat with (e - k - 1)%nat by lia. rewrite Z, IH by lia. rewrite <- flag_add. f_equal. lia. }
      intros i Hi. rewrite <- (G (e - i)%nat) by lia. f_equal. lia.
  Qed.

  (** ** C29 *)
  Lemma last_head : (1 <= calcs)%nat -> head calcs = 1.
  Proof.
    intros H. destruct (bool_head calcs ltac:(lia)) as [[E _]|[E _]]; [assumption|]. exfalso.
    destruct (cont_row calcs ltac:(lia) E) as (_ & _ & _ & _ & _ & Z). apply Z. apply (ok_last OK).
  Qed.

  (** the next head row *)
  Lemma next_head : forall r, (1 <= r <= calcs)%nat ->
    exists e, (r <= e <= calcs)%nat /\ head e = 1 /\ forall i, (r <= i < e)%nat -> head i = 0.
  Proof.
    intros r Hr. remember (calcs - r)%nat as k eqn:Ek. revert r Hr Ek.
    induction k as [|k IH]; intros r Hr Ek.
    - exists calcs. split; [lia|]. split; [apply last_head; lia|]. intros i Hi. lia.
    - destruct (bool_head r Hr) as [[E _]|[E _]].
      + exists r. split; [lia|]. split; [assumption|]. intros i Hi. lia.
      + destruct (IH (S r) ltac:(lia) ltac:(lia)) as (e & H1 & H2 & H3). exists e. split; [lia|]. split; [assumption|].
        intros i Hi. destruct (Nat.eq_dec i r) as [->|]; [assumption|]. apply H3. lia.
  Qed.

  Hypothesis bound : (Z.of_N (N.of_nat (calcs * step + STEP) * hashable_domain_spec (hc_legacy C)) < modulus (F := F))%Z.

  Lemma first_head : (1 <= calcs)%nat -> head 1 = 1.
  Proof.
    intros H. destruct (bool_head 1 ltac:(lia)) as [[E _]|[E _]]; [assumption|]. exfalso.
    destruct (next_head 1 ltac:(lia)) as (e & H1 & H2 & H3).
    assert (He : (e <> 1)%nat). { intros ->. apply f_1_neq_0. congruence. }
    destruct (ok_range OK e ltac:(lia)) as (x & Hx & Ex). rewrite H2 in Ex.
    destruct (Nat.eqb_spec e 0) as [|_]; [lia|].
    assert (G : forall k, (k <= e - 1)%nat -> control k + flag (N.of_nat (k * step)) = 0).
    { induction k as [|k IH]; intros Hk.
      - destruct (ok_first OK) as (_ & _ & Z). rewrite Z, Nat.mul_0_l. rewrite (flag_0 (hc_legacy C)). ring.
      - destruct (cont_row (S k) ltac:(lia) ltac:(apply H3; lia)) as (_ & _ & _ & _ & Z & _).
        replace (S k - 1)%nat with k in Z by lia. specialize (IH ltac:(lia)). rewrite Z in IH. rewrite <- IH.
        replace (N.of_nat (S k * step)) with (N.of_nat step + N.of_nat (k * step))%N by lia.
        rewrite flag_add. ring. }
    specialize (G (e - 1)%nat ltac:(lia)).
    assert (Ex' : control (e - 1) = flag (N.of_nat x)) by (rewrite <- Ex; ring).
    rewrite Ex', <- flag_add in G.
    assert (Z0 : (N.of_nat x + N.of_nat ((e - 1) * step))%N = 0%N).
    { assert (X : ((e - 1) * step <= calcs * step)%nat) by (apply Nat.mul_le_mono_r; lia).
      apply (flag_nonzero (hc_legacy C) _ (N.of_nat (calcs * step + STEP))); [lia|exact bound|exact G]. }
    assert (X0 : x = 0%nat) by (revert Z0; generalize ((e - 1) * step)%nat; clear; intros; lia). subst x.
    destruct (cont_row (e - 1) ltac:(lia) ltac:(apply H3; lia)) as (_ & _ & _ & _ & _ & Z). apply Z. rewrite Ex'. apply flag_0.
  Qed.

  (** every enabled row but the last is in a message *)
  Lemma prev_head : forall r, (1 <= r <= calcs)%nat ->
    exists s, (1 <= s <= r)%nat /\ head s = 1 /\ forall i, (s < i <= r)%nat -> head i = 0.
  Proof.
    induction r as [|r IH]; intros Hr; [lia|].
    destruct (bool_head (S r) Hr) as [[E _]|[E _]].
    - exists (S r). split; [lia|]. split; [assumption|]. intros; lia.
    - destruct (Nat.eq_dec r 0) as [->|Hr0].
      { exfalso. apply f_1_neq_0. rewrite <- (first_head ltac:(lia)). exact E. }
      destruct (IH ltac:(lia)) as (s & H1 & H2 & H3). exists s. split; [lia|]. split; [assumption|].
      intros i Hi. destruct (Nat.eq_dec i (S r)) as [->|]; [assumption|]. apply H3. lia.
  Qed.

  Lemma covered : forall r, (1 <= r < calcs)%nat -> exists s e, message s e /\ (s <= r <= e)%nat.
  Proof.
    intros r Hr. destruct (prev_head r ltac:(lia)) as (s & S1 & S2 & S3).
    destruct (next_head (S r) ltac:(lia)) as (e & E1 & E2 & E3).
    exists s, (e - 1)%nat. split; [|lia]. unfold TableUse.message.
    split; [lia|]. split; [lia|]. split; [lia|]. split; [assumption|]. split.
    - intros i Hi. destruct (Nat.le_gt_cases i r); [apply S3; lia|apply E3; lia].
    - replace (S (e - 1)) with e by lia. assumption.
  Qed.
End Msg.

(** the number of rows from the control of the head row *)
Lemma rows_of_control : forall step STEP x k x' k', STEP <= step -> x <= STEP -> x' <= STEP ->
  (0 < k -> 0 < x) -> (0 < k' -> 0 < x') -> x + k * step = x' + k' * step -> x = x' /\ k = k'.
Proof.
  intros step STEP x k x' k' Hs Hx Hx' Hk Hk' E.
  assert (k = k'); [|subst; lia].
  destruct (Nat.lt_trichotomy k k') as [H|[H|H]]; [|assumption|].
  - assert (0 < x') by (apply Hk'; lia). exfalso. assert (k' * step >= (k + 1) * step) by (apply Nat.mul_le_mono_r; lia). nia.
  - assert (0 < x) by (apply Hk; lia). exfalso. assert (k * step >= (k' + 1) * step) by (apply Nat.mul_le_mono_r; lia). nia.
Qed.

(** ** The sponge over rows is the sponge over words *)
Section Words.
  Context {F : Type} {FO : FieldOps F} {PF : PrimeField F}.
  Add Field Ffield2 : f_field.
  Local Open Scope F_scope.

  Lemma absorb_rows : forall (perm : list F -> list F) (pr : nat -> F * F) l st,
    (forall x, length x = 3%nat -> length (perm x) = 3%nat) -> length st = 3%nat ->
    fold_left (fun st r => perm [nth 0 st 0; nth 1 st 0 + fst (pr r); nth 2 st 0 + snd (pr r)]) l st
    = absorb_blocks perm 1 (map (fun r => [fst (pr r); snd (pr r)]) l) st.
  Proof.
    intros perm pr l st Hp. unfold absorb_blocks. revert st. induction l as [|r l IH]; intros st Hst; [reflexivity|].
    cbn [fold_left map]. destruct (length_list3 _ Hst) as (a & b & c & ->). rewrite IH by (apply Hp; reflexivity). f_equal.
    unfold add_block. cbn [length seq map nth Nat.leb Nat.sub]. f_equal. f_equal. ring.
  Qed.

  Lemma blocks_aux_pairs : forall {A} (f g : A -> F) l fuel, (length l <= fuel)%nat ->
    blocks_aux fuel 2 (flat_map (fun r => [f r; g r]) l) = map (fun r => [f r; g r]) l.
  Proof.
    induction l as [|r l IH]; intros fuel H; [destruct fuel; reflexivity|].
    destruct fuel as [|fuel]; [cbn [length] in H; lia|]. cbn [length] in H.
    cbn [flat_map app blocks_aux firstn skipn map]. rewrite IH by lia. reflexivity.
  Qed.
  Lemma flat_pairs_length : forall {A} (f g : A -> F) l, length (flat_map (fun r => [f r; g r]) l) = (length l * 2)%nat.
  Proof. induction l as [|r l IH]; [reflexivity|]. cbn [flat_map app length]. rewrite IH. lia. Qed.
  Lemma pair_blocks : forall {A} (f g : A -> F) l,
    blocks 2 (pad_zeros 2 (flat_map (fun r => [f r; g r]) l)) = map (fun r => [f r; g r]) l.
  Proof.
    intros A f g l. unfold pad_zeros. rewrite flat_pairs_length, Nat.mod_mul by lia. cbn [Nat.sub].
    change (repeat (0:F) (2 mod 2)) with (@nil F). rewrite app_nil_r. unfold blocks. apply blocks_aux_pairs.
    rewrite flat_pairs_length. lia.
  Qed.
End Words.
