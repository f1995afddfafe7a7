(** The assignment that [load] makes: when it satisfies the circuit. *)
From Coq Require Import ZArith NArith List Arith Lia Bool.
From Verif Require Import Field Rust ListAux Primitives Specs BaseHash Halo2 PermuteChip ChipUse Layout_proof Contract
  Stack_proof SpongeTable TableRows_proof TableLoad_proof TableUse TableInv_proof TableGate_proof TableSound_proof TableMsg_proof
  TableVals_proof.
Import ListNotations.
Local Open Scope nat_scope.

(** ** Rows of a table *)
Section Rows.
  Context {F : Type} {FO : FieldOps F}.

  Lemma nth_padded : forall {A} calcs (l : list (option A)) i, i < calcs ->
    nth_error (padded calcs l) i = Some (nth i l None).
  Proof.
    intros A calcs l i H. unfold padded. rewrite (nth_error_nth' _ None).
    - rewrite nth_firstn by assumption. destruct (Nat.lt_ge_cases i (length l)) as [X|X].
      + now rewrite app_nth1.
      + f_equal. rewrite app_nth2 by assumption. rewrite (nth_overflow l) by assumption. destruct (Nat.lt_ge_cases (i - length l) calcs) as [Y|Y].
        * rewrite nth_repeat. reflexivity.
        * rewrite nth_overflow; [reflexivity|]. now rewrite repeat_length.
    - rewrite firstn_length, app_length, repeat_length. lia.
  Qed.
  Lemma nth_error_combine : forall {A B} (a : list A) (b : list B) i x y, nth_error a i = Some x -> nth_error b i = Some y ->
    nth_error (combine a b) i = Some (x, y).
  Proof.
    intros A B a. induction a as [|a0 a IH]; intros b i x y Ha Hb; [destruct i; discriminate|].
    destruct b as [|b0 b]; [destruct i; discriminate|]. destruct i as [|i]; cbn in *; [congruence|]. now apply IH.
  Qed.
  Lemma raw_row_at : forall calcs (t : hash_table F) i, i < calcs ->
    exists r, nth_error (raw_rows calcs t) i = Some r /\ r_in r = row_input t i /\ r_ctl r = row_control t i
      /\ r_dom r = row_domain t i /\ r_chk r = row_check t i.
  Proof.
    intros calcs t i H. eexists. split.
    - unfold raw_rows. apply nth_error_combine; apply nth_error_combine; apply nth_padded; assumption.
    - unfold r_in, r_ctl, r_dom, r_chk, row_input, row_control, row_domain, row_check. cbn [fst snd].
      assert (M : forall A (l : list A) d, unwrap_or (nth i (map Some l) None) d = nth i l d).
      { intros A l d. destruct (Nat.lt_ge_cases i (length l)) as [X|X].
        - rewrite (nth_indep _ None (Some d)) by (now rewrite map_length). rewrite (map_nth Some). reflexivity.
        - rewrite (nth_overflow l) by assumption. rewrite nth_overflow by (now rewrite map_length). reflexivity. }
      rewrite !M. repeat split.
  Qed.
End Rows.

Section Honest.
  Context {F : Type} {FO : FieldOps F} {PF : PrimeField F}.
  Add Field Ffield : f_field.
  Local Open Scope F_scope.
  Variable C : hash_circuit F.
  Hypothesis HC : host_columns C.
  Notation P := (hc_chip C).
  Notation cfg := (hc_config C).
  Notation legacy := (hc_legacy C).
  Notation STEP := (hc_range C).
  Notation s := (hc_spec C).
  Notation row := (@raw_row F).
  Notation state_at := (state_at legacy STEP s).
  Notation r_before := (r_before legacy).
  Notation r_after := (r_after legacy s).
  Notation dig := (dig legacy STEP s).
  Notation flag := (@flag_of F FO legacy).

  Section Table.
  Variable rows : list row.
  Variables (u : nat) (adv : nat -> nat -> F).
  Notation st := (state_at rows).

  (** the assignment has the values written *)
  Definition written : Prop :=
    forall c r, In c (tcols P cfg) -> (r < u)%nat ->
    adv c r = match last_write (custom_writes P cfg ++ rows_writes legacy P STEP s cfg 1 loop_start rows) c r with
              | Some (Some v) => v | _ => 0 end.

  Definition row_vals (i : nat) (r : row) : Prop :=
    auxc C adv 0 (S i) = nth 0 (r_before (st i) r) 0 /\ auxc C adv 1 (S i) = nth 1 (r_before (st i) r) 0
    /\ auxc C adv 2 (S i) = nth 2 (r_before (st i) r) 0
    /\ auxc C adv 5 (S i) = nth 0 (r_after (st i) r) 0 /\ auxc C adv 3 (S i) = nth 1 (r_after (st i) r) 0
    /\ auxc C adv 4 (S i) = nth 2 (r_after (st i) r) 0
    /\ in1 C adv (S i) = fst (r_in r) /\ in2 C adv (S i) = snd (r_in r) /\ control C adv (S i) = r_flag legacy r
    /\ domain C adv (S i) = r_dom r /\ head C adv (S i) = flag_bool (lp_new (st i))
    /\ invc C adv (S i) = invert_or_zero (r_flag legacy r) /\ contc C adv (S i) = flag_bool (negb (lp_new (st i)))
    /\ digest C adv (S i) = match dig (S i) (st i) (skipn i rows) with Some v => v | None => 0 end.

  Lemma cols_nodup : NoDup (tcols P cfg).
  Proof.
    rewrite (tcols_eq C HC). destruct HC as (_ & Hl & Hn & Hf). clear HC. rewrite Forall_forall in Hf.
    assert (N : NoDup (aux_cols C ++ [7 + A0 C]%nat ++ [6 + A0 C]%nat)).
    { unfold aux_cols. cbn [app]. repeat (constructor; [cbn [In]; lia|]). constructor. }
    assert (Ge : forall x, In x (aux_cols C ++ [7 + A0 C]%nat ++ [6 + A0 C]%nat) -> (cs_adv (hc_host C) <= x)%nat).
    { intros x Hx. unfold aux_cols, A0 in Hx. cbn [app In] in Hx. lia. }
    clear Hl. induction (hc_table C) as [|a l IH]; [exact N|]. cbn [app]. apply NoDup_cons_iff in Hn. constructor.
    - intros X. apply in_app_or in X. destruct X as [X|X]; [tauto|]. apply Ge in X. specialize (Hf a (or_introl eq_refl)). lia.
    - apply IH; [tauto|]. intros x Hx. apply Hf. now right.
  Qed.

  Lemma row_values_gen : forall (cf : sponge_config P), length (sc_table cf) = 6%nat -> length (sc_aux cf) = 6%nat ->
    NoDup (tcols P cf) -> (forall j, (j < 6)%nat -> col (sc_aux cf) j = (j + A0 C)%nat) -> sc_table cf = hc_table C ->
    sc_control_aux cf = (7 + A0 C)%nat -> sc_continue cf = (6 + A0 C)%nat ->
    (forall c r, In c (tcols P cf) -> (r < u)%nat ->
     adv c r = match last_write (custom_writes P cf ++ rows_writes legacy P STEP s cf 1 loop_start rows) c r with
              | Some (Some v) => v | _ => 0 end) ->
    (length rows < u)%nat -> forall i r, nth_error rows i = Some r -> row_vals i r.
  Proof.
    intros cf T1 T2 ND A6 Et Ec Es W Hu i r Hr.
    assert (Hi : (i < length rows)%nat) by (apply nth_error_Some; congruence).
    pose proof (row_value legacy P STEP s cf T1 T2 ND rows i r) as V.
    pose proof (row_digest legacy P STEP s cf T1 T2 ND rows i Hi) as Vd.
    pose proof (col_table_in P cf T1 T2) as I1. pose proof (col_aux_in P cf T1 T2) as I2.
    pose proof (col_control_aux_in P cf) as I3. pose proof (col_continue_in P cf) as I4.
    assert (V' : forall c v, In c (tcols P cf) -> In (c, v) (main_cells legacy P s cf (st i) r) -> adv c (S i) = v).
    { intros c v Hc Hv. rewrite W by (assumption || lia). rewrite (V c v Hr Hv). reflexivity. }
    unfold row_vals, auxc, invc, contc, in1, in2, control, domain, head, digest, tcell.
    rewrite <- Et, <- Ec, <- Es. rewrite <- !A6 by lia.
    assert (Z : forall j, nth j (sc_table cf) 0%nat = col (sc_table cf) j) by reflexivity. rewrite !Z.
    unfold main_cells in V'. cbn [In] in V'.
    repeat match goal with |- _ /\ _ => split end.
    14:{ rewrite W by (try (apply I1); lia). rewrite Vd. destruct (dig (S i) (st i) (skipn i rows)); reflexivity. }
    all: apply V'; [first [apply I1; lia | apply I2; lia | exact I3 | exact I4]|tauto].
  Qed.
  Lemma row_values : written -> (length rows < u)%nat -> forall i r, nth_error rows i = Some r -> row_vals i r.
  Proof.
    intros W Hu i r Hr. destruct (tab_length C HC) as [T1 T2]. pose proof cols_nodup as ND. pose proof (aux_col C HC) as A6.
    assert (E : sc_table cfg = hc_table C /\ sc_control_aux cfg = (7 + A0 C)%nat /\ sc_continue cfg = (6 + A0 C)%nat).
    { destruct (configured C HC) as [Ecfg _]. rewrite Ecfg. repeat split; reflexivity. }
    destruct E as (Et & Ec & Es). exact (row_values_gen cfg T1 T2 ND A6 Et Ec Es W Hu i r Hr).
  Qed.

  Lemma first_values : written -> (0 < u)%nat -> forall c, In c (tcols P cfg) -> adv c 0%nat = 0.
  Proof.
    intros W Hu c Hc. rewrite W by assumption. destruct (tab_length C HC) as [T1 T2].
    rewrite (custom_value legacy P STEP s cfg T1 T2) by assumption. reflexivity.
  Qed.
  Lemma beyond_values : written -> forall c r, In c (tcols P cfg) -> (length rows < r < u)%nat -> adv c r = 0.
  Proof.
    intros W c r Hc Hr. rewrite W by (assumption || lia). destruct (tab_length C HC) as [T1 T2].
    rewrite (beyond_value legacy P STEP s cfg T1 T2) by lia. reflexivity.
  Qed.

  Lemma table_col : forall j, (j < 6)%nat -> In (nth j (hc_table C) 0%nat) (tcols P cfg).
  Proof.
    intros j Hj. rewrite (tcols_eq C HC). apply in_or_app. left. apply nth_In. destruct HC as (_ & -> & _). assumption.
  Qed.
  Lemma auxiliary_col : forall j, (j < 8)%nat -> In (j + A0 C)%nat (tcols P cfg).
  Proof.
    intros j Hj. rewrite (tcols_eq C HC). apply in_or_app. right. unfold aux_cols. cbn [app In]. lia.
  Qed.

  (** a row that continues a message *)
  Definition goes_on (i : nat) (r p : row) : Prop :=
    r_flag legacy r <> 0 /\ r_flag legacy r + flag (N.of_nat (hc_step C)) = r_flag legacy p /\ r_dom r = 0.

  Lemma flag_inverse : forall x : F, x * (1 - x * invert_or_zero x) = 0 /\ (1 - x * invert_or_zero x = 0 <-> x <> 0).
  Proof.
    intros x. unfold invert_or_zero. destruct (feqb x 0) eqn:E.
    - apply feqb_eq in E. subst x. split; [ring|]. split; [|congruence]. intros H _. apply f_1_neq_0. rewrite <- H. ring.
    - apply feqb_neq in E. assert (X : 1 - x * finv x = 0) by (rewrite (finv_r x E); ring). rewrite X. split; [ring|tauto].
  Qed.

  Lemma first_row_eqs : written -> (length rows < u)%nat -> forall r, nth_error rows 0 = Some r -> row_eqs C adv 1.
  Proof.
    intros W Hu r Hr. destruct (row_values W Hu 0 r Hr) as (B0 & B1 & B2 & A5 & A3 & A4 & N1 & N2 & Ct & Dm & Hd & Iv & Cn & Dg).
    pose proof (first_values W ltac:(lia)) as Z0.
    rewrite state_0 in *. unfold r_before in *. cbn [loop_start lp_new negb flag_bool nth] in *.
    unfold row_eqs. cbv zeta. cbn [Nat.sub].
    assert (Q5 : auxc C adv 5 0 = 0) by (apply Z0; apply auxiliary_col; lia).
    assert (Q0 : digest C adv 0 = 0) by (apply Z0; apply table_col; lia).
    rewrite B0, B1, B2, Ct, Dm, Hd, Iv, Cn, Q5, Q0, N1, N2.
    destruct (flag_inverse (r_flag legacy r)) as [FI _].
    repeat split; try ring. exact FI.
  Qed.

  Lemma next_row_eqs : written -> (length rows < u)%nat -> forall i p r, nth_error rows i = Some p -> nth_error rows (S i) = Some r ->
    (row_eqs C adv (S (S i)) <-> (r_fin STEP p = false -> goes_on (S i) r p)).
  Proof.
    intros W Hu i p r Hp Hr.
    destruct (row_values W Hu _ r Hr) as (B0 & B1 & B2 & A5 & A3 & A4 & N1 & N2 & Ct & Dm & Hd & Iv & Cn & Dg).
    destruct (row_values W Hu _ p Hp) as (B0' & B1' & B2' & A5' & A3' & A4' & N1' & N2' & Ct' & Dm' & Hd' & Iv' & Cn' & Dg').
    rewrite (dig_row legacy STEP s rows i p Hp) in Dg'.
    unfold r_before in B0, B1, B2. cbn [nth] in B0, B1, B2.
    rewrite (state_new legacy STEP s rows i p Hp) in *. rewrite (state_state legacy STEP s rows i p Hp) in *.
    rewrite <- A5' in *. rewrite <- A3' in *. rewrite <- A4' in *.
    unfold row_eqs, goes_on. cbv zeta. replace (S (S i) - 1)%nat with (S i) by lia.
    destruct (flag_inverse (r_flag legacy r)) as [FI1 FI2].
    destruct (r_fin STEP p) eqn:Ef; cbn [negb flag_bool] in *.
    - split; [discriminate|]. intros _.
      rewrite B0, B1, B2, Ct, Dm, Hd, Iv, Cn, Ct', N1, N2, Dg'. repeat split; try ring. exact FI1.
    - rewrite B0, B1, B2, Ct, Dm, Hd, Iv, Cn, Ct', N1, N2, Dg, Dg'. unfold stepf. split.
      + intros (E1 & E2 & E3 & E4 & E5 & E6 & E7 & E8 & E9 & E10 & E11) _. split; [|split].
        * apply FI2. rewrite <- E3. ring.
        * apply fsub_eq_0. rewrite <- E5. ring.
        * replace (r_dom r) with (- (1 * (auxc C adv 5 (S i) - auxc C adv 5 (S i) - r_dom r))) by ring. rewrite E11. ring.
      + intros X. destruct (X eq_refl) as (X1 & X2 & X3). apply FI2 in X1. rewrite <- X2, X1, X3.
        repeat split; try ring.
  Qed.

  Lemma rows_satisfied : written -> (length rows < u)%nat ->
    ((forall r, (1 <= r <= length rows)%nat -> row_eqs C adv r)
     <-> forall i p r, nth_error rows i = Some p -> nth_error rows (S i) = Some r -> r_fin STEP p = false -> goes_on (S i) r p).
  Proof.
    intros W Hu. split.
    - intros H i p r Hp Hr. apply (proj1 (next_row_eqs W Hu i p r Hp Hr)). apply H.
      assert (S i < length rows)%nat by (apply nth_error_Some; congruence). lia.
    - intros H r Hr. destruct r as [|[|i]]; [lia| |].
      + destruct (nth_error rows 0) as [r|] eqn:E; [now apply (first_row_eqs W Hu r)|]. apply nth_error_None in E. lia.
      + destruct (nth_error rows i) as [p|] eqn:Ep; [|apply nth_error_None in Ep; lia].
        destruct (nth_error rows (S i)) as [r|] eqn:Er; [|apply nth_error_None in Er; lia].
        apply (next_row_eqs W Hu i p r Ep Er). now apply H.
  Qed.

  Lemma first_custom : written -> (0 < u)%nat -> custom_eqs C adv 0.
  Proof.
    intros W Hu. pose proof (first_values W Hu) as Z0. unfold custom_eqs, in1, in2, control, tcell.
    repeat split; apply Z0; apply table_col; lia.
  Qed.
  Lemma last_custom : written -> (length rows < u)%nat -> forall i r, nth_error rows i = Some r ->
    (custom_eqs C adv (S i) <-> r_in r = (0, 0) /\ r_flag legacy r = 0).
  Proof.
    intros W Hu i r Hr. destruct (row_values W Hu i r Hr) as (_ & _ & _ & _ & _ & _ & N1 & N2 & Ct & _).
    unfold custom_eqs. rewrite N1, N2, Ct. destruct (r_in r) as [a b]. cbn [fst snd]. split.
    - intros (-> & -> & ->). auto.
    - intros [E ->]. injection E as -> ->. auto.
  Qed.

  Lemma range_satisfied : written -> (length rows < u)%nat -> forall n r, (r < u)%nat -> range_eq C adv n r.
  Proof.
    intros W Hu n r Hr. unfold range_eq.
    assert (Z : forall x : F, x = 0 -> exists k, (k <= STEP)%nat /\ x = flag (N.of_nat k)).
    { intros x ->. exists 0%nat. split; [lia|]. symmetry. apply (flag_0 legacy). }
    destruct r as [|[|i]].
    - apply Z. cbn [Nat.eqb].
      replace (head C adv 0) with (0 : F) by (symmetry; apply (first_values W ltac:(lia)); apply table_col; lia). ring.
    - apply Z. cbn [Nat.eqb Nat.sub].
      replace (control C adv 0) with (0 : F) by (symmetry; apply (first_values W ltac:(lia)); apply table_col; lia). ring.
    - cbn [Nat.eqb]. replace (S (S i) - 1)%nat with (S i) by lia.
      destruct (nth_error rows (S i)) as [r|] eqn:Er.
      + destruct (nth_error rows i) as [p|] eqn:Ep.
        2:{ apply nth_error_None in Ep. assert (S i < length rows)%nat by (apply nth_error_Some; congruence). lia. }
        destruct (row_values W Hu _ r Er) as (_ & _ & _ & _ & _ & _ & _ & _ & _ & _ & Hd & _).
        destruct (row_values W Hu _ p Ep) as (_ & _ & _ & _ & _ & _ & _ & _ & Ct & _).
        rewrite Hd, Ct, (state_new legacy STEP s rows i p Ep). destruct (r_fin STEP p) eqn:Ef; cbn [flag_bool].
        * unfold r_fin in Ef. apply N.leb_le in Ef. exists (N.to_nat (r_ctl p)). split; [lia|].
          rewrite N2Nat.id. unfold r_flag. ring.
        * apply Z. ring.
      + apply Z. apply nth_error_None in Er.
        replace (head C adv (S (S i))) with (0 : F); [ring|]. symmetry. apply (beyond_values W); [apply table_col; lia|lia].
  Qed.
  End Table.
End Honest.
