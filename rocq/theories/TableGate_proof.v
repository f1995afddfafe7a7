(** The gates and the lookup of the hash table circuit, as equations on the rows. *)
From Coq Require Import ZArith List Arith Lia Bool.
From Verif Require Import Field Rust ListAux Primitives Specs BaseHash Halo2 PermuteChip ChipUse Layout_proof Contract
  Stack_proof SpongeTable TableRows_proof TableLoad_proof TableUse TableInv_proof.
Import ListNotations.
Local Open Scope nat_scope.

Lemma rotate_cur : forall n r, r < n -> rotate n r 0 = r.
Proof. intros n r H. unfold rotate. rewrite Z.add_0_r, Z.mod_small by lia. apply Nat2Z.id. Qed.
Lemma rotate_prev : forall n r, 0 < r < n -> rotate n r (-1) = r - 1.
Proof. intros n r H. unfold rotate. rewrite Z.mod_small by lia. lia. Qed.
Lemma rotate_prev0 : forall n, 0 < n -> rotate n 0 (-1) = n - 1.
Proof.
  intros n H. unfold rotate. change (Z.of_nat 0 + -1)%Z with (-1)%Z.
  replace (-1)%Z with (Z.of_nat n - 1 + (-1) * Z.of_nat n)%Z by lia. rewrite Z.mod_add, Z.mod_small by lia. lia.
Qed.

Section Gates.
  Context {F : Type} {FO : FieldOps F} {PF : PrimeField F}.
  Add Field Ffield : f_field.
  Local Open Scope F_scope.
  Variable C : hash_circuit F.
  Notation T := (tcell C).
  Notation A0 := (A0 C).

  (** the auxiliary columns *)
  Section Rows.
    Variable adv : nat -> nat -> F.
    Definition auxc (j r : nat) : F := adv (j + A0)%nat r.
    Definition contc (r : nat) : F := adv (6 + A0)%nat r.
    Definition invc (r : nat) : F := adv (7 + A0)%nat r.
    Definition stepf : F := flag_of (hc_legacy C) (N.of_nat (hc_step C)).

    (** an enabled row *)
    Definition row_eqs (r : nat) : Prop :=
      let p := (r - 1)%nat in
      contc r * (1 - contc r) = 0
      /\ control C adv r * (1 - control C adv r * invc r) = 0
      /\ contc r * (1 - control C adv r * invc r) = 0
      /\ head C adv r = 1 - contc r
      /\ contc r * (control C adv r + stepf - control C adv p) = 0
      /\ contc r * (digest C adv r - digest C adv p) = 0
      /\ (1 - contc r) * (auxc 5 p - digest C adv p) = 0
      /\ auxc 1 r = auxc 3 p * contc r + in1 C adv r
      /\ auxc 2 r = auxc 4 p * contc r + in2 C adv r
      /\ (1 - contc r) * (auxc 0 r - (control C adv r + domain C adv r)) = 0
      /\ contc r * (auxc 0 r - auxc 5 p - domain C adv r) = 0.
    (** a custom row *)
    Definition custom_eqs (r : nat) : Prop := in1 C adv r = 0 /\ in2 C adv r = 0 /\ control C adv r = 0.
    (** the range check in a row of [n] *)
    Definition range_eq (n r : nat) : Prop :=
      exists k, (k <= hc_range C)%nat
        /\ head C adv r * control C adv (if r =? 0 then n - 1 else r - 1)%nat = flag_of (hc_legacy C) (N.of_nat k).
  End Rows.

  (** enabled rows and custom rows of a layout *)
  Definition enabled_rows (L : layout F) (calcs : nat) : Prop :=
    forall r, fixed_at L (hc_enable C) r = if (1 <=? r) && (r <=? calcs) then 1 else 0.
  Definition custom_rows (L : layout F) (calcs : nat) : Prop :=
    forall r, selector_at L (cs_sel (hc_host C)) r = if (r =? 0) || (r =? calcs) then 1 else 0.

  Lemma mul_zero : forall a b : F, a = 1 -> a * b = 0 -> b = 0.
  Proof. intros a b -> H. rewrite <- H. ring. Qed.
  Lemma sub_zero : forall a b : F, a - b = 0 -> a = b.
  Proof. intros a b H. replace a with (a - b + b) by ring. rewrite H. ring. Qed.

  Section Poly.
    Variable adv : nat -> nat -> F.
    Notation ctl := (control C adv).
    Definition enabled_polys (p r : nat) : list F :=
      [contc adv r * (1 + - contc adv r);
       ctl r * (1 + - (ctl r * invc adv r));
       contc adv r * (1 + - (ctl r * invc adv r));
       1 + - contc adv r + - head C adv r;
       contc adv r * (ctl r + stepf + - ctl p);
       contc adv r * (1 + - (ctl r * invc adv r));
       contc adv r * (digest C adv r + - digest C adv p);
       (1 + - contc adv r) * (auxc adv 5 p + - digest C adv p);
       auxc adv 3 p * contc adv r + in1 C adv r + - auxc adv 1 r;
       auxc adv 4 p * contc adv r + in2 C adv r + - auxc adv 2 r;
       (1 + - contc adv r) * (auxc adv 0 r + - (ctl r + domain C adv r));
       contc adv r * (auxc adv 0 r + - auxc adv 5 p + - domain C adv r)].
    Definition custom_polys (r : nat) : list F := [in1 C adv r; in2 C adv r; ctl r].

    Lemma table_polys : forall n fx sl r, (r < n)%nat ->
      map (eval n fx sl adv r) (table_gates C)
      = map (fmul (sl (cs_sel (hc_host C)) r)) (custom_polys r)
        ++ map (fun x => x) (map (eval n fx sl adv r) (skipn 3 (table_gates C)))
      /\ Forall2 (fun x y => x = fx (hc_enable C) r * y) (map (eval n fx sl adv r) (skipn 3 (table_gates C)))
           (enabled_polys (rotate n r (-1)) r).
    Proof.
      intros n fx sl r H. unfold table_gates, custom_gate, control_gate, step_gate, index_gate, input_gate.
      cbn [app skipn map eval cur prev esub e1 aux_cols col nth custom_polys enabled_polys].
      rewrite !(rotate_cur n r H).
      unfold custom_polys, enabled_polys, contc, invc, auxc, in1, in2, control, head, domain, digest, tcell, col, stepf.
      change (0 + A0)%nat with A0. split; [reflexivity|].
      repeat (constructor; [ring|]). constructor.
    Qed.

    Lemma polys_zero : forall (q : F) a b, Forall2 (fun x y => x = q * y) a b ->
      (q = 0 -> Forall (fun x => x = 0) a) /\ (q = 1 -> (Forall (fun x => x = 0) a <-> Forall (fun x => x = 0) b)).
    Proof.
      intros q a b H. induction H as [|x y a b E H [I1 I2]].
      - split; intros; [constructor|]. split; constructor.
      - split.
        + intros Z. constructor; [rewrite E, Z; ring|now apply I1].
        + intros O. specialize (I2 O). assert (XY : x = y) by (rewrite E, O; ring). subst y.
          split; intros X; inversion X; subst; constructor; tauto.
    Qed.

    Lemma enabled_polys_eqs : forall r, Forall (fun x => x = 0) (enabled_polys (r - 1) r) <-> row_eqs adv r.
    Proof.
      intros r. unfold enabled_polys, row_eqs. cbn zeta. rewrite !Forall_cons_iff.
      assert (Q : forall x y : F, x + - y = 0 <-> x = y).
      { intros x y. split; intros X; [|rewrite X; ring]. replace x with (x + - y + y) by ring. rewrite X. ring. }
      assert (M : forall x y : F, x + - y = x - y) by (intros; ring).
      rewrite (Q (1 + - contc adv r)), (Q (auxc adv 3 (r - 1) * contc adv r + in1 C adv r)),
        (Q (auxc adv 4 (r - 1) * contc adv r + in2 C adv r)). rewrite !M.
      split.
      - intros (P1 & P2 & P3 & P4 & P5 & P6 & P7 & P8 & P9 & P10 & P11 & P12 & _). repeat split; auto.
      - intros (P1 & P2 & P3 & P4 & P5 & P7 & P8 & P9 & P10 & P11 & P12). repeat split; auto.
    Qed.
    Lemma custom_polys_eqs : forall r, Forall (fun x => x = 0) (custom_polys r) <-> custom_eqs adv r.
    Proof.
      intros r. unfold custom_polys, custom_eqs. rewrite !Forall_cons_iff. split; [tauto|]. intros H. repeat split; try apply H. constructor.
    Qed.
    Lemma mul_zeros : forall (q : F) l, (q = 0 -> Forall (fun x => x = 0) (map (fmul q) l))
      /\ (q = 1 -> (Forall (fun x => x = 0) (map (fmul q) l) <-> Forall (fun x => x = 0) l)).
    Proof.
      intros q l. assert (H : Forall2 (fun x y => x = q * y) (map (fmul q) l) l).
      { induction l; constructor; auto. }
      apply (polys_zero _ _ _ H).
    Qed.
  End Poly.

  Lemma gates_hold_rows : forall n L adv gs, gates_hold n L adv gs
    <-> forall r, (r < n)%nat -> Forall (fun x => x = 0) (map (eval n (fixed_at L) (selector_at L) adv r) gs).
  Proof.
    intros n L adv gs. unfold gates_hold. split.
    - intros H r Hr. rewrite Forall_forall. intros x Hx. rewrite in_map_iff in Hx. destruct Hx as (g & <- & Hg). now apply H.
    - intros H g r Hg Hr. specialize (H r Hr). rewrite Forall_forall in H. apply H. now apply in_map.
  Qed.

  Lemma table_gates_rows : forall n L adv calcs, enabled_rows L calcs -> custom_rows L calcs -> (calcs < n)%nat ->
    (gates_hold n L adv (table_gates C)
     <-> (forall r, (1 <= r <= calcs)%nat -> row_eqs adv r) /\ custom_eqs adv 0 /\ custom_eqs adv calcs).
  Proof.
    intros n L adv calcs He Hs Hn. rewrite gates_hold_rows.
    assert (R : forall r, (r < n)%nat ->
      (Forall (fun x => x = 0) (map (eval n (fixed_at L) (selector_at L) adv r) (table_gates C))
       <-> ((1 <= r <= calcs)%nat -> row_eqs adv r) /\ ((r = 0 \/ r = calcs)%nat -> custom_eqs adv r))).
    { intros r Hr. destruct (table_polys adv n (fixed_at L) (selector_at L) r Hr) as [E1 E2].
      rewrite E1, Forall_app, map_id.
      destruct (polys_zero _ _ _ E2) as [Z1 Z2]. destruct (mul_zeros (selector_at L (cs_sel (hc_host C)) r) (custom_polys adv r)) as [Z3 Z4].
      rewrite He in Z1, Z2. rewrite Hs in *.
      assert (X1 : Forall (fun x => x = 0) (map (fmul (if (r =? 0) || (r =? calcs) then 1 else 0)) (custom_polys adv r))
                   <-> ((r = 0 \/ r = calcs)%nat -> custom_eqs adv r)).
      { destruct (Nat.eqb_spec r 0) as [X|X].
        - cbn [orb] in *. rewrite (Z4 eq_refl), custom_polys_eqs. tauto.
        - destruct (Nat.eqb_spec r calcs) as [Y|Y]; cbn [orb] in *.
          + rewrite (Z4 eq_refl), custom_polys_eqs. tauto.
          + split; intros; [lia|now apply Z3]. }
      rewrite X1.
      assert (X2 : Forall (fun x => x = 0) (map (eval n (fixed_at L) (selector_at L) adv r) (skipn 3 (table_gates C)))
                   <-> ((1 <= r <= calcs)%nat -> row_eqs adv r)).
      { destruct (Nat.leb_spec 1 r) as [X|X]; [|cbn [andb] in *; split; intros; [lia|now apply Z1]].
        destruct (Nat.leb_spec r calcs) as [Y|Y]; cbn [andb] in *; [|split; intros; [lia|now apply Z1]].
        rewrite (Z2 eq_refl). rewrite rotate_prev by lia. rewrite enabled_polys_eqs. tauto. }
      rewrite X2. tauto. }
    split.
    - intros H. split; [|split].
      + intros r Hr. apply (R r); [lia|apply H; lia|lia].
      + apply (R 0%nat); [lia|apply H; lia|lia].
      + apply (R calcs); [lia|apply H; lia|lia].
    - intros (H1 & H2 & H3) r Hr. apply R; [assumption|]. split; [apply H1|]. intros [-> | ->]; assumption.
  Qed.

  Lemma range_table_in : forall x, In x (range_table (hc_legacy C) (hc_range C))
    <-> exists k, (k <= hc_range C)%nat /\ x = flag_of (hc_legacy C) (N.of_nat k).
  Proof.
    intros x. unfold range_table. rewrite in_map_iff. split.
    - intros (k & E & H). apply in_seq in H. exists k. split; [lia|congruence].
    - intros (k & H & E). exists k. rewrite in_seq. split; [congruence|lia].
  Qed.

  Lemma range_lookup_rows : forall n u L adv, (0 < u <= n)%nat ->
    (exists pre post, lo_tables L = pre ++ (cs_fix (hc_host C), range_table (hc_legacy C) (hc_range C)) :: post
       /\ forall v, ~ In (cs_fix (hc_host C), v) pre) ->
    (lookups_hold n u L adv [(range_input (hc_table C), cs_fix (hc_host C))] -> forall r, (r < u)%nat -> range_eq adv n r)
    /\ ((hc_range C < u)%nat -> (forall r, (r < u)%nat -> range_eq adv n r) ->
        lookups_hold n u L adv [(range_input (hc_table C), cs_fix (hc_host C))]).
  Proof.
    intros n u L adv Hu (pre & post & ET & Hpre).
    set (tb := range_table (hc_legacy C) (hc_range C)) in *.
    assert (TA : forall r, table_at L (cs_fix (hc_host C)) r = nth r tb (hd 0 tb)).
    { intros r. unfold table_at. rewrite ET.
      assert (X : find (fun '(c', _) => cs_fix (hc_host C) =? c') (pre ++ (cs_fix (hc_host C), tb) :: post)
                  = Some (cs_fix (hc_host C), tb)).
      { clear ET. induction pre as [|[c v] pre IH].
        - cbn [app find]. now rewrite Nat.eqb_refl.
        - cbn [app find]. destruct (Nat.eqb_spec (cs_fix (hc_host C)) c) as [E|E].
          + exfalso. apply (Hpre v). left. now rewrite E.
          + apply IH. intros v' H. apply (Hpre v'). now right. }
      rewrite X. reflexivity. }
    assert (LT : length tb = S (hc_range C)).
    { unfold tb, range_table. rewrite map_length, seq_length. lia. }
    assert (EV : forall r, (r < u)%nat -> eval n (fixed_at L) (selector_at L) adv r (range_input (hc_table C))
                 = head C adv r * control C adv (if r =? 0 then n - 1 else r - 1)%nat).
    { intros r Hr. unfold range_input, cur, prev. cbn [eval]. rewrite rotate_cur by lia. unfold head, control, tcell, col.
      f_equal. f_equal. destruct (Nat.eqb_spec r 0) as [->|X]; [apply rotate_prev0; lia|apply rotate_prev; lia]. }
    assert (TI : forall r, In (nth r tb (hd 0 tb)) tb).
    { intros r. destruct (Nat.lt_ge_cases r (length tb)) as [H|H]; [now apply nth_In|].
      rewrite nth_overflow by assumption. destruct tb as [|x tb']; [discriminate|now left]. }
    split.
    - intros H r Hr. destruct (H _ _ r (or_introl eq_refl) Hr) as (r' & _ & E). rewrite EV, TA in E by assumption.
      unfold range_eq. rewrite E. apply range_table_in. apply TI.
    - intros HS H e t r [E|[]] Hr. injection E as <- <-. destruct (H r Hr) as (k & Hk & E).
      exists k. split; [lia|]. rewrite EV, TA, E by assumption. unfold tb, range_table.
      rewrite (nth_indep _ _ (flag_of (hc_legacy C) (N.of_nat 0))) by (rewrite map_length, seq_length; lia).
      rewrite (map_nth (fun i => flag_of (hc_legacy C) (N.of_nat i)) (seq 0 (hc_range C + 1)) 0%nat k).
      rewrite seq_nth by lia. reflexivity.
  Qed.
End Gates.
