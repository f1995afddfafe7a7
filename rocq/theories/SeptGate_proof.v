(** What the gates of the Septidon chip say about one block of eight rows. *)
From Coq Require Import ZArith List Arith Lia Bool.
From Verif Require Import Field Rust ListAux Primitives Halo2 Septidon SeptVal_proof.
Import ListNotations.
Local Open Scope nat_scope.

Lemma rotate_in : forall n r z, (0 <= Z.of_nat r + z < Z.of_nat n)%Z ->
  rotate n r z = Z.to_nat (Z.of_nat r + z).
Proof. intros n r z H. unfold rotate. now rewrite Z.mod_small. Qed.
Lemma rotate_0 : forall n r, r < n -> rotate n r 0 = r.
Proof. intros. rewrite rotate_in by lia. lia. Qed.
Lemma rotate_1 : forall n r, S r < n -> rotate n r 1 = S r.
Proof. intros. rewrite rotate_in by lia. lia. Qed.
Lemma rotate_lt : forall n r z, 0 < n -> rotate n r z < n.
Proof.
  intros n r z H. unfold rotate.
  pose proof (Z.mod_pos_bound (Z.of_nat r + z) (Z.of_nat n) ltac:(lia)). lia.
Qed.

Lemma Forall_iff_l : forall {A} (P Q : A -> Prop) l, (forall x, P x <-> Q x) -> (Forall P l <-> Forall Q l).
Proof. intros A P Q l H. split; apply Forall_impl; intros; now apply H. Qed.

Section Proofs.
  Context {F : Type} {FO : FieldOps F} {PF : PrimeField F}.
  Add Field Ffield : f_field.
  Variable rcs : list (list F).
  Variable m : list (list F).

  (** the chip whose first advice column is [a] and first fixed column is [f] *)
  Definition mk_sbox (a f : nat) : sbox_chip :=
    {| sb_input := {| sc_col := a; sc_off := 0 |}; sb_rc := f |}.
  Definition chip_of (a f : nat) : septidon :=
    {| s_is_last := f; s_transition := 12 + a;
       s_full := (mk_sbox a (1 + f), mk_sbox (1 + a) (2 + f), mk_sbox (2 + a) (3 + f));
       s_partial :=
         {| sp_first := mk_sbox (3 + a) (4 + f);
            sp_linears := ({| sc_col := 4 + a; sc_off := 0 |}, {| sc_col := 5 + a; sc_off := 0 |});
            sp_following := [mk_sbox (6 + a) (5 + f); mk_sbox (7 + a) (6 + f); mk_sbox (8 + a) (7 + f);
                             mk_sbox (9 + a) (8 + f); mk_sbox (10 + a) (9 + f); mk_sbox (11 + a) (10 + f)] |} |}.

  (** its gates *)
  Definition q_of (f : nat) : expr F := derive_selector f.
  Definition sept_constraints_of (a f : nat) :=
    let p := s_partial (chip_of a f) in
    septuple_constraints m (sp_first p) (map3 (fun i => cell_query i 0) (septuple_input p)) (sp_following p).
  Definition sept_gates (a f : nat) : list (expr F) :=
    let chip := chip_of a f in
    let p := s_partial chip in
    let '(constraints, (checked, state)) := sept_constraints_of a f in
    let '(o0, o1, o2) := first_partial_round_expr rcs m
                           (map3 (fun i => cell_query i 0) (transition_input (s_transition chip))) in
    let '(n0, n1, n2) := map3 (fun i => cell_query i (-3)) (septuple_input p) in
    let '(t0, t1, t2) := map3 (fun i => cell_query i 0) (transition_input (s_transition chip)) in
    let '(b0, b1, b2) := matmul_expr m (map3 output_expr (s_full chip)) in
    let '(x0, x1, x2) := map3 (fun s => cell_query (sb_input s) 1) (s_full chip) in
    let '(f0, f1, f2) := map3 (fun s => cell_query (rotated (sb_input s) (-3)) 0) (s_full chip) in
    let '(y0, y1, y2) := map3 (fun i => cell_query i 1) (septuple_input p) in
    let '(e0, e1, e2) := partial_round_expr m checked state in
    let brk := ESum (EFix f 4) (EFix f 0) in
    [EConst fzero; EConst fzero; EConst fzero]
    ++ with_selector (q_of f) constraints
    ++ with_selector (EFix f 4) [esub o0 n0; esub o1 n1; esub o2 n2]
    ++ with_selector (q_of f) [esub (select_expr brk t0 x0) b0; esub (select_expr brk t1 x1) b1;
                               esub (select_expr brk t2 x2) b2]
    ++ with_selector (q_of f) [esub (select_expr (EFix f 0) f0 y0) e0;
                               esub (select_expr (EFix f 0) f1 y1) e1;
                               esub (select_expr (EFix f 0) f2 y2) e2].

  Lemma configure_chip : forall c, fst (septidon_configure rcs m c) = chip_of (cs_adv c) (cs_fix c).
  Proof. intros c. destruct c. reflexivity. Qed.

  Lemma configure_cs : forall c,
    cs_adv (snd (septidon_configure rcs m c)) = 13 + cs_adv c
    /\ cs_fix (snd (septidon_configure rcs m c)) = 11 + cs_fix c
    /\ cs_sel (snd (septidon_configure rcs m c)) = cs_sel c
    /\ cs_gates (snd (septidon_configure rcs m c)) = cs_gates c ++ sept_gates (cs_adv c) (cs_fix c)
    /\ cs_lookups (snd (septidon_configure rcs m c)) = cs_lookups c
    /\ cs_eq (snd (septidon_configure rcs m c))
       = cs_eq c ++ [Adv (cs_adv c); Adv (1 + cs_adv c); Adv (2 + cs_adv c);
                     Adv (12 + cs_adv c); Adv (12 + cs_adv c); Adv (12 + cs_adv c)]
    /\ cs_const (snd (septidon_configure rcs m c)) = cs_const c.
  Proof.
    intros c. destruct c as [a f s g l e k]. cbn [cs_adv cs_fix cs_sel cs_gates cs_lookups cs_eq cs_const].
    do 3 (split; [reflexivity|]). split; [|split; [reflexivity|split; [|reflexivity]]].
    - transitivity ((((((((g ++ [EConst fzero]) ++ [EConst fzero]) ++ [EConst fzero])
         ++ with_selector (q_of f) (fst (sept_constraints_of a f)))
         ++ firstn 3 (skipn (3 + length (fst (sept_constraints_of a f))) (sept_gates a f)))
         ++ firstn 3 (skipn (6 + length (fst (sept_constraints_of a f))) (sept_gates a f)))
         ++ firstn 3 (skipn (9 + length (fst (sept_constraints_of a f))) (sept_gates a f)))); [reflexivity|].
      rewrite <- !app_assoc. reflexivity.
    - transitivity ((((((e ++ [Adv a]) ++ [Adv (1 + a)]) ++ [Adv (2 + a)]) ++ [Adv (12 + a)])
                      ++ [Adv (12 + a)]) ++ [Adv (12 + a)]); [reflexivity|].
      rewrite <- !app_assoc. reflexivity.
  Qed.

  (** ** One row *)
  Section Row.
    Variable n : nat.
    Variables fx sl adv : nat -> nat -> F.
    Variables a f : nat.

    Notation ev r := (eval n fx sl adv r).
    Definition eval3 (r : nat) (v : arr3 (expr F)) : arr3 F := map3 (ev r) v.

    Lemma eval3_matmul : forall r v, eval3 r (matmul_expr m v) = matmul_value m (eval3 r v).
    Proof. intros r [[x y] z]. reflexivity. Qed.

    Lemma eval3_partial : forall r s st, ev r (input_expr s) = fst3 (eval3 r st) ->
      eval3 r (partial_round_expr m s st) = pr m (ev r (rc_expr s)) (eval3 r st).
    Proof.
      intros r s [[x y] z] H. unfold partial_round_expr. rewrite eval3_matmul.
      cbn [pr eval3 map3]. cbn [fst3 eval3 map3] in H. rewrite <- H. reflexivity.
    Qed.

    (** the S-box inputs in the row are the first words of the successive states *)
    Fixpoint chain (v : arr3 F) (rc : F) (l : list (F * F)) : Prop :=
      match l with
      | [] => True
      | (x, rc') :: l' => x = fst3 (pr m rc v) /\ chain (pr m rc v) rc' l'
      end.
    Fixpoint chain_out (v : arr3 F) (rc : F) (l : list (F * F)) : arr3 F :=
      match l with
      | [] => pr m rc v
      | (_, rc') :: l' => chain_out (pr m rc v) rc' l'
      end.

    Lemma chain_ok : forall r l checked st,
      ev r (input_expr checked) = fst3 (eval3 r st) ->
      let vals := map (fun s => (ev r (input_expr s), ev r (rc_expr s))) l in
      let res := septuple_constraints m checked st l in
      (Forall (fun e => ev r e = fzero) (fst res) <-> chain (eval3 r st) (ev r (rc_expr checked)) vals)
      /\ (chain (eval3 r st) (ev r (rc_expr checked)) vals ->
          eval3 r (partial_round_expr m (fst (snd res)) (snd (snd res)))
          = chain_out (eval3 r st) (ev r (rc_expr checked)) vals).
    Proof.
      intros r l. induction l as [|s l IH]; intros checked st H; cbn [map].
      - cbn. split; [split; [intros _; exact I|constructor]|]. intros _. now apply eval3_partial.
      - pose proof (eval3_partial r checked st H) as E.
        cbn [septuple_constraints chain chain_out].
        destruct (partial_round_expr m checked st) as [[st0 st1] st2] eqn:P.
        specialize (IH s (st0, st1, st2)).
        destruct (septuple_constraints m s (st0, st1, st2) l) as [cons [lst_s lst]] eqn:Q.
        cbn [fst snd] in *. cbn zeta in *. rewrite <- E.
        assert (Z : ev r (esub st0 (input_expr s)) = fzero
                    <-> ev r (input_expr s) = fst3 (eval3 r (st0, st1, st2))).
        { cbn. split; intros X.
          - symmetry. apply fsub_eq_0. rewrite <- X. ring.
          - rewrite X. ring. }
        split.
        + split.
          * intros X. inversion X as [|? ? X1 X2]; subst. apply Z in X1.
            split; [exact X1|]. now apply (IH X1).
          * intros [X1 X2]. constructor; [now apply Z|]. now apply (IH X1).
        + intros [X1 X2]. now apply (IH X1).
    Qed.

    (** the cells of a row *)
    Definition fullin (r : nat) : arr3 F := (adv a r, adv (1 + a) r, adv (2 + a) r).
    Definition septin (r : nat) : arr3 F := (adv (3 + a) r, adv (4 + a) r, adv (5 + a) r).
    Definition tr (r : nat) : F := adv (12 + a) r.
    Definition fullout (r : nat) : arr3 F :=
      let '(x, y, z) := fullin r in
      matmul_value m (sbox_value x (fx (1 + f) r), sbox_value y (fx (2 + f) r), sbox_value z (fx (3 + f) r)).
    Definition foll (r : nat) : list (F * F) :=
      [(adv (6 + a) r, fx (5 + f) r); (adv (7 + a) r, fx (6 + f) r); (adv (8 + a) r, fx (7 + f) r);
       (adv (9 + a) r, fx (8 + f) r); (adv (10 + a) r, fx (9 + f) r); (adv (11 + a) r, fx (10 + f) r)].
    Definition septout (r : nat) : arr3 F := chain_out (septin r) (fx (4 + f) r) (foll r).

    Definition qv (r : nat) : F := ev r (q_of f).
    Definition midv (r : nat) : F := fx f (rotate n r 4).
    Definition lastv (r : nat) : F := fx f (rotate n r 0).

    Lemma sub3 : forall r o0 o1 o2 n0 n1 n2,
      Forall (fun g => ev r g = fzero) [esub o0 n0; esub o1 n1; esub o2 n2]
      <-> eval3 r (n0, n1, n2) = eval3 r (o0, o1, o2).
    Proof.
      intros. cbn [eval3 map3].
      assert (Z : forall x y, ev r (esub x y) = fzero <-> ev r y = ev r x).
      { intros x y. cbn [esub eval]. split; intros H.
        - symmetry. apply fsub_eq_0. rewrite <- H. ring.
        - rewrite H. ring. }
      rewrite !Forall_cons_iff, !Z. split.
      - intros (-> & -> & -> & _). reflexivity.
      - intros H. inversion H. auto.
    Qed.

    Lemma select3 : forall r (s : bool) q t0 t1 t2 x0 x1 x2 b0 b1 b2,
      ev r q = (if s then fone else fzero) ->
      (Forall (fun g => ev r g = fzero)
        [esub (select_expr q t0 x0) b0; esub (select_expr q t1 x1) b1; esub (select_expr q t2 x2) b2]
       <-> (if s then eval3 r (t0, t1, t2) else eval3 r (x0, x1, x2)) = eval3 r (b0, b1, b2)).
    Proof.
      intros r s q t0 t1 t2 x0 x1 x2 b0 b1 b2 H. rewrite sub3.
      assert (E : eval3 r (select_expr q t0 x0, select_expr q t1 x1, select_expr q t2 x2)
                  = if s then eval3 r (t0, t1, t2) else eval3 r (x0, x1, x2)).
      { cbn [eval3 map3 select_expr esub eval]. rewrite H, of_Z_1.
        destruct s; f_equal; try f_equal; ring. }
      rewrite E. split; congruence.
    Qed.

    (** inactive rows *)
    Lemma row_inactive : forall r, qv r = fzero -> midv r = fzero ->
      Forall (fun g => ev r g = fzero) (sept_gates a f).
    Proof.
      intros r Hq Hm. unfold sept_gates.
      destruct (sept_constraints_of a f) as [cons [ck st]].
      destruct (first_partial_round_expr _ _ _) as [[o0 o1] o2].
      destruct (map3 _ (septuple_input _)) as [[n0 n1] n2].
      destruct (map3 _ (transition_input _)) as [[t0 t1] t2].
      destruct (matmul_expr _ _) as [[b0 b1] b2].
      destruct (map3 _ (s_full _)) as [[x0 x1] x2].
      destruct (map3 _ (s_full _)) as [[f0 f1] f2].
      destruct (map3 _ (septuple_input _)) as [[y0 y1] y2].
      destruct (partial_round_expr _ _ _) as [[e0 e1] e2].
      assert (S : forall q l, ev r q = fzero -> Forall (fun g => ev r g = fzero) (with_selector q l)).
      { intros q l H. unfold with_selector. apply Forall_forall. intros g Hg.
        apply in_map_iff in Hg. destruct Hg as (x & <- & _).
        change (fmul (ev r q) (ev r x) = fzero). rewrite H. ring. }
      repeat (apply Forall_app; split).
      - repeat constructor.
      - apply S. exact Hq.
      - apply S. exact Hm.
      - apply S. exact Hq.
      - apply S. exact Hq.
    Qed.

    (** active rows; the other signals are given by [mid] and [lst] *)
    Lemma row_active : forall r (mid lst : bool), r < n -> qv r = fone ->
      midv r = (if mid then fone else fzero) -> lastv r = (if lst then fone else fzero) ->
      mid && lst = false ->
      (Forall (fun g => ev r g = fzero) (sept_gates a f) <->
       chain (septin r) (fx (4 + f) r) (foll r)
       /\ (mid = true -> septin (rotate n r (-3))
                         = pr m (mnth rcs 4 0) (tr (rotate n r (-2)), tr (rotate n r (-1)), tr r))
       /\ (if mid || lst then (tr (rotate n r (-2)), tr (rotate n r (-1)), tr r)
            else fullin (rotate n r 1)) = fullout r
       /\ (if lst then fullin (rotate n r (-3)) else septin (rotate n r 1)) = septout r).
    Proof.
      intros r mid lst Hr Hq Hm Hl Hx.
      pose proof (chain_ok r (sp_following (s_partial (chip_of a f))) (sp_first (s_partial (chip_of a f)))
        (map3 (fun i => cell_query i 0) (septuple_input (s_partial (chip_of a f)))) eq_refl) as C.
      change (septuple_constraints m (sp_first (s_partial (chip_of a f)))
                (map3 (fun i => cell_query i 0) (septuple_input (s_partial (chip_of a f))))
                (sp_following (s_partial (chip_of a f)))) with (sept_constraints_of a f) in C.
      cbn zeta in C.
      unfold sept_gates.
      destruct (sept_constraints_of a f) as [cons [ck st]].
      cbn [fst snd] in C.
      assert (E1 : eval3 r (map3 (fun i => cell_query i 0) (septuple_input (s_partial (chip_of a f)))) = septin r).
      { unfold septin. cbn. rewrite rotate_0 by assumption. reflexivity. }
      assert (E2 : map (fun s => (ev r (input_expr s), ev r (rc_expr s)))
                     (sp_following (s_partial (chip_of a f))) = foll r).
      { unfold foll. cbn. rewrite rotate_0 by assumption. reflexivity. }
      assert (E3 : ev r (rc_expr (sp_first (s_partial (chip_of a f)))) = fx (4 + f) r).
      { cbn. rewrite rotate_0 by assumption. reflexivity. }
      rewrite E1, E2, E3 in C. destruct C as [C1 C2].
      destruct (partial_round_expr m ck st) as [[e0 e1] e2].
      assert (FO0 : eval3 r (matmul_expr m (map3 output_expr (s_full (chip_of a f)))) = fullout r).
      { unfold fullout. cbn. rewrite rotate_0 by assumption. reflexivity. }
      destruct (matmul_expr m (map3 output_expr (s_full (chip_of a f)))) as [[b0 b1] b2].
      assert (S1 : forall q l, ev r q = fone ->
        (Forall (fun g => ev r g = fzero) (with_selector q l) <-> Forall (fun g => ev r g = fzero) l)).
      { intros q l H. unfold with_selector. rewrite Forall_map. apply Forall_iff_l.
        intros x. cbn [eval]. rewrite H. split; intros X; [rewrite <- X; ring|rewrite X; ring]. }
      assert (S0 : forall q l, ev r q = fzero -> Forall (fun g => ev r g = fzero) (with_selector q l)).
      { intros q l H. unfold with_selector. rewrite Forall_map. apply Forall_forall. intros x _.
        cbn [eval]. rewrite H. ring. }
      assert (O0 : eval3 r (first_partial_round_expr rcs m
          (map3 (fun i => cell_query i 0) (transition_input (s_transition (chip_of a f)))))
          = pr m (mnth rcs 4 0) (tr (rotate n r (-2)), tr (rotate n r (-1)), tr r)).
      { unfold tr. cbn. rewrite rotate_0 by assumption. reflexivity. }
      destruct (first_partial_round_expr rcs m _) as [[o0 o1] o2].
      assert (N0 : eval3 r (map3 (fun i => cell_query i (-3)) (septuple_input (s_partial (chip_of a f))))
          = septin (rotate n r (-3))) by reflexivity.
      assert (Y0 : eval3 r (map3 (fun i => cell_query i 1) (septuple_input (s_partial (chip_of a f))))
          = septin (rotate n r 1)) by reflexivity.
      destruct (map3 (fun i => cell_query i (-3)) (septuple_input (s_partial (chip_of a f)))) as [[n0 n1] n2].
      destruct (map3 (fun i => cell_query i 1) (septuple_input (s_partial (chip_of a f)))) as [[y0 y1] y2].
      assert (T0 : eval3 r (map3 (fun i => cell_query i 0) (transition_input (s_transition (chip_of a f))))
          = (tr (rotate n r (-2)), tr (rotate n r (-1)), tr r)).
      { unfold tr. cbn. rewrite rotate_0 by assumption. reflexivity. }
      destruct (map3 (fun i => cell_query i 0) (transition_input (s_transition (chip_of a f)))) as [[t0 t1] t2].
      assert (X0 : eval3 r (map3 (fun s => cell_query (sb_input s) 1) (s_full (chip_of a f)))
          = fullin (rotate n r 1)) by reflexivity.
      destruct (map3 (fun s => cell_query (sb_input s) 1) (s_full (chip_of a f))) as [[x0 x1] x2].
      assert (P0 : eval3 r (map3 (fun s => cell_query (rotated (sb_input s) (-3)) 0) (s_full (chip_of a f)))
          = fullin (rotate n r (-3))) by reflexivity.
      destruct (map3 (fun s => cell_query (rotated (sb_input s) (-3)) 0) (s_full (chip_of a f))) as [[f0 f1] f2].
      rewrite !Forall_app.
      rewrite !(S1 (q_of f)) by exact Hq. rewrite C1.
      assert (G2 : Forall (fun g => ev r g = fzero) (with_selector (EFix f 4) [esub o0 n0; esub o1 n1; esub o2 n2])
        <-> (mid = true -> septin (rotate n r (-3))
                         = pr m (mnth rcs 4 0) (tr (rotate n r (-2)), tr (rotate n r (-1)), tr r))).
      { destruct mid.
        - rewrite (S1 (EFix f 4)) by exact Hm. rewrite sub3, O0, N0. intuition.
        - split; [discriminate|]. intros _. apply S0. exact Hm. }
      rewrite G2.
      rewrite (select3 _ (mid || lst)).
      2:{ cbn. change (fx f (rotate n r 4)) with (midv r). change (fx f (rotate n r 0)) with (lastv r).
          rewrite Hm, Hl. destruct mid, lst; try discriminate; cbn; ring. }
      rewrite (select3 _ lst).
      2:{ exact Hl. }
      rewrite FO0, T0, X0, P0, Y0.
      assert (Z : Forall (fun g => ev r g = fzero) [EConst fzero; EConst fzero; EConst fzero])
        by (repeat constructor).
      split.
      - intros (_ & A1 & A2 & A3 & A4). repeat (split; [assumption|]). rewrite A4. now apply C2.
      - intros (A1 & A2 & A3 & A4). repeat (split; [assumption|]). rewrite A4. symmetry. now apply C2.
    Qed.

    (** ** One block *)
    Definition full_idx (o : nat) : nat := if o <? 4 then o else o + 57.

    (** the fixed cells of a block that starts at row [s] *)
    Definition block_fixed (s : nat) : Prop :=
      forall o, o < 8 ->
        qv (o + s) = fone
        /\ midv (o + s) = (if o =? 3 then fone else fzero)
        /\ lastv (o + s) = (if o =? 7 then fone else fzero)
        /\ (forall j, j < 3 -> fx (1 + j + f) (o + s) = mnth rcs (full_idx o) j)
        /\ (forall k, k < 7 -> fx (4 + k + f) (o + s) = mnth rcs (5 + 7 * o + k) 0).

    (** all advice cells of the block except the two helper cells, from the initial state *)
    Definition block_cells (init : arr3 F) (s : nat) : Prop :=
      (forall o, o < 8 ->
        fullin (o + s) = st_at rcs m init (full_idx o)
        /\ septin (o + s) = st_at rcs m init (5 + 7 * o)
        /\ (forall k, k < 6 -> adv (6 + k + a) (o + s) = fst3 (st_at rcs m init (6 + 7 * o + k))))
      /\ (tr (1 + s), tr (2 + s), tr (3 + s)) = st_at rcs m init 4
      /\ (tr (5 + s), tr (6 + s), tr (7 + s)) = st_at rcs m init 65.

    Lemma round_partial : forall init i, 4 <= i < 61 ->
      st_at rcs m init (S i) = pr m (mnth rcs i 0) (st_at rcs m init i).
    Proof.
      intros init i H. cbn [st_at]. unfold round, is_full.
      replace (i <? 4) with false by (symmetry; apply Nat.ltb_ge; lia).
      replace (61 <=? i) with false by (symmetry; apply Nat.leb_gt; lia). reflexivity.
    Qed.
    Lemma round_full : forall init i, i < 4 \/ 61 <= i ->
      st_at rcs m init (S i) = fr rcs m i (st_at rcs m init i).
    Proof.
      intros init i H. cbn [st_at]. unfold round, is_full.
      replace ((i <? 4) || (61 <=? i)) with true; [reflexivity|].
      symmetry. apply orb_true_iff. destruct H; [left; now apply Nat.ltb_lt|right; now apply Nat.leb_le].
    Qed.

    Lemma fullout_at : forall init s o, o < 8 -> block_fixed s ->
      fullin (o + s) = st_at rcs m init (full_idx o) -> fullout (o + s) = st_at rcs m init (S (full_idx o)).
    Proof.
      intros init s o Ho HF E. rewrite round_full by (unfold full_idx; destruct (o <? 4) eqn:X;
        [apply Nat.ltb_lt in X|apply Nat.ltb_ge in X]; lia).
      rewrite <- E. unfold fullout, fullin, fr.
      destruct (HF o Ho) as (_ & _ & _ & R & _).
      pose proof (R 0 ltac:(lia)) as R0. pose proof (R 1 ltac:(lia)) as R1. pose proof (R 2 ltac:(lia)) as R2.
      cbn [Nat.add] in *. now rewrite R0, R1, R2.
    Qed.

    Lemma chain_at : forall init s o, o < 8 -> block_fixed s ->
      septin (o + s) = st_at rcs m init (5 + 7 * o) ->
      (chain (septin (o + s)) (fx (4 + f) (o + s)) (foll (o + s))
       <-> forall k, k < 6 -> adv (6 + k + a) (o + s) = fst3 (st_at rcs m init (6 + 7 * o + k)))
      /\ septout (o + s) = st_at rcs m init (12 + 7 * o).
    Proof.
      intros init s o Ho HF E.
      destruct (HF o Ho) as (_ & _ & _ & _ & R).
      pose proof (R 0 ltac:(lia)) as R0. pose proof (R 1 ltac:(lia)) as R1. pose proof (R 2 ltac:(lia)) as R2.
      pose proof (R 3 ltac:(lia)) as R3. pose proof (R 4 ltac:(lia)) as R4. pose proof (R 5 ltac:(lia)) as R5.
      pose proof (R 6 ltac:(lia)) as R6. clear R.
      change (4 + 0 + f) with (4 + f) in R0. change (4 + 1 + f) with (5 + f) in R1.
      change (4 + 2 + f) with (6 + f) in R2. change (4 + 3 + f) with (7 + f) in R3.
      change (4 + 4 + f) with (8 + f) in R4. change (4 + 5 + f) with (9 + f) in R5.
      change (4 + 6 + f) with (10 + f) in R6.
      assert (P : forall k, k < 7 -> pr m (mnth rcs (5 + 7 * o + k) 0) (st_at rcs m init (5 + 7 * o + k))
                                     = st_at rcs m init (5 + 7 * o + S k)).
      { intros k Hk. rewrite <- round_partial by lia. f_equal. lia. }
      unfold septout, foll. rewrite E, R0, R1, R2, R3, R4, R5, R6.
      cbn [chain chain_out].
      replace (st_at rcs m init (5 + 7 * o)) with (st_at rcs m init (5 + 7 * o + 0)) by (f_equal; lia).
      rewrite (P 0), (P 1), (P 2), (P 3), (P 4), (P 5), (P 6) by lia.
      split.
      - split.
        + intros (A0 & A1 & A2 & A3 & A4 & A5 & _) k Hk.
          replace (6 + 7 * o + k) with (5 + 7 * o + S k) by lia.
          do 6 (destruct k as [|k]; [assumption|]). lia.
        + intros A.
          assert (B : forall k, k < 6 -> adv (6 + k + a) (o + s) = fst3 (st_at rcs m init (5 + 7 * o + S k))).
          { intros k Hk. rewrite A by assumption. do 2 f_equal. lia. }
          repeat split; [exact (B 0 ltac:(lia))|exact (B 1 ltac:(lia))|exact (B 2 ltac:(lia))
            |exact (B 3 ltac:(lia))|exact (B 4 ltac:(lia))|exact (B 5 ltac:(lia))].
      - f_equal. lia.
    Qed.

    Lemma row_block : forall s o, o < 8 -> s + 8 <= n -> block_fixed s ->
      (Forall (fun g => ev (o + s) g = fzero) (sept_gates a f) <->
       chain (septin (o + s)) (fx (4 + f) (o + s)) (foll (o + s))
       /\ (o = 3 -> septin s = pr m (mnth rcs 4 0) (tr (1 + s), tr (2 + s), tr (3 + s)))
       /\ (o = 3 -> (tr (1 + s), tr (2 + s), tr (3 + s)) = fullout (o + s))
       /\ (o = 7 -> (tr (5 + s), tr (6 + s), tr (7 + s)) = fullout (o + s))
       /\ (o <> 3 -> o <> 7 -> fullin (S o + s) = fullout (o + s))
       /\ (o = 7 -> fullin (4 + s) = septout (o + s))
       /\ (o <> 7 -> septin (S o + s) = septout (o + s))).
    Proof.
      intros s o Ho Hs HF. destruct (HF o Ho) as (Q & M & L & _ & _).
      rewrite (row_active (o + s) (o =? 3) (o =? 7)); try assumption; [|lia|].
      2:{ destruct (Nat.eqb_spec o 3), (Nat.eqb_spec o 7); try reflexivity. lia. }
      destruct (Nat.eq_dec o 3) as [->|N3]; [|destruct (Nat.eq_dec o 7) as [->|N7]].
      - change (3 =? 3) with true. change (3 =? 7) with false. cbn [orb].
        rewrite rotate_1 by lia. rewrite !rotate_in by lia.
        replace (Z.to_nat (Z.of_nat (3 + s) + -3)) with s by lia.
        replace (Z.to_nat (Z.of_nat (3 + s) + -2)) with (1 + s) by lia.
        replace (Z.to_nat (Z.of_nat (3 + s) + -1)) with (2 + s) by lia.
        intuition congruence.
      - change (7 =? 3) with false. change (7 =? 7) with true. cbn [orb].
        rewrite !rotate_in by lia.
        replace (Z.to_nat (Z.of_nat (7 + s) + -3)) with (4 + s) by lia.
        replace (Z.to_nat (Z.of_nat (7 + s) + -2)) with (5 + s) by lia.
        replace (Z.to_nat (Z.of_nat (7 + s) + -1)) with (6 + s) by lia.
        intuition congruence.
      - destruct (Nat.eqb_spec o 3); [lia|]. destruct (Nat.eqb_spec o 7); [lia|]. cbn [orb].
        rewrite rotate_1 by lia. intuition congruence.
    Qed.

    Theorem block_iff : forall s, s + 8 <= n -> block_fixed s ->
      ((forall o, o < 8 -> Forall (fun g => ev (o + s) g = fzero) (sept_gates a f))
       <-> block_cells (fullin s) s).
    Proof.
      intros s Hs HF. split.
      - intros G.
        assert (R : forall o, o < 8 -> _) by (intros o Ho; exact (proj1 (row_block s o Ho Hs HF) (G o Ho))).
        cbn beta in R. clear G.
        set (init := fullin s).
        assert (F0 : fullin (0 + s) = st_at rcs m init (full_idx 0)) by reflexivity.
        assert (Fn : forall o, o < 8 -> o <> 3 -> o <> 7 -> fullin (o + s) = st_at rcs m init (full_idx o) ->
                     fullin (S o + s) = st_at rcs m init (full_idx (S o))).
        { intros o Ho N3 N7 E. destruct (R o Ho) as (_ & _ & _ & _ & X & _).
          rewrite X by assumption. rewrite (fullout_at init) by assumption. f_equal.
          unfold full_idx. destruct (Nat.ltb_spec o 4), (Nat.ltb_spec (S o) 4); lia. }
        pose proof (Fn 0 ltac:(lia) ltac:(lia) ltac:(lia) F0) as F1.
        pose proof (Fn 1 ltac:(lia) ltac:(lia) ltac:(lia) F1) as F2.
        pose proof (Fn 2 ltac:(lia) ltac:(lia) ltac:(lia) F2) as F3.
        assert (T4 : (tr (1 + s), tr (2 + s), tr (3 + s)) = st_at rcs m init 4).
        { destruct (R 3 ltac:(lia)) as (_ & _ & X & _). rewrite (X eq_refl).
          rewrite (fullout_at init) by (assumption || lia). reflexivity. }
        assert (S0 : septin (0 + s) = st_at rcs m init (5 + 7 * 0)).
        { destruct (R 3 ltac:(lia)) as (_ & X & _). cbn [Nat.add]. rewrite (X eq_refl), T4.
          now rewrite <- round_partial by lia. }
        assert (Sn : forall o, o < 8 -> septin (o + s) = st_at rcs m init (5 + 7 * o)).
        { intros o. induction o as [|o IH]; intros Ho; [exact S0|].
          destruct (R o ltac:(lia)) as (_ & _ & _ & _ & _ & _ & X). rewrite X by lia.
          destruct (chain_at init s o ltac:(lia) HF (IH ltac:(lia))) as [_ Y]. rewrite Y. f_equal. lia. }
        assert (Kn : forall o, o < 8 -> forall k, k < 6 ->
                     adv (6 + k + a) (o + s) = fst3 (st_at rcs m init (6 + 7 * o + k))).
        { intros o Ho. destruct (R o Ho) as (X & _).
          now apply (chain_at init s o Ho HF (Sn o Ho)). }
        assert (F4 : fullin (4 + s) = st_at rcs m init (full_idx 4)).
        { destruct (R 7 ltac:(lia)) as (_ & _ & _ & _ & _ & X & _). rewrite (X eq_refl).
          destruct (chain_at init s 7 ltac:(lia) HF (Sn 7 ltac:(lia))) as [_ Y]. rewrite Y. reflexivity. }
        pose proof (Fn 4 ltac:(lia) ltac:(lia) ltac:(lia) F4) as F5.
        pose proof (Fn 5 ltac:(lia) ltac:(lia) ltac:(lia) F5) as F6.
        pose proof (Fn 6 ltac:(lia) ltac:(lia) ltac:(lia) F6) as F7.
        split; [|split; [exact T4|]].
        + intros o Ho. split; [|split; [now apply Sn|now apply Kn]].
          do 8 (destruct o as [|o]; [assumption|]). lia.
        + destruct (R 7 ltac:(lia)) as (_ & _ & _ & X & _). rewrite (X eq_refl).
          rewrite (fullout_at init) by (assumption || lia). reflexivity.
      - intros (C & T4 & T65) o Ho. apply (row_block s o Ho Hs HF).
        set (init := fullin s) in *.
        assert (Fo : forall o, o < 8 -> fullout (o + s) = st_at rcs m init (S (full_idx o))).
        { intros p Hp. apply fullout_at; try assumption. now apply C. }
        assert (So : forall o, o < 8 -> septout (o + s) = st_at rcs m init (12 + 7 * o)).
        { intros p Hp. now apply (chain_at init s p Hp HF (proj1 (proj2 (C p Hp)))). }
        destruct (C o Ho) as (C1 & C2 & C3).
        split; [now apply (chain_at init s o Ho HF C2)|].
        split. { intros ->. rewrite T4. rewrite <- round_partial by lia. exact (proj1 (proj2 (C 0 ltac:(lia)))). }
        split. { intros ->. rewrite T4, Fo by lia. reflexivity. }
        split. { intros ->. rewrite T65, Fo by lia. reflexivity. }
        split. { intros N3 N7. rewrite Fo by assumption. rewrite (proj1 (C (S o) ltac:(lia))). f_equal.
                 unfold full_idx. destruct (Nat.ltb_spec o 4), (Nat.ltb_spec (S o) 4); lia. }
        split. { intros ->. rewrite So by lia. rewrite (proj1 (C 4 ltac:(lia))). reflexivity. }
        intros N7. rewrite So by assumption. rewrite (proj1 (proj2 (C (S o) ltac:(lia)))). f_equal. lia.
    Qed.
  End Row.
End Proofs.
