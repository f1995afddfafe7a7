(** What the Septidon chip writes: the events of one permutation. *)
From Coq Require Import ZArith List Arith Lia Bool.
From Verif Require Import Field Rust ListAux Primitives Halo2 Septidon SeptVal_proof SeptGate_proof
  SeptBlock_proof Layout_proof.
Import ListNotations.
Local Open Scope nat_scope.

Section Events.
  Context {F : Type} {FO : FieldOps F} {PF : PrimeField F}.
  Variable rcs m : list (list F).

  (** rounds on values that may be unknown *)
  Definition ofull (rc : arr3 F) (st : arr3 (option F)) : arr3 (option F) :=
    let '(r0, r1, r2) := rc in
    let '(x, y, z) := st in
    split_values (option_map (matmul_value m)
      (join_values (option_map (fun i => sbox_value i r0) x, option_map (fun i => sbox_value i r1) y,
                    option_map (fun i => sbox_value i r2) z))).
  Definition opart (rc : F) (st : arr3 (option F)) : arr3 (option F) :=
    let '(x, y, z) := st in
    split_values (option_map (matmul_value m) (join_values (option_map (fun i => sbox_value i rc) x, y, z))).
  Fixpoint ost (v : arr3 (option F)) (i : nat) : arr3 (option F) :=
    match i with
    | 0 => v
    | S i' => if is_full i' then ofull (round_constant rcs i') (ost v i') else opart (mnth rcs i' 0) (ost v i')
    end.

  Lemma ost_known : forall init i, ost (map3 Some init) i = map3 Some (st_at rcs m init i).
  Proof.
    intros init i. induction i as [|i IH]; [reflexivity|]. cbn [ost st_at]. rewrite IH.
    unfold round. destruct (st_at rcs m init i) as [[x y] z]. destruct (is_full i); reflexivity.
  Qed.

  Definition snd3 {A} (t : arr3 A) : A := let '(_, y, _) := t in y.
  Definition thd3 {A} (t : arr3 A) : A := let '(_, _, z) := t in z.

  (** value of the advice cell in column [k], row [o] of a block *)
  Definition cell_val (v : arr3 (option F)) (k o : nat) : option F :=
    match k with
    | 0 => fst3 (ost v (full_idx o))
    | 1 => snd3 (ost v (full_idx o))
    | 2 => thd3 (ost v (full_idx o))
    | 3 => fst3 (ost v (5 + 7 * o))
    | 4 => snd3 (ost v (5 + 7 * o))
    | 5 => thd3 (ost v (5 + 7 * o))
    | 12 =>
      match o with
      | 1 => fst3 (ost v 4) | 2 => snd3 (ost v 4) | 3 => thd3 (ost v 4)
      | 5 => fst3 (ost v 65) | 6 => snd3 (ost v 65) | 7 => thd3 (ost v 65)
      | _ => Some fzero
      end
    | _ => fst3 (ost v (5 + 7 * o + (k - 5)))
    end.

  Variables a f : nat.

  (** the events, row by row; [b] is the first row *)
  Definition ev_full (v : arr3 (option F)) (b o : nat) : list (event F) :=
    flat_map (fun j => [AssignFixed (1 + j + f) (o + b) (mnth rcs (full_idx o) j);
                        AssignAdvice (j + a) (o + b) (cell_val v j o)]) (seq 0 3).
  Definition ev_sept (v : arr3 (option F)) (b o : nat) : list (event F) :=
    [AssignAdvice (4 + a) (o + b) (cell_val v 4 o); AssignAdvice (5 + a) (o + b) (cell_val v 5 o);
     AssignFixed (4 + f) (o + b) (mnth rcs (5 + 7 * o) 0); AssignAdvice (3 + a) (o + b) (cell_val v 3 o)]
    ++ flat_map (fun k => [AssignFixed (5 + k + f) (o + b) (mnth rcs (6 + 7 * o + k) 0);
                           AssignAdvice (6 + k + a) (o + b) (cell_val v (6 + k) o)]) (seq 0 6).
  Definition ev_state (v : arr3 (option F)) (b o : nat) : list (event F) :=
    flat_map (fun j => [AssignAdvice (12 + a) (j + o + b) (cell_val v 12 (j + o))]) [1; 2; 3; 0].
  Definition ev_block (v : arr3 (option F)) (b : nat) : list (event F) :=
    [AssignFixed f (7 + b) fone]
    ++ flat_map (ev_full v b) (seq 0 4)
    ++ ev_state v b 0
    ++ flat_map (ev_sept v b) (seq 0 8)
    ++ flat_map (ev_full v b) (seq 4 4)
    ++ ev_state v b 4.

  Lemma full_assign_ok : forall v b o ri, o < 8 ->
    full_assign m (s_full (chip_of a f)) (o + b) (round_constant rcs (full_idx o)) (ost v (full_idx o)) ri
    = Ok (ev_full v b o, ost v (S (full_idx o))).
  Proof.
    intros v b o ri Ho. cbn [ost].
    replace (is_full (full_idx o)) with true.
    - unfold ev_full. cbn [seq flat_map app cell_val].
      destruct (ost v (full_idx o)) as [[x y] z]. reflexivity.
    - do 8 (destruct o as [|o]; [reflexivity|]). lia.
  Qed.

  Lemma apr_ok : forall s o rc st ri, sc_off (sb_input s) = 0%Z ->
    assign_partial_round m s o rc st ri
    = Ok ([AssignFixed (sb_rc s) o rc; AssignAdvice (sc_col (sb_input s)) o (fst3 st)], opart rc st).
  Proof.
    intros [[c off] r] o rc [[x y] z] ri H. cbn in H. subst off. reflexivity.
  Qed.

  Lemma ost_partial : forall v i, 4 <= i < 61 -> ost v (S i) = opart (mnth rcs i 0) (ost v i).
  Proof.
    intros v i H. cbn [ost]. unfold is_full.
    replace (i <? 4) with false by (symmetry; apply Nat.ltb_ge; lia).
    replace (61 <=? i) with false by (symmetry; apply Nat.leb_gt; lia). reflexivity.
  Qed.

  Lemma septuple_assign_ok : forall v b o ri, o < 8 ->
    septuple_assign m (s_partial (chip_of a f)) (o + b)
      (map (fun idx => mnth rcs idx 0) (seq (5 + o * 7) 7)) (ost v (5 + 7 * o)) ri
    = Ok (ev_sept v b o, ost v (5 + 7 * S o)).
  Proof.
    intros v b o ri Ho. unfold septuple_assign.
    assert (P : forall k, k < 7 -> opart (mnth rcs (5 + 7 * o + k) 0) (ost v (5 + 7 * o + k)) = ost v (5 + 7 * o + S k)).
    { intros k Hk. rewrite <- ost_partial by lia. f_equal. lia. }
    assert (Q : forall k, k < 7 -> fnth (map (fun idx => mnth rcs idx 0) (seq (5 + o * 7) 7)) k = mnth rcs (5 + 7 * o + k) 0).
    { intros k Hk. do 7 (destruct k as [|k]; [cbn [seq map fnth nth]; f_equal; lia|]). lia. }
    set (ks := map _ (seq (5 + o * 7) 7)) in *. clearbody ks.
    remember (ost v (5 + 7 * o)) as s0 eqn:E0. destruct s0 as [[x y] z].
    assert (CA : forall c, sc_off c = 0%Z -> forall w : option F, cell_assign c (o + b) w ri = Ok ([AssignAdvice (sc_col c) (o + b) w], tt)).
    { intros c Hc w. unfold cell_assign. rewrite Hc, Z.add_0_r. replace (0 <=? Z.of_nat (o + b))%Z with true by (symmetry; apply Z.leb_le; lia).
      rewrite Nat2Z.id. reflexivity. }
    unfold ev_sept. cbn [app].
    eapply rbind_ok1.
    { rewrite CA by reflexivity. cbn [cell_val fst sp_linears s_partial chip_of sc_col]. rewrite <- E0. reflexivity. }
    eapply rbind_ok1.
    { rewrite CA by reflexivity. cbn [cell_val snd sp_linears s_partial chip_of sc_col]. rewrite <- E0. reflexivity. }
    rewrite E0. eapply rbind_ok2.
    { rewrite apr_ok by reflexivity. rewrite (Q 0) by lia.
      replace (ost v (5 + 7 * o)) with (ost v (5 + 7 * o + 0)) by (f_equal; lia). rewrite (P 0) by lia.
      cbn [s_partial chip_of sp_first mk_sbox sb_rc sb_input sc_col cell_val].
      rewrite !(Nat.add_0_r (5 + 7 * o)). reflexivity. }
    cbn [seq flat_map app combine sp_following s_partial chip_of rfold].
    do 6 (eapply rbind_ok2;
      [rewrite apr_ok by reflexivity; rewrite Q by lia; rewrite P by lia;
       cbn [mk_sbox sb_rc sb_input sc_col];
       match goal with |- Ok ([AssignFixed _ _ (mnth rcs ?i _); _], _) = Ok ([AssignFixed _ _ (mnth rcs ?j _); _], _) =>
         replace j with i by lia end; reflexivity|]).
    unfold rret. do 2 f_equal. f_equal. lia.
  Qed.

  Lemma final_state_ok : forall v b o i ri, (o = 0 /\ i = 4 \/ o = 4 /\ i = 65) ->
    assign_final_state (12 + a) (3 + o + b) (ost v i) ri = Ok (ev_state v b o, tt).
  Proof.
    intros v b o i ri H. unfold assign_final_state.
    assert (CA : forall d z (w : option F), (0 <= 3 + z <= 3)%Z -> d = Z.to_nat (3 + z) -> cell_assign {| sc_col := 12 + a; sc_off := z |} (3 + o + b) w ri
               = Ok ([AssignAdvice (12 + a) (d + o + b) w], tt)).
    { intros d z w Hz ->. unfold cell_assign. cbn [sc_off sc_col].
      replace (0 <=? Z.of_nat (3 + o + b) + z)%Z with true by (symmetry; apply Z.leb_le; lia).
      replace (Z.to_nat (Z.of_nat (3 + o + b) + z)) with (Z.to_nat (3 + z) + o + b) by lia. reflexivity. }
    remember (ost v i) as s eqn:E. destruct s as [[x y] z].
    unfold ev_state. cbn [flat_map app transition_input transition_helper].
    assert (X1 : cell_val v 12 (1 + o) = x) by (destruct H as [[-> ->]|[-> ->]]; cbn [Nat.add cell_val]; rewrite <- E; reflexivity).
    assert (X2 : cell_val v 12 (2 + o) = y) by (destruct H as [[-> ->]|[-> ->]]; cbn [Nat.add cell_val]; rewrite <- E; reflexivity).
    assert (X3 : cell_val v 12 (3 + o) = z) by (destruct H as [[-> ->]|[-> ->]]; cbn [Nat.add cell_val]; rewrite <- E; reflexivity).
    assert (X0 : cell_val v 12 (0 + o) = Some fzero) by (destruct H as [[-> ->]|[-> ->]]; reflexivity).
    rewrite X0, X1, X2, X3. clear X0 X1 X2 X3 E.
    eapply rbind_ok1; [apply CA; [lia|reflexivity]|].
    eapply rbind_ok1; [apply CA; [lia|reflexivity]|].
    eapply rbind_ok1; [apply CA; [lia|reflexivity]|].
    apply CA; [lia|reflexivity].
  Qed.

  Lemma first_partial_ok : forall v, first_partial_round rcs m (ost v 4) = ost v 5.
  Proof.
    intros v. rewrite (ost_partial v 4) by lia. unfold first_partial_round, transition_rc.
    destruct (ost v 4) as [[x y] z]. reflexivity.
  Qed.

  Lemma flat_map_nil : forall {A B} (l : list A), flat_map (fun _ => @nil B) l = [].
  Proof. induction l; auto. Qed.
  Lemma read_constant_ok : forall i ri, i < 65 -> 65 <= length rcs ->
    read_constant rcs i ri = Ok ([], round_constant rcs i).
  Proof.
    intros i ri Hi HL. unfold read_constant.
    replace (i <? length rcs) with true by (symmetry; apply Nat.ltb_lt; lia). reflexivity.
  Qed.

  Theorem assign_permutation_ok : 65 <= length rcs -> forall v b ri,
    assign_permutation rcs m (chip_of a f) v b ri = Ok (ev_block v b, ost v 65).
  Proof.
    intros HL v b ri. unfold assign_permutation, ev_block.
    eapply rbind_ok; [reflexivity|]. eapply rbind_ok.
    { apply (rfold_seq (fun state o => rbind (read_constant rcs o) (fun rc => full_assign m _ (o + b) rc state))
              (fun o => ost v o) (ev_full v b) ri 4 0).
      intros i Hi. pose proof (full_assign_ok v b i ri ltac:(lia)) as E.
      unfold full_idx in E. replace (i <? 4) with true in E by (symmetry; apply Nat.ltb_lt; lia).
      change (ev_full v b i) with ([] ++ ev_full v b i).
      eapply rbind_ok; [apply read_constant_ok; lia|exact E]. }
    cbn [Nat.add]. eapply rbind_ok.
    { unfold assign_first_partial_state. rewrite <- (app_nil_r (ev_state v b 0)). eapply rbind_ok.
      - apply (final_state_ok v b 0 4). now left.
      - rewrite first_partial_ok. reflexivity. }
    eapply rbind_ok.
    { apply (rfold_seq (fun state o => rbind (rmap _ (seq (5 + o * 7) 7))
                                         (fun rc => septuple_assign m _ (o + b) rc state))
              (fun o => ost v (5 + 7 * o)) (ev_sept v b) ri 8 0).
      intros i Hi. change (ev_sept v b i) with ([] ++ ev_sept v b i). eapply rbind_ok.
      - rewrite (rmap_ok _ (fun idx => mnth rcs idx 0) (fun _ => [])).
        + rewrite flat_map_nil. reflexivity.
        + intros idx Hidx. apply in_seq in Hidx. unfold rbind.
          rewrite read_constant_ok by lia. reflexivity.
      - apply septuple_assign_ok. lia. }
    change (5 + 7 * (0 + 8)) with (4 + 57). eapply rbind_ok.
    { apply (rfold_seq (fun state o => rbind (read_constant rcs (o + 57)) (fun rc => full_assign m _ (o + b) rc state))
              (fun o => ost v (o + 57)) (ev_full v b) ri 4 4).
      intros i Hi. pose proof (full_assign_ok v b i ri ltac:(lia)) as E.
      unfold full_idx in E. replace (i <? 4) with false in E by (symmetry; apply Nat.ltb_ge; lia).
      change (ev_full v b i) with ([] ++ ev_full v b i).
      eapply rbind_ok; [apply read_constant_ok; lia|exact E]. }
    rewrite <- (app_nil_r (ev_state v b 4)). eapply rbind_ok.
    - apply (final_state_ok v b 4 65). now right.
    - reflexivity.
  Qed.
End Events.
