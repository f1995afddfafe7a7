(** A Pow5 permutation as a block of rows: the writes of the chip, their values and what the gates say. *)
From Coq Require Import ZArith List Arith Lia Bool.
From Verif Require Import Field Rust ListAux Primitives Specs SpecHash Perm_proof BigSum Link Halo2 Pow5
  Layout_proof SeptVal_proof SeptGate_proof Contract Pow5Gate_proof Pow5Rows_proof.
Import ListNotations.
Local Open Scope nat_scope.

Lemma combine_seq : forall {A B} (l : list A) (l' : list B) n d d', length l = n -> length l' = n ->
  combine l l' = map (fun i => (nth i l d, nth i l' d')) (seq 0 n).
Proof.
  intros A B l. induction l as [|x l IH]; intros [|y l'] [|n] d d' H H'; cbn in *; try discriminate; [reflexivity|].
  injection H as H. injection H' as H'. f_equal. rewrite <- seq_shift, map_map. now apply IH.
Qed.
Lemma flat_map_map : forall {A B C} (f : B -> list C) (g : A -> B) l,
  flat_map f (map g l) = flat_map (fun x => f (g x)) l.
Proof. intros A B C f g l. induction l; cbn; congruence. Qed.
Lemma flat_map_shift : forall {B} (f : nat -> list B) a k,
  flat_map (fun i => f (a + i)) (seq 0 k) = flat_map f (seq a k).
Proof.
  intros B f a k. revert a. induction k as [|k IH]; intros a; [reflexivity|]. cbn [seq flat_map].
  rewrite Nat.add_0_r. f_equal. rewrite <- (IH (S a)), <- seq_shift, flat_map_map.
  apply flat_map_ext. intros i. f_equal. lia.
Qed.
Lemma flat_map_single : forall {A B} (f : A -> B) l, flat_map (fun x => [f x]) l = map f l.
Proof. intros A B f l. induction l; cbn; congruence. Qed.
Lemma NoDup_app_l : forall {A} (l l' : list A), NoDup (l ++ l') -> NoDup l.
Proof.
  intros A l l'. induction l as [|x l IH]; intros H; [constructor|]. inversion H; subst. constructor; [|now apply IH].
  intros X. apply H2, in_or_app. now left.
Qed.
Lemma NoDup_app_r : forall {A} (l l' : list A), NoDup (l ++ l') -> NoDup l'.
Proof. intros A l l'. induction l as [|x l IH]; intros H; [assumption|]. inversion H; subst. now apply IH. Qed.
Lemma nth_NoDup_inj : forall (l : list nat) i j, NoDup l -> i < length l -> j < length l -> nth i l 0 = nth j l 0 -> i = j.
Proof. intros l i j H Hi Hj E. now apply (proj1 (NoDup_nth l 0) H). Qed.

Section Block.
  Context {F : Type} {FO : FieldOps F} {PF : PrimeField F}.
  Add Field Ffield : f_field.
  Variable T RATE : nat.
  Variable s : spec F.
  Hypothesis Hspec : poseidon_spec T s.
  Hypothesis HT : 1 < T.
  Hypothesis HR : RATE = T - 1.
  Variable cfg : pow5.
  (** the columns are distinct *)
  Hypothesis Hstate : length (p5_state cfg) = T.
  Hypothesis Ha : length (p5_rc_a cfg) = T.
  Hypothesis Hb : length (p5_rc_b cfg) = T.
  Hypothesis NDadv : NoDup (p5_sbox cfg :: p5_state cfg).
  Hypothesis NDfix : NoDup (p5_rc_a cfg ++ p5_rc_b cfg).
  Hypothesis NDsel : NoDup [p5_full cfg; p5_partial cfg; p5_single cfg; p5_pad cfg].

  Set Default Proof Using "All".

  Notation R := (p5_R s).
  Notation rcs := (round_constants s).
  Notation sc := (col (p5_state cfg)).
  Notation ac := (col (p5_rc_a cfg)).
  Notation bc := (col (p5_rc_b cfg)).
  Definition kd (o : nat) : kind := nth o (p5_rows s) (KFull 0).
  Lemma kd_fits : forall o, o < R -> kind_fits s (kd o).
  Proof.
    intros o H. pose proof (rows_fit T s Hspec HT) as X. rewrite Forall_forall in X.
    unfold kd. apply X, nth_In. now rewrite p5_rows_length.
  Qed.

  (** ** Values *)
  Definition kind_vals (k : kind) (v : list (option F)) : list (option F) :=
    match k with
    | KFull r => mat_values (mds s) (map val_pow (add_constants v (rcl s r)))
    | KPair r => mat_values (mds s) (pow_first (add_constants
                   (mat_values (mds s) (pow_first (add_constants v (rcl s r)))) (rcl s (r + 1))))
    | KSingle r => mat_values (mds s) (pow_first (add_constants v (rcl s r)))
    end.
  Definition kind_sbox (k : kind) (v : list (option F)) : option F :=
    match k with KPair r => hd None (pow_first (add_constants v (rcl s r))) | _ => None end.
  Lemma kind_vals_length : forall k v, length (kind_vals k v) = T.
  Proof.
    intros k v. destruct Hspec as (_ & [L _] & _).
    destruct k; cbn [kind_vals]; unfold mat_values; now rewrite map_length.
  Qed.
  (** the state before row [o] *)
  Definition vs (v0 : list (option F)) (o : nat) : list (option F) :=
    fold_left (fun v k => kind_vals k v) (firstn o (p5_rows s)) v0.
  Lemma firstn_S_nth : forall {A} (l : list A) o d, o < length l -> firstn (S o) l = firstn o l ++ [nth o l d].
  Proof.
    intros A l. induction l as [|x l IH]; intros [|o] d H; cbn in *; try lia; [reflexivity|]. f_equal. apply IH. lia.
  Qed.
  Lemma vs_S : forall v0 o, o < R -> vs v0 (S o) = kind_vals (kd o) (vs v0 o).
  Proof.
    intros v0 o H. unfold vs. rewrite (firstn_S_nth _ _ (KFull 0)) by now rewrite p5_rows_length.
    now rewrite fold_left_app.
  Qed.
  Lemma vs_0 : forall v0, vs v0 0 = v0.
  Proof. reflexivity. Qed.
  Lemma vs_length : forall v0 o, length v0 = T -> o <= R -> length (vs v0 o) = T.
  Proof. intros v0 [|o] H Ho; [assumption|]. rewrite vs_S by lia. apply kind_vals_length. Qed.

  (** known values follow the rounds *)
  Lemma mat_values_some : forall (m : list (list F)) v, mat_values m (map Some v) = map Some (mat_vec m v).
  Proof.
    intros m v. unfold mat_values, mat_vec. rewrite map_map. apply map_ext. intros row.
    assert (G : forall v (row : list F) a, fold_left (fun acc '(m_ij, r_j) => val_add acc (val_mul (Some m_ij) r_j))
      (combine row (map Some v)) (Some a) = Some (fadd a (dot row v))).
    { clear - PF. intros v. induction v as [|x v IH]; intros [|y row] a; cbn [combine map fold_left dot]; try (f_equal; ring).
      cbn [val_mul val_add]. rewrite IH. f_equal. ring. }
    rewrite G. f_equal. ring.
  Qed.
  Lemma add_constants_some : forall v c, add_constants (map Some v) c = map Some (vadd v c).
  Proof.
    unfold add_constants. induction v as [|x v IH]; intros [|y c]; cbn [map combine vadd]; try reflexivity.
    now rewrite IH.
  Qed.
  Lemma pow_first_some : forall v, pow_first (map Some v)
    = map Some (match v with [] => [] | x :: t => power5 x :: t end).
  Proof. intros [|x v]; cbn; [reflexivity|]. now rewrite sbox_pow_power5. Qed.
  Lemma kind_vals_some : forall k v, kind_vals k (map Some v) = map Some (kind_step s k v).
  Proof.
    intros k v. destruct k; cbn [kind_vals kind_step]; unfold spec_full, spec_partial;
      rewrite !add_constants_some.
    - rewrite map_map. cbn [val_pow option_map]. rewrite <- (map_map sbox_pow Some), mat_values_some. do 2 f_equal.
      apply map_ext. apply sbox_pow_power5.
    - rewrite pow_first_some, mat_values_some, add_constants_some, pow_first_some, mat_values_some. reflexivity.
    - rewrite pow_first_some, mat_values_some. reflexivity.
  Qed.
  Lemma vs_some : forall v o, vs (map Some v) o
    = map Some (fold_left (fun st k => kind_step s k st) (firstn o (p5_rows s)) v).
  Proof.
    intros v o. unfold vs. generalize (firstn o (p5_rows s)). intros l. revert v.
    induction l as [|k l IH]; intros v; cbn [fold_left]; [reflexivity|]. now rewrite kind_vals_some, IH.
  Qed.
  Lemma vs_result : forall v, vs (map Some v) R = map Some (textbook s v).
  Proof.
    intros v. rewrite vs_some. rewrite firstn_all2 by (rewrite p5_rows_length; lia).
    f_equal. now apply (rows_permutation T s Hspec HT).
  Qed.

  (** ** Events *)
  Definition gate_of (k : kind) : nat :=
    match k with KFull _ => p5_full cfg | KPair _ => p5_partial cfg | KSingle _ => p5_single cfg end.
  Definition first_round (k : kind) : nat := match k with KFull r | KPair r | KSingle r => r end.
  Definition ev_row (k : kind) (o : nat) (v : list (option F)) : list (event F) :=
    [EnableSelector (gate_of k) o]
    ++ map (fun i => AssignFixed (ac i) o (rcf s (first_round k) i)) (seq 0 T)
    ++ match k with
       | KPair r => AssignAdvice (p5_sbox cfg) o (kind_sbox k v)
                    :: map (fun i => AssignFixed (bc i) o (rcf s (r + 1) i)) (seq 0 T)
       | _ => []
       end
    ++ map (fun i => AssignAdvice (sc i) (S o) (nth i (kind_vals k v) None)) (seq 0 T).
  Definition row_cells (ri o : nat) (v : list (option F)) : list (acell F) :=
    map (fun i => {| ac_cell := {| ce_region := ri; ce_off := o; ce_col := Adv (sc i) |}; ac_val := nth i v None |}) (seq 0 T).
  Definition zero_cell : acell F :=
    {| ac_cell := {| ce_region := 0; ce_off := 0; ce_col := Adv 0 |}; ac_val := None |}.
  Definition ev_load (ri : nat) (ws : list (acell F)) : list (event F) :=
    flat_map (fun i => [AssignAdvice (sc i) 0 (nth i (values ws) None);
                        ConstrainEqual {| ce_region := ri; ce_off := 0; ce_col := Adv (sc i) |}
                                       (ac_cell (nth i ws zero_cell))]) (seq 0 T).
  Definition p5_step (k : kind) (st : list (acell F)) (o : nat) : Region F (list (acell F)) :=
    match k with
    | KFull r => p5_full_round s cfg st r o
    | KPair r => p5_partial_round s cfg st r o
    | KSingle r => p5_partial_single s cfg st r o
    end.

  Lemma row_cells_values : forall ri o v, length v = T -> values (row_cells ri o v) = v.
  Proof.
    intros ri o v H. unfold values, row_cells. rewrite map_map. cbn [ac_val]. rewrite <- H. apply map_seq_nth.
  Qed.
  Lemma values_nth : forall ws i, nth i (values ws) None = ac_val (nth i ws zero_cell).
  Proof. intros ws i. unfold values. change (@None F) with (ac_val zero_cell). apply map_nth. Qed.

  Lemma rmap_fixed : forall cols (c : list F) o ri, length cols = T -> length c = T ->
    exists x, rmap (fun '(c, v) => assign_fixed c o v) (combine cols c) ri
    = Ok (map (fun i => AssignFixed (col cols i) o (nth i c fzero)) (seq 0 T), x).
  Proof.
    intros cols c o ri H1 H2. rewrite (combine_seq cols c T 0 fzero H1 H2).
    rewrite (rmap_ok _ (fun x => {| ac_cell := {| ce_region := ri; ce_off := o; ce_col := Fix (fst x) |}; ac_val := Some (snd x) |})
      (fun x => [AssignFixed (fst x) o (snd x)])).
    - eexists. do 2 f_equal. rewrite flat_map_map. apply flat_map_single.
    - intros [x v] _. reflexivity.
  Qed.
  Lemma rmap_state : forall (v : list (option F)) o ri, length v = T ->
    rmap (fun '(c, v) => assign_advice c o v) (combine (p5_state cfg) v) ri
    = Ok (map (fun i => AssignAdvice (sc i) o (nth i v None)) (seq 0 T), row_cells ri o v).
  Proof.
    intros v o ri H. rewrite (combine_seq (p5_state cfg) v T 0 None Hstate H).
    rewrite (rmap_ok _ (fun x => {| ac_cell := {| ce_region := ri; ce_off := o; ce_col := Adv (fst x) |}; ac_val := snd x |})
      (fun x => [AssignAdvice (fst x) o (snd x)])).
    - do 2 f_equal; [rewrite flat_map_map; apply flat_map_single|]. unfold row_cells. now rewrite map_map.
    - intros [x w] _. reflexivity.
  Qed.
  Lemma p5_load_ok : forall ri ws, length ws = T -> p5_load cfg ws ri = Ok (ev_load ri ws, row_cells ri 0 (values ws)).
  Proof.
    intros ri ws H. unfold p5_load. rewrite (combine_seq (p5_state cfg) ws T 0 zero_cell Hstate H).
    rewrite (rmap_ok _ (fun x => {| ac_cell := {| ce_region := ri; ce_off := 0; ce_col := Adv (fst x) |}; ac_val := ac_val (snd x) |})
      (fun x => [AssignAdvice (fst x) 0 (ac_val (snd x)); ConstrainEqual {| ce_region := ri; ce_off := 0; ce_col := Adv (fst x) |} (ac_cell (snd x))])).
    - do 2 f_equal.
      + rewrite flat_map_map. apply flat_map_ext. intros i. cbn [fst snd]. now rewrite values_nth.
      + rewrite map_map. unfold row_cells. apply map_ext. intros i. cbn [fst snd]. now rewrite values_nth.
    - intros [x w] _. reflexivity.
  Qed.
  Lemma rlift_index : forall r ri, r < length rcs -> rlift (F := F) (index rcs r) ri = Ok ([], rcl s r).
  Proof.
    intros r ri H. unfold rlift, index, rcl. now rewrite (nth_error_nth' rcs [] H).
  Qed.

  Lemma p5_step_ok : forall k st o ri, kind_fits s k ->
    p5_step k st o ri = Ok (ev_row k o (values st), row_cells ri (S o) (kind_vals k (values st))).
  Proof.
    intros k st o ri H.
    assert (A : forall round_fn e r, r < length rcs -> gate_of k = gate_of k ->
      round_fn ri = Ok (e, kind_vals k (values st)) ->
      p5_round s cfg r o (gate_of k) round_fn ri
      = Ok ([EnableSelector (gate_of k) o] ++ map (fun i => AssignFixed (ac i) o (rcf s r i)) (seq 0 T) ++ e
            ++ map (fun i => AssignAdvice (sc i) (S o) (nth i (kind_vals k (values st)) None)) (seq 0 T),
            row_cells ri (S o) (kind_vals k (values st)))).
    { intros fn e r Hr _ He. unfold p5_round.
      destruct (rmap_fixed (p5_rc_a cfg) (rcl s r) o ri Ha (rcl_length T s Hspec r Hr)) as [x Hx].
      eapply rbind_ok; [reflexivity|].
      eapply (rbind_ok _ _ _ []); [now apply rlift_index|]. eapply rbind_ok; [exact Hx|]. eapply rbind_ok; [exact He|].
      rewrite Nat.add_1_r. apply rmap_state, kind_vals_length. }
    destruct k as [r|r|r]; cbn [kind_fits] in H; cbn [p5_step]; unfold ev_row; cbn [first_round].
    - apply (A _ []); [assumption|reflexivity|]. change (@nil (event F)) with ([] ++ @nil (event F)).
      eapply rbind_ok; [now apply rlift_index|]. reflexivity.
    - apply (A _ (AssignAdvice (p5_sbox cfg) o (kind_sbox (KPair r) (values st))
          :: map (fun i => AssignFixed (bc i) o (rcf s (r + 1) i)) (seq 0 T))); [lia|reflexivity|].
      destruct (rmap_fixed (p5_rc_b cfg) (rcl s (r + 1)) o ri Hb (rcl_length T s Hspec _ H)) as [x Hx].
      eapply (rbind_ok _ _ _ [] _ (_ :: _)); [apply rlift_index; lia|].
      eapply rbind_ok1; [reflexivity|].
      rewrite <- (app_nil_l (map _ _)). eapply rbind_ok; [now apply rlift_index|].
      rewrite <- (app_nil_r (map _ _)). eapply rbind_ok; [exact Hx|]. reflexivity.
    - apply (A _ []); [assumption|reflexivity|]. change (@nil (event F)) with ([] ++ @nil (event F)).
      eapply rbind_ok; [now apply rlift_index|]. reflexivity.
  Qed.

  Definition EV (v0 : list (option F)) (o : nat) : list (event F) := ev_row (kd o) o (vs v0 o).
  Definition ev_permute (ri : nat) (ws : list (acell F)) : list (event F) :=
    ev_load ri ws ++ flat_map (EV (values ws)) (seq 0 R).

  Lemma nth_app_map : forall (f g : nat -> kind) k l o d, o < k -> nth o (map f (seq 0 k) ++ l) d = f o.
  Proof. intros f g k l o d H. rewrite app_nth1 by now rewrite map_length, seq_length. now apply nth_map_seq. Qed.
  Notation hf := (half_full s).
  Notation hp := (half_partial s).
  Notation odd := (Nat.modulo (partial_rounds s) 2).
  Lemma kd_first : forall o, o < hf -> kd o = KFull o.
  Proof. intros o H. unfold kd, p5_rows. now apply (nth_app_map KFull KFull). Qed.
  Lemma kd_pair : forall r, r < hp -> kd (hf + r) = KPair (hf + 2 * r).
  Proof.
    intros r H. unfold kd, p5_rows. rewrite app_nth2 by (rewrite map_length, seq_length; lia).
    rewrite map_length, seq_length. replace (hf + r - hf) with r by lia.
    now apply (nth_app_map (fun r => KPair (hf + 2 * r)) KFull).
  Qed.
  Lemma kd_single : odd = 1 -> kd (hf + hp) = KSingle (hf + 2 * hp).
  Proof.
    intros E. unfold kd, p5_rows. rewrite E. cbn [Nat.eqb].
    rewrite app_nth2 by (rewrite map_length, seq_length; lia). rewrite map_length, seq_length.
    rewrite app_nth2 by (rewrite map_length, seq_length; lia). rewrite map_length, seq_length.
    replace (hf + hp - hf - hp) with 0 by lia. reflexivity.
  Qed.
  Lemma kd_last : forall r, r < hf -> kd (hf + hp + odd + r) = KFull (hf + 2 * hp + odd + r).
  Proof.
    intros r H. unfold kd, p5_rows.
    rewrite app_nth2 by (rewrite map_length, seq_length; lia). rewrite map_length, seq_length.
    rewrite app_nth2 by (rewrite map_length, seq_length; lia). rewrite map_length, seq_length.
    assert (L : length (if odd =? 1 then [KSingle (hf + 2 * hp)] else []) = odd).
    { destruct (odd_cases s) as [-> | ->]; reflexivity. }
    rewrite app_nth2 by (rewrite L; lia). rewrite L.
    replace (hf + hp + odd + r - hf - hp - odd) with r by lia.
    rewrite <- (app_nil_r (map _ _)). now apply (nth_app_map (fun r => KFull (hf + 2 * hp + odd + r)) KFull).
  Qed.

  Lemma permute_region_ok : forall ri ws, length ws = T ->
    p5_permute_region s cfg ws ri = Ok (ev_permute ri ws, row_cells ri R (vs (values ws) R)).
  Proof.
    intros ri ws H. set (v0 := values ws). assert (L0 : length v0 = T) by (unfold v0, values; now rewrite map_length).
    set (C := fun o => row_cells ri o (vs v0 o)).
    assert (ST : forall o, o < R -> p5_step (kd o) (C o) o ri = Ok (EV v0 o, C (S o))).
    { intros o Ho. rewrite p5_step_ok by now apply kd_fits. unfold C.
      rewrite row_cells_values by (apply vs_length; lia). now rewrite vs_S by assumption. }
    assert (RR : R = hf + hp + odd + hf) by reflexivity.
    unfold p5_permute_region, p5_permute_region_as, ev_permute. eapply rbind_ok; [now apply p5_load_ok|]. fold v0. fold (C 0).
    assert (SQ : seq 0 R = seq 0 hf ++ seq hf hp ++ seq (hf + hp) odd ++ seq (hf + hp + odd) hf).
    { unfold p5_R. replace (hf + hp + odd + hf) with (hf + (hp + (odd + hf))) by lia. now rewrite !seq_app. }
    rewrite SQ, !flat_map_app.
    eapply rbind_ok.
    { apply (rfold_seq _ C (EV v0)). intros i Hi. pose proof (ST i ltac:(lia)) as X. rewrite kd_first in X by lia. exact X. }
    cbn [Nat.add]. eapply (rbind_ok _ _ _ _ (C (hf + hp))).
    { rewrite <- flat_map_shift. replace (C hf) with (C (hf + 0)) by (f_equal; lia).
      apply (rfold_seq _ (fun r => C (hf + r)) (fun r => EV v0 (hf + r))).
      intros i Hi. cbn beta. pose proof (ST (hf + i) ltac:(lia)) as X. rewrite kd_pair in X by lia.
      rewrite Nat.add_succ_r. exact X. }
    eapply (rbind_ok _ _ _ _ (C (hf + hp + odd))).
    { rewrite (odd_test s). destruct (odd_cases s) as [E|E]; rewrite E; cbn [Nat.eqb seq flat_map].
      - rewrite Nat.add_0_r. reflexivity.
      - pose proof (ST (hf + hp) ltac:(lia)) as X. rewrite kd_single in X by assumption.
        rewrite app_nil_r, Nat.add_1_r. exact X. }
    cbn zeta. rewrite RR. rewrite <- flat_map_shift.
    fold (C (hf + hp + odd + hf)).
    replace (C (hf + hp + odd)) with (C (hf + hp + odd + 0)) by (f_equal; lia).
    apply (rfold_seq _ (fun r => C (hf + hp + odd + r)) (fun r => EV v0 (hf + hp + odd + r))).
    intros i Hi. cbn beta. pose proof (ST (hf + hp + odd + i) ltac:(lia)) as X. rewrite kd_last in X by lia.
    rewrite Nat.add_succ_r. exact X.
  Qed.

  (** ** The cells of a block *)
  Definition p5_adv (v0 : list (option F)) : list (nat * nat * option F) :=
    map (fun i => (sc i, 0, nth i v0 None)) (seq 0 T) ++ flat_map (fun o => adv_ws (EV v0 o)) (seq 0 R).
  Definition p5_fix : list (nat * nat * F) := flat_map (fun o => fix_ws (EV [] o)) (seq 0 R).
  Definition p5_sel : list (nat * nat) := map (fun o => (gate_of (kd o), o)) (seq 0 R).

  Lemma flat_map_nil : forall {A B} (l : list A), flat_map (fun _ => @nil B) l = [].
  Proof. intros A B l. now induction l. Qed.

  Lemma adv_row : forall k o v, adv_ws (ev_row k o v)
    = match k with KPair r => [(p5_sbox cfg, o, kind_sbox k v)] | _ => [] end
      ++ map (fun i => (sc i, S o, nth i (kind_vals k v) None)) (seq 0 T).
  Proof.
    intros k o v. unfold ev_row. rewrite !adv_ws_app. unfold adv_ws. rewrite !flat_map_map, flat_map_nil, flat_map_single.
    cbn [flat_map app]. f_equal. destruct k; cbn [flat_map]; [reflexivity| |reflexivity].
    rewrite flat_map_map, flat_map_nil. reflexivity.
  Qed.
  Lemma fix_row : forall k o v, fix_ws (ev_row k o v)
    = map (fun i => (ac i, o, rcf s (first_round k) i)) (seq 0 T)
      ++ match k with KPair r => map (fun i => (bc i, o, rcf s (r + 1) i)) (seq 0 T) | _ => [] end.
  Proof.
    intros k o v. unfold ev_row. rewrite !fix_ws_app. unfold fix_ws. rewrite !flat_map_map, flat_map_nil, flat_map_single.
    cbn [flat_map app]. rewrite app_nil_r. f_equal. destruct k; cbn [flat_map app]; [reflexivity| |reflexivity].
    rewrite flat_map_map, flat_map_single. reflexivity.
  Qed.
  Lemma sel_row : forall k o v, sel_ws (ev_row k o v) = [(gate_of k, o)].
  Proof.
    intros k o v. unfold ev_row. rewrite !sel_ws_app. unfold sel_ws. rewrite !flat_map_map, !flat_map_nil.
    destruct k; cbn [flat_map app]; rewrite ?flat_map_map, ?flat_map_nil; reflexivity.
  Qed.
  Lemma copies_row : forall k o v, copies_ws (ev_row k o v) = [].
  Proof.
    intros k o v. unfold ev_row. rewrite !copies_ws_app. unfold copies_ws. rewrite !flat_map_map, !flat_map_nil.
    destruct k; cbn [flat_map app]; rewrite ?flat_map_map, ?flat_map_nil; reflexivity.
  Qed.
  Lemma const_row : forall k o v, const_events (ev_row k o v) = [].
  Proof.
    intros k o v. unfold ev_row. rewrite !const_events_app. unfold const_events. rewrite !flat_map_map, !flat_map_nil.
    destruct k; cbn [flat_map app]; rewrite ?flat_map_map, ?flat_map_nil; reflexivity.
  Qed.
  Lemma flat_map_flat_map : forall {A B C} (f : B -> list C) (g : A -> list B) l,
    flat_map f (flat_map g l) = flat_map (fun x => flat_map f (g x)) l.
  Proof. intros A B C f g l. induction l; cbn; [reflexivity|]. rewrite flat_map_app. congruence. Qed.

  Lemma adv_permute : forall ri ws, adv_ws (ev_permute ri ws) = p5_adv (values ws).
  Proof.
    intros ri ws. unfold ev_permute. rewrite adv_ws_app. unfold p5_adv. f_equal.
    - unfold ev_load, adv_ws. rewrite flat_map_flat_map. cbn [flat_map app]. apply flat_map_single.
    - unfold adv_ws. now rewrite flat_map_flat_map.
  Qed.
  Lemma fix_permute : forall ri ws, fix_ws (ev_permute ri ws) = p5_fix.
  Proof.
    intros ri ws. unfold ev_permute. rewrite fix_ws_app. unfold p5_fix.
    replace (fix_ws (ev_load ri ws)) with (@nil (nat * nat * F)).
    - cbn [app]. unfold fix_ws. rewrite flat_map_flat_map. apply flat_map_ext. intros o.
      change (fix_ws (EV (values ws) o) = fix_ws (EV [] o)). unfold EV. now rewrite !fix_row.
    - unfold ev_load, fix_ws. rewrite flat_map_flat_map. cbn [flat_map app]. now rewrite flat_map_nil.
  Qed.
  Lemma sel_permute : forall ri ws, sel_ws (ev_permute ri ws) = p5_sel.
  Proof.
    intros ri ws. unfold ev_permute. rewrite sel_ws_app. unfold p5_sel.
    replace (sel_ws (ev_load ri ws)) with (@nil (nat * nat)).
    - cbn [app]. unfold sel_ws. rewrite flat_map_flat_map, <- flat_map_single. apply flat_map_ext. intros o.
      change (sel_ws (EV (values ws) o) = [(gate_of (kd o), o)]). unfold EV. now rewrite sel_row.
    - unfold ev_load, sel_ws. rewrite flat_map_flat_map. cbn [flat_map app]. now rewrite flat_map_nil.
  Qed.
  Lemma copies_load : forall ri ws, length ws = T -> copies_ws (ev_load ri ws)
    = map (fun '(j, w) => ({| ce_region := ri; ce_off := 0; ce_col := Adv (sc j) |}, ac_cell w)) (combine (seq 0 T) ws).
  Proof.
    intros ri ws H. unfold ev_load, copies_ws. rewrite flat_map_flat_map. cbn [flat_map app].
    rewrite flat_map_single. rewrite (combine_seq (seq 0 T) ws T 0 zero_cell) by (rewrite ?seq_length; auto).
    rewrite map_map. apply map_ext_in. intros i Hi. apply in_seq in Hi. now rewrite seq_nth by lia.
  Qed.
  Lemma copies_permute : forall ri ws, length ws = T -> copies_ws (ev_permute ri ws)
    = map (fun '(j, w) => ({| ce_region := ri; ce_off := 0; ce_col := Adv (sc j) |}, ac_cell w)) (combine (seq 0 T) ws).
  Proof.
    intros ri ws H. unfold ev_permute. rewrite copies_ws_app, copies_load by assumption.
    replace (copies_ws (flat_map (EV (values ws)) (seq 0 R))) with (@nil (cell * cell)); [now rewrite app_nil_r|].
    unfold copies_ws. rewrite flat_map_flat_map.
    rewrite (flat_map_ext _ (fun _ => [])), flat_map_nil; [reflexivity|]. intros o. apply (copies_row (kd o)).
  Qed.
  Lemma const_permute : forall ri ws, const_events (ev_permute ri ws) = [].
  Proof.
    intros ri ws. unfold ev_permute. rewrite const_events_app.
    replace (const_events (ev_load ri ws)) with (@nil (cell * F)).
    - unfold const_events. rewrite flat_map_flat_map.
      rewrite (flat_map_ext _ (fun _ => [])), flat_map_nil; [reflexivity|]. intros o. apply (const_row (kd o)).
    - unfold ev_load, const_events. rewrite flat_map_flat_map. cbn [flat_map app]. now rewrite flat_map_nil.
  Qed.

  (** ** Reading back *)
  Lemma sc_inj : forall i j, i < T -> j < T -> sc i = sc j -> i = j.
  Proof. intros i j Hi Hj. apply nth_NoDup_inj; rewrite ?Hstate; auto. now inversion NDadv. Qed.
  Lemma sc_sbox : forall i, i < T -> sc i <> p5_sbox cfg.
  Proof.
    intros i Hi E. inversion NDadv as [|? ? N _]. apply N. rewrite <- E. apply nth_In. now rewrite Hstate.
  Qed.
  Lemma ac_inj : forall i j, i < T -> j < T -> ac i = ac j -> i = j.
  Proof. intros i j Hi Hj. apply nth_NoDup_inj; rewrite ?Ha; auto. now apply NoDup_app_l in NDfix. Qed.
  Lemma bc_inj : forall i j, i < T -> j < T -> bc i = bc j -> i = j.
  Proof. intros i j Hi Hj. apply nth_NoDup_inj; rewrite ?Hb; auto. now apply NoDup_app_r in NDfix. Qed.
  Lemma ac_bc : forall i j, i < T -> j < T -> ac i <> bc j.
  Proof.
    intros i j Hi Hj E. enough (i = T + j) by lia.
    apply (nth_NoDup_inj (p5_rc_a cfg ++ p5_rc_b cfg)); auto; rewrite ?app_length; try lia.
    rewrite app_nth1, app_nth2 by lia. rewrite Ha. replace (T + j - T) with j by lia. exact E.
  Qed.

  Lemma p5_adv_in : forall v0 c o w, length v0 = T -> (In (c, o, w) (p5_adv v0) <->
    (exists i, i < T /\ o <= R /\ c = sc i /\ w = nth i (vs v0 o) None)
    \/ (o < R /\ c = p5_sbox cfg /\ w = kind_sbox (kd o) (vs v0 o) /\ exists r, kd o = KPair r)).
  Proof.
    intros v0 c o w L0. unfold p5_adv. rewrite in_app_iff, in_map_iff, in_flat_map. split.
    - intros [(i & E & Hi)|(q & Hq & H)].
      + injection E as <- <- <-. apply in_seq in Hi. left. exists i. split; [lia|]. split; [lia|]. now split.
      + apply in_seq in Hq. unfold EV in H. rewrite adv_row, in_app_iff in H. destruct H as [H|H].
        * destruct (kd q) as [r|r|r] eqn:K; try easy. destruct H as [H|[]]. injection H as <- <- <-. right.
          rewrite K. split; [lia|]. repeat split. eauto.
        * apply in_map_iff in H. destruct H as (i & E & Hi). injection E as <- <- <-. apply in_seq in Hi.
          left. exists i. rewrite vs_S by lia. split; [lia|]. split; [lia|]. now split.
    - intros [(i & Hi & Ho & -> & ->)|(Ho & -> & -> & r & K)].
      + destruct o as [|o].
        * left. exists i. split; [reflexivity|]. apply in_seq. lia.
        * right. exists o. split; [apply in_seq; lia|]. unfold EV. rewrite adv_row, in_app_iff. right.
          apply in_map_iff. exists i. rewrite vs_S by lia. split; [reflexivity|]. apply in_seq. lia.
      + right. exists o. split; [apply in_seq; lia|]. unfold EV. rewrite adv_row, in_app_iff. left.
        rewrite K. now left.
  Qed.
  Lemma p5_adv_state : forall v0 i o, length v0 = T -> i < T -> o <= R ->
    last_write (p5_adv v0) (sc i) o = Some (nth i (vs v0 o) None).
  Proof.
    intros v0 i o L0 Hi Ho. apply last_write_fun.
    - apply p5_adv_in; [assumption|]. left. eauto.
    - intros w H. apply p5_adv_in in H; [|assumption]. destruct H as [(j & Hj & _ & E & ->)|(_ & E & _)].
      + apply sc_inj in E; auto. now subst.
      + now apply sc_sbox in E.
  Qed.
  Lemma p5_adv_sbox : forall v0 o r, length v0 = T -> o < R -> kd o = KPair r ->
    last_write (p5_adv v0) (p5_sbox cfg) o = Some (kind_sbox (kd o) (vs v0 o)).
  Proof.
    intros v0 o r L0 Ho K. apply last_write_fun.
    - apply p5_adv_in; [assumption|]. right. eauto.
    - intros w H. apply p5_adv_in in H; [|assumption]. destruct H as [(j & Hj & _ & E & _)|(_ & _ & -> & _)].
      + symmetry in E. now apply sc_sbox in E.
      + reflexivity.
  Qed.

  Lemma p5_fix_in : forall c o w, In (c, o, w) p5_fix <->
    o < R /\ exists i, i < T /\ ((c = ac i /\ w = rcf s (first_round (kd o)) i)
      \/ (exists r, kd o = KPair r /\ c = bc i /\ w = rcf s (r + 1) i)).
  Proof.
    intros c o w. unfold p5_fix. rewrite in_flat_map. split.
    - intros (q & Hq & H). apply in_seq in Hq. unfold EV in H. rewrite fix_row, in_app_iff in H. destruct H as [H|H].
      + apply in_map_iff in H. destruct H as (i & E & Hi). inversion E; subst. apply in_seq in Hi.
        split; [lia|]. exists i. split; [lia|]. now left.
      + destruct (kd q) as [r|r|r] eqn:K; try easy. apply in_map_iff in H. destruct H as (i & E & Hi). inversion E; subst.
        apply in_seq in Hi. split; [lia|]. exists i. split; [lia|]. right. exists r. now rewrite K.
    - intros (Ho & i & Hi & H). exists o. split; [apply in_seq; lia|]. unfold EV. rewrite fix_row, in_app_iff.
      destruct H as [(-> & ->)|(r & K & -> & ->)].
      + left. apply in_map_iff. exists i. split; [reflexivity|]. apply in_seq. lia.
      + right. rewrite K. apply in_map_iff. exists i. split; [reflexivity|]. apply in_seq. lia.
  Qed.
  Lemma p5_fix_a : forall o i, o < R -> i < T -> rd p5_fix (ac i) o = rcf s (first_round (kd o)) i.
  Proof.
    intros o i Ho Hi. unfold rd. rewrite (last_write_fun _ _ _ (rcf s (first_round (kd o)) i)); [reflexivity| |].
    - apply p5_fix_in. split; [assumption|]. exists i. split; [assumption|]. now left.
    - intros w H. apply p5_fix_in in H. destruct H as (_ & j & Hj & [(E & ->)|(r & _ & E & _)]).
      + apply ac_inj in E; auto.
      + now apply ac_bc in E.
  Qed.
  Lemma p5_fix_b : forall o i r, o < R -> i < T -> kd o = KPair r -> rd p5_fix (bc i) o = rcf s (r + 1) i.
  Proof.
    intros o i r Ho Hi K. unfold rd. rewrite (last_write_fun _ _ _ (rcf s (r + 1) i)); [reflexivity| |].
    - apply p5_fix_in. split; [assumption|]. exists i. split; [assumption|]. right. eauto.
    - intros w H. apply p5_fix_in in H. destruct H as (_ & j & Hj & [(E & _)|(r' & K' & E & ->)]).
      + symmetry in E. now apply ac_bc in E.
      + apply bc_inj in E; auto. subst. congruence.
  Qed.
  Lemma p5_sel_in : forall q o, In (q, o) p5_sel <-> o < R /\ q = gate_of (kd o).
  Proof.
    intros q o. unfold p5_sel. rewrite in_map_iff. split.
    - intros (x & E & Hx). inversion E; subst. apply in_seq in Hx. split; [lia|reflexivity].
    - intros [H ->]. exists o. split; [reflexivity|]. apply in_seq. lia.
  Qed.

  (** ** What the rows of a block say *)
  Definition block_ok (loc : nat -> nat -> F) : Prop := forall o, o < R ->
    kind_ok T s (kd o) (fun i => loc (sc i) o) (fun i => loc (sc i) (S o)) (loc (p5_sbox cfg) o).

  Lemma block_states : forall loc, block_ok loc -> forall o, o <= R ->
    lst T (fun i => loc (sc i) o) = fold_left (fun st k => kind_step s k st) (firstn o (p5_rows s)) (lst T (fun i => loc (sc i) 0)).
  Proof.
    intros loc H o. induction o as [|o IH]; intros Ho; [reflexivity|].
    rewrite (firstn_S_nth _ _ (KFull 0)) by (rewrite p5_rows_length; lia). rewrite fold_left_app, <- IH by lia.
    cbn [fold_left]. specialize (H o ltac:(lia)). apply (kind_iff T s Hspec HT) in H; [|apply kd_fits; lia].
    apply H.
  Qed.
  Theorem block_sound : forall loc, block_ok loc ->
    lst T (fun i => loc (sc i) R) = textbook s (lst T (fun i => loc (sc i) 0)).
  Proof.
    intros loc H. rewrite block_states by (assumption || lia). rewrite firstn_all2 by (rewrite p5_rows_length; lia).
    now apply (rows_permutation T s Hspec HT).
  Qed.
  (** states determine the rows up to the auxiliary cells *)
  Theorem block_complete : forall loc (x : list F), length x = T ->
    (forall o, o <= R -> lst T (fun i => loc (sc i) o) = fold_left (fun st k => kind_step s k st) (firstn o (p5_rows s)) x) ->
    (forall o r, o < R -> kd o = KPair r -> loc (p5_sbox cfg) o = power5 (fadd (loc (sc 0) o) (rcf s r 0))) ->
    block_ok loc.
  Proof.
    intros loc x L H1 H2 o Ho. apply (kind_iff T s Hspec HT); [now apply kd_fits|]. split.
    - rewrite (H1 (S o)) by lia. rewrite (H1 o) by lia.
      rewrite (firstn_S_nth _ _ (KFull 0)) by (rewrite p5_rows_length; lia). now rewrite fold_left_app.
    - destruct (kd o) as [r|r|r] eqn:K; auto.
  Qed.

  Lemma kind_step_length : forall k st, length (kind_step s k st) = T.
  Proof.
    intros k st. destruct Hspec as (_ & [L _] & _).
    destruct k; cbn [kind_step]; unfold spec_full, spec_partial, mat_vec; now rewrite map_length.
  Qed.
  Lemma steps_length : forall l (x : list F), length x = T -> length (fold_left (fun st k => kind_step s k st) l x) = T.
  Proof.
    induction l as [|k l IH]; intros x H; cbn [fold_left]; [assumption|]. apply IH, kind_step_length.
  Qed.
  Lemma nth_map_some : forall (x : list F) i, i < length x -> nth i (map Some x) None = Some (nth i x fzero).
  Proof.
    intros x i H. rewrite (nth_indep _ None (Some fzero)) by now rewrite map_length. apply map_nth.
  Qed.
  Lemma honest_state : forall x i o, length x = T -> i < T -> o <= R ->
    rda (p5_adv (map Some x)) (sc i) o = nth i (fold_left (fun st k => kind_step s k st) (firstn o (p5_rows s)) x) fzero.
  Proof.
    intros x i o L Hi Ho. unfold rda. rewrite p5_adv_state by (rewrite ?map_length; assumption).
    rewrite vs_some, nth_map_some by (rewrite steps_length; assumption). reflexivity.
  Qed.
  Theorem block_honest : forall x, length x = T -> block_ok (rda (p5_adv (map Some x))).
  Proof.
    intros x L. apply (block_complete _ x L).
    - intros o Ho. rewrite <- (lst_of T (fold_left _ _ x)) by now apply steps_length.
      apply (proj1 (lst_ext T HT _ _)). intros i Hi. now apply honest_state.
    - intros o r Ho K. unfold rda at 1. rewrite (p5_adv_sbox _ o r) by (rewrite ?map_length; assumption).
      rewrite honest_state by (try assumption; lia). rewrite vs_some, K.
      set (y := fold_left _ _ _). assert (Ly : length y = T) by now apply steps_length.
      pose proof (kd_fits o Ho) as Fk. rewrite K in Fk. cbn [kind_fits] in Fk.
      pose proof (rcl_length T s Hspec r ltac:(lia)) as Lr. cbn [kind_sbox]. rewrite add_constants_some, pow_first_some.
      change (rcf s r 0) with (nth 0 (rcl s r) fzero). destruct y as [|a y]; [cbn in Ly; lia|].
      destruct (rcl s r) as [|b l]; [cbn in Lr; lia|]. reflexivity.
  Qed.

  (** ** Gates over many blocks *)
  Definition p5_gates : list (expr F) :=
    full_gates T s cfg ++ partial_gates T s cfg ++ single_gates T s cfg ++ pad_gates RATE cfg.
  Hypothesis Inv1 : mat_prod_id T (mds s) (mds_inv s).
  Hypothesis Inv2 : mat_prod_id T (mds_inv s) (mds s).

  Lemma gates_off : forall n fx sl adv r,
    sl (p5_full cfg) r = fzero -> sl (p5_partial cfg) r = fzero -> sl (p5_single cfg) r = fzero -> sl (p5_pad cfg) r = fzero ->
    forall g, In g p5_gates -> eval n fx sl adv r g = fzero.
  Proof.
    intros n fx sl adv r H1 H2 H3 H4 g Hg. unfold p5_gates in Hg. rewrite !in_app_iff in Hg.
    destruct Hg as [Hg|[Hg|[Hg|Hg]]].
    - eapply full_off; eassumption.
    - eapply partial_off; eassumption.
    - eapply single_off; eassumption.
    - eapply pad_off; eassumption.
  Qed.

  (** one row of a block *)
  Definition gates_kind (k : kind) : list (expr F) :=
    match k with
    | KFull _ => full_gates T s cfg
    | KPair _ => partial_gates T s cfg
    | KSingle _ => single_gates T s cfg
    end.
  Lemma row_on : forall n fx sl adv r k, S r < n -> sl (gate_of k) r = fone ->
    (forall i, i < T -> fx (ac i) r = rcf s (first_round k) i) ->
    (forall q i, k = KPair q -> i < T -> fx (bc i) r = rcf s (q + 1) i) ->
    ((forall g, In g (gates_kind k) -> eval n fx sl adv r g = fzero)
     <-> kind_ok T s k (fun i => adv (sc i) r) (fun i => adv (sc i) (S r)) (adv (p5_sbox cfg) r)).
  Proof.
    intros n fx sl adv r k Hn E1 Hfa Hfb.
    assert (EXT : forall ra ra', (forall i, i < T -> ra i = ra' i) -> forall cu,
      (forall i, i < T -> psb ra cu i = psb ra' cu i)).
    { intros ra ra' E cu i Hi. unfold psb. destruct (i =? 0); rewrite E by lia; reflexivity. }
    assert (MX : forall v w, (forall i, i < T -> v i = w i) -> forall i, mix T s v i = mix T s w i).
    { intros v w E i. unfold mix. apply sum_n_ext. intros j Hj. now rewrite E. }
    destruct k as [q|q|q]; cbn [gate_of kind_ok first_round gates_kind] in *.
    - rewrite (full_on T RATE s HT HR cfg n fx sl adv r ltac:(lia) Hn E1).
      change (srow cfg adv ?x) with (fun i => adv (sc i) x). unfold full_ok. split; intros G i Hi; rewrite (G i Hi); apply MX; intros j Hj; now rewrite Hfa.
    - rewrite (partial_on T RATE s HT HR cfg n fx sl adv r ltac:(lia) Hn Inv1 Inv2 E1).
      change (srow cfg adv ?x) with (fun i => adv (sc i) x). unfold pair_ok. rewrite Hfa by lia.
      assert (Y : forall i, mix T s (psb (fun i => fx (bc i) r) (mix T s (psb (fun i => fx (ac i) r) (fun i => adv (sc i) r)))) i
        = mix T s (psb (rcf s (q + 1)) (mix T s (psb (rcf s q) (fun i => adv (sc i) r)))) i).
      { intros i. apply MX. intros j Hj. unfold psb at 1 3.
        assert (Z : forall a, mix T s (psb (fun i => fx (ac i) r) (fun i => adv (sc i) r)) a
          = mix T s (psb (rcf s q) (fun i => adv (sc i) r)) a).
        { intros a. apply MX. now apply EXT. }
        rewrite !Z, (Hfb q j eq_refl Hj), (Hfb q 0 eq_refl ltac:(lia)). reflexivity. }
      split; intros [G1 G2]; split; auto; intros i Hi; rewrite (G2 i Hi); [apply Y|symmetry; apply Y].
    - rewrite (single_on T RATE s HT HR cfg n fx sl adv r ltac:(lia) Hn E1).
      change (srow cfg adv ?x) with (fun i => adv (sc i) x). unfold single_ok. split; intros G i Hi; rewrite (G i Hi); apply MX; intros j Hj; apply EXT; auto.
      intros. symmetry. auto.
  Qed.

  Lemma row_gates : forall n fx sl adv r k, S r < n ->
    (forall q, In q [p5_full cfg; p5_partial cfg; p5_single cfg; p5_pad cfg] -> sl q r = if q =? gate_of k then fone else fzero) ->
    (forall i, i < T -> fx (ac i) r = rcf s (first_round k) i) ->
    (forall q i, k = KPair q -> i < T -> fx (bc i) r = rcf s (q + 1) i) ->
    ((forall g, In g p5_gates -> eval n fx sl adv r g = fzero)
     <-> kind_ok T s k (fun i => adv (sc i) r) (fun i => adv (sc i) (S r)) (adv (p5_sbox cfg) r)).
  Proof.
    intros n fx sl adv r k Hn Hsel Hfa Hfb.
    assert (E1 : sl (gate_of k) r = fone).
    { rewrite Hsel by (destruct k; cbn; tauto). now rewrite Nat.eqb_refl. }
    rewrite <- (row_on n fx sl adv r k Hn E1 Hfa Hfb).
    assert (OFF : forall q, In q [p5_full cfg; p5_partial cfg; p5_single cfg; p5_pad cfg] -> q <> gate_of k -> sl q r = fzero).
    { intros q Hq N. rewrite Hsel by assumption. destruct (Nat.eqb_spec q (gate_of k)); [easy|reflexivity]. }
    assert (ND : p5_full cfg <> p5_partial cfg /\ p5_full cfg <> p5_single cfg /\ p5_full cfg <> p5_pad cfg
      /\ p5_partial cfg <> p5_single cfg /\ p5_partial cfg <> p5_pad cfg /\ p5_single cfg <> p5_pad cfg).
    { repeat match goal with H : NoDup (_ :: _) |- _ => inversion H; clear H; subst end. cbn in *. intuition. }
    destruct ND as (N1 & N2 & N3 & N4 & N5 & N6).
    unfold p5_gates. split.
    - intros G g Hg. apply G. rewrite !in_app_iff. destruct k; cbn [gates_kind] in Hg; auto.
    - intros G g Hg. rewrite !in_app_iff in Hg.
      destruct Hg as [Hg|[Hg|[Hg|Hg]]]; destruct k as [q|q|q]; cbn [gates_kind gate_of] in *;
        try (now apply G); clear G;
        [eapply full_off; eauto|eapply full_off; eauto|eapply partial_off; eauto|eapply partial_off; eauto
        |eapply single_off; eauto|eapply single_off; eauto|eapply pad_off; eauto|eapply pad_off; eauto|eapply pad_off; eauto];
        apply OFF; cbn; auto; congruence.
  Qed.
End Block.
