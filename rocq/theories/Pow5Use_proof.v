(** The instructions of the Pow5 chip in a circuit that may share its columns: what any satisfying assignment
    says about their words, and that honest assignments satisfy them. *)
From Coq Require Import ZArith List Arith Lia Bool.
From Verif Require Import Field Rust ListAux Primitives Specs SpecHash Perm_proof BigSum Link Halo2 Pow5 ChipUse Built
  Pow5Use Layout_proof SeptVal_proof SeptGate_proof Contract Pow5Gate_proof Pow5Rows_proof Pow5Block_proof Trace_proof.
Import ListNotations.
Local Open Scope nat_scope.

Section Use.
  Context {F : Type} {FO : FieldOps F} {PF : PrimeField F}.
  Add Field Ffield : f_field.
  Variable T RATE : nat.
  Variable s : spec F.
  Hypothesis Hspec : poseidon_spec T s.
  Hypothesis HT : 1 < T.
  Hypothesis HR : RATE = T - 1.
  Variable cfg : pow5.
  Hypothesis Hstate : length (p5_state cfg) = T.
  Hypothesis Ha : length (p5_rc_a cfg) = T.
  Hypothesis Hb : length (p5_rc_b cfg) = T.
  Hypothesis NDadv : NoDup (p5_sbox cfg :: p5_state cfg).
  Hypothesis NDfix : NoDup (p5_rc_a cfg ++ p5_rc_b cfg).
  Hypothesis NDsel : NoDup [p5_full cfg; p5_partial cfg; p5_single cfg; p5_pad cfg].
  Hypothesis Inv1 : mat_prod_id T (mds s) (mds_inv s).
  Hypothesis Inv2 : mat_prod_id T (mds_inv s) (mds s).

  Set Default Proof Using "All".
  Notation B L := (L T RATE s Hspec HT HR cfg Hstate Ha Hb NDadv NDfix NDsel).
  Notation R := (p5_R s).
  Notation sc := (col (p5_state cfg)).
  Notation bc := (col (p5_rc_b cfg)).
  Notation ac := (col (p5_rc_a cfg)).
  Notation cells := (row_cells T cfg).

  (** ** add_input *)
  Definition pval (w : padded_word F) : option F := match w with Message a => ac_val a | Padding v => Some v end.
  Definition ev_input (ri i : nat) (w : padded_word F) : list (event F) :=
    let d := {| ce_region := ri; ce_off := 1; ce_col := Adv (sc i) |} in
    match w with
    | Message a => [AssignAdvice (sc i) 1 (ac_val a); ConstrainEqual d (ac_cell a)]
    | Padding v => [AssignFixed (bc i) 1 v; AssignAdvice (sc i) 1 (Some v);
                    ConstrainEqual d {| ce_region := ri; ce_off := 1; ce_col := Fix (bc i) |}]
    end.
  Definition sums (v : list (option F)) (pw : nat -> padded_word F) : list (option F) :=
    map (fun i => if i <? RATE then val_add (nth i v None) (pval (pw i)) else nth i v None) (seq 0 T).
  Definition ev_add (ri : nat) (ws : list (acell F)) (pw : nat -> padded_word F) : list (event F) :=
    EnableSelector (p5_pad cfg) 1 :: ev_load T cfg ri ws
    ++ flat_map (fun i => ev_input ri i (pw i)) (seq 0 RATE)
    ++ map (fun i => AssignAdvice (sc i) 2 (nth i (sums (values ws) pw) None)) (seq 0 T).
  Definition add_region (ws : list (acell F)) (input : list (option (padded_word F))) : Region F (list (acell F)) :=
    rdo _ <- enable_selector (p5_pad cfg) 1;
    rdo st <- p5_load cfg ws;
    rdo inp <- rmap (load_input_word cfg input) (seq 0 RATE);
    rmap (fun i =>
      assign_advice (sc i) 2
        (match nth_error (values inp) i with
         | Some v => val_add (nth i (values st) None) v
         | None => nth i (values st) None
         end)) (seq 0 T).

  Lemma sums_length : forall v pw, length (sums v pw) = T.
  Proof. intros. unfold sums. now rewrite map_length, seq_length. Qed.

  Lemma load_input_ok : forall input i w ri, nth i input None = Some w ->
    load_input_word cfg input i ri
    = Ok (ev_input ri i w, {| ac_cell := {| ce_region := ri; ce_off := 1; ce_col := Adv (sc i) |}; ac_val := pval w |}).
  Proof. intros input i w ri H. unfold load_input_word. rewrite H. destruct w; reflexivity. Qed.

  Lemma add_region_ok : forall ri ws input pw, length ws = T -> (forall i, i < RATE -> nth i input None = Some (pw i)) ->
    add_region ws input ri = Ok (ev_add ri ws pw, cells ri 2 (sums (values ws) pw)).
  Proof.
    intros ri ws input pw Hl Hin. unfold add_region, ev_add.
    assert (LV : length (values ws) = T) by (unfold values; now rewrite map_length).
    eapply rbind_ok1; [reflexivity|]. eapply rbind_ok; [now apply (B p5_load_ok)|].
    eapply rbind_ok.
    { apply (rmap_ok _ (fun i => {| ac_cell := {| ce_region := ri; ce_off := 1; ce_col := Adv (sc i) |}; ac_val := pval (pw i) |})
              (fun i => ev_input ri i (pw i))).
      intros i Hi. apply in_seq in Hi. apply load_input_ok, Hin. lia. }
    rewrite (B row_cells_values) by assumption.
    rewrite (rmap_ok _ (fun i => {| ac_cell := {| ce_region := ri; ce_off := 2; ce_col := Adv (sc i) |};
                                    ac_val := nth i (sums (values ws) pw) None |})
              (fun i => [AssignAdvice (sc i) 2 (nth i (sums (values ws) pw) None)])).
    - rewrite flat_map_single. reflexivity.
    - intros i Hi. apply in_seq in Hi. unfold sums. rewrite nth_map_seq by lia. unfold values at 1. rewrite map_map.
      cbn [ac_val]. unfold assign_advice. destruct (Nat.ltb_spec i RATE) as [H|H].
      + rewrite (nth_error_nth' _ None) by (rewrite map_length, seq_length; assumption).
        rewrite nth_map_seq by assumption. reflexivity.
      + replace (nth_error (map (fun x => pval (pw x)) (seq 0 RATE)) i) with (@None (option F)); [reflexivity|].
        symmetry. apply nth_error_None. rewrite map_length, seq_length. lia.
  Qed.
  Lemma rmap_panic : forall {A B} (f : A -> Region F B) l ri x, In x l -> f x ri = Panic -> rmap f l ri = Panic.
  Proof.
    intros A B f l ri x. induction l as [|y l IH]; intros H E; [easy|]. cbn [rmap]. unfold rbind at 1.
    destruct H as [->|H]; [now rewrite E|]. destruct (f y ri) as [[e z]|]; [|reflexivity]. cbn [bind].
    unfold rbind. now rewrite (IH H E).
  Qed.
  (** panics unless the input is padded *)
  Lemma add_region_inv : forall ri ws input r, length ws = T -> add_region ws input ri = Ok r ->
    forall i, i < RATE -> nth i input None = Some (match nth i input None with Some w => w | None => Padding fzero end).
  Proof.
    intros ri ws input r Hl H i Hi. destruct (nth i input None) as [w|] eqn:E; [reflexivity|]. exfalso.
    unfold add_region, rbind at 1 in H. cbn [enable_selector bind] in H. unfold rbind at 1 in H.
    rewrite (B p5_load_ok) in H by assumption. cbn [bind] in H. unfold rbind at 1 in H.
    rewrite (rmap_panic _ _ ri i) in H; [discriminate H|apply in_seq; lia|].
    unfold load_input_word. now rewrite E.
  Qed.

  Lemma ev_add_adv : forall ri ws pw c o w, In (c, o, w) (adv_ws (ev_add ri ws pw)) <->
    (exists i, i < T /\ c = sc i /\ o = 0 /\ w = nth i (values ws) None)
    \/ (exists i, i < RATE /\ c = sc i /\ o = 1 /\ w = pval (pw i))
    \/ (exists i, i < T /\ c = sc i /\ o = 2 /\ w = nth i (sums (values ws) pw) None).
  Proof.
    intros ri ws pw c o w. unfold ev_add. rewrite in_adv_ws. cbn [In]. rewrite !in_app_iff. unfold ev_load.
    rewrite !in_flat_map, in_map_iff. split.
    - intros [H|[(i & Hi & H)|[(i & Hi & H)|(i & H & Hi)]]]; [discriminate| | |]; apply in_seq in Hi.
      + cbn [In] in H. destruct H as [H|[H|[]]]; [|discriminate]. injection H as <- <- <-. left. exists i. repeat split. lia.
      + right. left. exists i. unfold ev_input in H. destruct (pw i) as [a|v]; cbn [In] in H.
        * destruct H as [H|[H|[]]]; [|discriminate]. injection H as <- <- <-. repeat split. lia.
        * destruct H as [H|[H|[H|[]]]]; [discriminate| |discriminate]. injection H as <- <- <-. repeat split. lia.
      + injection H as <- <- <-. right. right. exists i. repeat split. lia.
    - intros [(i & Hi & -> & -> & ->)|[(i & Hi & -> & -> & ->)|(i & Hi & -> & -> & ->)]].
      + right. left. exists i. split; [apply in_seq; lia|]. now left.
      + right. right. left. exists i. split; [apply in_seq; lia|]. unfold ev_input. destruct (pw i); cbn [In pval]; auto.
      + right. right. right. exists i. split; [reflexivity|]. apply in_seq. lia.
  Qed.
  Lemma add_adv_0 : forall ri ws pw i, i < T -> last_write (adv_ws (ev_add ri ws pw)) (sc i) 0 = Some (nth i (values ws) None).
  Proof.
    intros ri ws pw i Hi. apply last_write_fun.
    - apply ev_add_adv. left. exists i. auto.
    - intros w H. apply ev_add_adv in H. destruct H as [(j & Hj & E & _ & ->)|[(j & Hj & E & O & _)|(j & Hj & E & O & _)]]; try discriminate.
      apply (B sc_inj) in E; auto. now subst.
  Qed.
  Lemma add_adv_1 : forall ri ws pw i, i < RATE -> last_write (adv_ws (ev_add ri ws pw)) (sc i) 1 = Some (pval (pw i)).
  Proof.
    intros ri ws pw i Hi. apply last_write_fun.
    - apply ev_add_adv. right. left. exists i. auto.
    - intros w H. apply ev_add_adv in H. destruct H as [(j & Hj & E & O & ->)|[(j & Hj & E & O & ->)|(j & Hj & E & O & _)]]; try discriminate.
      apply (B sc_inj) in E; try lia. now subst.
  Qed.
  Lemma add_adv_2 : forall ri ws pw i, i < T -> last_write (adv_ws (ev_add ri ws pw)) (sc i) 2 = Some (nth i (sums (values ws) pw) None).
  Proof.
    intros ri ws pw i Hi. apply last_write_fun.
    - apply ev_add_adv. right. right. exists i. auto.
    - intros w H. apply ev_add_adv in H. destruct H as [(j & Hj & E & O & ->)|[(j & Hj & E & O & ->)|(j & Hj & E & O & ->)]]; try discriminate.
      apply (B sc_inj) in E; try lia. now subst.
  Qed.
  Lemma ev_add_fix : forall ri ws pw c o v, In (c, o, v) (fix_ws (ev_add ri ws pw)) <->
    exists i, i < RATE /\ c = bc i /\ o = 1 /\ pw i = Padding v.
  Proof.
    intros ri ws pw c o v. unfold ev_add. rewrite in_fix_ws. cbn [In]. rewrite !in_app_iff. unfold ev_load.
    rewrite !in_flat_map, in_map_iff. split.
    - intros [H|[(i & Hi & H)|[(i & Hi & H)|(i & H & Hi)]]]; [discriminate| | |discriminate]; apply in_seq in Hi.
      + cbn [In] in H. destruct H as [H|[H|[]]]; discriminate.
      + exists i. unfold ev_input in H. destruct (pw i) as [a|x] eqn:E; cbn [In] in H.
        * destruct H as [H|[H|[]]]; discriminate.
        * destruct H as [H|[H|[H|[]]]]; try discriminate. injection H as <- <- <-. repeat split; auto. lia.
    - intros (i & Hi & -> & -> & E). right. right. left. exists i. split; [apply in_seq; lia|]. unfold ev_input. rewrite E. now left.
  Qed.
  Lemma add_fix : forall ri ws pw i v, i < RATE -> pw i = Padding v -> last_write (fix_ws (ev_add ri ws pw)) (bc i) 1 = Some v.
  Proof.
    intros ri ws pw i v Hi E. apply last_write_fun.
    - apply ev_add_fix. eauto.
    - intros w H. apply ev_add_fix in H. destruct H as (j & Hj & E1 & _ & E2). apply (B bc_inj) in E1; try lia. subst. congruence.
  Qed.
  Lemma ev_add_sel : forall ri ws pw q o, In (EnableSelector q o) (ev_add ri ws pw) <-> q = p5_pad cfg /\ o = 1.
  Proof.
    intros ri ws pw q o. unfold ev_add. cbn [In]. rewrite !in_app_iff. unfold ev_load.
    rewrite !in_flat_map, in_map_iff. split.
    - intros [H|[(i & Hi & H)|[(i & Hi & H)|(i & H & Hi)]]]; [now injection H as <- <-| | |discriminate].
      + cbn [In] in H. destruct H as [H|[H|[]]]; discriminate.
      + unfold ev_input in H. destruct (pw i) as [a|x] eqn:E; cbn [In] in H; intuition discriminate.
    - intros [-> ->]. now left.
  Qed.
  Lemma ev_add_copies : forall ri ws pw a b, In (ConstrainEqual a b) (ev_add ri ws pw) <->
    (exists i, i < T /\ a = {| ce_region := ri; ce_off := 0; ce_col := Adv (sc i) |} /\ b = ac_cell (nth i ws zero_cell))
    \/ (exists i, i < RATE /\ a = {| ce_region := ri; ce_off := 1; ce_col := Adv (sc i) |}
         /\ b = match pw i with Message w => ac_cell w | Padding _ => {| ce_region := ri; ce_off := 1; ce_col := Fix (bc i) |} end).
  Proof.
    intros ri ws pw a b. unfold ev_add. cbn [In]. rewrite !in_app_iff. unfold ev_load.
    rewrite !in_flat_map, in_map_iff. split.
    - intros [H|[(i & Hi & H)|[(i & Hi & H)|(i & H & Hi)]]]; [discriminate| | |discriminate]; apply in_seq in Hi.
      + cbn [In] in H. destruct H as [H|[H|[]]]; [discriminate|]. injection H as <- <-. left. exists i. repeat split. lia.
      + right. exists i. unfold ev_input in H. destruct (pw i) as [w|x]; cbn [In] in H.
        * destruct H as [H|[H|[]]]; [discriminate|]. injection H as <- <-. repeat split. lia.
        * destruct H as [H|[H|[H|[]]]]; try discriminate. injection H as <- <-. repeat split. lia.
    - intros [(i & Hi & -> & ->)|(i & Hi & -> & ->)].
      + right. left. exists i. split; [apply in_seq; lia|]. right. now left.
      + right. right. left. exists i. split; [apply in_seq; lia|]. unfold ev_input. destruct (pw i); cbn [In]; auto.
  Qed.
  Lemma ev_add_const : forall ri ws pw a v, ~ In (ConstrainConstant a v) (ev_add ri ws pw).
  Proof.
    intros ri ws pw a v. unfold ev_add. cbn [In]. rewrite !in_app_iff. unfold ev_load.
    rewrite !in_flat_map, in_map_iff.
    intros [H|[(i & Hi & H)|[(i & Hi & H)|(i & H & Hi)]]]; [discriminate| | |discriminate].
    - cbn [In] in H. destruct H as [H|[H|[]]]; discriminate.
    - unfold ev_input in H. destruct (pw i) as [w|x]; cbn [In] in H; intuition discriminate.
  Qed.

  (** ** initial_state *)
  Definition init_vals (cap : F) : list F := repeat fzero RATE ++ [cap].
  Lemma init_vals_length : forall cap, length (init_vals cap) = T.
  Proof. intros cap. unfold init_vals. rewrite app_length, repeat_length. cbn. lia. Qed.
  Definition ev_init (ri : nat) (cap : F) : list (event F) :=
    flat_map (fun i => [AssignAdvice (sc i) 0 (Some (nth i (init_vals cap) fzero));
                        ConstrainConstant {| ce_region := ri; ce_off := 0; ce_col := Adv (sc i) |} (nth i (init_vals cap) fzero)])
      (seq 0 T).
  Lemma init_region_ok : forall ri cap,
    rmap (fun '(c, v) => assign_advice_from_constant c 0 v) (combine (p5_state cfg) (repeat fzero RATE ++ [cap])) ri
    = Ok (ev_init ri cap, cells ri 0 (map Some (init_vals cap))).
  Proof.
    intros ri cap. fold (init_vals cap). rewrite (combine_seq (p5_state cfg) (init_vals cap) T 0 fzero Hstate (init_vals_length cap)).
    rewrite (rmap_ok _ (fun x => {| ac_cell := {| ce_region := ri; ce_off := 0; ce_col := Adv (fst x) |}; ac_val := Some (snd x) |})
      (fun x => [AssignAdvice (fst x) 0 (Some (snd x)); ConstrainConstant {| ce_region := ri; ce_off := 0; ce_col := Adv (fst x) |} (snd x)])).
    - do 2 f_equal.
      + rewrite flat_map_map. reflexivity.
      + rewrite map_map. unfold row_cells. apply map_ext_in. intros i Hi. apply in_seq in Hi. cbn [fst snd].
        rewrite (B nth_map_some); [reflexivity|]. rewrite init_vals_length. lia.
    - intros [x w] _. reflexivity.
  Qed.
  Lemma ev_init_adv : forall ri cap c o w, In (c, o, w) (adv_ws (ev_init ri cap)) <->
    exists i, i < T /\ c = sc i /\ o = 0 /\ w = Some (nth i (init_vals cap) fzero).
  Proof.
    intros ri cap c o w. rewrite in_adv_ws. unfold ev_init. rewrite in_flat_map. split.
    - intros (i & Hi & H). apply in_seq in Hi. cbn [In] in H. destruct H as [H|[H|[]]]; [|discriminate].
      injection H as <- <- <-. exists i. repeat split. lia.
    - intros (i & Hi & -> & -> & ->). exists i. split; [apply in_seq; lia|]. now left.
  Qed.
  Lemma init_adv : forall ri cap i, i < T -> last_write (adv_ws (ev_init ri cap)) (sc i) 0 = Some (Some (nth i (init_vals cap) fzero)).
  Proof.
    intros ri cap i Hi. apply last_write_fun.
    - apply ev_init_adv. exists i. auto.
    - intros w H. apply ev_init_adv in H. destruct H as (j & Hj & E & _ & ->). apply (B sc_inj) in E; auto. now subst.
  Qed.
  Lemma ev_init_const : forall ri cap a v, In (ConstrainConstant a v) (ev_init ri cap) <->
    exists i, i < T /\ a = {| ce_region := ri; ce_off := 0; ce_col := Adv (sc i) |} /\ v = nth i (init_vals cap) fzero.
  Proof.
    intros ri cap a v. unfold ev_init. rewrite in_flat_map. split.
    - intros (i & Hi & H). apply in_seq in Hi. cbn [In] in H. destruct H as [H|[H|[]]]; [discriminate|].
      injection H as <- <-. exists i. repeat split. lia.
    - intros (i & Hi & -> & ->). exists i. split; [apply in_seq; lia|]. right. now left.
  Qed.
  Lemma ev_init_other : forall ri cap, (forall a b, ~ In (ConstrainEqual a b) (ev_init ri cap))
    /\ (forall q o, ~ In (EnableSelector q o) (ev_init ri cap)).
  Proof.
    intros ri cap. unfold ev_init. split; intros x y; rewrite in_flat_map; intros (i & Hi & H); cbn [In] in H; intuition discriminate.
  Qed.

  (** ** permute *)
  Lemma ev_permute_sel : forall ri ws q o, In (EnableSelector q o) (ev_permute T s cfg ri ws) <-> o < R /\ q = gate_of cfg (kd s o).
  Proof. intros ri ws q o. rewrite <- in_sel_ws, (B sel_permute). apply (B p5_sel_in). Qed.
  Lemma ev_permute_copies : forall ri ws a b, length ws = T -> (In (ConstrainEqual a b) (ev_permute T s cfg ri ws) <->
    exists i, i < T /\ a = {| ce_region := ri; ce_off := 0; ce_col := Adv (sc i) |} /\ b = ac_cell (nth i ws zero_cell)).
  Proof.
    intros ri ws a b Hl. rewrite <- in_copies_ws, (B copies_permute) by assumption.
    rewrite (combine_seq (seq 0 T) ws T 0 zero_cell) by (rewrite ?seq_length; auto). rewrite map_map, in_map_iff. split.
    - intros (i & E & Hi). apply in_seq in Hi. rewrite seq_nth in E by lia. injection E as <- <-. exists i. repeat split. lia.
    - intros (i & Hi & -> & ->). exists i. rewrite seq_nth by lia. split; [reflexivity|]. apply in_seq. lia.
  Qed.
  Lemma ev_permute_const : forall ri ws a v, ~ In (ConstrainConstant a v) (ev_permute T s cfg ri ws).
  Proof. intros ri ws a v H. apply in_const_events in H. now rewrite (B const_permute) in H. Qed.

  (** ** Any satisfying assignment *)
  Section Sound.
    Variable n : nat.
    Variable L : layout F.
    Variable adv : nat -> nat -> F.
    Hypothesis Hfit : fits n L.
    Hypothesis Hgates : gates_hold n L adv (p5_gates T RATE s cfg).
    Hypothesis Hcopies : copies_hold L adv.

    Lemma cells_at : forall ri o v, ri < length (lo_starts L) ->
      map (word_at L adv) (cells ri o v) = lst T (fun i => adv (sc i) (o + nth ri (lo_starts L) 0)).
    Proof. intros ri o v _. unfold row_cells, lst. rewrite map_map. reflexivity. Qed.
    Lemma words_lst : forall ws, length ws = T -> map (word_at L adv) ws = lst T (fun i => word_at L adv (nth i ws zero_cell)).
    Proof.
      intros ws H. rewrite <- (map_seq_nth ws zero_cell) at 1. rewrite map_map, H. reflexivity.
    Qed.

    (** the rows of a [permute] region, and its inputs *)
    Lemma permute_block : forall ri ws, length ws = T -> laid L ri (ev_permute T s cfg ri ws) ->
      let st := nth ri (lo_starts L) 0 in
      block_ok T s cfg (fun c o => adv c (o + st))
      /\ lst T (fun i => adv (sc i) st) = map (word_at L adv) ws.
    Proof.
      intros ri ws Hl (H1 & _ & (rs & TR & HIn) & HC & _) st. fold st in HIn.
      assert (TA : forall i o, i < T -> o <= R -> In (Adv (sc i), o) (touched (ev_permute T s cfg ri ws))).
      { intros i o Hi Ho. apply touched_adv. exists (nth i (vs s (values ws) o) None). rewrite (B adv_permute).
        apply (B p5_adv_in); [unfold values; now rewrite map_length|]. left. exists i. auto. }
      assert (FIT : R + st < n).
      { assert (X : exists v, In (sc 0, R, v) (adv_ws (ev_permute T s cfg ri ws))) by (apply touched_adv, TA; lia).
        destruct X as [x X]. destruct Hfit as [Y _]. apply (Y (sc 0) _ x). rewrite (tr_adv _ _ TR).
        eapply abs_in; [exact HIn|]. now apply in_adv_ws. }
      assert (FX : forall c o w, In (c, o, w) (p5_fix T s cfg) -> fixed_at L c (o + st) = rd (p5_fix T s cfg) c o).
      { intros c o w H. unfold fixed_at, rd. rewrite (read_fix L rs st _ c o TR HIn); [now rewrite (B fix_permute)|].
        apply touched_fix. exists w. now rewrite (B fix_permute). }
      split.
      { intros o Ho. apply (B row_on Inv1 Inv2 n (fixed_at L) (selector_at L)); [lia| | | |].
        - apply selector_at_on. apply (read_sel L rs _ _ TR). exists st, (ev_permute T s cfg ri ws), o.
          split; [assumption|]. split; [|reflexivity]. now apply ev_permute_sel.
        - intros i Hi. rewrite (FX _ _ (rcf s (first_round (kd s o)) i)).
          + now apply (B p5_fix_a).
          + apply (B p5_fix_in). split; [assumption|]. exists i. auto.
        - intros q i K Hi. rewrite (FX _ _ (rcf s (q + 1) i)).
          + now apply (B p5_fix_b).
          + apply (B p5_fix_in). split; [assumption|]. exists i. split; [assumption|]. right. eauto.
        - intros g Hg. apply Hgates; [|lia]. unfold p5_gates. rewrite !in_app_iff. destruct (kd s o); cbn [gates_kind] in Hg; auto. }
      rewrite words_lst by assumption. apply (proj1 (lst_ext T HT _ _)). intros i Hi.
      assert (X : In (ConstrainEqual {| ce_region := ri; ce_off := 0; ce_col := Adv (sc i) |} (ac_cell (nth i ws zero_cell)))
                     (ev_permute T s cfg ri ws)) by (apply ev_permute_copies; eauto).
      apply HC, Hcopies in X. unfold abs_cell in X at 1. cbn [ce_col ce_off ce_region cell_at] in X. exact X.
    Qed.
    Lemma permute_sound : forall ri ws v, length ws = T -> laid L ri (ev_permute T s cfg ri ws) ->
      map (word_at L adv) (cells ri R v) = textbook s (map (word_at L adv) ws).
    Proof.
      intros ri ws v Hl La. destruct (permute_block ri ws Hl La) as [OK IN]. rewrite cells_at by apply La.
      apply (B block_sound) in OK. rewrite OK. now f_equal.
    Qed.

    Definition pw_at (w : padded_word F) : F := match w with Message a => word_at L adv a | Padding v => v end.

    Lemma add_rows : forall ri ws pw, length ws = T -> laid L ri (ev_add ri ws pw) ->
      let st := nth ri (lo_starts L) 0 in
      (forall i, i < T -> adv (sc i) st = word_at L adv (nth i ws zero_cell))
      /\ (forall i, i < RATE -> adv (sc i) (S st) = pw_at (pw i))
      /\ pad_ok RATE (srow cfg adv st) (srow cfg adv (S st)) (srow cfg adv (S (S st))).
    Proof.
      intros ri ws pw Hl (H1 & _ & (rs & TR & HIn) & HC & _) st. fold st in HIn.
      assert (FIT : 2 + st < n).
      { destruct Hfit as [Y _]. eapply (Y (sc 0) _ _). rewrite (tr_adv _ _ TR).
        eapply abs_in; [exact HIn|]. apply in_adv_ws, ev_add_adv. right. right. exists 0. repeat split. lia. }
      assert (G : pad_ok RATE (srow cfg adv (S st - 1)) (srow cfg adv (S st)) (srow cfg adv (S (S st)))).
      { apply (pad_on T RATE HT HR cfg n (fixed_at L) (selector_at L)); [lia|lia|lia| |].
        - apply selector_at_on. apply (read_sel L rs _ _ TR). exists st, (ev_add ri ws pw), 1.
          split; [assumption|]. split; [|reflexivity]. now apply ev_add_sel.
        - intros g Hg. apply Hgates; [|lia]. unfold p5_gates. rewrite !in_app_iff. auto. }
      replace (S st - 1) with st in G by lia.
      split; [|split; [|exact G]].
      { intros i Hi.
        assert (X : In (ConstrainEqual {| ce_region := ri; ce_off := 0; ce_col := Adv (sc i) |} (ac_cell (nth i ws zero_cell)))
                       (ev_add ri ws pw)) by (apply ev_add_copies; left; eauto).
        apply HC, Hcopies in X. unfold abs_cell in X at 1. cbn [ce_col ce_off ce_region cell_at] in X. exact X. }
      { intros i Hi.
        assert (X : In (ConstrainEqual {| ce_region := ri; ce_off := 1; ce_col := Adv (sc i) |}
            match pw i with Message w => ac_cell w | Padding _ => {| ce_region := ri; ce_off := 1; ce_col := Fix (bc i) |} end)
                       (ev_add ri ws pw)) by (apply ev_add_copies; right; eauto).
        apply HC, Hcopies in X. unfold abs_cell in X at 1. cbn [ce_col ce_off ce_region cell_at] in X. cbn [Nat.add] in X.
        fold st in X. rewrite X. destruct (pw i) as [w|x] eqn:E; [reflexivity|].
        unfold abs_cell. cbn [ce_col ce_off ce_region cell_at pw_at]. fold st. unfold fixed_at.
        rewrite (read_fix L rs st (ev_add ri ws pw) (bc i) 1 TR HIn), (add_fix ri ws pw i x); auto.
        apply touched_fix. exists x. apply ev_add_fix. eauto. }
    Qed.
    Lemma add_sound : forall ri ws pw v, length ws = T -> laid L ri (ev_add ri ws pw) ->
      map (word_at L adv) (cells ri 2 v)
      = lst T (fun i => if i <? RATE then fadd (word_at L adv (nth i ws zero_cell)) (pw_at (pw i))
                        else word_at L adv (nth i ws zero_cell)).
    Proof.
      intros ri ws pw v Hl La. destruct (add_rows ri ws pw Hl La) as (C0 & C1 & G1 & G2). rewrite cells_at by apply La.
      unfold srow in G1, G2. set (st := nth ri (lo_starts L) 0) in *.
      apply (proj1 (lst_ext T HT _ _)). intros i Hi. cbn [Nat.add].
      destruct (Nat.ltb_spec i RATE) as [Q|Q].
      - rewrite G1 by assumption. now rewrite C0, C1.
      - replace i with RATE by lia. rewrite G2. apply C0. lia.
    Qed.

    Lemma init_sound : forall ri cap v, laid L ri (ev_init ri cap) -> map (word_at L adv) (cells ri 0 v) = init_vals cap.
    Proof.
      intros ri cap v (H1 & _ & (rs & TR & HIn) & _ & HK). rewrite cells_at by assumption.
      rewrite <- (lst_of T (init_vals cap)) by apply init_vals_length.
      apply (proj1 (lst_ext T HT _ _)). intros i Hi.
      assert (X : In (ConstrainConstant {| ce_region := ri; ce_off := 0; ce_col := Adv (sc i) |} (nth i (init_vals cap) fzero)) (ev_init ri cap))
        by (apply ev_init_const; eauto).
      destruct (HK _ _ X) as (k & row & Y & Z). apply Hcopies in Y. cbn [cell_at abs_cell ce_col ce_off ce_region] in Y.
      unfold fixed_at in Y. rewrite Z in Y. symmetry. exact Y.
    Qed.
  End Sound.
End Use.
