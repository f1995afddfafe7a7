(** What the loop over the rows of a hash table lays down. *)
From Coq Require Import ZArith List Arith Lia Bool.
From Verif Require Import Field Rust ListAux Primitives Specs BaseHash Halo2 PermuteChip Layout_proof SpongeTable.
Import ListNotations.
Local Open Scope nat_scope.

Lemma rlift_ok : forall {F A B} (m : result A) (x : A) (k : A -> Region F B) ri, m = Ok x ->
  rbind (rlift m) k ri = k x ri.
Proof.
  intros F A B m x k ri ->. unfold rbind, rlift. cbn [bind]. destruct (k x ri) as [[e y]|]; reflexivity.
Qed.
Lemma rlift_panic : forall {F A B} (m : result A) (k : A -> Region F B) ri, m = Panic ->
  rbind (rlift m) k ri = Panic.
Proof. intros F A B m k ri ->. reflexivity. Qed.

Section Rows.
  Context {F : Type} {FO : FieldOps F}.
  Variable legacy : bool.
  Variable P : permute_chip F.
  Variable STEP : nat.
  Variable s : spec F.
  Variable cfg : sponge_config P.
  Local Open Scope F_scope.
  Notation row := (@raw_row F).
  Notation loop := (@loop F).
  Notation writes := (list (nat * nat * option F)).

  (** a row with the defaults filled in *)
  Definition r_in (r : row) : F * F := unwrap_or (fst (fst r)) (0, 0).
  Definition r_ctl (r : row) : N := unwrap_or (snd (fst r)) 0%N.
  Definition r_dom (r : row) : F := unwrap_or (fst (snd r)) 0.
  Definition r_chk (r : row) : option F := snd (snd r).
  Definition r_flag (r : row) : F := flag_of legacy (r_ctl r).
  (** the message ends in this row *)
  Definition r_fin (r : row) : bool := (r_ctl r <=? N.of_nat STEP)%N.

  Definition r_before (lp : loop) (r : row) : list F :=
    [if lp_new lp then r_flag r + r_dom r else nth 0 (lp_state lp) 0;
     if lp_new lp then fst (r_in r) else nth 1 (lp_state lp) 0 + fst (r_in r);
     if lp_new lp then snd (r_in r) else nth 2 (lp_state lp) 0 + snd (r_in r)].
  Definition r_after (lp : loop) (r : row) : list F := hash_permute 3 s (r_before lp r).
  Definition r_start (o : nat) (lp : loop) : nat := if lp_new lp then o else lp_start lp.
  Definition r_next (o : nat) (lp : loop) (r : row) : loop :=
    {| lp_new := r_fin r; lp_start := r_start o lp; lp_state := r_after lp r |}.
  Definition r_good (lp : loop) (r : row) : bool :=
    match r_chk r with Some ck => feqb ck (nth 0 (r_after lp r) 0) | None => true end.

  Definition main_cells (lp : loop) (r : row) : list (nat * F) :=
    [(col (sc_aux cfg) 0, nth 0 (r_before lp r) 0); (col (sc_aux cfg) 1, nth 1 (r_before lp r) 0);
     (col (sc_aux cfg) 2, nth 2 (r_before lp r) 0);
     (col (sc_aux cfg) 5, nth 0 (r_after lp r) 0); (col (sc_aux cfg) 3, nth 1 (r_after lp r) 0);
     (col (sc_aux cfg) 4, nth 2 (r_after lp r) 0);
     (col (sc_table cfg) 1, fst (r_in r)); (col (sc_table cfg) 2, snd (r_in r));
     (col (sc_table cfg) 3, r_flag r); (col (sc_table cfg) 4, r_dom r);
     (col (sc_table cfg) 5, flag_bool (lp_new lp));
     (sc_control_aux cfg, invert_or_zero (r_flag r)); (sc_continue cfg, flag_bool (negb (lp_new lp)))].
  Definition digest_writes (o : nat) (lp : loop) (r : row) : writes :=
    if r_fin r then
      map (fun ith => (col (sc_table cfg) 0, ith, Some (nth 0 (r_after lp r) 0)))
          (seq (r_start o lp) (S o - r_start o lp))
    else [].
  Definition row_writes (o : nat) (lp : loop) (r : row) : writes :=
    map (fun '(c, v) => (c, o, Some v)) (main_cells lp r) ++ digest_writes o lp r.
  Definition row_evs (o : nat) (lp : loop) (r : row) : list (event F) :=
    AssignFixed (sc_enable cfg) o 1 :: map (fun '(c, i, v) => AssignAdvice c i v) (row_writes o lp r).

  Definition acell_at (ri o c : nat) (v : F) : acell F :=
    {| ac_cell := {| ce_region := ri; ce_off := o; ce_col := Adv c |}; ac_val := Some v |}.
  Definition row_start_cells (ri o : nat) (lp : loop) (r : row) : list (acell F) :=
    map (fun i => acell_at ri o (col (sc_aux cfg) i) (nth i (r_before lp r) 0)) [0; 1; 2]%nat.
  Definition row_end_cells (ri o : nat) (lp : loop) (r : row) : list (acell F) :=
    map (fun '(i, j) => acell_at ri o (col (sc_aux cfg) j) (nth i (r_after lp r) 0)) [(0, 5); (1, 3); (2, 4)]%nat.

  Lemma fill_row_eq : forall o lp r ri,
    fill_row legacy P STEP s cfg o lp r ri
    = if r_good lp r then
        Ok (row_evs o lp r, (r_next o lp r, (row_start_cells ri o lp r, row_end_cells ri o lp r)))
      else Panic.
  Proof.
    intros o lp [[inp ctl] [dom chk]] ri. unfold fill_row.
    destruct (unwrap_or inp (0, 0)) as [a b] eqn:Ein.
    assert (Ea : a = fst (r_in (inp, ctl, (dom, chk)))) by (unfold r_in; cbn [fst snd]; now rewrite Ein).
    assert (Eb : b = snd (r_in (inp, ctl, (dom, chk)))) by (unfold r_in; cbn [fst snd]; now rewrite Ein).
    rewrite Ea, Eb. clear Ea Eb Ein a b.
    set (r := (inp, ctl, (dom, chk))).
    change (unwrap_or ctl 0%N) with (r_ctl r). change (unwrap_or dom 0) with (r_dom r).
    change (flag_of legacy (r_ctl r)) with (r_flag r). fold (r_before lp r). fold (r_after lp r).
    fold (r_start o lp). fold (r_fin r). change chk with (r_chk r).
    unfold r_good.
    assert (OK : (rdo _ <- assign_fixed (sc_enable cfg) o fone;
                  rdo c_start <- rmap (fun i => assign_advice (col (sc_aux cfg) i) o (Some (nth i (r_before lp r) fzero))) [0; 1; 2]%nat;
                  rdo c_end <- rmap (fun '(i, j) => assign_advice (col (sc_aux cfg) j) o (Some (nth i (r_after lp r) fzero))) [(0, 5); (1, 3); (2, 4)]%nat;
                  rdo _ <- rmap (fun '(c, v) => assign_advice c o (Some v))
                    [(col (sc_table cfg) 1, fst (r_in r)); (col (sc_table cfg) 2, snd (r_in r)); (col (sc_table cfg) 3, r_flag r);
                     (col (sc_table cfg) 4, r_dom r); (col (sc_table cfg) 5, flag_bool (lp_new lp));
                     (sc_control_aux cfg, invert_or_zero (r_flag r)); (sc_continue cfg, flag_bool (negb (lp_new lp)))];
                  rdo _ <- (if r_fin r then
                      rdo _ <- rmap (fun ith => assign_advice (col (sc_table cfg) 0) ith (Some (nth 0 (r_after lp r) fzero)))
                              (seq (r_start o lp) (S o - r_start o lp));
                      rret tt
                    else rret tt);
                  rret (r_next o lp r, (c_start, c_end))) ri
             = Ok (row_evs o lp r, (r_next o lp r, (row_start_cells ri o lp r, row_end_cells ri o lp r)))).
    { unfold row_evs, row_writes, main_cells. cbn [map app].
      eapply rbind_ok1; [reflexivity|].
      match goal with |- rbind ?p ?k _ = Ok (?x1 :: ?x2 :: ?x3 :: ?l, _) => change (x1 :: x2 :: x3 :: l) with ([x1; x2; x3] ++ l) end.
      eapply rbind_ok; [reflexivity|].
      match goal with |- rbind ?p ?k _ = Ok (?x1 :: ?x2 :: ?x3 :: ?l, _) => change (x1 :: x2 :: x3 :: l) with ([x1; x2; x3] ++ l) end.
      eapply rbind_ok; [reflexivity|].
      match goal with |- rbind ?p ?k _ = Ok (?x1 :: ?x2 :: ?x3 :: ?x4 :: ?x5 :: ?x6 :: ?x7 :: ?l, _) =>
        change (x1 :: x2 :: x3 :: x4 :: x5 :: x6 :: x7 :: l) with ([x1; x2; x3; x4; x5; x6; x7] ++ l) end.
      eapply rbind_ok; [reflexivity|].
      unfold digest_writes. destruct (r_fin r).
      - match goal with |- _ = Ok (?l, _) => rewrite <- (app_nil_r l) end. eapply rbind_ok; [|reflexivity].
        match goal with |- _ = Ok (?l, _) => rewrite <- (app_nil_r l) end. eapply rbind_ok; [|reflexivity].
        rewrite (rmap_ok _ (fun ith => acell_at ri ith (col (sc_table cfg) 0) (nth 0 (r_after lp r) 0))
                   (fun ith => [AssignAdvice (col (sc_table cfg) 0) ith (Some (nth 0 (r_after lp r) 0))])) by reflexivity.
        f_equal. f_equal. rewrite map_map, flat_map_concat_map.
        induction (seq _ _) as [|i l IH]; cbn; [reflexivity|]. now rewrite IH.
      - reflexivity. }
    destruct (r_chk r) as [ck|].
    - unfold rassert. destruct (feqb ck (nth 0 (r_after lp r) 0)).
      + rewrite (rlift_ok _ tt) by reflexivity. exact OK.
      + apply rlift_panic. reflexivity.
    - rewrite (rlift_ok _ tt) by reflexivity. exact OK.
  Qed.

  (** the loop *)
  Fixpoint rows_good (o : nat) (lp : loop) (rows : list row) : bool :=
    match rows with [] => true | r :: rs => r_good lp r && rows_good (S o) (r_next o lp r) rs end.
  Fixpoint rows_evs (o : nat) (lp : loop) (rows : list row) : list (event F) :=
    match rows with [] => [] | r :: rs => row_evs o lp r ++ rows_evs (S o) (r_next o lp r) rs end.
  Fixpoint rows_writes (o : nat) (lp : loop) (rows : list row) : writes :=
    match rows with [] => [] | r :: rs => row_writes o lp r ++ rows_writes (S o) (r_next o lp r) rs end.
  Fixpoint rows_in (ri o : nat) (lp : loop) (rows : list row) : list (list (acell F)) :=
    match rows with [] => [] | r :: rs => row_start_cells ri o lp r :: rows_in ri (S o) (r_next o lp r) rs end.
  Fixpoint rows_out (ri o : nat) (lp : loop) (rows : list row) : list (list (acell F)) :=
    match rows with [] => [] | r :: rs => row_end_cells ri o lp r :: rows_out ri (S o) (r_next o lp r) rs end.
  Fixpoint loop_after (o : nat) (lp : loop) (rows : list row) : loop :=
    match rows with [] => lp | r :: rs => loop_after (S o) (r_next o lp r) rs end.
  Definition enable_writes (o k : nat) : list (nat * nat * F) := map (fun i => (sc_enable cfg, i, 1)) (seq o k).

  Lemma fill_rows_eq : forall rows o lp ri,
    fill_rows legacy P STEP s cfg o lp rows ri
    = if rows_good o lp rows then Ok (rows_evs o lp rows, (rows_in ri o lp rows, rows_out ri o lp rows)) else Panic.
  Proof.
    induction rows as [|r rows IH]; intros o lp ri; [reflexivity|].
    cbn [fill_rows rows_good rows_evs rows_in rows_out]. unfold rbind at 1. rewrite fill_row_eq.
    destruct (r_good lp r); [|reflexivity]. cbn [bind andb].
    unfold rbind. rewrite IH. destruct (rows_good (S o) (r_next o lp r) rows); [|reflexivity].
    cbn [bind rret]. now rewrite app_nil_r.
  Qed.

  Lemma adv_ws_map : forall l : writes, adv_ws (map (fun '(c, i, v) => AssignAdvice c i v) l) = l.
  Proof. induction l as [|[[c i] v] l IH]; cbn; [reflexivity|]. unfold adv_ws in IH. now rewrite IH. Qed.
  Lemma fix_ws_map : forall l : writes, fix_ws (F := F) (map (fun '(c, i, v) => AssignAdvice c i v) l) = [].
  Proof. induction l as [|[[c i] v] l IH]; cbn; [reflexivity|]. exact IH. Qed.
  Lemma sel_ws_map : forall l : writes, sel_ws (F := F) (map (fun '(c, i, v) => AssignAdvice c i v) l) = [].
  Proof. induction l as [|[[c i] v] l IH]; cbn; [reflexivity|]. exact IH. Qed.
  Lemma copies_ws_map : forall l : writes, copies_ws (F := F) (map (fun '(c, i, v) => AssignAdvice c i v) l) = [].
  Proof. induction l as [|[[c i] v] l IH]; cbn; [reflexivity|]. exact IH. Qed.
  Lemma const_map : forall l : writes, const_events (F := F) (map (fun '(c, i, v) => AssignAdvice c i v) l) = [].
  Proof. induction l as [|[[c i] v] l IH]; cbn; [reflexivity|]. exact IH. Qed.

  Lemma rows_evs_adv : forall rows o lp, adv_ws (rows_evs o lp rows) = rows_writes o lp rows.
  Proof.
    induction rows as [|r rows IH]; intros o lp; [reflexivity|]. cbn [rows_evs rows_writes].
    rewrite adv_ws_app, IH. f_equal. unfold row_evs. cbn [adv_ws flat_map app]. apply adv_ws_map.
  Qed.
  Lemma rows_evs_fix : forall rows o lp, fix_ws (rows_evs o lp rows) = enable_writes o (length rows).
  Proof.
    induction rows as [|r rows IH]; intros o lp; [reflexivity|]. cbn [rows_evs length].
    rewrite fix_ws_app, IH. unfold row_evs, enable_writes. cbn [fix_ws flat_map app seq map]. f_equal.
    change (fix_ws (F := F) (map (fun '(c, i, v) => AssignAdvice c i v) (row_writes o lp r)) ++ map (fun i => (sc_enable cfg, i, 1)) (seq (S o) (length rows))
            = map (fun i => (sc_enable cfg, i, 1)) (seq (S o) (length rows))). now rewrite fix_ws_map.
  Qed.
  Lemma rows_evs_sel : forall rows o lp, sel_ws (rows_evs o lp rows) = [].
  Proof.
    induction rows as [|r rows IH]; intros o lp; [reflexivity|]. cbn [rows_evs].
    rewrite sel_ws_app, IH, app_nil_r. unfold row_evs. cbn [sel_ws flat_map app]. apply sel_ws_map.
  Qed.
  Lemma rows_evs_copies : forall rows o lp, copies_ws (rows_evs o lp rows) = [].
  Proof.
    induction rows as [|r rows IH]; intros o lp; [reflexivity|]. cbn [rows_evs].
    rewrite copies_ws_app, IH, app_nil_r. unfold row_evs. cbn [copies_ws flat_map app]. apply copies_ws_map.
  Qed.
  Lemma rows_evs_const : forall rows o lp, const_events (rows_evs o lp rows) = [].
  Proof.
    induction rows as [|r rows IH]; intros o lp; [reflexivity|]. cbn [rows_evs].
    rewrite const_events_app, IH, app_nil_r. unfold row_evs. cbn [const_events flat_map app]. apply const_map.
  Qed.

  (** ** The loop over several lists of rows *)

  Lemma rows_good_app : forall x y o lp,
    rows_good o lp (x ++ y) = rows_good o lp x && rows_good (length x + o) (loop_after o lp x) y.
  Proof.
    induction x as [|r x IH]; intros y o lp; [reflexivity|]. cbn [app rows_good loop_after length].
    rewrite IH, andb_assoc. do 2 f_equal. lia.
  Qed.
  Lemma rows_writes_app : forall x y o lp,
    rows_writes o lp (x ++ y) = rows_writes o lp x ++ rows_writes (length x + o) (loop_after o lp x) y.
  Proof.
    induction x as [|r x IH]; intros y o lp; [reflexivity|]. cbn [app rows_writes loop_after length].
    rewrite IH, app_assoc. do 2 f_equal. lia.
  Qed.
  Lemma rows_in_app : forall x y ri o lp,
    rows_in ri o lp (x ++ y) = rows_in ri o lp x ++ rows_in ri (length x + o) (loop_after o lp x) y.
  Proof.
    induction x as [|r x IH]; intros y ri o lp; [reflexivity|]. cbn [app rows_in loop_after length].
    rewrite IH. do 3 f_equal. lia.
  Qed.
  Lemma rows_out_app : forall x y ri o lp,
    rows_out ri o lp (x ++ y) = rows_out ri o lp x ++ rows_out ri (length x + o) (loop_after o lp x) y.
  Proof.
    induction x as [|r x IH]; intros y ri o lp; [reflexivity|]. cbn [app rows_out loop_after length].
    rewrite IH. do 3 f_equal. lia.
  Qed.
  Lemma loop_after_app : forall x y o lp,
    loop_after o lp (x ++ y) = loop_after (length x + o) (loop_after o lp x) y.
  Proof.
    induction x as [|r x IH]; intros y o lp; [reflexivity|]. cbn [app loop_after length].
    rewrite IH. f_equal. lia.
  Qed.

  (** where two loops agree: same flag, and unless a message starts also same state and start *)
  Definition same_loop (k : nat) (lp lp' : loop) : Prop :=
    lp_new lp = lp_new lp'
    /\ (lp_new lp = false -> lp_start lp' = lp_start lp + k /\ lp_state lp = lp_state lp')%nat.

  Lemma r_before_same : forall k lp lp' r, same_loop k lp lp' -> r_before lp r = r_before lp' r.
  Proof.
    intros k lp lp' r [H1 H2]. unfold r_before. rewrite <- H1. destruct (lp_new lp); [reflexivity|].
    destruct (H2 eq_refl) as [_ ->]. reflexivity.
  Qed.
  Lemma r_start_same : forall k lp lp' o, same_loop k lp lp' -> r_start (o + k) lp' = (r_start o lp + k)%nat.
  Proof.
    intros k lp lp' o [H1 H2]. unfold r_start. rewrite <- H1. destruct (lp_new lp); [reflexivity|].
    now destruct (H2 eq_refl).
  Qed.
  Lemma r_next_same : forall k lp lp' o r, same_loop k lp lp' ->
    same_loop k (r_next o lp r) (r_next (o + k) lp' r).
  Proof.
    intros k lp lp' o r H. split; [reflexivity|]. intros _. unfold r_next. cbn [lp_start lp_state].
    split; [now apply r_start_same|]. unfold r_after. now rewrite (r_before_same k lp lp').
  Qed.
  Lemma row_writes_same : forall k lp lp' o r, same_loop k lp lp' ->
    row_writes (o + k) lp' r = map (moved 0 k) (row_writes o lp r).
  Proof.
    intros k lp lp' o r H. unfold row_writes. rewrite map_app. f_equal.
    - unfold main_cells, r_after. rewrite <- (r_before_same k lp lp' r H), <- (proj1 H).
      rewrite map_map. apply map_ext. intros [c v]. cbn. now rewrite Nat.add_0_r.
    - unfold digest_writes. destruct (r_fin r); [|reflexivity].
      rewrite (r_start_same k lp lp' o H). unfold r_after. rewrite <- (r_before_same k lp lp' r H).
      replace (S (o + k) - (r_start o lp + k))%nat with (S o - r_start o lp)%nat by lia.
      rewrite map_map. generalize (S o - r_start o lp)%nat. intros n. generalize (r_start o lp). clear.
      induction n as [|n IH]; intros a; cbn [seq map]; [reflexivity|].
      specialize (IH (S a)). cbn [Nat.add] in IH. rewrite IH. cbn [moved]. now rewrite Nat.add_0_r.
  Qed.
  Lemma rows_same : forall rows k lp lp' o, same_loop k lp lp' ->
    rows_writes (o + k) lp' rows = map (moved 0 k) (rows_writes o lp rows)
    /\ rows_good (o + k) lp' rows = rows_good o lp rows
    /\ (forall ri ri' st st', (nth ri' st' 0 = nth ri st 0 + k)%nat ->
          let at_ st := map (map (fun w => (abs_cell st (ac_cell w), ac_val w))) in
          at_ st (rows_in ri (o + k) lp' rows) = at_ st' (rows_in ri' o lp rows)
          /\ at_ st (rows_out ri (o + k) lp' rows) = at_ st' (rows_out ri' o lp rows)).
  Proof.
    induction rows as [|r rows IH]; intros k lp lp' o H.
    - split; [reflexivity|]. split; [reflexivity|]. intros. split; reflexivity.
    - cbn [rows_writes rows_good rows_in rows_out].
      destruct (IH k (r_next o lp r) (r_next (o + k) lp' r) (S o) (r_next_same _ _ _ _ _ H)) as (I1 & I2 & I3).
      split; [|split].
      + rewrite map_app, (row_writes_same k lp lp') by assumption. f_equal. exact I1.
      + f_equal; [|exact I2]. unfold r_good, r_after. now rewrite (r_before_same k lp lp').
      + intros ri ri' st st' Hs. destruct (I3 ri ri' st st' Hs) as [J1 J2]. cbn zeta in J1, J2 |- *. cbn [map]. split.
        * f_equal; [|exact J1]. unfold row_start_cells. rewrite (r_before_same k lp lp' r H). cbn [map].
          unfold abs_cell, acell_at. cbn [ac_cell ac_val ce_col ce_off ce_region]. rewrite Hs, (Nat.add_comm (nth ri st 0%nat)), Nat.add_assoc.
          reflexivity.
        * f_equal; [|exact J2]. unfold row_end_cells, r_after. rewrite (r_before_same k lp lp' r H). cbn [map].
          unfold abs_cell, acell_at. cbn [ac_cell ac_val ce_col ce_off ce_region]. rewrite Hs, (Nat.add_comm (nth ri st 0%nat)), Nat.add_assoc.
          reflexivity.
  Qed.

  (** a message starts: the loop may as well start afresh *)
  Lemma same_fresh : forall k lp, lp_new lp = true -> same_loop k (@loop_start F FO) lp.
  Proof. intros k lp H. split; [now rewrite H|]. cbn. discriminate. Qed.
End Rows.
