(** The sponge state machine of the model computes the textbook sponge. *)
From Coq Require Import ZArith List Arith Lia.
From Verif Require Import Field Rust ListAux Primitives SpecHash Specs Perm_proof.
Import ListNotations.
Local Open Scope F_scope.

Section Blocks.
  Context {F : Type} {FO : FieldOps F}.

  Lemma blocks_aux_concat : forall n bs fuel, (0 < n)%nat -> Forall (fun b : list F => length b = n) bs ->
    (length (concat bs) <= fuel)%nat -> blocks_aux fuel n (concat bs) = bs.
  Proof.
    intros n bs. induction bs as [|b bs IH]; intros fuel Hn Hb Hf; cbn [concat] in *.
    - destruct fuel; reflexivity.
    - inversion Hb as [|? ? Hb1 Hb2]; subst.
      destruct b as [|x b]; [cbn in Hn; lia|].
      rewrite app_length in Hf. destruct fuel as [|fuel]; [cbn in Hf; lia|].
      set (n := length (x :: b)) in *. cbn [blocks_aux app].
      change (x :: b ++ concat bs) with ((x :: b) ++ concat bs).
      rewrite firstn_app, skipn_app. fold n. rewrite Nat.sub_diag. cbn [firstn skipn].
      rewrite app_nil_r. unfold n. rewrite firstn_all, skipn_all. fold n. cbn [app].
      f_equal. apply IH; [assumption|assumption|]. cbn in Hf. lia.
  Qed.

  Lemma blocks_concat : forall n bs, (0 < n)%nat -> Forall (fun b : list F => length b = n) bs ->
    blocks n (concat bs) = bs.
  Proof. intros. apply blocks_aux_concat; auto. Qed.

  Lemma concat_length_const : forall n (bs : list (list F)), Forall (fun b => length b = n) bs ->
    length (concat bs) = (length bs * n)%nat.
  Proof.
    intros n bs H. induction H as [|b bs Hb H IH]; cbn; [reflexivity|].
    rewrite app_length, IH, Hb. lia.
  Qed.
End Blocks.

Section Proofs.
  Context {F : Type} {FO : FieldOps F} {PF : PrimeField F}.
  Add Field Ffield : f_field.

  Lemma add_block_length : forall off st b, length (add_block (F := F) off st b) = length st.
  Proof. intros. unfold add_block. now rewrite map_length, seq_length. Qed.

  Lemma nth_zip_mut_add : forall (st b : list F) i, (i < length st)%nat ->
    nth i (zip_mut fadd st b) 0 = nth i st 0 + nth i b 0.
  Proof.
    induction st as [|x st IH]; intros b i Hi; cbn in Hi; [lia|].
    destruct b as [|y b]; destruct i as [|i]; cbn; try ring.
    apply IH. lia.
  Qed.

  Lemma add_block_zip : forall off (st b : list F), (off <= length st)%nat ->
    firstn off st ++ zip_mut fadd (skipn off st) b = add_block off st b.
  Proof.
    intros off st b Ho. apply nth_ext_len with (d := 0).
    - rewrite app_length, zip_mut_length, firstn_length, skipn_length, add_block_length. lia.
    - intros i Hi. rewrite app_length, zip_mut_length, firstn_length, skipn_length in Hi.
      unfold add_block. rewrite nth_map_seq by lia.
      destruct (off <=? i)%nat eqn:E.
      + apply Nat.leb_le in E. rewrite app_nth2 by (rewrite firstn_length; lia).
        rewrite firstn_length, Nat.min_l by lia.
        rewrite nth_zip_mut_add by (rewrite skipn_length; lia).
        f_equal. rewrite <- (firstn_skipn off st) at 2.
        rewrite app_nth2 by (rewrite firstn_length; lia).
        now rewrite firstn_length, Nat.min_l by lia.
      + apply Nat.leb_gt in E. rewrite app_nth1 by (rewrite firstn_length; lia).
        rewrite <- (firstn_skipn off st) at 2.
        rewrite app_nth1 by (rewrite firstn_length; lia). ring.
  Qed.

  Lemma zip_mut_r_some : forall (st b : list F),
    zip_mut_r (fun w v => do x <- unwrap v; Ok (w + x)) st (map Some b) = Ok (zip_mut fadd st b).
  Proof.
    induction st as [|x st IH]; intros [|y b]; cbn; auto. now rewrite IH.
  Qed.

  Lemma zip_mut_r_none : forall (st b : list F) tl, (length b < length st)%nat ->
    zip_mut_r (fun w v => do x <- unwrap v; Ok (w + x)) st (map Some b ++ None :: tl) = Panic.
  Proof.
    induction st as [|x st IH]; intros [|y b] tl H; cbn in *; try lia; auto.
    rewrite IH by lia. reflexivity.
  Qed.

  Section Sponge.
    Variables (T RATE off : nat) (s : spec F).
    Hypothesis HR : (0 < RATE)%nat.
    Hypothesis Hoff : (off + RATE <= T)%nat.

    Let perm := hash_permute T s.

    Lemma perm_length : forall st, length st = T -> length (perm st) = T.
    Proof. intros. now apply permute_length. Qed.

    Lemma out_mode : forall st2 : list F, length st2 = T ->
      zip_mut (fun _ v => Some v) (repeat None RATE) st2 = map Some (firstn RATE st2).
    Proof.
      intros st2 H2. assert (H : (RATE <= length st2)%nat) by lia. clear H2 HR Hoff.
      revert st2 H. induction RATE as [|r IH]; intros st2 H; cbn; [reflexivity|].
      destruct st2 as [|x st2]; cbn in *; [lia|]. rewrite IH by lia. reflexivity.
    Qed.

    Lemma sponge_flush : forall st b, length st = T -> length b = RATE ->
      poseidon_sponge T RATE s st (Some (map Some b, off))
        = Ok (perm (add_block off st b), map Some (firstn RATE (perm (add_block off st b)))).
    Proof.
      intros st b Hst Hb. unfold poseidon_sponge.
      replace (off <=? T - RATE) with true by (symmetry; apply Nat.leb_le; lia).
      cbn [rassert bind]. rewrite zip_mut_r_some. cbn [bind].
      rewrite add_block_zip by lia. fold (hash_permute T s (add_block off st b)). fold perm.
      rewrite out_mode; [reflexivity|]. apply perm_length. now rewrite add_block_length.
    Qed.

    Lemma sponge_squeeze : forall st, length st = T ->
      poseidon_sponge T RATE s st None = Ok (perm st, map Some (firstn RATE (perm st))).
    Proof.
      intros st Hst. unfold poseidon_sponge. cbn [bind].
      fold (hash_permute T s st). fold perm.
      rewrite out_mode; [reflexivity|]. now apply perm_length.
    Qed.

    Lemma sponge_short : forall st b, length st = T -> (length b < RATE)%nat ->
      poseidon_sponge T RATE s st (Some (map Some b ++ repeat None (RATE - length b), off)) = Panic.
    Proof.
      intros st b Hst Hb. unfold poseidon_sponge.
      replace (off <=? T - RATE) with true by (symmetry; apply Nat.leb_le; lia).
      cbn [rassert bind].
      destruct (RATE - length b)%nat as [|k] eqn:E; [lia|]. cbn [repeat].
      rewrite zip_mut_r_none; [reflexivity|]. rewrite skipn_length. lia.
    Qed.

    (** a sponge that absorbed the words [w] after being in state [st0] with an empty buffer *)
    Definition absorbed (st0 : list F) (w : list F) (sp : sponge F) : Prop :=
      exists bs buf, w = concat bs ++ buf /\ Forall (fun b => length b = RATE) bs
        /\ (length buf <= RATE)%nat /\ (bs = [] \/ buf <> [])
        /\ sp_mode sp = map Some buf ++ repeat None (RATE - length buf)
        /\ sp_state sp = absorb_blocks perm off bs st0
        /\ sp_layout sp = off.

    Lemma absorb_blocks_length : forall bs st, length st = T -> length (absorb_blocks perm off bs st) = T.
    Proof.
      unfold absorb_blocks.
      induction bs as [|b bs IH]; intros st H; cbn; [assumption|]. apply IH.
      apply perm_length. now rewrite add_block_length.
    Qed.

    Lemma absorb_blocks_snoc : forall bs b st,
      absorb_blocks perm off (bs ++ [b]) st = perm (add_block off (absorb_blocks perm off bs st) b).
    Proof. intros. unfold absorb_blocks. now rewrite fold_left_app. Qed.

    Lemma fill_first_some : forall (v : F) buf n,
      fill_first v (map Some buf ++ repeat None n)
        = match n with O => None | S n' => Some (map Some (buf ++ [v]) ++ repeat None n') end.
    Proof.
      induction buf as [|x buf IH]; intros n; cbn.
      - destruct n; reflexivity.
      - rewrite IH. destruct n; reflexivity.
    Qed.

    Lemma absorb_step : forall st0 w sp v, length st0 = T -> absorbed st0 w sp ->
      exists sp', absorb T RATE s sp v = Ok sp' /\ absorbed st0 (w ++ [v]) sp'.
    Proof.
      intros st0 w sp v Hst0 (bs & buf & Hw & Hbs & Hbuf & Hne & Hm & Hs & Hl).
      unfold absorb. rewrite Hm, fill_first_some.
      destruct (RATE - length buf)%nat as [|n] eqn:E.
      - assert (Hfull : length buf = RATE) by lia.
        cbn [repeat]. rewrite app_nil_r. rewrite Hl.
        rewrite sponge_flush; [|rewrite Hs; now apply absorb_blocks_length|assumption].
        cbn [bind]. unfold init_with. cbn [length]. rewrite repeat_length.
        replace (S (RATE - 1) =? RATE)%nat with true by (symmetry; apply Nat.eqb_eq; lia).
        cbn [bind]. eexists. split; [reflexivity|].
        exists (bs ++ [buf]), [v]. repeat split; cbn.
        + rewrite Hw, concat_app. cbn. now rewrite app_nil_r.
        + apply Forall_app. auto.
        + lia.
        + right; discriminate.
        + rewrite absorb_blocks_snoc, Hs. reflexivity.
      - eexists. split; [reflexivity|].
        exists bs, (buf ++ [v]). rewrite app_length. cbn [length sp_mode sp_state sp_layout].
        repeat split.
        + rewrite Hw. now rewrite app_assoc.
        + assumption.
        + lia.
        + right. destruct buf; discriminate.
        + f_equal. f_equal. lia.
        + assumption.
        + assumption.
    Qed.

    Lemma absorb_all_absorbed : forall st0 l w sp, length st0 = T -> absorbed st0 w sp ->
      exists sp', absorb_all T RATE s l sp = Ok sp' /\ absorbed st0 (w ++ l) sp'.
    Proof.
      intros st0 l. induction l as [|v l IH]; intros w sp Hst0 Hsp; cbn.
      - exists sp. rewrite app_nil_r. auto.
      - destruct (absorb_step st0 w sp v Hst0 Hsp) as [sp1 [E1 H1]].
        rewrite E1. cbn [bind]. destruct (IH (w ++ [v]) sp1 Hst0 H1) as [sp2 [E2 H2]].
        exists sp2. split; [exact E2|]. rewrite <- app_assoc in H2. exact H2.
    Qed.

    (** finishing: works exactly on a positive multiple of RATE words *)
    Lemma finish_absorbed : forall st0 w sp, length st0 = T -> absorbed st0 w sp ->
      finish_absorbing T RATE s sp =
        if (length w =? 0)%nat then Panic
        else if (length w mod RATE =? 0)%nat
        then let st := absorb_blocks perm off (blocks RATE w) st0 in
             Ok {| sp_mode := map Some (firstn RATE st); sp_state := st; sp_layout := off |}
        else Panic.
    Proof.
      intros st0 w sp Hst0 (bs & buf & Hw & Hbs & Hbuf & Hne & Hm & Hs & Hl).
      unfold finish_absorbing. rewrite Hm, Hl.
      assert (Hlen : length w = (length bs * RATE + length buf)%nat).
      { rewrite Hw, app_length. f_equal. now apply concat_length_const. }
      assert (HLs : length (sp_state sp) = T) by (rewrite Hs; now apply absorb_blocks_length).
      destruct (Nat.eq_dec (length buf) RATE) as [Hf|Hf].
      - rewrite Hf, Nat.sub_diag. cbn [repeat]. rewrite app_nil_r.
        rewrite sponge_flush by assumption. cbn [bind].
        replace (length w =? 0)%nat with false by (symmetry; apply Nat.eqb_neq; lia).
        replace (length w mod RATE =? 0)%nat with true.
        2:{ symmetry. apply Nat.eqb_eq. rewrite Hlen, Hf.
            replace (length bs * RATE + RATE)%nat with (S (length bs) * RATE)%nat by lia.
            apply Nat.mod_mul. lia. }
        assert (Hb : blocks RATE w = bs ++ [buf]).
        { rewrite Hw. replace (concat bs ++ buf) with (concat (bs ++ [buf])).
          - apply blocks_concat; [assumption|]. apply Forall_app; auto.
          - rewrite concat_app. cbn. now rewrite app_nil_r. }
        rewrite Hb, absorb_blocks_snoc, Hs. reflexivity.
      - rewrite sponge_short by (assumption || lia). cbn [bind].
        destruct (length w =? 0)%nat eqn:E0; [reflexivity|].
        apply Nat.eqb_neq in E0.
        replace (length w mod RATE =? 0)%nat with false; [reflexivity|].
        symmetry. apply Nat.eqb_neq. rewrite Hlen, Nat.add_comm, Nat.mod_add by lia.
        rewrite Nat.mod_small by lia. destruct Hne as [->|Hne].
        + cbn in Hlen. lia.
        + destruct buf; [contradiction|]. cbn. lia.
    Qed.

    Lemma new_absorbed : forall sp, sp_mode sp = repeat None RATE -> sp_layout sp = off ->
      absorbed (sp_state sp) [] sp.
    Proof.
      intros sp Hm Hl. exists [], []. cbn. repeat split; auto; try lia.
      rewrite Nat.sub_0_r. assumption.
    Qed.

    (** ** Squeezing *)

    (** squeezing sponge that has given out [k] words since its last permutation *)
    Definition squeezing (st : list F) (k : nat) (sp : sponge F) : Prop :=
      sp_mode sp = repeat None k ++ map Some (skipn k (firstn RATE st)) /\ (k <= RATE)%nat
      /\ sp_state sp = st /\ length st = T.

    Lemma take_first_repeat : forall k (l : list (option F)),
      take_first (repeat None k ++ l) = option_map (fun '(x, r) => (x, repeat None k ++ r)) (take_first l).
    Proof.
      induction k as [|k IH]; intros l; cbn.
      - destruct (take_first l) as [[x r]|]; reflexivity.
      - rewrite IH. destruct (take_first l) as [[x r]|]; reflexivity.
    Qed.

    Lemma skipn_cons_nth : forall (l : list F) k, (k < length l)%nat ->
      skipn k l = nth k l 0 :: skipn (S k) l.
    Proof.
      induction l as [|x l IH]; intros [|k] H; cbn in *; try lia; auto. apply IH. lia.
    Qed.

    Lemma nth_firstn_lt : forall (l : list F) n i, (i < n)%nat -> nth i (firstn n l) 0 = nth i l 0.
    Proof.
      induction l as [|x l IH]; intros [|n] [|i] H; cbn; try lia; auto. apply IH. lia.
    Qed.

    Lemma squeeze_step : forall st k sp, squeezing st k sp -> (k < RATE)%nat ->
      exists sp', squeeze T RATE s sp = Ok (nth k st 0, sp') /\ squeezing st (S k) sp'.
    Proof.
      intros st k sp (Hm & Hk & Hs & Hl) Hlt. unfold squeeze. rewrite Hm.
      rewrite take_first_repeat. rewrite skipn_cons_nth by (rewrite firstn_length; lia).
      cbn [map take_first option_map]. eexists. split.
      - rewrite nth_firstn_lt by lia. reflexivity.
      - split; [|repeat split; auto; lia]. cbn [sp_mode].
        change (None :: map Some (skipn (S k) (firstn RATE st))) with
          ([None] ++ map Some (skipn (S k) (firstn RATE st))).
        rewrite app_assoc. rewrite repeat_snoc. reflexivity.
    Qed.

    Lemma squeeze_wrap : forall st sp, squeezing st RATE sp ->
      exists sp', squeeze T RATE s sp = Ok (nth 0 (perm st) 0, sp') /\ squeezing (perm st) 1 sp'.
    Proof.
      intros st sp (Hm & Hk & Hs & Hl). unfold squeeze. rewrite Hm.
      rewrite skipn_all2 by (rewrite firstn_length; lia). cbn [map].
      rewrite take_first_repeat. cbn [take_first option_map].
      rewrite Hs, sponge_squeeze by assumption. cbn [bind].
      pose proof (perm_length st Hl) as Hlp.
      destruct (perm st) as [|x t] eqn:E; [cbn in Hlp; lia|].
      destruct RATE as [|r] eqn:Er; [lia|]. cbn [firstn map take_first].
      eexists. split; [reflexivity|].
      split; [rewrite Er; reflexivity|]. split; [lia|]. split; [reflexivity|assumption].
    Qed.

    (** words squeezed one after another *)
    Fixpoint squeeze_n (n : nat) (sp : sponge F) : result (list F) :=
      match n with
      | O => Ok []
      | S n' => do (x, sp) <- squeeze T RATE s sp; do l <- squeeze_n n' sp; Ok (x :: l)
      end.

    Fixpoint iter_perm (n : nat) (st : list F) : list F :=
      match n with O => st | S n' => iter_perm n' (perm st) end.

    Lemma iter_perm_succ : forall n st, iter_perm (S n) st = iter_perm n (perm st).
    Proof. reflexivity. Qed.

    Lemma squeeze_n_spec : forall n st k sp, squeezing st k sp ->
      squeeze_n n sp = Ok (map (fun i => nth ((k + i) mod RATE) (iter_perm ((k + i) / RATE) st) 0) (seq 0 n)).
    Proof.
      induction n as [|n IH]; intros st k sp H; cbn [squeeze_n]; [reflexivity|].
      destruct (Nat.eq_dec k RATE) as [->|Hk].
      - destruct (squeeze_wrap st sp H) as [sp' [E H']]. rewrite E. cbn [bind].
        rewrite (IH _ _ _ H'). cbn [bind seq map]. f_equal. f_equal.
        + rewrite Nat.add_0_r, Nat.mod_same, Nat.div_same by lia. reflexivity.
        + rewrite <- seq_shift, map_map. apply map_ext. intros i.
          replace (RATE + S i)%nat with ((1 + i) + 1 * RATE)%nat by lia.
          rewrite Nat.mod_add, Nat.div_add by lia.
          replace ((1 + i) / RATE + 1)%nat with (S ((1 + i) / RATE)) by lia. reflexivity.
      - assert (Hk' : (k < RATE)%nat) by (destruct H as (_ & ? & _); lia).
        destruct (squeeze_step st k sp H Hk') as [sp' [E H']]. rewrite E. cbn [bind].
        rewrite (IH _ _ _ H'). cbn [bind seq map]. f_equal. f_equal.
        + rewrite Nat.add_0_r, Nat.mod_small, Nat.div_small by lia. reflexivity.
        + rewrite <- seq_shift, map_map. apply map_ext. intros i.
          now replace (k + S i)%nat with (S k + i)%nat by lia.
    Qed.

    Lemma finish_squeezing : forall st, length st = T ->
      squeezing st 0 {| sp_mode := map Some (firstn RATE st); sp_state := st; sp_layout := off |}.
    Proof. intros st H. repeat split; auto. cbn. lia. Qed.

    (** ** Hashing a list of words *)

    (** result of absorbing [w] into a fresh sponge, finishing and squeezing one word *)
    Lemma hash_run : forall sp w, sp_mode sp = repeat None RATE -> sp_layout sp = off ->
      length (sp_state sp) = T ->
      (do sp1 <- absorb_all T RATE s w sp;
       do sp2 <- finish_absorbing T RATE s sp1;
       do (x, _) <- squeeze T RATE s sp2; Ok x)
      = if (length w =? 0)%nat then Panic
        else if (length w mod RATE =? 0)%nat
        then Ok (nth 0 (absorb_blocks perm off (blocks RATE w) (sp_state sp)) 0)
        else Panic.
    Proof.
      intros sp w Hm Hl Hst.
      destruct (absorb_all_absorbed (sp_state sp) w [] sp Hst (new_absorbed sp Hm Hl))
        as [sp1 [E1 H1]].
      rewrite E1. cbn [bind]. cbn [app] in H1.
      rewrite (finish_absorbed _ _ _ Hst H1).
      destruct (length w =? 0)%nat; [reflexivity|].
      destruct (length w mod RATE =? 0)%nat; [|reflexivity].
      cbn zeta. cbn [bind].
      set (st := absorb_blocks perm off (blocks RATE w) (sp_state sp)).
      assert (Hlen : length st = T) by (now apply absorb_blocks_length).
      destruct (squeeze_step _ _ _ (finish_squeezing st Hlen) HR) as [sp2 [E2 _]].
      rewrite E2. reflexivity.
    Qed.

  End Sponge.

  Lemma pad_length_mod : forall n (l : list F), (0 < n)%nat -> (length (pad_zeros n l) mod n = 0)%nat.
  Proof.
    intros n l Hn. unfold pad_zeros. rewrite app_length, repeat_length.
    pose proof (Nat.mod_upper_bound (length l) n ltac:(lia)) as Hb.
    pose proof (Nat.div_mod (length l) n ltac:(lia)) as Hd.
    destruct (Nat.eq_dec (length l mod n) 0) as [E|E].
    - rewrite E, Nat.sub_0_r, Nat.mod_same by lia. now rewrite Nat.add_0_r.
    - rewrite (Nat.mod_small (n - length l mod n)) by lia.
      replace (length l + (n - length l mod n))%nat with ((length l / n + 1) * n)%nat by nia.
      apply Nat.mod_mul. lia.
  Qed.

  Lemma constant_padding : forall RATE (m : list F), (0 < RATE)%nat ->
    m ++ repeat 0 (Nat.div (length m + RATE - 1) RATE * RATE - length m)%nat = pad_zeros RATE m.
  Proof.
    intros RATE m H. unfold pad_zeros. f_equal. f_equal.
    set (L := length m).
    pose proof (Nat.mod_upper_bound L RATE ltac:(lia)) as Hb.
    pose proof (Nat.div_mod L RATE ltac:(lia)) as Hd.
    destruct (Nat.eq_dec (L mod RATE) 0) as [E|E].
    - rewrite E, Nat.sub_0_r, Nat.mod_same by lia.
      replace (L + RATE - 1)%nat with ((RATE - 1) + (L / RATE) * RATE)%nat by nia.
      rewrite Nat.div_add by lia. rewrite (Nat.div_small (RATE - 1)) by lia. nia.
    - rewrite (Nat.mod_small (RATE - L mod RATE)) by lia.
      replace (L + RATE - 1)%nat with ((L mod RATE - 1) + (L / RATE + 1) * RATE)%nat by nia.
      rewrite Nat.div_add by lia. rewrite (Nat.div_small (L mod RATE - 1)) by lia. nia.
  Qed.

  Lemma variable_padding : forall RATE (m : list F), (0 < RATE)%nat ->
    m ++ repeat 0 (if (length m mod RATE =? 0)%nat then 0%nat else (RATE - length m mod RATE)%nat)
      = pad_zeros RATE m.
  Proof.
    intros RATE m H. unfold pad_zeros. f_equal. f_equal.
    pose proof (Nat.mod_upper_bound (length m) RATE ltac:(lia)) as Hb.
    destruct (length m mod RATE =? 0)%nat eqn:E.
    - apply Nat.eqb_eq in E. now rewrite E, Nat.sub_0_r, Nat.mod_same by lia.
    - apply Nat.eqb_neq in E. now rewrite (Nat.mod_small (RATE - length m mod RATE)) by lia.
  Qed.

  Lemma upd_repeat_init : forall T pos (cap : F), upd (repeat 0 T) pos cap = init_state T pos cap.
  Proof.
    intros T pos cap. apply nth_ext_len with (d := 0).
    - unfold init_state. now rewrite upd_length, repeat_length, map_length, seq_length.
    - intros i Hi. rewrite upd_length, repeat_length in Hi.
      unfold init_state. rewrite nth_map_seq by assumption.
      destruct (i =? pos)%nat eqn:E.
      + apply Nat.eqb_eq in E. subst. apply nth_upd_same. now rewrite repeat_length.
      + apply Nat.eqb_neq in E. rewrite nth_upd_other by lia. apply nth_repeat.
  Qed.

  Lemma init_state_length : forall T pos (cap : F), length (init_state T pos cap) = T.
  Proof. intros. unfold init_state. now rewrite map_length, seq_length. Qed.

  Lemma upd_init_add : forall T pos (a b : F), (pos < T)%nat ->
    upd (init_state T pos a) pos (fnth (init_state T pos a) pos + b) = init_state T pos (a + b).
  Proof.
    intros T pos a b H. apply nth_ext_len with (d := 0).
    - now rewrite upd_length, !init_state_length.
    - intros i Hi. rewrite upd_length, init_state_length in Hi.
      unfold init_state at 3. rewrite nth_map_seq by assumption.
      destruct (i =? pos)%nat eqn:E.
      + apply Nat.eqb_eq in E. subst. rewrite nth_upd_same by (now rewrite init_state_length).
        unfold fnth, init_state. rewrite nth_map_seq by assumption. now rewrite Nat.eqb_refl.
      + apply Nat.eqb_neq in E. rewrite nth_upd_other by lia.
        unfold init_state. rewrite nth_map_seq by assumption.
        replace (i =? pos)%nat with false by (symmetry; now apply Nat.eqb_neq). reflexivity.
  Qed.

  (** ** The three hashers *)

  Theorem hash_constant_length_spec : forall T RATE L (s : spec F) m,
    (0 < RATE < T)%nat -> length m = L ->
    hash_constant_length T RATE L s (hash_init T RATE (constant_length RATE L)) m
    = if (L =? 0)%nat then Panic
      else Ok (sponge_hash (hash_permute T s) T RATE 0 RATE (of_Z (Z.of_nat L * 2 ^ 64)) m).
  Proof.
    intros T RATE L s m HT HL. unfold hash_constant_length, constant_length_padding.
    rewrite Nat.eqb_refl. cbn [rassert bind]. subst L.
    rewrite constant_padding by lia.
    rewrite (hash_run T RATE 0 s); try lia; try reflexivity.
    2:{ cbn. now rewrite upd_length, repeat_length. }
    rewrite pad_length_mod by lia. cbn [Nat.eqb].
    unfold pad_zeros at 1. rewrite app_length, repeat_length.
    destruct (length m =? 0)%nat eqn:E.
    - apply Nat.eqb_eq in E. rewrite E. cbn [Nat.add].
      rewrite Nat.mod_0_l, Nat.sub_0_r, Nat.mod_same by lia. reflexivity.
    - apply Nat.eqb_neq in E.
      replace (length m + _ =? 0)%nat with false by (symmetry; apply Nat.eqb_neq; lia).
      unfold sponge_hash. cbn [hash_init sponge_new sp_state constant_length initial_capacity_element layout].
      rewrite Nat.add_0_r, Nat.mod_small by lia. rewrite upd_repeat_init.
      unfold from_u128.
      rewrite N.shiftl_mul_pow2. rewrite N2Z.inj_mul, nat_N_Z. reflexivity.
  Qed.

  Theorem hash_constant_length_iden3_spec : forall T RATE L (s : spec F) m d,
    (0 < RATE < T)%nat -> length m = L ->
    hash_constant_length_iden3 T RATE L s (hash_init T RATE (constant_length_iden3 RATE L)) m d
    = if (L =? 0)%nat then Panic
      else Ok (sponge_hash (hash_permute T s) T RATE (T - RATE) 0 d m).
  Proof.
    intros T RATE L s m d HT HL. unfold hash_constant_length_iden3, constant_length_padding.
    rewrite Nat.eqb_refl. cbn [rassert bind]. subst L.
    rewrite constant_padding by lia.
    assert (E0 : ((RATE + (T - RATE)) mod T = 0)%nat).
    { replace (RATE + (T - RATE))%nat with T by lia. apply Nat.mod_same. lia. }
    rewrite (hash_run T RATE (T - RATE) s); try lia; try reflexivity.
    2:{ cbn. now rewrite !upd_length, repeat_length. }
    rewrite pad_length_mod by lia. cbn [Nat.eqb].
    unfold pad_zeros at 1. rewrite app_length, repeat_length.
    destruct (length m =? 0)%nat eqn:E.
    - apply Nat.eqb_eq in E. rewrite E. cbn [Nat.add].
      rewrite Nat.mod_0_l, Nat.sub_0_r, Nat.mod_same by lia. reflexivity.
    - apply Nat.eqb_neq in E.
      replace (length m + _ =? 0)%nat with false by (symmetry; apply Nat.eqb_neq; lia).
      unfold sponge_hash.
      cbn [update_capacity hash_init sponge_new sp_state sp_layout constant_length_iden3
           initial_capacity_element layout].
      rewrite E0. rewrite upd_repeat_init, upd_init_add by lia.
      replace (0 + d) with d by ring. reflexivity.
  Qed.

  Theorem hash_with_cap_spec : forall T RATE (s : spec F) m cap,
    (0 < RATE < T)%nat ->
    hash_with_cap T RATE s (hash_init T RATE (variable_length_iden3 RATE)) m cap
    = if (length m =? 0)%nat then Panic
      else Ok (sponge_hash (hash_permute T s) T RATE (T - RATE) 0 (of_Z (Z.of_N cap)) m).
  Proof.
    intros T RATE s m cap HT. unfold hash_with_cap.
    cbn [variable_length_iden3 padding bind].
    assert (E0 : ((RATE + (T - RATE)) mod T = 0)%nat).
    { replace (RATE + (T - RATE))%nat with T by lia. apply Nat.mod_same. lia. }
    set (pad := repeat _ _).
    set (h := update_capacity _ _ _ _).
    transitivity (do sp1 <- absorb_all T RATE s (m ++ pad) h;
       do sp2 <- finish_absorbing T RATE s sp1;
       do (x, _) <- squeeze T RATE s sp2; Ok x).
    { unfold absorb_all. rewrite fold_r_app. destruct (fold_r _ m h); reflexivity. }
    unfold pad. rewrite variable_padding by lia. unfold h.
    rewrite (hash_run T RATE (T - RATE) s); try lia; try reflexivity.
    2:{ cbn. now rewrite !upd_length, repeat_length. }
    rewrite pad_length_mod by lia. cbn [Nat.eqb].
    unfold pad_zeros at 1. rewrite app_length, repeat_length.
    destruct (length m =? 0)%nat eqn:E.
    - apply Nat.eqb_eq in E. rewrite E. cbn [Nat.add].
      rewrite Nat.mod_0_l, Nat.sub_0_r, Nat.mod_same by lia. reflexivity.
    - apply Nat.eqb_neq in E.
      replace (length m + _ =? 0)%nat with false by (symmetry; apply Nat.eqb_neq; lia).
      unfold sponge_hash.
      cbn [update_capacity hash_init sponge_new sp_state sp_layout variable_length_iden3
           initial_capacity_element layout].
      rewrite E0. rewrite upd_repeat_init, upd_init_add by lia.
      replace (0 + from_u128 cap) with (from_u128 (F := F) cap) by ring. reflexivity.
  Qed.
End Proofs.
