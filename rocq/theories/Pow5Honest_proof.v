(** Honest assignments satisfy the Pow5 chip, whatever else is in the circuit. *)
From Coq Require Import ZArith List Arith Lia Bool.
From Verif Require Import Field Rust ListAux Primitives Specs SpecHash Perm_proof BigSum Link Halo2 Pow5 ChipUse Built
  Pow5Use Layout_proof SeptVal_proof SeptGate_proof Contract Pow5Gate_proof Pow5Rows_proof Pow5Block_proof Trace_proof
  Pow5Use_proof.
Import ListNotations.
Local Open Scope nat_scope.

Section Use.
  Context {F : Type} {FO : FieldOps F} {PF : PrimeField F}.
  Add Field Ffield : f_field.
  Variable T RATE : nat.
  Variable s : spec F.
  Hypothesis Hspec : poseidon_spec T s.
  Hypothesis HT : 1 < T.
  Hypothesis HR : RATE = T - 1.
  Variable cfg : pow5.
  Hypothesis Hstate : length (p5_state cfg) = T.
  Hypothesis Ha : length (p5_rc_a cfg) = T.
  Hypothesis Hb : length (p5_rc_b cfg) = T.
  Hypothesis NDadv : NoDup (p5_sbox cfg :: p5_state cfg).
  Hypothesis NDfix : NoDup (p5_rc_a cfg ++ p5_rc_b cfg).
  Hypothesis NDsel : NoDup [p5_full cfg; p5_partial cfg; p5_single cfg; p5_pad cfg].
  Hypothesis Inv1 : mat_prod_id T (mds s) (mds_inv s).
  Hypothesis Inv2 : mat_prod_id T (mds_inv s) (mds s).

  Set Default Proof Using "All".
  Notation B L := (L T RATE s Hspec HT HR cfg Hstate Ha Hb NDadv NDfix NDsel).
  Notation U L := (L T RATE s Hspec HT HR cfg Hstate Ha Hb NDadv NDfix NDsel Inv1 Inv2).
  Notation R := (p5_R s).
  Notation sc := (col (p5_state cfg)).
  Notation bc := (col (p5_rc_b cfg)).
  Notation ac := (col (p5_rc_a cfg)).
  Notation cells := (row_cells T cfg).
  Notation sels := (p5_selectors cfg).

  Lemma carries_values : forall (L : layout F) ws xs, Forall2 (carries L) ws xs -> values ws = map Some xs.
  Proof.
    intros L ws xs H. induction H as [|w x ws xs (_ & E & _) H IH]; [reflexivity|]. cbn [values map]. unfold values in IH.
    now rewrite E, IH.
  Qed.
  Lemma carries_nth : forall (L : layout F) ws xs i, Forall2 (carries L) ws xs -> i < length ws ->
    carries L (nth i ws zero_cell) (nth i xs fzero).
  Proof.
    intros L ws xs i H. revert i. induction H as [|w x ws xs H1 H IH]; intros i Hi; [cbn in Hi; lia|].
    destruct i as [|i]; [exact H1|]. cbn [nth]. apply IH. cbn in Hi. lia.
  Qed.
  Lemma Forall2_len : forall {A C} (P : A -> C -> Prop) l l', Forall2 P l l' -> length l = length l'.
  Proof. intros A C P l l' H. induction H; cbn; congruence. Qed.

  (** words of a row written by a region *)
  Lemma cells_carry : forall L rs ri evs o (x : list F), trace L rs -> ri < length (lo_starts L) ->
    In (nth ri (lo_starts L) 0, evs) rs -> length x = T ->
    (forall i, i < T -> last_write (adv_ws evs) (sc i) o = Some (Some (nth i x fzero))) ->
    Forall2 (carries L) (cells ri o (map Some x)) x.
  Proof.
    intros L rs ri evs o x TR Hri HIn Hx H.
    rewrite <- (lst_of T x Hx) at 2. unfold row_cells, lst.
    assert (G : forall l, (forall i, In i l -> i < T) -> Forall2 (carries L)
      (map (fun i => {| ac_cell := {| ce_region := ri; ce_off := o; ce_col := Adv (sc i) |}; ac_val := nth i (map Some x) None |}) l)
      (map (fnth x) l)).
    { induction l as [|i l IH]; intros Hl; cbn [map]; constructor; [|apply IH; intros; apply Hl; now right].
      assert (Hi : i < T) by (apply Hl; now left). specialize (H i Hi).
      split; [exact Hri|]. split; [cbn [ac_val]; rewrite (B nth_map_some) by lia; reflexivity|].
      cbn [ac_cell abs_cell ce_col ce_off ce_region cell_has]. unfold abs_cell. cbn [ce_col ce_off ce_region].
      cbn [cell_has]. rewrite (read_adv L rs _ evs (sc i) o TR HIn); [exact H|].
      apply touched_adv. eexists. eapply last_write_in. exact H. }
    apply G. intros i Hi. apply in_seq in Hi. lia.
  Qed.

  (** ** Results of the instructions *)
  Lemma textbook_length : forall x, length x = T -> length (textbook s x) = T.
  Proof.
    intros x H. rewrite <- (rows_permutation T s Hspec HT) by assumption. now apply (B steps_length).
  Qed.

  (** what an instruction leaves behind *)
  Definition follows (L L' : layout F) (ri : nat) (evs : list (event F)) : Prop :=
    ri = length (lo_starts L) /\ forall rs, trace L rs ->
    exists st k row, trace L' (rs ++ (st, evs) :: const_ents k row (const_events evs))
      /\ lo_starts L' = lo_starts L ++ [st]
      /\ lo_copy L' = lo_copy L ++ abs_copy (lo_starts L') evs ++ const_copies (lo_starts L') k row (const_events evs).
  Lemma follows_at : forall L L' ri evs rs, follows L L' ri evs -> trace L rs ->
    exists rs', trace L' (rs ++ rs') /\ In (nth ri (lo_starts L') 0, evs) rs' /\ ri < length (lo_starts L').
  Proof.
    intros L L' ri evs rs [-> H] TR. destruct (H rs TR) as (st & k & row & T1 & S1 & _).
    eexists. split; [exact T1|]. rewrite S1, app_nth2, Nat.sub_diag, app_length by lia. cbn. split; [now left|lia].
  Qed.
  Lemma follows_region : forall {A} (p : Region F A) L L' x rs, trace L rs -> assign_region p L = Ok (L', x) ->
    exists evs, p (length (lo_starts L)) = Ok (evs, x) /\ follows L L' (length (lo_starts L)) evs.
  Proof.
    intros A p L L' x rs TR H.
    destruct (assign_region_trace p L L' x rs TR H) as (evs & _ & _ & _ & E & _).
    exists evs. split; [exact E|]. split; [reflexivity|]. intros rs' TR'.
    destruct (assign_region_trace p L L' x rs' TR' H) as (evs' & st & k & row & E' & _ & T2 & S2 & _ & _ & C2).
    rewrite E in E'. injection E' as <-. exists st, k, row. auto.
  Qed.

  Lemma permute_follows : forall L L' ws out rs, trace L rs -> length ws = T -> p5_permute s cfg ws L = Ok (L', out) ->
    let ri := length (lo_starts L) in
    follows L L' ri (ev_permute T s cfg ri ws) /\ out = cells ri R (vs s (values ws) R).
  Proof.
    intros L L' ws out rs TR Hl H ri. destruct (follows_region _ L L' out rs TR H) as (evs & E & Fo).
    fold ri in E, Fo. rewrite (B permute_region_ok) in E by assumption. injection E as <- <-. auto.
  Qed.
  Lemma add_follows : forall L L' ws input out rs, trace L rs -> length ws = T -> p5_add_input T RATE cfg ws input L = Ok (L', out) ->
    let ri := length (lo_starts L) in
    let pw := fun i => match nth i input None with Some w => w | None => Padding fzero end in
    (forall i, i < RATE -> nth i input None = Some (pw i))
    /\ follows L L' ri (ev_add T RATE cfg ri ws pw) /\ out = cells ri 2 (sums T RATE (values ws) pw).
  Proof.
    intros L L' ws input out rs TR Hl H ri pw. destruct (follows_region _ L L' out rs TR H) as (evs & E & Fo).
    change (add_region T RATE cfg ws input (length (lo_starts L)) = Ok (evs, out)) in E.
    pose proof (U add_region_inv _ _ _ _ Hl E) as P. split; [exact P|].
    fold ri in E, Fo. rewrite (U add_region_ok ri ws input pw Hl P) in E. injection E as <- <-. auto.
  Qed.
  Lemma init_follows : forall L L' cap out rs, trace L rs -> p5_initial_state RATE cfg cap L = Ok (L', out) ->
    let ri := length (lo_starts L) in
    follows L L' ri (ev_init T RATE cfg ri cap) /\ out = cells ri 0 (map Some (init_vals RATE cap)).
  Proof.
    intros L L' cap out rs TR H ri. destruct (follows_region _ L L' out rs TR H) as (evs & E & Fo).
    fold ri in E, Fo. rewrite (U init_region_ok ri cap) in E. injection E as <- <-. auto.
  Qed.

  Lemma permute_carries : forall L L' ws xs out rs, trace L rs -> length ws = T -> Forall2 (carries L) ws xs ->
    p5_permute s cfg ws L = Ok (L', out) -> Forall2 (carries L') out (textbook s xs).
  Proof.
    intros L L' ws xs out rs TR Hl HC H. destruct (permute_follows L L' ws out rs TR Hl H) as [Fo ->].
    destruct (follows_at _ _ _ _ _ Fo TR) as (rs' & TR' & HIn & Hri).
    pose proof (carries_values _ _ _ HC) as V. pose proof (Forall2_len _ _ _ HC) as Lx.
    rewrite V, (B vs_result). eapply cells_carry; [exact TR'|exact Hri|apply in_app_iff; right; exact HIn|apply textbook_length; congruence|].
    intros i Hi. rewrite (B adv_permute), V, (B p5_adv_state) by (rewrite ?map_length; congruence || lia).
    rewrite (B vs_result), (B nth_map_some); [reflexivity|]. rewrite textbook_length; congruence.
  Qed.
  Definition padd (xs ys : list F) : list F :=
    lst T (fun i => if i <? RATE then fadd (nth i xs fzero) (nth i ys fzero) else nth i xs fzero).
  Lemma sums_some : forall xs ys pw, length xs = T -> (forall i, i < RATE -> pval (pw i) = Some (nth i ys fzero)) ->
    sums T RATE (map Some xs) pw = map Some (padd xs ys).
  Proof.
    intros xs ys pw Hx H. unfold sums, padd, lst. rewrite map_map. apply map_ext_in. intros i Hi. apply in_seq in Hi.
    rewrite (B nth_map_some) by lia. destruct (Nat.ltb_spec i RATE); [|reflexivity]. now rewrite H.
  Qed.
  Definition input_carries (L : layout F) (input : list (option (padded_word F))) (ys : list F) : Prop :=
    Forall2 (fun i y => forall w, i = Some w -> padded_carries L w y) input ys.
  Lemma input_nth : forall L input ys i w, input_carries L input ys -> nth i input None = Some w -> padded_carries L w (nth i ys fzero).
  Proof.
    intros L input ys i w H. revert i. induction H as [|a y input ys H1 H IH]; intros i E; [destruct i; discriminate|].
    destruct i as [|i]; [apply H1; exact E|]. cbn [nth] in *. now apply IH.
  Qed.
  Lemma padded_pval : forall (L : layout F) (w : padded_word F) y, padded_carries L w y -> pval w = Some y.
  Proof. intros L [a|v] y H; cbn in *; [apply H|now subst]. Qed.
  Lemma add_carries : forall L L' ws xs input ys out rs, trace L rs -> length ws = T -> Forall2 (carries L) ws xs ->
    input_carries L input ys -> p5_add_input T RATE cfg ws input L = Ok (L', out) ->
    Forall2 (carries L') out (padd xs ys).
  Proof.
    intros L L' ws xs input ys out rs TR Hl HC HI H. destruct (add_follows L L' ws input out rs TR Hl H) as (P & Fo & ->).
    set (pw := fun i => match nth i input None with Some w => w | None => Padding fzero end) in *.
    destruct (follows_at _ _ _ _ _ Fo TR) as (rs' & TR' & HIn & Hri).
    pose proof (carries_values _ _ _ HC) as V. pose proof (Forall2_len _ _ _ HC) as Lx.
    assert (PV : forall i, i < RATE -> pval (pw i) = Some (nth i ys fzero)).
    { intros i Hi. eapply padded_pval, input_nth; [exact HI|now apply P]. }
    rewrite V, (sums_some xs ys pw) by (assumption || congruence).
    eapply cells_carry; [exact TR'|exact Hri|apply in_app_iff; right; exact HIn|unfold padd, lst; now rewrite map_length, seq_length|].
    intros i Hi. rewrite (U add_adv_2) by assumption. rewrite V, (sums_some xs ys pw) by (assumption || congruence).
    rewrite (B nth_map_some); [reflexivity|]. unfold padd, lst. now rewrite map_length, seq_length.
  Qed.
  Lemma init_carries : forall L L' cap out rs, trace L rs -> p5_initial_state RATE cfg cap L = Ok (L', out) ->
    Forall2 (carries L') out (init_vals RATE cap).
  Proof.
    intros L L' cap out rs TR H. destruct (init_follows L L' cap out rs TR H) as [Fo ->].
    destruct (follows_at _ _ _ _ _ Fo TR) as (rs' & TR' & HIn & Hri).
    eapply cells_carry; [exact TR'|exact Hri|apply in_app_iff; right; exact HIn|apply (U init_vals_length)|].
    intros i Hi. now apply (U init_adv).
  Qed.

  (** ** A circuit made of instructions *)
  Definition good (e : nat * list (event F)) : Prop :=
    (exists ri ws xs, snd e = ev_permute T s cfg ri ws /\ length xs = T /\ values ws = map Some xs)
    \/ (exists ri ws xs pw ys, snd e = ev_add T RATE cfg ri ws pw /\ length xs = T /\ values ws = map Some xs
         /\ forall i, i < RATE -> pval (pw i) = Some (nth i ys fzero))
    \/ (forall q o, In (EnableSelector q o) (snd e) -> ~ In q sels).
  Definition agreed (L : layout F) (x : (column * nat) * (column * nat)) : Prop :=
    exists v, cell_has L (fst x) v /\ cell_has L (snd x) v.
  Definition inv (L : layout F) (other : list ((column * nat) * (column * nat))) : Prop :=
    exists rs, trace L rs /\ Forall good rs /\ forall x, In x (lo_copy L) -> In x other \/ agreed L x.

  Lemma const_ents_good : forall k row l, Forall good (const_ents k row l).
  Proof.
    intros k row l. revert row. induction l as [|[a v] l IH]; intros row; cbn [const_ents]; constructor; [|apply IH].
    right. right. cbn [snd]. intros q o [H|[]]. discriminate.
  Qed.

  Lemma inv_op : forall L L' other ri evs, inv L other -> follows L L' ri evs -> good (0, evs) ->
    (forall rs', trace L' rs' -> In (nth ri (lo_starts L') 0, evs) rs' -> ri < length (lo_starts L') ->
       (forall w v, carries L w v -> carries L' w v) ->
       (forall a b, In (ConstrainEqual a b) evs -> agreed L' (abs_cell (lo_starts L') a, abs_cell (lo_starts L') b))
       /\ (forall a v, In (ConstrainConstant a v) evs -> cell_has L' (abs_cell (lo_starts L') a) v)) ->
    inv L' other.
  Proof.
    intros L L' other ri evs (rs & TR & G & C) [Hri Fo] Ge H. destruct (Fo rs TR) as (st & k & row & T1 & S1 & C1).
    assert (KEEP : forall w v, carries L w v -> carries L' w v) by (intros w v; exact (carries_kept L rs L' _ _ w v TR T1 S1)).
    assert (ST : nth ri (lo_starts L') 0 = st) by (rewrite S1, Hri, app_nth2, Nat.sub_diag by lia; reflexivity).
    assert (LN : ri < length (lo_starts L')) by (rewrite S1, app_length, Hri; cbn; lia).
    specialize (H _ T1). rewrite ST in H. specialize (H ltac:(apply in_app_iff; right; now left) LN KEEP). destruct H as [H1 H2].
    exists (rs ++ (st, evs) :: const_ents k row (const_events evs)). split; [exact T1|]. split.
    - apply Forall_app. split; [assumption|]. constructor; [exact Ge|apply const_ents_good].
    - intros x Hx. rewrite C1, !in_app_iff in Hx. destruct Hx as [Hx|[Hx|Hx]].
      + destruct (C x Hx) as [X|(v & X & Y)]; [now left|]. right. exists v. split; [exact (has_kept _ _ _ _ _ _ TR T1 X)|exact (has_kept _ _ _ _ _ _ TR T1 Y)].
      + right. rewrite abs_copy_ws in Hx. apply in_map_iff in Hx. destruct Hx as ([a b] & <- & Hx). apply H1. now apply in_copies_ws.
      + right. apply const_copies_in in Hx. destruct Hx as (row' & a & v & -> & X & Y). apply in_const_events in X.
        exists v. cbn [fst snd]. split; [|now apply H2]. cbn [cell_has]. eapply read_const; [exact T1|].
        apply in_app_iff. right. now right.
  Qed.

  Lemma cell_has_adv : forall (L : layout F) rs st evs c o v, trace L rs -> In (st, evs) rs ->
    last_write (adv_ws evs) c o = Some (Some v) -> cell_has L (Adv c, o + st) v.
  Proof.
    intros L rs st evs c o v TR H E. cbn [cell_has]. rewrite (read_adv L rs st evs c o TR H); [exact E|].
    apply touched_adv. eexists. eapply last_write_in. exact E.
  Qed.
  Lemma cell_has_fix : forall (L : layout F) rs st evs c o v, trace L rs -> In (st, evs) rs ->
    last_write (fix_ws evs) c o = Some v -> cell_has L (Fix c, o + st) v.
  Proof.
    intros L rs st evs c o v TR H E. cbn [cell_has]. rewrite (read_fix L rs st evs c o TR H); [exact E|].
    apply touched_fix. eexists. eapply last_write_in. exact E.
  Qed.

  Lemma inv_instruction : forall L L' other, inv L other -> p5_instruction T RATE s cfg L L' -> inv L' other.
  Proof.
    intros L L' other I H. destruct I as (rs & TR & I). assert (I' : inv L other) by (exists rs; auto).
    destruct H as [L L' ws xs out Hl HC H|L L' cap out H|L L' ws xs input ys out Hl HC HL HI H].
    - destruct (permute_follows L L' ws out rs TR Hl H) as [Fo _]. set (ri := length (lo_starts L)) in *.
      pose proof (carries_values _ _ _ HC) as V. pose proof (Forall2_len _ _ _ HC) as Lx.
      apply (inv_op L L' other ri _ I' Fo).
      + left. exists ri, ws, xs. cbn [snd]. repeat split; congruence.
      + intros rs' TR' HIn Hri KEEP. split.
        * intros a b Hab. apply (U ev_permute_copies) in Hab; [|assumption]. destruct Hab as (i & Hi & -> & ->).
          destruct (KEEP _ _ (carries_nth L ws xs i HC ltac:(lia))) as (_ & _ & X).
          exists (nth i xs fzero). cbn [fst snd]. split; [|exact X]. unfold abs_cell. cbn [ce_col ce_off ce_region].
          eapply cell_has_adv; [exact TR'|exact HIn|].
          rewrite (B adv_permute), V, (B p5_adv_state) by (rewrite ?map_length; congruence || lia).
          rewrite (B vs_0), (B nth_map_some); [reflexivity|congruence].
        * intros a v X. now apply (U ev_permute_const) in X.
    - destruct (init_follows L L' cap out rs TR H) as [Fo _]. set (ri := length (lo_starts L)) in *.
      apply (inv_op L L' other ri _ I' Fo).
      + right. right. cbn [snd]. intros q o X. now apply (proj2 (U ev_init_other ri cap)) in X.
      + intros rs' TR' HIn Hri KEEP. split.
        * intros a b X. now apply (proj1 (U ev_init_other ri cap)) in X.
        * intros a v X. apply (U ev_init_const) in X. destruct X as (i & Hi & -> & ->).
          unfold abs_cell. cbn [ce_col ce_off ce_region]. eapply cell_has_adv; [exact TR'|exact HIn|].
          now apply (U init_adv).
    - destruct (add_follows L L' ws input out rs TR Hl H) as (P & Fo & _). set (ri := length (lo_starts L)) in *.
      set (pw := fun i => match nth i input None with Some w => w | None => Padding fzero end) in *.
      pose proof (carries_values _ _ _ HC) as V. pose proof (Forall2_len _ _ _ HC) as Lx.
      assert (PC : forall i, i < RATE -> padded_carries L (pw i) (nth i ys fzero)).
      { intros i Hi. eapply input_nth; [exact HI|now apply P]. }
      apply (inv_op L L' other ri _ I' Fo).
      + right. left. exists ri, ws, xs, pw, ys. cbn [snd]. repeat split; try congruence.
        intros i Hi. now apply (padded_pval L), PC.
      + intros rs' TR' HIn Hri KEEP. split.
        * intros a b Hab. apply (U ev_add_copies) in Hab. destruct Hab as [(i & Hi & -> & ->)|(i & Hi & -> & ->)].
          -- destruct (KEEP _ _ (carries_nth L ws xs i HC ltac:(lia))) as (_ & _ & X).
             exists (nth i xs fzero). cbn [fst snd]. split; [|exact X]. unfold abs_cell. cbn [ce_col ce_off ce_region].
             eapply cell_has_adv; [exact TR'|exact HIn|].
             rewrite (U add_adv_0), V, (B nth_map_some) by (assumption || lia). reflexivity.
          -- exists (nth i ys fzero). cbn [fst snd]. specialize (PC i Hi). split.
             ++ unfold abs_cell. cbn [ce_col ce_off ce_region]. eapply cell_has_adv; [exact TR'|exact HIn|].
                rewrite (U add_adv_1) by assumption. f_equal. now apply (padded_pval L).
             ++ destruct (pw i) as [w|v] eqn:E; cbn [padded_carries] in PC.
                ** now destruct (KEEP _ _ PC) as (_ & _ & X).
                ** unfold abs_cell. cbn [ce_col ce_off ce_region]. eapply cell_has_fix; [exact TR'|exact HIn|].
                   rewrite PC. now apply (U add_fix).
        * intros a v X. now apply (U ev_add_const) in X.
  Qed.

  Lemma made_inv : forall L other, made sels (p5_instruction T RATE s cfg) L other -> inv L other.
  Proof.
    intros L other M. induction M as [m|L L' other M IH H|L L' A p x other copies M IH Q H C|L L' c vals x other M IH H].
    - exists []. split; [apply trace_empty|]. split; [constructor|easy].
    - eapply inv_instruction; eassumption.
    - destruct IH as (rs & TR & G & I).
      destruct (assign_region_trace p L L' x rs TR H) as (evs & st & k & row & E & _ & T1 & _).
      exists (rs ++ (st, evs) :: const_ents k row (const_events evs)). split; [exact T1|]. split.
      + apply Forall_app. split; [assumption|]. constructor; [|apply const_ents_good].
        right. right. cbn [snd]. intros q o X. exact (Q _ _ _ q o E X).
      + intros y Hy. rewrite C, in_app_iff in Hy. rewrite in_app_iff. destruct Hy as [Hy|Hy]; [|auto].
        destruct (I y Hy) as [X|(v & X & Y)]; [auto|]. right. exists v. split; [exact (has_kept _ _ _ _ _ _ TR T1 X)|exact (has_kept _ _ _ _ _ _ TR T1 Y)].
    - apply assign_table_inv in H. subst. destruct IH as (rs & TR & G & I).
      exists rs. split; [|split; [exact G|exact I]]. constructor; apply TR.
  Qed.

  (** ** Satisfaction *)
  Section Honest.
    Variables n u : nat.
    Variable L : layout F.
    Variable blind : nat -> nat -> F.
    Variable other : list ((column * nat) * (column * nat)).
    Hypothesis Hinv : inv L other.
    Hypothesis Hfit : fits u L.
    Hypothesis Hu : u <= n.
    Notation adv := (honest u L blind).

    Lemma honest_has : forall c r v, last_write (lo_adv L) c r = Some (Some v) -> adv c r = v.
    Proof using Hfit.
      intros c r v H. unfold honest. destruct Hfit as [Y _]. rewrite (proj2 (Nat.ltb_lt r u)); [now rewrite H|].
      eapply Y. eapply last_write_in. exact H.
    Qed.
    Lemma honest_cell : forall x v, cell_has L x v -> cell_at L adv x = v.
    Proof using Hfit.
      intros [[c|c|c] r] v H; cbn [cell_has cell_at] in *; [now apply honest_has| |easy]. unfold fixed_at. now rewrite H.
    Qed.

    Lemma honest_copies : (forall a b, In (a, b) other -> cell_at L adv a = cell_at L adv b) -> copies_hold L adv.
    Proof.
      intros H a b Hab. destruct Hinv as (rs & _ & _ & C). destruct (C _ Hab) as [X|(v & X & Y)]; [now apply H|].
      cbn [fst snd] in *. apply honest_cell in X, Y. congruence.
    Qed.

    Lemma honest_rows : forall g k r, In g (gates_kind T s cfg k) -> selector_at L (gate_of cfg k) r = fone -> r < n ->
      eval n (fixed_at L) (selector_at L) adv r g = fzero.
    Proof.
      intros g k r Hg Hs Hr. destruct Hinv as (rs & TR & G & _). rewrite Forall_forall in G.
      assert (X : In (gate_of cfg k, r) (lo_sel L)).
      { destruct (selector_at_cases L (gate_of cfg k) r) as [[X _]|[_ X]]; [assumption|]. exfalso. rewrite X in Hs. exact (f_1_neq_0 (eq_sym Hs)). }
      apply (read_sel L rs _ _ TR) in X. destruct X as (st & evs & o & HIn & HE & ->).
      assert (SK : In (gate_of cfg k) sels) by (destruct k; cbn; auto).
      destruct (G _ HIn) as [(ri & ws & xs & E & Lx & V)|[(ri & ws & xs & pw & ys & E & _)|Q]]; cbn [snd] in *.
      - subst evs. apply (U ev_permute_sel) in HE. destruct HE as [Ho EK].
        assert (GK : gates_kind T s cfg k = gates_kind T s cfg (kd s o)).
        { assert (ND : p5_full cfg <> p5_partial cfg /\ p5_full cfg <> p5_single cfg /\ p5_partial cfg <> p5_single cfg).
          { clear - NDsel. repeat match goal with H : NoDup (_ :: _) |- _ => inversion H; clear H; subst end. cbn in *. intuition. }
          destruct k, (kd s o); cbn [gate_of] in EK; try reflexivity; exfalso; intuition congruence. }
        rewrite GK in Hg. revert g Hg. rewrite EK in Hs.
        assert (LV : length (values ws) = T) by (rewrite V, map_length; exact Lx).
        assert (ADV : forall i q, i < T -> q <= R -> last_write (lo_adv L) (sc i) (q + st)
            = Some (nth i (vs s (map Some xs) q) None)).
        { intros i q Hi Hq. rewrite (read_adv L rs st _ (sc i) q TR HIn).
          - rewrite (B adv_permute), V. apply (B p5_adv_state); [now rewrite map_length|assumption|assumption].
          - apply touched_adv. eexists. rewrite (B adv_permute). apply (B p5_adv_in); [assumption|]. left. exists i. eauto. }
        assert (RV : forall i q, i < T -> q <= R -> adv (sc i) (q + st) = rda (p5_adv T s cfg (map Some xs)) (sc i) q).
        { intros i q Hi Hq. rewrite (B honest_state) by assumption. apply honest_has. rewrite (ADV i q Hi Hq).
          rewrite (B vs_some), (B nth_map_some); [reflexivity|]. now rewrite (B steps_length). }
        assert (FR : S (o + st) < u).
        { destruct Hfit as [Y _]. pose proof (ADV 0 (S o) ltac:(lia) ltac:(lia)) as X. apply last_write_in in X.
          apply Y in X. exact X. }
        assert (FX : forall c q w, In (c, q, w) (p5_fix T s cfg) -> fixed_at L c (q + st) = rd (p5_fix T s cfg) c q).
        { intros c q w H. unfold fixed_at, rd. rewrite (read_fix L rs st _ c q TR HIn); [now rewrite (B fix_permute)|].
          apply touched_fix. exists w. now rewrite (B fix_permute). }
        apply (B row_on Inv1 Inv2 n (fixed_at L) (selector_at L)); [lia|assumption| | |].
        + intros i Hi. rewrite (FX _ _ (rcf s (first_round (kd s o)) i)).
          * now apply (B p5_fix_a).
          * apply (B p5_fix_in). split; [assumption|]. exists i. auto.
        + intros q i K Hi. rewrite (FX _ _ (rcf s (q + 1) i)).
          * now apply (B p5_fix_b).
          * apply (B p5_fix_in). split; [assumption|]. exists i. split; [assumption|]. right. eauto.
        + pose proof (B block_honest xs Lx o Ho) as K.
          apply (kind_iff T s Hspec HT) in K; [|now apply (B kd_fits)].
          apply (kind_iff T s Hspec HT); [now apply (B kd_fits)|].
          assert (E1 : lst T (fun i => adv (sc i) (S (o + st))) = lst T (fun i => rda (p5_adv T s cfg (map Some xs)) (sc i) (S o))).
          { apply (proj1 (lst_ext T HT _ _)). intros i Hi. exact (RV i (S o) Hi ltac:(lia)). }
          assert (E0 : lst T (fun i => adv (sc i) (o + st)) = lst T (fun i => rda (p5_adv T s cfg (map Some xs)) (sc i) o)).
          { apply (proj1 (lst_ext T HT _ _)). intros i Hi. exact (RV i o Hi ltac:(lia)). }
          rewrite E1, E0. destruct K as [K1 K2]. split; [exact K1|].
          destruct (kd s o) as [q|q|q] eqn:KD; auto.
          assert (SB : adv (p5_sbox cfg) (o + st) = rda (p5_adv T s cfg (map Some xs)) (p5_sbox cfg) o).
          { assert (X : exists v, last_write (p5_adv T s cfg (map Some xs)) (p5_sbox cfg) o = Some (Some v)).
            { rewrite (B p5_adv_sbox _ o q) by (rewrite ?map_length; assumption).
              rewrite KD. cbn [kind_sbox]. rewrite (B vs_some), (B add_constants_some), (B pow_first_some).
              assert (Ly : length (fold_left (fun x0 k0 => kind_step s k0 x0) (firstn o (p5_rows s)) xs) = T)
                by (apply (B steps_length); assumption).
              pose proof (B kd_fits o Ho) as Fk. rewrite KD in Fk. cbn [kind_fits] in Fk.
              pose proof (rcl_length T s Hspec q ltac:(lia)) as Lr.
              match goal with |- context [vadd ?l _] => set (z := l) in * end.
              destruct z as [|a z]; [cbn in Ly; lia|]. destruct (rcl s q) as [|b l]; [cbn in Lr; lia|].
              cbn [vadd map hd]. eauto. }
            destruct X as [v X]. unfold rda. rewrite X. apply honest_has.
            rewrite (read_adv L rs st _ (p5_sbox cfg) o TR HIn); [now rewrite (B adv_permute), V|].
            apply touched_adv. exists (Some v). rewrite (B adv_permute), V. eapply last_write_in. exact X. }
          pose proof (RV 0 o ltac:(lia) ltac:(lia)) as R0. cbn [Nat.add] in *.
          rewrite SB, R0. exact K2.
      - subst evs. apply (U ev_add_sel) in HE. destruct HE as [HE _]. exfalso.
        clear - NDsel HE. repeat match goal with H : NoDup (_ :: _) |- _ => inversion H; clear H; subst end. destruct k; cbn in *; intuition.
      - exfalso. exact (Q _ _ HE SK).
    Qed.

    Lemma honest_pad : forall g r, In g (pad_gates RATE cfg) -> selector_at L (p5_pad cfg) r = fone -> r < n ->
      eval n (fixed_at L) (selector_at L) adv r g = fzero.
    Proof.
      intros g r Hg Hs Hr. destruct Hinv as (rs & TR & G & _). rewrite Forall_forall in G.
      assert (X : In (p5_pad cfg, r) (lo_sel L)).
      { destruct (selector_at_cases L (p5_pad cfg) r) as [[X _]|[_ X]]; [assumption|]. exfalso. rewrite X in Hs. exact (f_1_neq_0 (eq_sym Hs)). }
      apply (read_sel L rs _ _ TR) in X. destruct X as (st & evs & o & HIn & HE & ->).
      destruct (G _ HIn) as [(ri & ws & xs & E & Lx & V)|[(ri & ws & xs & pw & ys & E & Lx & V & P)|Q]]; cbn [snd] in *.
      - subst evs. apply (U ev_permute_sel) in HE. destruct HE as [_ HE]. exfalso.
        clear - NDsel HE. repeat match goal with H : NoDup (_ :: _) |- _ => inversion H; clear H; subst end.
        destruct (kd s o); cbn in *; intuition.
      - subst evs. apply (U ev_add_sel) in HE. destruct HE as [_ ->]. cbn [Nat.add] in *.
        assert (W : forall c q v, last_write (adv_ws (ev_add T RATE cfg ri ws pw)) c q = Some (Some v) -> adv c (q + st) = v).
        { intros c q v H. apply honest_has. pose proof (cell_has_adv L rs st _ c q v TR HIn H) as X. exact X. }
        assert (W2 : forall i, i < T -> exists v, last_write (adv_ws (ev_add T RATE cfg ri ws pw)) (sc i) 2 = Some (Some v)).
        { intros i Hi. rewrite (U add_adv_2), V, (sums_some xs ys pw Lx P) by assumption.
          rewrite (B nth_map_some); [eauto|]. unfold padd, lst. now rewrite map_length, seq_length. }
        assert (FR : 2 + st < u).
        { destruct Hfit as [Y _]. destruct (W2 0 ltac:(lia)) as [v X].
          pose proof (cell_has_adv L rs st _ _ _ v TR HIn X) as Z. cbn [cell_has] in Z. apply last_write_in in Z. now apply Y in Z. }
        revert g Hg. apply (pad_on T RATE HT HR cfg n (fixed_at L) (selector_at L) adv (S st)); [lia|lia|lia|assumption|].
        assert (C0 : forall i, i < T -> adv (sc i) st = nth i xs fzero).
        { intros i Hi. apply (W (sc i) 0). rewrite (U add_adv_0), V, (B nth_map_some) by (assumption || lia). reflexivity. }
        assert (C1 : forall i, i < RATE -> adv (sc i) (S st) = nth i ys fzero).
        { intros i Hi. apply (W (sc i) 1). rewrite (U add_adv_1) by assumption. now rewrite P. }
        assert (C2 : forall i, i < T -> adv (sc i) (S (S st)) = nth i (padd xs ys) fzero).
        { intros i Hi. apply (W (sc i) 2). rewrite (U add_adv_2), V, (sums_some xs ys pw Lx P), (B nth_map_some); [reflexivity| |assumption].
          unfold padd, lst. now rewrite map_length, seq_length. }
        unfold pad_ok, srow. replace (S st - 1) with st by lia. split.
        + intros i Hi. rewrite C0, C1, C2 by lia. unfold padd, lst. rewrite nth_map_seq by lia.
          now rewrite (proj2 (Nat.ltb_lt i RATE)).
        + rewrite C0, C2 by lia. unfold padd, lst. rewrite nth_map_seq by lia. now rewrite Nat.ltb_irrefl.
      - exfalso. apply (Q _ _ HE). cbn. auto.
    Qed.

    Lemma honest_gates : gates_hold n L adv (p5_gates T RATE s cfg).
    Proof.
      intros g r Hg Hr. unfold p5_gates in Hg. rewrite !in_app_iff in Hg. destruct Hg as [Hg|[Hg|[Hg|Hg]]].
      - destruct (selector_at_cases L (p5_full cfg) r) as [[_ X]|[_ X]].
        + now apply (honest_rows g (KFull 0)).
        + eapply full_off; eassumption.
      - destruct (selector_at_cases L (p5_partial cfg) r) as [[_ X]|[_ X]].
        + now apply (honest_rows g (KPair 0)).
        + eapply partial_off; eassumption.
      - destruct (selector_at_cases L (p5_single cfg) r) as [[_ X]|[_ X]].
        + now apply (honest_rows g (KSingle 0)).
        + eapply single_off; eassumption.
      - destruct (selector_at_cases L (p5_pad cfg) r) as [[_ X]|[_ X]].
        + now apply honest_pad.
        + eapply pad_off; eassumption.
    Qed.
  End Honest.
End Use.
