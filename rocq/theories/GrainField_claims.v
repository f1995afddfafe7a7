(** The lemmas behind C48: the field elements drawn from the Grain bits. *)
From Coq Require Import ZArith Znumtheory NArith List Arith Lia Bool.
From Verif Require Import Field Rust ListAux BigSum Link Primitives Grain Mds Grain_proof Mds_proof GrainUse.
Import ListNotations.
Local Open Scope nat_scope.

Lemma seed_claim : forall nb t f p, grain_seed nb t f p = seed_spec nb t f p.
Proof.
  intros nb t f p. unfold grain_seed, seed_spec, set_bits, msb_bits, STATE.
  cbn [seq fold_left map repeat upd Nat.add Nat.sub app N.of_nat Pos.of_succ_nat Pos.succ]. reflexivity.
Qed.

Lemma number_acc : forall l acc, fold_left (fun (acc : Z) (b : bool) => 2 * acc + (if b then 1 else 0))%Z l acc = (acc * 2 ^ Z.of_nat (length l) + bits_value l)%Z.
Proof.
  induction l as [|b l IH]; intros acc; cbn [fold_left length bits_value]; [rewrite Z.pow_0_r; lia|].
  rewrite IH, Nat2Z.inj_succ, Z.pow_succ_r by lia. destruct b; lia.
Qed.
Lemma number_value : forall l, number l = bits_value l.
Proof. intros l. unfold number. rewrite number_acc. lia. Qed.

Section Draws.
  Context {F : Type} {FO : FieldOps F} {PF : PrimeField F}.
  Variable b : nat -> bool.
  Hypothesis Hrec : forall i, b (i + 80) = xorb (b (i + 62)) (xorb (b (i + 51)) (xorb (b (i + 38))
        (xorb (b (i + 23)) (xorb (b (i + 13)) (b i))))).
  Notation NB := (num_bits (F := F)).

  (** [cs] are the next chunks of the shrunk sequence, which go from position [k] of the sequence to position [k'] *)
  Definition reads (k k' : nat) (cs : list (list bool)) : Prop :=
    Forall (fun c => length c = NB) cs /\ exists i, concat cs = shrunk b k i /\ k' = k + 2 * i.

  Lemma reads_nil : forall k, reads k k [].
  Proof. intros k. split; [constructor|]. exists 0. split; [reflexivity|lia]. Qed.
  Lemma reads_app : forall k k1 k2 cs cs', reads k k1 cs -> reads k1 k2 cs' -> reads k k2 (cs ++ cs').
  Proof.
    intros k k1 k2 cs cs' (A & i & E & ->) (A' & j & E' & ->). split; [now apply Forall_app|].
    exists (i + j). rewrite concat_app, shrunk_app, E, E'. split; [reflexivity|lia].
  Qed.
  Lemma reads_take : forall fuel k g l g', at_bit b k g -> grain_take fuel NB g = Some (l, g') ->
    exists k', reads k k' [l] /\ at_bit b k' g'.
  Proof.
    intros fuel k g l g' A E. destruct (grain_take_at b Hrec NB fuel k g l g' A E) as (Hl & i & -> & A').
    exists (k + 2 * i). split; [|assumption]. split; [now repeat constructor|]. exists i. cbn [concat]. now rewrite app_nil_r.
  Qed.

  Lemma accepted_app : forall x y, accepted_elements (F := F) (x ++ y) = accepted_elements x ++ accepted_elements y.
  Proof. intros. unfold accepted_elements. now rewrite map_app, filter_app, map_app. Qed.

  Definition stops (cs : list (list bool)) : Prop := cs <> [] -> (number (last cs []) < modulus (F := F))%Z.
  Lemma stops_app : forall x y, stops x -> stops y -> stops (x ++ y).
  Proof.
    intros x y Hx Hy. destruct y as [|c y]; [now rewrite app_nil_r|]. intros _.
    replace (last (x ++ c :: y) []) with (last (c :: y) []); [apply Hy; discriminate|].
    clear. induction x as [|a x IH]; [reflexivity|]. rewrite IH at 1. cbn [app]. destruct (x ++ c :: y) eqn:E; [now destruct x|reflexivity].
  Qed.

  Lemma next_reads : forall tries fuel k g x g', at_bit b k g -> next_field_element (F := F) tries fuel g = Some (x, g') ->
    exists k' cs, reads k k' cs /\ at_bit b k' g' /\ [x] = accepted_elements cs /\ stops cs.
  Proof.
    induction tries as [|n IH]; intros fuel k g x g' A E; cbn [next_field_element] in E; [discriminate|].
    destruct (grain_take fuel NB g) as [[l g1]|] eqn:E1; [|discriminate].
    destruct (reads_take fuel k g l g1 A E1) as (k1 & R & A1).
    destruct (Z.ltb_spec (bits_value l) (modulus (F := F))) as [Hl|Hl].
    - injection E as <- <-. exists k1, [l]. split; [assumption|]. split; [assumption|]. split.
      + unfold accepted_elements. cbn [map filter]. rewrite number_value.
        replace (bits_value l <? modulus)%Z with true by (symmetry; now apply Z.ltb_lt). reflexivity.
      + intros _. cbn [last]. now rewrite number_value.
    - destruct (IH fuel k1 g1 x g' A1 E) as (k2 & cs & R2 & A2 & Ex & St). exists k2, ([l] ++ cs).
      split; [now apply (reads_app _ k1)|]. split; [assumption|]. rewrite accepted_app, <- Ex. split.
      + unfold accepted_elements. cbn [map filter]. rewrite number_value.
        replace (bits_value l <? modulus)%Z with false by (symmetry; now apply Z.ltb_ge). reflexivity.
      + destruct cs as [|c cs]; [discriminate Ex|]. intros _. change (last ([l] ++ c :: cs) []) with (last (c :: cs) []). apply St. discriminate.
  Qed.

  Lemma draw_reads : forall tries fuel n k g l g', at_bit b k g -> draw (next_field_element (F := F) tries fuel) n g = Some (l, g') ->
    exists k' cs, reads k k' cs /\ at_bit b k' g' /\ l = accepted_elements cs /\ stops cs.
  Proof.
    induction n as [|n IH]; intros k g l g' A E; cbn [draw] in E.
    - injection E as <- <-. exists k, []. split; [apply reads_nil|]. split; [assumption|]. split; [reflexivity|]. now intros [].
    - destruct (next_field_element tries fuel g) as [[x g1]|] eqn:E1; [|discriminate].
      destruct (draw _ n g1) as [[l2 g2]|] eqn:E2; [|discriminate]. injection E as <- <-.
      destruct (next_reads tries fuel k g x g1 A E1) as (k1 & c1 & R1 & A1 & X1 & S1).
      destruct (IH k1 g1 l2 g2 A1 E2) as (k2 & c2 & R2 & A2 & X2 & S2).
      exists k2, (c1 ++ c2). split; [now apply (reads_app _ k1)|]. split; [assumption|].
      split; [rewrite accepted_app, <- X1, <- X2; reflexivity|now apply stops_app].
  Qed.
  Lemma rows_reads : forall tries fuel T n k g rc g', at_bit b k g ->
    draw_rows (next_field_element (F := F) tries fuel) T n g = Some (rc, g') ->
    exists k' cs, reads k k' cs /\ at_bit b k' g' /\ concat rc = accepted_elements cs /\ stops cs
      /\ length rc = n /\ Forall (fun r => length r = T) rc.
  Proof.
    induction n as [|n IH]; intros k g rc g' A E; cbn [draw_rows] in E.
    - injection E as <- <-. exists k, []. split; [apply reads_nil|]. split; [assumption|]. split; [reflexivity|]. split; [now intros []|]. now split.
    - destruct (draw _ T g) as [[row g1]|] eqn:E1; [|discriminate].
      destruct (draw_rows _ T n g1) as [[rc2 g2]|] eqn:E2; [|discriminate]. injection E as <- <-.
      destruct (draw_reads tries fuel T k g row g1 A E1) as (k1 & c1 & R1 & A1 & X1 & S1).
      destruct (IH k1 g1 rc2 g2 A1 E2) as (k2 & c2 & R2 & A2 & X2 & S2 & L2 & F2).
      exists k2, (c1 ++ c2). split; [now apply (reads_app _ k1)|]. split; [assumption|].
      split; [cbn [concat]; rewrite accepted_app, X1, X2; reflexivity|]. split; [now apply stops_app|].
      split; [cbn; now rewrite L2|]. constructor; [now apply draw_length in E1|assumption].
  Qed.

  Lemma plain_reads : forall fuel n k g l g', at_bit b k g -> draw (next_field_element_without_rejection (F := F) fuel) n g = Some (l, g') ->
    exists k' cs, reads k k' cs /\ at_bit b k' g' /\ l = reduced_elements cs /\ length cs = n.
  Proof.
    induction n as [|n IH]; intros k g l g' A E; cbn [draw] in E.
    - injection E as <- <-. exists k, []. split; [apply reads_nil|]. now split.
    - unfold next_field_element_without_rejection at 1 in E.
      destruct (grain_take fuel NB g) as [[c g1]|] eqn:E1; [|discriminate].
      destruct (draw _ n g1) as [[l2 g2]|] eqn:E2; [|discriminate]. injection E as <- <-.
      destruct (reads_take fuel k g c g1 A E1) as (k1 & R1 & A1).
      destruct (IH k1 g1 l2 g2 A1 E2) as (k2 & c2 & R2 & A2 & X2 & L2).
      exists k2, ([c] ++ c2). split; [now apply (reads_app _ k1)|]. split; [assumption|].
      split; [unfold reduced_elements in *; cbn [app map]; now rewrite number_value, X2|]. cbn. now rewrite L2.
  Qed.

  Lemma NoDup_distinct : forall l : list F, NoDup l -> all_distinct l = true.
  Proof.
    induction l as [|x l IH]; intros H; [reflexivity|]. inversion H as [|? ? Hn Hd]; subst. cbn [all_distinct]. rewrite (IH Hd), andb_true_r.
    apply negb_true_iff. destruct (existsb (feqb x) l) eqn:E; [|reflexivity]. exfalso. apply existsb_exists in E.
    destruct E as (y & Hy & E). apply feqb_eq in E. now subst y.
  Qed.

  (** groups of [2 T] chunks *)
  Notation group_ok T := (Forall (fun g : list (list bool) => length g = 2 * T)).
  Lemma unique_reads : forall tries fuel T k g (xs ys : list F) g', at_bit b k g ->
    draw_unique tries fuel T g = Some (xs, ys, g') ->
    exists k' bad gr, reads k k' (concat bad ++ gr) /\ at_bit b k' g' /\ group_ok T bad /\ length gr = 2 * T
      /\ xs ++ ys = reduced_elements gr /\ length xs = T /\ NoDup (reduced_elements (F := F) gr)
      /\ Forall (fun x => ~ NoDup (reduced_elements (F := F) x)) bad.
  Proof.
    induction tries as [|n IH]; intros fuel T k g xs ys g' A E; [discriminate|].
    pose proof (draw_unique_facts _ _ _ _ _ _ _ E) as (Lx & Ly & ND). cbn [draw_unique] in E.
    destruct (draw _ (2 * T) g) as [[vals g1]|] eqn:E1; [|discriminate].
    destruct (plain_reads fuel (2 * T) k g vals g1 A E1) as (k1 & c & R1 & A1 & X1 & L1).
    destruct (all_distinct vals) eqn:D.
    - injection E as <- <- <-. rewrite firstn_skipn in ND. exists k1, [], c. rewrite firstn_skipn. rewrite <- X1.
      split; [assumption|]. split; [assumption|]. split; [constructor|]. split; [assumption|]. split; [reflexivity|].
      split; [assumption|]. split; [assumption|constructor].
    - destruct (IH fuel T k1 g1 xs ys g' A1 E) as (k2 & bad & gr & R2 & A2 & G & Lg & Xg & _ & N & Bd).
      exists k2, (c :: bad), gr. cbn [concat]. rewrite <- app_assoc. split; [now apply (reads_app _ k1)|].
      split; [assumption|]. split; [now constructor|]. split; [assumption|]. split; [assumption|]. split; [assumption|]. split; [assumption|].
      constructor; [|assumption]. intros X. apply NoDup_distinct in X. rewrite <- X1 in X. congruence.
  Qed.

  (** [js] are the positions of the groups without repetitions *)
  Definition good_groups (gs : list (list (list bool))) (js : list nat) : Prop :=
    NoDup js /\ forall i, In i js <-> i < length gs /\ NoDup (reduced_elements (F := F) (nth i gs [])).

  Lemma good_bad : forall gs, Forall (fun x => ~ NoDup (reduced_elements (F := F) x)) gs -> good_groups gs [].
  Proof.
    intros gs H. split; [constructor|]. intros i. split; [intros []|]. intros [Hi N]. rewrite Forall_forall in H. exact (H _ (nth_In gs [] Hi) N).
  Qed.
  Lemma good_step : forall bad gr gs js, Forall (fun x => ~ NoDup (reduced_elements (F := F) x)) bad ->
    NoDup (reduced_elements (F := F) gr) -> good_groups gs js ->
    good_groups (bad ++ gr :: gs) (length bad :: map (fun j => S (length bad + j)) js).
  Proof.
    intros bad gr gs js Hb Hg [N H]. split.
    - constructor.
      + intros X. apply in_map_iff in X. destruct X as (j & E & _). lia.
      + apply FinFun.Injective_map_NoDup; [|assumption]. intros x y E. lia.
    - intros i. rewrite app_length. cbn [length In]. rewrite in_map_iff. split.
      + intros [E|(j & E & Hj)]; subst i.
        * split; [lia|]. rewrite app_nth2, Nat.sub_diag by lia. exact Hg.
        * apply H in Hj. destruct Hj as [Hj Nj]. split; [lia|]. rewrite app_nth2 by lia.
          replace (S (length bad + j) - length bad) with (S j) by lia. exact Nj.
      + intros [Hi Ni]. destruct (Nat.lt_trichotomy i (length bad)) as [K|[K|K]].
        * exfalso. rewrite app_nth1 in Ni by lia. rewrite Forall_forall in Hb. exact (Hb _ (nth_In bad [] K) Ni).
        * now left.
        * right. exists (i - S (length bad)). split; [lia|]. apply H. split; [lia|].
          rewrite app_nth2 in Ni by lia. replace (i - length bad) with (S (i - S (length bad))) in Ni by lia. exact Ni.
  Qed.

  Lemma selected_reads : forall select tries fuel T k g (xs ys : list F) g', at_bit b k g ->
    draw_selected select tries fuel T g = Some (xs, ys, g') ->
    exists k' before gr js, reads k k' (concat before ++ gr) /\ at_bit b k' g' /\ group_ok T before /\ length gr = 2 * T
      /\ xs ++ ys = reduced_elements gr /\ length xs = T /\ NoDup (reduced_elements (F := F) gr)
      /\ good_groups before js /\ length js = select.
  Proof.
    induction select as [|s IH]; intros tries fuel T k g xs ys g' A E; cbn [draw_selected] in E.
    - destruct (draw_unique tries fuel T g) as [[[x y] g1]|] eqn:E1; [|discriminate]. injection E as <- <- <-.
      destruct (unique_reads tries fuel T k g x y g1 A E1) as (k1 & bad & gr & R & A1 & G & Lg & X & Lx & N & Bd).
      exists k1, bad, gr, []. repeat (split; [assumption|]). split; [now apply good_bad|reflexivity].
    - destruct (draw_unique tries fuel T g) as [[[x y] g1]|] eqn:E1; [|discriminate].
      destruct (unique_reads tries fuel T k g x y g1 A E1) as (k1 & bad & gr & R & A1 & G & Lg & X & Lx & N & Bd).
      destruct (IH tries fuel T k1 g1 xs ys g' A1 E) as (k2 & bef & gr2 & js & R2 & A2 & G2 & Lg2 & X2 & Lx2 & N2 & J & Lj).
      exists k2, (bad ++ gr :: bef), gr2, (length bad :: map (fun j => S (length bad + j)) js).
      split. { rewrite concat_app. cbn [concat]. rewrite <- !app_assoc. rewrite app_assoc. now apply (reads_app _ k1). }
      split; [assumption|]. split; [apply Forall_app; split; [assumption|now constructor]|]. split; [assumption|].
      split; [assumption|]. split; [assumption|]. split; [assumption|]. split; [now apply good_step|].
      cbn [length]. now rewrite map_length, Lj.
  Qed.
End Draws.

Section Claims.
  Context {F : Type} {FO : FieldOps F} {PF : PrimeField F}.

  (** C48 *)
  Theorem generator_claim : forall tries fuel T r_f r_p select (rc m mi : list (list F)) bits,
    let NB := num_bits (F := F) in
    grain_sequence (seed_spec (N.of_nat NB) (N.of_nat T) (N.of_nat r_f) (N.of_nat r_p)) bits ->
    gen_constants tries fuel T r_f r_p select = Some (Ok (rc, m, mi)) ->
    exists pairs chunks before group,
      shrunk bits 240 pairs = concat (chunks ++ concat before ++ group)
      /\ Forall (fun c => length c = NB) (chunks ++ concat before ++ group)
      /\ length rc = r_f + r_p /\ Forall (fun r => length r = T) rc
      /\ concat rc = accepted_elements chunks
      /\ (chunks <> [] -> (number (last chunks []) < modulus (F := F))%Z)
      /\ Forall (fun g => length g = 2 * T) (before ++ [group])
      /\ NoDup (reduced_elements (F := F) group)
      /\ (exists js, length js = select /\ NoDup js
            /\ forall i, In i js <-> i < length before /\ NoDup (reduced_elements (F := F) (nth i before [])))
      /\ forall i j, i < T -> j < T ->
           fmul (fadd (nth i (reduced_elements group) fzero) (nth (T + j) (reduced_elements group) fzero)) (mnth m i j) = fone.
  Proof.
    intros tries fuel T r_f r_p select rc m mi bits NB HS H. rewrite <- seed_claim in HS.
    unfold gen_constants in H. cbv zeta in H. fold NB in H.
    set (g0 := grain_new _ _ _ _) in H.
    assert (A0 : at_bit bits 240 g0) by now apply grain_new_at.
    destruct (draw_rows _ T (r_f + r_p) g0) as [[rc' g1]|] eqn:E1; [|discriminate].
    destruct (rows_reads bits (proj2 HS) tries fuel T (r_f + r_p) 240 g0 rc' g1 A0 E1) as (k1 & cs & R1 & A1 & X1 & S1 & L1 & F1).
    destruct (generate_mds tries fuel T select g1) as [r|] eqn:E2; [|discriminate]. unfold generate_mds in E2.
    destruct (draw_selected select tries fuel T g1) as [[[xs ys] g2]|] eqn:E3; [|discriminate].
    destruct (selected_reads bits (proj2 HS) select tries fuel T k1 g1 xs ys g2 A1 E3)
      as (k2 & bef & gr & js & R2 & A2 & G & Lg & X & Lx & N & [J1 J2] & Lj).
    injection E2 as <-.
    destruct (reads_app bits _ _ _ _ _ R1 R2) as (FA & i & EC & _).
    assert (CM : cauchy T xs ys = Ok m /\ rc' = rc).
    { destruct (cauchy T xs ys) as [m'|]; [|discriminate H]. cbn [bind] in H. destruct (cauchy_inv T xs ys); [|discriminate H].
      cbn [bind] in H. injection H as -> -> _. now split. }
    destruct CM as [CM ->].
    exists i, cs, bef, gr. split; [now symmetry|]. split; [assumption|]. split; [assumption|]. split; [assumption|]. split; [assumption|].
    split; [exact S1|]. split; [apply Forall_app; split; [assumption|now repeat constructor]|]. split; [assumption|].
    split; [exists js; now split|].
    intros a c Ha Hc. rewrite <- X, app_nth1, app_nth2 by lia. replace (T + c - length xs) with c by lia.
    destruct (cauchy_ok T xs ys m CM) as [Hnz ->]. rewrite mnth_map by assumption. apply finv_r. exact (Hnz a c Ha Hc).
  Qed.

  (** the bounds on the loops do not matter *)
  Lemma next_more : forall fuel fuel' g r, fuel <= fuel' -> grain_next fuel g = Some r -> grain_next fuel' g = Some r.
  Proof.
    induction fuel as [|f IH]; intros [|f'] g r Hf H; cbn [grain_next] in *; try discriminate; [lia|].
    destruct (get_next_bit g) as [[] g1]; [assumption|]. destruct (get_next_bit g1) as [x g2]. apply (IH f'); [lia|assumption].
  Qed.
  Lemma take_more : forall n fuel fuel' g r, fuel <= fuel' -> grain_take fuel n g = Some r -> grain_take fuel' n g = Some r.
  Proof.
    induction n as [|n IH]; intros fuel fuel' g r Hf H; cbn [grain_take] in *; [assumption|].
    destruct (grain_next fuel g) as [[x g1]|] eqn:E1; [|discriminate]. rewrite (next_more _ _ _ _ Hf E1).
    destruct (grain_take fuel n g1) as [[l g2]|] eqn:E2; [|discriminate]. now rewrite (IH _ _ _ _ Hf E2).
  Qed.
  Lemma element_more : forall tries tries' fuel fuel' g (r : F * grain), tries <= tries' -> fuel <= fuel' ->
    next_field_element tries fuel g = Some r -> next_field_element tries' fuel' g = Some r.
  Proof.
    induction tries as [|n IH]; intros [|n'] fuel fuel' g r Ht Hf H; cbn [next_field_element] in *; try discriminate; [lia|].
    destruct (grain_take fuel num_bits g) as [[l g1]|] eqn:E; [|discriminate]. rewrite (take_more _ _ _ _ _ Hf E).
    destruct (bits_value l <? modulus)%Z; [assumption|]. apply (IH n' fuel); [lia|assumption|assumption].
  Qed.
  Lemma draw_more : forall (next next' : grain -> option (F * grain)) n g r, (forall g r, next g = Some r -> next' g = Some r) ->
    draw next n g = Some r -> draw next' n g = Some r.
  Proof.
    intros next next' n g r Hn. revert g r. induction n as [|n IH]; intros g r H; cbn [draw] in *; [assumption|].
    destruct (next g) as [[x g1]|] eqn:E1; [|discriminate]. rewrite (Hn _ _ E1).
    destruct (draw next n g1) as [[l g2]|] eqn:E2; [|discriminate]. now rewrite (IH _ _ E2).
  Qed.
  Lemma rows_more : forall (next next' : grain -> option (F * grain)) T n g r, (forall g r, next g = Some r -> next' g = Some r) ->
    draw_rows next T n g = Some r -> draw_rows next' T n g = Some r.
  Proof.
    intros next next' T n g r Hn. revert g r. induction n as [|n IH]; intros g r H; cbn [draw_rows] in *; [assumption|].
    destruct (draw next T g) as [[x g1]|] eqn:E1; [|discriminate]. rewrite (draw_more _ _ _ _ _ Hn E1).
    destruct (draw_rows next T n g1) as [[l g2]|] eqn:E2; [|discriminate]. now rewrite (IH _ _ E2).
  Qed.
  Lemma unique_more : forall tries tries' fuel fuel' T g (r : list F * list F * grain), tries <= tries' -> fuel <= fuel' ->
    draw_unique tries fuel T g = Some r -> draw_unique tries' fuel' T g = Some r.
  Proof.
    induction tries as [|n IH]; intros [|n'] fuel fuel' T g r Ht Hf H; cbn [draw_unique] in *; try discriminate; [lia|].
    destruct (draw _ (2 * T) g) as [[l g1]|] eqn:E; [|discriminate].
    assert (M : forall g (r : F * grain), next_field_element_without_rejection fuel g = Some r -> next_field_element_without_rejection fuel' g = Some r).
    2:{ rewrite (draw_more _ _ _ _ _ M E). destruct (all_distinct l); [assumption|]. apply (IH n' fuel); [lia|assumption|assumption]. }
    - clear - Hf. intros g r H. unfold next_field_element_without_rejection in *.
      destruct (grain_take fuel num_bits g) as [[l g1]|] eqn:E; [|discriminate]. now rewrite (take_more _ _ _ _ _ Hf E).
  Qed.
  Lemma selected_more : forall select tries tries' fuel fuel' T g (r : list F * list F * grain), tries <= tries' -> fuel <= fuel' ->
    draw_selected select tries fuel T g = Some r -> draw_selected select tries' fuel' T g = Some r.
  Proof.
    induction select as [|s IH]; intros tries tries' fuel fuel' T g r Ht Hf H; cbn [draw_selected] in *;
      (destruct (draw_unique tries fuel T g) as [[[x y] g1]|] eqn:E; [|discriminate]); rewrite (unique_more _ _ _ _ _ _ _ Ht Hf E); [assumption|].
    now apply (IH tries tries' fuel fuel').
  Qed.
  Theorem generator_more_claim : forall tries tries' fuel fuel' T r_f r_p select (r : result (list (list F) * list (list F) * list (list F))),
    tries <= tries' -> fuel <= fuel' ->
    gen_constants tries fuel T r_f r_p select = Some r -> gen_constants tries' fuel' T r_f r_p select = Some r.
  Proof.
    intros tries tries' fuel fuel' T r_f r_p select r Ht Hf H. unfold gen_constants in *. cbv zeta in *.
    destruct (draw_rows _ T (r_f + r_p) _) as [[rc g]|] eqn:E; [|discriminate].
    rewrite (rows_more _ (next_field_element tries' fuel') _ _ _ _ (fun g r => element_more _ _ _ _ g r Ht Hf) E).
    unfold generate_mds in *. destruct (draw_selected select tries fuel T g) as [[[xs ys] g2]|] eqn:E2; [|discriminate].
    now rewrite (selected_more _ _ _ _ _ _ _ _ Ht Hf E2).
  Qed.

  Theorem num_bits_claim : (2 ^ Z.of_nat (num_bits (F := F) - 1) <= modulus (F := F) < 2 ^ Z.of_nat (num_bits (F := F)))%Z.
  Proof.
    pose proof (prime_ge_2 _ (modulus_prime (F := F))) as P. 
    assert (P0 : (0 < modulus (F := F))%Z) by lia. pose proof (Z.log2_spec _ P0) as Q.
    pose proof (Z.log2_nonneg (modulus (F := F))) as R. unfold num_bits.
    replace (Z.of_nat (Z.to_nat (Z.log2 modulus + 1) - 1)) with (Z.log2 (modulus (F := F))) by lia.
    now rewrite Z2Nat.id, Z.add_1_r by lia.
  Qed.
End Claims.
