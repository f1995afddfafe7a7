(** The lemmas behind C50: what the configurations add to a constraint system. *)
From Coq Require Import ZArith List Arith Lia Bool.
From Verif Require Import Field Rust ListAux Primitives Specs BaseHash SpecHash BigSum Link Halo2 Septidon PermuteChip ChipUse Pow5 SpongeTable
  TableUse DegreeUse SeptGate_proof Pow5Gate_proof Pow5Block_proof Pow5_claims TableInv_proof.
Import ListNotations.
Local Open Scope nat_scope.

Section Claims.
  Context {F : Type} {FO : FieldOps F} {PF : PrimeField F}.

  Definition within (d : nat) (lo hi : Z) (g : expr F) : Prop :=
    degree g <= d /\ forall r, In r (rotations g) -> (lo <= r <= hi)%Z.
  Lemma within_sum : forall d lo hi a b, within d lo hi a -> within d lo hi b -> within d lo hi (ESum a b).
  Proof.
    intros d lo hi a b [A1 A2] [B1 B2]. split; cbn [degree rotations]; [lia|]. intros r H. apply in_app_iff in H. destruct H; auto.
  Qed.
  Lemma within_neg : forall d lo hi a, within d lo hi a -> within d lo hi (ENeg a).
  Proof. intros d lo hi a H. exact H. Qed.
  Lemma within_sub : forall d lo hi a b, within d lo hi a -> within d lo hi b -> within d lo hi (esub a b).
  Proof. intros. apply within_sum; [assumption|]. now apply within_neg. Qed.
  Lemma within_scaled : forall d lo hi a c, within d lo hi a -> within d lo hi (EScaled a c).
  Proof. intros d lo hi a c H. exact H. Qed.
  Lemma within_prod : forall d e lo hi a b, within d lo hi a -> within e lo hi b -> within (d + e) lo hi (EProd a b).
  Proof.
    intros d e lo hi a b [A1 A2] [B1 B2]. split; cbn [degree rotations]; [lia|]. intros r H. apply in_app_iff in H. destruct H; auto.
  Qed.
  Lemma within_more : forall d e lo hi a, within d lo hi a -> d <= e -> within e lo hi a.
  Proof. intros d e lo hi a [A B] H. split; [lia|exact B]. Qed.
  Lemma within_sel : forall lo hi q, within 1 lo hi (ESel q).
  Proof. intros. split; [reflexivity|intros r []]. Qed.
  Lemma within_adv : forall lo hi c r, (lo <= r <= hi)%Z -> within 1 lo hi (EAdv c r).
  Proof. intros lo hi c r H. split; [reflexivity|]. intros x [<-|[]]. exact H. Qed.
  Lemma within_fix : forall lo hi c r, (lo <= r <= hi)%Z -> within 1 lo hi (EFix c r).
  Proof. intros lo hi c r H. split; [reflexivity|]. intros x [<-|[]]. exact H. Qed.
  Lemma within_const : forall lo hi c, within 0 lo hi (EConst c).
  Proof. intros lo hi c. split; [reflexivity|]. intros r []. Qed.
  Lemma within_sum_exprs : forall d lo hi l, (forall e, In e l -> within d lo hi e) -> within d lo hi (sum_exprs l).
  Proof.
    intros d lo hi [|e l] H; cbn [sum_exprs].
    - apply (within_more 0); [apply within_const|lia].
    - assert (X : forall l a, within d lo hi a -> (forall e, In e l -> within d lo hi e) -> within d lo hi (fold_left ESum l a)).
      { clear. induction l as [|x l IH]; intros a Ha Hl; cbn [fold_left]; [exact Ha|].
        apply IH; [|intros e He; apply Hl; now right]. apply within_sum; [exact Ha|apply Hl; now left]. }
      apply X; [apply H; now left|intros x Hx; apply H; now right].
  Qed.
  Lemma within_pow : forall lo hi a, within 1 lo hi a -> within 5 lo hi (p5_pow a).
  Proof.
    intros lo hi a H. unfold p5_pow. apply (within_prod 4 1); [|exact H]. apply (within_prod 2 2); apply (within_prod 1 1); exact H.
  Qed.

  Section Pow5.
    Variable T : nat.
    Variable s : spec F.
    Variable cfg : pow5.
    Notation W d e := (within d (-1) 1 e).

    Lemma w_in : forall i, W 1 (ESum (Pow5.cur cfg i) (qrc_a cfg i)).
    Proof. intros i. apply within_sum; [apply within_adv|apply within_fix]; lia. Qed.
    Lemma w_nxt : forall d i, 1 <= d -> W d (nxt cfg i).
    Proof. intros d i H. apply (within_more 1); [apply within_adv; lia|exact H]. Qed.
    Lemma w_mid : forall i, W 1 (ESum (mid T s cfg i) (qrc_b cfg i)).
    Proof.
      intros i. apply within_sum; [|apply within_fix; lia]. unfold mid.
      assert (X : forall l a, W 1 a -> W 1 (fold_left (fun acc j => ESum acc (EScaled (ESum (Pow5.cur cfg j) (qrc_a cfg j)) (mnth (mds s) i j))) l a)).
      { induction l as [|x l IH]; intros a Ha; cbn [fold_left]; [exact Ha|]. apply IH. apply within_sum; [exact Ha|]. apply within_scaled, w_in. }
      apply X. apply within_scaled. apply within_adv. lia.
    Qed.
    Lemma w_next : forall d i, 1 <= d -> W d (next T s cfg i).
    Proof.
      intros d i H. apply within_sum_exprs. intros e He. apply in_map_iff in He. destruct He as (j & <- & _).
      apply within_scaled. now apply w_nxt.
    Qed.

    Lemma p5_gates_within : forall g, In g (p5_gates T (T - 1) s cfg) -> W 6 g.
    Proof.
      intros g Hg. unfold p5_gates in Hg. rewrite !in_app_iff in Hg.
      assert (Q : forall q e, W 5 e -> W 6 (EProd (ESel q) e)) by (intros q e He; apply (within_prod 1 5); [apply within_sel|exact He]).
      destruct Hg as [Hg|[Hg|[Hg|Hg]]].
      - unfold full_gates in Hg. apply in_map_iff in Hg. destruct Hg as (i & <- & _). apply Q. apply within_sub; [|apply w_nxt; lia].
        apply within_sum_exprs. intros e He. apply in_map_iff in He. destruct He as (j & <- & _). apply within_scaled, within_pow, w_in.
      - unfold partial_gates in Hg. apply in_map_iff in Hg. destruct Hg as (e & <- & He). apply Q. apply in_app_iff in He.
        destruct He as [[<-|[<-|[]]]|He].
        + apply within_sub; [apply within_pow, w_in|]. apply (within_more 1); [apply within_adv; lia|lia].
        + apply within_sub; [apply within_pow, w_mid|]. apply w_next. lia.
        + apply in_map_iff in He. destruct He as (j & <- & _). unfold partial_round_linear.
          apply within_sub; [apply (within_more 1); [apply w_mid|lia]|]. apply w_next. lia.
      - unfold single_gates in Hg. apply in_map_iff in Hg. destruct Hg as (i & <- & _). apply Q. apply within_sub; [|apply w_nxt; lia].
        apply within_sum; [apply within_scaled, within_pow, w_in|].
        apply within_sum_exprs. intros e He. apply in_map_iff in He. destruct He as (j & <- & _). apply within_scaled.
        apply (within_more 1); [apply w_in|lia].
      - unfold pad_gates in Hg. apply in_map_iff in Hg. destruct Hg as (e & <- & He). apply Q. apply (within_more 1); [|lia].
        apply in_app_iff in He. destruct He as [He|[<-|[]]].
        + apply in_map_iff in He. destruct He as (j & <- & _).
          apply within_sub; [apply within_sum|]; apply within_adv; lia.
        + apply within_sub; apply within_adv; lia.
    Qed.
    Lemma p5_gates_six : exists g, In g (p5_gates T (T - 1) s cfg) /\ degree g = 6.
    Proof.
      exists (EProd (ESel (p5_partial cfg)) (esub (p5_pow (ESum (Pow5.cur cfg 0) (qrc_a cfg 0))) (mid_0 cfg))).
      split; [|reflexivity]. unfold p5_gates. rewrite !in_app_iff. right. left. left. reflexivity.
    Qed.
  End Pow5.

  Lemma enable_columns : forall cols (c : cs F), let c' := fold_left (fun c col => enable_equality col c) cols c in
    cs_adv c' = cs_adv c /\ cs_fix c' = cs_fix c /\ cs_sel c' = cs_sel c /\ cs_gates c' = cs_gates c /\ cs_lookups c' = cs_lookups c.
  Proof.
    induction cols as [|x cols IH]; intros c; cbn [fold_left]; [repeat split|].
    destruct (IH (enable_equality x c)) as (A & B & C & D & E). cbn zeta. rewrite A, B, C, D, E. repeat split.
  Qed.

  Lemma pow5_added : forall T (s : spec F) state sbox rc_a rc_b (cs0 cs1 : cs F) cfg,
    pow5_configure T (T - 1) s state sbox rc_a rc_b cs0 = (cfg, cs1) ->
    adds_gates cs0 cs1 6 (-1) 1 /\ cs_lookups cs1 = cs_lookups cs0 /\ adds_columns cs0 cs1 0 0 4.
  Proof.
    intros T s state sbox rc_a rc_b cs0 cs1 cfg H.
    destruct (pow5_configured _ _ _ _ _ _ _ _ _ _ H) as (_ & _ & _ & _ & _ & G & _ & L).
    split; [|split; [exact L|]].
    - exists (p5_gates T (T - 1) s cfg). split; [exact G|]. split; [apply p5_gates_within|apply p5_gates_six].
    - clear G L. unfold pow5_configure in H.
      destruct (enable_columns (map Adv state ++ map Fix rc_b) cs0) as (A & B & C & _ & _). cbn zeta in A, B, C.
      set (c := fold_left _ _ cs0) in *. clearbody c. unfold complex_selector in H. cbn [cs_sel] in H.
      injection H as _ <-. unfold adds_columns. cbn. rewrite A, B, C. repeat split.
  Qed.

  Lemma fold_max_le : forall l a, (forall x, In x l -> x <= a) -> fold_right max a l = a.
  Proof.
    induction l as [|x l IH]; intros a H; cbn [fold_right]; [reflexivity|].
    rewrite IH by (intros y Hy; apply H; now right). specialize (H x (or_introl eq_refl)). lia.
  Qed.
  Lemma fold_max_init : forall l a, fold_right max a l = max (fold_right max 0 l) a.
  Proof. induction l as [|x l IH]; intros a; cbn [fold_right]; [reflexivity|]. rewrite IH. lia. Qed.
  Lemma fold_max_bound : forall l d, (forall x, In x l -> x <= d) -> In d l -> fold_right max 0 l = d.
  Proof.
    intros l d H I. apply Nat.le_antisymm.
    - clear I. induction l as [|x l IH]; cbn [fold_right]; [lia|]. specialize (H x (or_introl eq_refl)) as Hx.
      assert (forall x, In x l -> x <= d) by (intros y Hy; apply H; now right). specialize (IH H0). lia.
    - clear H. induction l as [|x l IH]; [destruct I|]. destruct I as [->|I]; cbn [fold_right]; [lia|]. specialize (IH I). lia.
  Qed.
  (** new lookups cost at most as much as the new gates *)
  Lemma added_degree : forall (m0 m1 : cs F) d lo hi new, adds_gates m0 m1 d lo hi -> cs_lookups m1 = cs_lookups m0 ++ new ->
    (forall l, In l new -> max 4 (2 + degree (fst l) + 1) <= d) -> required_degree m1 = max (required_degree m0) d.
  Proof.
    intros m0 m1 d lo hi new (gs & G & B & g & Hg & Dg) L N. unfold required_degree. rewrite G, L, !map_app.
    rewrite <- app_assoc, !fold_right_app.
    set (f := fun l : expr F * nat => max 4 (2 + degree (fst l) + 1)).
    assert (E1 : fold_right max 0 (map degree gs) = d).
    { apply fold_max_bound.
      - intros x Hx. apply in_map_iff in Hx. destruct Hx as (e & <- & He). apply B, He.
      - apply in_map_iff. now exists g. }
    assert (E2 : fold_right max 0 (map f new) <= d).
    { assert (X : forall x, In x (map f new) -> x <= d) by (intros x Hx; apply in_map_iff in Hx; destruct Hx as (l & <- & Hl); now apply N).
      clear - X. induction (map f new) as [|x l IH]; cbn [fold_right]; [lia|].
      pose proof (X x (or_introl eq_refl)). assert (fold_right max 0 l <= d) by (apply IH; intros y Hy; apply X; now right). lia. }
    rewrite (fold_max_init (map degree (cs_gates m0))), (fold_max_init (map degree gs)), (fold_max_init (map f (cs_lookups m0))),
      (fold_max_init (map f new)).
    rewrite (fold_max_init (map degree (cs_gates m0)) (fold_right max 3 _)), (fold_max_init (map f (cs_lookups m0)) 3). lia.
  Qed.

  Theorem pow5_degree_claim : forall T (s : spec F) state sbox rc_a rc_b (cs0 cs1 : cs F) cfg,
    pow5_configure T (T - 1) s state sbox rc_a rc_b cs0 = (cfg, cs1) ->
    adds_gates cs0 cs1 6 (-1) 1 /\ adds_columns cs0 cs1 0 0 4 /\ cs_lookups cs1 = cs_lookups cs0
    /\ required_degree cs1 = max (required_degree cs0) 6.
  Proof.
    intros T s state sbox rc_a rc_b cs0 cs1 cfg H.
    destruct (pow5_added T s state sbox rc_a rc_b cs0 cs1 cfg H) as (A & B & C).
    split; [exact A|]. split; [exact C|]. split; [exact B|].
    apply (added_degree cs0 cs1 6 (-1) 1 []); [exact A|now rewrite app_nil_r|intros l []].
  Qed.

  Lemma sept_gates_within : forall rcs m a f g, In g (sept_gates (F := F) rcs m a f) -> within 6 (-3) 7 g.
  Proof.
    intros rcs m a f.
    assert (X : forallb (fun g => (degree g <=? 6) && forallb (fun r => (-3 <=? r)%Z && (r <=? 7)%Z) (rotations g)) (sept_gates rcs m a f) = true)
      by reflexivity.
    intros g Hg. rewrite forallb_forall in X. specialize (X g Hg). apply andb_prop in X. destruct X as [X Y].
    apply Nat.leb_le in X. split; [exact X|]. intros r Hr. rewrite forallb_forall in Y. specialize (Y r Hr). lia.
  Qed.
  Lemma sept_gates_six : forall rcs m a f, exists g, In g (sept_gates (F := F) rcs m a f) /\ degree g = 6.
  Proof.
    intros rcs m a f. set (l := sept_gates rcs m a f). exists (nth 3 l (EConst fzero)).
    split; [apply nth_In; apply Nat.ltb_lt; reflexivity|reflexivity].
  Qed.

  Theorem septidon_degree_claim : forall rcs m (cs0 cs1 : cs F) cfg, septidon_configure rcs m cs0 = (cfg, cs1) ->
    adds_gates cs0 cs1 6 (-3) 7 /\ adds_columns cs0 cs1 13 11 0 /\ cs_lookups cs1 = cs_lookups cs0
    /\ required_degree cs1 = max (required_degree cs0) 6.
  Proof.
    intros rcs m cs0 cs1 cfg H. destruct (configure_cs rcs m cs0) as (A & B & C & D & E & _). rewrite H in A, B, C, D, E. cbn [snd] in *.
    assert (G : adds_gates cs0 cs1 6 (-3) 7).
    { exists (sept_gates rcs m (cs_adv cs0) (cs_fix cs0)). split; [exact D|]. split; [apply sept_gates_within|apply sept_gates_six]. }
    split; [exact G|]. split; [split; [exact A|split; [exact B|exact C]]|]. split; [exact E|].
    apply (added_degree cs0 cs1 6 (-3) 7 []); [exact G|now rewrite app_nil_r|intros l []].
  Qed.

  Lemma table_gates_within : forall C g, In g (table_gates (F := F) C) -> within 4 (-1) 0 g.
  Proof.
    intros C.
    assert (X : forallb (fun g => (degree g <=? 4) && forallb (fun r => (-1 <=? r)%Z && (r <=? 0)%Z) (rotations g)) (table_gates C) = true)
      by reflexivity.
    intros g Hg. rewrite forallb_forall in X. specialize (X g Hg). apply andb_prop in X. destruct X as [X Y].
    apply Nat.leb_le in X. split; [exact X|]. intros r Hr. rewrite forallb_forall in Y. specialize (Y r Hr). lia.
  Qed.
  Lemma within_wider : forall d e lo hi lo' hi' (g : expr F), within d lo hi g -> d <= e -> (lo' <= lo)%Z -> (hi <= hi')%Z -> within e lo' hi' g.
  Proof. intros d e lo hi lo' hi' g [A B] H1 H2 H3. split; [lia|]. intros r Hr. specialize (B r Hr). lia. Qed.

  Lemma pow5_chip_added : forall (s : spec F) m, let m' := snd (pc_configure (pow5_chip s) m) in
    adds_gates m m' 6 (-1) 1 /\ cs_lookups m' = cs_lookups m /\ adds_columns m m' 4 6 4.
  Proof.
    intros s m. destruct m as [a f sl g l e k].
    pose (m1 := {| cs_adv := 4 + a; cs_fix := 6 + f; cs_sel := sl; cs_gates := g; cs_lookups := l; cs_eq := e; cs_const := k |}).
    set (m0 := {| cs_adv := a; cs_fix := f; cs_sel := sl; cs_gates := g; cs_lookups := l; cs_eq := e; cs_const := k |}).
    set (cfgs := pow5_configure 3 2 s [a; 1 + a; 2 + a] (3 + a) [f; 1 + f; 2 + f] [3 + f; 4 + f; 5 + f] m1).
    assert (E : pc_configure (pow5_chip s) m0 = cfgs) by reflexivity.
    rewrite E. destruct cfgs as [cfg m2] eqn:E2. unfold cfgs in E2. cbn [snd].
    destruct (pow5_added 3 s _ _ _ _ m1 m2 cfg E2) as (A & B & C).
    split; [exact A|]. split; [exact B|]. destruct C as (C1 & C2 & C3). unfold adds_columns. rewrite C1, C2, C3. repeat split.
  Qed.

  Lemma csm_added : forall C, cs_lookups (csm C) = cs_lookups (hc_host C) ++ [(range_input (hc_table C), cs_fix (hc_host C))]
    /\ cs_gates (csm C) = cs_gates (hc_host C) ++ table_gates (F := F) C /\ adds_columns (hc_host C) (csm C) 8 1 1.
  Proof. intros C. split; [reflexivity|]. split; [reflexivity|]. repeat split. Qed.
  Lemma two_steps : forall (C : hash_circuit F) m m' lo hi na nf ns, (lo <= -1)%Z -> (0 <= hi)%Z ->
    (cs_lookups m = cs_lookups (hc_host C) ++ [(range_input (hc_table C), cs_fix (hc_host C))]
     /\ cs_gates m = cs_gates (hc_host C) ++ table_gates (F := F) C /\ adds_columns (hc_host C) m 8 1 1) ->
    adds_gates m m' 6 lo hi /\ cs_lookups m' = cs_lookups m /\ adds_columns m m' na nf ns ->
    adds_gates (hc_host C) m' 6 lo hi /\ adds_columns (hc_host C) m' (na + 8) (nf + 1) (ns + 1)
    /\ (exists l, cs_lookups m' = cs_lookups (hc_host C) ++ [l] /\ degree (fst l) = 2)
    /\ required_degree m' = max (required_degree (hc_host C)) 6.
  Proof.
    intros C m m' lo hi na nf ns H1 H2 (Ml & Mg & Mc) ((gs & G1 & G2 & G3) & L & Co).
    assert (G : adds_gates (hc_host C) m' 6 lo hi).
    { exists (table_gates C ++ gs). split; [rewrite G1, Mg; symmetry; apply app_assoc|]. split.
      - intros g Hg. apply in_app_iff in Hg. destruct Hg as [Hg|Hg]; [|exact (G2 g Hg)].
        apply (within_wider 4 6 (-1) 0 lo hi g); [exact (table_gates_within C g Hg)|lia|lia|lia].
      - destruct G3 as (g & Hg & D). exists g. split; [apply in_app_iff; now right|exact D]. }
    split; [exact G|].
    split. { destruct Mc as (M1 & M2 & M3), Co as (C1 & C2 & C3). unfold adds_columns. rewrite C1, C2, C3, M1, M2, M3. lia. }
    split; [exists (range_input (hc_table C), cs_fix (hc_host C)); split; [rewrite L, Ml; reflexivity|reflexivity]|].
    apply (added_degree _ _ 6 lo hi [(range_input (hc_table C), cs_fix (hc_host C))]); [exact G|rewrite L; exact Ml|].
    intros l [<-|[]]. cbn. lia.
  Qed.
  Lemma septidon_chip_added : forall rcs m (c : cs F), let c' := snd (pc_configure (septidon_chip rcs m) c) in
    adds_gates c c' 6 (-3) 7 /\ cs_lookups c' = cs_lookups c /\ adds_columns c c' 13 11 0.
  Proof.
    intros rcs m c. cbn [pc_configure septidon_chip].
    pose proof (septidon_degree_claim rcs m c (snd (septidon_configure rcs m c)) (fst (septidon_configure rcs m c)) (surjective_pairing _)) as X.
    destruct X as (A & B & D & _). split; [exact A|]. split; [exact D|exact B].
  Qed.

  Theorem table_degree_claim : forall c short s chip h (C : hash_circuit F),
    build c short s chip h -> host_columns C -> hc_chip C = chip ->
    (if short then adds_gates (hc_host C) (hc_cs C) 6 (-3) 7 else adds_gates (hc_host C) (hc_cs C) 6 (-1) 1)
    /\ (if short then adds_columns (hc_host C) (hc_cs C) 21 12 1 else adds_columns (hc_host C) (hc_cs C) 12 7 5)
    /\ (exists l, cs_lookups (hc_cs C) = cs_lookups (hc_host C) ++ [l] /\ degree (fst l) = 2)
    /\ required_degree (hc_cs C) = max (required_degree (hc_host C)) 6.
  Proof.
    intros c short s chip h C HB HC Hchip.
    assert (X := csm_added C). pose proof (configured C HC) as [_ E]. rewrite E, Hchip. clear E HC Hchip.
    set (m := csm C) in *. clearbody m.
    destruct HB as [base s Hc Hp Hs|base s p Hc I1 I2 Hs Hp].
    - exact (two_steps C m _ (-3)%Z 7%Z 13 11 0 ltac:(lia) ltac:(lia) X (septidon_chip_added (round_constants s) (mds s) m)).
    - exact (two_steps C m _ (-1)%Z 1%Z 4 6 4 ltac:(lia) ltac:(lia) X (pow5_chip_added p m)).
  Qed.
End Claims.
