(** What the gates of the Pow5 chip say about a row, and that the rows of a permutation compute it. *)
From Coq Require Import ZArith List Arith Lia Bool.
From Verif Require Import Field Rust ListAux Primitives SpecHash Perm_proof BigSum Halo2 Pow5 SeptGate_proof.
Import ListNotations.
Local Open Scope nat_scope.
Local Open Scope F_scope.

Section Gates.
  Context {F : Type} {FO : FieldOps F} {PF : PrimeField F}.
  Add Field Ffield : f_field.
  Variable T RATE : nat.
  Variable s : spec F.
  Hypothesis HT : (1 < T)%nat.
  Hypothesis HR : RATE = (T - 1)%nat.
  Variable cfg : pow5.
  Notation M := (mnth (mds s)).
  Notation MI := (mnth (mds_inv s)).
  Implicit Types cu nx pv ra rb : nat -> F.

  (** first word through the S-box *)
  Definition psb ra cu (j : nat) : F := if (j =? 0)%nat then power5 (cu 0%nat + ra 0%nat) else cu j + ra j.
  Definition mix v (i : nat) : F := sum_n T (fun j => M i j * v j).

  Definition full_ok ra cu nx : Prop := forall i, (i < T)%nat -> nx i = mix (fun j => power5 (cu j + ra j)) i.
  Definition single_ok ra cu nx : Prop := forall i, (i < T)%nat -> nx i = mix (psb ra cu) i.
  Definition pair_ok ra rb cu nx (sb : F) : Prop :=
    sb = power5 (cu 0%nat + ra 0%nat) /\ forall i, (i < T)%nat -> nx i = mix (psb rb (mix (psb ra cu))) i.
  Definition pad_ok pv cu nx : Prop :=
    (forall i, (i < RATE)%nat -> nx i = pv i + cu i) /\ nx RATE = pv RATE.

  Section Row.
    Variable n : nat.
    Variables fx sl adv : nat -> nat -> F.
    Variable r : nat.
    Hypothesis Hr : (r < n)%nat.
    Notation ev := (eval n fx sl adv r).
    Definition srow (x : nat) (i : nat) : F := adv (col (p5_state cfg) i) x.
    Notation cu := (srow r).
    Notation ra := (fun i => fx (col (p5_rc_a cfg) i) r).
    Notation rb := (fun i => fx (col (p5_rc_b cfg) i) r).
    Notation sb := (adv (p5_sbox cfg) r).

    Lemma ev_fold : forall l e, ev (fold_left ESum l e) = ev e + fsum (map ev l).
    Proof.
      induction l as [|x l IH]; intros e; cbn [fold_left map fsum]; [ring|]. rewrite IH. cbn [eval]. ring.
    Qed.
    Lemma ev_sum : forall l, ev (sum_exprs l) = fsum (map ev l).
    Proof. intros [|e l]; [reflexivity|]. cbn [sum_exprs map fsum]. apply ev_fold. Qed.
    Lemma ev_cur : forall i, ev (cur cfg i) = cu i.
    Proof. intros i. unfold cur. cbn [eval]. now rewrite rotate_0. Qed.
    Lemma ev_ra : forall i, ev (qrc_a cfg i) = fx (col (p5_rc_a cfg) i) r.
    Proof. intros i. unfold qrc_a. cbn [eval]. now rewrite rotate_0. Qed.
    Lemma ev_rb : forall i, ev (qrc_b cfg i) = fx (col (p5_rc_b cfg) i) r.
    Proof. intros i. unfold qrc_b. cbn [eval]. now rewrite rotate_0. Qed.
    Lemma ev_pow : forall e, ev (p5_pow e) = power5 (ev e).
    Proof. intros e. unfold p5_pow, power5. cbn [eval]. ring. Qed.
    Lemma ev_mid0 : ev (mid_0 cfg) = sb.
    Proof. unfold mid_0. cbn [eval]. now rewrite rotate_0. Qed.
    Lemma ev_sub : forall a b, ev (esub a b) = ev a - ev b.
    Proof. intros. unfold esub. cbn [eval]. ring. Qed.

    Lemma fsum_split : forall (f : nat -> F), sum_n T f = f 0%nat + fsum (map f (seq 1 (T - 1))).
    Proof.
      intros f. rewrite <- fsum_map_seq. replace T with (S (T - 1)) at 1 by lia. reflexivity.
    Qed.
    Lemma fsum_map_ext : forall (f g : nat -> F) a k, (forall i, (a <= i < a + k)%nat -> f i = g i) ->
      fsum (map f (seq a k)) = fsum (map g (seq a k)).
    Proof.
      intros f g a k H. f_equal. apply map_ext_in. intros i Hi. apply in_seq in Hi. now apply H.
    Qed.

    Lemma ev_mid : forall i, sb = power5 (cu 0%nat + ra 0%nat) -> ev (mid T s cfg i) = mix (psb ra cu) i.
    Proof.
      intros i E. unfold mid, mix. rewrite fsum_split.
      transitivity (ev (EScaled (mid_0 cfg) (M i 0%nat))
        + fsum (map ev (map (fun j => EScaled (ESum (cur cfg j) (qrc_a cfg j)) (M i j)) (seq 1 (T - 1))))).
      - rewrite <- ev_fold.
        assert (G : forall l e, fold_left (fun acc j => ESum acc (EScaled (ESum (cur cfg j) (qrc_a cfg j)) (M i j))) l e
          = fold_left ESum (map (fun j => EScaled (ESum (cur cfg j) (qrc_a cfg j)) (M i j)) l) e)
          by (induction l as [|x l IH]; intros e; cbn; [reflexivity|apply IH]).
        now rewrite G.
      - rewrite map_map. cbn [eval]. rewrite ev_mid0, E. unfold psb at 1. cbn [Nat.eqb]. rewrite (fsum_map_ext _ (fun j => M i j * psb ra cu j)).
        + ring.
        + intros j Hj. rewrite ev_cur, ev_ra. unfold psb.
          replace (j =? 0)%nat with false by (symmetry; apply Nat.eqb_neq; lia). ring.
    Qed.

    (** inactive gates *)
    Lemma full_off : sl (p5_full cfg) r = 0 -> forall g, In g (full_gates T s cfg) -> ev g = 0.
    Proof.
      intros H g Hg. apply in_map_iff in Hg. destruct Hg as (i & <- & _). cbn [eval]. rewrite H. ring.
    Qed.
    Lemma partial_off : sl (p5_partial cfg) r = 0 -> forall g, In g (partial_gates T s cfg) -> ev g = 0.
    Proof.
      intros H g Hg. apply in_map_iff in Hg. destruct Hg as (i & <- & _). cbn [eval]. rewrite H. ring.
    Qed.
    Lemma single_off : sl (p5_single cfg) r = 0 -> forall g, In g (single_gates T s cfg) -> ev g = 0.
    Proof.
      intros H g Hg. apply in_map_iff in Hg. destruct Hg as (i & <- & _). cbn [eval]. rewrite H. ring.
    Qed.
    Lemma pad_off : sl (p5_pad cfg) r = 0 -> forall g, In g (pad_gates RATE cfg) -> ev g = 0.
    Proof.
      intros H g Hg. apply in_map_iff in Hg. destruct Hg as (i & <- & _). cbn [eval]. rewrite H. ring.
    Qed.

    Section Next.
      Hypothesis Hn : (S r < n)%nat.
      Notation nx := (srow (S r)).
      Lemma ev_nxt : forall i, ev (nxt cfg i) = nx i.
      Proof. intros i. unfold nxt. cbn [eval]. now rewrite rotate_1. Qed.

      Lemma full_on : sl (p5_full cfg) r = 1 ->
        ((forall g, In g (full_gates T s cfg) -> ev g = 0) <-> full_ok ra cu nx).
      Proof.
        intros H. unfold full_ok, full_gates. split.
        - intros G i Hi. specialize (G _ (in_map _ _ i (proj2 (in_seq _ _ _) (conj (Nat.le_0_l i) Hi)))). cbn beta in G.
          cbn [eval] in G. rewrite H in G. rewrite ev_sub, ev_sum, ev_nxt, map_map in G.
          symmetry. apply fsub_eq_0. rewrite <- G. unfold mix. rewrite <- fsum_map_seq.
          rewrite (fsum_map_ext (fun j => M i j * power5 (cu j + ra j))
            (fun x => ev (EScaled (p5_pow (ESum (cur cfg x) (qrc_a cfg x))) (M i x)))).
          + ring.
          + intros j Hj. cbn [eval]. rewrite ev_pow. cbn [eval]. rewrite ev_cur, ev_ra. ring.
        - intros G g Hg. apply in_map_iff in Hg. destruct Hg as (i & <- & Hi). apply in_seq in Hi.
          cbn [eval]. rewrite H, ev_sub, ev_sum, ev_nxt, map_map. rewrite (G i) by lia. unfold mix. rewrite <- fsum_map_seq.
          rewrite (fsum_map_ext (fun j => M i j * power5 (cu j + ra j))
            (fun x => ev (EScaled (p5_pow (ESum (cur cfg x) (qrc_a cfg x))) (M i x)))).
          + ring.
          + intros j Hj. cbn [eval]. rewrite ev_pow. cbn [eval]. rewrite ev_cur, ev_ra. ring.
      Qed.

      Lemma single_value : forall i, ev (ESum (EScaled (p5_pow (ESum (cur cfg 0) (qrc_a cfg 0))) (M i 0%nat))
          (sum_exprs (map (fun idx => EScaled (ESum (cur cfg idx) (qrc_a cfg idx)) (M i idx)) (seq 1 (T - 1)))))
        = mix (psb ra cu) i.
      Proof.
        intros i. unfold mix. rewrite fsum_split. cbn [eval]. rewrite ev_pow, ev_sum, map_map. cbn [eval].
        rewrite ev_cur, ev_ra. unfold psb at 1. cbn [Nat.eqb].
        rewrite (fsum_map_ext _ (fun j => M i j * psb ra cu j)).
        - ring.
        - intros j Hj. rewrite ev_cur, ev_ra. unfold psb.
          replace (j =? 0)%nat with false by (symmetry; apply Nat.eqb_neq; lia). ring.
      Qed.
      Lemma single_on : sl (p5_single cfg) r = 1 ->
        ((forall g, In g (single_gates T s cfg) -> ev g = 0) <-> single_ok ra cu nx).
      Proof.
        intros H. unfold single_ok, single_gates. split.
        - intros G i Hi. specialize (G _ (in_map _ _ i (proj2 (in_seq _ _ _) (conj (Nat.le_0_l i) Hi)))). cbn beta in G.
          change (ev (EProd ?a ?b)) with (ev a * ev b) in G. rewrite ev_sub, single_value, ev_nxt in G. cbn [eval] in G.
          rewrite H in G. symmetry. apply fsub_eq_0. rewrite <- G. ring.
        - intros G g Hg. apply in_map_iff in Hg. destruct Hg as (i & <- & Hi). apply in_seq in Hi.
          change (ev (EProd ?a ?b)) with (ev a * ev b). rewrite ev_sub, single_value, ev_nxt. rewrite (G i) by lia. ring.
      Qed.

      Lemma ev_next : forall i, ev (next T s cfg i) = sum_n T (fun j => MI i j * nx j).
      Proof.
        intros i. unfold next. rewrite ev_sum, map_map, <- fsum_map_seq. apply fsum_map_ext.
        intros j Hj. cbn [eval]. rewrite ev_nxt. ring.
      Qed.

      (** solve the linear system of the second round *)
      Lemma mix_inverse : forall a b (v w : nat -> F), mat_prod_id T a b ->
        (forall i, (i < T)%nat -> v i = sum_n T (fun j => mnth b i j * w j)) ->
        forall i, (i < T)%nat -> w i = sum_n T (fun j => mnth a i j * v j).
      Proof.
        intros a b v w Hab H i Hi.
        rewrite (sum_n_ext T _ (fun j => sum_n T (fun k => mnth a i j * mnth b j k * w k))).
        2:{ intros j Hj. rewrite (H j Hj), <- sum_n_mul_l. apply sum_n_ext. intros; ring. }
        rewrite sum_n_swap.
        rewrite (sum_n_ext T _ (fun k => (if (i =? k)%nat then 1 else 0) * w k)).
        2:{ intros k Hk. rewrite sum_n_mul_r. now rewrite Hab. }
        symmetry. now apply sum_n_delta.
      Qed.

      Hypothesis Inv1 : mat_prod_id T (mds s) (mds_inv s).
      Hypothesis Inv2 : mat_prod_id T (mds_inv s) (mds s).

      Lemma partial_on : sl (p5_partial cfg) r = 1 ->
        ((forall g, In g (partial_gates T s cfg) -> ev g = 0) <-> pair_ok ra rb cu nx sb).
      Proof.
        intros H. unfold pair_ok, partial_gates.
        set (V := fun i => sum_n T (fun j => MI i j * nx j)).
        transitivity (sb = power5 (cu 0%nat + ra 0%nat)
                      /\ forall i, (i < T)%nat -> psb rb (mix (psb ra cu)) i = V i).
        - split.
          + intros G.
            assert (E : sb = power5 (cu 0%nat + ra 0%nat)).
            { specialize (G _ (or_introl eq_refl)). change (ev (EProd ?a ?b)) with (ev a * ev b) in G.
              rewrite ev_sub, ev_pow, ev_mid0 in G. cbn [eval] in G. rewrite H, ev_cur, ev_ra in G.
              symmetry. apply fsub_eq_0. rewrite <- G. ring. }
            split; [exact E|]. intros i Hi. destruct i as [|i].
            * specialize (G _ (or_intror (or_introl eq_refl))). change (ev (EProd ?a ?b)) with (ev a * ev b) in G.
              rewrite ev_sub, ev_pow, ev_next in G. change (ev (ESum ?a ?b)) with (ev a + ev b) in G.
              rewrite ev_mid, ev_rb in G by assumption. cbn [eval] in G. rewrite H in G.
              apply fsub_eq_0. rewrite <- G. unfold psb at 1, V. cbn [Nat.eqb]. ring.
            * specialize (G (EProd (ESel (p5_partial cfg)) (partial_round_linear T s cfg (S i)))).
              assert (I : In (EProd (ESel (p5_partial cfg)) (partial_round_linear T s cfg (S i)))
                (map (EProd (ESel (p5_partial cfg)))
                 ([esub (p5_pow (ESum (cur cfg 0) (qrc_a cfg 0))) (mid_0 cfg);
                   esub (p5_pow (ESum (mid T s cfg 0) (qrc_b cfg 0))) (next T s cfg 0)]
                  ++ map (partial_round_linear T s cfg) (seq 1 (T - 1))))).
              { apply in_map, in_app_iff. right. apply in_map, in_seq. lia. }
              specialize (G I). change (ev (EProd ?a ?b)) with (ev a * ev b) in G. unfold partial_round_linear in G.
              rewrite ev_sub, ev_next in G. change (ev (ESum ?a ?b)) with (ev a + ev b) in G.
              rewrite ev_mid, ev_rb in G by assumption. cbn [eval] in G. rewrite H in G.
              apply fsub_eq_0. rewrite <- G. unfold psb at 1, V. cbn [Nat.eqb]. ring.
          + intros [E G] g Hg. apply in_map_iff in Hg. destruct Hg as (e & <- & He).
            change (ev (EProd ?a ?b)) with (ev a * ev b).
            apply in_app_iff in He. destruct He as [[<-|[<-|[]]]|He].
            * rewrite ev_sub, ev_pow, ev_mid0. cbn [eval]. rewrite ev_cur, ev_ra, E. ring.
            * rewrite ev_sub, ev_pow, ev_next. change (ev (ESum ?a ?b)) with (ev a + ev b).
              rewrite ev_mid, ev_rb by assumption. specialize (G 0%nat ltac:(lia)). unfold V in G. rewrite <- G.
              unfold psb at 2. cbn [Nat.eqb]. ring.
            * apply in_map_iff in He. destruct He as (i & <- & Hi). apply in_seq in Hi. unfold partial_round_linear.
              rewrite ev_sub, ev_next. change (ev (ESum ?a ?b)) with (ev a + ev b).
              rewrite ev_mid, ev_rb by assumption. specialize (G i ltac:(lia)). unfold V in G. rewrite <- G.
              unfold psb at 2. replace (i =? 0)%nat with false by (symmetry; apply Nat.eqb_neq; lia). ring.
        - split; intros [E G]; (split; [exact E|]).
          + intros i Hi. unfold mix at 1. apply (mix_inverse _ (mds_inv s) _ nx Inv1); [|assumption]. exact G.
          + intros i Hi. unfold V. apply (mix_inverse _ (mds s) nx _ Inv2); [|assumption]. exact G.
      Qed.

      Hypothesis Hp : (0 < r)%nat.
      Notation pv := (srow (r - 1)).
      Lemma ev_prv : forall i, ev (prv cfg i) = pv i.
      Proof.
        intros i. unfold prv. cbn [eval]. rewrite rotate_in by lia. unfold srow. f_equal. lia.
      Qed.
      Lemma pad_on : sl (p5_pad cfg) r = 1 ->
        ((forall g, In g (pad_gates RATE cfg) -> ev g = 0) <-> pad_ok pv cu nx).
      Proof.
        intros H. unfold pad_ok, pad_gates. split.
        - intros G. split.
          + intros i Hi. specialize (G (EProd (ESel (p5_pad cfg)) (esub (ESum (prv cfg i) (cur cfg i)) (nxt cfg i)))).
            symmetry. apply fsub_eq_0. rewrite <- G.
            * change (ev (EProd ?a ?b)) with (ev a * ev b). rewrite ev_sub.
              change (ev (ESum ?a ?b)) with (ev a + ev b). rewrite ev_prv, ev_cur, ev_nxt. cbn [eval]. rewrite H. ring.
            * apply in_map, in_app_iff. left. apply in_map_iff. exists i. split; [reflexivity|]. apply in_seq. lia.
          + specialize (G (EProd (ESel (p5_pad cfg)) (esub (prv cfg RATE) (nxt cfg RATE)))).
            symmetry. apply fsub_eq_0. rewrite <- G.
            * change (ev (EProd ?a ?b)) with (ev a * ev b). rewrite ev_sub, ev_prv, ev_nxt. cbn [eval]. rewrite H. ring.
            * apply in_map, in_app_iff. right. now left.
        - intros [G1 G2] g Hg. apply in_map_iff in Hg. destruct Hg as (e & <- & He).
          change (ev (EProd ?a ?b)) with (ev a * ev b). apply in_app_iff in He. destruct He as [He|[<-|[]]].
          + apply in_map_iff in He. destruct He as (i & <- & Hi). apply in_seq in Hi. rewrite ev_sub.
            change (ev (ESum ?a ?b)) with (ev a + ev b). rewrite ev_prv, ev_cur, ev_nxt, (G1 i) by lia. ring.
          + rewrite ev_sub, ev_prv, ev_nxt, G2. ring.
      Qed.
    End Next.
  End Row.
End Gates.
