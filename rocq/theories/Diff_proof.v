(** How many inputs give a difference: one S-box, a round, a trail, and the whole permutation along a line. *)
From Coq Require Import ZArith Znumtheory List Arith Lia setoid_ring.Field.
From Verif Require Import Field Rust ListAux Primitives SpecHash Perm_proof BigSum Mds_proof SboxUse Sbox_proof PolyUse Poly_proof DiffUse.
Import ListNotations.
Local Open Scope F_scope.

Section Shift.
  Context {F : Type} {FO : FieldOps F} {PF : PrimeField F}.
  Add Field Ffield : f_field.

  Lemma lead_poly : forall c d, (length c <= d)%nat -> has_lead d 0 (polynomial c).
  Proof. intros c d H. exists c. split; [exact H|]. intros x. ring. Qed.
  Lemma lead_linear : forall k, has_lead 1 1 (fun x => x + k).
  Proof. intros k. exists [k]. split; [cbn; lia|]. intros x. cbn [fpow polynomial]. ring. Qed.
  Lemma lead_var : has_lead 1 1 (fun x => x).
  Proof. apply (lead_ext 1 1 (fun x => x + 0)); [intros x; ring|apply lead_linear]. Qed.
  Lemma lead_eq : forall d a b f, a = b -> has_lead d a f -> has_lead d b f.
  Proof. intros d a b f ->. exact (fun H => H). Qed.
  Lemma lead_fpow : forall d, has_lead d 1 (fun x => fpow x d).
  Proof. intros d. exists []. split; [cbn; lia|]. intros x. cbn [polynomial]. ring. Qed.

  (** the difference of a power, and of a polynomial, at points that are [k] apart *)
  Lemma fpow_diff : forall k d, has_lead d (of_Z (Z.of_nat (S d)) * k) (fun x => fpow (x + k) (S d) - fpow x (S d)).
  Proof.
    intros k. induction d as [|d IH].
    - exists []. split; [cbn; lia|]. intros x. change (Z.of_nat 1) with 1%Z. rewrite of_Z_1. cbn [fpow polynomial]. ring.
    - apply (lead_ext _ _ (fun x => (x + k) * (fpow (x + k) (S d) - fpow x (S d)) + k * fpow x (S d))).
      + intros x. cbn [fpow]. ring.
      + apply (lead_eq _ (1 * (of_Z (Z.of_nat (S d)) * k) + k * 1)).
        * replace (Z.of_nat (S (S d))) with (1 + Z.of_nat (S d))%Z by lia. rewrite of_Z_add, of_Z_1. ring.
        * apply lead_add; [exact (lead_mul 1 d _ _ _ _ (lead_linear k) IH)|apply lead_scale, lead_fpow].
  Qed.
  Lemma poly_diff : forall k c d, (length c <= S d)%nat -> has_lead d 0 (fun x => polynomial c (x + k) - polynomial c x).
  Proof.
    intros k. induction c as [|u c IH]; intros d Hc.
    - apply (lead_ext d 0 (fun _ => 0)); [intros x; cbn [polynomial]; ring|apply lead_zero].
    - cbn [length] in Hc. apply (lead_ext d 0 (fun x => (x + k) * (polynomial c (x + k) - polynomial c x) + k * polynomial c x)).
      + intros x. cbn [polynomial]. ring.
      + apply (lead_eq _ (0 + k * 0)); [ring|]. apply lead_add; [|apply lead_scale, lead_poly; lia].
        destruct d as [|d].
        * destruct c as [|w c]; [|cbn in Hc; lia]. apply (lead_ext 0 0 (fun _ => 0)); [intros x; cbn [polynomial]; ring|apply lead_zero].
        * apply (lead_eq _ (1 * 0)); [ring|]. exact (lead_mul 1 d _ _ _ _ (lead_linear k) (IH d ltac:(lia))).
  Qed.
  Lemma lead_diff : forall k d a f, has_lead (S d) a f -> has_lead d (of_Z (Z.of_nat (S d)) * a * k) (fun x => f (x + k) - f x).
  Proof.
    intros k d a f (c & Hc & E).
    apply (lead_ext d _ (fun x => a * (fpow (x + k) (S d) - fpow x (S d)) + (polynomial c (x + k) - polynomial c x))); [intros x; rewrite !E; ring|].
    apply (lead_eq _ (a * (of_Z (Z.of_nat (S d)) * k) + 0)); [ring|]. apply lead_add; [apply lead_scale, fpow_diff|now apply poly_diff].
  Qed.
  Lemma diff_roots : forall k d a f e xs, (1 < d)%nat -> a <> 0 -> of_Z (F := F) (Z.of_nat d) <> 0 -> k <> 0 -> has_lead d a f -> NoDup xs ->
    (forall x, In x xs -> f (x + k) = f x + e) -> (length xs < d)%nat.
  Proof.
    intros k d a f e xs H0 Ha Hd Hk Hf Hn Hx. destruct d as [|[|d]]; [lia|lia|].
    assert (N : of_Z (Z.of_nat (S (S d))) * a * k <> 0) by (repeat apply fmul_neq_0; assumption). apply le_n_S.
    apply (lead_roots (S d) _ (fun x => (f (x + k) - f x) + - e) xs N); [|exact Hn|].
    - apply (lead_eq _ (of_Z (Z.of_nat (S (S d))) * a * k + 0)); [ring|]. apply lead_add; [now apply lead_diff|apply lead_const].
    - intros x X. rewrite (Hx x X). ring.
  Qed.

  (** five times a field element *)
  Lemma five_pow : of_Z (F := F) 5 <> 0 -> forall n, of_Z (F := F) (Z.of_nat (5 ^ n)) <> 0.
  Proof.
    intros H5. induction n as [|n IH].
    - cbn [Nat.pow]. change (Z.of_nat 1) with 1%Z. rewrite of_Z_1. apply f_1_neq_0.
    - rewrite Nat.pow_succ_r', Nat2Z.inj_mul, of_Z_mul. change (Z.of_nat 5) with 5%Z. now apply fmul_neq_0.
  Qed.
  Lemma sbox_diff : of_Z (F := F) 5 <> 0 -> forall k e xs, k <> 0 -> NoDup xs -> (forall x, In x xs -> power5 (x + k) = power5 x + e) -> (length xs <= 4)%nat.
  Proof.
    intros H5 k e xs Hk Hn Hx. apply Nat.lt_succ_r. apply (diff_roots k 5 (power5 1) power5 e xs); auto; try lia.
    - unfold power5. intros E. apply f_1_neq_0. rewrite <- E. ring.
    - exact (lead_power5 1 1 _ lead_var).
  Qed.
End Shift.

(** ** Counting states *)
Section Count.
  Context {F : Type} {FO : FieldOps F} {PF : PrimeField F}.
  Local Open Scope nat_scope.

  Lemma pigeons : forall {A} (f : A -> F) D l (xs : list A), NoDup xs -> (forall x, In x xs -> In (f x) l) ->
    (forall h ys, NoDup ys -> (forall y, In y ys -> In y xs /\ f y = h) -> length ys <= D) -> length xs <= length l * D.
  Proof.
    intros A f D. induction l as [|h l IH]; intros xs Hn Hl HD.
    - destruct xs as [|x xs]; [cbn; lia|]. elim (Hl x (or_introl eq_refl)).
    - set (eqs := filter (fun x => feqb (f x) h) xs). set (nes := filter (fun x => negb (feqb (f x) h)) xs).
      assert (A1 : length xs = length eqs + length nes).
      { unfold eqs, nes. clear. induction xs as [|x xs IH]; cbn [filter length]; [reflexivity|].
        destruct (feqb (f x) h); cbn [negb length]; lia. }
      assert (B : length eqs <= D).
      { apply (HD h); [now apply NoDup_filter|]. intros y Hy. apply filter_In in Hy. split; [apply Hy|]. now apply feqb_eq. }
      assert (C : length nes <= length l * D).
      { apply IH; [now apply NoDup_filter| |].
        - intros x Hx. apply filter_In in Hx. destruct Hx as [Hx Ne].
          destruct (Hl x Hx) as [E|E]; [|exact E]. subst h. now rewrite feqb_refl in Ne.
        - intros h' ys Hy Hh. apply (HD h' ys Hy). intros y Y. destruct (Hh y Y) as [P Q]. apply filter_In in P. split; [apply P|exact Q]. }
      cbn [length]. lia.
  Qed.

  (** states whose words satisfy a condition each *)
  Fixpoint words_in (Ps : list (F -> Prop)) (x : list F) : Prop :=
    match Ps, x with
    | [], [] => True
    | P :: Ps', w :: x' => P w /\ words_in Ps' x'
    | _, _ => False
    end.
  Definition at_most (n : nat) (P : F -> Prop) : Prop := forall xs, NoDup xs -> (forall x, In x xs -> P x) -> length xs <= n.
  Fixpoint prod (l : list nat) : nat := match l with [] => 1 | n :: l' => n * prod l' end.
  Lemma product : forall Ps ns, Forall2 at_most ns Ps -> forall xs, NoDup xs -> (forall x, In x xs -> words_in Ps x) -> length xs <= prod ns.
  Proof.
    intros Ps ns H. induction H as [|n P ns Ps HP H IH]; intros xs Hn Hx; cbn [prod].
    - destruct xs as [|x [|y xs]]; [cbn; lia|cbn; lia|]. exfalso. inversion Hn as [|? ? N _]; subst. apply N. left.
      pose proof (Hx x (or_introl eq_refl)) as A. pose proof (Hx y (or_intror (or_introl eq_refl))) as B.
      destruct x; [|contradiction]. destruct y; [reflexivity|contradiction].
    - set (heads := nodup feq_dec (map (hd fzero) xs)).
      assert (Hh : length heads <= n).
      { apply HP; [apply NoDup_nodup|]. intros h Hh. apply nodup_In, in_map_iff in Hh. destruct Hh as (x & <- & X). specialize (Hx x X).
        destruct x; [contradiction|]. apply Hx. }
      apply (Nat.le_trans _ (length heads * prod ns)); [|now apply Nat.mul_le_mono_r].
      apply (pigeons (hd fzero)); [exact Hn| |].
      + intros x X. apply nodup_In. now apply in_map.
      + intros h ys Hy Hh'. rewrite <- (map_length (@tl F) ys). apply IH.
        * assert (G : forall a b, In a ys -> In b ys -> tl a = tl b -> a = b).
          { intros a b Ia Ib E. destruct (Hh' a Ia) as [A1 A2], (Hh' b Ib) as [B1 B2]. pose proof (Hx a A1) as C1. pose proof (Hx b B1) as C2.
            destruct a; [contradiction|]. destruct b; [contradiction|]. cbn in *. congruence. }
          clear - Hy G. induction Hy as [|a ys Na Hy IHy]; cbn [map]; constructor.
          -- rewrite in_map_iff. intros (b & Eb & Ib). apply Na. rewrite <- (G b a); [exact Ib|now right|now left|exact Eb].
          -- apply IHy. intros u v Iu Iv. apply G; now right.
        * intros t It. apply in_map_iff in It. destruct It as (y & <- & Iy). destruct (Hh' y Iy) as [P1 _]. specialize (Hx y P1).
          destruct y; [contradiction|]. apply Hx.
  Qed.

  Lemma all_words : forall P, at_most (Z.to_nat (modulus (F := F))) P.
  Proof.
    intros P xs Hn _. pose proof (modulus_gt_1 (F := F)) as Hm.
    rewrite <- (seq_length (Z.to_nat (modulus (F := F))) 0), <- (map_length (fun n => of_Z (F := F) (Z.of_nat n))).
    apply NoDup_incl_length; [exact Hn|]. intros x _. apply in_map_iff. exists (Z.to_nat (to_Z x)). pose proof (to_Z_range x) as R. split.
    - rewrite Z2Nat.id by lia. apply of_to_Z.
    - apply in_seq. lia.
  Qed.
End Count.

(** ** Rounds and trails *)
Section Rounds.
  Context {F : Type} {FO : FieldOps F} {PF : PrimeField F} (T : nat) (m : list (list F)).
  Context (Hm : square T m) (Hmin : minors T m) (Hp : forall x y : F, power5 x = power5 y -> x = y) (H5 : of_Z (F := F) 5 <> fzero).
  Add Field Ffield1 : f_field.
  Local Open Scope nat_scope.
  Set Default Proof Using "All".
  Local Notation p := (Z.to_nat (modulus (F := F))).

  Lemma mat_vec_inj : forall a b : list F, length a = T -> length b = T -> mat_vec m a = mat_vec m b -> a = b.
  Proof.
    intros a b Ha Hb E. destruct (list_eq_dec feq_dec a b) as [X|X]; [exact X|]. elim (mix_ne T m Hm Hmin Hp a b Ha Hb X E).
  Qed.
  Lemma vsub_vadd_l : forall a e : list F, length e = length a -> vsub (vadd a e) a = e.
  Proof. induction a as [|x a IH]; intros [|y e] H; cbn in *; try lia; auto. rewrite IH by lia. f_equal. ring. Qed.
  Lemma differences_shift : forall x d : list F, length d = length x -> differences x (vadd x d) = weight d.
  Proof.
    induction x as [|a x IH]; intros [|b d] H; cbn in *; try lia. rewrite IH by lia. f_equal.
    destruct (feqb b fzero) eqn:E.
    - apply feqb_eq in E. subst b. replace (fadd a fzero) with a by ring. now rewrite feqb_refl.
    - apply feqb_neq in E. assert (N : a <> fadd a b). { intros X. apply E. apply (fadd_cancel_l _ _ a). rewrite <- X. ring. }
      apply feqb_neq in N. now rewrite N.
  Qed.

  (** the condition on each word of the state before a full round *)
  Fixpoint conds (d rc w : list F) : list (F -> Prop) :=
    match d, rc, w with
    | a :: d', r :: rc', e :: w' => (fun v => power5 (fadd (fadd v a) r) = fadd (power5 (fadd v r)) e) :: conds d' rc' w'
    | _, _, _ => []
    end.
  Definition limits (d : list F) : list nat := map (fun a => if feqb a fzero then p else 4) d.
  Lemma cond_limit : forall a r e : F, a <> fzero -> at_most 4 (fun v => power5 (fadd (fadd v a) r) = fadd (power5 (fadd v r)) e).
  Proof.
    intros a r e Ha xs Hn Hx. rewrite <- (map_length (fun v => fadd v r) xs). apply (sbox_diff H5 a e); [exact Ha| |].
    - clear - PF Hn. induction Hn as [|x xs N Hn IH]; cbn [map]; constructor; [|exact IH]. rewrite in_map_iff. intros (y & E & Iy).
      apply fadd_cancel_r in E. now subst.
    - intros u Iu. apply in_map_iff in Iu. destruct Iu as (v & <- & Iv). rewrite <- (Hx v Iv). f_equal. ring.
  Qed.
  Lemma conds_limits : forall d rc w, length rc = length d -> length w = length d -> Forall2 at_most (limits d) (conds d rc w).
  Proof.
    induction d as [|a d IH]; intros [|r rc] [|e w] H1 H2; cbn in *; try lia; constructor; [|apply IH; lia].
    destruct (feqb a fzero) eqn:E; [apply all_words|]. apply feqb_neq in E. now apply cond_limit.
  Qed.
  Lemma limits_prod : forall d, prod (limits d) = 4 ^ weight d * p ^ (length d - weight d).
  Proof.
    induction d as [|a d IH]; [reflexivity|]. change (limits (a :: d)) with ((if feqb a fzero then p else 4) :: limits d).
    set (q := p) in *. clearbody q. cbn [prod weight length]. rewrite IH. pose proof (weight_bound d) as W.
    destruct (feqb a fzero).
    - replace (S (length d) - (0 + weight d)) with (S (length d - weight d)) by lia. rewrite Nat.pow_succ_r'. cbn [Nat.add]. ring.
    - replace (S (length d) - (1 + weight d)) with (length d - weight d) by lia. cbn [Nat.add]. rewrite Nat.pow_succ_r'. ring.
  Qed.
  Lemma words_conds : forall d rc w x, length rc = length d -> length w = length d -> length x = length d ->
    vsub (map power5 (vadd (vadd x d) rc)) (map power5 (vadd x rc)) = w -> words_in (conds d rc w) x.
  Proof.
    induction d as [|a d IH]; intros [|r rc] [|e w] [|v x] H1 H2 H3 E; cbn in *; try lia; auto.
    pose proof (f_equal (hd fzero) E) as E1. pose proof (f_equal (@tl F) E) as E2. cbn in E1, E2. split; [|apply IH; auto; lia].
    rewrite <- E1. ring.
  Qed.

  Lemma full_diff : forall rc d e xs, length rc = T -> length d = T -> length e = T -> NoDup xs ->
    (forall x, In x xs -> length x = T /\ spec_full m (vadd x d) rc = vadd (spec_full m x rc) e) ->
    length xs <= 4 ^ weight d * p ^ (T - weight d).
  Proof.
    intros rc d e xs Hrc Hd He Hn Hx. destruct xs as [|x0 xs0] eqn:Exs; [cbn; lia|]. rewrite <- Exs in *.
    set (W := fun x => vsub (map power5 (vadd (vadd x d) rc)) (map power5 (vadd x rc))).
    assert (LW : forall x, length x = T -> length (W x) = T).
    { intros x Lx. unfold W. rewrite vsub_length; rewrite !map_length, !vadd_length; rewrite ?vadd_length; congruence. }
    assert (EW : forall x, In x xs -> mat_vec m (W x) = e).
    { intros x X. destruct (Hx x X) as [Lx E]. unfold W. rewrite mat_vec_vsub by (rewrite !map_length, !vadd_length; rewrite ?vadd_length; congruence).
      unfold spec_full in E. rewrite E. apply vsub_vadd_l. rewrite (mat_vec_len T m Hm Hmin Hp). exact He. }
    assert (I0 : In x0 xs) by (rewrite Exs; now left).
    rewrite <- Hd. rewrite <- limits_prod. apply (product (conds d rc (W x0))); [|exact Hn|].
    - apply conds_limits; [congruence|]. rewrite Hd. apply LW, (Hx x0 I0).
    - intros x X. destruct (Hx x X) as [Lx _]. apply words_conds; try congruence.
      + rewrite Hd. apply LW, (Hx x0 I0).
      + change (W x = W x0). apply mat_vec_inj; [now apply LW|apply LW, (Hx x0 I0)|]. now rewrite !EW.
  Qed.

  Lemma partial_diff : forall rc d e xs, length rc = T -> length d = T -> length e = T -> nth 0 d fzero <> fzero -> NoDup xs ->
    (forall x, In x xs -> length x = T /\ spec_partial m (vadd x d) rc = vadd (spec_partial m x rc) e) ->
    length xs <= 4 * p ^ (T - 1).
  Proof.
    intros rc d e xs Hrc Hd He N0 Hn Hx. destruct xs as [|x0 xs0] eqn:Exs; [cbn; lia|]. rewrite <- Exs in *.
    destruct d as [|a d]; [now elim N0|]. cbn [nth] in N0. destruct rc as [|r rc]; [cbn in *; lia|].
    set (W := fun x => vsub (sbox_head (vadd (vadd x (a :: d)) (r :: rc))) (sbox_head (vadd x (r :: rc)))).
    assert (LS : forall v : list F, length (sbox_head v) = length v) by (intros [|? ?]; reflexivity).
    assert (LV : forall x, length x = T -> length (vadd (vadd x (a :: d)) (r :: rc)) = T /\ length (vadd x (r :: rc)) = T).
    { intros x Lx. split; [rewrite vadd_length; rewrite vadd_length; congruence|rewrite vadd_length; congruence]. }
    assert (LW : forall x, length x = T -> length (W x) = T).
    { intros x Lx. destruct (LV x Lx) as [A B]. unfold W. rewrite vsub_length; rewrite !LS; congruence. }
    assert (EW : forall x, In x xs -> mat_vec m (W x) = e).
    { intros x X. destruct (Hx x X) as [Lx E]. destruct (LV x Lx) as [A B]. unfold W. rewrite mat_vec_vsub by (rewrite !LS; congruence).
      change (vsub (spec_partial m (vadd x (a :: d)) (r :: rc)) (spec_partial m x (r :: rc)) = e).
      rewrite E. apply vsub_vadd_l. rewrite (partial_len T m Hm Hmin Hp). exact He. }
    assert (I0 : In x0 xs) by (rewrite Exs; now left).
    assert (EP : 4 * p ^ (T - 1) = prod (4 :: repeat p (T - 1))).
    { cbn [prod]. f_equal. generalize (T - 1). intros k. set (q := p). clearbody q. induction k as [|k IH]; cbn [repeat prod Nat.pow]; [reflexivity|]. now rewrite IH. }
    rewrite EP. apply (product ((fun v => power5 (fadd (fadd v a) r) = fadd (power5 (fadd v r)) (nth 0 (W x0) fzero)) :: repeat (fun _ => True) (T - 1))); [|exact Hn|].
    - constructor; [now apply cond_limit|]. generalize (T - 1). intros k. induction k as [|k IH]; cbn [repeat]; constructor; [apply all_words|exact IH].
    - intros x X. destruct (Hx x X) as [Lx _]. destruct x as [|v x]; [cbn in *; lia|]. split.
      + assert (E : W (v :: x) = W x0). { apply mat_vec_inj; [now apply LW|apply LW, (Hx x0 I0)|]. now rewrite !EW. }
        rewrite <- E. unfold W. cbn [vadd sbox_head vsub nth]. ring.
      + assert (L : length x = T - 1) by (cbn in Lx; lia). rewrite <- L. clear. induction x as [|w x IH]; cbn; auto.
  Qed.

  (** runs of rounds keep different states apart *)
  Lemma map_apart : forall (step : list F -> list F) xs, (forall x y, In x xs -> In y xs -> step x = step y -> x = y) -> NoDup xs -> NoDup (map step xs).
  Proof.
    intros step xs Hi Hn. induction Hn as [|x xs N Hn IH]; cbn [map]; constructor.
    - rewrite in_map_iff. intros (y & E & Iy). apply N. rewrite <- (Hi y x); [exact Iy|now right|now left|exact E].
    - apply IH. intros u v Iu Iv. apply Hi; now right.
  Qed.
  Lemma mono : forall a k, k <= a -> a <= T -> 4 <= p -> 4 ^ a * p ^ (T - a) <= 4 ^ k * p ^ (T - k).
  Proof.
    intros a k Hk Ha. set (q := p). clearbody q. intros Hq. replace a with (k + (a - k)) by lia. replace (T - k) with ((a - k) + (T - a)) by lia.
    replace (T - (k + (a - k))) with (T - a) by lia. rewrite !Nat.pow_add_r, <- Nat.mul_assoc. apply Nat.mul_le_mono_l, Nat.mul_le_mono_r.
    now apply Nat.pow_le_mono_l.
  Qed.

  Lemma full_trail : forall r1 r2 rcs d0 d1 d2 ds xs, length r1 = T -> length r2 = T -> length d0 = T -> length d1 = T -> length d2 = T ->
    d0 <> repeat fzero T -> 4 <= p -> NoDup xs ->
    (forall x, In x xs -> length x = T /\ follows (spec_full m) (r1 :: r2 :: rcs) (d1 :: d2 :: ds) x (vadd x d0)) ->
    length xs <= 4 ^ S (T / 2) * p ^ (T - S (T / 2)).
  Proof.
    intros r1 r2 rcs d0 d1 d2 ds xs L1 L2 Ld0 Ld1 Ld2 N Hq Hn Hx.
    assert (T0 : T <> 0). { intros E. apply N. rewrite E in *. destruct d0; [reflexivity|cbn in *; lia]. }
    pose proof (Nat.div_mod T 2 ltac:(lia)) as DM. pose proof (Nat.mod_upper_bound T 2 ltac:(lia)) as MB. set (h := T / 2) in *. clearbody h.
    destruct xs as [|x0 xs0] eqn:Exs; [cbn; lia|]. rewrite <- Exs in *. assert (I0 : In x0 xs) by (rewrite Exs; now left).
    pose proof (weight_bound d0) as W0. pose proof (weight_bound d1) as W1. rewrite Ld0 in W0. rewrite Ld1 in W1.
    destruct (le_lt_dec (S h) (weight d0)) as [G|G].
    - apply (Nat.le_trans _ (4 ^ weight d0 * p ^ (T - weight d0))); [|now apply mono].
      apply (full_diff r1 d0 d1); auto. intros x X. destruct (Hx x X) as [Lx [E _]]. split; [exact Lx|exact E].
    - assert (G1 : S h <= weight d1).
      { destruct (Hx x0 I0) as [Lx [E _]]. assert (Ly : length (vadd x0 d0) = T) by (rewrite vadd_length; congruence).
        assert (Nxy : x0 <> vadd x0 d0).
        { intros X. apply N. pose proof (differences_shift x0 d0 ltac:(congruence)) as D. rewrite <- X, differences_refl in D. symmetry in D. apply weight_zero in D. now rewrite Ld0 in D. }
        destruct (full_round_diff T m Hm Hmin Hp x0 (vadd x0 d0) r1 Lx Ly L1 Nxy) as [D _].
        rewrite E, differences_shift in D by congruence. rewrite differences_shift in D by (rewrite (full_len T m Hm Hmin Hp); congruence). lia. }
      apply (Nat.le_trans _ (4 ^ weight d1 * p ^ (T - weight d1))); [|now apply mono].
      rewrite <- (map_length (fun x => spec_full m x r1) xs). apply (full_diff r2 d1 d2); auto.
      + apply map_apart; [|exact Hn]. intros x y Ix Iy E. destruct (list_eq_dec feq_dec x y) as [Q|Q]; [exact Q|exfalso].
        apply (proj2 (full_round_diff T m Hm Hmin Hp x y r1 (proj1 (Hx x Ix)) (proj1 (Hx y Iy)) L1 Q)). exact E.
      + intros u Iu. apply in_map_iff in Iu. destruct Iu as (x & <- & Ix). destruct (Hx x Ix) as [Lx [E [E2 _]]]. split; [apply (full_len T m Hm Hmin Hp)|].
        rewrite E in E2. exact E2.
  Qed.

  Lemma partial_linear : forall rc d x, length rc = T -> length d = T -> length x = T -> nth 0 d fzero = fzero ->
    spec_partial m (vadd x d) rc = vadd (spec_partial m x rc) (mat_vec m d).
  Proof.
    intros rc d x Hr Hd Hx N. unfold spec_partial.
    assert (D : forall row a b, length a = length b -> dot row (vadd a b) = fadd (dot row a) (dot row b)).
    { clear - PF. induction row as [|r row IH]; intros [|a u] [|b w] L; cbn in *; try lia; try ring. rewrite IH by lia. ring. }
    assert (M : forall a b, length a = length b -> mat_vec m (vadd a b) = vadd (mat_vec m a) (mat_vec m b)).
    { clear - D. intros a b L. unfold mat_vec. induction m as [|row m' IH]; [reflexivity|]. cbn [map vadd]. now rewrite D, IH. }
    assert (S : vadd (vadd x d) rc = vadd (vadd x rc) d).
    { clear - PF Hr Hd Hx. assert (A : length rc = length x) by congruence. assert (B : length d = length x) by congruence. clear Hr Hd Hx. revert rc d A B. induction x as [|v x IH]; intros [|r rc] [|a d] A B; cbn in *; try lia; auto.
      rewrite IH by lia. f_equal. ring. }
    rewrite S. assert (LV : length (vadd x rc) = length d) by (rewrite vadd_length; congruence).
    destruct (vadd x rc) as [|v u]; destruct d as [|a d]; cbn in LV, N; try lia; [|]; cbn [vadd].
    - rewrite <- M by reflexivity. reflexivity.
    - subst a. rewrite <- M by (cbn; lia). cbn [vadd]. replace (fadd v fzero) with v by ring. now replace (fadd (power5 v) fzero) with (power5 v) by ring.
  Qed.

  Lemma partial_trail_aux : forall rcs ds d0 xs i, length ds = length rcs -> Forall (fun r => length r = T) rcs -> Forall (fun d => length d = T) ds ->
    length d0 = T -> i < length rcs -> nth 0 (Nat.iter i (mat_vec m) d0) fzero <> fzero -> NoDup xs ->
    (forall x, In x xs -> length x = T /\ follows (spec_partial m) rcs ds x (vadd x d0)) ->
    length xs <= 4 * p ^ (T - 1).
  Proof.
    induction rcs as [|rc rcs IH]; intros ds d0 xs i Ll Hr Hds Ld0 Hi Hq Hn Hx; [cbn in Hi; lia|].
    destruct ds as [|d1 ds]; [discriminate|]. pose proof (Forall_inv Hr) as R1. pose proof (Forall_inv_tail Hr) as R2.
    pose proof (Forall_inv Hds) as D1. pose proof (Forall_inv_tail Hds) as D2. cbn beta in R1, D1.
    destruct xs as [|x0 xs0] eqn:Exs; [cbn; lia|]. rewrite <- Exs in *. assert (I0 : In x0 xs) by (rewrite Exs; now left).
    destruct (feq_dec (nth 0 d0 fzero) fzero) as [Z|Z].
    - destruct i as [|i]; [elim Hq; exact Z|]. rewrite iter_swap in Hq.
      assert (E1 : d1 = mat_vec m d0).
      { destruct (Hx x0 I0) as [Lx [E _]]. rewrite (partial_linear rc d0 x0 R1 Ld0 Lx Z) in E.
        rewrite <- (vsub_vadd_l (spec_partial m x0 rc) d1) by (rewrite (partial_len T m Hm Hmin Hp); congruence). rewrite <- E. apply vsub_vadd_l.
        now rewrite (partial_len T m Hm Hmin Hp), (mat_vec_len T m Hm Hmin Hp). }
      rewrite <- (map_length (fun x => spec_partial m x rc) xs). apply (IH ds d1 _ i); [cbn in Ll; lia|exact R2|exact D2|exact D1|cbn in Hi; lia|now rewrite E1| |].
      + apply map_apart; [|exact Hn]. intros x y Ix Iy E. destruct (list_eq_dec feq_dec x y) as [Q|Q]; [exact Q|exfalso].
        apply (partial_round_ne T m Hm Hmin Hp x y rc (proj1 (Hx x Ix)) (proj1 (Hx y Iy)) R1 Q). exact E.
      + intros u Iu. apply in_map_iff in Iu. destruct Iu as (x & <- & Ix). destruct (Hx x Ix) as [Lx [E E2]]. split; [apply (partial_len T m Hm Hmin Hp)|].
        rewrite E in E2. exact E2.
    - apply (partial_diff rc d0 d1); auto. intros x X. destruct (Hx x X) as [Lx [E _]]. split; [exact Lx|exact E].
  Qed.
  Lemma partial_trail : forall n rcs ds d0 xs, no_quiet_trail T n m -> n <= length rcs -> n <= length ds ->
    Forall (fun r => length r = T) rcs -> Forall (fun d => length d = T) ds -> length d0 = T -> d0 <> repeat fzero T -> NoDup xs ->
    (forall x, In x xs -> length x = T /\ follows (spec_partial m) rcs ds x (vadd x d0)) ->
    length xs <= 4 * p ^ (T - 1).
  Proof.
    intros n rcs ds d0 xs Hq Lr Lds Hr Hds Ld0 N Hn Hx.
    assert (S : forall k, (forall i, i < k -> nth 0 (Nat.iter i (mat_vec m) d0) fzero = fzero) \/ exists i, i < k /\ nth 0 (Nat.iter i (mat_vec m) d0) fzero <> fzero).
    { clear - PF. intros k. induction k as [|k [IH|(i & Hi & IH)]]; [left; intros; lia| |right; exists i; split; [lia|exact IH]].
      destruct (feq_dec (nth 0 (Nat.iter k (mat_vec m) d0) fzero) fzero) as [E|E]; [left|right; exists k; split; [lia|exact E]].
      intros i Hi. destruct (Nat.eq_dec i k) as [->|]; [exact E|apply IH; lia]. }
    destruct (S n) as [Q|(i & Hi & Q)]; [elim N; now apply Hq|].
    apply (partial_trail_aux (firstn n rcs) (firstn n ds) d0 xs i); auto using Forall_firstn.
    - rewrite !firstn_length. lia.
    - rewrite firstn_length. lia.
    - intros x X. destruct (Hx x X) as [Lx E]. split; [exact Lx|]. clear - E. revert rcs ds E. generalize (vadd x d0). revert x.
      induction n as [|n IH]; intros x y rcs ds E; [exact I|]. destruct rcs as [|rc rcs]; [exact I|]. destruct ds as [|d ds]; [exact I|].
      cbn [firstn follows] in *. split; [apply E|apply IH, E].
  Qed.
End Rounds.

(** ** The whole permutation along a line *)
Section Line.
  Context {F : Type} {FO : FieldOps F} {PF : PrimeField F} (T : nat) (m : list (list F)) (Hm : length m = T).
  Local Open Scope nat_scope.

  Lemma permute_differential : forall half partial rcs st v j k e xs, of_Z (F := F) 5 <> fzero -> Forall (fun rc => length rc = T) rcs ->
    2 * half + partial <= length rcs -> 0 < 2 * half + partial -> length st = T -> length v = T ->
    nth j (lead_permute m half partial v) fzero <> fzero -> k <> fzero -> NoDup xs ->
    (forall x, In x xs -> nth j (spec_permute m half partial rcs (on_line st v (fadd x k))) fzero
                          = fadd (nth j (spec_permute m half partial rcs (on_line st v x)) fzero) e) ->
    length xs < 5 ^ (2 * half + partial).
  Proof.
    intros half partial rcs st v j k e xs H5 Hr Hn H0 Hs Hv N Hk Hd Hx.
    destruct (permute_leads T m Hm half partial rcs st v Hr Hn Hs Hv) as (gs & Hg & E).
    apply (diff_roots k (5 ^ (2 * half + partial)) (nth j (lead_permute m half partial v) fzero) (fun x => nth j (spec_permute m half partial rcs (on_line st v x)) fzero) e xs); auto.
    - apply (Nat.pow_lt_mono_r 5 0); lia.
    - now apply five_pow.
    - apply (lead_ext _ _ (fun x => nth j (at_point gs x) fzero)); [intros x; now rewrite E|]. now apply leads_nth.
  Qed.
End Line.
