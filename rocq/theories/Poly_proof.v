(** The degree of the textbook permutation along a line (PolyUse.v). *)
From Coq Require Import ZArith List Arith Lia setoid_ring.Field.
From Verif Require Import Field SpecHash PolyUse.
Import ListNotations.
Local Open Scope F_scope.

Lemma iter_swap : forall A (f : A -> A) n x, Nat.iter (S n) f x = Nat.iter n f (f x).
Proof. intros A f n x. induction n as [|n IH]; [reflexivity|]. change (f (Nat.iter (S n) f x) = f (Nat.iter n f (f x))). now rewrite IH. Qed.

Section Poly.
  Context {F : Type} {FO : FieldOps F} {PF : PrimeField F}.
  Add Field Ffield : f_field.

  Fixpoint padd (a b : list F) : list F :=
    match a, b with
    | [], _ => b
    | _, [] => a
    | x :: a', y :: b' => (x + y) :: padd a' b'
    end.
  Lemma padd_eval : forall a b x, polynomial (padd a b) x = polynomial a x + polynomial b x.
  Proof.
    induction a as [|u a IH]; intros b x; [cbn; ring|]. destruct b as [|v b]; cbn [padd polynomial]; [ring|]. rewrite IH. ring.
  Qed.
  Lemma padd_length : forall a b n, (length a <= n)%nat -> (length b <= n)%nat -> (length (padd a b) <= n)%nat.
  Proof.
    induction a as [|u a IH]; intros b n Ha Hb; [exact Hb|]. destruct b as [|v b]; [exact Ha|].
    cbn [padd length] in *. destruct n as [|n]; [lia|]. specialize (IH b n). lia.
  Qed.
  Lemma scale_eval : forall k a x, polynomial (map (fmul k) a) x = k * polynomial a x.
  Proof. intros k a x. induction a as [|u a IH]; cbn [map polynomial]; [ring|]. rewrite IH. ring. Qed.
  Lemma shift_eval : forall n a x, polynomial (repeat 0 n ++ a) x = fpow x n * polynomial a x.
  Proof. induction n as [|n IH]; intros a x; cbn [repeat app polynomial fpow]; [ring|]. rewrite IH. ring. Qed.
  Fixpoint pmul (a b : list F) : list F :=
    match a with [] => [] | x :: a' => padd (map (fmul x) b) (0 :: pmul a' b) end.
  Lemma pmul_eval : forall a b x, polynomial (pmul a b) x = polynomial a x * polynomial b x.
  Proof.
    induction a as [|u a IH]; intros b x; cbn [pmul polynomial]; [ring|].
    rewrite padd_eval, scale_eval. cbn [polynomial]. rewrite IH. ring.
  Qed.
  Lemma pmul_length : forall a b, (length (pmul a b) <= length a + length b)%nat.
  Proof.
    induction a as [|u a IH]; intros b; cbn [pmul length]; [lia|].
    apply padd_length; cbn [length]; rewrite ?map_length; [lia|]. specialize (IH b). lia.
  Qed.
  Lemma fpow_add : forall (x : F) m n, fpow x (m + n) = fpow x m * fpow x n.
  Proof. intros x m n. induction m as [|m IH]; cbn [Nat.add fpow]; [ring|]. rewrite IH. ring. Qed.

  (** [f] is [a x^d] plus lower terms *)
  Definition has_lead (d : nat) (a : F) (f : F -> F) : Prop :=
    exists c, (length c <= d)%nat /\ forall x, f x = a * fpow x d + polynomial c x.

  Lemma lead_ext : forall d a f g, (forall x, f x = g x) -> has_lead d a f -> has_lead d a g.
  Proof. intros d a f g E (c & Hc & H). exists c. split; [exact Hc|]. intros x. now rewrite <- E. Qed.
  Lemma lead_add : forall d a b f g, has_lead d a f -> has_lead d b g -> has_lead d (a + b) (fun x => f x + g x).
  Proof.
    intros d a b f g (c & Hc & Ef) (c' & Hc' & Eg). exists (padd c c'). split; [now apply padd_length|].
    intros x. rewrite Ef, Eg, padd_eval. ring.
  Qed.
  Lemma lead_scale : forall d a k f, has_lead d a f -> has_lead d (k * a) (fun x => k * f x).
  Proof.
    intros d a k f (c & Hc & Ef). exists (map (fmul k) c). split; [now rewrite map_length|].
    intros x. rewrite Ef, scale_eval. ring.
  Qed.
  Lemma lead_const : forall d k, has_lead (S d) 0 (fun _ => k).
  Proof. intros d k. exists [k]. split; [cbn; lia|]. intros x. cbn [polynomial]. ring. Qed.
  Lemma lead_zero : forall d, has_lead d 0 (fun _ => 0).
  Proof. intros d. exists []. split; [cbn; lia|]. intros x. cbn [polynomial]. ring. Qed.
  Lemma lead_lower : forall d d' a f, (d < d')%nat -> has_lead d a f -> has_lead d' 0 f.
  Proof.
    intros d d' a f L (c & Hc & Ef). exists (padd (repeat 0 d ++ [a]) c). split.
    - apply padd_length; [rewrite app_length, repeat_length; cbn; lia|lia].
    - intros x. rewrite Ef, padd_eval, shift_eval. cbn [polynomial]. ring.
  Qed.
  Lemma lead_mul : forall d d' a b f g, has_lead d a f -> has_lead d' b g -> has_lead (d + d') (a * b) (fun x => f x * g x).
  Proof.
    intros d d' a b f g (c & Hc & Ef) (c' & Hc' & Eg).
    exists (padd (pmul c c') (padd (repeat 0 d ++ map (fmul a) c') (repeat 0 d' ++ map (fmul b) c))). split.
    - pose proof (pmul_length c c') as P. apply padd_length; [lia|].
      apply padd_length; rewrite app_length, repeat_length, map_length; lia.
    - intros x. rewrite Ef, Eg, !padd_eval, pmul_eval, !shift_eval, !scale_eval, fpow_add. ring.
  Qed.
  Lemma lead_power5 : forall d a f, has_lead d a f -> has_lead (d * 5) (power5 a) (fun x => power5 (f x)).
  Proof.
    intros d a f H. unfold power5. replace (d * 5)%nat with (d + d + d + d + d)%nat by lia.
    repeat (apply (lead_mul _ d); [|exact H]). exact H.
  Qed.

  (** a leading coefficient bounds the number of roots *)
  Lemma divide_lead : forall c v a r, exists q, length q = length c
    /\ forall x, polynomial (v :: c ++ [a]) x = (x - r) * polynomial (q ++ [a]) x + polynomial (v :: c ++ [a]) r.
  Proof.
    induction c as [|w c IH]; intros v a r.
    - exists []. split; [reflexivity|]. intros x. cbn [app polynomial]. ring.
    - destruct (IH w a r) as (q & Hq & E). exists (polynomial (w :: c ++ [a]) r :: q). split; [cbn; now rewrite Hq|].
      intros x. change (polynomial (v :: (w :: c) ++ [a]) x) with (v + x * polynomial (w :: c ++ [a]) x).
      change (polynomial (v :: (w :: c) ++ [a]) r) with (v + r * polynomial (w :: c ++ [a]) r).
      rewrite E. change (polynomial ((polynomial (w :: c ++ [a]) r :: q) ++ [a]) x) with (polynomial (w :: c ++ [a]) r + x * polynomial (q ++ [a]) x). ring.
  Qed.
  Lemma roots_lead : forall xs c a, a <> 0 -> NoDup xs -> (forall x, In x xs -> polynomial (c ++ [a]) x = 0) -> (length xs <= length c)%nat.
  Proof.
    induction xs as [|r xs IH]; intros c a Ha Hn Hz; [cbn; lia|].
    destruct c as [|v c].
    - elim Ha. specialize (Hz r (or_introl eq_refl)). cbn [app polynomial] in Hz. rewrite <- Hz. ring.
    - destruct (divide_lead c v a r) as (q & Hq & E). cbn [length]. rewrite <- Hq. apply le_n_S. inversion Hn as [|? ? Hr Hn']; subst.
      apply (IH q a Ha Hn'). intros x Hx. pose proof (Hz x (or_intror Hx)) as Zx. pose proof (Hz r (or_introl eq_refl)) as Zr.
      cbn [app] in Zx, Zr. rewrite E, Zr in Zx. assert (P : (x - r) * polynomial (q ++ [a]) x = 0) by (rewrite <- Zx; ring).
      apply fmul_eq_0 in P. destruct P as [P|P]; [|exact P]. apply (proj1 (fsub_eq_0 _ _)) in P. subst x. contradiction.
  Qed.
  Lemma lead_roots : forall d a f xs, a <> 0 -> has_lead d a f -> NoDup xs -> (forall x, In x xs -> f x = 0) -> (length xs <= d)%nat.
  Proof.
    intros d a f xs Ha (c & Hc & E) Hn Hz.
    set (c' := c ++ repeat 0 (d - length c)). assert (L : length c' = d) by (unfold c'; rewrite app_length, repeat_length; lia).
    assert (A : forall c x, polynomial (c ++ [a]) x = a * fpow x (length c) + polynomial c x).
    { clear - PF. induction c as [|v c IH]; intros x; cbn [app polynomial length fpow]; [ring|]. rewrite IH. ring. }
    assert (Z : forall n c x, polynomial (c ++ repeat 0 n) x = polynomial c x).
    { clear - PF. intros n. induction c as [|v c IH]; intros x; cbn [app polynomial]; [|now rewrite IH].
      induction n as [|n IHn]; cbn [repeat polynomial]; [reflexivity|]. rewrite IHn. ring. }
    rewrite <- L. apply (roots_lead xs c' a Ha Hn). intros x Hx. rewrite A, L. unfold c'. rewrite Z, <- E. now apply Hz.
  Qed.
  Lemma lead_degree : forall d a f, a <> 0 -> has_lead d a f -> degree d f.
  Proof.
    intros d a f Ha H. split.
    - destruct H as (c & Hc & E). exists (c ++ repeat 0 (d - length c) ++ [a]). split; [rewrite !app_length, repeat_length; cbn; lia|].
      intros x. rewrite E. clear E. revert d Hc. induction c as [|v c IH]; intros d Hc; cbn [app polynomial length].
      + rewrite Nat.sub_0_r, shift_eval. cbn [polynomial]. ring.
      + destruct d as [|d]; [cbn in Hc; lia|]. cbn [length] in Hc. cbn [fpow Nat.sub]. rewrite <- (IH d) by lia. ring.
    - intros c xs Hc Hn Hx. apply (lead_roots d a (fun x => f x - polynomial c x) xs Ha); [|exact Hn|].
      + destruct H as (c0 & Hc0 & E). exists (padd c0 (map (fmul (- (1))) c)). split; [apply padd_length; rewrite ?map_length; lia|].
        intros x. rewrite E, padd_eval, scale_eval. ring.
      + intros x X. rewrite (Hx x X). ring.
  Qed.

  (** ** States whose words are polynomials *)
  Definition at_point (fs : list (F -> F)) (x : F) : list F := map (fun f => f x) fs.
  Definition leads (d : nat) (v : list F) (fs : list (F -> F)) : Prop := Forall2 (has_lead d) v fs.

  Lemma dot_leads : forall d v fs row, leads d v fs -> has_lead d (dot row v) (fun x => dot row (at_point fs x)).
  Proof.
    intros d v fs row H. revert row. induction H as [|a f v fs Hf H IH]; intros row.
    - apply (lead_ext d _ (fun _ => 0)); [intros; destruct row; reflexivity|]. destruct row; apply lead_zero.
    - destruct row as [|k row]; [apply lead_zero|]. cbn [dot at_point map]. apply lead_add; [now apply lead_scale|apply IH].
  Qed.
  Lemma mat_leads : forall d m v fs, leads d v fs ->
    leads d (mat_vec m v) (map (fun row x => dot row (at_point fs x)) m).
  Proof.
    intros d m v fs H. induction m as [|row m IH]; [constructor|]. cbn [mat_vec map]. constructor; [now apply dot_leads|exact IH].
  Qed.
  Lemma mat_at : forall m fs x, at_point (map (fun row x => dot row (at_point fs x)) m) x = mat_vec m (at_point fs x).
  Proof. intros m fs x. unfold at_point at 1. rewrite map_map. reflexivity. Qed.
  Lemma add_leads : forall d v fs rc, leads (S d) v fs -> length rc = length v ->
    exists gs, leads (S d) v gs /\ forall x, vadd (at_point fs x) rc = at_point gs x.
  Proof.
    intros d v fs rc H. revert rc. induction H as [|a f v fs Hf H IH]; intros rc L.
    - exists []. split; [constructor|]. reflexivity.
    - destruct rc as [|k rc]; [discriminate|]. cbn [length] in L. destruct (IH rc ltac:(lia)) as (gs & Hg & E).
      exists ((fun x => f x + k) :: gs). split.
      + constructor; [|exact Hg]. apply (fun H => eq_rect _ (fun b => has_lead (S d) b (fun x => f x + k)) (lead_add (S d) a 0 f (fun _ => k) Hf (lead_const d k)) a H). ring.
      + intros x. cbn [at_point map vadd]. f_equal. apply E.
  Qed.
  Lemma full_leads : forall d m v fs rc, leads (S d) v fs -> length rc = length v ->
    exists gs, leads (S d * 5) (lead_full m v) gs /\ forall x, spec_full m (at_point fs x) rc = at_point gs x.
  Proof.
    intros d m v fs rc H L. destruct (add_leads d v fs rc H L) as (gs & Hg & E).
    assert (P : leads (S d * 5) (map power5 v) (map (fun f x => power5 (f x)) gs)).
    { clear - Hg PF. induction Hg as [|a f v fs Hf Hg IH]; cbn [map]; constructor; [now apply lead_power5|exact IH]. }
    exists (map (fun row x => dot row (at_point (map (fun f x => power5 (f x)) gs) x)) m). split; [now apply mat_leads|].
    intros x. rewrite mat_at. unfold spec_full. rewrite E. unfold at_point. rewrite !map_map. reflexivity.
  Qed.
  Lemma partial_leads : forall d m v fs rc, leads (S d) v fs -> length rc = length v ->
    exists gs, leads (S d * 5) (lead_partial m v) gs /\ forall x, spec_partial m (at_point fs x) rc = at_point gs x.
  Proof.
    intros d m v fs rc H L. destruct (add_leads d v fs rc H L) as (gs & Hg & E).
    set (w := match v with [] => [] | x :: t => power5 x :: map (fun _ => 0) t end).
    set (hs := match gs with [] => [] | f :: t => (fun x => power5 (f x)) :: t end).
    assert (P : leads (S d * 5) w hs).
    { unfold w, hs. clear - Hg PF. destruct Hg as [|a f v fs Hf Hg]; constructor; [now apply lead_power5|].
      induction Hg as [|b g v fs Hb Hg IH]; cbn [map]; constructor; [|exact IH]. apply (lead_lower (S d) _ b); [lia|exact Hb]. }
    exists (map (fun row x => dot row (at_point hs x)) m). split; [now apply mat_leads|].
    intros x. rewrite mat_at. unfold spec_partial. rewrite E. unfold hs. destruct gs as [|f gs]; reflexivity.
  Qed.

  Section Rounds.
    Variable T : nat.
    Variable m : list (list F).
    Hypothesis Hm : length m = T.

    Lemma rounds_leads : forall (step : list F -> list F -> list F) (lead : list F -> list F),
      (forall d v fs rc, leads (S d) v fs -> length rc = length v ->
        exists gs, leads (S d * 5) (lead v) gs /\ forall x, step (at_point fs x) rc = at_point gs x) ->
      (forall v, length (lead v) = T) ->
      forall rcs d v fs, Forall (fun rc => length rc = T) rcs -> length v = T -> leads (S d) v fs ->
      exists gs, leads (S d * 5 ^ length rcs) (Nat.iter (length rcs) lead v) gs /\ length (Nat.iter (length rcs) lead v) = T
        /\ forall x, fold_left step rcs (at_point fs x) = at_point gs x.
    Proof.
      intros step lead Hs Hl rcs. induction rcs as [|rc rcs IH]; intros d v fs Hr Hv H.
      - exists fs. cbn [length Nat.pow Nat.iter nat_rect fold_left]. rewrite Nat.mul_1_r. auto.
      - inversion Hr as [|? ? R1 R2]; subst. destruct (Hs d v fs rc H (eq_trans R1 (eq_sym Hv))) as (gs & Hg & E).
        destruct (IH (d * 5 + 4)%nat (lead v) gs R2 (Hl v)) as (hs & Hh & Lh & E').
        { replace (S (d * 5 + 4)) with (S d * 5)%nat by lia. exact Hg. }
        exists hs. cbn [length]. rewrite iter_swap. split; [|split].
        + replace (S d * 5 ^ S (length rcs))%nat with (S (d * 5 + 4) * 5 ^ length rcs)%nat; [exact Hh|].
          rewrite Nat.pow_succ_r'. replace (S (d * 5 + 4)) with (S d * 5)%nat by lia. lia.
        + exact Lh.
        + intros x. cbn [fold_left]. rewrite E. apply E'.
    Qed.

    Lemma line_leads : forall st v, length st = T -> length v = T -> exists fs, leads 1 v fs /\ forall x, on_line st v x = at_point fs x.
    Proof.
      intros st v Hs Hv. clear Hm. revert st T Hs Hv. induction v as [|a v IH]; intros st n Hs Hv.
      - exists []. split; [constructor|reflexivity].
      - destruct st as [|k st]; [cbn in *; congruence|]. cbn [length] in *. destruct n as [|n]; [discriminate|].
        destruct (IH st n) as (fs & Hf & E); [congruence|congruence|]. exists ((fun x => x * a + k) :: fs). split.
        + constructor; [|exact Hf]. exists [k]. split; [cbn; lia|]. intros x. cbn [fpow polynomial]. ring.
        + intros x. unfold on_line in *. cbn [map vadd at_point]. f_equal. apply E.
    Qed.

    Lemma permute_leads : forall half partial rcs st v, Forall (fun rc => length rc = T) rcs ->
      (2 * half + partial <= length rcs)%nat -> length st = T -> length v = T ->
      exists gs, leads (5 ^ (2 * half + partial)) (lead_permute m half partial v) gs
        /\ forall x, spec_permute m half partial rcs (on_line st v x) = at_point gs x.
    Proof.
      intros half partial rcs st v Hr Hn Hs Hv.
      assert (Lf : forall v, length (lead_full m v) = T) by (intros; unfold lead_full, mat_vec; now rewrite map_length).
      assert (Lp : forall v, length (lead_partial m v) = T) by (intros; unfold lead_partial, mat_vec; now rewrite map_length).
      assert (FA : forall n l, Forall (fun rc : list F => length rc = T) l -> Forall (fun rc => length rc = T) (firstn n l)).
      { clear. intros n l H. revert n. induction H; intros [|n]; cbn [firstn]; constructor; auto. }
      assert (SA : forall n l, Forall (fun rc : list F => length rc = T) l -> Forall (fun rc => length rc = T) (skipn n l)).
      { clear. intros n l H. revert n. induction H; intros [|n]; cbn [skipn]; try constructor; auto. }
      assert (L1 : length (firstn half rcs) = half) by (rewrite firstn_length; lia).
      assert (L2 : length (firstn partial (skipn half rcs)) = partial) by (rewrite firstn_length, skipn_length; lia).
      assert (L3 : length (firstn half (skipn (half + partial) rcs)) = half) by (rewrite firstn_length, skipn_length; lia).
      assert (PS : forall n, exists k, (5 ^ n = S k)%nat).
      { intros n. exists (5 ^ n - 1)%nat. pose proof (Nat.pow_nonzero 5 n ltac:(lia)). lia. }
      destruct (line_leads st v Hs Hv) as (f0 & H0 & E0).
      destruct (rounds_leads (spec_full m) (lead_full m) (fun d v fs rc => full_leads d m v fs rc) Lf
        (firstn half rcs) 0 v f0 (FA _ _ Hr) Hv H0) as (f1 & H1 & V1 & E1). rewrite L1, Nat.mul_1_l in *.
      destruct (PS half) as [k1 K1]. rewrite K1 in H1.
      destruct (rounds_leads (spec_partial m) (lead_partial m) (fun d v fs rc => partial_leads d m v fs rc) Lp
        (firstn partial (skipn half rcs)) k1 _ f1 (FA _ _ (SA _ _ Hr)) V1 H1) as (f2 & H2 & V2 & E2). rewrite L2 in *.
      rewrite <- K1, <- Nat.pow_add_r in H2. destruct (PS (half + partial)%nat) as [k2 K2]. rewrite K2 in H2.
      destruct (rounds_leads (spec_full m) (lead_full m) (fun d v fs rc => full_leads d m v fs rc) Lf
        (firstn half (skipn (half + partial) rcs)) k2 _ f2 (FA _ _ (SA _ _ Hr)) V2 H2) as (f3 & H3 & V3 & E3). rewrite L3 in *.
      rewrite <- K2, <- Nat.pow_add_r in H3. replace (half + partial + half)%nat with (2 * half + partial)%nat in H3 by lia.
      exists f3. split; [exact H3|]. intros x. unfold spec_permute. rewrite E0, E1, E2. apply E3.
    Qed.

    Lemma leads_nth : forall d v fs j, leads d v fs -> has_lead d (nth j v 0) (fun x => nth j (at_point fs x) 0).
    Proof.
      intros d v fs j H. revert j. induction H as [|a f v fs Hf H IH]; intros j.
      - destruct j; apply lead_zero.
      - destruct j as [|j]; cbn [nth at_point map]; [apply (lead_ext d a f); [reflexivity|exact Hf]|apply IH].
    Qed.
    Theorem permute_degree : forall half partial rcs st v j, Forall (fun rc => length rc = T) rcs ->
      (2 * half + partial <= length rcs)%nat -> length st = T -> length v = T ->
      nth j (lead_permute m half partial v) 0 <> 0 ->
      degree (5 ^ (2 * half + partial)) (fun x => nth j (spec_permute m half partial rcs (on_line st v x)) 0).
    Proof.
      intros half partial rcs st v j Hr Hn Hs Hv N. destruct (permute_leads half partial rcs st v Hr Hn Hs Hv) as (gs & Hg & E).
      apply (lead_degree _ _ _ N). apply (lead_ext _ _ (fun x => nth j (at_point gs x) 0)); [intros x; now rewrite E|].
      now apply leads_nth.
    Qed.

    (** ** When the leading coefficient does not vanish *)
    Definition first_column : list F := mat_vec m (1 :: repeat 0 (pred T)).
    Lemma dot_scale : forall k row v, dot row (map (fmul k) v) = k * dot row v.
    Proof. intros k. induction row as [|a row IH]; intros [|b v]; cbn [map dot]; try ring. rewrite IH. ring. Qed.
    Lemma mat_scale : forall k v, mat_vec m (map (fmul k) v) = map (fmul k) (mat_vec m v).
    Proof. intros k v. unfold mat_vec. rewrite map_map. apply map_ext. intros row. apply dot_scale. Qed.
    Lemma full_scale : forall k v, lead_full m (map (fmul k) v) = map (fmul (power5 k)) (lead_full m v).
    Proof.
      intros k v. unfold lead_full. rewrite <- mat_scale. f_equal. rewrite !map_map. apply map_ext. intros a. unfold power5. ring.
    Qed.
    Lemma power5_nonzero : forall u : F, u <> 0 -> power5 u <> 0.
    Proof. intros u H E. unfold power5 in E. apply H. repeat (apply fmul_eq_0 in E; destruct E as [E|E]; [|exact E]). exact E. Qed.
    Lemma full_iter_scale : forall n k v, k <> 0 -> exists k', k' <> 0 /\
      Nat.iter n (lead_full m) (map (fmul k) v) = map (fmul k') (Nat.iter n (lead_full m) v).
    Proof.
      intros n k v Hk. induction n as [|n (k' & Hk' & IH)]; [now exists k|]. exists (power5 k'). split; [now apply power5_nonzero|].
      change (lead_full m (Nat.iter n (lead_full m) (map (fmul k) v)) = map (fmul (power5 k')) (lead_full m (Nat.iter n (lead_full m) v))).
      now rewrite IH, full_scale.
    Qed.
    Lemma partial_column : forall v, (0 < T)%nat -> length v = T -> lead_partial m v = map (fmul (power5 (nth 0 v 0))) first_column.
    Proof.
      intros v Pos Hv. unfold lead_partial, first_column. rewrite <- mat_scale. f_equal. destruct v as [|a v].
      - cbn in Hv. lia.
      - cbn [length] in Hv. rewrite <- Hv. cbn [pred map nth]. f_equal; [ring|]. clear - PF. induction v as [|b v IH]; cbn [map length repeat]; [reflexivity|].
        rewrite <- IH. f_equal. ring.
    Qed.
    Lemma nth_scale : forall k (v : list F) j, nth j (map (fmul k) v) 0 = k * nth j v 0.
    Proof. intros k v. induction v as [|a v IH]; intros [|j]; cbn [map nth]; try ring. apply IH. Qed.
    (** the S-box keeps its coefficient through the partial rounds when the corner of the matrix is not zero *)
    Lemma partial_iter_lead : forall n v, (0 < T)%nat -> length v = T -> nth 0 v 0 <> 0 -> nth 0 first_column 0 <> 0 ->
      exists k, k <> 0 /\ Nat.iter (S n) (lead_partial m) v = map (fmul k) first_column.
    Proof.
      intros n v Pos Hv N0 N1.
      assert (LC : length first_column = T) by (unfold first_column, mat_vec; now rewrite map_length).
      induction n as [|n (k & Hk & IH)].
      - exists (power5 (nth 0 v 0)). split; [now apply power5_nonzero|]. now apply partial_column.
      - change (exists k, k <> 0 /\ lead_partial m (Nat.iter (S n) (lead_partial m) v) = map (fmul k) first_column).
        rewrite IH, partial_column by (rewrite ?map_length; assumption).
        exists (power5 (nth 0 (map (fmul k) first_column) 0)). split; [|reflexivity]. apply power5_nonzero. rewrite nth_scale. now apply fmul_neq_0.
    Qed.
    Lemma lead_nonzero : forall half partial v j, (0 < T)%nat -> length v = T ->
      nth 0 (Nat.iter half (lead_full m) v) 0 <> 0 -> nth 0 first_column 0 <> 0 ->
      nth j (Nat.iter half (lead_full m) first_column) 0 <> 0 ->
      nth j (lead_permute m half (S partial) v) 0 <> 0.
    Proof.
      intros half partial v j Pos Hv N0 N1 N2. unfold lead_permute.
      assert (L1 : length (Nat.iter half (lead_full m) v) = T).
      { destruct half as [|h]; [exact Hv|]. change (length (lead_full m (Nat.iter h (lead_full m) v)) = T). unfold lead_full, mat_vec. now rewrite map_length. }
      destruct (partial_iter_lead partial _ Pos L1 N0 N1) as (k & Hk & ->).
      destruct (full_iter_scale half k first_column Hk) as (k' & Hk' & ->). rewrite nth_scale. now apply fmul_neq_0.
    Qed.
  End Rounds.
End Poly.
