(** The lemmas behind C51: a collision of a hash gives a collision of the permutation. *)
From Coq Require Import ZArith List Arith Lia Bool.
From Verif Require Import Field Rust ListAux Primitives Specs BaseHash SpecHash Link CollisionUse Perm_proof Sponge_proof BaseHash_proof Base_claims.
Import ListNotations.
Local Open Scope nat_scope.

Section Generic.
  Context {F : Type} {FO : FieldOps F} {PF : PrimeField F}.
  Add Field Ffield : f_field.
  Variable perm : list F -> list F.
  Variables T rate off pos : nat.
  Hypothesis Hperm : forall x, length x = T -> length (perm x) = T.
  Hypothesis Hfit : off + rate <= T.
  Hypothesis Hpos : pos < off \/ off + rate <= pos < T.
  Notation absorb := (absorb_blocks perm off).
  Notation block_list := (Forall (fun b : list F => length b = rate)).

  Lemma add_block_length : forall (st b : list F), length (add_block off st b) = length st.
  Proof. intros. unfold add_block. now rewrite map_length, seq_length. Qed.
  Lemma add_block_nth : forall (st b : list F) i, i < length st ->
    nth i (add_block off st b) fzero = fadd (nth i st fzero) (if off <=? i then nth (i - off) b fzero else fzero).
  Proof.
    intros st b i H. unfold add_block.
    set (f := fun i : nat => fadd (nth i st fzero) (if off <=? i then nth (i - off) b fzero else fzero)).
    rewrite (nth_indep _ fzero (f 0)) by (rewrite map_length, seq_length; exact H). rewrite map_nth, seq_nth by exact H. reflexivity.
  Qed.
  Lemma init_length : forall cap : F, length (init_state T pos cap) = T.
  Proof. intros. unfold init_state. now rewrite map_length, seq_length. Qed.
  Lemma absorb_length : forall bs st, length st = T -> length (absorb bs st) = T.
  Proof.
    induction bs as [|b bs IH]; intros st H; [exact H|]. cbn. apply IH. apply Hperm. now rewrite add_block_length.
  Qed.
  Lemma absorb_snoc : forall bs b st, absorb (bs ++ [b]) st = perm (add_block off (absorb bs st) b).
  Proof. intros. unfold absorb_blocks. now rewrite fold_left_app. Qed.
  Lemma permuted_snoc : forall bs b st, permuted perm off (bs ++ [b]) st = permuted perm off bs st ++ [add_block off (absorb bs st) b].
  Proof. induction bs as [|x bs IH]; intros b st; [reflexivity|]. cbn [app permuted]. now rewrite IH. Qed.

  (** equal states after adding blocks *)
  Lemma add_block_capacity : forall st st' b b', length st = T -> length st' = T -> length b = rate -> length b' = rate ->
    add_block off st b = add_block off st' b' -> capacity_agree T rate off st st'.
  Proof.
    intros st st' b b' L L' Lb Lb' H i Hi Hc. assert (E := f_equal (fun l => nth i l fzero) H). cbn beta in E.
    rewrite !add_block_nth in E by lia. destruct (off <=? i) eqn:O.
    - apply Nat.leb_le in O. rewrite !(nth_overflow _ _ (n := i - off)) in E by lia.
      assert (X : forall x : F, fadd x fzero = x) by (intros; ring). now rewrite !X in E.
    - assert (X : forall x : F, fadd x fzero = x) by (intros; ring). now rewrite !X in E.
  Qed.
  Lemma add_block_inj : forall st b b', length st = T -> length b = rate -> length b' = rate ->
    add_block off st b = add_block off st b' -> b = b'.
  Proof.
    intros st b b' L Lb Lb' H. apply (nth_ext _ _ fzero fzero); [congruence|]. intros i Hi.
    assert (E := f_equal (fun l => nth (off + i) l fzero) H). cbn beta in E. rewrite !add_block_nth in E by lia.
    replace (off <=? off + i) with true in E by (symmetry; apply Nat.leb_le; lia). replace (off + i - off) with i in E by lia.
    assert (X : forall a x y : F, fadd a x = fadd a y -> x = y).
    { intros a x y K. assert (K2 : fsub (fadd a x) a = fsub (fadd a y) a) by now rewrite K. 
      replace (fsub (fadd a x) a) with x in K2 by ring. replace (fsub (fadd a y) a) with y in K2 by ring. exact K2. }
    exact (X _ _ _ E).
  Qed.
  Lemma init_capacity : forall cap cap' : F, capacity_agree T rate off (init_state T pos cap) (init_state T pos cap') -> cap = cap'.
  Proof.
    intros cap cap' H. assert (E := H pos ltac:(lia) ltac:(lia)). unfold init_state in E.
    assert (X : forall c : F, nth pos (map (fun i => if i =? pos then c else fzero) (seq 0 T)) fzero = c).
    { intros c. set (f := fun i => if i =? pos then c else fzero).
      rewrite (nth_indep _ fzero (f 0)) by (rewrite map_length, seq_length; lia). rewrite map_nth, seq_nth by lia. unfold f. now rewrite Nat.eqb_refl. }
    now rewrite !X in E.
  Qed.

  Section Two.
    Variables cap1 cap2 : F.
    Notation st1 := (init_state T pos cap1).
    Notation st2 := (init_state T pos cap2).
    Notation calls1 bs := (permuted perm off bs st1).
    Notation calls2 bs := (permuted perm off bs st2).

    (** the states before the last blocks agree on the capacity words *)
    Lemma inner : forall bs1 bs2, block_list bs1 -> block_list bs2 ->
      capacity_agree T rate off (absorb bs1 st1) (absorb bs2 st2) ->
      (cap1 = cap2 /\ bs1 = bs2)
      \/ inner_collision perm T rate off (calls1 bs1) (calls2 bs2)
      \/ capacity_preimage perm T rate off pos (calls1 bs1) cap2
      \/ capacity_preimage perm T rate off pos (calls2 bs2) cap1.
    Proof.
      induction bs1 as [|b1 bs1 IH] using rev_ind; intros bs2 B1 B2 H.
      - destruct bs2 as [|b2 bs2 _] using rev_ind.
        + left. split; [exact (init_capacity _ _ H)|reflexivity].
        + right. right. right. rewrite absorb_snoc in H. rewrite permuted_snoc. exists (add_block off (absorb bs2 st2) b2).
          split; [apply in_app_iff; right; now left|]. intros i Hi Hc. symmetry. now apply H.
      - rewrite absorb_snoc in H. destruct bs2 as [|b2 bs2 _] using rev_ind.
        + right. right. left. rewrite permuted_snoc. exists (add_block off (absorb bs1 st1) b1).
          split; [apply in_app_iff; right; now left|]. exact H.
        + rewrite absorb_snoc in H. rewrite !permuted_snoc.
          apply Forall_app in B1, B2. destruct B1 as [B1 C1], B2 as [B2 C2]. apply Forall_inv in C1 as C1', C2 as C2'.
          set (x := add_block off (absorb bs1 st1) b1) in *. set (y := add_block off (absorb bs2 st2) b2) in *.
          destruct (list_eq_dec feq_dec x y) as [E|E].
          * assert (L1 : length (absorb bs1 st1) = T) by apply absorb_length, init_length.
            assert (L2 : length (absorb bs2 st2) = T) by apply absorb_length, init_length.
            assert (K : capacity_agree T rate off (absorb bs1 st1) (absorb bs2 st2))
              by (exact (add_block_capacity _ _ _ _ L1 L2 C1' C2' E)).
            destruct (IH bs2 B1 B2 K) as [[Ec Eb]|[(u & v & U & V & N & A)|[(u & U & A)|(v & V & A)]]].
            -- left. subst bs2. split; [exact Ec|]. unfold x, y in E. rewrite <- Ec in E. f_equal. f_equal.
               exact (add_block_inj _ _ _ L1 C1' C2' E).
            -- right. left. exists u, v. rewrite !in_app_iff. auto.
            -- right. right. left. exists u. rewrite in_app_iff. auto.
            -- right. right. right. exists v. rewrite in_app_iff. auto.
          * right. left. exists x, y. rewrite !in_app_iff. split; [right; now left|]. split; [right; now left|]. split; assumption.
    Qed.

    Lemma outer : forall bs1 bs2, block_list bs1 -> block_list bs2 -> bs1 <> [] -> bs2 <> [] ->
      nth 0 (absorb bs1 st1) fzero = nth 0 (absorb bs2 st2) fzero ->
      (cap1 = cap2 /\ bs1 = bs2)
      \/ last_collision perm (calls1 bs1) (calls2 bs2)
      \/ inner_collision perm T rate off (calls1 bs1) (calls2 bs2)
      \/ capacity_preimage perm T rate off pos (calls1 bs1) cap2
      \/ capacity_preimage perm T rate off pos (calls2 bs2) cap1.
    Proof.
      intros bs1 bs2 B1 B2 N1 N2 H.
      destruct (exists_last N1) as (r1 & b1 & ->). destruct (exists_last N2) as (r2 & b2 & ->).
      rewrite !absorb_snoc in H. rewrite !permuted_snoc.
      apply Forall_app in B1, B2. destruct B1 as [B1 C1], B2 as [B2 C2]. apply Forall_inv in C1 as C1', C2 as C2'.
      set (x := add_block off (absorb r1 st1) b1) in *. set (y := add_block off (absorb r2 st2) b2) in *.
      destruct (list_eq_dec feq_dec x y) as [E|E].
      - assert (L1 : length (absorb r1 st1) = T) by apply absorb_length, init_length.
        assert (L2 : length (absorb r2 st2) = T) by apply absorb_length, init_length.
        assert (K : capacity_agree T rate off (absorb r1 st1) (absorb r2 st2)) by (exact (add_block_capacity _ _ _ _ L1 L2 C1' C2' E)).
        destruct (inner r1 r2 B1 B2 K) as [[Ec Eb]|[(u & v & U & V & N & A)|[(u & U & A)|(v & V & A)]]].
        + left. subst r2. split; [exact Ec|]. unfold x, y in E. rewrite <- Ec in E. f_equal. f_equal.
          exact (add_block_inj _ _ _ L1 C1' C2' E).
        + right. right. left. exists u, v. rewrite !in_app_iff. auto.
        + right. right. right. left. exists u. rewrite in_app_iff. auto.
        + right. right. right. right. exists v. rewrite in_app_iff. auto.
      - right. left. unfold last_collision. rewrite !last_last. split; assumption.
    Qed.
  End Two.
End Generic.

Section Claims.
  Context {F : Type} {FO : FieldOps F} {PF : PrimeField F}.

  Lemma blocks_length : forall n fuel (l : list F), 0 < n -> length l <= fuel -> length l mod n = 0 ->
    Forall (fun b => length b = n) (blocks_aux fuel n l).
  Proof.
    intros n fuel. induction fuel as [|fuel IH]; intros l Hn Hl Hm; [destruct l; constructor|].
    destruct l as [|x l]; [constructor|]. cbn [blocks_aux]. set (w := x :: l) in *.
    assert (Hw : n <= length w).
    { destruct (Nat.lt_ge_cases (length w) n) as [H|H]; [|exact H]. rewrite Nat.mod_small in Hm by exact H. unfold w in Hm. discriminate. }
    constructor; [rewrite firstn_length; lia|]. apply IH; [exact Hn| |].
    - rewrite skipn_length. unfold w in *. cbn [length] in *. lia.
    - rewrite skipn_length. replace (length w) with ((length w - n) + 1 * n) in Hm by lia. rewrite Nat.mod_add in Hm by lia. exact Hm.
  Qed.
  Lemma padded_blocks : forall n (l : list F), 0 < n -> Forall (fun b => length b = n) (blocks n (pad_zeros n l)).
  Proof. intros n l H. apply blocks_length; [exact H|apply Nat.le_refl|]. now apply pad_length_mod. Qed.
  Lemma padded_nonempty : forall n (l : list F), 0 < n -> l <> [] -> blocks n (pad_zeros n l) <> [].
  Proof. intros n [|x l] H N; [easy|]. unfold blocks, pad_zeros. cbn [app length blocks_aux]. discriminate. Qed.

  Lemma sponge_collision : forall perm T rate off pos (c1 c2 : F) m1 m2,
    (forall x, length x = T -> length (perm x) = T) -> 0 < rate -> off + rate <= T -> (pos < off \/ off + rate <= pos < T) ->
    m1 <> [] -> m2 <> [] -> sponge_hash perm T rate off pos c1 m1 = sponge_hash perm T rate off pos c2 m2 ->
    let calls1 := hash_calls perm T rate off pos c1 m1 in
    let calls2 := hash_calls perm T rate off pos c2 m2 in
    (c1 = c2 /\ blocks rate (pad_zeros rate m1) = blocks rate (pad_zeros rate m2))
    \/ last_collision perm calls1 calls2
    \/ inner_collision perm T rate off calls1 calls2
    \/ capacity_preimage perm T rate off pos calls1 c2
    \/ capacity_preimage perm T rate off pos calls2 c1.
  Proof.
    intros perm T rate off pos c1 c2 m1 m2 Hp Hr Hf Hpos N1 N2 H.
    exact (outer perm T rate off pos Hp Hf Hpos c1 c2 _ _ (padded_blocks rate m1 Hr) (padded_blocks rate m2 Hr)
             (padded_nonempty rate m1 Hr N1) (padded_nonempty rate m2 Hr N2) H).
  Qed.

  (** two runs with equally many blocks: no preimage is needed *)
  Lemma inner_equal : forall perm T rate off pos, (forall x : list F, length x = T -> length (perm x) = T) -> off + rate <= T ->
    (pos < off \/ off + rate <= pos < T) -> forall (c1 c2 : F) bs1 bs2,
    Forall (fun b => length b = rate) bs1 -> Forall (fun b => length b = rate) bs2 -> length bs1 = length bs2 ->
    capacity_agree T rate off (absorb_blocks perm off bs1 (init_state T pos c1)) (absorb_blocks perm off bs2 (init_state T pos c2)) ->
    (c1 = c2 /\ bs1 = bs2)
    \/ inner_collision perm T rate off (permuted perm off bs1 (init_state T pos c1)) (permuted perm off bs2 (init_state T pos c2)).
  Proof.
    intros perm T rate off pos Hp Hf Hpos c1 c2.
    induction bs1 as [|b1 bs1 IH] using rev_ind; intros bs2 B1 B2 L H.
    - destruct bs2; [|discriminate L]. left. split; [|reflexivity]. exact (init_capacity T rate off pos Hf Hpos c1 c2 H).
    - destruct bs2 as [|b2 bs2 _] using rev_ind; [rewrite app_length in L; cbn in L; lia|].
      rewrite !app_length in L. cbn [length] in L. rewrite !absorb_snoc in H. rewrite !permuted_snoc.
      apply Forall_app in B1, B2. destruct B1 as [B1 C1], B2 as [B2 C2]. apply Forall_inv in C1, C2.
      set (x := add_block off (absorb_blocks perm off bs1 (init_state T pos c1)) b1) in *.
      set (y := add_block off (absorb_blocks perm off bs2 (init_state T pos c2)) b2) in *.
      destruct (list_eq_dec feq_dec x y) as [E|E].
      + assert (L1 : length (absorb_blocks perm off bs1 (init_state T pos c1)) = T) by (apply absorb_length; [exact Hp|apply init_length]).
        assert (L2 : length (absorb_blocks perm off bs2 (init_state T pos c2)) = T) by (apply absorb_length; [exact Hp|apply init_length]).
        pose proof (add_block_capacity T rate off pos Hf Hpos _ _ _ _ L1 L2 C1 C2 E) as K.
        destruct (IH bs2 B1 B2 ltac:(lia) K) as [[Ec Eb]|(u & v & U & V & N & A)].
        * left. subst bs2. split; [exact Ec|]. unfold x, y in E. rewrite <- Ec in E. f_equal. f_equal.
          exact (add_block_inj T rate off pos Hf Hpos _ _ _ L1 C1 C2 E).
        * right. exists u, v. rewrite !in_app_iff. auto.
      + right. exists x, y. rewrite !in_app_iff. split; [right; now left|]. split; [right; now left|]. split; assumption.
  Qed.
  Lemma blocks_count : forall n, 0 < n -> forall fuel fuel' (l l' : list F), length l <= fuel -> length l' <= fuel' -> length l = length l' ->
    length (blocks_aux fuel n l) = length (blocks_aux fuel' n l').
  Proof.
    intros n Hn. induction fuel as [|f IH]; intros f' l l' H1 H2 H.
    - destruct l; [|cbn in H1; lia]. destruct l'; [|discriminate H]. destruct f'; reflexivity.
    - destruct l as [|x l], l' as [|x' l']; try discriminate H; [destruct f'; reflexivity|].
      destruct f' as [|f']; [cbn in H2; lia|]. cbn [blocks_aux length]. f_equal. cbn [length] in *.
      apply IH; rewrite ?skipn_length; cbn [length]; lia.
  Qed.
  Lemma pad_same_length : forall n (m1 m2 : list F), length m1 = length m2 -> length (pad_zeros n m1) = length (pad_zeros n m2).
  Proof. intros n m1 m2 H. unfold pad_zeros. rewrite !app_length, !repeat_length. congruence. Qed.
  Lemma pad_same_inj : forall n (m1 m2 : list F), length m1 = length m2 -> pad_zeros n m1 = pad_zeros n m2 -> m1 = m2.
  Proof.
    intros n m1 m2 L H. unfold pad_zeros in H. apply (f_equal (firstn (length m1))) in H.
    rewrite firstn_app, Nat.sub_diag, firstn_all, firstn_O, app_nil_r in H. rewrite L in H.
    rewrite firstn_app, Nat.sub_diag, firstn_all, firstn_O, app_nil_r in H. exact H.
  Qed.

  Lemma equal_length_collision : forall perm T rate off pos (c1 c2 : F) m1 m2,
    (forall x, length x = T -> length (perm x) = T) -> 0 < rate -> off + rate <= T -> (pos < off \/ off + rate <= pos < T) ->
    length m1 = length m2 -> m1 <> [] -> sponge_hash perm T rate off pos c1 m1 = sponge_hash perm T rate off pos c2 m2 ->
    let calls1 := hash_calls perm T rate off pos c1 m1 in
    let calls2 := hash_calls perm T rate off pos c2 m2 in
    (c1 = c2 /\ m1 = m2) \/ last_collision perm calls1 calls2 \/ inner_collision perm T rate off calls1 calls2.
  Proof.
    intros perm T rate off pos c1 c2 m1 m2 Hp Hr Hf Hpos L N1 H.
    assert (N2 : m2 <> []) by (destruct m1, m2; try discriminate; easy).
    assert (K : blocks rate (pad_zeros rate m1) = blocks rate (pad_zeros rate m2) -> m1 = m2).
    { intros E. apply blocks_inj in E; [|exact Hr]. exact (pad_same_inj rate m1 m2 L E). }
    assert (C : length (blocks rate (pad_zeros rate m1)) = length (blocks rate (pad_zeros rate m2)))
      by (apply blocks_count; [exact Hr|lia|lia|now apply pad_same_length]).
    unfold hash_calls. unfold sponge_hash in H.
    pose proof (padded_blocks rate m1 Hr) as B1. pose proof (padded_blocks rate m2 Hr) as B2.
    pose proof (padded_nonempty rate m1 Hr N1) as X1. pose proof (padded_nonempty rate m2 Hr N2) as X2.
    revert K C B1 B2 X1 X2 H. generalize (blocks rate (pad_zeros rate m1)) (blocks rate (pad_zeros rate m2)).
    intros bs1 bs2 K C B1 B2 X1 X2 H. cbn zeta.
    destruct (exists_last X1) as (r1 & b1 & ->). destruct (exists_last X2) as (r2 & b2 & ->).
    rewrite !app_length in C. cbn [length] in C. rewrite !absorb_snoc in H. rewrite !permuted_snoc.
    apply Forall_app in B1, B2. destruct B1 as [B1 C1], B2 as [B2 C2]. apply Forall_inv in C1, C2.
    set (x := add_block off (absorb_blocks perm off r1 (init_state T pos c1)) b1) in *.
    set (y := add_block off (absorb_blocks perm off r2 (init_state T pos c2)) b2) in *.
    destruct (list_eq_dec feq_dec x y) as [E|E].
    - assert (L1 : length (absorb_blocks perm off r1 (init_state T pos c1)) = T) by (apply absorb_length; [exact Hp|apply init_length]).
      assert (L2 : length (absorb_blocks perm off r2 (init_state T pos c2)) = T) by (apply absorb_length; [exact Hp|apply init_length]).
      pose proof (add_block_capacity T rate off pos Hf Hpos _ _ _ _ L1 L2 C1 C2 E) as Q.
      destruct (inner_equal perm T rate off pos Hp Hf Hpos c1 c2 r1 r2 B1 B2 ltac:(lia) Q) as [[Ec Eb]|(u & v & U & V & N & A)].
      + left. split; [exact Ec|]. apply K. subst r2. f_equal. f_equal. unfold x, y in E. rewrite <- Ec in E.
        exact (add_block_inj T rate off pos Hf Hpos _ _ _ L1 C1 C2 E).
      + right. right. exists u, v. rewrite !in_app_iff. auto.
    - right. left. unfold last_collision. rewrite !last_last. split; assumption.
  Qed.

  Lemma tables_length : forall (c : p128_constants F), constants_ok c -> forall x, length x = 3 -> length (poseidon_permutation c x) = 3.
  Proof.
    intros c Hc x Hx. change (length (textbook (p128_spec c) x) = 3). pose proof (p128_spec_ok c Hc) as S.
    rewrite <- (hash_permute_textbook 3 (p128_spec c) x S Hx). now apply permute_length.
  Qed.
  Lemma spec_length : forall T (s : spec F), poseidon_spec T s -> forall x, length x = T -> length (textbook s x) = T.
  Proof. intros T s S x Hx. rewrite <- (hash_permute_textbook T s x S Hx). now apply permute_length. Qed.

  (** a digest collision of width 3 with one capacity word is an inner one *)
  Lemma last_is_inner : forall perm (l1 l2 : list (list F)), l1 <> [] -> l2 <> [] -> last_collision perm l1 l2 -> inner_collision perm 3 2 1 l1 l2.
  Proof.
    intros perm l1 l2 N1 N2 [A B]. exists (last l1 []), (last l2 []).
    assert (X : forall l : list (list F), l <> [] -> In (last l []) l).
    { intros l N. destruct (exists_last N) as (r & b & ->). rewrite last_last, in_app_iff. right. now left. }
    split; [now apply X|]. split; [now apply X|]. split; [exact A|]. intros i Hi Hc. assert (i = 0) by lia. now subst i.
  Qed.

  Theorem message_collision_claim : forall short legacy c s m1 m2 cap1 cap2 (d : F), constants_ok c -> cached_hash_spec short c = Ok s ->
    hash_msg legacy s m1 cap1 = Ok d -> hash_msg legacy s m2 cap2 = Ok d ->
    let P := poseidon_permutation c in
    let K1 := match cap1 with Some n => of_Z (Z.of_N n) | None => of_Z (Z.of_nat (length m1) * (if legacy then 1 else 2 ^ 64)) end in
    let K2 := match cap2 with Some n => of_Z (Z.of_N n) | None => of_Z (Z.of_nat (length m2) * (if legacy then 1 else 2 ^ 64)) end in
    let calls1 := hash_calls P 3 2 1 0 K1 m1 in
    let calls2 := hash_calls P 3 2 1 0 K2 m2 in
    (K1 = K2 /\ blocks 2 (pad_zeros 2 m1) = blocks 2 (pad_zeros 2 m2))
    \/ inner_collision P 3 2 1 calls1 calls2
    \/ capacity_preimage P 3 2 1 0 calls1 K2
    \/ capacity_preimage P 3 2 1 0 calls2 K1.
  Proof.
    intros short legacy c s m1 m2 cap1 cap2 d Hc Hs H1 H2. rewrite (hash_msg_claim short legacy c s m1 cap1 Hc Hs) in H1.
    rewrite (hash_msg_claim short legacy c s m2 cap2 Hc Hs) in H2.
    destruct m1 as [|a1 m1]; [discriminate H1|]. destruct m2 as [|a2 m2]; [discriminate H2|].
    assert (N1 : a1 :: m1 <> []) by discriminate. assert (N2 : a2 :: m2 <> []) by discriminate.
    set (w1 := a1 :: m1) in *. set (w2 := a2 :: m2) in *. clearbody w1 w2.
    cbn zeta. 
    set (K1 := match cap1 with Some n => _ | None => _ end) in *.
    set (K2 := match cap2 with Some n => _ | None => _ end) in *. clearbody K1 K2.
    assert (E : message_hash c K1 w1 = message_hash c K2 w2) by congruence.
    destruct (sponge_collision (poseidon_permutation c) 3 2 1 0 K1 K2 w1 w2 (tables_length c Hc) ltac:(lia) ltac:(lia) ltac:(lia) N1 N2 E)
      as [A|[A|[A|[A|A]]]]; [now left| |now right; left|now right; right; left|now right; right; right].
    right. left. apply last_is_inner; [| |exact A].
    - unfold hash_calls. pose proof (padded_nonempty 2 w1 ltac:(lia) N1). destruct (blocks 2 (pad_zeros 2 w1)); [easy|]. discriminate.
    - unfold hash_calls. pose proof (padded_nonempty 2 w2 ltac:(lia) N2). destruct (blocks 2 (pad_zeros 2 w2)); [easy|]. discriminate.
  Qed.

  (** the same without explicit capacities *)
  Theorem default_collision_claim : forall short legacy c s m1 m2 (d : F), constants_ok c -> cached_hash_spec short c = Ok s ->
    (2 ^ 128 <= modulus (F := F))%Z -> (Z.of_nat (length m1) < 2 ^ 64)%Z -> (Z.of_nat (length m2) < 2 ^ 64)%Z ->
    hash_msg legacy s m1 None = Ok d -> hash_msg legacy s m2 None = Ok d -> m1 <> m2 ->
    let P := poseidon_permutation c in
    let K (m : list F) := of_Z (Z.of_nat (length m) * (if legacy then 1 else 2 ^ 64)) in
    let calls m := hash_calls P 3 2 1 0 (K m) m in
    inner_collision P 3 2 1 (calls m1) (calls m2)
    \/ length m1 <> length m2
       /\ (capacity_preimage P 3 2 1 0 (calls m1) (K m2) \/ capacity_preimage P 3 2 1 0 (calls m2) (K m1)).
  Proof.
    intros short legacy c s m1 m2 d Hc Hs Hp B1 B2 H1 H2 N. cbn zeta.
    destruct (Nat.eq_dec (length m1) (length m2)) as [L|L].
    - left. rewrite (hash_msg_claim short legacy c s m1 None Hc Hs) in H1. rewrite (hash_msg_claim short legacy c s m2 None Hc Hs) in H2.
      destruct m1 as [|a1 m1]; [discriminate H1|]. destruct m2 as [|a2 m2]; [discriminate L|].
      assert (N1 : a1 :: m1 <> []) by discriminate. assert (N2 : a2 :: m2 <> []) by discriminate.
      set (w1 := a1 :: m1) in *. set (w2 := a2 :: m2) in *. clearbody w1 w2. rewrite <- L in *.
      set (K := of_Z _) in *. clearbody K. assert (E : message_hash c K w1 = message_hash c K w2) by congruence.
      destruct (equal_length_collision (poseidon_permutation c) 3 2 1 0 K K w1 w2 (tables_length c Hc) ltac:(lia) ltac:(lia) ltac:(lia) L N1 E)
        as [[_ A]|[A|A]]; [contradiction| |exact A].
      apply last_is_inner; [| |exact A].
      + unfold hash_calls. pose proof (padded_nonempty 2 w1 ltac:(lia) N1). destruct (blocks 2 (pad_zeros 2 w1)); [easy|]. discriminate.
      + unfold hash_calls. pose proof (padded_nonempty 2 w2 ltac:(lia) N2). destruct (blocks 2 (pad_zeros 2 w2)); [easy|]. discriminate.
    - destruct (message_collision_claim short legacy c s m1 m2 None None d Hc Hs H1 H2) as [[A _]|[A|A]].
      + exfalso. apply L. apply Nat2Z.inj. destruct legacy; apply of_Z_inj in A; lia.
      + now left.
      + right. split; [exact L|exact A].
  Qed.

  Theorem constant_length_collision_claim : forall T RATE L (s : spec F) m1 m2 d, 0 < RATE < T -> poseidon_spec T s ->
    length m1 = L -> length m2 = L -> m1 <> m2 ->
    hash_constant_length T RATE L s (hash_init T RATE (constant_length RATE L)) m1 = Ok d ->
    hash_constant_length T RATE L s (hash_init T RATE (constant_length RATE L)) m2 = Ok d ->
    let P := textbook s in
    let calls m := hash_calls P T RATE 0 RATE (of_Z (Z.of_nat L * 2 ^ 64)) m in
    last_collision P (calls m1) (calls m2) \/ inner_collision P T RATE 0 (calls m1) (calls m2).
  Proof.
    intros T RATE L s m1 m2 d HR Hs L1 L2 N H1 H2. cbn zeta.
    rewrite constant_length_claim in H1 by assumption. rewrite constant_length_claim in H2 by assumption.
    destruct (L =? 0) eqn:Z; [discriminate H1|]. apply Nat.eqb_neq in Z.
    assert (N1 : m1 <> []) by (intros ->; cbn in L1; lia).
    set (K := of_Z _) in *. clearbody K.
    destruct (equal_length_collision (textbook s) T RATE 0 RATE K K m1 m2 (spec_length T s Hs) ltac:(lia) ltac:(lia) ltac:(lia) ltac:(congruence) N1 ltac:(congruence))
      as [[_ A]|A]; [contradiction|exact A].
  Qed.

  Theorem iden3_collision_claim : forall T RATE L (s : spec F) m1 m2 d1 d2 h, 0 < RATE < T -> poseidon_spec T s ->
    length m1 = L -> length m2 = L -> (d1, m1) <> (d2, m2) ->
    hash_constant_length_iden3 T RATE L s (hash_init T RATE (constant_length_iden3 RATE L)) m1 d1 = Ok h ->
    hash_constant_length_iden3 T RATE L s (hash_init T RATE (constant_length_iden3 RATE L)) m2 d2 = Ok h ->
    let P := textbook s in
    let calls d m := hash_calls P T RATE (T - RATE) 0 d m in
    last_collision P (calls d1 m1) (calls d2 m2) \/ inner_collision P T RATE (T - RATE) (calls d1 m1) (calls d2 m2).
  Proof.
    intros T RATE L s m1 m2 d1 d2 h HR Hs L1 L2 N H1 H2. cbn zeta.
    rewrite constant_length_iden3_claim in H1 by assumption. rewrite constant_length_iden3_claim in H2 by assumption.
    destruct (L =? 0) eqn:Z; [discriminate H1|]. apply Nat.eqb_neq in Z.
    assert (N1 : m1 <> []) by (intros ->; cbn in L1; lia).
    destruct (equal_length_collision (textbook s) T RATE (T - RATE) 0 d1 d2 m1 m2 (spec_length T s Hs) ltac:(lia) ltac:(lia) ltac:(lia) ltac:(congruence) N1 ltac:(congruence))
      as [[A1 A2]|A]; [|exact A]. exfalso. apply N. congruence.
  Qed.
End Claims.
