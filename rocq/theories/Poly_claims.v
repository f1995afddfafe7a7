(** The lemmas behind the theorems of PropertiesPoly.v. *)
From Coq Require Import ZArith NArith List Arith Lia setoid_ring.Field.
From Verif Require Import Field ZpField Primes Rust ListAux Primitives Specs Mds Bn256 Pasta BaseHash SpecHash Link Perm_proof Sponge_proof BigSum Mds_proof Bij_proof
  BaseHash_proof Const_proof Base_claims Bij_claims PolyUse Poly_proof.
Import ListNotations.
Local Open Scope nat_scope.

Section Generic.
  Context {F : Type} {FO : FieldOps F} {PF : PrimeField F}.

  Theorem degree_claim : forall T (s : spec F) st v j, poseidon_spec T s -> length st = T -> length v = T ->
    nth j (lead_permute (mds s) (Nat.div2 (full_rounds s)) (partial_rounds s) v) fzero <> fzero ->
    degree (5 ^ (2 * Nat.div2 (full_rounds s) + partial_rounds s)) (fun x => nth j (hash_permute T s (on_line st v x)) fzero).
  Proof.
    intros T s st v j Hp Hs Hv N. pose proof Hp as (_ & (Hm & _) & Hr & Hl).
    pose proof (permute_degree T (mds s) Hm (Nat.div2 (full_rounds s)) (partial_rounds s) (round_constants s) st v j Hr ltac:(lia) Hs Hv N) as [[c [Hc E]] H].
    assert (A : forall x, hash_permute T s (on_line st v x) = textbook s (on_line st v x)).
    { intros x. apply hash_permute_textbook; [exact Hp|]. unfold on_line. rewrite vadd_length; rewrite ?map_length; congruence. }
    split.
    - exists c. split; [exact Hc|]. intros x. rewrite A. apply E.
    - intros c' xs Hc' Hn Hx. apply (H c' xs Hc' Hn). intros x X. rewrite <- (Hx x X), A. reflexivity.
  Qed.

  (** the degree in one word of the permutation of some tables *)
  Definition unit3 (i : nat) : list F := map (fun j => if j =? i then fone else fzero) (seq 0 3).
  Add Field Ffield : f_field.
  Lemma word_line : forall i st x, i < 3 -> length st = 3 -> with_word i st x = on_line (with_word i st fzero) (unit3 i) x.
  Proof.
    intros i st x Hi Hs. destruct (length_list3 _ Hs) as (a & b & c & ->). unfold with_word, on_line, unit3.
    destruct i as [|[|[|i]]]; [| | |lia]; cbn [firstn skipn app seq map Nat.eqb vadd]; repeat (apply f_equal2; [ring|]); reflexivity.
  Qed.
  Lemma with_word_length : forall i (st : list F) x, i < length st -> length (with_word i st x) = length st.
  Proof. intros i st x H. unfold with_word. rewrite app_length, firstn_length. cbn [length]. rewrite skipn_length. lia. Qed.

  Definition fast (c : p128_constants F) : Prop :=
    (forall i, i < 3 -> nth 0 (Nat.iter 4 (lead_full (pc_mds c)) (unit3 i)) fzero <> fzero)
    /\ nth 0 (first_column 3 (pc_mds c)) fzero <> fzero
    /\ (forall j, j < 3 -> nth j (Nat.iter 4 (lead_full (pc_mds c)) (first_column 3 (pc_mds c))) fzero <> fzero).

  Section Tables.
    Variables (short : bool) (c : p128_constants F) (s : spec F) (rounds : nat).
    Hypothesis Hc : constants_ok c.
    Hypothesis Hs : cached_hash_spec short c = Ok s.
    Hypothesis HF : fast c.
    Hypothesis Hp : 0 < pc_partial_rounds c.
    Hypothesis Hr : rounds = 8 + pc_partial_rounds c.

    Lemma word_degree : forall i j st, i < 3 -> j < 3 -> length st = 3 ->
      degree (5 ^ rounds) (fun x => nth j (hash_permute 3 s (with_word i st x)) fzero).
    Proof.
      intros i j st Hi Hj Hst. pose proof Hc as ((Hm & Hm') & Hrc & Hl). destruct HF as (N0 & N1 & N2).
      assert (Lw : length (with_word i st fzero) = 3) by (rewrite with_word_length; lia).
      destruct (pc_partial_rounds c) as [|p] eqn:Ep; [lia|].
      pose proof (permute_degree 3 (pc_mds c) Hm 4 (S p) (pc_round_constants c) (with_word i st fzero) (unit3 i) j Hrc ltac:(lia) Lw eq_refl
        (lead_nonzero 3 (pc_mds c) Hm 4 p (unit3 i) j ltac:(lia) eq_refl (N0 i Hi) N1 (N2 j Hj))) as [[c' [Hc' E]] H].
      rewrite Hr. change (2 * 4 + S p) with (8 + S p) in *.
      assert (A : forall x, hash_permute 3 s (with_word i st x) = spec_permute (pc_mds c) 4 (S p) (pc_round_constants c) (on_line (with_word i st fzero) (unit3 i) x)).
      { intros x. assert (L : length (with_word i st x) = 3) by (rewrite with_word_length; lia).
        rewrite (proj1 (cached_agrees short c s Hc Hs _ L)), (word_line i st x Hi Hst). unfold poseidon_permutation. now rewrite Ep. }
      split.
      - exists c'. split; [exact Hc'|]. intros x. rewrite A. apply E.
      - intros c2 xs Hc2 Hn Hx. apply (H c2 xs Hc2 Hn). intros x X. rewrite <- (Hx x X), A. reflexivity.
    Qed.

    (** few inputs give one value *)
    Lemma word_fibre : forall i j st h xs, i < 3 -> j < 3 -> length st = 3 -> NoDup xs ->
      (forall x, In x xs -> nth j (hash_permute 3 s (with_word i st x)) fzero = h) -> length xs <= 5 ^ rounds.
    Proof.
      intros i j st h xs Hi Hj Hst Hn Hx. destruct (word_degree i j st Hi Hj Hst) as [_ H]. apply (H [h] xs); [|exact Hn|].
      - cbn [length]. pose proof (Nat.pow_nonzero 5 rounds ltac:(lia)). lia.
      - intros x X. rewrite (Hx x X). cbn [polynomial]. ring.
    Qed.
    Lemma domain_hash : forall a b d, hash_with_domain s (a, b) d = Ok (nth 0 (hash_permute 3 s [d; a; b]) fzero).
    Proof.
      intros a b d. destruct (two_word_claim short false c s a b Hc Hs) as (H1 & _ & _ & H4). rewrite H1, H4. reflexivity.
    Qed.
    Theorem preimages_claim : forall u v h xs, NoDup xs ->
      (forall x, In x xs -> hash_with_domain s (x, u) v = Ok h) \/ (forall x, In x xs -> hash_with_domain s (u, x) v = Ok h)
      \/ (forall x, In x xs -> hash_with_domain s (u, v) x = Ok h) ->
      (Z.of_nat (length xs) <= 5 ^ Z.of_nat rounds)%Z.
    Proof.
      intros u v h xs Hn H. change 5%Z with (Z.of_nat 5). rewrite <- Nat2Z.inj_pow. apply inj_le.
      assert (K : forall a b d, hash_with_domain s (a, b) d = Ok h -> nth 0 (hash_permute 3 s [d; a; b]) fzero = h).
      { intros a b d E. rewrite domain_hash in E. congruence. }
      destruct H as [H|[H|H]].
      - apply (word_fibre 1 0 [v; fzero; u] h xs); try lia; auto. intros x X. now apply K, H.
      - apply (word_fibre 2 0 [v; u; fzero] h xs); try lia; auto. intros x X. now apply K, H.
      - apply (word_fibre 0 0 [fzero; u; v] h xs); try lia; auto. intros x X. now apply K, H.
    Qed.

    (** the last block of a message *)
    Lemma pairs_exist : forall p : list F, Nat.even (length p) = true -> exists bs, p = concat bs /\ Forall (fun b => length b = 2) bs.
    Proof.
      intros p. remember (length p) as n eqn:En. revert p En. induction n as [n IH] using lt_wf_ind. intros p En E.
      destruct p as [|a [|b p]]; [exists []; split; [reflexivity|constructor]|subst; discriminate|].
      subst n. destruct (IH (length p) ltac:(cbn; lia) p eq_refl E) as (bs & -> & H). exists ([a; b] :: bs). split; [reflexivity|constructor; auto].
    Qed.
    Lemma last_block : forall (p : list F) bs u v, p = concat bs -> Forall (fun b => length b = 2) bs ->
      pad_zeros 2 (p ++ [u]) = concat (bs ++ [[u; fzero]]) /\ pad_zeros 2 (p ++ [u; v]) = concat (bs ++ [[u; v]]).
    Proof.
      intros p bs u v -> Hb.
      assert (M : exists k, length (concat bs) = k * 2).
      { clear - Hb. induction Hb as [|b bs Hb1 Hb IH]; [now exists 0|]. destruct IH as [k IH]. exists (S k). cbn [concat]. rewrite app_length, IH, Hb1. lia. }
      destruct M as [k M]. unfold pad_zeros. rewrite !app_length, !concat_app, M. cbn [length concat app]. split.
      - rewrite Nat.add_comm, Nat.mod_add by lia. change ((2 - 1 mod 2) mod 2) with 1. cbn [repeat]. now rewrite <- app_assoc.
      - rewrite Nat.add_comm, Nat.mod_add by lia. change ((2 - 2 mod 2) mod 2) with 0. cbn [repeat]. now rewrite app_nil_r.
    Qed.
    (** the digest from the state before the last block *)
    Lemma message_last : forall legacy n cap bs, Forall (fun b => length b = 2) bs ->
      exists st, length st = 3 /\ forall w u v, length w = n -> w <> [] -> pad_zeros 2 w = concat (bs ++ [[u; v]]) ->
        hash_msg legacy s w cap = Ok (nth 0 (hash_permute 3 s [nth 0 st fzero; fadd (nth 1 st fzero) u; fadd (nth 2 st fzero) v]) fzero).
    Proof.
      intros legacy n cap bs Hb.
      assert (PL : forall st, length st = 3 -> length (poseidon_permutation c st) = 3).
      { intros st L. rewrite <- (proj1 (cached_agrees short c s Hc Hs st L)). exact (proj2 (cached_agrees short c s Hc Hs st L)). }
      assert (AL : forall bs st, length st = 3 -> length (absorb_blocks (poseidon_permutation c) 1 bs st) = 3).
      { clear - PL. unfold absorb_blocks. induction bs as [|b bs IH]; intros st H; cbn [fold_left]; [exact H|]. apply IH, PL. unfold add_block. now rewrite map_length, seq_length. }
      set (K := match cap with Some k => of_Z (Z.of_N k) | None => of_Z (Z.of_nat n * (if legacy then 1 else 2 ^ 64)) end : F).
      set (st := absorb_blocks (poseidon_permutation c) 1 bs (init_state 3 0 K)).
      assert (L : length st = 3) by (apply AL; reflexivity).
      exists st. split; [exact L|]. intros w u v Hn Hw Ew. rewrite (hash_msg_claim short legacy c s w cap Hc Hs).
      destruct w as [|w0 ws]; [contradiction|]. f_equal. rewrite Hn. fold K. unfold message_hash, sponge_hash. rewrite Ew.
      rewrite blocks_concat; [|lia|apply Forall_app; split; [exact Hb|now constructor]]. unfold absorb_blocks. rewrite fold_left_app. cbn [fold_left]. fold (absorb_blocks (poseidon_permutation c) 1 bs (init_state 3 0 K)). fold st. clearbody st.
      destruct (length_list3 _ L) as (a & b & e & ->). cbn [nth]. rewrite (proj1 (cached_agrees short c s Hc Hs [a; fadd b u; fadd e v] eq_refl)).
      unfold add_block. cbn [length seq map Nat.leb Nat.sub nth].
      apply (f_equal (fun l => nth 0 (poseidon_permutation c l) fzero)). apply f_equal2; [ring|reflexivity].
    Qed.
    Lemma shift_nodup : forall k (xs : list F), NoDup xs -> NoDup (map (fadd k) xs).
    Proof.
      clear - PF. intros k xs Hn. induction Hn as [|x xs Hx Hn IH]; cbn [map]; constructor; [|exact IH]. rewrite in_map_iff. intros (y & Ey & Hy).
      apply fadd_cancel_l in Ey. now subst.
    Qed.
    Theorem message_preimages_claim : forall legacy p y cap h xs, Nat.even (length p) = true -> NoDup xs ->
      (forall x, In x xs -> hash_msg legacy s (p ++ [x]) cap = Ok h) \/ (forall x, In x xs -> hash_msg legacy s (p ++ [x; y]) cap = Ok h)
      \/ (forall x, In x xs -> hash_msg legacy s (p ++ [y; x]) cap = Ok h) ->
      (Z.of_nat (length xs) <= 5 ^ Z.of_nat rounds)%Z.
    Proof.
      intros legacy p y cap h xs Hev Hn H. change 5%Z with (Z.of_nat 5). rewrite <- Nat2Z.inj_pow. apply inj_le.
      destruct (pairs_exist p Hev) as (bs & Ep & Hb). assert (NE : forall u t, p ++ u :: t <> []) by (intros; destruct p; discriminate).
      destruct H as [H|[H|H]].
      - destruct (message_last legacy (length p + 1) cap bs Hb) as (st & L & E). rewrite <- (map_length (fadd (nth 1 st fzero)) xs).
        apply (word_fibre 1 0 [nth 0 st fzero; fzero; fadd (nth 2 st fzero) fzero] h); try lia; auto using shift_nodup.
        intros z Hz. apply in_map_iff in Hz. destruct Hz as (x & <- & X). specialize (H x X).
        rewrite (E (p ++ [x]) x fzero) in H; [injection H as H; exact H|now rewrite app_length|apply NE|exact (proj1 (last_block p bs x fzero Ep Hb))].
      - destruct (message_last legacy (length p + 2) cap bs Hb) as (st & L & E). rewrite <- (map_length (fadd (nth 1 st fzero)) xs).
        apply (word_fibre 1 0 [nth 0 st fzero; fzero; fadd (nth 2 st fzero) y] h); try lia; auto using shift_nodup.
        intros z Hz. apply in_map_iff in Hz. destruct Hz as (x & <- & X). specialize (H x X).
        rewrite (E (p ++ [x; y]) x y) in H; [injection H as H; exact H|now rewrite app_length|apply NE|exact (proj2 (last_block p bs x y Ep Hb))].
      - destruct (message_last legacy (length p + 2) cap bs Hb) as (st & L & E). rewrite <- (map_length (fadd (nth 2 st fzero)) xs).
        apply (word_fibre 2 0 [nth 0 st fzero; fadd (nth 1 st fzero) y; fzero] h); try lia; auto using shift_nodup.
        intros z Hz. apply in_map_iff in Hz. destruct Hz as (x & <- & X). specialize (H x X).
        rewrite (E (p ++ [y; x]) y x) in H; [injection H as H; exact H|now rewrite app_length|apply NE|exact (proj2 (last_block p bs y x Ep Hb))].
    Qed.

    (** many digests *)
    Lemma pigeon : forall (f : F -> F) D l xs, NoDup xs -> (forall x, In x xs -> In (f x) l) ->
      (forall h ys, NoDup ys -> (forall y, In y ys -> f y = h) -> length ys <= D) -> length xs <= D * length l.
    Proof.
      clear - PF. intros f D l. induction l as [|h l IH]; intros xs Hn Hl HD.
      - destruct xs as [|x xs]; [cbn; lia|]. elim (Hl x (or_introl eq_refl)).
      - set (eqs := filter (fun x => feqb (f x) h) xs). set (nes := filter (fun x => negb (feqb (f x) h)) xs).
        assert (A : length xs = length eqs + length nes).
        { unfold eqs, nes. clear. induction xs as [|x xs IH]; cbn [filter length]; [reflexivity|].
          destruct (feqb (f x) h); cbn [negb length]; lia. }
        assert (B : length eqs <= D).
        { apply (HD h); [now apply NoDup_filter|]. intros y Hy. apply filter_In in Hy. now apply feqb_eq. }
        assert (C : length nes <= D * length l).
        { apply IH; [now apply NoDup_filter| |exact HD]. intros x Hx. apply filter_In in Hx. destruct Hx as [Hx Ne].
          destruct (Hl x Hx) as [E|E]; [|exact E]. subst h. now rewrite feqb_refl in Ne. }
        cbn [length]. lia.
    Qed.
    Lemma all_elements : exists xs : list F, NoDup xs /\ Z.of_nat (length xs) = modulus (F := F).
    Proof.
      clear - PF. pose proof (modulus_gt_1 (F := F)) as Hm. exists (map (fun n => of_Z (Z.of_nat n)) (seq 0 (Z.to_nat modulus))). split.
      - assert (G : forall l, NoDup l -> (forall n, In n l -> (Z.of_nat n < modulus (F := F))%Z) -> NoDup (map (fun n => of_Z (F := F) (Z.of_nat n)) l)).
        { induction l as [|n l IH]; intros Hn Hl; cbn [map]; constructor; inversion Hn as [|? ? H1 H2]; subst.
          - rewrite in_map_iff. intros (k & Ek & Hk). apply of_Z_inj in Ek; [apply Nat2Z.inj in Ek; now subst| |].
            + split; [lia|]. apply Hl. now right.
            + split; [lia|]. apply Hl. now left.
          - apply IH; [exact H2|]. intros k Hk. apply Hl. now right. }
        apply G; [apply seq_NoDup|]. intros n Hn. apply in_seq in Hn. lia.
      - rewrite map_length, seq_length. lia.
    Qed.
    Theorem digests_claim : forall u v l,
      (forall x, exists h, In h l /\ hash_with_domain s (x, u) v = Ok h) \/ (forall x, exists h, In h l /\ hash_with_domain s (u, x) v = Ok h)
      \/ (forall x, exists h, In h l /\ hash_with_domain s (u, v) x = Ok h) ->
      (modulus (F := F) <= 5 ^ Z.of_nat rounds * Z.of_nat (length l))%Z.
    Proof.
      intros u v l H. destruct all_elements as (xs & Hn & <-). change 5%Z with (Z.of_nat 5). rewrite <- Nat2Z.inj_pow, <- Nat2Z.inj_mul. apply inj_le.
      assert (G : exists i st, i < 3 /\ length st = 3 /\ forall x, In (nth 0 (hash_permute 3 s (with_word i st x)) fzero) l).
      { destruct H as [H|[H|H]].
        - exists 1, [v; fzero; u]. split; [lia|]. split; [reflexivity|]. intros x. destruct (H x) as (h & Hh & E). rewrite domain_hash in E. injection E as E. unfold with_word. cbn [firstn skipn app]. now rewrite E.
        - exists 2, [v; u; fzero]. split; [lia|]. split; [reflexivity|]. intros x. destruct (H x) as (h & Hh & E). rewrite domain_hash in E. injection E as E. unfold with_word. cbn [firstn skipn app]. now rewrite E.
        - exists 0, [fzero; u; v]. split; [lia|]. split; [reflexivity|]. intros x. destruct (H x) as (h & Hh & E). rewrite domain_hash in E. injection E as E. unfold with_word. cbn [firstn skipn app]. now rewrite E. }
      destruct G as (i & st & Hi & Hst & G).
      apply (pigeon (fun x => nth 0 (hash_permute 3 s (with_word i st x)) fzero)); [exact Hn|intros; apply G|].
      intros h ys Hy Hh. apply (word_fibre i 0 st h ys); auto; lia.
    Qed.
  End Tables.
End Generic.

(** the leading coefficients, computed on integers *)
Section Compute.
  Context {F : Type} {FO : FieldOps F} {PF : PrimeField F}.
  Local Open Scope Z_scope.
  Definition z_power5 (p x : Z) : Z := let y := (x * x) mod p in let z := (y * y) mod p in z * x.
  Fixpoint z_dot (a b : list Z) : Z := match a, b with x :: a', y :: b' => x * y + z_dot a' b' | _, _ => 0 end.
  Definition z_full (p : Z) (m : list (list Z)) (v : list Z) : list Z := let w := map (z_power5 p) v in map (fun row => (z_dot row w) mod p) m.
  Definition z_nonzero (p : Z) (v : list Z) : bool := forallb (fun x => negb (x mod p =? 0)) v.
  (** word 0 of the fourth vectors from the three unit vectors, and all words of the fifth from the first *)
  Definition z_check (p : Z) (m : list (list Z)) : bool :=
    let e0 := Nat.iter 4 (z_full p m) [1; 0; 0] in
    z_nonzero p (firstn 1 e0 ++ firstn 1 (Nat.iter 4 (z_full p m) [0; 1; 0]) ++ firstn 1 (Nat.iter 4 (z_full p m) [0; 0; 1])
                 ++ firstn 1 (z_full p m [1; 0; 0]) ++ z_full p m e0).

  Add Field Ffield1 : f_field.
  Lemma z_power5_of : forall x, of_Z (F := F) (z_power5 (modulus (F := F)) x) = power5 (of_Z x).
  Proof. intros x. unfold z_power5, power5. cbn zeta. rewrite !of_Z_mul, !of_Z_mod, !of_Z_mul, of_Z_mod, of_Z_mul. ring. Qed.
  Lemma z_dot_of : forall a b, of_Z (F := F) (z_dot a b) = dot (map of_Z a) (map of_Z b).
  Proof. induction a as [|x a IH]; intros [|y b]; cbn [z_dot map dot]; try apply of_Z_0. now rewrite of_Z_add, of_Z_mul, IH. Qed.
  Lemma z_full_of : forall m v, map of_Z (z_full (modulus (F := F)) m v) = lead_full (F := F) (map (map of_Z) m) (map of_Z v).
  Proof.
    intros m v. unfold z_full, lead_full, mat_vec. cbn zeta. rewrite !map_map. apply map_ext. intros row. rewrite of_Z_mod, z_dot_of. f_equal.
    rewrite !map_map. apply map_ext. intros x. apply z_power5_of.
  Qed.
  Lemma z_iter_of : forall m n v, map of_Z (Nat.iter n (z_full (modulus (F := F)) m) v) = Nat.iter n (lead_full (F := F) (map (map of_Z) m)) (map of_Z v).
  Proof.
    intros m n v. induction n as [|n IH]; [reflexivity|].
    change (map of_Z (z_full modulus m (Nat.iter n (z_full modulus m) v)) = lead_full (map (map of_Z) m) (Nat.iter n (lead_full (map (map of_Z) m)) (map of_Z v))).
    now rewrite z_full_of, IH.
  Qed.
  Lemma z_nonzero_of : forall v, z_nonzero (modulus (F := F)) v = true -> forall i, (i < length v)%nat -> nth i (map of_Z v) (fzero (F := F)) <> fzero.
  Proof.
    intros v H i Hi. rewrite (nth_indep _ _ (of_Z 0)) by (now rewrite map_length). rewrite map_nth.
    unfold z_nonzero in H. rewrite forallb_forall in H. specialize (H (nth i v 0) (nth_In _ _ Hi)).
    intros E. apply of_Z_eq_0 in E. apply Z.mod_divide in E; [|pose proof (modulus_gt_1 (F := F)); lia]. rewrite E in H. discriminate.
  Qed.
  Lemma z_nonzero_app : forall p v w, z_nonzero p (v ++ w) = true -> z_nonzero p v = true /\ z_nonzero p w = true.
  Proof. intros p v w H. unfold z_nonzero in *. rewrite forallb_app in H. now apply Bool.andb_true_iff in H. Qed.
  Lemma z_fast : forall (c : p128_constants F) m, pc_mds c = map (map of_Z) m -> length m = 3%nat -> z_check (modulus (F := F)) m = true -> fast c.
  Proof.
    intros c m Em Lm H. unfold z_check in H. cbn zeta in H. set (p := modulus (F := F)) in H.
    assert (L : forall v, length (z_full p m v) = 3%nat) by (intros; unfold z_full; cbn zeta; now rewrite map_length).
    assert (LI : forall v, length v = 3%nat -> length (Nat.iter 4 (z_full p m) v) = 3%nat).
    { intros v Hv. exact (L (Nat.iter 3 (z_full p m) v)). }
    apply z_nonzero_app in H. destruct H as [A0 H]. apply z_nonzero_app in H. destruct H as [A1 H]. apply z_nonzero_app in H. destruct H as [A2 H].
    apply z_nonzero_app in H. destruct H as [A3 A4].
    assert (U : forall i, (i < 3)%nat -> unit3 (F := F) i = map of_Z (map (fun j => if (j =? i)%nat then 1 else 0) (seq 0 3))).
    { intros i Hi. unfold unit3. rewrite map_map. apply map_ext. intros j. destruct (j =? i)%nat; [now rewrite of_Z_1|now rewrite of_Z_0]. }
    assert (ONE : forall v, z_nonzero p (firstn 1 v) = true -> length v = 3%nat -> nth 0 (map of_Z v) (fzero (F := F)) <> fzero).
    { intros v Hv Lv. destruct v as [|x v]; [discriminate|]. exact (z_nonzero_of [x] Hv 0%nat (Nat.lt_0_succ 0)). }
    assert (C0 : first_column 3 (pc_mds c) = map of_Z (z_full p m [1; 0; 0])).
    { unfold p. rewrite z_full_of, Em. unfold first_column, lead_full. f_equal. cbn [map pred repeat]. rewrite of_Z_1, of_Z_0. unfold power5. repeat (apply f_equal2; [ring|]). reflexivity. }
    split; [|split].
    - intros i Hi. rewrite (U i Hi), Em. rewrite <- z_iter_of. fold p. destruct i as [|[|[|i]]]; [| | |lia]; apply ONE; try (apply LI; reflexivity); assumption.
    - rewrite C0. apply ONE; [exact A3|apply L].
    - intros j Hj. rewrite C0, Em, <- z_iter_of. fold p. rewrite <- (iter_swap _ (z_full p m) 4 [1; 0; 0]).
      apply z_nonzero_of; [exact A4|]. exact (eq_ind_r (fun n => (j < n)%nat) Hj (L (Nat.iter 4 (z_full p m) [1; 0; 0]))).
  Qed.
End Compute.

Lemma bn256_fast : fast bn256_c.
Proof. apply (z_fast bn256_c bn256_mds_Z); [reflexivity|reflexivity|]. vm_compute. reflexivity. Qed.
Lemma pasta_fast : fast pasta_constants.
Proof. apply (z_fast pasta_constants pasta_mds_Z); [reflexivity|reflexivity|]. vm_compute. reflexivity. Qed.

Theorem bn254_degree : forall short s i j st, cached_hash_spec short bn256_c = Ok s -> i < 3 -> j < 3 -> length st = 3 ->
  degree (5 ^ 65) (fun x => nth j (hash_permute 3 s (with_word i st x)) fzero).
Proof. intros short s i j st Hs. exact (word_degree short bn256_c s 65 bn256_ok Hs bn256_fast (Nat.lt_0_succ 56) eq_refl i j st). Qed.
Theorem pallas_degree : forall short s i j st, cached_hash_spec short pasta_constants = Ok s -> i < 3 -> j < 3 -> length st = 3 ->
  degree (5 ^ 64) (fun x => nth j (hash_permute 3 s (with_word i st x)) fzero).
Proof. intros short s i j st Hs. exact (word_degree short pasta_constants s 64 pasta_ok Hs pasta_fast (Nat.lt_0_succ 55) eq_refl i j st). Qed.
Theorem bn254_preimages : forall short s u v h xs, cached_hash_spec short bn256_c = Ok s -> NoDup xs ->
  (forall x, In x xs -> hash_with_domain s (x, u) v = Ok h) \/ (forall x, In x xs -> hash_with_domain s (u, x) v = Ok h)
  \/ (forall x, In x xs -> hash_with_domain s (u, v) x = Ok h) ->
  (Z.of_nat (length xs) <= 5 ^ 65)%Z.
Proof. intros short s u v h xs Hs. exact (preimages_claim short bn256_c s 65 bn256_ok Hs bn256_fast (Nat.lt_0_succ 56) eq_refl u v h xs). Qed.
Theorem bn254_message_preimages : forall short legacy s p y cap h xs, cached_hash_spec short bn256_c = Ok s -> Nat.even (length p) = true -> NoDup xs ->
  (forall x, In x xs -> hash_msg legacy s (p ++ [x]) cap = Ok h) \/ (forall x, In x xs -> hash_msg legacy s (p ++ [x; y]) cap = Ok h)
  \/ (forall x, In x xs -> hash_msg legacy s (p ++ [y; x]) cap = Ok h) ->
  (Z.of_nat (length xs) <= 5 ^ 65)%Z.
Proof. intros short legacy s p y cap h xs Hs. exact (message_preimages_claim short bn256_c s 65 bn256_ok Hs bn256_fast (Nat.lt_0_succ 56) eq_refl legacy p y cap h xs). Qed.
Theorem bn254_digests : forall short s u v l, cached_hash_spec short bn256_c = Ok s ->
  (forall x, exists h, In h l /\ hash_with_domain s (x, u) v = Ok h) \/ (forall x, exists h, In h l /\ hash_with_domain s (u, x) v = Ok h)
  \/ (forall x, exists h, In h l /\ hash_with_domain s (u, v) x = Ok h) ->
  (2 ^ 102 < Z.of_nat (length l))%Z.
Proof.
  intros short s u v l Hs H. pose proof (digests_claim short bn256_c s 65 bn256_ok Hs bn256_fast (Nat.lt_0_succ 56) eq_refl u v l H) as Q.
  change (modulus (F := Fr)) with bn254_r in Q. change (Z.of_nat 65) with 65%Z in Q.
  destruct (Z_le_gt_dec (Z.of_nat (length l)) (2 ^ 102)) as [G|G]; [|lia].
  assert (B : (5 ^ 65 * 2 ^ 102 < bn254_r)%Z) by reflexivity.
  assert (C : (5 ^ 65 * Z.of_nat (length l) <= 5 ^ 65 * 2 ^ 102)%Z) by (apply Z.mul_le_mono_nonneg_l; [discriminate|exact G]).
  exfalso. exact (Z.lt_irrefl _ (Z.le_lt_trans _ _ _ (Z.le_trans _ _ _ Q C) B)).
Qed.
