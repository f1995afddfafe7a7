(** The lemmas behind the theorems of PropertiesOrder.v. *)
From Coq Require Import ZArith NArith List Arith Lia setoid_ring.Field.
From Verif Require Import Field ZpField Primes Rust ListAux Primitives Specs Mds Bn256 Pasta BaseHash SpecHash Link Perm_proof Sponge_proof BigSum Mds_proof Bij_proof
  BaseHash_proof Const_proof Base_claims Bij_claims PolyUse Poly_proof Poly_claims Order_proof.
Import ListNotations.
Local Open Scope nat_scope.

Section Generic.
  Context {F : Type} {FO : FieldOps F} {PF : PrimeField F}.
  Add Field Ffield : f_field.

  (** C73: any Poseidon permutation, along two lines *)
  Theorem lines_claim : forall T (s : spec F) st st' v w j xs, poseidon_spec T s -> length st = T -> length st' = T -> length v = T -> length w = T ->
    nth j (lead_permute (mds s) (Nat.div2 (full_rounds s)) (partial_rounds s) v) fzero
      <> nth j (lead_permute (mds s) (Nat.div2 (full_rounds s)) (partial_rounds s) w) fzero -> NoDup xs ->
    (forall x, In x xs -> nth j (hash_permute T s (on_line st v x)) fzero = nth j (hash_permute T s (on_line st' w x)) fzero) ->
    length xs <= 5 ^ (2 * Nat.div2 (full_rounds s) + partial_rounds s).
  Proof.
    intros T s st st' v w j xs Hp Hs Hs' Hv Hw N Hn Hx. pose proof Hp as (_ & (Hm & _) & Hr & Hl).
    assert (A : forall st v x, length st = T -> length v = T -> hash_permute T s (on_line st v x) = textbook s (on_line st v x)).
    { clear - Hp PF. intros st v x Hs Hv. apply hash_permute_textbook; [exact Hp|]. unfold on_line. rewrite vadd_length; rewrite ?map_length; congruence. }
    apply (lines_coincide T (mds s) Hm (Nat.div2 (full_rounds s)) (partial_rounds s) (round_constants s) st st' v w j xs Hr ltac:(lia) Hs Hs' Hv Hw N Hn).
    intros x X. specialize (Hx x X). rewrite !A in Hx by assumption. exact Hx.
  Qed.

  (** the leading coefficients from the three unit vectors differ *)
  Definition distinct (c : p128_constants F) : Prop := forall i k, i < 3 -> k < 3 -> i <> k ->
    nth 0 (Nat.iter 4 (lead_full (pc_mds c)) (unit3 i)) fzero <> nth 0 (Nat.iter 4 (lead_full (pc_mds c)) (unit3 k)) fzero.

  Section Tables.
    Variables (short : bool) (c : p128_constants F) (s : spec F) (rounds : nat).
    Hypothesis Hc : constants_ok c.
    Hypothesis Hs : cached_hash_spec short c = Ok s.
    Hypothesis HF : fast c.
    Hypothesis HD : distinct c.
    Hypothesis HI : forall x y : F, power5 x = power5 y -> x = y.
    Hypothesis Hp : 0 < pc_partial_rounds c.
    Hypothesis Hr : rounds = 8 + pc_partial_rounds c.

    Lemma on_line_length : forall (st v : list F) x, length st = length v -> length (on_line st v x) = length st.
    Proof. clear. intros st v x H. unfold on_line. rewrite vadd_length; rewrite ?map_length; congruence. Qed.

    (** two words of the input, one in each of two states *)
    Lemma line_coincide : forall i k j st st' xs, i < 3 -> k < 3 -> i <> k -> j < 3 -> length st = 3 -> length st' = 3 -> NoDup xs ->
      (forall x, In x xs -> nth j (hash_permute 3 s (on_line st (unit3 i) x)) fzero = nth j (hash_permute 3 s (on_line st' (unit3 k) x)) fzero) ->
      length xs <= 5 ^ rounds.
    Proof.
      intros i k j st st' xs Hi Hk Hik Hj Hst Hst' Hn Hx. pose proof Hc as ((Hm & Hm') & Hrc & Hl). destruct HF as (_ & N1 & N2).
      destruct (pc_partial_rounds c) as [|p] eqn:Ep; [lia|]. rewrite Hr. change (8 + S p) with (2 * 4 + S p).
      apply (lines_coincide 3 (pc_mds c) Hm 4 (S p) (pc_round_constants c) st st' (unit3 i) (unit3 k) j xs Hrc ltac:(lia) Hst Hst' eq_refl eq_refl); [|exact Hn|].
      - exact (lead_differs 3 (pc_mds c) Hm HI 4 p (unit3 i) (unit3 k) j ltac:(lia) eq_refl eq_refl (HD i k Hi Hk Hik) N1 (N2 j Hj)).
      - intros x X. specialize (Hx x X).
        rewrite (proj1 (cached_agrees short c s Hc Hs (on_line st (unit3 i) x) (eq_trans (on_line_length st (unit3 i) x Hst) Hst))) in Hx.
        rewrite (proj1 (cached_agrees short c s Hc Hs (on_line st' (unit3 k) x) (eq_trans (on_line_length st' (unit3 k) x Hst') Hst'))) in Hx.
        unfold poseidon_permutation in Hx. rewrite Ep in Hx. exact Hx.
    Qed.
    Theorem words_claim : forall i k j st st' xs, i < 3 -> k < 3 -> i <> k -> j < 3 -> length st = 3 -> length st' = 3 -> NoDup xs ->
      (forall x, In x xs -> nth j (hash_permute 3 s (with_word i st x)) fzero = nth j (hash_permute 3 s (with_word k st' x)) fzero) ->
      (Z.of_nat (length xs) <= 5 ^ Z.of_nat rounds)%Z.
    Proof.
      intros i k j st st' xs Hi Hk Hik Hj Hst Hst' Hn Hx. change 5%Z with (Z.of_nat 5). rewrite <- Nat2Z.inj_pow. apply inj_le.
      apply (line_coincide i k j (with_word i st fzero) (with_word k st' fzero) xs); auto; try (rewrite with_word_length; lia).
      intros x X. rewrite <- !word_line by assumption. now apply Hx.
    Qed.

    (** the hash API *)
    Lemma line0 : forall a b e x : F, [fadd a x; b; e] = on_line [a; b; e] (unit3 0) x.
    Proof. clear - PF. intros a b e x. unfold on_line, unit3. cbn [seq map Nat.eqb vadd]. repeat (apply f_equal2; [ring|]). reflexivity. Qed.
    Lemma line1 : forall a b e x : F, [a; fadd b x; e] = on_line [a; b; e] (unit3 1) x.
    Proof. clear - PF. intros a b e x. unfold on_line, unit3. cbn [seq map Nat.eqb vadd]. repeat (apply f_equal2; [ring|]). reflexivity. Qed.
    Lemma line2 : forall a b e x : F, [a; b; fadd e x] = on_line [a; b; e] (unit3 2) x.
    Proof. clear - PF. intros a b e x. unfold on_line, unit3. cbn [seq map Nat.eqb vadd]. repeat (apply f_equal2; [ring|]). reflexivity. Qed.

    Theorem two_words_claim : forall u v u' v' xs, NoDup xs ->
      (forall x, In x xs -> hash_with_domain s (x, u) v = hash_with_domain s (u', x) v')
      \/ (forall x, In x xs -> hash_with_domain s (x, u) v = hash_with_domain s (u', v') x)
      \/ (forall x, In x xs -> hash_with_domain s (u, x) v = hash_with_domain s (u', v') x) ->
      (Z.of_nat (length xs) <= 5 ^ Z.of_nat rounds)%Z.
    Proof.
      intros u v u' v' xs Hn H.
      assert (K : forall a b d a' b' d', hash_with_domain s (a, b) d = hash_with_domain s (a', b') d' ->
        nth 0 (hash_permute 3 s [d; a; b]) fzero = nth 0 (hash_permute 3 s [d'; a'; b']) fzero).
      { intros a b d a' b' d' E. rewrite !(domain_hash short c s Hc Hs) in E. congruence. }
      destruct H as [H|[H|H]].
      - apply (words_claim 1 2 0 [v; fzero; u] [v'; u'; fzero] xs); auto. intros x X. now apply K, H.
      - apply (words_claim 1 0 0 [v; fzero; u] [fzero; u'; v'] xs); auto. intros x X. now apply K, H.
      - apply (words_claim 2 0 0 [v; u; fzero] [fzero; u'; v'] xs); auto. intros x X. now apply K, H.
    Qed.

    (** the last block of a message, its first word alone or followed by another *)
    Lemma message_first : forall legacy p y cap, Nat.even (length p) = true -> length y <= 1 ->
      exists st, length st = 3 /\ forall x, hash_msg legacy s (p ++ x :: y) cap = Ok (nth 0 (hash_permute 3 s (on_line st (unit3 1) x)) fzero).
    Proof.
      intros legacy p y cap Hev Hy. destruct (pairs_exist c rounds Hp Hr p Hev) as (bs & Ep & Hb).
      destruct (message_last short c s rounds Hc Hs Hp Hr legacy (length p + S (length y)) cap bs Hb) as (st & L & E).
      exists [nth 0 st fzero; nth 1 st fzero; fadd (nth 2 st fzero) (nth 0 y fzero)]. split; [reflexivity|]. intros x. rewrite <- line1.
      apply E; [rewrite app_length; reflexivity|destruct p; discriminate|].
      destruct y as [|y [|? ?]]; [exact (proj1 (last_block c rounds Hp Hr p bs x fzero Ep Hb))|exact (proj2 (last_block c rounds Hp Hr p bs x y Ep Hb))|cbn in Hy; lia].
    Qed.
    Lemma message_second : forall legacy p y cap, Nat.even (length p) = true ->
      exists st, length st = 3 /\ forall x, hash_msg legacy s (p ++ [y; x]) cap = Ok (nth 0 (hash_permute 3 s (on_line st (unit3 2) x)) fzero).
    Proof.
      intros legacy p y cap Hev. destruct (pairs_exist c rounds Hp Hr p Hev) as (bs & Ep & Hb).
      destruct (message_last short c s rounds Hc Hs Hp Hr legacy (length p + 2) cap bs Hb) as (st & L & E).
      exists [nth 0 st fzero; fadd (nth 1 st fzero) y; nth 2 st fzero]. split; [reflexivity|]. intros x. rewrite <- line2.
      apply E; [rewrite app_length; reflexivity|destruct p; discriminate|exact (proj2 (last_block c rounds Hp Hr p bs y x Ep Hb))].
    Qed.
    Theorem messages_claim : forall legacy p y cap legacy' p' y' cap' xs, Nat.even (length p) = true -> Nat.even (length p') = true -> length y <= 1 -> NoDup xs ->
      (forall x, In x xs -> hash_msg legacy s (p ++ x :: y) cap = hash_msg legacy' s (p' ++ [y'; x]) cap') ->
      (Z.of_nat (length xs) <= 5 ^ Z.of_nat rounds)%Z.
    Proof.
      intros legacy p y cap legacy' p' y' cap' xs He He' Hy Hn Hx. change 5%Z with (Z.of_nat 5). rewrite <- Nat2Z.inj_pow. apply inj_le.
      destruct (message_first legacy p y cap He Hy) as (st & L & E). destruct (message_second legacy' p' y' cap' He') as (st' & L' & E').
      apply (line_coincide 1 2 0 st st' xs); auto. intros x X. specialize (Hx x X). rewrite E, E' in Hx. congruence.
    Qed.

    (** the fixed-length hash: the state before the last block *)
    Definition fixed_length (msg : list F) : result F :=
      hash_constant_length 3 2 (length msg) s (hash_init 3 2 (constant_length 2 (length msg))) msg.
    Lemma fixed_last : forall n bs, Forall (fun b => length b = 2) bs ->
      exists st, length st = 3 /\ forall w u v, length w = n -> w <> [] -> pad_zeros 2 w = concat (bs ++ [[u; v]]) ->
        fixed_length w = Ok (nth 0 (hash_permute 3 s [fadd (nth 0 st fzero) u; fadd (nth 1 st fzero) v; nth 2 st fzero]) fzero).
    Proof.
      intros n bs Hb. set (P := hash_permute 3 s).
      assert (PL : forall st, length st = 3 -> length (P st) = 3) by (intros st L; exact (proj2 (cached_agrees short c s Hc Hs st L))).
      assert (AL : forall bs st, length st = 3 -> length (absorb_blocks P 0 bs st) = 3).
      { clear - PL. unfold absorb_blocks. induction bs as [|b bs IH]; intros st H; cbn [fold_left]; [exact H|]. apply IH, PL. unfold add_block. now rewrite map_length, seq_length. }
      set (st := absorb_blocks P 0 bs (init_state 3 2 (of_Z (Z.of_nat n * 2 ^ 64)))).
      assert (L : length st = 3) by (apply AL; reflexivity).
      exists st. split; [exact L|]. intros w u v Hn Hw Ew. unfold fixed_length. rewrite hash_constant_length_spec by (auto; lia).
      fold P. destruct (length w =? 0) eqn:E0; [destruct w; [contradiction|discriminate]|]. f_equal. rewrite Hn. unfold sponge_hash. rewrite Ew.
      rewrite blocks_concat; [|lia|apply Forall_app; split; [exact Hb|now constructor]]. unfold absorb_blocks. rewrite fold_left_app. cbn [fold_left].
      fold (absorb_blocks P 0 bs (init_state 3 2 (of_Z (Z.of_nat n * 2 ^ 64)))). fold st. clearbody st.
      destruct (length_list3 _ L) as (a & b & e & ->). cbn [nth]. unfold add_block. cbn [length seq map Nat.leb Nat.sub nth].
      apply (f_equal (fun l => nth 0 (P l) fzero)). repeat (apply f_equal2; [reflexivity|]). apply f_equal2; [ring|reflexivity].
    Qed.
    Lemma fixed_first : forall p y, Nat.even (length p) = true -> length y <= 1 ->
      exists st, length st = 3 /\ forall x, fixed_length (p ++ x :: y) = Ok (nth 0 (hash_permute 3 s (on_line st (unit3 0) x)) fzero).
    Proof.
      intros p y Hev Hy. destruct (pairs_exist c rounds Hp Hr p Hev) as (bs & Ep & Hb).
      destruct (fixed_last (length p + S (length y)) bs Hb) as (st & L & E).
      exists [nth 0 st fzero; fadd (nth 1 st fzero) (nth 0 y fzero); nth 2 st fzero]. split; [reflexivity|]. intros x. rewrite <- line0.
      apply E; [rewrite app_length; reflexivity|destruct p; discriminate|].
      destruct y as [|y [|? ?]]; [exact (proj1 (last_block c rounds Hp Hr p bs x fzero Ep Hb))|exact (proj2 (last_block c rounds Hp Hr p bs x y Ep Hb))|cbn in Hy; lia].
    Qed.
    Lemma fixed_second : forall p y, Nat.even (length p) = true ->
      exists st, length st = 3 /\ forall x, fixed_length (p ++ [y; x]) = Ok (nth 0 (hash_permute 3 s (on_line st (unit3 1) x)) fzero).
    Proof.
      intros p y Hev. destruct (pairs_exist c rounds Hp Hr p Hev) as (bs & Ep & Hb).
      destruct (fixed_last (length p + 2) bs Hb) as (st & L & E).
      exists [fadd (nth 0 st fzero) y; nth 1 st fzero; nth 2 st fzero]. split; [reflexivity|]. intros x. rewrite <- line1.
      apply E; [rewrite app_length; reflexivity|destruct p; discriminate|exact (proj2 (last_block c rounds Hp Hr p bs y x Ep Hb))].
    Qed.
    (** a message with its last word varied *)
    Lemma parity : forall p : list F, Nat.even (length p) = true \/ exists q y, p = q ++ [y] /\ Nat.even (length q) = true.
    Proof.
      clear. intros p. destruct (Nat.even (length p)) eqn:E; [now left|right]. destruct p as [|y q _] using rev_ind; [discriminate|].
      exists q, y. split; [reflexivity|]. rewrite app_length in E. cbn [length] in E. rewrite Nat.add_1_r, Nat.even_succ, <- Nat.negb_even in E.
      now destruct (Nat.even (length q)).
    Qed.
    Lemma fixed_bound : forall legacy p cap xs, NoDup xs ->
      (forall x, In x xs -> fixed_length (p ++ [x]) = hash_msg legacy s (p ++ [x]) cap) -> length xs <= 5 ^ rounds.
    Proof.
      intros legacy p cap xs Hn Hx. destruct (parity p) as [He|(q & y & -> & He)].
      - destruct (fixed_first p [] He ltac:(cbn; lia)) as (st & L & E). destruct (message_first legacy p [] cap He ltac:(cbn; lia)) as (st' & L' & E').
        apply (line_coincide 0 1 0 st st' xs); auto. intros x X. specialize (Hx x X). rewrite E, E' in Hx. congruence.
      - destruct (fixed_second q y He) as (st & L & E). destruct (message_second legacy q y cap He) as (st' & L' & E').
        apply (line_coincide 1 2 0 st st' xs); auto. intros x X. specialize (Hx x X). rewrite <- !app_assoc in Hx. cbn [app] in Hx. rewrite E, E' in Hx. congruence.
    Qed.
    Theorem fixed_claim : forall legacy p cap xs, NoDup xs ->
      (forall x, In x xs -> fixed_length (p ++ [x]) = hash_msg legacy s (p ++ [x]) cap) -> (Z.of_nat (length xs) <= 5 ^ Z.of_nat rounds)%Z.
    Proof.
      intros legacy p cap xs Hn Hx. change 5%Z with (Z.of_nat 5). rewrite <- Nat2Z.inj_pow. apply inj_le. exact (fixed_bound legacy p cap xs Hn Hx).
    Qed.
    (** so they differ somewhere *)
    Lemma fixed_differs : forall legacy p cap xs, NoDup xs -> (5 ^ Z.of_nat rounds < Z.of_nat (length xs))%Z -> exists x h h',
      In x xs /\ fixed_length (p ++ [x]) = Ok h /\ hash_msg legacy s (p ++ [x]) cap = Ok h' /\ h <> h'.
    Proof.
      intros legacy p cap xs Hn Big.
      assert (V : forall x, exists h h', fixed_length (p ++ [x]) = Ok h /\ hash_msg legacy s (p ++ [x]) cap = Ok h').
      { intros x. destruct (parity p) as [He|(q & y & -> & He)].
        - destruct (fixed_first p [] He ltac:(cbn; lia)) as (st & L & E). destruct (message_first legacy p [] cap He ltac:(cbn; lia)) as (st' & L' & E').
          rewrite E, E'. eauto.
        - destruct (fixed_second q y He) as (st & L & E). destruct (message_second legacy q y cap He) as (st' & L' & E').
          rewrite <- !app_assoc. cbn [app]. rewrite E, E'. eauto. }
      set (same := fun x => match fixed_length (p ++ [x]), hash_msg legacy s (p ++ [x]) cap with Ok h, Ok h' => feqb h h' | _, _ => true end).
      destruct (forallb same xs) eqn:A.
      - exfalso. rewrite forallb_forall in A. assert (Q : (Z.of_nat (length xs) <= 5 ^ Z.of_nat rounds)%Z).
        { apply (fixed_claim legacy p cap xs Hn). intros x X. specialize (A x X). unfold same in A. destruct (V x) as (h & h' & E & E').
          rewrite E, E' in *. apply feqb_eq in A. congruence. }
        exact (Z.lt_irrefl _ (Z.lt_le_trans _ _ _ Big Q)).
      - assert (G : exists x, In x xs /\ same x = false).
        { clear - A. induction xs as [|x xs IH]; [discriminate|]. cbn [forallb] in A. destruct (same x) eqn:E.
          - destruct (IH A) as (y & Y & Z). exists y. split; [now right|exact Z].
          - exists x. split; [now left|exact E]. }
        destruct G as (x & X & G). destruct (V x) as (h & h' & E & E'). exists x, h, h'. split; [exact X|]. split; [exact E|]. split; [exact E'|].
        intros <-. unfold same in G. rewrite E, E', feqb_refl in G. discriminate.
    Qed.
  End Tables.
End Generic.

(** the leading coefficients, computed on integers *)
Section Compute.
  Context {F : Type} {FO : FieldOps F} {PF : PrimeField F}.
  Local Open Scope Z_scope.
  Definition z_first (p : Z) (m : list (list Z)) (v : list Z) : Z := nth 0 (Nat.iter 4 (z_full p m) v) 0.
  Definition z_distinct (p : Z) (m : list (list Z)) : bool :=
    let a := z_first p m [1; 0; 0] in let b := z_first p m [0; 1; 0] in let c := z_first p m [0; 0; 1] in
    z_nonzero p [a - b; a - c; b - c].

  Lemma z_distinct_of : forall (c : p128_constants F) m, pc_mds c = map (map of_Z) m -> z_distinct (modulus (F := F)) m = true -> distinct c.
  Proof.
    intros c m Em H. unfold z_distinct in H. cbn zeta in H. set (p := modulus (F := F)) in H.
    set (zu := fun i => map (fun j => if (j =? i)%nat then 1 else 0) (seq 0 3)).
    assert (U : forall i, (i < 3)%nat -> nth 0 (Nat.iter 4 (lead_full (pc_mds c)) (unit3 i)) fzero = of_Z (F := F) (z_first p m (zu i))).
    { intros i Hi. assert (E : unit3 (F := F) i = map of_Z (zu i)).
      { unfold unit3, zu. rewrite map_map. apply map_ext. intros j. destruct (j =? i)%nat; [now rewrite of_Z_1|now rewrite of_Z_0]. }
      rewrite E, Em, <- z_iter_of. unfold z_first. fold p. rewrite <- (of_Z_0 (F := F)). apply map_nth. }
    assert (D : forall i k, (i < 3)%nat -> (k < 3)%nat -> nth 0 (Nat.iter 4 (lead_full (pc_mds c)) (unit3 i)) fzero = nth 0 (Nat.iter 4 (lead_full (pc_mds c)) (unit3 k)) fzero ->
       (z_first p m (zu i) - z_first p m (zu k)) mod p = 0).
    { intros i k Hi Hk E. rewrite (U i Hi), (U k Hk) in E. apply Z.mod_divide; [unfold p; pose proof (modulus_gt_1 (F := F)); lia|].
      apply of_Z_eq_0. rewrite of_Z_sub, E. apply fsub_eq_0. reflexivity. }
    unfold z_nonzero in H. cbn [forallb] in H. rewrite !Bool.andb_true_iff in H. destruct H as (A & B & C & _).
    assert (S : forall x y, (x - y) mod p = 0 -> (y - x) mod p = 0).
    { intros x y E. replace (y - x) with (- (x - y)) by lia. apply Z.mod_opp_l_z; [unfold p; pose proof (modulus_gt_1 (F := F)); lia|exact E]. }
    intros i k Hi Hk Hik E. apply D in E; try assumption.
    destruct i as [|[|[|i]]]; [| | |lia]; (destruct k as [|[|[|k]]]; [| | |lia]); try (elim Hik; reflexivity);
      first [unfold zu in E; cbn [seq map Nat.eqb] in E; (rewrite E in A; discriminate A) || (rewrite E in B; discriminate B) || (rewrite E in C; discriminate C)
            |apply S in E; unfold zu in E; cbn [seq map Nat.eqb] in E; (rewrite E in A; discriminate A) || (rewrite E in B; discriminate B) || (rewrite E in C; discriminate C)].
  Qed.
End Compute.

Lemma bn256_distinct : distinct bn256_c.
Proof. apply (z_distinct_of bn256_c bn256_mds_Z); [reflexivity|]. vm_compute. reflexivity. Qed.
Lemma pasta_distinct : distinct pasta_constants.
Proof. apply (z_distinct_of pasta_constants pasta_mds_Z); [reflexivity|]. vm_compute. reflexivity. Qed.

Lemma bn254_power5 : forall x y : Fr, power5 x = power5 y -> x = y.
Proof. exact (proj1 (power5_bijective bn254_r_5)). Qed.
Lemma pallas_power5 : forall x y : Pallas, power5 x = power5 y -> x = y.
Proof. exact (proj1 (power5_bijective pallas_5)). Qed.

(** C73 *)
Theorem bn254_words : forall short s i k j st st' xs, cached_hash_spec short bn256_c = Ok s ->
  i < 3 -> k < 3 -> i <> k -> j < 3 -> length st = 3 -> length st' = 3 -> NoDup xs ->
  (forall x, In x xs -> nth j (hash_permute 3 s (with_word i st x)) fzero = nth j (hash_permute 3 s (with_word k st' x)) fzero) ->
  (Z.of_nat (length xs) <= 5 ^ 65)%Z.
Proof.
  intros short s i k j st st' xs Hs.
  exact (words_claim short bn256_c s 65 bn256_ok Hs bn256_fast bn256_distinct bn254_power5 (Nat.lt_0_succ 56) eq_refl i k j st st' xs).
Qed.
Theorem pallas_words : forall short s i k j st st' xs, cached_hash_spec short pasta_constants = Ok s ->
  i < 3 -> k < 3 -> i <> k -> j < 3 -> length st = 3 -> length st' = 3 -> NoDup xs ->
  (forall x, In x xs -> nth j (hash_permute 3 s (with_word i st x)) fzero = nth j (hash_permute 3 s (with_word k st' x)) fzero) ->
  (Z.of_nat (length xs) <= 5 ^ 64)%Z.
Proof.
  intros short s i k j st st' xs Hs.
  exact (words_claim short pasta_constants s 64 pasta_ok Hs pasta_fast pasta_distinct pallas_power5 (Nat.lt_0_succ 55) eq_refl i k j st st' xs).
Qed.
Theorem bn254_two_words : forall short s u v u' v' xs, cached_hash_spec short bn256_c = Ok s -> NoDup xs ->
  (forall x, In x xs -> hash_with_domain s (x, u) v = hash_with_domain s (u', x) v')
  \/ (forall x, In x xs -> hash_with_domain s (x, u) v = hash_with_domain s (u', v') x)
  \/ (forall x, In x xs -> hash_with_domain s (u, x) v = hash_with_domain s (u', v') x) ->
  (Z.of_nat (length xs) <= 5 ^ 65)%Z.
Proof.
  intros short s u v u' v' xs Hs.
  exact (two_words_claim short bn256_c s 65 bn256_ok Hs bn256_fast bn256_distinct bn254_power5 (Nat.lt_0_succ 56) eq_refl u v u' v' xs).
Qed.
Theorem bn254_swapped : forall short s b d xs, cached_hash_spec short bn256_c = Ok s -> NoDup xs ->
  (forall a, In a xs -> hash_with_domain s (a, b) d = hash_with_domain s (b, a) d) -> (Z.of_nat (length xs) <= 5 ^ 65)%Z.
Proof. intros short s b d xs Hs Hn H. exact (bn254_two_words short s b d b d xs Hs Hn (or_introl H)). Qed.
Theorem bn254_messages : forall short legacy s p y cap legacy' p' y' cap' xs, cached_hash_spec short bn256_c = Ok s ->
  Nat.even (length p) = true -> Nat.even (length p') = true -> length y <= 1 -> NoDup xs ->
  (forall x, In x xs -> hash_msg legacy s (p ++ x :: y) cap = hash_msg legacy' s (p' ++ [y'; x]) cap') ->
  (Z.of_nat (length xs) <= 5 ^ 65)%Z.
Proof.
  intros short legacy s p y cap legacy' p' y' cap' xs Hs.
  exact (messages_claim short bn256_c s 65 bn256_ok Hs bn256_fast bn256_distinct bn254_power5 (Nat.lt_0_succ 56) eq_refl legacy p y cap legacy' p' y' cap' xs).
Qed.

(** C74 *)
Theorem bn254_fixed : forall short legacy s p cap xs, cached_hash_spec short bn256_c = Ok s -> NoDup xs -> (5 ^ 65 < Z.of_nat (length xs))%Z ->
  exists x h h', In x xs /\ fixed_length s (p ++ [x]) = Ok h /\ hash_msg legacy s (p ++ [x]) cap = Ok h' /\ h <> h'.
Proof.
  intros short legacy s p cap xs Hs.
  exact (fixed_differs short bn256_c s 65 bn256_ok Hs bn256_fast bn256_distinct bn254_power5 (Nat.lt_0_succ 56) eq_refl legacy p cap xs).
Qed.
Lemma many_words : exists xs : list Fr, NoDup xs /\ (5 ^ 65 < Z.of_nat (length xs))%Z.
Proof. destruct (all_elements (F := Fr)) as (xs & Hn & E). exists xs. split; [exact Hn|]. rewrite E. reflexivity. Qed.
Lemma bn254_fixed_differs : forall short legacy s p cap, cached_hash_spec short bn256_c = Ok s -> exists x h h',
  fixed_length s (p ++ [x]) = Ok h /\ hash_msg legacy s (p ++ [x]) cap = Ok h' /\ h <> h'.
Proof.
  intros short legacy s p cap Hs. destruct many_words as (xs & Hn & Big).
  destruct (bn254_fixed short legacy s p cap xs Hs Hn Big) as (x & h & h' & _ & H). now exists x, h, h'.
Qed.
