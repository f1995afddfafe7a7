(** The lemmas behind the theorems of PropertiesDiff.v. *)
From Coq Require Import ZArith Znumtheory List Arith Lia setoid_ring.Field.
From Verif Require Import Field ZpField Primes Rust ListAux Primitives Specs Mds Bn256 Pasta BaseHash SpecHash Link Perm_proof Sponge_proof BigSum Mds_proof Bij_proof
  BaseHash_proof Const_proof Base_claims Bij_claims SboxUse Sbox_proof Sbox_claims PolyUse Poly_proof Poly_claims DiffUse Diff_proof.
Import ListNotations.
Local Open Scope nat_scope.

Section Generic.
  Context {F : Type} {FO : FieldOps F} {PF : PrimeField F}.
  Add Field Ffield : f_field.

  Lemma five_not_zero : (5 < modulus (F := F))%Z -> of_Z (F := F) 5 <> fzero.
  Proof. intros H E. apply of_Z_eq_0 in E. apply Z.divide_pos_le in E; lia. Qed.

  Theorem sbox_claim : forall (s : spec F) k e xs, (5 < modulus (F := F))%Z -> (forall x, sbox s x = power5 x) -> k <> fzero -> NoDup xs ->
    (forall x, In x xs -> sbox s (fadd x k) = fadd (sbox s x) e) -> length xs <= 4.
  Proof.
    intros s k e xs H5 Hs Hk Hn Hx. apply (sbox_diff (five_not_zero H5) k e xs Hk Hn). intros x X. rewrite <- !Hs. now apply Hx.
  Qed.

  Lemma full_round_eq : forall T sb (m : list (list F)) st rc, (forall x, sb x = power5 x) -> square T m -> length st = T -> length rc = T ->
    full_round T sb m st rc = spec_full m st rc.
  Proof. intros T sb m st rc Hs Hm Hst Hrc. apply (fold_full_spec T sb m Hm Hs [rc] st); auto. Qed.
  Lemma part_round_eq : forall T sb (m : list (list F)) st rc, (forall x, sb x = power5 x) -> square T m -> length st = T -> length rc = T ->
    part_round T sb m st rc = spec_partial m st rc.
  Proof. intros T sb m st rc Hs Hm Hst Hrc. apply (fold_part_spec T sb m Hm Hs [rc] st); auto. Qed.
  Lemma follows_eq : forall T (f g : list F -> list F -> list F), (forall st rc, length st = T -> length rc = T -> f st rc = g st rc) ->
    (forall st rc, length (f st rc) = T) -> forall rcs ds x y, Forall (fun r => length r = T) rcs -> length x = T -> length y = T ->
    follows f rcs ds x y -> follows g rcs ds x y.
  Proof.
    intros T f g E L. induction rcs as [|rc rcs IH]; intros [|d ds] x y Hr Hx Hy H; cbn [follows] in *; auto.
    pose proof (Forall_inv Hr) as R1. pose proof (Forall_inv_tail Hr) as R2. cbn beta in R1. rewrite <- !E by assumption. split; [apply H|].
    apply IH; [exact R2|apply L|apply L|apply H].
  Qed.

  Section Trails.
    Variables (T : nat) (s : spec F).
    Hypothesis H5 : (5 < modulus (F := F))%Z.
    Hypothesis Hrel : rel_prime 5 (modulus (F := F) - 1).
    Hypothesis Hs : forall x, sbox s x = power5 x.
    Hypothesis Hm : square T (mds s).
    Hypothesis Hmin : minors T (mds s).
    Local Notation q := (modulus (F := F)).

    Lemma to_Z_bound : forall n k, n <= 4 ^ k * Z.to_nat q ^ (T - k) -> (Z.of_nat n <= 4 ^ Z.of_nat k * q ^ Z.of_nat (T - k))%Z.
    Proof.
      intros n k H. apply inj_le in H. rewrite Nat2Z.inj_mul, !Nat2Z.inj_pow, Z2Nat.id in H by lia. exact H.
    Qed.

    Theorem round_claim : forall rc d e xs, length rc = T -> length d = T -> length e = T -> NoDup xs ->
      (forall x, In x xs -> length x = T /\ full_round T (sbox s) (mds s) (vadd x d) rc = vadd (full_round T (sbox s) (mds s) x rc) e) ->
      (Z.of_nat (length xs) <= 4 ^ Z.of_nat (weight d) * q ^ Z.of_nat (T - weight d))%Z.
    Proof.
      intros rc d e xs Hrc Hd He Hn Hx. apply to_Z_bound. apply (full_diff T (mds s) Hm Hmin (proj1 (power5_bijective Hrel)) (five_not_zero H5) rc d e xs); auto.
      intros x X. destruct (Hx x X) as [Lx E]. split; [exact Lx|]. rewrite !full_round_eq in E; auto. rewrite vadd_length; congruence.
    Qed.
    Theorem full_trail_claim : forall rcs d ds xs, 2 <= length rcs -> 2 <= length ds -> Forall (fun r => length r = T) rcs -> Forall (fun r => length r = T) ds ->
      length d = T -> d <> repeat fzero T -> NoDup xs ->
      (forall x, In x xs -> length x = T /\ follows (full_round T (sbox s) (mds s)) rcs ds x (vadd x d)) ->
      (Z.of_nat (length xs) <= 4 ^ Z.of_nat (S (T / 2)) * q ^ Z.of_nat (T - S (T / 2)))%Z.
    Proof.
      intros rcs d ds xs L1 L2 Hr Hds Ld N Hn Hx. apply to_Z_bound.
      destruct rcs as [|r1 [|r2 rcs]]; cbn [length] in L1; try lia. destruct ds as [|d1 [|d2 ds]]; cbn [length] in L2; try lia.
      inversion Hr as [|? ? R1 Hr']; subst. inversion Hr' as [|? ? R2 Hr'']; subst. inversion Hds as [|? ? D1 Hd']; subst. inversion Hd' as [|? ? D2 Hd'']; subst.
      apply (full_trail (length d) (mds s) Hm Hmin (proj1 (power5_bijective Hrel)) (five_not_zero H5) r1 r2 rcs d d1 d2 ds xs); auto; [lia|].
      intros x X. destruct (Hx x X) as [Lx E]. split; [exact Lx|]. revert E. apply follows_eq with (T := length d); auto.
      - intros st rc A B. now apply full_round_eq.
      - intros st rc. apply full_round_length.
      - rewrite vadd_length; congruence.
    Qed.
    Theorem partial_trail_claim : forall n rcs d ds xs, no_quiet_trail T n (mds s) -> n <= length rcs -> n <= length ds ->
      Forall (fun r => length r = T) rcs -> Forall (fun r => length r = T) ds -> length d = T -> d <> repeat fzero T -> NoDup xs ->
      (forall x, In x xs -> length x = T /\ follows (part_round T (sbox s) (mds s)) rcs ds x (vadd x d)) ->
      (Z.of_nat (length xs) <= 4 * q ^ Z.of_nat (T - 1))%Z.
    Proof.
      intros n rcs d ds xs Hq L1 L2 Hr Hds Ld N Hn Hx. change (4 * q ^ Z.of_nat (T - 1))%Z with (4 ^ Z.of_nat 1 * q ^ Z.of_nat (T - 1))%Z. apply to_Z_bound.
      apply (partial_trail T (mds s) Hm Hmin (proj1 (power5_bijective Hrel)) (five_not_zero H5) n rcs ds d xs); auto.
      intros x X. destruct (Hx x X) as [Lx E]. split; [exact Lx|]. revert E. apply follows_eq with (T := T); auto.
      - intros st rc A B. now apply part_round_eq.
      - intros st rc. apply part_round_length.
      - rewrite vadd_length; congruence.
    Qed.
  End Trails.

  Theorem differential_claim : forall T (s : spec F) st v j k e xs, (5 < modulus (F := F))%Z -> poseidon_spec T s -> length st = T -> length v = T ->
    0 < 2 * Nat.div2 (full_rounds s) + partial_rounds s ->
    nth j (lead_permute (mds s) (Nat.div2 (full_rounds s)) (partial_rounds s) v) fzero <> fzero -> k <> fzero -> NoDup xs ->
    (forall x, In x xs -> nth j (hash_permute T s (on_line st v (fadd x k))) fzero = fadd (nth j (hash_permute T s (on_line st v x)) fzero) e) ->
    length xs < 5 ^ (2 * Nat.div2 (full_rounds s) + partial_rounds s).
  Proof.
    intros T s st v j k e xs H5 Hp Hs Hv H0 N Hk Hn Hx. pose proof Hp as (_ & (Hm & _) & Hr & Hl).
    apply (permute_differential T (mds s) Hm _ _ (round_constants s) st v j k e xs); auto; [now apply five_not_zero|lia|].
    assert (A : forall x, hash_permute T s (on_line st v x) = textbook s (on_line st v x)).
    { intros x. apply hash_permute_textbook; [exact Hp|]. unfold on_line. rewrite vadd_length; rewrite ?map_length; congruence. }
    intros x X. specialize (Hx x X). rewrite !A in Hx. exact Hx.
  Qed.

  Section Tables.
    Variables (short : bool) (c : p128_constants F) (s : spec F) (rounds : nat).
    Hypothesis H5 : (5 < modulus (F := F))%Z.
    Hypothesis Hc : constants_ok c.
    Hypothesis Hs : cached_hash_spec short c = Ok s.
    Hypothesis HF : fast c.
    Hypothesis Hp : 0 < pc_partial_rounds c.
    Hypothesis Hr : rounds = 8 + pc_partial_rounds c.

    Lemma cached_parts : (forall x, sbox s x = power5 x) /\ mds s = pc_mds c.
    Proof.
      clear - PF Hs. unfold cached_hash_spec in Hs. destruct (compact_round_constants _ _ _ _) as [rc|]; [|discriminate]. cbn [bind] in Hs.
      assert (E : s = {| full_rounds := 8; partial_rounds := pc_partial_rounds c; sbox := if short then sbox_mul else sbox_pow;
        round_constants := rc; mds := pc_mds c; mds_inv := pc_mds_inv c |}) by congruence. rewrite E. cbn [sbox mds]. split; [|reflexivity].
      intros x. destruct short; unfold sbox_mul, sbox_pow, power5; cbn zeta; ring.
    Qed.

    Lemma word_differential : forall i j st k e xs, i < 3 -> j < 3 -> length st = 3 -> k <> fzero -> NoDup xs ->
      (forall x, In x xs -> nth j (hash_permute 3 s (with_word i st (fadd x k))) fzero = fadd (nth j (hash_permute 3 s (with_word i st x)) fzero) e) ->
      length xs < 5 ^ rounds.
    Proof.
      intros i j st k e xs Hi Hj Hst Hk Hn Hx. pose proof Hc as ((Hm & Hm') & Hrc & Hl). destruct HF as (N0 & N1 & N2).
      assert (Lw : length (with_word i st fzero) = 3) by (rewrite with_word_length; lia).
      destruct (pc_partial_rounds c) as [|p] eqn:Ep; [lia|]. rewrite Hr. change (8 + S p) with (2 * 4 + S p).
      apply (permute_differential 3 (pc_mds c) Hm 4 (S p) (pc_round_constants c) (with_word i st fzero) (unit3 i) j k e xs); [now apply five_not_zero|exact Hrc|lia|lia|exact Lw|reflexivity| |exact Hk|exact Hn|].
      - exact (lead_nonzero 3 (pc_mds c) Hm 4 p (unit3 i) j ltac:(lia) eq_refl (N0 i Hi) N1 (N2 j Hj)).
      - assert (A : forall x, hash_permute 3 s (with_word i st x) = spec_permute (pc_mds c) 4 (S p) (pc_round_constants c) (on_line (with_word i st fzero) (unit3 i) x)).
        { intros x. assert (L : length (with_word i st x) = 3) by (rewrite with_word_length; lia).
          rewrite (proj1 (cached_agrees short c s Hc Hs _ L)), (word_line i st x Hi Hst). unfold poseidon_permutation. now rewrite Ep. }
        intros x X. specialize (Hx x X). rewrite !A in Hx. exact Hx.
    Qed.

    Theorem hash_differential_claim : forall u v k e xs, k <> fzero -> NoDup xs ->
      (forall x, In x xs -> exists h, hash_with_domain s (x, u) v = Ok h /\ hash_with_domain s (fadd x k, u) v = Ok (fadd h e))
      \/ (forall x, In x xs -> exists h, hash_with_domain s (u, x) v = Ok h /\ hash_with_domain s (u, fadd x k) v = Ok (fadd h e))
      \/ (forall x, In x xs -> exists h, hash_with_domain s (u, v) x = Ok h /\ hash_with_domain s (u, v) (fadd x k) = Ok (fadd h e)) ->
      (Z.of_nat (length xs) < 5 ^ Z.of_nat rounds)%Z.
    Proof.
      intros u v k e xs Hk Hn H. change 5%Z with (Z.of_nat 5). rewrite <- Nat2Z.inj_pow. apply inj_lt.
      assert (K : forall h a b d a' b' d', hash_with_domain s (a, b) d = Ok h -> hash_with_domain s (a', b') d' = Ok (fadd h e) ->
        nth 0 (hash_permute 3 s [d'; a'; b']) fzero = fadd (nth 0 (hash_permute 3 s [d; a; b]) fzero) e).
      { intros h a b d a' b' d' E1 E2. rewrite (domain_hash short c s Hc Hs) in E1, E2. congruence. }
      destruct H as [H|[H|H]].
      - apply (word_differential 1 0 [v; fzero; u] k e xs); try lia; auto. intros x X. destruct (H x X) as (h & E1 & E2). exact (K _ _ _ _ _ _ _ E1 E2).
      - apply (word_differential 2 0 [v; u; fzero] k e xs); try lia; auto. intros x X. destruct (H x X) as (h & E1 & E2). exact (K _ _ _ _ _ _ _ E1 E2).
      - apply (word_differential 0 0 [fzero; u; v] k e xs); try lia; auto. intros x X. destruct (H x X) as (h & E1 & E2). exact (K _ _ _ _ _ _ _ E1 E2).
    Qed.

    Theorem message_differential_claim : forall legacy p y cap k e xs, Nat.even (length p) = true -> k <> fzero -> NoDup xs ->
      (forall x, In x xs -> exists h, hash_msg legacy s (p ++ [x]) cap = Ok h /\ hash_msg legacy s (p ++ [fadd x k]) cap = Ok (fadd h e))
      \/ (forall x, In x xs -> exists h, hash_msg legacy s (p ++ [x; y]) cap = Ok h /\ hash_msg legacy s (p ++ [fadd x k; y]) cap = Ok (fadd h e))
      \/ (forall x, In x xs -> exists h, hash_msg legacy s (p ++ [y; x]) cap = Ok h /\ hash_msg legacy s (p ++ [y; fadd x k]) cap = Ok (fadd h e)) ->
      (Z.of_nat (length xs) < 5 ^ Z.of_nat rounds)%Z.
    Proof.
      intros legacy p y cap k e xs Hev Hk Hn H. change 5%Z with (Z.of_nat 5). rewrite <- Nat2Z.inj_pow. apply inj_lt.
      destruct (pairs_exist c rounds Hp Hr p Hev) as (bs & Ep & Hb). assert (NE : forall u t, p ++ u :: t <> []) by (intros; destruct p; discriminate).
      assert (A : forall a b d : F, fadd a (fadd b d) = fadd (fadd a b) d) by (intros; ring).
      destruct H as [H|[H|H]].
      - destruct (message_last short c s rounds Hc Hs Hp Hr legacy (length p + 1) cap bs Hb) as (st & L & E). rewrite <- (map_length (fadd (nth 1 st fzero)) xs).
        apply (word_differential 1 0 [nth 0 st fzero; fzero; fadd (nth 2 st fzero) fzero] k e); try lia; auto using shift_nodup.
        intros z Hz. apply in_map_iff in Hz. destruct Hz as (x & <- & X). destruct (H x X) as (h & H1 & H2).
        rewrite (E (p ++ [x]) x fzero) in H1; [|now rewrite app_length|apply NE|exact (proj1 (last_block c rounds Hp Hr p bs x fzero Ep Hb))].
        rewrite (E (p ++ [fadd x k]) (fadd x k) fzero) in H2; [|now rewrite app_length|apply NE|exact (proj1 (last_block c rounds Hp Hr p bs (fadd x k) fzero Ep Hb))].
        rewrite A in H2. unfold with_word. cbn [firstn skipn app]. congruence.
      - destruct (message_last short c s rounds Hc Hs Hp Hr legacy (length p + 2) cap bs Hb) as (st & L & E). rewrite <- (map_length (fadd (nth 1 st fzero)) xs).
        apply (word_differential 1 0 [nth 0 st fzero; fzero; fadd (nth 2 st fzero) y] k e); try lia; auto using shift_nodup.
        intros z Hz. apply in_map_iff in Hz. destruct Hz as (x & <- & X). destruct (H x X) as (h & H1 & H2).
        rewrite (E (p ++ [x; y]) x y) in H1; [|now rewrite app_length|apply NE|exact (proj2 (last_block c rounds Hp Hr p bs x y Ep Hb))].
        rewrite (E (p ++ [fadd x k; y]) (fadd x k) y) in H2; [|now rewrite app_length|apply NE|exact (proj2 (last_block c rounds Hp Hr p bs (fadd x k) y Ep Hb))].
        rewrite A in H2. unfold with_word. cbn [firstn skipn app]. congruence.
      - destruct (message_last short c s rounds Hc Hs Hp Hr legacy (length p + 2) cap bs Hb) as (st & L & E). rewrite <- (map_length (fadd (nth 2 st fzero)) xs).
        apply (word_differential 2 0 [nth 0 st fzero; fadd (nth 1 st fzero) y; fzero] k e); try lia; auto using shift_nodup.
        intros z Hz. apply in_map_iff in Hz. destruct Hz as (x & <- & X). destruct (H x X) as (h & H1 & H2).
        rewrite (E (p ++ [y; x]) y x) in H1; [|now rewrite app_length|apply NE|exact (proj2 (last_block c rounds Hp Hr p bs y x Ep Hb))].
        rewrite (E (p ++ [y; fadd x k]) y (fadd x k)) in H2; [|now rewrite app_length|apply NE|exact (proj2 (last_block c rounds Hp Hr p bs y (fadd x k) Ep Hb))].
        rewrite A in H2. unfold with_word. cbn [firstn skipn app]. congruence.
    Qed.
  End Tables.
End Generic.

(** the permutations in use *)
Section Use.
  Context {F : Type} {FO : FieldOps F} {PF : PrimeField F}.
  Lemma tables_full_trail : forall short (c : p128_constants F) s, (5 < modulus (F := F))%Z -> rel_prime 5 (modulus (F := F) - 1) -> constants_ok c -> minors 3 (pc_mds c) ->
    cached_hash_spec short c = Ok s -> forall rcs d ds xs, 2 <= length rcs -> 2 <= length ds -> Forall (fun r => length r = 3) rcs -> Forall (fun r => length r = 3) ds ->
    length d = 3 -> d <> repeat fzero 3 -> NoDup xs ->
    (forall x, In x xs -> length x = 3 /\ follows (full_round 3 (sbox s) (mds s)) rcs ds x (vadd x d)) ->
    (Z.of_nat (length xs) <= 16 * modulus (F := F))%Z.
  Proof.
    intros short c s H5 Hrel (Hm & _) Hmin Hs rcs d ds xs L1 L2 Hr Hds Ld N Hn Hx. destruct (cached_parts short c s Hs) as [Hb Em].
    pose proof (full_trail_claim 3 s H5 Hrel Hb ltac:(rewrite Em; exact Hm) ltac:(rewrite Em; exact Hmin) rcs d ds xs L1 L2 Hr Hds Ld N Hn Hx) as Q.
    change (Z.of_nat (S (3 / 2))) with 2%Z in Q. change (Z.of_nat (3 - S (3 / 2))) with 1%Z in Q. rewrite Z.pow_1_r in Q. exact Q.
  Qed.
  Lemma tables_partial_trail : forall short (c : p128_constants F) s, (5 < modulus (F := F))%Z -> rel_prime 5 (modulus (F := F) - 1) -> constants_ok c -> minors 3 (pc_mds c) ->
    no_quiet_trail 3 3 (pc_mds c) ->
    cached_hash_spec short c = Ok s -> forall rcs d ds xs, 3 <= length rcs -> 3 <= length ds -> Forall (fun r => length r = 3) rcs -> Forall (fun r => length r = 3) ds ->
    length d = 3 -> d <> repeat fzero 3 -> NoDup xs ->
    (forall x, In x xs -> length x = 3 /\ follows (part_round 3 (sbox s) (mds s)) rcs ds x (vadd x d)) ->
    (Z.of_nat (length xs) <= 4 * modulus (F := F) ^ 2)%Z.
  Proof.
    intros short c s H5 Hrel (Hm & _) Hmin Hq Hs rcs d ds xs L1 L2 Hr Hds Ld N Hn Hx. destruct (cached_parts short c s Hs) as [Hb Em].
    pose proof (partial_trail_claim 3 s H5 Hrel Hb ltac:(rewrite Em; exact Hm) ltac:(rewrite Em; exact Hmin) 3 rcs d ds xs ltac:(rewrite Em; exact Hq) L1 L2 Hr Hds Ld N Hn Hx) as Q.
    exact Q.
  Qed.
End Use.

Theorem bn254_full_trail : forall short s, cached_hash_spec short bn256_c = Ok s ->
  forall rcs d ds xs, 2 <= length rcs -> 2 <= length ds -> Forall (fun r => length r = 3) rcs -> Forall (fun r => length r = 3) ds ->
  length d = 3 -> d <> repeat fzero 3 -> NoDup xs ->
  (forall x, In x xs -> length x = 3 /\ follows (full_round 3 (sbox s) (mds s)) rcs ds x (vadd x d)) ->
  (Z.of_nat (length xs) <= 16 * bn254_r)%Z.
Proof. intros short s Hs. exact (tables_full_trail short bn256_c s eq_refl bn254_r_5 bn256_ok bn256_minors Hs). Qed.
Theorem bn254_partial_trail : forall short s, cached_hash_spec short bn256_c = Ok s ->
  forall rcs d ds xs, 3 <= length rcs -> 3 <= length ds -> Forall (fun r => length r = 3) rcs -> Forall (fun r => length r = 3) ds ->
  length d = 3 -> d <> repeat fzero 3 -> NoDup xs ->
  (forall x, In x xs -> length x = 3 /\ follows (part_round 3 (sbox s) (mds s)) rcs ds x (vadd x d)) ->
  (Z.of_nat (length xs) <= 4 * bn254_r ^ 2)%Z.
Proof. intros short s Hs. exact (tables_partial_trail short bn256_c s eq_refl bn254_r_5 bn256_ok bn256_minors bn254_trail Hs). Qed.
Lemma bn254_scale : forall n, (n < 5 ^ 65)%Z -> (2 ^ 102 * n < bn254_r)%Z.
Proof.
  intros n H. assert (B : (2 ^ 102 * 5 ^ 65 < bn254_r)%Z) by reflexivity. apply (Z.lt_trans _ (2 ^ 102 * 5 ^ 65)); [|exact B].
  apply Z.mul_lt_mono_pos_l; [reflexivity|exact H].
Qed.
Theorem bn254_hash_differential : forall short s u v k e xs, cached_hash_spec short bn256_c = Ok s -> k <> fzero -> NoDup xs ->
  (forall x, In x xs -> exists h, hash_with_domain s (x, u) v = Ok h /\ hash_with_domain s (fadd x k, u) v = Ok (fadd h e))
  \/ (forall x, In x xs -> exists h, hash_with_domain s (u, x) v = Ok h /\ hash_with_domain s (u, fadd x k) v = Ok (fadd h e))
  \/ (forall x, In x xs -> exists h, hash_with_domain s (u, v) x = Ok h /\ hash_with_domain s (u, v) (fadd x k) = Ok (fadd h e)) ->
  (Z.of_nat (length xs) < 5 ^ 65)%Z /\ (2 ^ 102 * Z.of_nat (length xs) < bn254_r)%Z.
Proof.
  intros short s u v k e xs Hs Hk Hn H.
  pose proof (hash_differential_claim short bn256_c s 65 eq_refl bn256_ok Hs bn256_fast (Nat.lt_0_succ 56) eq_refl u v k e xs Hk Hn H) as Q.
  split; [exact Q|]. apply bn254_scale. exact Q.
Qed.
Theorem bn254_message_differential : forall short legacy s p y cap k e xs, cached_hash_spec short bn256_c = Ok s -> Nat.even (length p) = true -> k <> fzero -> NoDup xs ->
  (forall x, In x xs -> exists h, hash_msg legacy s (p ++ [x]) cap = Ok h /\ hash_msg legacy s (p ++ [fadd x k]) cap = Ok (fadd h e))
  \/ (forall x, In x xs -> exists h, hash_msg legacy s (p ++ [x; y]) cap = Ok h /\ hash_msg legacy s (p ++ [fadd x k; y]) cap = Ok (fadd h e))
  \/ (forall x, In x xs -> exists h, hash_msg legacy s (p ++ [y; x]) cap = Ok h /\ hash_msg legacy s (p ++ [y; fadd x k]) cap = Ok (fadd h e)) ->
  (Z.of_nat (length xs) < 5 ^ 65)%Z /\ (2 ^ 102 * Z.of_nat (length xs) < bn254_r)%Z.
Proof.
  intros short legacy s p y cap k e xs Hs He Hk Hn H.
  pose proof (message_differential_claim short bn256_c s 65 eq_refl bn256_ok Hs bn256_fast (Nat.lt_0_succ 56) eq_refl legacy p y cap k e xs He Hk Hn H) as Q.
  split; [exact Q|]. apply bn254_scale. exact Q.
Qed.
Theorem bn254_differential : forall short s i j st k e xs, cached_hash_spec short bn256_c = Ok s -> i < 3 -> j < 3 -> length st = 3 -> k <> fzero -> NoDup xs ->
  (forall x, In x xs -> nth j (hash_permute 3 s (with_word i st (fadd x k))) fzero = fadd (nth j (hash_permute 3 s (with_word i st x)) fzero) e) ->
  length xs < 5 ^ 65.
Proof. intros short s i j st k e xs Hs. exact (word_differential short bn256_c s 65 eq_refl bn256_ok Hs bn256_fast (Nat.lt_0_succ 56) eq_refl i j st k e xs). Qed.
Theorem pallas_differential : forall short s i j st k e xs, cached_hash_spec short pasta_constants = Ok s -> i < 3 -> j < 3 -> length st = 3 -> k <> fzero -> NoDup xs ->
  (forall x, In x xs -> nth j (hash_permute 3 s (with_word i st (fadd x k))) fzero = fadd (nth j (hash_permute 3 s (with_word i st x)) fzero) e) ->
  length xs < 5 ^ 64.
Proof. intros short s i j st k e xs Hs. exact (word_differential short pasta_constants s 64 eq_refl pasta_ok Hs pasta_fast (Nat.lt_0_succ 55) eq_refl i j st k e xs). Qed.
