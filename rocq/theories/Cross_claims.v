(** The lemmas behind the theorems of PropertiesCross.v. *)
From Coq Require Import ZArith NArith List Arith Lia Bool.
From Verif Require Import Field ZpField Primes Rust ListAux Primitives Specs Bn256 BaseHash SpecHash Link BaseHash_proof Const_proof Base_claims CollisionUse Collision_claims.
Import ListNotations.
Local Open Scope nat_scope.

Section Generic.
  Context {F : Type} {FO : FieldOps F} {PF : PrimeField F}.
  Add Field Ffield : f_field.

  Lemma two_word_blocks : forall (a b : F) m, m <> [] -> blocks 2 (pad_zeros 2 m) = blocks 2 (pad_zeros 2 [a; b]) -> m = [a; b] \/ (m = [a] /\ b = fzero).
  Proof.
    intros a b m N E. destruct (proj1 (proj1 (proj2 (commits_claim m [a; b]))) E) as [A|[[_ A]|[A _]]].
    - now left.
    - destruct m as [|x [|y m]]; [easy| |destruct m; discriminate A]. cbn in A. injection A as -> ->. now right.
    - discriminate A.
  Qed.

  Lemma two_word_message : forall c (a b d : F), message_hash c d [a; b] = two_word_hash c a b d.
  Proof. intros c a b d. unfold message_hash, two_word_hash, sponge_hash. cbn. repeat f_equal; ring. Qed.
  Lemma one_word_message : forall c (a d : F), message_hash c d [a] = two_word_hash c a fzero d.
  Proof. intros c a d. unfold message_hash, two_word_hash, sponge_hash. cbn. repeat f_equal; ring. Qed.

  Theorem cross_collision_claim : forall short legacy c s a b m cap (D h : F), constants_ok c -> cached_hash_spec short c = Ok s ->
    hash_with_domain s (a, b) D = Ok h -> hash_msg legacy s m cap = Ok h ->
    let P := poseidon_permutation c in
    let K := match cap with Some n => of_Z (Z.of_N n) | None => of_Z (Z.of_nat (length m) * (if legacy then 1 else 2 ^ 64)) end in
    let calls1 := hash_calls P 3 2 1 0 D [a; b] in
    let calls2 := hash_calls P 3 2 1 0 K m in
    (D = K /\ (m = [a; b] \/ (m = [a] /\ b = fzero)))
    \/ inner_collision P 3 2 1 calls1 calls2
    \/ capacity_preimage P 3 2 1 0 calls1 K
    \/ capacity_preimage P 3 2 1 0 calls2 D.
  Proof.
    intros short legacy c s a b m cap D h Hc Hs H1 H2. cbn zeta. rewrite (hash_msg_claim short legacy c s m cap Hc Hs) in H2.
    rewrite (proj1 (two_word_claim short legacy c s a b Hc Hs) D) in H1.
    destruct m as [|x m]; [discriminate H2|]. assert (N : x :: m <> []) by discriminate. set (w := x :: m) in *. clearbody w. clear x m.
    set (K := match cap with Some n => _ | None => _ end) in *. clearbody K.
    assert (E : message_hash c D [a; b] = message_hash c K w).
    { assert (E0 : two_word_hash c a b D = message_hash c K w) by congruence. rewrite <- E0. apply two_word_message. }
    destruct (sponge_collision (poseidon_permutation c) 3 2 1 0 D K [a; b] w (tables_length c Hc) ltac:(lia) ltac:(lia) ltac:(lia) ltac:(discriminate) N E)
      as [[A B]|[A|[A|[A|A]]]]; [|right; left|now right; left|now right; right; left|now right; right; right].
    - left. split; [exact A|]. apply two_word_blocks; [exact N|now symmetry].
    - apply last_is_inner; [| |exact A].
      + discriminate.
      + unfold hash_calls. pose proof (padded_nonempty 2 w ltac:(lia) N). destruct (blocks 2 (pad_zeros 2 w)); [easy|]. discriminate.
  Qed.

  (** which domains are apart from all messages *)
  Theorem separated_claim : forall short (legacy : bool) c s a b m (n : Z) (h : F), constants_ok c -> cached_hash_spec short c = Ok s ->
    (2 ^ 128 <= modulus (F := F))%Z -> (Z.of_nat (length m) < 2 ^ 64)%Z -> (0 <= n < modulus (F := F))%Z ->
    (n <> (if legacy then 1 else 2 ^ 64))%Z -> (n <> 2 * (if legacy then 1 else 2 ^ 64))%Z ->
    hash_with_domain s (a, b) (of_Z n) = Ok h -> hash_msg legacy s m None = Ok h ->
    let P := poseidon_permutation c in
    let K := of_Z (Z.of_nat (length m) * (if legacy then 1 else 2 ^ 64)) in
    let calls1 := hash_calls P 3 2 1 0 (of_Z n) [a; b] in
    let calls2 := hash_calls P 3 2 1 0 K m in
    inner_collision P 3 2 1 calls1 calls2
    \/ capacity_preimage P 3 2 1 0 calls1 K
    \/ capacity_preimage P 3 2 1 0 calls2 (of_Z n).
  Proof.
    intros short legacy c s a b m n h Hc Hs Hp Hm Hn N1 N2 H1 H2.
    destruct (cross_collision_claim short legacy c s a b m None (of_Z n) h Hc Hs H1 H2) as [[A B]|A]; [|exact A]. exfalso.
    destruct B as [->|[-> _]]; cbn [length] in *; destruct legacy; apply of_Z_inj in A; lia.
  Qed.

  Theorem clash_claim : forall short (legacy : bool) c s a b, constants_ok c -> cached_hash_spec short c = Ok s ->
    let u := (if legacy then 1 else 2 ^ 64)%Z in
    hash_with_domain (F := F) s (a, b) (of_Z (2 * u)) = hash_msg legacy s [a; b] None
    /\ hash_with_domain s (a, fzero) (of_Z u) = hash_msg legacy s [a] None.
  Proof.
    intros short legacy c s a b Hc Hs. cbn zeta. split.
    - rewrite (hash_msg_claim short legacy c s [a; b] None Hc Hs), (proj1 (two_word_claim short legacy c s a b Hc Hs)). now rewrite two_word_message.
    - rewrite (hash_msg_claim short legacy c s [a] None Hc Hs), (proj1 (two_word_claim short legacy c s a fzero Hc Hs)). rewrite one_word_message.
      cbn [length]. change (Z.of_nat 1) with 1%Z. now rewrite Z.mul_1_l.
  Qed.
End Generic.

Theorem domains_refutation : exists short legacy (s : spec Fr) a b D m h, cached_hash_spec short bn256_c = Ok s /\ D <> fzero
  /\ hash_with_domain s (a, b) D = Ok h /\ hash_msg legacy s m None = Ok h.
Proof.
  destruct (cached_spec_exists true bn256_c bn256_ok) as [s Hs].
  exists true, true, s, (of_Z 1), (of_Z 5), (of_Z 2), [of_Z 1; of_Z 5], (two_word_hash bn256_c (of_Z 1) (of_Z 5) (of_Z 2)). split; [exact Hs|].
  split; [apply feqb_neq; vm_compute; reflexivity|]. pose proof (proj1 (two_word_claim true true bn256_c s (of_Z 1) (of_Z 5) bn256_ok Hs) (of_Z 2)) as E.
  split; [exact E|]. rewrite <- (proj1 (clash_claim true true bn256_c s (of_Z 1) (of_Z 5) bn256_ok Hs)). exact E.
Qed.
