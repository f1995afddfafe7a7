(** The lemmas behind the theorems of PropertiesDist.v. *)
From Coq Require Import ZArith Znumtheory List Arith Lia Permutation.
From Verif Require Import Field ZpField Primes Rust ListAux BigSum Primitives Specs Mds Bn256 Pasta BaseHash SpecHash Link Perm_proof Sponge_proof Mds_proof Bij_proof
  BaseHash_proof Const_proof Base_claims Bij_claims PolyUse Poly_proof Poly_claims Diff_proof.
Import ListNotations.
Local Open Scope nat_scope.

Section Count.
  Context {F : Type} {FO : FieldOps F} {PF : PrimeField F}.
  Local Notation p := (Z.to_nat (modulus (F := F))).

  (** all words of the field *)
  Definition every : list F := map (fun n => of_Z (Z.of_nat n)) (seq 0 p).
  Lemma every_in : forall x, In x every.
  Proof.
    intros x. unfold every. apply in_map_iff. exists (Z.to_nat (to_Z x)). pose proof (to_Z_range x) as R. split.
    - rewrite Z2Nat.id by lia. apply of_to_Z.
    - apply in_seq. lia.
  Qed.
  Lemma every_length : length every = p.
  Proof. unfold every. now rewrite map_length, seq_length. Qed.
  Lemma every_NoDup : NoDup every.
  Proof.
    unfold every. pose proof (modulus_gt_1 (F := F)) as M. assert (H : forall n k, k + n <= p -> NoDup (map (fun n => of_Z (F := F) (Z.of_nat n)) (seq k n))).
    { induction n as [|n IH]; intros k Hk; cbn [seq map]; constructor; [|apply IH; lia].
      rewrite in_map_iff. intros (i & E & Hi). apply in_seq in Hi. apply (f_equal to_Z) in E. rewrite !to_of_Z, !Z.mod_small in E by lia. lia. }
    apply H. lia.
  Qed.
  Lemma NoDup_app_intro : forall {A} (l m : list A), NoDup l -> NoDup m -> (forall x, In x l -> In x m -> False) -> NoDup (l ++ m).
  Proof.
    intros A l m Hl Hm. induction Hl as [|x l Nx Hl IH]; intros H; cbn [app]; [exact Hm|]. constructor.
    - intros X. apply in_app_or in X. destruct X as [X|X]; [now apply Nx|]. apply (H x); [now left|exact X].
    - apply IH. intros y Y1 Y2. apply (H y); [now right|exact Y2].
  Qed.
  Lemma map_NoDup_on : forall {A B} (f : A -> B) l, (forall x y, In x l -> In y l -> f x = f y -> x = y) -> NoDup l -> NoDup (map f l).
  Proof.
    intros A B f l G Hy. induction Hy as [|a ys Na Hy IHy]; cbn [map]; constructor.
    - rewrite in_map_iff. intros (b & Eb & Ib). apply Na. rewrite <- (G b a); [exact Ib|now right|now left|exact Eb].
    - apply IHy. intros u v Iu Iv. apply G; now right.
  Qed.
  Lemma NoDup_list_prod : forall {A B} (l : list A) (m : list B), NoDup l -> NoDup m -> NoDup (list_prod l m).
  Proof.
    intros A B l m Hl Hm. induction Hl as [|x l Nx Hl IH]; cbn [list_prod]; [constructor|]. apply NoDup_app_intro.
    - clear - Hm. induction Hm as [|y m Ny Hm IH]; cbn [map]; constructor; [|exact IH]. rewrite in_map_iff. intros (z & E & Hz). congruence.
    - exact IH.
    - intros [a b] H1 H2. apply in_map_iff in H1. destruct H1 as (z & E & _). apply in_prod_iff in H2. destruct H2 as [H2 _]. congruence.
  Qed.

  (** lists of [n + 1] words of which each choice of the first [n] leaves at most [D] for the last *)
  Lemma last_word : forall D n (Q : list F -> Prop), (forall w, length w = n -> at_most D (fun x => Q (w ++ [x]))) ->
    forall xs, NoDup xs -> (forall x, In x xs -> length x = S n /\ Q x) -> length xs <= p ^ n * D.
  Proof.
    intros D. induction n as [|n IH]; intros Q H xs Hn Hx.
    - cbn [Nat.pow]. rewrite Nat.mul_1_l. rewrite <- (map_length (hd fzero) xs). apply (H []); [reflexivity| |].
      + assert (G : forall a b, In a xs -> In b xs -> hd fzero a = hd fzero b -> a = b).
        { intros a b Ia Ib E. destruct (Hx a Ia) as [A _], (Hx b Ib) as [B _]. destruct a as [|? [|]]; try discriminate A. destruct b as [|? [|]]; try discriminate B.
          cbn in E. congruence. }
        exact (map_NoDup_on _ _ G Hn).
      + intros h Hh. apply in_map_iff in Hh. destruct Hh as (x & <- & X). destruct (Hx x X) as [L X']. destruct x as [|? [|]]; try discriminate L. exact X'.
    - rewrite Nat.pow_succ_r', <- Nat.mul_assoc, <- every_length. apply (pigeons (hd fzero)); [exact Hn|intros; apply every_in|].
      intros h ys Hy Hh. rewrite every_length, <- (map_length (@tl F) ys). apply (IH (fun t => Q (h :: t))).
      + intros w Hw. apply (H (h :: w)). cbn. now rewrite Hw.
      + assert (G : forall a b, In a ys -> In b ys -> tl a = tl b -> a = b).
        { intros a b Ia Ib E. destruct (Hh a Ia) as [A1 A2], (Hh b Ib) as [B1 B2]. destruct (Hx a A1) as [A _], (Hx b B1) as [B _].
          destruct a; [discriminate A|]. destruct b; [discriminate B|]. cbn in *. congruence. }
        exact (map_NoDup_on _ _ G Hy).
      + intros t It. apply in_map_iff in It. destruct It as (y & <- & Iy). destruct (Hh y Iy) as [P1 P2]. destruct (Hx y P1) as [L X].
        destruct y; [discriminate L|]. cbn in *. subst. split; [lia|exact X].
  Qed.
End Count.

Section Tables.
  Context {F : Type} {FO : FieldOps F} {PF : PrimeField F}.
  Variables (short : bool) (c : p128_constants F) (s : spec F).
  Hypothesis Hc : constants_ok c.
  Hypothesis Hs : cached_hash_spec short c = Ok s.
  Local Notation q := (modulus (F := F)).
  Local Notation p := (Z.to_nat (modulus (F := F))).

  Section Balance.
    Hypothesis Hinj : forall x y, length x = 3 -> length y = 3 -> hash_permute 3 s x = hash_permute 3 s y -> x = y.
    Hypothesis Hsur : forall y, length y = 3 -> exists x, length x = 3 /\ hash_permute 3 s x = y.
    Hypothesis Hlen : forall x, length x = 3 -> length (hash_permute 3 s x) = 3.

    Theorem balance_claim : forall h, exists l, NoDup l /\ Z.of_nat (length l) = (q ^ 2)%Z
      /\ forall a b d, In (a, b, d) l <-> hash_with_domain s (a, b) d = Ok h.
    Proof using All.
      intros h. pose (ph := fun t : F * F * F => hash_permute 3 s [snd t; fst (fst t); snd (fst t)]).
      exists (filter (fun t => feqb (nth 0 (ph t) fzero) h) (list_prod (list_prod every every) every)).
      set (l := filter _ _). assert (Nl : NoDup l) by (apply NoDup_filter; repeat apply NoDup_list_prod; apply every_NoDup).
      assert (Il : forall t, In t l <-> nth 0 (ph t) fzero = h).
      { intros [[a b] d]. unfold l. rewrite filter_In, feqb_eq. split; [tauto|]. intros E. split; [|exact E]. repeat apply in_prod; apply every_in. }
      assert (Lp : forall t, length (ph t) = 3) by (intros; apply Hlen; reflexivity).
      split; [exact Nl|]. split.
      - rewrite <- (map_length (fun t => (nth 1 (ph t) fzero, nth 2 (ph t) fzero))).
        assert (E : length (map (fun t => (nth 1 (ph t) fzero, nth 2 (ph t) fzero)) l) = length (list_prod (every (F := F)) every)).
        { apply Permutation_length, NoDup_Permutation.
          - apply map_NoDup_on; [|exact Nl]. intros t t' H1 H2 E. apply Il in H1. apply Il in H2.
            assert (K : ph t = ph t').
            { pose proof (Lp t) as L. pose proof (Lp t') as L'. destruct (ph t) as [|x [|y [|z [|]]]]; try discriminate L.
              destruct (ph t') as [|x' [|y' [|z' [|]]]]; try discriminate L'. cbn in *. congruence. }
            unfold ph in K. apply Hinj in K; [|reflexivity..]. destruct t as [[? ?] ?], t' as [[? ?] ?]. cbn in K. congruence.
          - apply NoDup_list_prod; apply every_NoDup.
          - intros [u w]. split; intros _; [apply in_prod; apply every_in|]. apply in_map_iff.
            destruct (Hsur [h; u; w] eq_refl) as (x & L & E). destruct x as [|d [|a [|b [|]]]]; try discriminate L. exists (a, b, d).
            assert (K : ph (a, b, d) = [h; u; w]) by exact E. rewrite K. split; [reflexivity|]. apply Il. now rewrite K. }
        rewrite E, prod_length, every_length. pose proof (modulus_gt_1 (F := F)) as M. rewrite Nat2Z.inj_mul, Z2Nat.id by lia. ring.
      - intros a b d. rewrite Il, (domain_hash short c s Hc Hs). unfold ph. cbn [fst snd]. split; [intros ->; reflexivity|congruence].
    Qed.
  End Balance.

  Section Fibres.
    Variable rounds : nat.
    Hypothesis HF : fast c.
    Hypothesis Hp : 0 < pc_partial_rounds c.
    Hypothesis Hr : rounds = 8 + pc_partial_rounds c.

    Theorem pairs_claim : forall d h xs, NoDup xs -> (forall a b, In (a, b) xs -> hash_with_domain s (a, b) d = Ok h) ->
      (Z.of_nat (length xs) <= q * 5 ^ Z.of_nat rounds)%Z.
    Proof using All.
      intros d h xs Hn Hx. pose proof (modulus_gt_1 (F := F)) as M.
      assert (A : length xs <= length (every (F := F)) * 5 ^ rounds).
      { apply (pigeons fst); [exact Hn|intros; apply every_in|]. intros a ys Hy Hh. rewrite <- (map_length snd ys). apply Nat2Z.inj_le. rewrite Nat2Z.inj_pow.
        apply (preimages_claim short c s rounds Hc Hs HF Hp Hr a d h (map snd ys)).
        - apply map_NoDup_on; [|exact Hy]. intros [a1 b1] [a2 b2] H1 H2 E. apply Hh in H1. apply Hh in H2. cbn in *. destruct H1, H2. congruence.
        - right. left. intros b Hb. apply in_map_iff in Hb. destruct Hb as ([a' b'] & <- & Hb). destruct (Hh _ Hb) as [Hb' E]. cbn in E. subst a'. now apply Hx. }
      apply inj_le in A. rewrite every_length, Nat2Z.inj_mul, Nat2Z.inj_pow, Z2Nat.id in A by lia. exact A.
    Qed.
    Theorem messages_claim : forall legacy cap n h xs, NoDup xs ->
      (forall m, In m xs -> length m = S n /\ hash_msg legacy s m cap = Ok h) -> (Z.of_nat (length xs) <= q ^ Z.of_nat n * 5 ^ Z.of_nat rounds)%Z.
    Proof using All.
      intros legacy cap n h xs Hn Hx. pose proof (modulus_gt_1 (F := F)) as M.
      assert (A : length xs <= p ^ n * 5 ^ rounds).
      { apply (last_word (5 ^ rounds) n (fun m => hash_msg legacy s m cap = Ok h)); [|exact Hn|exact Hx]. intros w Hw ys Hy Hh.
        apply Nat2Z.inj_le. rewrite Nat2Z.inj_pow. destruct (Nat.even (length w)) eqn:Ev.
        - apply (message_preimages_claim short c s rounds Hc Hs HF Hp Hr legacy w fzero cap h ys Ev Hy). left. exact Hh.
        - destruct w as [|y w'] using rev_ind; [discriminate Ev|]. clear IHw'. rewrite app_length in Ev. cbn [length] in Ev. rewrite Nat.add_1_r, Nat.even_succ, <- Nat.negb_even in Ev.
          apply (message_preimages_claim short c s rounds Hc Hs HF Hp Hr legacy w' y cap h ys); [now destruct (Nat.even (length w'))|exact Hy|].
          right. right. intros x X. specialize (Hh x X). rewrite <- app_assoc in Hh. exact Hh. }
      apply inj_le in A. rewrite Nat2Z.inj_mul, !Nat2Z.inj_pow, Z2Nat.id in A by lia. exact A.
    Qed.
  End Fibres.
End Tables.

Lemma hash_permute_3 : forall {F} {FO : FieldOps F} {PF : PrimeField F} short (c : p128_constants F) s, constants_ok c -> cached_hash_spec short c = Ok s ->
  forall x, length x = 3 -> length (hash_permute 3 s x) = 3.
Proof.
  intros F FO PF short c s Hc Hs x Hx. rewrite (cached_permute short c s Hc Hs x Hx). destruct Hc as (_ & Hr & Hl). unfold hash_permute.
  now apply permute_length.
Qed.
Theorem bn254_balance : forall short s h, cached_hash_spec short bn256_c = Ok s -> exists l, NoDup l /\ Z.of_nat (length l) = (bn254_r ^ 2)%Z
  /\ forall a b d, In (a, b, d) l <-> hash_with_domain s (a, b) d = Ok h.
Proof.
  intros short s h Hs. destruct (bn256_bijective_claim short s Hs) as [I S].
  exact (balance_claim short bn256_c s bn256_ok Hs I S (hash_permute_3 short bn256_c s bn256_ok Hs) h).
Qed.
Theorem pallas_balance : forall short s h, cached_hash_spec short pasta_constants = Ok s -> exists l, NoDup l /\ Z.of_nat (length l) = (pallas_p ^ 2)%Z
  /\ forall a b d, In (a, b, d) l <-> hash_with_domain s (a, b) d = Ok h.
Proof.
  intros short s h Hs. destruct (pasta_bijective_claim short s Hs) as [I S].
  exact (balance_claim short pasta_constants s pasta_ok Hs I S (hash_permute_3 short pasta_constants s pasta_ok Hs) h).
Qed.
Lemma scale_102 : forall n t, (0 <= t)%Z -> (n <= t * 5 ^ 65)%Z -> (2 ^ 102 * n <= t * bn254_r)%Z.
Proof.
  intros n t Ht H. assert (B : (2 ^ 102 * 5 ^ 65 <= bn254_r)%Z) by (apply Z.leb_le; vm_compute; reflexivity).
  apply (Z.le_trans _ (2 ^ 102 * (t * 5 ^ 65))); [apply Z.mul_le_mono_nonneg_l; [apply Z.leb_le; reflexivity|exact H]|].
  rewrite Z.mul_assoc, (Z.mul_comm (2 ^ 102) t), <- Z.mul_assoc. now apply Z.mul_le_mono_nonneg_l.
Qed.
Theorem bn254_pairs : forall short s d h xs, cached_hash_spec short bn256_c = Ok s -> NoDup xs ->
  (forall a b, In (a, b) xs -> hash_with_domain s (a, b) d = Ok h) -> (2 ^ 102 * Z.of_nat (length xs) <= bn254_r ^ 2)%Z.
Proof.
  intros short s d h xs Hs Hn H. rewrite Z.pow_2_r. apply scale_102; [apply Z.leb_le; reflexivity|].
  exact (pairs_claim short bn256_c s bn256_ok Hs 65 bn256_fast (Nat.lt_0_succ 56) eq_refl d h xs Hn H).
Qed.
Theorem bn254_messages : forall short legacy s cap n h xs, cached_hash_spec short bn256_c = Ok s -> 0 < n -> NoDup xs ->
  (forall m, In m xs -> length m = n /\ hash_msg legacy s m cap = Ok h) -> (2 ^ 102 * Z.of_nat (length xs) <= bn254_r ^ Z.of_nat n)%Z.
Proof.
  intros short legacy s cap n h xs Hs Hn0 Hn H. destruct n as [|n]; [lia|]. rewrite Nat2Z.inj_succ, Z.pow_succ_r, (Z.mul_comm bn254_r) by lia.
  apply scale_102; [apply Z.pow_nonneg, Z.leb_le; reflexivity|].
  exact (messages_claim short bn256_c s bn256_ok Hs 65 bn256_fast (Nat.lt_0_succ 56) eq_refl legacy cap n h xs Hn H).
Qed.
