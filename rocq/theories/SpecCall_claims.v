(** The lemmas behind PropertiesSpecCall.v. *)
From Coq Require Import ZArith List Arith Lia Bool.
From Verif Require Import Field Rust ListAux BigSum Primitives Specs SpecHash Link Halo2 PermuteChip ChipUse Layout_proof Pow5 Built Pow5Use Pow5_claims Rounds_claims.
Import ListNotations.
Local Open Scope nat_scope.

Section Claims.
  Context {F : Type} {FO : FieldOps F} {PF : PrimeField F}.

  (** a spec with another number of partial rounds *)
  Definition with_rounds (s : spec F) (k : nat) : spec F :=
    {| full_rounds := full_rounds s; partial_rounds := k; sbox := sbox s; round_constants := round_constants s;
       mds := mds s; mds_inv := mds_inv s |}.

  Lemma permute_as : forall (s : spec F) cfg rp ws, let h := partial_rounds s / 2 in
    (2 * h < rp <-> rp mod 2 = 1) ->
    p5_permute_as s cfg rp ws = p5_permute (with_rounds s (2 * h + rp mod 2)) cfg ws.
  Proof.
    intros s cfg rp ws h H. unfold p5_permute, p5_permute_as, p5_permute_region, p5_permute_region_as.
    change (partial_rounds (with_rounds s ?k)) with k.
    change (half_full (with_rounds s ?k)) with (half_full s).
    pose proof (Nat.mod_upper_bound rp 2 ltac:(lia)) as B.
    assert (E1 : half_partial (with_rounds s (2 * h + rp mod 2)) = h).
    { unfold half_partial. cbn [partial_rounds with_rounds]. symmetry. apply (Nat.div_unique _ 2 h (rp mod 2)); lia. }
    assert (E2 : (2 * h + rp mod 2) mod 2 = rp mod 2).
    { symmetry. apply (Nat.mod_unique _ 2 h (rp mod 2)); lia. }
    assert (E3 : (h * 2 <? rp) = (h * 2 <? 2 * h + rp mod 2)).
    { destruct (Nat.ltb_spec (h * 2) rp), (Nat.ltb_spec (h * 2) (2 * h + rp mod 2)); try reflexivity; exfalso; lia. }
    rewrite E1, E2. change (half_partial s) with h. rewrite E3. reflexivity.
  Qed.

  (** C57 *)
  Theorem spec_call_claim : forall T (s : spec F) state sbox rc_a rc_b (cs0 cs1 : cs F) cfg rp m L0 L1 L ws out n adv,
    poseidon_spec T s -> 1 < T -> mat_prod_id T (mds s) (mds_inv s) -> mat_prod_id T (mds_inv s) (mds s) ->
    columns_ok T state sbox rc_a rc_b -> pow5_configure T (T - 1) s state sbox rc_a rc_b cs0 = (cfg, cs1) ->
    let h := partial_rounds s / 2 in let k := 2 * h + rp mod 2 in let half := Nat.div2 (full_rounds s) in
    (2 * h < rp <-> rp mod 2 = 1) -> half + k + half <= length (round_constants s) ->
    grows (layout_empty m) L0 -> words_in L0 ws -> length ws = T -> p5_permute_as s cfg rp ws L0 = Ok (L1, out) ->
    grows L1 L -> fits n L -> gates_hold n L adv (cs_gates cs1) -> copies_hold L adv ->
    map (word_at L adv) out = spec_permute (mds s) half k (round_constants s) (map (word_at L adv) ws).
  Proof.
    intros T s state sbox rc_a rc_b cs0 cs1 cfg rp m L0 L1 L ws out n adv (S1 & S2 & S3 & S4) HT I1 I2 Hc Hcfg h k half Hrp Hlen
      G0 W Hl E G1 Fi Ga Co.
    rewrite permute_as in E by exact Hrp.
    apply (pow5_sound_claim T (with_rounds s k) state sbox rc_a rc_b cs0 cs1 cfg m L0 L1 L ws out n adv); try assumption.
    split; [exact S1|]. split; [exact S2|]. split; [exact S3|exact Hlen].
  Qed.
  Theorem same_rounds_claim : forall (s : spec F) cfg ws, p5_permute_as s cfg (partial_rounds s) ws = p5_permute s cfg ws.
  Proof. reflexivity. Qed.

  Lemma index_none : forall {A} (l : list A) i, length l <= i -> index l i = Panic.
  Proof. intros A l i H. unfold index. apply nth_error_None in H. now rewrite H. Qed.
  Lemma rfold_inv : forall {A B} (f : B -> A -> Region F B) l a b ri r, In a l -> rfold f l b ri = Ok r ->
    exists b' r', f b' a ri = Ok r'.
  Proof.
    intros A B f l. induction l as [|x l IH]; intros a b ri r H E; [contradiction H|].
    cbn [rfold] in E. destruct H as [->|H].
    - apply rbind_inv in E. destruct E as (e & y & r' & E & _). eauto.
    - apply rbind_inv in E. destruct E as (e & y & r' & _ & E). eapply IH; eassumption.
  Qed.
  (** a table too short for the rounds of the call *)
  Theorem spec_call_short_claim : forall (s : spec F) cfg rp ws L, let h := partial_rounds s / 2 in
    0 < full_rounds s / 2 ->
    length (round_constants s) < full_rounds s / 2 + (2 * h + rp mod 2) + full_rounds s / 2 ->
    p5_permute_as s cfg rp ws L = Panic.
  Proof.
    intros s cfg rp ws L h Hf Hlen. unfold p5_permute_as, assign_region.
    destruct (p5_permute_region_as s cfg rp ws (length (lo_starts L))) as [r|] eqn:E; [|reflexivity]. exfalso.
    unfold p5_permute_region_as in E.
    do 4 (apply rbind_inv in E; destruct E as (? & ? & ? & _ & E)).
    apply (rfold_inv _ _ (full_rounds s / 2 - 1)) in E.
    - destruct E as (st & r' & E). unfold p5_full_round, p5_round in E.
      apply rbind_inv in E. destruct E as (? & ? & ? & _ & E).
      apply rbind_inv in E. destruct E as (? & ? & ? & E & _).
      unfold rlift in E. rewrite index_none in E by (unfold half_full, half_partial; lia). discriminate E.
    - apply in_seq. unfold half_full. lia.
  Qed.
End Claims.
