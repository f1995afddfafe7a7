(** The fixed-length hash in a circuit against the message hash: the lemmas behind the theorems about circuits of
    PropertiesOrder.v. *)
From Coq Require Import ZArith NArith List Arith Lia.
From Verif Require Import Field ZpField Primes Rust ListAux Primitives Specs Bn256 BaseHash SpecHash Link Perm_proof BigSum Compact_proof BaseHash_proof Base_claims Const_proof
  Halo2 SeptVal_proof ChipUse Pow5 Built Pow5Use Gadget GadgetUse Trace_proof Pow5_claims Gadget_claims Order_claims ExamplesPow5.
Import ListNotations.
Local Open Scope nat_scope.

Section Generic.
  Context {F : Type} {FO : FieldOps F} {PF : PrimeField F}.

  (** the cached spec is a Poseidon spec *)
  Lemma cached_spec_ok : forall short (c : p128_constants F) s, constants_ok c -> cached_hash_spec short c = Ok s ->
    poseidon_spec 3 s /\ mds s = pc_mds c /\ mds_inv s = pc_mds_inv c.
  Proof.
    intros short c s (H1 & H2 & H3) Hs. unfold cached_hash_spec in Hs.
    destruct (compact_round_constants 8 (pc_partial_rounds c) (pc_mds c) (pc_round_constants c)) as [rc|] eqn:E;
      [|discriminate]. cbn in Hs. apply Ok_inj in Hs. subst s.
    destruct (compact_forall _ _ _ _ _ H1 H2 E) as [R1 R2]. split; [|split; reflexivity].
    split; [intros x; destruct short; [apply sbox_mul_power5|apply sbox_pow_power5]|]. split; [exact H1|]. split; [exact R1|].
    cbn [full_rounds partial_rounds round_constants Nat.div2]. lia.
  Qed.

  (** a layout fits some number of rows *)
  Lemma bounded : forall {A} (f : A -> nat) (l : list A), exists u, forall x, In x l -> f x < u.
  Proof.
    intros A f l. induction l as [|a l (u & H)]; [exists 0; intros x []|]. exists (S (f a) + u). intros x [->|X]; [lia|]. specialize (H x X). lia.
  Qed.
  Lemma fits_some : forall L : layout F, exists u, fits u L.
  Proof.
    intros L. destruct (bounded (fun '(_, r, _) => r) (lo_adv L)) as (a & Ha). destruct (bounded (fun '(_, r, _) => r) (lo_fix L)) as (b & Hb).
    destruct (bounded snd (lo_sel L)) as (d & Hd). destruct (bounded (fun x => length (snd x)) (lo_tables L)) as (e & He).
    exists (a + b + d + e). split; [|split; [|split]].
    - intros c r v X. specialize (Ha _ X). cbn in Ha. lia.
    - intros c r v X. specialize (Hb _ X). cbn in Hb. lia.
    - intros c r X. specialize (Hd _ X). cbn in Hd. lia.
    - intros c r X. specialize (He _ X). cbn in He. lia.
  Qed.
  Lemma grows_carries : forall (L L' : layout F) m w v, grows (layout_empty m) L -> grows L L' -> carries L w v -> carries L' w v.
  Proof.
    intros L L' m w v G0 G H. destruct (built_trace m L G0) as (rs & T). destruct (grows_trace L L' G rs T) as (rs' & new & copies & T' & S' & _).
    exact (carries_kept L rs L' (rs') new w v T T' S' H).
  Qed.
End Generic.

(** C74: no circuit with the fixed-length hash of these words has their message hash in the digest cell *)
Theorem gadget_differs : forall short legacy s p cap, cached_hash_spec short bn256_c = Ok s ->
  exists x v, hash_msg legacy s (p ++ [x]) cap = Ok v
  /\ forall state sbox rc_a rc_b (cs0 cs1 : cs Fr) cfg m L0 L1 L2 L3 L h msg out n adv,
     columns_ok 3 state sbox rc_a rc_b -> pow5_configure 3 2 s state sbox rc_a rc_b cs0 = (cfg, cs1) ->
     grows (layout_empty m) L0 -> circuit_hash_init 2 cfg (length msg) L0 = Ok (L1, h) -> grows L1 L2 ->
     words_in L2 msg -> circuit_hash 3 2 s cfg (length msg) h msg L2 = Ok (L3, out) ->
     grows L3 L -> fits n L -> gates_hold n L adv (cs_gates cs1) -> copies_hold L adv ->
     map (word_at L adv) msg = p ++ [x] -> word_at L adv out <> v.
Proof.
  intros short legacy s p cap Hs. destruct (bn254_fixed_differs short legacy s p cap Hs) as (x & h0 & v & E & E' & N).
  exists x, v. split; [exact E'|]. intros state sbox rc_a rc_b cs0 cs1 cfg m L0 L1 L2 L3 L h msg out n adv Hc Hcfg G0 H0 G1 HW H G Fn HG HC Em.
  destruct (cached_spec_ok short bn256_c s bn256_ok Hs) as (Hp & Hm & Hi). destruct bn256_mds_inverse as [I1 I2]. rewrite <- Hm, <- Hi in I1, I2.
  destruct (circuit_hash_sound_claim 3 s state sbox rc_a rc_b cs0 cs1 cfg m (length msg) L0 L1 L2 L3 L h msg out n adv
    Hp ltac:(lia) I1 I2 Hc Hcfg G0 H0 G1 HW eq_refl H G Fn HG HC) as [X _].
  intros Eo. apply N. unfold fixed_length in E. rewrite <- Em, map_length in E. cbn [Nat.sub] in X. rewrite X in E. apply Ok_inj in E. congruence.
Qed.

(** the caller's region: the words of a message in advice column 0 *)
Definition message_region {F} {FO : FieldOps F} (x : F) : Layouter F (acell F) := assign_region (assign_advice 0 0 (Some x)).
Definition fixed_host : cs Fr := enable_constant 6 cs_empty.

(** a circuit that hashes one given word *)
Lemma one_word_circuit : forall short s (x : Fr), cached_hash_spec short bn256_c = Ok s ->
  let cfg := fst (pow5_configure 3 2 s [0; 1; 2] 3 [0; 1; 2] [3; 4; 5] fixed_host) in
  let cs1 := snd (pow5_configure 3 2 s [0; 1; 2] 3 [0; 1; 2] [3; 4; 5] fixed_host) in
  exists L0 L1 L2 h w out n adv, grows (layout_empty cs1) L0 /\ circuit_hash_init 2 cfg 1 L0 = Ok (L1, h) /\ words_in L1 [w]
    /\ circuit_hash 3 2 s cfg 1 h [w] L1 = Ok (L2, out) /\ fits n L2 /\ gates_hold n L2 adv (cs_gates cs1) /\ copies_hold L2 adv
    /\ map (word_at L2 adv) [w] = [x].
Proof.
  intros short s x Hs cfg cs1.
  destruct (cached_spec_ok short bn256_c s bn256_ok Hs) as (Hp & Hm & Hi). destruct bn256_mds_inverse as [I1 I2]. rewrite <- Hm, <- Hi in I1, I2.
  assert (CO : columns_ok 3 [0; 1; 2] 3 [0; 1; 2] [3; 4; 5]) by (repeat split; try reflexivity; repeat (constructor; [cbn; lia|]); constructor).
  assert (CF : pow5_configure 3 2 s [0; 1; 2] 3 [0; 1; 2] [3; 4; 5] fixed_host = (cfg, cs1)) by apply surjective_pairing.
  destruct (message_region x (layout_empty cs1)) as [[L0 w]|] eqn:E0; [|discriminate E0].
  assert (G0 : grows (layout_empty cs1) L0) by (eapply grows_one; exact E0).
  assert (M0 : made (p5_selectors cfg) (p5_instruction 3 2 s cfg) L0 ([] ++ [])).
  { eapply made_region; [apply made_start| |exact E0|].
    - intros ri evs y q o H X. cbn in H. injection H as <- _. destruct X as [X|[]]. discriminate X.
    - injection E0 as <- _. reflexivity. }
  cbn [app] in M0.
  assert (C0 : carries L0 w x) by (injection E0 as <- <-; split; [cbn; lia|split; reflexivity]).
  assert (K0 : lo_const L0 <> None) by (injection E0 as <- _; discriminate).
  destruct (circuit_hash_complete_claim 3 s [0; 1; 2] 3 [0; 1; 2] [3; 4; 5] fixed_host cs1 cfg 1 L0 [] Hp ltac:(lia) I1 I2 CO CF M0 K0)
    as (L1 & h & E1 & M1 & G1 & K).
  pose proof (grows_carries L0 L1 cs1 w x G0 G1 C0) as C1.
  destruct (K L1 [] [w] [x] (grows_refl _) M1 eq_refl (Forall2_cons _ _ C1 (Forall2_nil _))) as [_ K2].
  destruct (K2 ltac:(lia)) as (L2 & out & E2 & M2 & G2 & C2 & K3). destruct (fits_some L2) as (n & Fn).
  destruct (K3 L2 [] n n (fun _ _ => fzero) (grows_refl _) M2 Fn (le_n n)) as (A & B & D & _); [intros a b []|intros gt r []|].
  exists L0, L1, L2, h, w, out, n, (honest n L2 (fun _ _ => fzero)). split; [exact G0|]. split; [exact E1|].
  split; [constructor; [apply C1|constructor]|]. split; [exact E2|]. split; [exact Fn|]. split; [exact A|]. split; [exact B|exact D].
Qed.

Theorem bn254_fixed_refuted : exists short legacy (s : spec Fr) m cap h h', cached_hash_spec short bn256_c = Ok s /\ m <> []
  /\ fixed_length s m = Ok h /\ hash_msg legacy s m cap = Ok h' /\ h <> h'.
Proof.
  destruct (cached_spec_exists true bn256_c bn256_ok) as [s Hs].
  destruct (bn254_fixed_differs true false s [] None Hs) as (x & h & h' & E & E' & N).
  exists true, false, s, [x], None, h, h'. split; [exact Hs|]. split; [discriminate|]. split; [exact E|]. split; [exact E'|exact N].
Qed.
Theorem gadget_refuted : exists short (s : spec Fr) cfg (cs0 cs1 : cs Fr) L0 L1 L2 h w out n adv v, cached_hash_spec short bn256_c = Ok s
  /\ pow5_configure 3 2 s [0; 1; 2] 3 [0; 1; 2] [3; 4; 5] cs0 = (cfg, cs1)
  /\ grows (layout_empty cs1) L0 /\ circuit_hash_init 2 cfg 1 L0 = Ok (L1, h) /\ words_in L1 [w] /\ circuit_hash 3 2 s cfg 1 h [w] L1 = Ok (L2, out)
  /\ fits n L2 /\ gates_hold n L2 adv (cs_gates cs1) /\ copies_hold L2 adv
  /\ hash_msg false s [word_at L2 adv w] None = Ok v /\ word_at L2 adv out <> v.
Proof.
  destruct (cached_spec_exists true bn256_c bn256_ok) as [s Hs].
  destruct (gadget_differs true false s [] None Hs) as (x & v & E & N).
  destruct (one_word_circuit true s x Hs) as (L0 & L1 & L2 & h & w & out & n & adv & G0 & H0 & W & H & Fn & HG & HC & Ew).
  assert (CO : columns_ok 3 [0; 1; 2] 3 [0; 1; 2] [3; 4; 5]) by (repeat split; try reflexivity; repeat (constructor; [cbn; lia|]); constructor).
  pose proof (surjective_pairing (pow5_configure 3 2 s [0; 1; 2] 3 [0; 1; 2] [3; 4; 5] fixed_host)) as CF.
  pose proof (N _ _ _ _ _ _ _ _ L0 L1 L1 L2 L2 h [w] out n adv CO CF G0 H0 (grows_refl _) W H (grows_refl _) Fn HG HC Ew) as D.
  do 14 eexists. split; [exact Hs|]. split; [exact CF|]. split; [exact G0|]. split; [exact H0|]. split; [exact W|]. split; [exact H|]. split; [exact Fn|].
  split; [exact HG|]. split; [exact HC|]. split; [|exact D]. cbn [map] in Ew. rewrite Ew. exact E.
Qed.
