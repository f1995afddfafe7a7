(** Concrete instances that meet the hypotheses of PropertiesBase.v, and test vectors of the repository
    (poseidon-base/src/hash.rs and primitives tests).  These are tests, not proofs of the properties. *)
From Coq Require Import ZArith List Arith Lia Bool.
From Verif Require Import Field Rust ListAux ZpField Primes Primitives Specs Grain Mds Bn256 Pasta
  BaseHash SpecHash Link Perm_proof BigSum Mds_proof Grain_proof Const_proof Base_claims BaseHash_proof.
Import ListNotations.
Local Open Scope nat_scope.

Definition fr (z : Z) : Fr := of_Z z.

(** run with the cached spec of a build *)
Definition with_spec {A} (short : bool) (f : spec Fr -> result A) : result A :=
  do s <- cached_hash_spec short bn256_c; f s.

Definition is_value (r : result Fr) (z : Z) : bool :=
  match r with Ok x => Z.eqb (to_Z x) z | Panic => false end.

Lemma ex_shape : constants_ok bn256_c
  /\ exists s, cached_hash_spec true bn256_c = Ok s.
Proof. split; [exact bn256_ok|]. apply cached_spec_exists. exact bn256_ok. Qed.

Lemma ex_builds : constants_ok bn256_c
  /\ exists s1 s2, cached_hash_spec true bn256_c = Ok s1 /\ cached_hash_spec false bn256_c = Ok s2.
Proof.
  split; [exact bn256_ok|]. destruct (cached_spec_exists true bn256_c bn256_ok) as [s1 H1].
  destruct (cached_spec_exists false bn256_c bn256_ok) as [s2 H2].
  exists s1, s2. split; [exact H1|exact H2].
Qed.

Lemma ex_compact : exists s, compact_spec bn256_c = Ok s /\ length [fr 0; fr 1; fr 2] = 3.
Proof. destruct (compact_spec_exists bn256_c bn256_ok) as [s H]. eauto. Qed.

Lemma ex_spec3 : 0 < 2 < 3 /\ poseidon_spec 3 (p128_spec bn256_c) /\ length [fr 5; fr 7; fr 11] = 3.
Proof. split; [lia|]. split; [apply p128_spec_ok, bn256_ok|reflexivity]. Qed.

Lemma ex_sponge : 0 < 2 /\ 1 + 2 <= 3 /\ poseidon_spec 3 (p128_spec bn256_c)
  /\ (length [fr 5; fr 7; fr 11; fr 13] =? 0) || negb (length [fr 5; fr 7; fr 11; fr 13] mod 2 =? 0) = false.
Proof. split; [lia|]. split; [lia|]. split; [apply p128_spec_ok, bn256_ok|reflexivity]. Qed.

(** hash.rs tests: [hash_with_domain] and [hash_msg] vectors.  The build evaluates them with the virtual
    machine and stops if one is not [true]; they are tests and leave no proof behind (checking them
    again without the virtual machine takes half an hour). *)
Ltac evaluates_to_true t := let b := eval vm_compute in t in match b with true => exact I end.

Definition test_hash_1_2 : True := ltac:(evaluates_to_true (is_value (with_spec true (fun s => hash_with_domain s (fr 1, fr 2) (fr 0)))
  0x115cc0f5e7d690413df64c6b9662e9cf2a3617f2743245519e19607a4417189a)).

Definition test_hash_domain : True := ltac:(evaluates_to_true (is_value (with_spec false (fun s => hash_with_domain s (fr 1, fr 2) (fr 256)))
  0x05390df727dcce2ddb8faa3acb4798ad4e95b74de05e5cc7e40496658913ae85)).

Definition test_hash_msg : True := ltac:(evaluates_to_true (is_value (with_spec true (fun s => hash_msg false s [fr 1; fr 2; fr 50331648] (Some 45%N)))
  0x212b546f9c67c4fdcba131035644aa1d8baa8943f84b0a27e8f65b5bd532213e)).

Definition test_hash_msg4 : True := ltac:(evaluates_to_true (is_value (with_spec true (fun s => hash_msg false s [fr 1; fr 2; fr 3; fr 0] (Some 50%N)))
  0x066397f309d55f6caf6419cbb4120f5ada8e54254061b4b448359de388ab5526)).

(** the explicit-capacity collision on a concrete pair of different messages *)
Lemma ex_collision : Nat.odd (length [fr 1; fr 2; fr 3]) = true
  /\ [fr 1; fr 2; fr 3] <> [fr 1; fr 2; fr 3; fr 0]
  /\ with_spec true (fun s => hash_msg false s [fr 1; fr 2; fr 3; fr 0] (Some 50%N))
     = with_spec true (fun s => hash_msg false s [fr 1; fr 2; fr 3] (Some 50%N)).
Proof.
  split; [reflexivity|]. split; [intros H; discriminate H|].
  destruct (cached_spec_exists true bn256_c bn256_ok) as [s Hs].
  unfold with_spec. rewrite Hs. cbn [bind]. exact (explicit_cap_collision false s [fr 1; fr 2; fr 3] 50%N eq_refl).
Qed.

Lemma ex_modulus : (2 ^ 128 <= modulus (F := Fr))%Z.
Proof. vm_compute. discriminate. Qed.

(** a Grain sequence with its first outputs *)
Lemma ex_grain : grain_sequence (grain_seed 254 3 8 57) (lfsr (grain_seed 254 3 8 57))
  /\ exists l g, grain_take 80 16 (grain_new 254 3 8 57) = Some (l, g) /\ existsb (fun b => b) l = true
       /\ existsb negb l = true.
Proof.
  split; [apply lfsr_sequence, grain_seed_length|].
  eexists. eexists. split; [vm_compute; reflexivity|]. split; reflexivity.
Qed.

(** a generated matrix exists *)
Lemma ex_generated : exists g m mi, generate_mds (F := Fr) 10 80 3 0 g = Some (Ok (m, mi)).
Proof.
  destruct (gen_constants_mds _ _ _ _ _ _ _ _ _ bn256_generated) as [g E]. eauto.
Qed.

Lemma ex_indices : indices 3 2 [0; 2] /\ indices 3 2 [2; 1].
Proof. repeat split; auto; repeat constructor; cbn; intuition congruence. Qed.
