(** The lemmas behind the theorems of PropertiesSbox.v. *)
From Coq Require Import ZArith Znumtheory List Arith Lia.
From Verif Require Import Field ZpField Primes Rust ListAux Primitives Specs Mds Bn256 Pasta BaseHash SpecHash Link Perm_proof BigSum Mds_proof Bij_proof
  BaseHash_proof Const_proof Base_claims Bij_claims SboxUse Sbox_proof.
Import ListNotations.
Local Open Scope nat_scope.

Section Generic.
  Context {F : Type} {FO : FieldOps F} {PF : PrimeField F}.

  Theorem branch_claim : forall tries fuel T select g (m mi : list (list F)),
    generate_mds tries fuel T select g = Some (Ok (m, mi)) -> square T m ->
    forall v, length v = T -> v <> repeat fzero T -> T + 1 <= weight v + weight (mat_vec m v).
  Proof.
    intros tries fuel T select g m mi E Hm v Hv N. apply branch; auto. exact (generate_mds_minors _ _ _ _ _ _ _ E).
  Qed.

  Theorem active_claim : forall T n (s : spec F),
    rel_prime 5 (modulus (F := F) - 1) -> poseidon_spec T s ->
    (forall k rows cols, indices T k rows -> indices T k cols ->
      exists inv, mat_prod_id k (submatrix (mds s) rows cols) inv /\ mat_prod_id k inv (submatrix (mds s) rows cols)) ->
    0 < n -> no_quiet_trail T n (mds s) ->
    forall x y, length x = T -> length y = T -> x <> y ->
    2 * ((T + 1) * (Nat.div2 (full_rounds s) / 2)) + partial_rounds s / n
      <= differences (sbox_inputs (mds s) (Nat.div2 (full_rounds s)) (partial_rounds s) (round_constants s) x)
                     (sbox_inputs (mds s) (Nat.div2 (full_rounds s)) (partial_rounds s) (round_constants s) y).
  Proof.
    intros T n s H5 (_ & Hm & Hr & Hl) Hmin Hn Hq x y Hx Hy N.
    apply (active T (mds s) Hm Hmin (proj1 (power5_bijective H5)) n Hn Hq); assumption.
  Qed.

  Lemma tables_active : forall c, rel_prime 5 (modulus (F := F) - 1) -> constants_ok c -> minors 3 (pc_mds c) -> no_quiet_trail 3 3 (pc_mds c) ->
    forall x y, length x = 3 -> length y = 3 -> x <> y ->
    16 + pc_partial_rounds c / 3
      <= differences (sbox_inputs (pc_mds c) 4 (pc_partial_rounds c) (pc_round_constants c) x)
                     (sbox_inputs (pc_mds c) 4 (pc_partial_rounds c) (pc_round_constants c) y).
  Proof.
    intros c H5 (Hm & Hr & Hl) Hmin Hq x y Hx Hy N.
    apply (active 3 (pc_mds c) Hm Hmin (proj1 (power5_bijective H5)) 3 (Nat.lt_0_succ 2) Hq 4); auto. lia.
  Qed.

  (** one round less does not do *)
  Add Field Ffield3 : f_field.
  Theorem two_rounds_claim : forall m : list (list F), square 3 m -> fnth (nth 0 m []) 1 <> fzero -> ~ no_quiet_trail 3 2 m.
  Proof.
    intros m [Hl Hr] Hne Q. destruct (length_list3 m Hl) as (r0 & r1 & r2 & ->). pose proof (Forall_inv Hr) as A0. cbn beta in A0.
    destruct (length_list3 _ A0) as (a & b & c & ->). cbn in Hne.
    assert (E : [fzero; c; fopp b] = repeat fzero 3).
    { apply Q; [reflexivity|]. intros i Hi. destruct i as [|[|i]]; [reflexivity| |lia]. cbn. ring. }
    cbn in E. injection E as _ E. apply Hne. transitivity (fopp (fopp b)); [ring|]. rewrite E. ring.
  Qed.
End Generic.

Theorem bn254_trail : no_quiet_trail 3 3 bn256_mds.
Proof. apply quiet3; [exact bn256_square|]. apply feqb_neq. vm_compute. reflexivity. Qed.
Theorem pallas_trail : no_quiet_trail 3 3 pasta_mds.
Proof. apply quiet3; [exact (proj1 pasta_ok)|]. apply feqb_neq. vm_compute. reflexivity. Qed.
Theorem bn254_sums : no_blind_sum 3 3 bn256_mds.
Proof. apply blind3; [exact bn256_square|]. apply feqb_neq. vm_compute. reflexivity. Qed.
Theorem pallas_sums : no_blind_sum 3 3 pasta_mds.
Proof. apply blind3; [exact (proj1 pasta_ok)|]. apply feqb_neq. vm_compute. reflexivity. Qed.

Theorem bn254_active_claim : forall short s, cached_hash_spec short bn256_c = Ok s ->
  forall x y, length x = 3 -> length y = 3 -> x <> y ->
  hash_permute 3 s x = spec_permute bn256_mds 4 57 bn256_round_constants x
  /\ hash_permute 3 s y = spec_permute bn256_mds 4 57 bn256_round_constants y
  /\ 35 <= differences (sbox_inputs bn256_mds 4 57 bn256_round_constants x) (sbox_inputs bn256_mds 4 57 bn256_round_constants y).
Proof.
  intros short s Hs x y Hx Hy N.
  split; [exact (proj1 (cached_agrees short bn256_c s bn256_ok Hs x Hx))|]. split; [exact (proj1 (cached_agrees short bn256_c s bn256_ok Hs y Hy))|].
  exact (tables_active bn256_c bn254_r_5 bn256_ok bn256_minors bn254_trail x y Hx Hy N).
Qed.
Theorem pallas_active_claim : forall short s, cached_hash_spec short pasta_constants = Ok s ->
  forall x y, length x = 3 -> length y = 3 -> x <> y ->
  hash_permute 3 s x = spec_permute pasta_mds 4 56 pasta_round_constants x
  /\ hash_permute 3 s y = spec_permute pasta_mds 4 56 pasta_round_constants y
  /\ 34 <= differences (sbox_inputs pasta_mds 4 56 pasta_round_constants x) (sbox_inputs pasta_mds 4 56 pasta_round_constants y).
Proof.
  intros short s Hs x y Hx Hy N.
  split; [exact (proj1 (cached_agrees short pasta_constants s pasta_ok Hs x Hx))|]. split; [exact (proj1 (cached_agrees short pasta_constants s pasta_ok Hs y Hy))|].
  exact (tables_active pasta_constants pallas_5 pasta_ok pasta_minors pallas_trail x y Hx Hy N).
Qed.
