(** Facts about the concrete tables, by computation. *)
From Coq Require Import ZArith Znumtheory List Arith Lia Bool.
From Verif Require Import Field Rust ListAux NumTheory ZpField Primes Primitives Specs Grain Mds Bn256 Pasta
  SpecHash Perm_proof BigSum Bij_proof Mds_proof Compact_proof BaseHash_proof.
Import ListNotations.
Local Open Scope nat_scope.

(** equality of field elements by their canonical integers *)
Definition to_Zs {F} {FO : FieldOps F} (l : list (list F)) : list (list Z) := map (map to_Z) l.

Section Inj.
  Context {F : Type} {FO : FieldOps F} {PF : PrimeField F}.
  Lemma map_to_Z_inj : forall l1 l2 : list F, map to_Z l1 = map to_Z l2 -> l1 = l2.
  Proof.
    induction l1 as [|x l1 IH]; intros [|y l2] H; cbn in H; try discriminate; [reflexivity|].
    injection H as E1 E2. f_equal; [now apply to_Z_inj|now apply IH].
  Qed.
  Lemma to_Zs_inj : forall l1 l2 : list (list F), to_Zs l1 = to_Zs l2 -> l1 = l2.
  Proof.
    induction l1 as [|x l1 IH]; intros [|y l2] H; cbn in H; try discriminate; [reflexivity|].
    injection H as E1 E2. f_equal; [now apply map_to_Z_inj|now apply IH].
  Qed.
End Inj.

Fixpoint list_eqb {A} (eqb : A -> A -> bool) (l1 l2 : list A) : bool :=
  match l1, l2 with
  | [], [] => true
  | x :: l1', y :: l2' => eqb x y && list_eqb eqb l1' l2'
  | _, _ => false
  end.

Lemma list_eqb_eq : forall {A} (eqb : A -> A -> bool), (forall x y, eqb x y = true -> x = y) ->
  forall l1 l2, list_eqb eqb l1 l2 = true -> l1 = l2.
Proof.
  intros A eqb H. induction l1 as [|x l1 IH]; intros [|y l2] E; cbn in E; try discriminate; [reflexivity|].
  apply andb_prop in E. destruct E as [E1 E2]. f_equal; [now apply H|now apply IH].
Qed.

Definition mat_eqb {F} {FO : FieldOps F} : list (list F) -> list (list F) -> bool :=
  list_eqb (list_eqb feqb).

Lemma mat_eqb_eq : forall {F} {FO : FieldOps F} {PF : PrimeField F} (a b : list (list F)),
  mat_eqb a b = true -> a = b.
Proof.
  intros F FO PF a b. apply list_eqb_eq. apply list_eqb_eq. intros x y. apply feqb_eq.
Qed.

(** ** the generator reproduces the tables *)

Definition gen_check {F} {FO : FieldOps F} (r : option (result (list (list F) * list (list F) * list (list F))))
  (rc m mi : list (list F)) : bool :=
  match r with
  | Some (Ok (rc', m', mi')) => mat_eqb rc' rc && mat_eqb m' m && mat_eqb mi' mi
  | _ => false
  end.

Lemma gen_check_ok : forall {F} {FO : FieldOps F} {PF : PrimeField F} r (rc m mi : list (list F)),
  gen_check r rc m mi = true -> r = Some (Ok (rc, m, mi)).
Proof.
  intros F FO PF r rc m mi H. unfold gen_check in H.
  destruct r as [[[[rc' m'] mi']|]|]; try discriminate.
  apply andb_prop in H. destruct H as [H H3]. apply andb_prop in H. destruct H as [H1 H2].
  apply mat_eqb_eq in H1, H2, H3. now subst.
Qed.

Definition bn256_mds_inv : list (list Fr) :=
  match inverse3 bn256_mds with Ok m => m | Panic => [] end.

Lemma bn256_constants_ok : bn256_constants =
  Ok {| pc_partial_rounds := 57; pc_round_constants := bn256_round_constants;
        pc_mds := bn256_mds; pc_mds_inv := bn256_mds_inv |}.
Proof.
  unfold bn256_constants, bn256_mds_inv. pose proof (inverse3_spec bn256_mds) as H.
  destruct (inverse3 bn256_mds) as [mi|]; [reflexivity|].
  exfalso. revert H. apply feqb_neq. vm_compute. reflexivity.
Qed.

Theorem bn256_generated :
  gen_constants 10 80 3 8 57 0 = Some (Ok (bn256_round_constants, bn256_mds, bn256_mds_inv)).
Proof. apply gen_check_ok. vm_compute. reflexivity. Qed.

Theorem pasta_generated :
  gen_constants 10 80 3 8 56 0 = Some (Ok (pasta_round_constants, pasta_mds, pasta_mds_inv)).
Proof. apply gen_check_ok. vm_compute. reflexivity. Qed.

(** ** shapes, inverses and separability of the BN254 tables *)

Lemma bn256_square : square 3 bn256_mds.
Proof. split; [reflexivity|]. repeat constructor. Qed.

Lemma forallb_length : forall {A} n (l : list (list A)),
  forallb (fun r => length r =? n) l = true -> Forall (fun r => length r = n) l.
Proof.
  intros A n l H. apply Forall_forall. intros r Hr. rewrite forallb_forall in H.
  apply Nat.eqb_eq. now apply H.
Qed.

Lemma bn256_rc_shape : Forall (fun r => length r = 3) bn256_round_constants.
Proof.
  apply forallb_length. vm_compute. reflexivity.
Qed.

Lemma bn256_rc_length : length bn256_round_constants = 65.
Proof. unfold bn256_round_constants. rewrite map_length. reflexivity. Qed.

Theorem bn256_inverse : square 3 bn256_mds_inv
  /\ mat_prod_id 3 bn256_mds bn256_mds_inv /\ mat_prod_id 3 bn256_mds_inv bn256_mds.
Proof.
  pose proof (inverse3_spec bn256_mds) as H. unfold bn256_mds_inv.
  destruct (inverse3 bn256_mds) as [mi|]; [apply H|].
  exfalso. revert H. apply feqb_neq. vm_compute. reflexivity.
Qed.

(** every square submatrix is invertible: the table is a generated Cauchy matrix *)
Theorem bn256_minors : forall k rows cols, indices 3 k rows -> indices 3 k cols ->
  exists inv, mat_prod_id k (submatrix bn256_mds rows cols) inv
           /\ mat_prod_id k inv (submatrix bn256_mds rows cols).
Proof.
  destruct (gen_constants_mds _ _ _ _ _ _ _ _ _ bn256_generated) as [g E].
  exact (generate_mds_minors _ _ _ _ _ _ _ E).
Qed.

Definition bn256_c : p128_constants Fr :=
  {| pc_partial_rounds := 57; pc_round_constants := bn256_round_constants;
     pc_mds := bn256_mds; pc_mds_inv := bn256_mds_inv |}.

Lemma bn256_shape : constants_shape bn256_c.
Proof. split; [apply bn256_square|]. split; [apply bn256_rc_shape|apply bn256_rc_length]. Qed.

Lemma bn254_r_5 : rel_prime 5 (modulus (F := Fr) - 1).
Proof.
  apply Zgcd_1_rel_prime. vm_compute. reflexivity.
Qed.

(** the permutation of Fr's hashers is a bijection of the 3-word states *)
Theorem bn256_bijective : forall short s, cached_hash_spec short bn256_c = Ok s ->
  bij 3 (hash_permute 3 s).
Proof.
  intros short s Hs. destruct bn256_inverse as (_ & I1 & I2).
  apply (bij_ext 3 (hash_permute 3 (p128_spec bn256_c))).
  - intros x Hx. symmetry. exact (cached_permute short bn256_c s bn256_shape Hs x Hx).
  - unfold hash_permute. apply permute_bijective with (mi := bn256_mds_inv).
    + apply bn254_r_5.
    + apply sbox_pow_power5.
    + exact I1.
    + exact I2.
    + apply bn256_rc_shape.
    + cbn [round_constants p128_spec pc_round_constants bn256_c]. rewrite bn256_rc_length.
      cbn [full_rounds partial_rounds p128_spec pc_partial_rounds bn256_c Nat.div2]. lia.
Qed.
