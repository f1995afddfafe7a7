(** Property C48, and the seed of C12: the field elements drawn by the constants generator.  The vocabulary is in
    GrainUse.v and, for the bit sequence, at the head of Grain_proof.v. *)
From Coq Require Import ZArith NArith List Arith Bool.
From Verif Require Import Field Rust ZpField Primes BigSum Link Primitives Grain Mds Bn256 Const_proof Grain_proof GrainUse GrainField_claims
  ExamplesPow5 ExamplesGrain ExamplesBase.
Import ListNotations.
Local Open Scope nat_scope.

(** C12: the seed *)
Theorem C12_seed : forall nb t f p, grain_seed nb t f p = seed_spec nb t f p.
Proof. exact seed_claim. Qed.
Print Assumptions C12_seed.

(** C48 *)
Theorem C48_generator : forall F (FO : FieldOps F) (PF : PrimeField F) tries fuel T r_f r_p select (rc m mi : list (list F)) bits,
  let NB := num_bits (F := F) in
  grain_sequence (seed_spec (N.of_nat NB) (N.of_nat T) (N.of_nat r_f) (N.of_nat r_p)) bits ->
  gen_constants tries fuel T r_f r_p select = Some (Ok (rc, m, mi)) ->
  exists pairs chunks before group,
    shrunk bits 240 pairs = concat (chunks ++ concat before ++ group)
    /\ Forall (fun c => length c = NB) (chunks ++ concat before ++ group)
    /\ length rc = r_f + r_p /\ Forall (fun r => length r = T) rc
    /\ concat rc = accepted_elements chunks
    /\ (chunks <> [] -> (number (last chunks []) < modulus (F := F))%Z)
    /\ Forall (fun g => length g = 2 * T) (before ++ [group])
    /\ NoDup (reduced_elements (F := F) group)
    /\ (exists js, length js = select /\ NoDup js
          /\ forall i, In i js <-> i < length before /\ NoDup (reduced_elements (F := F) (nth i before [])))
    /\ forall i j, i < T -> j < T ->
         fmul (fadd (nth i (reduced_elements group) fzero) (nth (T + j) (reduced_elements group) fzero)) (mnth m i j) = fone.
Proof. exact (fun F FO PF => generator_claim). Qed.
Print Assumptions C48_generator.
Example C48_instance : num_bits (F := Fr) = 254
  /\ grain_sequence (seed_spec 254 3 8 57) (lfsr (seed_spec 254 3 8 57))
  /\ gen_constants 10 80 3 8 57 0 = Some (Ok (bn256_round_constants, bn256_mds, bn256_mds_inv)).
Proof. exact ex_generator. Qed.
(** a second choice of matrix is another one *)
Example C48_select : exists (m mi m' mi' : list (list F19)) rc,
  gen_constants 40 80 2 8 3 0 = Some (Ok (rc, m, mi))
  /\ gen_constants 40 80 2 8 3 1 = Some (Ok (rc, m', mi')) /\ m <> m'.
Proof. exact ex_select. Qed.

(** the bounds [tries] and [fuel] that the model puts on the loops of the code do not change the result *)
Theorem C48_bounds_irrelevant : forall F (FO : FieldOps F) (PF : PrimeField F) tries tries' fuel fuel' T r_f r_p select
    (r : result (list (list F) * list (list F) * list (list F))),
  tries <= tries' -> fuel <= fuel' ->
  gen_constants tries fuel T r_f r_p select = Some r -> gen_constants tries' fuel' T r_f r_p select = Some r.
Proof. exact (fun F FO PF => generator_more_claim). Qed.
Print Assumptions C48_bounds_irrelevant.
(** instance: [C48_instance] *)

Theorem C48_field_bits : forall F (FO : FieldOps F) (PF : PrimeField F),
  (2 ^ Z.of_nat (num_bits (F := F) - 1) <= modulus (F := F) < 2 ^ Z.of_nat (num_bits (F := F)))%Z.
Proof. exact (fun F FO PF => num_bits_claim). Qed.
Print Assumptions C48_field_bits.
