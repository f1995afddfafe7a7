(** Instances for PropertiesGrain.v. *)
From Coq Require Import ZArith NArith List Arith Bool.
From Verif Require Import Field Rust ZpField Primes Primitives Grain Mds Bn256 Const_proof Grain_proof GrainUse GrainField_claims ExamplesPow5 ExamplesBase.
Import ListNotations.
Local Open Scope nat_scope.

Lemma ex_generator : num_bits (F := Fr) = 254
  /\ grain_sequence (seed_spec 254 3 8 57) (lfsr (seed_spec 254 3 8 57))
  /\ gen_constants 10 80 3 8 57 0 = Some (Ok (bn256_round_constants, bn256_mds, bn256_mds_inv)).
Proof.
  split; [vm_compute; reflexivity|]. split; [|exact bn256_generated].
  apply lfsr_sequence. rewrite <- seed_claim. apply grain_seed_length.
Qed.

(** over the field of 19 elements, where a draw often has to be repeated *)
Lemma ex_select : exists (m mi m' mi' : list (list F19)) rc,
  gen_constants 40 80 2 8 3 0 = Some (Ok (rc, m, mi))
  /\ gen_constants 40 80 2 8 3 1 = Some (Ok (rc, m', mi')) /\ m <> m'.
Proof.
  assert (Q : match gen_constants (F := F19) 40 80 2 8 3 0, gen_constants (F := F19) 40 80 2 8 3 1 with
              | Some (Ok (rc, x, _)), Some (Ok (rc', x', _)) =>
                  list_eqb (fun a b => list_eqb feqb a b) rc rc' && negb (feqb (fnth (nth 0 x []) 0) (fnth (nth 0 x' []) 0))
              | _, _ => false end = true) by (vm_compute; reflexivity).
  revert Q. generalize (gen_constants (F := F19) 40 80 2 8 3 0), (gen_constants (F := F19) 40 80 2 8 3 1).
  intros r r' Q. destruct r as [[[[rc m] mi]|]|]; try discriminate Q.
  destruct r' as [[[[rc' m'] mi']|]|]; try discriminate Q.
  apply andb_true_iff in Q. destruct Q as [Q1 Q2].
  assert (rc = rc').
  { apply (list_eqb_eq (fun a b => list_eqb feqb a b)); [|exact Q1].
    intros a b. apply list_eqb_eq. intros x y H. apply feqb_eq, H. }
  subst rc'. exists m, mi, m', mi', rc. split; [reflexivity|]. split; [reflexivity|].
  intros X. rewrite <- X, feqb_refl in Q2. discriminate Q2.
Qed.
