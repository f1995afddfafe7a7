(** The first two test vectors of each kind of the Pallas instance (poseidon-base/src/primitives/pasta/test_vectors.rs), which
    the tests of p128pow5t3.rs:247-304 run against the code, run against the model.  The build evaluates
    them with the virtual machine and stops if one is not [true] (the other nine of each kind pass too, but take minutes); they are tests and leave no proof
    behind. *)
From Coq Require Import ZArith List Arith Bool.
From Verif Require Import Field Rust ZpField Primes Primitives Specs Pasta ExamplesBase.
Import ListNotations.
Local Open Scope nat_scope.

(** the state before and after the permutation (test_vectors.rs:16-418) *)
Definition pallas_permute_vectors : list (list Z * list Z) := [
    ([0;
      1;
      2],
     [19142758212910704988134549186320465225050001548607778483843514680734401733718;
      8943457793054409913105520643844025343653237882909500861250463986907015919658;
      4653491495579411712133380452970045393126868676144731347343956788496825228765]);
    ([3677539867563687470654670391721079866230134637838509388990103492291759929948;
      6243497869806971487606364416161089037871868258080763785591657061825494048026;
      9141053760095245197312206751382674325146513867996592668091653235839830878653],
     [15317998993244807514405793880416797904150691534006359975478145163578252947152;
      5915969450253219116807269649892406926910197425534256669848946110982068131113;
      7399511843207817644995669504047250107217852299763885020175142098336338051853])
  ]%Z.

(** two words and their digest (test_vectors.rs:420-636) *)
Definition pallas_hash_vectors : list (list Z * Z) := [
    ([0;
      1],
     2798587486204573918733981416238174494864268316453704033056222619156398692483);
    ([3677539867563687470654670391721079866230134637838509388990103492291759929948;
      6243497869806971487606364416161089037871868258080763785591657061825494048026],
     1763721871805305271537607287583346972879990046416819079864302809847849887451)
  ]%Z.

Definition pallas_words (l : list Z) : list Pallas := map of_Z l.

Definition permutes_to (v : list Z * list Z) : bool :=
  let s := p128_spec pasta_constants in
  let r := map to_Z (permute 3 s (mds s) (round_constants s) (pallas_words (fst v))) in
  (length r =? 3) && forallb (fun '(a, b) => Z.eqb a b) (combine r (snd v)).

Definition hashes_to (v : list Z * Z) : bool :=
  let s := p128_spec pasta_constants in
  match hash_constant_length 3 2 2 s (hash_init 3 2 (constant_length 2 2)) (pallas_words (fst v)) with
  | Ok x => Z.eqb (to_Z x) (snd v)
  | Panic => false
  end.

Definition test_pallas_permute : True := ltac:(evaluates_to_true (forallb permutes_to pallas_permute_vectors)).

Definition test_pallas_hash : True := ltac:(evaluates_to_true (forallb hashes_to pallas_hash_vectors)).
