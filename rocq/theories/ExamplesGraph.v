(** Concrete cases that meet the hypotheses of the theorems of PropertiesGraph.v: the Merkle tree over eight leaves and a graph that is
    no tree, hashed with the specification of the repository's own tests. *)
From Coq Require Import ZArith List Arith Lia.
From Verif Require Import Field ZpField Primes Rust BigSum Perm_proof Primitives Specs Pasta BaseHash SpecHash Link Const_proof Base_claims Bij_claims Halo2 Pow5 Pow5Use Gadget CostUse
  ProgramUse PreimageUse GraphUse Graph_claims ExamplesPreimage.
Import ListNotations.
Local Open Scope nat_scope.

(** three words are hashed, and the digest with the first of them again *)
Definition knot : program := [[0; 1; 2]; [3; 0]].

Lemma ex_graph : poseidon_spec 3 orchard /\ mat_prod_id 3 (mds orchard) (mds_inv orchard) /\ mat_prod_id 3 (mds_inv orchard) (mds orchard)
  /\ well_formed 3 knot /\ graph_rows 3 orchard knot 3 = 130 /\ graph_rows 3 orchard knot 3 <= 2 ^ 8 - 6
  /\ ~ well_formed 3 [[0; 1]; [2; 4]]
  /\ merkle 3 = [[0; 1]; [2; 3]; [4; 5]; [6; 7]; [8; 9]; [10; 11]; [12; 13]]
  /\ 2 ^ 3 + (2 ^ 3 - 1) * (3 + block_rows orchard) + 1 = 310 /\ 310 <= 2 ^ 9 - 6
  /\ 2 ^ 8 - 6 < 2 ^ 3 + length (merkle 3) + program_blocks 3 (merkle 3) * block_rows orchard + 1.
Proof.
  destruct ex_preimage as (A & B & C & _). split; [exact A|]. split; [exact B|]. split; [exact C|].
  split; [unfold knot; cbn [well_formed]; repeat (split; [first [discriminate | repeat constructor; lia]|]); exact I|].
  split; [reflexivity|]. split; [apply Nat.leb_le; reflexivity|]. split.
  { cbn [well_formed]. intros (_ & _ & _ & X & _). inversion X as [|? ? ? Y]. inversion Y. lia. }
  split; [reflexivity|]. split; [reflexivity|]. split; [apply Nat.leb_le; reflexivity|]. apply Nat.ltb_lt. reflexivity.
Qed.
