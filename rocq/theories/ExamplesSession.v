(** Concrete cases that meet the hypotheses of the theorems of PropertiesSession.v: the circuits of the repository's own tests. *)
From Coq Require Import ZArith NArith List Arith Lia.
From Verif Require Import Field ZpField Primes Rust Primitives Specs BaseHash Bn256 SpecHash Link Const_proof Base_claims BaseHash_proof Halo2 PermuteChip SpongeTable TableUse
  SessionUse Session_claims ExamplesTable ExamplesBase.
Import ListNotations.
Local Open Scope nat_scope.

(** the tables of tests/hash_proving.rs (hash_circuit, proof_and_verify) and hash.rs (poseidon_hash_circuit, the four of
    poseidon_var_len_hash_circuit) as builder calls, with calcs and k *)
Definition repo_tests : list (list (builder_call (F := Fr)) * nat * nat) :=
  [([ConstantInputs [(fr 1, fr 2); (fr 0, fr 1)]], 3, 7);
   ([FixedInputs [((fr 1, fr 2), fr 0, None)]; StreamInputsUnchecked [(fr 30, fr 1); (fr 65536, fr 0)] 46%N 32], 4, 8);
   ([ConstantInputs [(fr 1, fr 2); (fr 2, fr 3)]], 4, 8);
   ([StreamInputsUnchecked [(fr 1, fr 2); (fr 50331648, fr 0)] 45%N 32], 4, 8);
   ([StreamInputsUnchecked [(fr 1, fr 2); (fr 50331648, fr 0)] 64%N 32; ConstantInputs [(fr 1, fr 2)]], 4, 8);
   ([StreamInputsUnchecked [(fr 50331648, fr 0)] 13%N 32], 4, 8);
   ([], 4, 8)].
(** all of them meet the hypotheses, with 6 rows of the 2^k for blinding *)
Lemma ex_repo_tests : forall bs calcs k, In (bs, calcs, k) repo_tests -> forall legacy (s : spec Fr), exists t,
  builder_runs bs empty_table = Ok t /\ Forall (sized 32 32) bs /\ Forall start_u64 bs /\ Forall (checks_right legacy s) bs
  /\ table_size t < calcs /\ calcs < 2 ^ k - 6 /\ 38 * calcs <= 2 ^ k - 6 /\ 8 * calcs <= 2 ^ k - 6 /\ 32 < 2 ^ k - 6.
Proof.
  intros bs calcs k H legacy s. unfold repo_tests in H.
  repeat (destruct H as [H|H]; [injection H as <- <- <-; eexists; split; [reflexivity|];
    split; [repeat (apply Forall_cons; [cbn; try split; try reflexivity; try exact I; lia|]); apply Forall_nil|];
    split; [repeat (apply Forall_cons; [cbn; try reflexivity; exact I|]); apply Forall_nil|];
    split; [repeat (apply Forall_cons; [cbn; try exact I|]); try apply Forall_nil; cbn; intros; intuition congruence|];
    cbn; lia|]).
  destruct H.
Qed.

(** a call with right and one with wrong expected digests *)
Lemma ex_checks : forall legacy short, exists s, cached_hash_spec short bn256_c = Ok s /\ exists a h : Fr,
  checks_right legacy s (StreamInputs [(fr 1, fr 2)] (Some h) 13%N 32) /\ ~ checks_right legacy s (StreamInputs [(fr 1, fr 2)] (Some a) 13%N 32).
Proof.
  intros legacy short. destruct (cached_spec_exists short bn256_c bn256_ok) as [s Hs]. exists s. split; [exact Hs|].
  set (m := words_of [(fr 1, fr 2)]).
  assert (H : exists h, hash_msg legacy s m (Some (13 * (if legacy then 1 else 2 ^ 64))%N) = Ok h).
  { rewrite (hash_msg_claim short legacy bn256_c s _ _ bn256_ok Hs). eexists. reflexivity. }
  destruct H as [h H]. exists (fadd h fone), h. split; [exact H|]. cbn [checks_right]. fold m. rewrite H. intros E. injection E as E. exact (bump h (eq_sym E)).
Qed.
