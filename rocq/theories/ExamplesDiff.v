(** Concrete cases for C68. *)
From Coq Require Import ZArith Znumtheory List Arith Lia Bool.
From Verif Require Import Field ZpField Primes Rust ListAux BigSum Primitives Specs Bn256 Pasta Mds BaseHash SpecHash Link Perm_proof Mds_proof Const_proof BaseHash_proof Base_claims Bij_claims
  SboxUse Sbox_proof Sbox_claims PolyUse Poly_proof Poly_claims DiffUse Diff_proof ExamplesPow5 ExamplesGadget ExamplesMore ExamplesPoly ExamplesBase.
Import ListNotations.
Local Open Scope nat_scope.

(** checking lists of words of F19 by computation *)
Fixpoint same (a b : list F19) : bool :=
  match a, b with
  | [], [] => true
  | x :: a', y :: b' => feqb x y && same a' b'
  | _, _ => false
  end.
Lemma same_eq : forall a b, same a b = true <-> a = b.
Proof.
  induction a as [|x a IH]; intros [|y b]; cbn [same]; split; intros H; try discriminate; try reflexivity.
  - apply andb_true_iff in H. destruct H as [H1 H2]. apply feqb_eq in H1. apply IH in H2. now subst.
  - inversion H. subst. rewrite feqb_refl. cbn. now apply IH.
Qed.
Fixpoint followsb (step : list F19 -> list F19 -> list F19) (rcs ds : list (list F19)) (x y : list F19) : bool :=
  match rcs, ds with
  | rc :: rcs', d :: ds' => same (step y rc) (vadd (step x rc) d) && followsb step rcs' ds' (step x rc) (step y rc)
  | _, _ => true
  end.
Lemma followsb_ok : forall step rcs ds x y, followsb step rcs ds x y = true -> follows step rcs ds x y.
Proof.
  intros step. induction rcs as [|rc rcs IH]; intros [|d ds] x y H; cbn [follows followsb] in *; auto. apply andb_true_iff in H. destruct H as [H1 H2].
  split; [now apply same_eq|now apply IH].
Qed.

(** states of width 2 that follow given differences *)
Definition state (c : Z * Z) : list F19 := [g (fst c); g (snd c)].
Definition round_states : list (Z * Z) :=
  [(4, 6); (4, 10); (4, 17); (4, 18); (8, 6); (8, 10); (8, 17); (8, 18); (15, 6); (15, 10); (15, 17); (15, 18); (16, 6); (16, 10);
   (16, 17); (16, 18)]%Z.
Definition full_states : list (Z * Z) :=
  [(3, 10); (6, 6); (6, 10); (6, 15); (9, 6); (9, 11); (9, 15)]%Z.
Definition partial_states : list (Z * Z) :=
  [(0, 1); (0, 2); (0, 14); (0, 15); (1, 0); (1, 1); (1, 13); (1, 14); (2, 4); (2, 5); (2, 17); (2, 18); (3, 0); (3, 1);
   (3, 6); (3, 7); (4, 3); (4, 4); (4, 16); (4, 17); (5, 6); (5, 7); (5, 12); (5, 13); (6, 4); (6, 5); (6, 10); (6, 11);
   (7, 1); (7, 2); (7, 7); (7, 8); (8, 0); (8, 5); (8, 6); (8, 18); (9, 8); (9, 9); (9, 14); (9, 15); (10, 5); (10, 6);
   (10, 11); (10, 12); (11, 7); (11, 8); (11, 13); (11, 14); (12, 11); (12, 12); (12, 17); (12, 18); (13, 10); (13, 11); (13, 16); (13, 17);
   (14, 9); (14, 10); (14, 15); (14, 16); (15, 3); (15, 4); (15, 9); (15, 10); (16, 0); (16, 12); (16, 13); (16, 18); (17, 2); (17, 3);
   (17, 8); (17, 9); (18, 2); (18, 3); (18, 15); (18, 16)]%Z.
Fixpoint apart (l : list (Z * Z)) : bool :=
  match l with
  | [] => true
  | x :: l' => forallb (fun y => negb ((fst x =? fst y)%Z && (snd x =? snd y)%Z)) l' && apart l'
  end.
Lemma apart_NoDup : forall l, apart l = true -> forallb (fun x => (0 <=? fst x)%Z && (fst x <? 19)%Z && (0 <=? snd x)%Z && (snd x <? 19)%Z) l = true ->
  NoDup (map state l).
Proof.
  intros l H R. apply NoDup_map_inv with (f := fun s => (to_Z (nth 0 s fzero), to_Z (nth 1 s fzero))). rewrite map_map.
  assert (E : map (fun x => (to_Z (nth 0 (state x) fzero), to_Z (nth 1 (state x) fzero))) l = l).
  { rewrite <- map_id. apply map_ext_in. intros [a b] X. rewrite forallb_forall in R. apply R in X. cbn [fst snd] in X. rewrite !andb_true_iff in X.
    unfold state, g. cbn [nth fst snd]. rewrite !to_of_Z. change (modulus (F := F19)) with 19%Z. rewrite !Z.mod_small by lia. reflexivity. }
  rewrite E. clear R E. induction l as [|x l IH]; [constructor|]. cbn [apart] in H. apply andb_true_iff in H. destruct H as [H1 H2].
  constructor; [|now apply IH]. intros X. rewrite forallb_forall in H1. apply H1 in X. rewrite !Z.eqb_refl in X. discriminate X.
Qed.
Definition all_follow (step : list F19 -> list F19 -> list F19) (rcs ds : list (list F19)) (d : list F19) (l : list (Z * Z)) : bool :=
  forallb (fun c => followsb step rcs ds (state c) (vadd (state c) d)) l.
Lemma all_follow_ok : forall step rcs ds d l, all_follow step rcs ds d l = true ->
  forall x, In x (map state l) -> length x = 2 /\ follows step rcs ds x (vadd x d).
Proof.
  intros step rcs ds d l H x X. apply in_map_iff in X. destruct X as (c & <- & X). unfold all_follow in H. rewrite forallb_forall in H.
  split; [reflexivity|]. apply followsb_ok, H, X.
Qed.

Lemma ex_5_19 : (5 < modulus (F := F19))%Z /\ rel_prime 5 (modulus (F := F19) - 1).
Proof. split; [reflexivity|exact (proj1 ex_tri_bijection)]. Qed.
(** the S-box of F19 has the difference 1 -> 1 at four words *)
Lemma ex_sbox : (5 < modulus (F := F19))%Z /\ (forall x, sbox toy x = power5 x) /\ g 1 <> fzero /\ NoDup [g 0; g 7; g 11; g 18]
  /\ forall x, In x [g 0; g 7; g 11; g 18] -> sbox toy (fadd x (g 1)) = fadd (sbox toy x) (g 1).
Proof.
  split; [reflexivity|]. split; [exact (proj1 toy_spec_ok)|]. split; [apply feqb_neq; vm_compute; reflexivity|]. split.
  - repeat constructor; cbn [In]; intros H; repeat (destruct H as [H|H]); try contradiction; revert H; apply feqb_neq; vm_compute; reflexivity.
  - intros x H. repeat (destruct H as [<-|H]); [..|contradiction]; apply feqb_eq; vm_compute; reflexivity.
Qed.

(** the matrix of [toy] has no singular square submatrix *)
Lemma indices2 : forall k l, indices 2 k l -> l = [] \/ l = [0] \/ l = [1] \/ l = [0; 1] \/ l = [1; 0].
Proof.
  intros k l (_ & N & H). destruct l as [|a [|b l]]; [now left| |].
  - inversion H as [|? ? A _]. subst. destruct a as [|[|a]]; [auto|auto|lia].
  - inversion H as [|? ? A H']. subst. inversion H' as [|? ? B H'']. subst. inversion N as [|? ? N1 N']. subst. inversion N' as [|? ? N2 _]. subst. cbn [In] in N1.
    assert (l = []).
    { destruct l as [|c l]; [reflexivity|]. inversion H'' as [|? ? C _]. subst. exfalso. apply N2. cbn [In]. left. assert (a <> b /\ a <> c) by (split; intros E; apply N1; cbn; auto). lia. }
    subst. destruct a as [|[|a]]; [| |lia]; (destruct b as [|[|b]]; [| |lia]); auto; exfalso; apply N1; now left.
Qed.
Definition inverse2 (m : list (list F19)) : list (list F19) :=
  match m with
  | [] => []
  | [_] => [[finv (mnth m 0 0)]]
  | _ => let i := finv (fsub (fmul (mnth m 0 0) (mnth m 1 1)) (fmul (mnth m 0 1) (mnth m 1 0))) in
         [[fmul i (mnth m 1 1); fopp (fmul i (mnth m 0 1))]; [fopp (fmul i (mnth m 1 0)); fmul i (mnth m 0 0)]]
  end.
Lemma toy_minors : minors 2 (mds toy).
Proof.
  intros k rows cols Hr Hc. exists (inverse2 (submatrix (mds toy) rows cols)).
  assert (K : length rows = k /\ length cols = k) by (split; [apply Hr|apply Hc]). destruct K as [K1 K2].
  pose proof (indices2 _ _ Hr) as R. pose proof (indices2 _ _ Hc) as C. clear Hr Hc.
  assert (W : forall n (P : nat -> nat -> bool), forallb (fun i => forallb (P i) (seq 0 n)) (seq 0 n) = true -> forall i j, i < n -> j < n -> P i j = true).
  { intros n P H i j Hi Hj. rewrite forallb_forall in H. specialize (H i ltac:(apply in_seq; lia)). cbn beta in H. rewrite forallb_forall in H. apply H, in_seq; lia. }
  decompose [or] R; subst rows; cbn [length] in K1; subst k; decompose [or] C; subst cols; cbn [length] in K2; try discriminate K2;
    (split; intros i j Hi Hj; apply feqb_eq; revert i j Hi Hj; apply W; vm_compute; reflexivity).
Qed.
Lemma toy_quiet : no_quiet_trail 2 2 (mds toy).
Proof.
  intros [|a [|b [|c d]]] L H; try discriminate L. pose proof (H 0 ltac:(lia)) as H0. pose proof (H 1 ltac:(lia)) as H1. change (a = fzero) in H0. subst a.
  assert (E : fadd (fmul (g 1) fzero) (fadd (fmul (g 2) b) fzero) = fzero) by (exact H1). clear H H1.
  assert (b = fzero); [|now subst].
  assert (E2 : fmul (g 2) b = fzero).
  { rewrite <- E. pose proof (f_field (F := F19)) as FF. destruct FF as [[A0 A1 A2 M1 M2 M3 D S O] _ _ _].
    assert (Z : fmul (g 1) (fzero : F19) = fzero) by (vm_compute; reflexivity). rewrite Z, A0, A1, A0. reflexivity. }
  apply fmul_eq_0 in E2. destruct E2 as [E2|E2]; [|exact E2]. exfalso. revert E2. apply feqb_neq. vm_compute. reflexivity.
Qed.

(** the bound for a round is met: 16 of the 361 states of [toy] *)
Lemma ex_round : let xs := map state round_states in
  square 2 (mds toy) /\ minors 2 (mds toy) /\ NoDup xs
  /\ (forall x, In x xs -> length x = 2
      /\ full_round 2 (sbox toy) (mds toy) (vadd x [g 1; g 1]) [g 3; g 1] = vadd (full_round 2 (sbox toy) (mds toy) x [g 3; g 1]) [g 3; g 8])
  /\ length xs = 16 /\ weight [g 1; g 1] = 2.
Proof.
  intros xs. split; [exact (proj1 (proj2 toy_spec_ok))|]. split; [exact toy_minors|].
  split; [apply apart_NoDup; vm_compute; reflexivity|]. split.
  - intros x X. apply (all_follow_ok (full_round 2 (sbox toy) (mds toy)) [[g 3; g 1]] [[g 3; g 8]] [g 1; g 1]) in X; [|vm_compute; reflexivity]. destruct X as [L [X _]]. now split.
  - split; vm_compute; reflexivity.
Qed.
(** two full rounds, along which seven states have the differences given *)
Lemma ex_full_trail : let step := full_round 2 (sbox toy) (mds toy) in
  let rcs := [[g 3; g 1]; [g 4; g 1]] in let ds := [[g 14; g 0]; [g 1; g 3]] in let d := [g 1; g 15] in
  let xs := map state full_states in
  d <> repeat fzero 2 /\ NoDup xs /\ (forall x, In x xs -> length x = 2 /\ follows step rcs ds x (vadd x d)) /\ length xs = 7.
Proof.
  intros step rcs ds d xs. split. { intros E. apply (f_equal (fun l => nth 0 l fzero)) in E. revert E. apply feqb_neq. vm_compute. reflexivity. }
  split; [apply apart_NoDup; vm_compute; reflexivity|]. split; [apply all_follow_ok; vm_compute; reflexivity|vm_compute; reflexivity].
Qed.
(** two partial rounds: 76 states, as many as the bound allows *)
Lemma ex_partial_trail : let step := part_round 2 (sbox toy) (mds toy) in
  let rcs := [[g 3; g 1]; [g 4; g 1]] in let ds := [[g 2; g 5]; [g 17; g 8]] in let d := [g 0; g 1] in
  let xs := map state partial_states in
  no_quiet_trail 2 2 (mds toy) /\ d <> repeat fzero 2 /\ NoDup xs /\ (forall x, In x xs -> length x = 2 /\ follows step rcs ds x (vadd x d)) /\ length xs = 76.
Proof.
  intros step rcs ds d xs. split; [exact toy_quiet|]. split. { intros E. apply (f_equal (fun l => nth 1 l fzero)) in E. revert E. apply feqb_neq. vm_compute. reflexivity. }
  split; [apply apart_NoDup; vm_compute; reflexivity|]. split; [apply all_follow_ok; vm_compute; reflexivity|vm_compute; reflexivity].
Qed.

(** a difference between two digests of the hash over BN254 *)
Lemma ex_hash : forall short (u v x k : Fr), exists s e, cached_hash_spec short bn256_c = Ok s /\ NoDup [x]
  /\ forall x', In x' [x] -> exists h, hash_with_domain s (x', u) v = Ok h /\ hash_with_domain s (fadd x' k, u) v = Ok (fadd h e).
Proof.
  intros short u v x k. destruct (cached_spec_exists short bn256_c bn256_ok) as [s Hs].
  exists s, (fsub (nth 0 (hash_permute 3 s [v; fadd x k; u]) fzero) (nth 0 (hash_permute 3 s [v; x; u]) fzero)). split; [exact Hs|].
  split; [repeat constructor; auto|]. intros x' [<-|[]]. exists (nth 0 (hash_permute 3 s [v; x; u]) fzero).
  split; [exact (domain_hash short bn256_c s bn256_ok Hs x u v)|]. rewrite (domain_hash short bn256_c s bn256_ok Hs (fadd x k) u v). f_equal.
  generalize (nth 0 (hash_permute 3 s [v; fadd x k; u]) fzero) as b. generalize (nth 0 (hash_permute 3 s [v; x; u]) fzero) as a. intros a b.
  pose proof (f_field (F := Fr)) as FF. destruct FF as [[A0 A1 A2 M1 M2 M3 D S O] _ _ _]. rewrite S, (A1 b), A2, O, A0. reflexivity.
Qed.
