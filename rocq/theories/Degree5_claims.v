(** The Septidon chip compiled with [GATE_DEGREE_5 = true]. *)
From Coq Require Import ZArith List Arith Lia Bool.
From Verif Require Import Field Rust ListAux Primitives Specs SpecHash Link Halo2 Septidon PermuteChip ChipUse DegreeUse SeptVal_proof SeptGate_proof
  SeptBlock_proof Layout_proof Contract SeptLayout_proof SeptChip_proof Stack_proof Sept_claims Degree_claims.
Import ListNotations.
Local Open Scope nat_scope.

Lemma Forall2_in_l : forall {A B} (R : A -> B -> Prop) l l' x, Forall2 R l l' -> In x l -> exists y, In y l' /\ R x y.
Proof.
  intros A B R l l' x H. induction H as [|a b l l' H _ IH]; intros []; [subst; exists b; split; [now left|exact H]|].
  destruct (IH H0) as (y & Hy & Ry). exists y. split; [now right|exact Ry].
Qed.

Section Claims.
  Context {F : Type} {FO : FieldOps F} {PF : PrimeField F}.
  Add Field Ffield : f_field.

  Section Gates.
    Variable rcs m : list (list F).

    (** the gates with a given selector *)
    Definition gates_with (q : expr F) (a f : nat) : list (expr F) :=
      let chip := chip_of a f in
      let p := s_partial chip in
      let '(constraints, (checked, state)) := sept_constraints_of m a f in
      let '(o0, o1, o2) := first_partial_round_expr rcs m
                             (map3 (fun i => cell_query i 0) (transition_input (s_transition chip))) in
      let '(n0, n1, n2) := map3 (fun i => cell_query i (-3)) (septuple_input p) in
      let '(t0, t1, t2) := map3 (fun i => cell_query i 0) (transition_input (s_transition chip)) in
      let '(b0, b1, b2) := matmul_expr m (map3 output_expr (s_full chip)) in
      let '(x0, x1, x2) := map3 (fun s => cell_query (sb_input s) 1) (s_full chip) in
      let '(f0, f1, f2) := map3 (fun s => cell_query (rotated (sb_input s) (-3)) 0) (s_full chip) in
      let '(y0, y1, y2) := map3 (fun i => cell_query i 1) (septuple_input p) in
      let '(e0, e1, e2) := partial_round_expr m checked state in
      let brk := ESum (EFix f 4) (EFix f 0) in
      [EConst fzero; EConst fzero; EConst fzero]
      ++ with_selector q constraints
      ++ with_selector (EFix f 4) [esub o0 n0; esub o1 n1; esub o2 n2]
      ++ with_selector q [esub (select_expr brk t0 x0) b0; esub (select_expr brk t1 x1) b1;
                          esub (select_expr brk t2 x2) b2]
      ++ with_selector q [esub (select_expr (EFix f 0) f0 y0) e0;
                          esub (select_expr (EFix f 0) f1 y1) e1;
                          esub (select_expr (EFix f 0) f2 y2) e2].

    Lemma gates_with_q : forall a f, sept_gates rcs m a f = gates_with (derive_selector f) a f.
    Proof. reflexivity. Qed.

    Lemma configure5_chip : forall c, fst (septidon_configure_as rcs m true c) = chip_of (cs_adv c) (cs_fix c).
    Proof. intros c. destruct c. reflexivity. Qed.
    Lemma configure5_cs : forall c,
      cs_adv (snd (septidon_configure_as rcs m true c)) = 13 + cs_adv c
      /\ cs_fix (snd (septidon_configure_as rcs m true c)) = 11 + cs_fix c
      /\ cs_sel (snd (septidon_configure_as rcs m true c)) = cs_sel c
      /\ cs_gates (snd (septidon_configure_as rcs m true c)) = cs_gates c ++ gates_with (EConst fone) (cs_adv c) (cs_fix c)
      /\ cs_lookups (snd (septidon_configure_as rcs m true c)) = cs_lookups c.
    Proof.
      intros c. destruct c as [a f s g l e k]. cbn [cs_adv cs_fix cs_sel cs_gates cs_lookups].
      do 3 (split; [reflexivity|]). split; [|reflexivity].
      transitivity ((((((((g ++ [EConst fzero]) ++ [EConst fzero]) ++ [EConst fzero])
         ++ with_selector (EConst fone) (fst (sept_constraints_of m a f)))
         ++ firstn 3 (skipn (3 + length (fst (sept_constraints_of m a f))) (gates_with (EConst fone) a f)))
         ++ firstn 3 (skipn (6 + length (fst (sept_constraints_of m a f))) (gates_with (EConst fone) a f)))
         ++ firstn 3 (skipn (9 + length (fst (sept_constraints_of m a f))) (gates_with (EConst fone) a f)))); [reflexivity|].
      rewrite <- !app_assoc. reflexivity.
    Qed.

    (** the two sets of gates differ in the selector only *)
    Lemma gates_pair : forall q q' a f, Forall2 (fun g g' => g = g' \/ exists x, g = EProd q x /\ g' = EProd q' x)
      (gates_with q a f) (gates_with q' a f).
    Proof.
      intros q q' a f. unfold gates_with.
      destruct (sept_constraints_of m a f) as [cons [ck st]].
      destruct (first_partial_round_expr _ _ _) as [[o0 o1] o2].
      destruct (map3 _ (septuple_input _)) as [[n0 n1] n2].
      destruct (map3 _ (transition_input _)) as [[t0 t1] t2].
      destruct (matmul_expr _ _) as [[b0 b1] b2].
      destruct (map3 _ (s_full _)) as [[x0 x1] x2].
      destruct (map3 _ (s_full _)) as [[f0 f1] f2].
      destruct (map3 _ (septuple_input _)) as [[y0 y1] y2].
      destruct (partial_round_expr _ _ _) as [[e0 e1] e2].
      assert (S : forall l, Forall2 (fun g g' => g = g' \/ exists x, g = EProd q x /\ g' = EProd q' x) (with_selector q l) (with_selector q' l)).
      { induction l as [|x l IH]; constructor; [right; now exists x|exact IH]. }
      repeat apply Forall2_app; [|apply S| |apply S|apply S]; repeat constructor.
    Qed.

    Variable n : nat.
    Variables fx sl adv : nat -> nat -> F.
    Lemma gates_stronger : forall a f, (forall g r, In g (gates_with (EConst fone) a f) -> r < n -> eval n fx sl adv r g = fzero) ->
      forall g r, In g (sept_gates rcs m a f) -> r < n -> eval n fx sl adv r g = fzero.
    Proof.
      intros a f H g r Hg Hr. rewrite gates_with_q in Hg.
      pose proof (gates_pair (derive_selector f) (EConst fone) a f) as P.
      apply (Forall2_in_l _ _ _ _ P) in Hg. destruct Hg as (g' & Hg' & [->|(x & -> & ->)]); [now apply H|].
      specialize (H _ r Hg' Hr). cbn [eval] in *. replace (eval n fx sl adv r x) with (fzero (FieldOps := FO)); [ring|].
      rewrite <- H. ring.
    Qed.
    Lemma gates_weaker : forall a f, (forall r, r < n -> eval n fx sl adv r (derive_selector f) = fone) ->
      (forall g r, In g (sept_gates rcs m a f) -> r < n -> eval n fx sl adv r g = fzero) ->
      forall g r, In g (gates_with (EConst fone) a f) -> r < n -> eval n fx sl adv r g = fzero.
    Proof.
      intros a f Q H g r Hg Hr. pose proof (gates_pair (EConst fone) (derive_selector f) a f) as P.
      apply (Forall2_in_l _ _ _ _ P) in Hg. destruct Hg as (g' & Hg' & [->|(x & -> & ->)]).
      - apply H; [rewrite gates_with_q; exact Hg'|exact Hr].
      - rewrite <- (H (EProd (derive_selector f) x) r); [|rewrite gates_with_q; exact Hg'|exact Hr].
        change (fmul fone (eval n fx sl adv r x) = fmul (eval n fx sl adv r (derive_selector f)) (eval n fx sl adv r x)).
        now rewrite Q.
    Qed.

    (** a row without the marks of a block passes its full round on to the next row *)
    Lemma full_row : forall a f r, (forall g, In g (gates_with (EConst fone) a f) -> eval n fx sl adv r g = fzero) ->
      r < n -> fx f (rotate n r 4) = fzero -> fx f (rotate n r 0) = fzero ->
      fullin adv a (rotate n r 1) = fullout m fx adv a f r.
    Proof.
      intros a f r H Hr H4 H0.
      assert (X : forall k, eval n fx sl adv r (nth k (gates_with (EConst fone) a f) (EConst fzero)) = fzero).
      { intros k. destruct (Nat.lt_ge_cases k (length (gates_with (EConst fone) a f))) as [L|L].
        - apply H, nth_In, L.
        - rewrite nth_overflow by exact L. reflexivity. }
      pose proof (X 12) as X0. pose proof (X 13) as X1. pose proof (X 14) as X2. clear X H.
      assert (Z : forall t x b : F,
                fmul fone (fadd (fadd (fmul (fadd fzero fzero) t) (fmul (fadd (of_Z 1) (fopp (fadd fzero fzero))) x)) (fopp b)) = fzero -> x = b).
      { intros t x b E. apply fsub_eq_0. rewrite <- E, of_Z_1. ring. }
      unfold fullin, fullout, fullin.
      cbn in X0, X1, X2. rewrite ?H4, ?H0 in X0, X1, X2. rewrite !(rotate_0 n r Hr) in X0, X1, X2.
      apply Z in X0, X1, X2. cbn [matmul_value].
      f_equal; [f_equal|]; [exact X0|exact X1|exact X2].
    Qed.
  End Gates.

  Lemma configure_fst : forall C (conf : cs F -> C * cs F) permute batch c,
    fst (pc_configure {| pc_config := C; pc_configure := conf; pc_permute := permute; pc_permute_batch := batch |} c) = fst (conf c).
  Proof. reflexivity. Qed.
  Lemma configure_snd : forall C (conf : cs F -> C * cs F) permute batch c,
    snd (pc_configure {| pc_config := C; pc_configure := conf; pc_permute := permute; pc_permute_batch := batch |} c) = snd (conf c).
  Proof. reflexivity. Qed.
  (** laying out calls does not use [pc_configure] *)
  Lemma used_other_configure : forall C (conf conf' : cs F -> C * cs F) permute batch cfg own L calls other,
    chip_used {| pc_config := C; pc_configure := conf; pc_permute := permute; pc_permute_batch := batch |} cfg own L calls other ->
    chip_used {| pc_config := C; pc_configure := conf'; pc_permute := permute; pc_permute_batch := batch |} cfg own L calls other.
  Proof.
    intros C conf conf' permute batch cfg own L calls other U.
    induction U as [L U|L calls other ws L' out U IH K H|L calls other threads wss L' outs U IH T K H|L calls other L' copies U IH H].
    - exact (used_start _ _ _ L U).
    - exact (used_permute _ _ _ L calls other ws L' out IH K H).
    - exact (used_batch _ _ _ L calls other threads wss L' outs IH T K H).
    - exact (used_elsewhere _ _ _ L calls other L' copies IH H).
  Qed.

  (** what a circuit with the other variant of the chip is for the variant in the repository *)
  Lemma added_degree_5 : forall rcs m (cs0 : cs F) c,
    added cs0 (snd (septidon_configure_as rcs m true cs0)) c <-> added cs0 (snd (septidon_configure rcs m cs0)) c.
  Proof.
    intros rcs m cs0. destruct (configure5_cs rcs m cs0) as (A & B & C & _). destruct (configure_cs rcs m cs0) as (A' & B' & C' & _).
    intros [i|i|i]; cbn [added]; rewrite ?A, ?B, ?C, ?A', ?B', ?C'; tauto.
  Qed.
  Lemma used_degree_5 : forall rcs m (cs0 : cs F) L calls other,
    chip_used (septidon_degree_5_chip rcs m) (fst (pc_configure (septidon_degree_5_chip rcs m) cs0))
      (added cs0 (snd (pc_configure (septidon_degree_5_chip rcs m) cs0))) L calls other ->
    chip_used (septidon_chip rcs m) (fst (pc_configure (septidon_chip rcs m) cs0))
      (added cs0 (snd (pc_configure (septidon_chip rcs m) cs0))) L calls other.
  Proof.
    intros rcs m cs0 L calls other U. unfold septidon_degree_5_chip in U. rewrite configure_fst, configure_snd, configure5_chip in U. unfold septidon_chip. rewrite configure_fst, configure_snd, configure_chip.
    apply (used_own _ _ _ (added cs0 (snd (septidon_configure rcs m cs0)))) in U; [|apply added_degree_5].
    exact (used_other_configure septidon (septidon_configure_as rcs m true) (septidon_configure rcs m) (septidon_permute rcs m)
      (fun threads chip states => septidon_permute_batch rcs m threads chip states) _ _ _ _ _ U).
  Qed.

  Lemma sept_used_inv_chip : forall rcs m (cs0 : cs F) L calls other, table_ok rcs m ->
    chip_used (septidon_chip rcs m) (fst (pc_configure (septidon_chip rcs m) cs0))
      (added cs0 (snd (pc_configure (septidon_chip rcs m) cs0))) L calls other ->
    inv (sept_data rcs m (cs_adv cs0) (cs_fix cs0)) L calls other.
  Proof.
    intros rcs m cs0 L calls other HT U. unfold septidon_chip in U. rewrite configure_fst, configure_snd in U.
    exact (sept_used_inv rcs m cs0 L calls other HT U).
  Qed.

  Lemma stacked_fixed : forall rcs m a f L k n, 65 <= length rcs -> own_fix (sept_data rcs m a f) L 0 k -> 8 * k <= n ->
    sept_fixed rcs n (fixed_at L) f (rows_of 8 0 k)
    /\ (forall c r, c < 11 -> 8 * k <= r -> fixed_at L (c + f) r = fzero).
  Proof.
    intros rcs m a f L k n HL HF Hn. set (D := sept_data rcs m a f) in *.
    assert (FR : Forall (fun b => forall c o v, In (c, o, v) b -> o < 8) (repeat (cd_fix D) k)).
    { apply Forall_forall. intros b Hb. apply repeat_spec in Hb. subst b. cbn [cd_fix D sept_data]. intros c o v H.
      apply in_moved in H. destruct H as (c' & o' & H & -> & ->). apply REL_in in H. lia. }
    assert (RD : forall c i o, c < 11 -> i < k -> o < 8 -> fixed_at L (c + f) (o + (8 * i + 0)) = rd (REL rcs) c o).
    { intros c i o Hc Hi Ho. unfold fixed_at, rd. rewrite HF by (cbn; lia). rewrite stack_fix_w. cbn [cd_h D sept_data].
      rewrite stackw_read; [|exact FR|now rewrite repeat_length|exact Ho]. rewrite nth_repeat_lt by exact Hi.
      cbn [cd_fix D sept_data]. rewrite <- (Nat.add_0_r o) at 1. now rewrite last_write_moved. }
    assert (Z : forall c r, c < 11 -> 8 * k <= r -> fixed_at L (c + f) r = fzero).
    { intros c r Hc Hr. unfold fixed_at. rewrite HF by (cbn; lia). rewrite stack_fix_w. cbn [cd_h D sept_data].
      rewrite stackw_out; [reflexivity|exact FR|]. intros i Hi. rewrite repeat_length in Hi. lia. }
    split; [|exact Z]. split.
    - intros r Hr. destruct (Nat.lt_ge_cases r (8 * k)) as [H|H].
      + set (i := r / 8). set (o := r mod 8). assert (E : r = o + (8 * i + 0)) by (unfold i, o; rewrite Nat.add_0_r, Nat.add_comm; apply Nat.div_mod; lia).
        assert (Ho : o < 8) by (apply Nat.mod_upper_bound; lia). assert (Hi : i < k) by lia.
        rewrite E. rewrite <- (Nat.add_0_l f), RD by (assumption || lia). unfold rd. rewrite REL_last by assumption.
        destruct (Nat.eqb_spec o 7) as [->|N].
        * replace (existsb _ _) with true; [reflexivity|]. symmetry. apply existsb_exists. exists (8 * i + 0).
          split; [apply rows_of_in; now exists i|apply Nat.eqb_refl].
        * replace (existsb _ _) with false; [reflexivity|]. symmetry. apply not_true_is_false. intros X. apply existsb_exists in X.
          destruct X as (s & Hs & X). apply Nat.eqb_eq in X. apply rows_of_in in Hs. destruct Hs as (j & Hj & ->). lia.
      + rewrite <- (Nat.add_0_l f), Z by lia. replace (existsb _ _) with false; [reflexivity|]. symmetry. apply not_true_is_false.
        intros X. apply existsb_exists in X. destruct X as (s & Hs & X). apply Nat.eqb_eq in X. apply rows_of_in in Hs. destruct Hs as (j & Hj & ->). lia.
    - intros s o Hs Ho. apply rows_of_in in Hs. destruct Hs as (i & Hi & ->). split.
      + intros j Hj. rewrite RD by (assumption || lia). unfold rd. now rewrite REL_full by assumption.
      + intros j Hj. rewrite RD by (assumption || lia). unfold rd. now rewrite REL_part by assumption.
  Qed.

  Lemma degree_5_gates : forall rcs m (cs0 : cs F) n L adv,
    gates_hold n L adv (cs_gates (snd (pc_configure (septidon_degree_5_chip rcs m) cs0))) ->
    gates_hold n L adv (cs_gates (snd (pc_configure (septidon_chip rcs m) cs0))).
  Proof.
    intros rcs m cs0 n L adv H. unfold septidon_chip. unfold septidon_degree_5_chip in H. rewrite configure_snd in H. rewrite configure_snd. destruct (configure5_cs rcs m cs0) as (_ & _ & _ & G & _). destruct (configure_cs rcs m cs0) as (_ & _ & _ & G' & _).
    rewrite G in H. rewrite G'. intros g r Hg Hr. apply in_app_or in Hg. destruct Hg as [Hg|Hg].
    - apply H; [apply in_or_app; now left|exact Hr].
    - apply (gates_stronger rcs m n (fixed_at L) (selector_at L) adv (cs_adv cs0) (cs_fix cs0)); [|exact Hg|exact Hr].
      intros g' r' Hg' Hr'. apply H; [apply in_or_app; now right|exact Hr'].
  Qed.

  Theorem degree_5_sound_claim : forall (c : p128_constants F) s (cs0 : cs F) L calls other n adv,
    constants_ok c -> pc_partial_rounds c = 57 -> compact_spec c = Ok s ->
    let P := septidon_degree_5_chip (round_constants s) (mds s) in
    let cfg := fst (pc_configure P cs0) in let cs1 := snd (pc_configure P cs0) in
    chip_used P cfg (added cs0 cs1) L calls other -> 8 * length calls <= n ->
    gates_hold n L adv (cs_gates cs1) -> copies_hold L adv ->
    forall ws out, In (ws, out) calls ->
    map (word_at L adv) out = poseidon_permutation c (map (word_at L adv) ws).
  Proof.
    intros c s cs0 L calls other n adv Hc Hp Hs P cfg cs1 U Hn G C.
    unfold cfg, cs1, P in U, G. clear P cfg cs1. apply used_degree_5 in U.
    apply (septidon_sound_claim c s cs0 L calls other n adv Hc Hp Hs U Hn); [|exact C]. apply degree_5_gates, G.
  Qed.

  Theorem degree_5_full_claim : forall (c : p128_constants F) s (cs0 : cs F) L calls other n adv,
    constants_ok c -> pc_partial_rounds c = 57 -> compact_spec c = Ok s ->
    let P := septidon_degree_5_chip (round_constants s) (mds s) in
    let cfg := fst (pc_configure P cs0) in let cs1 := snd (pc_configure P cs0) in
    chip_used P cfg (added cs0 cs1) L calls other -> 8 * length calls = n ->
    (gates_hold n L adv (cs_gates cs1) <-> gates_hold n L adv (cs_gates (snd (pc_configure (septidon_chip (round_constants s) (mds s)) cs0)))).
  Proof.
    intros c s cs0 L calls other n adv Hc Hp Hs P cfg cs1 U Hn.
    unfold cfg, cs1, P in U. unfold cs1, P. clear P cfg cs1. apply used_degree_5 in U. split; [apply degree_5_gates|].
    destruct (compact_table c s Hc Hp Hs) as [HT _]. pose proof (sept_used_inv_chip _ _ cs0 L calls other HT U) as (_ & _ & HF & _).
    destruct (stacked_fixed _ _ _ _ L _ n (table_rows _ _ HT) HF ltac:(lia)) as [SF _].
    unfold septidon_chip, septidon_degree_5_chip. rewrite !configure_snd. intros H.
    destruct (configure5_cs (round_constants s) (mds s) cs0) as (_ & _ & _ & G & _).
    destruct (configure_cs (round_constants s) (mds s) cs0) as (_ & _ & _ & G' & _). rewrite G' in H. rewrite G.
    intros g r Hg Hr. apply in_app_or in Hg. destruct Hg as [Hg|Hg].
    - apply H; [apply in_or_app; now left|exact Hr].
    - apply (gates_weaker (round_constants s) (mds s) n (fixed_at L) (selector_at L) adv (cs_adv cs0) (cs_fix cs0)); [| |exact Hg|exact Hr].
      + intros r' Hr'. assert (E : r' = r' mod 8 + (8 * (r' / 8) + 0)) by (rewrite Nat.add_0_r, Nat.add_comm; apply Nat.div_mod; lia).
        assert (Ho : r' mod 8 < 8) by (apply Nat.mod_upper_bound; lia).
        assert (Hb : In (8 * (r' / 8) + 0) (rows_of 8 0 (length calls))) by (apply rows_of_in; exists (r' / 8); split; [lia|reflexivity]).
        assert (Fit : forall b, In b (rows_of 8 0 (length calls)) -> b + 8 <= n).
        { intros b B. apply rows_of_in in B. destruct B as (i & Hi & ->). lia. }
        pose proof (block_fixed_in (round_constants s) n (fixed_at L) (selector_at L) adv (cs_fix cs0) _ SF (rows_of_apart 8 _ 0) Fit _ Hb _ Ho) as (Q & _).
        rewrite <- E in Q. exact Q.
      + intros g' r' Hg' Hr'. apply H; [apply in_or_app; now right|exact Hr'].
  Qed.

  Lemma compact_mds : forall (c : p128_constants F) s, compact_spec c = Ok s -> mds s = pc_mds c.
  Proof.
    intros c s Hs. unfold compact_spec in Hs. destruct (compact_round_constants _ _ _ _); [|discriminate]. cbn [bind] in Hs.
    injection Hs as <-. reflexivity.
  Qed.
  Lemma matmul_mat_vec : forall m (x y z : F), length m = 3 /\ Forall (fun r => length r = 3) m ->
    of3 (matmul_value m (sbox_value x fzero, sbox_value y fzero, sbox_value z fzero)) = mat_vec m [power5 x; power5 y; power5 z].
  Proof.
    intros m x y z [H R]. destruct m as [|r0 [|r1 [|r2 [|r3 m]]]]; try discriminate.
    inversion R as [|? ? R0 R']; subst. inversion R' as [|? ? R1 R'']; subst. inversion R'' as [|? ? R2 _]; subst.
    destruct r0 as [|a0 [|a1 [|a2 [|a3 r0]]]]; try discriminate. destruct r1 as [|b0 [|b1 [|b2 [|b3 r1]]]]; try discriminate.
    destruct r2 as [|c0 [|c1 [|c2 [|c3 r2]]]]; try discriminate.
    cbn. unfold sbox_value, pow_5_value, power5, mnth, fnth. cbn. f_equal; [|f_equal; [|f_equal]]; ring.
  Qed.
  Theorem degree_5_forced_claim : forall (c : p128_constants F) s (cs0 : cs F) L calls other n adv,
    constants_ok c -> pc_partial_rounds c = 57 -> compact_spec c = Ok s ->
    let P := septidon_degree_5_chip (round_constants s) (mds s) in
    let cfg := fst (pc_configure P cs0) in let cs1 := snd (pc_configure P cs0) in
    chip_used P cfg (added cs0 cs1) L calls other -> 8 * length calls < n ->
    gates_hold n L adv (cs_gates cs1) -> copies_hold L adv ->
    forall ws out, hd_error calls = Some (ws, out) ->
    map (word_at L adv) ws
    = mat_vec (pc_mds c) (map (fun j => power5 (adv (j + cs_adv cs0) (n - 1))) [0; 1; 2]).
  Proof.
    intros c s cs0 L calls other n adv Hc Hp Hs P cfg cs1 U Hn H C ws out Hd.
    assert (E0 : nth_error calls 0 = Some (ws, out)) by (destruct calls; exact Hd).
    unfold cfg, cs1, P in U, H. clear P cfg cs1. apply used_degree_5 in U.
    destruct (compact_table c s Hc Hp Hs) as [HT _]. pose proof (sept_used_inv_chip _ _ cs0 L calls other HT U) as I.
    destruct (call_words _ L calls other 0 ws out adv I E0) as [W _]. rewrite (W C). clear W.
    destruct I as (_ & _ & HF & _). destruct (stacked_fixed _ _ _ _ L _ n (table_rows _ _ HT) HF ltac:(lia)) as [SF Z].
    assert (Len : 0 < length calls) by (destruct calls; [discriminate|cbn; lia]).
    assert (Fit : forall b, In b (rows_of 8 0 (length calls)) -> b + 8 <= n).
    { intros b B. apply rows_of_in in B. destruct B as (i & Hi & ->). lia. }
    assert (Out : forall b, In b (rows_of 8 0 (length calls)) -> ~ (b <= n - 1 < b + 8)).
    { intros b B. apply rows_of_in in B. destruct B as (i & Hi & ->). lia. }
    assert (X := full_row (round_constants s) (mds s) n (fixed_at L) (selector_at L) adv (cs_adv cs0) (cs_fix cs0) (n - 1)).
    destruct (configure5_cs (round_constants s) (mds s) cs0) as (_ & _ & _ & G & _).
    unfold septidon_degree_5_chip in H. rewrite configure_snd, G in H.
    specialize (X (fun g Hg => H g (n - 1) (in_or_app _ _ _ (or_intror Hg)) ltac:(lia)) ltac:(lia)).
    specialize (X (last_out (round_constants s) n (fixed_at L) (cs_fix cs0) _ SF Fit (n - 1) 4 ltac:(lia) ltac:(lia) Out)).
    specialize (X (last_out (round_constants s) n (fixed_at L) (cs_fix cs0) _ SF Fit (n - 1) 0 ltac:(lia) ltac:(lia) Out)).
    assert (R : rotate n (n - 1) 1 = 0).
    { unfold rotate. replace (Z.of_nat (n - 1) + 1)%Z with (Z.of_nat n) by lia. rewrite Z.mod_same by lia. reflexivity. }
    rewrite R in X. unfold fullin, fullout, fullin in X.
    rewrite !Z in X by lia. cbn [cd_in cd_h sept_data Nat.mul Nat.add].
    transitivity (of3 (adv (cs_adv cs0) 0, adv (1 + cs_adv cs0) 0, adv (2 + cs_adv cs0) 0)); [reflexivity|]. rewrite X.
    assert (E : mds s = pc_mds c).
    { exact (compact_mds c s Hs). }
    rewrite E. apply matmul_mat_vec. apply Hc.
  Qed.

  (** unused rows of an honest prover *)
  Lemma unused_row : forall rcs m (cs0 : cs F) L calls other u blind j r, table_ok rcs m ->
    inv (sept_data rcs m (cs_adv cs0) (cs_fix cs0)) L calls other -> 8 * length calls <= r < u -> j < 13 ->
    honest u L blind (j + cs_adv cs0) r = fzero.
  Proof.
    intros rcs m cs0 L calls other u blind j r HT I Hr Hj. destruct I as (_ & _ & _ & HA & _).
    unfold honest. replace (r <? u) with true by (symmetry; apply Nat.ltb_lt; lia).
    rewrite HA by (cbn; lia). rewrite stack_adv_w. cbn [cd_h sept_data]. rewrite stackw_out; [reflexivity| |].
    - apply (adv_rows (sept_data rcs m (cs_adv cs0) (cs_fix cs0)) _ (sept_laws _ _ _ _ (table_rows _ _ HT) HT)).
    - intros i Hi. rewrite !map_length in Hi. lia.
  Qed.

  Lemma used_degree_5_back : forall rcs m (cs0 : cs F) L calls other,
    chip_used (septidon_chip rcs m) (fst (pc_configure (septidon_chip rcs m) cs0))
      (added cs0 (snd (pc_configure (septidon_chip rcs m) cs0))) L calls other ->
    chip_used (septidon_degree_5_chip rcs m) (fst (pc_configure (septidon_degree_5_chip rcs m) cs0))
      (added cs0 (snd (pc_configure (septidon_degree_5_chip rcs m) cs0))) L calls other.
  Proof.
    intros rcs m cs0 L calls other U. unfold septidon_chip in U. rewrite configure_fst, configure_snd, configure_chip in U.
    unfold septidon_degree_5_chip. rewrite configure_fst, configure_snd, configure5_chip.
    apply (used_own _ _ _ (added cs0 (snd (septidon_configure_as rcs m true cs0)))) in U; [|intros c; symmetry; apply added_degree_5].
    exact (used_other_configure septidon (septidon_configure rcs m) (septidon_configure_as rcs m true) (septidon_permute rcs m)
      (fun threads chip states => septidon_permute_batch rcs m threads chip states) _ _ _ _ _ U).
  Qed.

  (** an honest prover with an unused row at the end *)
  Lemma degree_5_rejects : forall (c : p128_constants F) s (cs0 : cs F) L calls other n blind,
    constants_ok c -> pc_partial_rounds c = 57 -> compact_spec c = Ok s ->
    let P := septidon_degree_5_chip (round_constants s) (mds s) in
    let cfg := fst (pc_configure P cs0) in let cs1 := snd (pc_configure P cs0) in
    chip_used P cfg (added cs0 cs1) L calls other -> 8 * length calls < n ->
    let adv := honest n L blind in copies_hold L adv ->
    forall ws out, hd_error calls = Some (ws, out) -> map (word_at L adv) ws <> [fzero; fzero; fzero] ->
    ~ gates_hold n L adv (cs_gates cs1).
  Proof.
    intros c s cs0 L calls other n blind Hc Hp Hs P cfg cs1 U Hn adv C ws out Hd N G. apply N.
    rewrite (degree_5_forced_claim c s cs0 L calls other n adv Hc Hp Hs U Hn G C ws out Hd).
    unfold cfg, cs1, P in U. clear P cfg cs1 G. apply used_degree_5 in U. destruct (compact_table c s Hc Hp Hs) as [HT _].
    pose proof (sept_used_inv_chip _ _ cs0 L calls other HT U) as I. cbn [map]. unfold adv.
    rewrite !(unused_row _ _ cs0 L calls other n blind _ (n - 1) HT I) by lia.
    destruct Hc as ([H R] & _). clear - PF H R.
    destruct (pc_mds c) as [|r0 [|r1 [|r2 [|r3 m]]]]; try discriminate.
    inversion R as [|? ? R0 R']; subst. inversion R' as [|? ? R1 R'']; subst. inversion R'' as [|? ? R2 _]; subst.
    destruct r0 as [|a0 [|a1 [|a2 [|a3 r0]]]]; try discriminate. destruct r1 as [|b0 [|b1 [|b2 [|b3 r1]]]]; try discriminate.
    destruct r2 as [|c0 [|c1 [|c2 [|c3 r2]]]]; try discriminate.
    cbn. unfold power5. f_equal; [|f_equal; [|f_equal]]; ring.
  Qed.

  (** the degree stays 6 *)
  Lemma gates5_within : forall rcs m a f g, In g (gates_with rcs m (EConst fone) a f) -> within 6 (-3) 4 g.
  Proof.
    intros rcs m a f.
    assert (X : forallb (fun g => (degree g <=? 6) && forallb (fun r => (-3 <=? r)%Z && (r <=? 4)%Z) (rotations g)) (gates_with rcs m (EConst fone) a f) = true)
      by reflexivity.
    intros g Hg. rewrite forallb_forall in X. specialize (X g Hg). apply andb_prop in X. destruct X as [X Y].
    apply Nat.leb_le in X. split; [exact X|]. intros r Hr. rewrite forallb_forall in Y. specialize (Y r Hr). lia.
  Qed.
  Theorem degree_5_degree_claim : forall rcs m (cs0 cs1 : cs F) cfg, septidon_configure_as rcs m true cs0 = (cfg, cs1) ->
    adds_gates cs0 cs1 6 (-3) 4 /\ adds_columns cs0 cs1 13 11 0 /\ cs_lookups cs1 = cs_lookups cs0
    /\ required_degree cs1 = max (required_degree cs0) 6.
  Proof.
    intros rcs m cs0 cs1 cfg H. destruct (configure5_cs rcs m cs0) as (A & B & C & D & E). rewrite H in A, B, C, D, E. cbn [snd] in *.
    assert (G : adds_gates cs0 cs1 6 (-3) 4).
    { exists (gates_with rcs m (EConst fone) (cs_adv cs0) (cs_fix cs0)). split; [exact D|]. split; [apply gates5_within|].
      set (l := gates_with rcs m (EConst fone) (cs_adv cs0) (cs_fix cs0)). exists (nth 9 l (EConst fzero)).
      split; [apply nth_In; apply Nat.ltb_lt; reflexivity|reflexivity]. }
    split; [exact G|]. split; [split; [exact A|split; [exact B|exact C]]|]. split; [exact E|].
    apply (added_degree cs0 cs1 6 (-3) 4 []); [exact G|now rewrite app_nil_r|intros l []].
  Qed.
End Claims.
