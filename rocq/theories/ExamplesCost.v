(** Concrete circuits that meet the hypotheses of the theorems about rows and copies, with the counts evaluated. *)
From Coq Require Import ZArith List Arith Lia Bool.
From Verif Require Import Field ZpField Primes Rust ListAux BigSum Perm_proof SpecHash Primitives Specs Bn256 Const_proof Link Halo2 ChipUse Septidon PermuteChip Pow5 Built Pow5Use
  Gadget GadgetUse TableUse CostUse Layout_proof Table_claims Cost_claims ExamplesSept ExamplesPow5 ExamplesGadget ExamplesTable ExamplesBase.
Import ListNotations.
Local Open Scope nat_scope.

(** the host circuit of ExamplesGadget.v: [enable_constant] also enables equality on column 6 *)
Lemma tri_cs_eq : cs_eq tri_cs = [Fix 6; Adv 0; Adv 1; Adv 2; Fix 3; Fix 4; Fix 5].
Proof. reflexivity. Qed.

Lemma tri_copies : forall (L : layout F19), forallb (fun '(a, b) => existsb (column_eqb (fst a)) (cs_eq tri_cs) && existsb (column_eqb (fst b)) (cs_eq tri_cs)) (lo_copy L) = true ->
  copies_enabled tri_cs L.
Proof.
  intros L H a b X. rewrite forallb_forall in H. apply H in X. apply andb_prop in X. destruct X as [X Y].
  apply existsb_exists in X, Y. destruct X as (x & X & EX), Y as (y & Y & EY). apply column_eqb_eq in EX, EY. subst. now split.
Qed.

(** two blocks of input with a constant word, five words of output: 1 + 2 * 7 + 2 * 4 rows below the three rows of the
    message, and three constants *)
Lemma ex_session_cost : exists L1 L2 msg out, tri_message (layout_empty tri_cs) = Ok (L1, msg)
  /\ poseidon_spec 3 tri /\ mat_prod_id 3 (mds tri) (mds_inv tri) /\ mat_prod_id 3 (mds_inv tri) (mds tri)
  /\ columns_ok 3 [0; 1; 2] 3 [0; 1; 2] [3; 4; 5] /\ pow5_configure 3 2 tri [0; 1; 2] 3 [0; 1; 2] [3; 4; 5] tri_host = (tri_cfg, tri_cs)
  /\ lo_const L1 = Some 6 /\ In (Fix 6) (cs_eq tri_cs) /\ ~ In (Fix 6) (p5_columns tri_cfg)
  /\ let input := map Message msg ++ [Padding (g 1)] in
     Forall (padded_copyable tri_cs) input /\ circuit_session 3 2 tri tri_cfg (g 9) input 5 L1 = Ok (L2, out)
     /\ fits 26 L1 /\ top (p5_columns tri_cfg) L1 = 3 /\ lo_next L1 (Fix 6) = 0 /\ copies_enabled tri_cs L1
     /\ permute_rows tri = 4 /\ session_rows tri 2 4 5 = 23
     /\ top (p5_columns tri_cfg) L2 = 26 /\ lo_next L2 (Fix 6) = 3 /\ fits 26 L2 /\ ~ fits 25 L2
     /\ copies_enabled tri_cs L2 /\ lo_copy L2 <> [].
Proof.
  destruct tri_inv as [I1 I2].
  destruct (tri_message (layout_empty tri_cs)) as [[L1 msg]|] eqn:E1; [|vm_compute in E1; discriminate E1].
  assert (V1 := E1). vm_compute in V1. injection V1 as VL Vm.
  set (input := map Message msg ++ [Padding (g 1)]).
  destruct (circuit_session 3 2 tri tri_cfg (g 9) input 5 L1) as [[L2 out]|] eqn:E2;
    [|unfold input in E2; rewrite <- VL, <- Vm in E2; vm_compute in E2; discriminate E2].
  assert (W : L2 = layout_of (circuit_session 3 2 tri tri_cfg (g 9) input 5 L1)) by (rewrite E2; reflexivity).
  unfold input in W. rewrite <- VL, <- Vm in W.
  exists L1, L2, msg, out. split; [reflexivity|]. split; [exact tri_spec_ok|]. split; [exact I1|]. split; [exact I2|].
  split; [exact tri_columns|]. split; [reflexivity|]. split; [now rewrite <- VL|].
  split; [left; reflexivity|]. split. { intros X. cbn in X. decompose [or] X; easy. }
  split. { rewrite <- Vm. repeat (constructor; [first [exact I|right; left; reflexivity]|]). constructor. }
  split; [exact E2|].
  split. { rewrite <- VL. apply rows_below_fits. vm_compute. reflexivity. }
  split; [rewrite <- VL; reflexivity|]. split; [rewrite <- VL; reflexivity|].
  split. { rewrite <- VL. intros a b []. }
  split; [reflexivity|]. split; [reflexivity|].
  split; [rewrite W; vm_compute; reflexivity|]. split; [rewrite W; vm_compute; reflexivity|].
  split. { rewrite W. apply rows_below_fits. vm_compute. reflexivity. }
  split. { assert (Q : existsb (fun x => snd (fst x) =? 25) (lo_adv L2) = true) by (rewrite W; vm_compute; reflexivity).
    intros (Fa & _). apply existsb_exists in Q. destruct Q as ([[c r] v] & Q & E). apply Nat.eqb_eq in E. cbn in E. subst r.
    specialize (Fa _ _ _ Q). lia. }
  split. { apply tri_copies. rewrite W. vm_compute. reflexivity. }
  assert (Q : length (lo_copy L2) <> 0) by (rewrite W; vm_compute; discriminate). intros X. now rewrite X in Q.
Qed.

(** the chips behind the hash circuit, called twice *)
Lemma ex_chip_layout : forall short, exists s P h L ws out out2, build bn256_c short s P h
  /\ let cfg := fst (pc_configure P (host (F := Fr))) in let cs1 := snd (pc_configure P host) in let m := enable_equality (Adv 0) cs1 in
     let calls := [(ws, out); (out, out2)] in
     chip_used P cfg (added host cs1) L calls [] /\ incl (cs_eq cs1) (cs_eq m)
     /\ (forall ws out, In (ws, out) calls -> Forall (copyable m) ws) /\ copies_enabled m L /\ length ws = 3.
Proof.
  intros short. destruct (bn_build short) as (s & P & h & B & _).
  destruct (build_facts _ _ _ _ _ B) as (_ & _ & PC & _ & _).
  destruct (two_calls _ _ h PC (fr 5) (fr 7) (fr 11)) as (L & out & out2 & U & _).
  exists s, P, h, L. eexists. exists out, out2. split; [exact B|]. cbn zeta. split; [exact U|].
  assert (I : incl (cs_eq (snd (pc_configure P (host (F := Fr))))) (cs_eq (enable_equality (Adv 0) (snd (pc_configure P host))))).
  { intros x X. unfold enable_equality. cbn [cs_eq]. apply in_app_iff. now left. }
  split; [exact I|].
  destruct (chip_layout_claim bn256_c short s P h host _ L _ _ B U I) as (O & C & _).
  assert (W : forall ws out', In (ws, out') [([host_word 0 (fr 5); host_word 1 (fr 7); host_word 2 (fr 11)], out); (out, out2)] ->
    Forall (copyable (enable_equality (Adv 0) (snd (pc_configure P host)))) ws).
  { intros ws o [E|[E|[]]]; injection E as <- <-.
    - repeat (constructor; [unfold copyable, enable_equality; cbn [cs_eq]; apply in_app_iff; right; left; reflexivity|]). constructor.
    - apply (O _ _ (or_introl eq_refl)). }
  split; [exact W|]. split; [apply C; [intros a b []|exact W]|reflexivity].
Qed.
