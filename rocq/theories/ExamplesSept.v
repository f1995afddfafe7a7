(** Concrete circuits that meet the hypotheses of the chip theorems: three words in a column of their own,
    permuted twice. *)
From Coq Require Import ZArith List Arith Lia Bool.
From Verif Require Import Field ZpField Primes Rust ListAux Primitives Specs Bn256 Const_proof Link Base_claims
  Halo2 Septidon SeptVal_proof PermuteChip ChipUse Layout_proof Contract SeptGate_proof SeptBlock_proof SeptLayout_proof SeptChip_proof Stack_proof Sept_claims ExamplesBase.
Import ListNotations.
Local Open Scope nat_scope.
Local Open Scope rust_scope.

Section TwoCalls.
  Context {F : Type} {FO : FieldOps F} {PF : PrimeField F}.

  (** a circuit with one advice column *)
  Definition host : cs F := snd (advice_column cs_empty).
  Definition host_words (x y z : F) : Layouter F (list (acell F)) :=
    assign_region (rmap (fun '(o, v) => assign_advice 0 o (Some v)) [(0, x); (1, y); (2, z)]).
  Definition hosted (x y z : F) : layout F :=
    match host_words x y z (layout_empty host) with Ok (L, _) => L | Panic => layout_empty host end.
  Definition host_word (o : nat) (v : F) : acell F :=
    {| ac_cell := {| ce_region := 0; ce_off := o; ce_col := Adv 0 |}; ac_val := Some v |}.

  Lemma host_words_ok : forall x y z,
    host_words x y z (layout_empty host) = Ok (hosted x y z, [host_word 0 x; host_word 1 y; host_word 2 z]).
  Proof. reflexivity. Qed.

  Lemma unused_hosted : forall (cs1 : cs F) x y z, unused (added host cs1) (hosted x y z).
  Proof.
    intros cs1 x y z. assert (Own : ~ added host cs1 (Adv 0)) by (intros [A _]; cbn in A; lia).
    split; [|split; [|split]].
    - intros [[|i]|i|i] H; [easy|reflexivity..].
    - intros c r v H. cbn in H. decompose [or] H; try easy; match goal with E : _ = _ |- _ => inversion E; subst; exact Own end.
    - easy.
    - easy.
  Qed.

  Definition known (L : layout F) (adv : nat -> nat -> F) (calls : list (list (acell F) * list (acell F))) : Prop :=
    forall i ws out, nth_error calls i = Some (ws, out) ->
       Forall (fun w => ac_val w = Some (word_at L adv w)
                 \/ exists j ws' out', j < i /\ nth_error calls j = Some (ws', out') /\ In w out') ws.

  Lemma two_calls_in : forall P (perm : list F -> list F) h, chip_correct P perm h -> forall x y z,
    let cfg := fst (pc_configure P host) in let cs1 := snd (pc_configure P host) in
    exists L out out2,
      let calls := [([host_word 0 x; host_word 1 y; host_word 2 z], out); (out, out2)] in
      chip_used P cfg (added host cs1) L calls []
      /\ forall n, 3 <= n -> h * length calls <= n -> forall blind, let adv := honest n L blind in
         known L adv calls
         /\ map (word_at L adv) [host_word 0 x; host_word 1 y; host_word 2 z] = [x; y; z]
         /\ gates_hold n L adv (cs_gates cs1) /\ copies_hold L adv.
  Proof.
    intros P perm h PC x y z cfg cs1. pose proof (PC host) as X.
    destruct X as (D & Laws & Eh & Own & CA & CF & CS & EG & _ & _ & _ & R1 & _).
    fold cfg cs1 in CA, CF, CS, EG, Own, R1.
    set (own := added host cs1).
    assert (Out : ~ own (Adv 0)). { intros [A B]. cbn in A. lia. }
    assert (Nx : forall c, own c -> lo_next (hosted x y z) c = 0).
    { intros c Hc. destruct c as [[|i]|i|i]; [easy|reflexivity..]. }
    set (ws := [host_word 0 x; host_word 1 y; host_word 2 z]).
    assert (U0 : chip_used P cfg own (hosted x y z) [] []).
    { apply (used_elsewhere P cfg own (layout_empty host) [] [] (hosted x y z) []).
      - apply (used_start P cfg own (layout_empty host)). repeat split; cbn; easy.
      - exists [0], (lo_adv (hosted x y z)), [], []. split; [reflexivity|].
        split; [intros c Hc; rewrite Nx by assumption; reflexivity|]. split; [reflexivity|].
        split; [|repeat split; cbn; easy]. cbn. intros c r v H. decompose [or] H; try easy; match goal with E : _ = _ |- _ => inversion E; subst; exact Out end.  }
    assert (K0 : three_words (hosted x y z) ws).
    { split; [reflexivity|]. repeat constructor; cbn; lia. }
    assert (Rd : ready D (hosted x y z)).
    { intros c Hc. apply Own in Hc. rewrite Nx by assumption. lia. }
    destruct (R1 [ws] _ Rd (Forall_cons _ K0 (Forall_nil _))) as (L1 & o1 & E1 & S1).
    assert (exists out, o1 = [out]) as [out ->].
    { pose proof (stacked_length D _ _ _ _ S1) as H. destruct o1 as [|a [|b l]]; try discriminate H. now exists a. }
    destruct S1 as (St1 & _ & Rd1 & _ & A1 & _ & _ & _ & _ & _ & _ & K1).
    destruct (R1 [out] _ Rd1 K1) as (L2 & o2 & E2 & S2).
    assert (exists out2, o2 = [out2]) as [out2 ->].
    { pose proof (stacked_length D _ _ _ _ S2) as H. destruct o2 as [|a [|b l]]; try discriminate H. now exists a. }
    destruct S2 as (St2 & _ & Rd2 & _ & A2 & _ & _ & _ & _ & _ & _ & K2).
    assert (One : forall w L r o, lmap (pc_permute P cfg) [w] L = Ok (r, [o]) -> pc_permute P cfg w L = Ok (r, o)).
    { intros w L r o E. cbn [lmap] in E. apply lbind_inv in E. destruct E as (L' & o' & E' & E).
      unfold lbind, lret in E. cbn [bind] in E. inversion E; subst. exact E'. }
    apply One in E1, E2. inversion K1 as [|? ? K1' _]; subst.
    pose proof (used_permute P cfg own _ _ _ ws L1 out U0 K0 E1) as U1.
    pose proof (used_permute P cfg own _ _ _ out L2 out2 U1 K1' E2) as U2.
    exists L2, out, out2. intros calls. split; [exact U2|]. intros n H3 Hn blind adv.
    assert (Starts : nth 0 (lo_starts L2) 0 = 0).
    { destruct St1 as [n1 St1], St2 as [n2 St2]. rewrite St2, St1. reflexivity. }
    assert (Rd0 : forall o v, In (o, v) [(0, x); (1, y); (2, z)] -> adv 0 o = v).
    { intros o v H. unfold adv, honest. rewrite A2, A1, !last_write_app.
      replace (o <? n) with true by (symmetry; apply Nat.ltb_lt; cbn in H; decompose [or] H; try easy;
        match goal with E : _ = _ |- _ => inversion E; lia end).
      assert (NO : forall t wss r, last_write (stack_adv D t wss) 0 r = None).
      { intros t wss r. apply last_write_none. intros v' X. rewrite stack_adv_w in X. apply stackw_in in X.
        destruct X as (i & o' & Hi & X & _). apply (nth_In _ []) in Hi. apply in_map_iff in Hi.
        destruct Hi as (w & Ew & _). rewrite <- Ew in X.
        apply (law_adv_rows D perm Laws) in X. apply Out, Own, X. }
      rewrite !NO. cbn in H. decompose [or] H; try easy; match goal with E : _ = _ |- _ => inversion E; subst end;
        reflexivity. }
    assert (Wd : forall o v, In (o, v) [(0, x); (1, y); (2, z)] -> word_at L2 adv (host_word o v) = v).
    { intros o v H. unfold word_at, abs_cell. cbn [host_word ac_cell ce_col ce_off ce_region]. rewrite Starts, Nat.add_0_r.
      now apply Rd0. }
    assert (T : known L2 adv calls).
    { intros [|[|i]] w o H; cbn in H; [| |destruct i; discriminate H].
      - inversion H; subst. apply Forall_forall. intros w Hw. left.
        cbn in Hw. decompose [or] Hw; try easy; match goal with E : _ = w |- _ => subst w end;
          cbn [host_word ac_val]; f_equal; symmetry; apply Wd; cbn; auto.
      - inversion H; subst. apply Forall_forall. intros w' Hw. right. exists 0, ws, w. split; [lia|]. now split. }
    split; [exact T|]. split; [cbn [map ws]; rewrite !Wd by (cbn; auto); reflexivity|].
    destruct (used_complete P perm _ PC host L2 calls [] n n blind U2 Hn (le_n _) T) as (G & _ & C).
    split; [|now apply C]. apply G. intros g r [].
  Qed.
  Lemma two_calls : forall P (perm : list F -> list F) h, chip_correct P perm h -> forall x y z,
    let cfg := fst (pc_configure P host) in let cs1 := snd (pc_configure P host) in
    exists L out out2,
      let calls := [([host_word 0 x; host_word 1 y; host_word 2 z], out); (out, out2)] in
      let n := 2 * h + 3 in
      chip_used P cfg (added host cs1) L calls []
      /\ h * length calls <= n
      /\ forall blind, let adv := honest n L blind in
         known L adv calls
         /\ map (word_at L adv) [host_word 0 x; host_word 1 y; host_word 2 z] = [x; y; z]
         /\ gates_hold n L adv (cs_gates cs1) /\ copies_hold L adv.
  Proof.
    intros P perm h PC x y z cfg cs1. destruct (two_calls_in P perm h PC x y z) as (L & out & out2 & U & H).
    exists L, out, out2. intros calls n. split; [exact U|]. assert (Hn : h * length calls <= n) by (cbn; unfold n; lia).
    split; [exact Hn|]. apply H; [unfold n; lia|exact Hn].
  Qed.
End TwoCalls.

(** BN254 *)
Lemma ex_bn_septidon : exists s, compact_spec bn256_c = Ok s /\ constants_ok bn256_c /\ pc_partial_rounds bn256_c = 57
  /\ let P := septidon_chip (round_constants s) (mds s) in
     let cfg := fst (pc_configure P (host (F := Fr))) in let cs1 := snd (pc_configure P host) in
     exists L ws out out2, let calls := [(ws, out); (out, out2)] in
       chip_used P cfg (added host cs1) L calls [] /\ 8 * length calls <= 19
       /\ forall blind, let adv := honest 19 L blind in
          known L adv calls /\ map (word_at L adv) ws = [fr 5; fr 7; fr 11]
          /\ gates_hold 19 L adv (cs_gates cs1) /\ copies_hold L adv.
Proof.
  destruct (compact_spec_exists bn256_c bn256_ok) as [s Hs]. exists s. split; [exact Hs|].
  split; [exact bn256_ok|]. split; [reflexivity|].
  destruct (two_calls _ _ 8 (septidon_poseidon bn256_c s bn256_ok eq_refl Hs) (fr 5) (fr 7) (fr 11)) as (L & out & out2 & H).
  exists L. eexists. exists out, out2. exact H.
Qed.

(** two blocks at scattered rows *)
Lemma ex_scattered : exists s, compact_spec bn256_c = Ok s
  /\ let cs1 := snd (septidon_configure (round_constants s) (mds s) (host (F := Fr))) in
     let blocks := [(40, [host_word 0 (fr 5); host_word 1 (fr 7); host_word 2 (fr 11)]);
                    (16, [host_word 0 (fr 5); host_word 1 (fr 7); host_word 2 (fr 11)])] in
     unused (added host cs1) (hosted (fr 5) (fr 7) (fr 11))
     /\ Forall (fun '(_, ws) => length ws = 3) blocks
     /\ (exists L outs, lmap (fun '(row, ws) => place row (permute_at (round_constants s) (mds s)
          (fst (septidon_configure (round_constants s) (mds s) host)) ws 0)) blocks (hosted (fr 5) (fr 7) (fr 11)) = Ok (L, outs))
     /\ disjoint_blocks 8 (map fst blocks) /\ (forall row, In row (map fst blocks) -> row + 8 <= 64).
Proof.
  destruct (compact_spec_exists bn256_c bn256_ok) as [s Hs]. exists s. split; [exact Hs|].
  intros cs1 blocks.
  split; [apply unused_hosted|].
  split; [repeat constructor|]. split.
  - rewrite configure_chip. apply place_runs; [|repeat constructor].
    apply (table_rows _ (mds s)), (compact_table bn256_c s bn256_ok eq_refl Hs).
  - split; [repeat constructor; cbn; lia|]. cbn. intros row H. lia.
Qed.
