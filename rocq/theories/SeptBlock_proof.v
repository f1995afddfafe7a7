(** The gates of the Septidon chip on a whole circuit with blocks at given rows. *)
From Coq Require Import ZArith List Arith Lia Bool.
From Verif Require Import Field Rust ListAux Primitives Halo2 Septidon SeptVal_proof SeptGate_proof Contract.
Import ListNotations.
Local Open Scope nat_scope.


Section Blocks.
  Context {F : Type} {FO : FieldOps F} {PF : PrimeField F}.
  Add Field Ffield : f_field.
  Variable rcs m : list (list F).
  Variable n : nat.
  Variables fx sl adv : nat -> nat -> F.
  Variables a f : nat.
  Variable bs : list nat.

  (** the fixed cells: one mark on the last row of each block, the constants inside the blocks *)
  Definition sept_fixed : Prop :=
    (forall r, r < n -> fx f r = if existsb (fun s => r =? 7 + s) bs then fone else fzero)
    /\ (forall s o, In s bs -> o < 8 ->
         (forall j, j < 3 -> fx (1 + j + f) (o + s) = mnth rcs (full_idx o) j)
         /\ (forall k, k < 7 -> fx (4 + k + f) (o + s) = mnth rcs (5 + 7 * o + k) 0)).

  Hypothesis Hfx : sept_fixed.
  Hypothesis Hap : apart 8 bs.
  Hypothesis Hfit : forall s, In s bs -> s + 8 <= n.

  Lemma rotate_up : forall r i, r < n -> i < 8 -> 8 <= n ->
    rotate n r (Z.of_nat i) = if r + i <? n then r + i else r + i - n.
  Proof.
    intros r i Hr Hi Hn. unfold rotate. destruct (Nat.ltb_spec (r + i) n).
    - rewrite Z.mod_small by lia. lia.
    - replace (Z.of_nat r + Z.of_nat i)%Z with (Z.of_nat (r + i - n) + 1 * Z.of_nat n)%Z by lia.
      rewrite Z.mod_add by lia. rewrite Z.mod_small by lia. lia.
  Qed.

  Lemma last_in : forall s o i, In s bs -> o < 8 -> i < 8 ->
    fx f (rotate n (o + s) (Z.of_nat i)) = if i + o =? 7 then fone else fzero.
  Proof.
    intros s o i Hs Ho Hi. pose proof (Hfit s Hs) as Hn.
    rewrite rotate_up by lia. destruct (Nat.ltb_spec (o + s + i) n) as [H|H].
    - rewrite (proj1 Hfx) by assumption.
      destruct (Nat.eqb_spec (i + o) 7) as [E|E].
      + replace (existsb _ bs) with true; [reflexivity|]. symmetry. apply existsb_exists.
        exists s. split; [assumption|]. apply Nat.eqb_eq. lia.
      + replace (existsb _ bs) with false; [reflexivity|]. symmetry. apply not_true_is_false.
        intros X. apply existsb_exists in X. destruct X as (s' & Hs' & X). apply Nat.eqb_eq in X.
        destruct (apart_in 8 bs s s' Hap Hs Hs') as [->|]; lia.
    - rewrite (proj1 Hfx) by lia.
      replace (existsb _ bs) with false.
      + destruct (Nat.eqb_spec (i + o) 7); [lia|reflexivity].
      + symmetry. apply not_true_is_false. intros X. apply existsb_exists in X.
        destruct X as (s' & Hs' & X). apply Nat.eqb_eq in X. lia.
  Qed.

  Lemma last_out : forall r i, r < n -> i < 8 -> (forall s, In s bs -> ~ (s <= r < s + 8)) ->
    fx f (rotate n r (Z.of_nat i)) = fzero.
  Proof.
    intros r i Hr Hi Hout.
    assert (X : existsb (fun s => rotate n r (Z.of_nat i) =? 7 + s) bs = false).
    { apply not_true_is_false. intros X. apply existsb_exists in X.
      destruct X as (s & Hs & X). apply Nat.eqb_eq in X. pose proof (Hfit s Hs) as Hn.
      rewrite rotate_up in X by lia. pose proof (Hout s Hs).
      destruct (Nat.ltb_spec (r + i) n); lia. }
    rewrite (proj1 Hfx) by (apply rotate_lt; lia). now rewrite X.
  Qed.

  Lemma q_sum : forall r, qv n fx sl adv f r
    = fadd (fadd (fadd (fadd (fadd (fadd (fadd (fx f (rotate n r (Z.of_nat 0)))
       (fx f (rotate n r (Z.of_nat 1)))) (fx f (rotate n r (Z.of_nat 2)))) (fx f (rotate n r (Z.of_nat 3))))
       (fx f (rotate n r (Z.of_nat 4)))) (fx f (rotate n r (Z.of_nat 5)))) (fx f (rotate n r (Z.of_nat 6))))
       (fx f (rotate n r (Z.of_nat 7))).
  Proof. reflexivity. Qed.

  Lemma block_fixed_in : forall s, In s bs -> block_fixed rcs n fx sl adv f s.
  Proof.
    intros s Hs o Ho. split; [|split; [|split]].
    - rewrite q_sum, !(last_in s o) by (assumption || lia).
      do 8 (destruct o as [|o]; [cbn [Nat.add Nat.eqb]; ring|]). lia.
    - unfold midv. change 4%Z with (Z.of_nat 4). rewrite last_in by (assumption || lia).
      do 8 (destruct o as [|o]; [reflexivity|]). lia.
    - unfold lastv. change 0%Z with (Z.of_nat 0). rewrite last_in by (assumption || lia). reflexivity.
    - exact (proj2 Hfx s o Hs Ho).
  Qed.

  Lemma row_out : forall r, r < n -> (forall s, In s bs -> ~ (s <= r < s + 8)) ->
    Forall (fun g => eval n fx sl adv r g = fzero) (sept_gates rcs m a f).
  Proof.
    intros r Hr Hout. apply row_inactive.
    - rewrite q_sum, !last_out by (assumption || lia). ring.
    - unfold midv. change 4%Z with (Z.of_nat 4). apply last_out; [assumption|lia|assumption].
  Qed.

  Lemma row_cases : forall r, (exists s o, In s bs /\ o < 8 /\ r = o + s) \/ (forall s, In s bs -> ~ (s <= r < s + 8)).
  Proof.
    intros r. destruct (existsb (fun s => (s <=? r) && (r <? s + 8)) bs) eqn:E.
    - left. apply existsb_exists in E. destruct E as (s & Hs & E). apply andb_prop in E. destruct E as [E1 E2].
      apply Nat.leb_le in E1. apply Nat.ltb_lt in E2. exists s, (r - s). repeat split; [assumption|lia|lia].
    - right. intros s Hs H. apply not_true_iff_false in E. apply E. apply existsb_exists. exists s.
      split; [assumption|]. apply andb_true_intro. split; [apply Nat.leb_le|apply Nat.ltb_lt]; lia.
  Qed.

  (** the gates hold on all rows iff every block holds the trajectory of its initial state *)
  Theorem sept_blocks_iff :
    (forall g r, In g (sept_gates rcs m a f) -> r < n -> eval n fx sl adv r g = fzero)
    <-> (forall s, In s bs -> block_cells rcs m adv a (fullin adv a s) s).
  Proof.
    split.
    - intros H s Hs. apply (block_iff rcs m n fx sl adv a f s (Hfit s Hs) (block_fixed_in s Hs)).
      intros o Ho. apply Forall_forall. intros g Hg. apply H; [assumption|]. specialize (Hfit s Hs). lia.
    - intros H g r Hg Hr. destruct (row_cases r) as [(s & o & Hs & Ho & ->)|Hout].
      + pose proof (proj2 (block_iff rcs m n fx sl adv a f s (Hfit s Hs) (block_fixed_in s Hs)) (H s Hs) o Ho) as X.
        rewrite Forall_forall in X. now apply X.
      + pose proof (row_out r Hr Hout) as X. rewrite Forall_forall in X. now apply X.
  Qed.
End Blocks.
