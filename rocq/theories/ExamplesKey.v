(** A session whose words are unknown, as in key generation, beside the same session with words. *)
From Coq Require Import ZArith List Arith Lia Bool.
From Verif Require Import Field ZpField Primes Rust ListAux Primitives Specs Halo2 Pow5 Pow5Use Gadget GadgetUse KeyUse ExamplesPow5 ExamplesGadget.
Import ListNotations.
Local Open Scope nat_scope.

Definition unknown_message : Layouter F19 (list (acell F19)) :=
  assign_region (rmap (fun o => assign_advice 0 o None) [0; 1; 2]).

Lemma ex_key_session : exists L1 L1' msg msg' L2 L2' out out',
  tri_message (layout_empty tri_cs) = Ok (L1, msg) /\ unknown_message (layout_empty tri_cs) = Ok (L1', msg')
  /\ same_key L1 L1' /\ lo_adv L1 <> lo_adv L1'
  /\ let input m := map Message m ++ [Padding (g 1)] in
     Forall2 same_padded (input msg) (input msg')
     /\ circuit_session 3 2 tri tri_cfg (g 9) (input msg) 5 L1 = Ok (L2, out)
     /\ circuit_session 3 2 tri tri_cfg (g 9) (input msg') 5 L1' = Ok (L2', out')
     /\ Forall (fun w => ac_val w <> None) out /\ Forall (fun w => ac_val w = None) out'.
Proof.
  destruct (tri_message (layout_empty tri_cs)) as [[L1 msg]|] eqn:E1; [|vm_compute in E1; discriminate E1].
  destruct (unknown_message (layout_empty tri_cs)) as [[L1' msg']|] eqn:E1'; [|vm_compute in E1'; discriminate E1'].
  vm_compute in E1, E1'. injection E1 as VL Vm. injection E1' as VL' Vm'.
  set (input := fun m : list (acell F19) => map Message m ++ [Padding (g 1)]).
  destruct (circuit_session 3 2 tri tri_cfg (g 9) (input msg) 5 L1) as [[L2 out]|] eqn:E2;
    [|unfold input in E2; rewrite <- VL, <- Vm in E2; vm_compute in E2; discriminate E2].
  destruct (circuit_session 3 2 tri tri_cfg (g 9) (input msg') 5 L1') as [[L2' out']|] eqn:E2';
    [|unfold input in E2'; rewrite <- VL', <- Vm' in E2'; vm_compute in E2'; discriminate E2'].
  exists L1, L1', msg, msg', L2, L2', out, out'. do 2 (split; [reflexivity|]).
  split. { rewrite <- VL, <- VL'. repeat split. }
  split. { rewrite <- VL, <- VL'. discriminate. }
  split. { rewrite <- Vm, <- Vm'. repeat (constructor; [reflexivity|]). constructor. }
  split; [exact E2|]. split; [exact E2'|].
  assert (W : out = value_of [] (circuit_session 3 2 tri tri_cfg (g 9) (input msg) 5 L1)) by (rewrite E2; reflexivity).
  assert (W' : out' = value_of [] (circuit_session 3 2 tri tri_cfg (g 9) (input msg') 5 L1')) by (rewrite E2'; reflexivity).
  unfold input in W, W'. rewrite <- VL, <- Vm in W. rewrite <- VL', <- Vm' in W'.
  assert (Q : forallb (fun w => match ac_val w with Some _ => true | None => false end) out = true) by (rewrite W; vm_compute; reflexivity).
  assert (Q' : forallb (fun w => match ac_val w with Some _ => false | None => true end) out' = true) by (rewrite W'; vm_compute; reflexivity).
  rewrite forallb_forall in Q, Q'. split; apply Forall_forall; intros w Hw; [specialize (Q w Hw); clear - Q|specialize (Q' w Hw); clear - Q']; destruct (ac_val w); solve [discriminate|reflexivity].
Qed.
