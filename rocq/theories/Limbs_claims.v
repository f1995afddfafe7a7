(** The lemmas behind PropertiesLimbs.v. *)
From Coq Require Import ZArith List Lia.
From Verif Require Import Rust Limbs LimbsSpec.
Import ListNotations.
Local Open Scope Z_scope.

Lemma add_fits : forall x y, x + y < 2 ^ 128 -> add128 x y = Ok (x + y).
Proof. intros x y H. unfold add128, u128_size. now rewrite (proj2 (Z.ltb_lt _ _) H). Qed.
Lemma mul_fits : forall x y, x * y < 2 ^ 128 -> mul128 x y = Ok (x * y).
Proof. intros x y H. unfold mul128, u128_size. now rewrite (proj2 (Z.ltb_lt _ _) H). Qed.
Lemma halves_spec : forall r, 0 <= r < 2 ^ 128 -> exists lo hi, halves r = (lo, hi) /\ word lo /\ word hi /\ lo = r - 2 ^ 64 * hi /\ hi = r / 2 ^ 64.
Proof.
  intros r [H1 H2]. unfold halves, u64_size. rewrite Z.shiftr_div_pow2 by lia.
  assert (HB : 0 < 2 ^ 64) by reflexivity.
  assert (B : 0 <= r / 2 ^ 64 < 2 ^ 64).
  { split; [apply Z.div_pos; assumption|]. apply Z.div_lt_upper_bound; [exact HB|]. now rewrite <- Z.pow_add_r by lia. }
  exists (r mod 2 ^ 64), (r / 2 ^ 64). rewrite (Z.mod_small (r / 2 ^ 64)) by exact B.
  split; [reflexivity|]. split; [exact (Z.mod_pos_bound r _ HB)|]. split; [exact B|]. split; [|reflexivity].
  pose proof (Z.div_mod r (2 ^ 64)). lia.
Qed.
Lemma product_bound : forall b c, word b -> word c -> 0 <= b * c <= (2 ^ 64 - 1) * (2 ^ 64 - 1).
Proof. unfold word. intros b c Hb Hc. split; [apply Z.mul_nonneg_nonneg; lia|]. apply Z.mul_le_mono_nonneg; lia. Qed.

Lemma mac_spec : forall a b c carry, word a -> word b -> word c -> word carry ->
  exists lo hi, mac a b c carry = Ok (lo, hi) /\ word lo /\ word hi /\ lo = a + b * c + carry - 2 ^ 64 * hi.
Proof.
  intros a b c d Ha Hb Hc Hd. pose proof (product_bound b c Hb Hc) as HP. unfold word in Ha, Hd. unfold mac.
  rewrite mul_fits by lia. cbn [bind]. rewrite add_fits by lia. cbn [bind]. rewrite add_fits by lia. cbn [bind].
  destruct (halves_spec (a + b * c + d)) as (lo & hi & E & L & H & V & _); [lia|]. exists lo, hi. rewrite E. auto.
Qed.
Lemma macx_spec : forall a b c, word a -> word b -> word c ->
  exists lo hi, macx a b c = Ok (lo, hi) /\ word lo /\ word hi /\ lo = a + b * c - 2 ^ 64 * hi.
Proof.
  intros a b c Ha Hb Hc. pose proof (product_bound b c Hb Hc) as HP. unfold word in Ha. unfold macx.
  rewrite mul_fits by lia. cbn [bind]. rewrite add_fits by lia. cbn [bind].
  destruct (halves_spec (a + b * c)) as (lo & hi & E & L & H & V & _); [lia|]. exists lo, hi. rewrite E. auto.
Qed.

Theorem adc_claim : forall a b carry, word a -> word b -> word carry ->
  exists lo hi, adc a b carry = Ok (lo, hi) /\ word lo /\ 0 <= hi <= 2 /\ number [lo; hi] = a + b + carry /\ (carry <= 1 -> hi <= 1).
Proof.
  intros a b d Ha Hb Hd. unfold word in Ha, Hb, Hd. unfold adc.
  rewrite add_fits by lia. cbn [bind]. rewrite add_fits by lia. cbn [bind].
  destruct (halves_spec (a + b + d)) as (lo & hi & E & L & H & V & _); [lia|]. exists lo, hi. rewrite E. cbn [number].
  unfold word in *. split; [reflexivity|]. repeat split; lia.
Qed.
Theorem mac_claim : forall a b c carry, word a -> word b -> word c -> word carry ->
  (exists lo hi, mac a b c carry = Ok (lo, hi) /\ word lo /\ word hi /\ number [lo; hi] = a + b * c + carry) /\ macx a b c = mac a b c 0.
Proof.
  intros a b c d Ha Hb Hc Hd. split.
  - destruct (mac_spec a b c d Ha Hb Hc Hd) as (lo & hi & E & L & H & V). exists lo, hi. cbn [number]. repeat (split; [assumption|]). lia.
  - pose proof (product_bound b c Hb Hc) as HP. unfold word in Ha. unfold mac, macx. rewrite mul_fits by lia. cbn [bind].
    rewrite add_fits by lia. cbn [bind]. rewrite add_fits by lia. cbn [bind]. now rewrite Z.add_0_r.
Qed.
(** a borrow is all ones or zero *)
Theorem sbb_claim : forall a b (bit : bool), word a -> word b ->
  exists d (bit' : bool), sbb a b (if bit then 2 ^ 64 - 1 else 0) = Ok (d, if bit' then 2 ^ 64 - 1 else 0)
  /\ word d /\ d = a - b - Z.b2z bit + (if bit' then 2 ^ 64 else 0) /\ (bit' = true <-> a < b + Z.b2z bit).
Proof.
  intros a b bit Ha Hb. unfold word in Ha, Hb. unfold sbb.
  replace (Z.shiftr (if bit then 2 ^ 64 - 1 else 0) 63) with (Z.b2z bit) by (destruct bit; reflexivity).
  assert (Hk : 0 <= Z.b2z bit <= 1) by (destruct bit; cbn; lia). set (k := Z.b2z bit) in *. clearbody k.
  rewrite add_fits by lia. cbn [bind]. unfold wsub128, u128_size, halves, u64_size. rewrite Z.shiftr_div_pow2 by lia.
  destruct (Z_lt_le_dec a (b + k)) as [H|H].
  - exists (a - b - k + 2 ^ 64), true.
    replace ((a - (b + k)) mod 2 ^ 128) with (a - b - k + 2 ^ 64 + (2 ^ 64 - 1) * 2 ^ 64).
    2:{ apply (Z.mod_unique _ _ (-1)); lia. }
    rewrite Z.mod_add, Z.div_add by lia. rewrite (Z.mod_small (a - b - k + 2 ^ 64)), (Z.div_small (a - b - k + 2 ^ 64)) by lia.
    rewrite Z.mod_small by lia. split; [reflexivity|]. unfold word. repeat split; try lia; auto.
  - exists (a - b - k), false. rewrite (Z.mod_small _ (2 ^ 128)) by lia.
    rewrite (Z.mod_small (a - (b + k))), (Z.div_small (a - (b + k))) by lia. rewrite Z.mod_small by lia.
    split; [f_equal; f_equal; lia|]. unfold word. split; [lia|]. split; [lia|]. split; [discriminate|lia].
Qed.

Theorem mul_claim : forall a b, length a = 4%nat -> length b = 4%nat -> Forall word a -> Forall word b ->
  exists r, mul_512 a b = Ok r /\ length r = 8%nat /\ Forall word r /\ number r = number a * number b.
Proof.
  intros a b La Lb Ha Hb.
  destruct a as [|a0 [|a1 [|a2 [|a3 [|? ?]]]]]; try discriminate. destruct b as [|b0 [|b1 [|b2 [|b3 [|? ?]]]]]; try discriminate.
  inversion_clear Ha as [|? ? A0 Ha']. inversion_clear Ha' as [|? ? A1 Ha]. inversion_clear Ha as [|? ? A2 Ha']. inversion_clear Ha' as [|? ? A3 _].
  inversion_clear Hb as [|? ? B0 Hb']. inversion_clear Hb' as [|? ? B1 Hb]. inversion_clear Hb as [|? ? B2 Hb']. inversion_clear Hb' as [|? ? B3 _].
  assert (W0 : word 0) by (unfold word; lia). unfold mul_512.
  Ltac one x y z := let lo := fresh "lo" in let hi := fresh "hi" in let E := fresh "E" in let L := fresh "L" in let H := fresh "H" in let V := fresh "V" in
    destruct (macx_spec x y z) as (lo & hi & E & L & H & V); [assumption..|]; rewrite E; clear E; cbn [bind].
  Ltac two x y z w := let lo := fresh "lo" in let hi := fresh "hi" in let E := fresh "E" in let L := fresh "L" in let H := fresh "H" in let V := fresh "V" in
    destruct (mac_spec x y z w) as (lo & hi & E & L & H & V); [assumption..|]; rewrite E; clear E; cbn [bind].
  Ltac step := match goal with
    | |- context [bind (macx ?x ?y ?z) _] => one x y z
    | |- context [bind (mac ?x ?y ?z ?w) _] => two x y z w
    end.
  do 16 step. eexists. split; [reflexivity|]. split; [reflexivity|]. split; [repeat (apply Forall_cons; [assumption|]); apply Forall_nil|].
  cbn [number]. generalize dependent (2 ^ 64). intros B. intros.
  repeat match goal with H : ?x = _ |- _ => is_var x; subst x end. ring.
Qed.

Definition limit (l : list Z) : Z := 2 ^ (64 * Z.of_nat (length l)).
Lemma limit_cons : forall x l, limit (x :: l) = 2 ^ 64 * limit l.
Proof. intros x l. unfold limit. cbn [length]. rewrite <- Z.pow_add_r by lia. f_equal. lia. Qed.
Lemma number_bound : forall l, Forall word l -> 0 <= number l < limit l.
Proof.
  induction 1 as [|x l W _ IH]; [cbn; lia|]. rewrite limit_cons. cbn [number]. unfold word in W. lia.
Qed.

Lemma add_along : forall a b carry, length a = length b -> Forall word a -> Forall word b -> 0 <= carry <= 1 ->
  exists r out, along adc carry a b = Ok (r, out) /\ length r = length a /\ Forall word r /\ 0 <= out <= 1
  /\ number r + limit a * out = number a + number b + carry.
Proof.
  induction a as [|x a IH]; intros [|y b] k E Ha Hb Hk; try discriminate.
  - exists [], k. split; [reflexivity|]. split; [reflexivity|]. split; [constructor|]. split; [exact Hk|]. change (limit []) with 1. cbn [number]. lia.
  - inversion_clear Ha as [|? ? X Ha']. inversion_clear Hb as [|? ? Y Hb']. cbn [along].
    destruct (adc_claim x y k X Y) as (lo & hi & -> & L & H & V & H1); [unfold word; lia|]. cbn [bind].
    destruct (IH b hi) as (r & out & -> & Lr & Wr & Ho & Vr); [now injection E|assumption..|specialize (H1 ltac:(lia)); lia|].
    cbn [bind]. exists (lo :: r), out. split; [reflexivity|]. split; [cbn; now rewrite Lr|]. split; [now constructor|]. split; [exact Ho|].
    rewrite limit_cons. cbn [number] in *. lia.
Qed.
Lemma sub_along : forall a b (bit : bool), length a = length b -> Forall word a -> Forall word b ->
  exists r (out : bool), along sbb (if bit then 2 ^ 64 - 1 else 0) a b = Ok (r, if out then 2 ^ 64 - 1 else 0) /\ length r = length a /\ Forall word r
  /\ number r = number a - number b - Z.b2z bit + (if out then limit a else 0).
Proof.
  induction a as [|x a IH]; intros [|y b] k E Ha Hb; try discriminate.
  - exists [], k. split; [reflexivity|]. split; [reflexivity|]. split; [constructor|]. destruct k; reflexivity.
  - inversion_clear Ha as [|? ? X Ha']. inversion_clear Hb as [|? ? Y Hb']. cbn [along].
    destruct (sbb_claim x y k X Y) as (d & k' & -> & W & V & _). cbn [bind].
    destruct (IH b k') as (r & out & -> & Lr & Wr & Vr); [now injection E|assumption..|].
    cbn [bind]. exists (d :: r), out. split; [reflexivity|]. split; [cbn; now rewrite Lr|]. split; [now constructor|].
    rewrite limit_cons. cbn [number]. rewrite Vr, V. destruct k', out; cbn [Z.b2z]; lia.
Qed.
Theorem chains_claim : forall a b, length a = length b -> Forall word a -> Forall word b ->
  let top := 2 ^ (64 * Z.of_nat (length a)) in
  (exists r out, along adc 0 a b = Ok (r, out) /\ length r = length a /\ Forall word r /\ 0 <= out <= 1 /\ number r + top * out = number a + number b)
  /\ exists r (out : bool), along sbb 0 a b = Ok (r, if out then 2 ^ 64 - 1 else 0) /\ length r = length a /\ Forall word r
     /\ number r = number a - number b + (if out then top else 0) /\ (out = true <-> number a < number b).
Proof.
  intros a b E Ha Hb top. split.
  - destruct (add_along a b 0 E Ha Hb) as (r & out & X & L & W & O & V); [lia|]. exists r, out. repeat (split; [assumption|]). unfold limit in V. lia.
  - destruct (sub_along a b false E Ha Hb) as (r & out & X & L & W & V). exists r, out. split; [exact X|]. split; [exact L|]. split; [exact W|].
    cbn [Z.b2z] in V. pose proof (number_bound r W) as Br. pose proof (number_bound a Ha) as Ba. pose proof (number_bound b Hb) as Bb.
    unfold limit in *. rewrite L in Br. rewrite <- E in Bb. fold top in V, Br, Ba, Bb. clearbody top.
    split; [lia|]. destruct out; split; intros; try reflexivity; try discriminate; lia.
Qed.
