(** The Grain iterator terminates: among any 80 consecutive pairs of LFSR bits one starts with a 1.
    Bits are linear forms over the 80 state bits; a certificate expresses each state bit as a sum of
    the leading bits of 80 consecutive pairs. *)
From Coq Require Import ZArith NArith List Arith Lia Bool.
From Verif Require Import Field Rust ListAux Primitives Grain Grain_proof.
Import ListNotations.

(** value of a linear form given by the mask of its variables *)
Definition form_sum (m : N) (st : nat -> bool) (l : list nat) : bool :=
  fold_right (fun i acc => xorb (N.testbit m (N.of_nat i) && st i) acc) false l.
Definition form_value (m : N) (st : nat -> bool) : bool := form_sum m st (seq 0 80).

(** the first [80 + n] bits of the sequence as linear forms *)
Definition next_form (l : list N) (i : nat) : N :=
  let f k := nth (i + k) l 0%N in
  N.lxor (f 62) (N.lxor (f 51) (N.lxor (f 38) (N.lxor (f 23) (N.lxor (f 13) (f 0))))).
Definition initial_forms : list N := map (fun i => N.shiftl 1 (N.of_nat i)) (seq 0 80).
Definition forms (n : nat) : list N := fold_left (fun l i => l ++ [next_form l i]) (seq 0 n) initial_forms.

Definition selected (l : list N) (c : N) (ps : list nat) : N :=
  fold_right (fun p acc => N.lxor (if N.testbit c (N.of_nat p) then nth (2 * p) l 0%N else 0%N) acc) 0%N ps.

Definition certificate : list N := [
    1;
    1076271510073195160881339;
    2;
    943621814469304501842295;
    4;
    678322418757923573154543;
    8;
    147714403963124844242399;
    16;
    295428807926249688484798;
    32;
    590857615852499376969596;
    64;
    1181715231704998753939192;
    128;
    1154500029857824961625585;
    256;
    1100078854038564120091619;
    512;
    991227279028555321284551;
    1024;
    773533352380574595223439;
    2048;
    338145499084613126340383;
    4096;
    676290998169226252680766;
    8192;
    143660790661366685424765;
    16384;
    287321581322733370849530;
    32768;
    574643162645466741699060;
    65536;
    1149286325290933483398120;
    131072;
    1089642221532744292100049;
    262144;
    970363237388952536870819;
    524288;
    731796045728782415822663;
    1048576;
    254661657904842546339471;
    2097152;
    509323315809685092678942;
    4194304;
    1018646631619370185357884;
    8388608;
    828362829686018085409913;
    16777216;
    447795225819863624550643;
    33554432;
    895590451639727249101286;
    67108864;
    582259697602918434079693;
    134217728;
    1164519395205836868159386;
    268435456;
    1120108361363100817436469;
    536870912;
    1031286293677628715990635;
    1073741824;
    853642158306684529859799;
    2147483648;
    498363106432683612412335;
    4294967296;
    996726212865367224824670;
    8589934592;
    784521996681611791713981;
    17179869184;
    360122783182538152914299;
    34359738368;
    720245566365076305828598;
    68719476736;
    231569927053066808497645;
    137438953472;
    463139854106133616995290;
    274877906944;
    926279708212267233990580;
    549755813888;
    643628982872361921711977]%N.

Lemma certificate_ok :
  let l := forms 80 in
  forallb (fun j => N.eqb (selected l (nth j certificate 0%N) (seq 0 80)) (N.shiftl 1 (N.of_nat j)))
    (seq 0 80) = true.
Proof. vm_compute. reflexivity. Qed.

Lemma form_sum_xor : forall a b st l,
  form_sum (N.lxor a b) st l = xorb (form_sum a st l) (form_sum b st l).
Proof.
  intros a b st l. induction l as [|i l IH]; [reflexivity|].
  change (xorb (N.testbit (N.lxor a b) (N.of_nat i) && st i) (form_sum (N.lxor a b) st l)
    = xorb (xorb (N.testbit a (N.of_nat i) && st i) (form_sum a st l))
        (xorb (N.testbit b (N.of_nat i) && st i) (form_sum b st l))).
  rewrite IH, N.lxor_spec.
  destruct (N.testbit a (N.of_nat i)), (N.testbit b (N.of_nat i)), (st i),
    (form_sum a st l), (form_sum b st l); reflexivity.
Qed.

Lemma form_value_xor : forall a b st, form_value (N.lxor a b) st = xorb (form_value a st) (form_value b st).
Proof. intros. apply form_sum_xor. Qed.

Lemma form_value_0 : forall st, form_value 0 st = false.
Proof.
  intros st. unfold form_value. generalize (seq 0 80). intros l.
  induction l as [|i l IH]; [reflexivity|].
  change (xorb (N.testbit 0 (N.of_nat i) && st i) (form_sum 0 st l) = false).
  rewrite IH, N.bits_0. reflexivity.
Qed.

Lemma form_value_single : forall j st, j < 80 -> form_value (N.shiftl 1 (N.of_nat j)) st = st j.
Proof.
  intros j st Hj. unfold form_value.
  assert (G : forall l, NoDup l -> form_sum (N.shiftl 1 (N.of_nat j)) st l
     = if existsb (Nat.eqb j) l then st j else false).
  { induction l as [|i l IH]; intros Hnd; [reflexivity|].
    change (xorb (N.testbit (N.shiftl 1 (N.of_nat j)) (N.of_nat i) && st i)
      (form_sum (N.shiftl 1 (N.of_nat j)) st l) = if (j =? i) || existsb (Nat.eqb j) l then st j else false).
    inversion Hnd as [|? ? Hnin Hnd']; subst. rewrite IH by assumption.
    replace (N.testbit (N.shiftl 1 (N.of_nat j)) (N.of_nat i)) with (j =? i).
    - destruct (j =? i) eqn:E; cbn.
      + apply Nat.eqb_eq in E. subst.
        destruct (existsb (Nat.eqb i) l) eqn:Ex; [|now destruct (st i)].
        apply existsb_exists in Ex. destruct Ex as (y & Hy & E). apply Nat.eqb_eq in E. subst. contradiction.
      + now destruct (if existsb (Nat.eqb j) l then st j else false).
    - rewrite N.shiftl_1_l, N.pow2_bits_eqb. symmetry. destruct (N.eqb_spec (N.of_nat j) (N.of_nat i)) as [E|E].
      + symmetry. apply Nat.eqb_eq. lia.
      + symmetry. apply Nat.eqb_neq. lia. }
  rewrite G by apply seq_NoDup.
  assert (E : existsb (Nat.eqb j) (seq 0 80) = true).
  { apply existsb_exists. exists j. split; [apply in_seq; lia|apply Nat.eqb_refl]. }
  now rewrite E.
Qed.

Section Sequence.
  Variable b : nat -> bool.
  Hypothesis Hrec : forall i, b (i + 80) = xorb (b (i + 62)) (xorb (b (i + 51)) (xorb (b (i + 38))
        (xorb (b (i + 23)) (xorb (b (i + 13)) (b i))))).

  Lemma forms_value : forall k n, length (forms n) = 80 + n /\
    forall i, i < 80 + n -> form_value (nth i (forms n) 0%N) (fun j => b (k + j)) = b (k + i).
  Proof.
    intros k n. induction n as [|n [IH1 IH2]].
    - change (forms 0) with initial_forms. unfold initial_forms.
      split; [now rewrite map_length, seq_length|]. intros i Hi.
      rewrite nth_map_seq by lia. rewrite form_value_single by lia. reflexivity.
    - assert (E : forms (S n) = forms n ++ [next_form (forms n) n]).
      { unfold forms. rewrite seq_S, fold_left_app. reflexivity. }
      rewrite E. split; [rewrite app_length, IH1; cbn; lia|].
      intros i Hi. destruct (Nat.eq_dec i (80 + n)) as [->|Hne].
      + rewrite app_nth2 by lia. rewrite IH1, Nat.sub_diag. cbn [nth].
        unfold next_form. rewrite !form_value_xor, !IH2 by lia.
        replace (k + (80 + n)) with (k + n + 80) by lia. rewrite Hrec.
        now rewrite Nat.add_0_r, !Nat.add_assoc.
      + rewrite app_nth1 by lia. apply IH2. lia.
  Qed.

  (** leading bits all zero: the whole window is zero *)
  Lemma zero_pairs_zero_window : forall k, (forall p, p < 80 -> b (k + 2 * p) = false) ->
    forall j, j < 80 -> b (k + j) = false.
  Proof.
    intros k H j Hj. pose proof certificate_ok as C. cbn zeta in C.
    rewrite forallb_forall in C. specialize (C j ltac:(apply in_seq; lia)). apply N.eqb_eq in C.
    destruct (forms_value k 80) as [_ V].
    rewrite <- (form_value_single j (fun i => b (k + i)) Hj), <- C.
    assert (G : forall ps, (forall p, In p ps -> p < 80) ->
      form_value (selected (forms 80) (nth j certificate 0%N) ps) (fun i => b (k + i)) = false).
    { induction ps as [|p ps IH]; intros Hps; cbn [selected fold_right]; [apply form_value_0|].
      unfold selected in IH. rewrite form_value_xor, IH by (intros; apply Hps; now right).
      destruct (N.testbit (nth j certificate 0%N) (N.of_nat p)); [|now rewrite form_value_0].
      specialize (Hps p (or_introl eq_refl)).
      rewrite V by lia. rewrite H by assumption. reflexivity. }
    apply G. intros p Hp. apply in_seq in Hp. lia.
  Qed.

  Lemma window_nonzero : forall k, (exists j, j < 80 /\ b j = true) -> exists j, j < 80 /\ b (k + j) = true.
  Proof.
    intros k (j0 & Hj0 & E0).
    destruct (existsb (fun j => b (k + j)) (seq 0 80)) eqn:E.
    - apply existsb_exists in E. destruct E as (j & Hj & Ej). apply in_seq in Hj. exists j. split; [lia|assumption].
    - exfalso.
      assert (Z : forall j, j < 80 -> b (k + j) = false).
      { intros j Hj. destruct (b (k + j)) eqn:Ej; [|reflexivity].
        assert (existsb (fun j => b (k + j)) (seq 0 80) = true); [|congruence].
        apply existsb_exists. exists j. split; [apply in_seq; lia|assumption]. }
      clear E. induction k as [|k IH].
      + rewrite <- (Nat.add_0_l j0) in E0. rewrite Z in E0 by assumption. discriminate.
      + apply IH. intros [|j] Hj.
        * rewrite Nat.add_0_r. pose proof (Hrec k) as R.
          replace (k + 80) with (S k + 79) in R by lia. replace (k + 62) with (S k + 61) in R by lia.
          replace (k + 51) with (S k + 50) in R by lia. replace (k + 38) with (S k + 37) in R by lia.
          replace (k + 23) with (S k + 22) in R by lia. replace (k + 13) with (S k + 12) in R by lia.
          rewrite !Z in R by lia. cbn in R. now destruct (b k).
        * replace (k + S j) with (S k + j) by lia. apply Z. lia.
  Qed.

  Lemma grain_next_some : forall fuel k g, at_bit b k g ->
    (exists p, p < fuel /\ b (k + 2 * p) = true) -> exists r, grain_next fuel g = Some r.
  Proof.
    induction fuel as [|f IH]; intros k g Hg (p & Hp & Ep); [lia|]. cbn [grain_next].
    destruct (get_next_bit_at b Hrec k g Hg) as [E1 E2]. destruct (get_next_bit g) as [y g1].
    cbn in E1, E2. destruct y; [eauto|].
    destruct (get_next_bit_at b Hrec (S k) g1 E2) as [E3 E4].
    destruct (get_next_bit g1) as [y2 g2]. cbn in E3, E4.
    apply (IH (S (S k))); [assumption|]. destruct p as [|p].
    - rewrite Nat.mul_0_r, Nat.add_0_r in Ep. congruence.
    - exists p. split; [lia|]. rewrite <- Ep. f_equal. lia.
  Qed.

  Hypothesis Hnz : exists j, j < 80 /\ b j = true.

  Lemma leading_one : forall k, exists p, p < 80 /\ b (k + 2 * p) = true.
  Proof.
    intros k. destruct (existsb (fun p => b (k + 2 * p)) (seq 0 80)) eqn:E.
    - apply existsb_exists in E. destruct E as (p & Hp & Ep). apply in_seq in Hp. exists p. split; [lia|assumption].
    - exfalso. destruct (window_nonzero k Hnz) as (j & Hj & Ej).
      rewrite (zero_pairs_zero_window k) in Ej; [discriminate| |assumption].
      intros p Hp. destruct (b (k + 2 * p)) eqn:Eb; [|reflexivity].
      assert (existsb (fun p => b (k + 2 * p)) (seq 0 80) = true); [|congruence].
      apply existsb_exists. exists p. split; [apply in_seq; lia|assumption].
  Qed.

  Lemma grain_take_some : forall n k g, at_bit b k g -> exists r, grain_take 80 n g = Some r.
  Proof.
    induction n as [|n IH]; intros k g Hg; cbn [grain_take]; [eauto|].
    destruct (grain_next_some 80 k g Hg (leading_one k)) as [[x g1] E]. rewrite E.
    destruct (grain_next_at b Hrec 80 k g x g1 Hg E) as (i & _ & P).
    destruct (IH _ g1 P) as [[l g2] E2]. rewrite E2. eauto.
  Qed.
End Sequence.

Lemma set_bits_high : forall st o n v i, o + n <= i -> nth i (set_bits st o n v) false = nth i st false.
Proof.
  intros st o n v i H. unfold set_bits.
  assert (G : forall l st, (forall x, In x l -> x < n) ->
    nth i (fold_left (fun st x => upd st (o + n - 1 - x) (N.testbit v (N.of_nat x))) l st) false = nth i st false).
  { induction l as [|x l IH]; intros st0 Hl; cbn [fold_left]; [reflexivity|].
    rewrite IH by (intros; apply Hl; now right). apply nth_upd_other.
    specialize (Hl x (or_introl eq_refl)). lia. }
  apply G. intros x Hx. apply in_seq in Hx. lia.
Qed.

(** bits can be drawn forever: the loop of [Iterator::next] discards at most 79 pairs *)
Theorem grain_take_total : forall nb t f p n,
  exists l g, grain_take 80 n (grain_new nb t f p) = Some (l, g).
Proof.
  intros nb t f p n.
  pose proof (lfsr_sequence _ (grain_seed_length nb t f p)) as HS.
  destruct (grain_take_some (lfsr (grain_seed nb t f p)) (proj2 HS)) with (n := n) (k := 240)
    (g := grain_new nb t f p) as [[l g] E].
  - exists 79. split; [lia|]. rewrite (proj1 HS) by lia. unfold grain_seed.
    rewrite !set_bits_high by lia. reflexivity.
  - now apply grain_new_at.
  - eauto.
Qed.
