(** Number theory used to build the concrete fields: Fermat's little theorem and
    Pocklington primality certificates, on top of the standard library's [Znumtheory].
    Nothing here models code of /repo; the Rust code takes its fields from dependencies. *)
From Coq Require Import ZArith Znumtheory Zpow_facts List Permutation Lia Bool.
Import ListNotations.
Open Scope Z_scope.

(** Modular exponentiation by repeated squaring. *)
Fixpoint pow_mod_pos (m b : Z) (e : positive) : Z :=
  match e with
  | xH => b mod m
  | xO e' => let t := pow_mod_pos m b e' in (t * t) mod m
  | xI e' => let t := pow_mod_pos m b e' in (((t * t) mod m) * b) mod m
  end.

Definition pow_mod (m b e : Z) : Z :=
  match e with
  | Zpos e' => pow_mod_pos m b e'
  | Z0 => 1 mod m
  | Zneg _ => 0
  end.

Lemma pow_mod_pos_spec : forall m b e, m <> 0 -> pow_mod_pos m b e = (b ^ Zpos e) mod m.
Proof.
  intros m b e Hm. induction e as [e IH|e IH|]; cbn [pow_mod_pos].
  - rewrite IH. rewrite Pos2Z.inj_xI.
    replace (2 * Zpos e + 1) with (Zpos e + Zpos e + 1) by lia.
    rewrite !Z.pow_add_r by lia. rewrite Z.pow_1_r.
    rewrite Z.mul_mod_idemp_l by lia.
    rewrite <- (Z.mul_mod_idemp_l (_ * _) b) by lia.
    rewrite <- Z.mul_mod by lia. rewrite Z.mul_mod_idemp_l by lia. reflexivity.
  - rewrite IH. rewrite Pos2Z.inj_xO.
    replace (2 * Zpos e) with (Zpos e + Zpos e) by lia.
    rewrite !Z.pow_add_r by lia.
    rewrite <- Z.mul_mod by lia. reflexivity.
  - rewrite Z.pow_1_r. reflexivity.
Qed.

Lemma pow_mod_spec : forall m b e, m <> 0 -> 0 <= e -> pow_mod m b e = (b ^ e) mod m.
Proof.
  intros m b [|e|e] Hm He; cbn [pow_mod].
  - reflexivity.
  - apply pow_mod_pos_spec; lia.
  - lia.
Qed.

(** * Fermat's little theorem *)
Definition residues (p : Z) : list Z := map Z.of_nat (seq 1 (Z.to_nat (p - 1))).
Definition zprod (l : list Z) : Z := fold_right Z.mul 1 l.

Lemma in_residues : forall p x, In x (residues p) <-> 1 <= x < p.
Proof.
  intros p x. unfold residues. rewrite in_map_iff. split.
  - intros [n [<- Hn]]. rewrite in_seq in Hn. lia.
  - intros H. exists (Z.to_nat x). split; [lia|]. rewrite in_seq. lia.
Qed.

Lemma residues_nodup : forall p, NoDup (residues p).
Proof.
  intros p. unfold residues. apply FinFun.Injective_map_NoDup.
  - intros a b; lia.
  - apply seq_NoDup.
Qed.

Lemma zprod_perm : forall l l', Permutation l l' -> zprod l = zprod l'.
Proof.
  intros l l' H. unfold zprod. induction H; cbn; [reflexivity|now rewrite IHPermutation|ring|congruence].
Qed.

Lemma zprod_map_mul : forall a p l, p <> 0 ->
  zprod (map (fun x => (a * x) mod p) l) mod p = (a ^ Z.of_nat (length l) * zprod l) mod p.
Proof.
  intros a p l Hp. induction l as [|x l IH]; cbn [map zprod fold_right length].
  - reflexivity.
  - fold (zprod l). fold (zprod (map (fun x => (a * x) mod p) l)).
    rewrite Z.mul_mod_idemp_l by lia.
    rewrite <- Z.mul_mod_idemp_r by lia. rewrite IH. rewrite Z.mul_mod_idemp_r by lia.
    rewrite Nat2Z.inj_succ, Z.pow_succ_r by lia. f_equal. ring.
Qed.

Lemma zprod_rel_prime : forall p l, (forall x, In x l -> rel_prime x p) -> rel_prime (zprod l) p.
Proof.
  intros p l. induction l as [|x l IH]; intros H; cbn.
  - apply rel_prime_1.
  - apply rel_prime_sym, rel_prime_mult; apply rel_prime_sym.
    + apply H; now left.
    + apply IH. intros y Hy. apply H; now right.
Qed.

Lemma mod_mul_cancel : forall p a b c, rel_prime c p -> p <> 0 ->
  (a * c) mod p = (b * c) mod p -> a mod p = b mod p.
Proof.
  intros p a b c Hc Hp H.
  assert (Hd : (p | (a - b) * c)).
  { apply Z.mod_divide; [lia|]. rewrite Z.mul_sub_distr_r. rewrite Zminus_mod, H.
    rewrite Z.sub_diag. apply Z.mod_0_l; lia. }
  rewrite Z.mul_comm in Hd. apply Gauss in Hd; [|apply rel_prime_sym; exact Hc].
  destruct Hd as [k Hk]. replace a with (b + k * p) by lia.
  apply Z.mod_add; lia.
Qed.

Theorem fermat : forall p a, prime p -> ~ (p | a) -> a ^ (p - 1) mod p = 1.
Proof.
  intros p a Hp Ha. pose proof (prime_ge_2 _ Hp) as Hp2.
  assert (Hrel : rel_prime a p) by (apply rel_prime_sym, prime_rel_prime; assumption).
  set (f := fun x => (a * x) mod p).
  assert (Hperm : Permutation (map f (residues p)) (residues p)).
  { apply NoDup_Permutation_bis.
    - assert (Hinj : forall x y, In x (residues p) -> In y (residues p) -> f x = f y -> x = y).
      { intros x y Hx Hy Hxy. apply in_residues in Hx, Hy.
        unfold f in Hxy. rewrite (Z.mul_comm a x), (Z.mul_comm a y) in Hxy.
        apply mod_mul_cancel in Hxy; [|assumption|lia].
        rewrite !Z.mod_small in Hxy by lia. exact Hxy. }
      generalize (residues_nodup p). revert Hinj. generalize (residues p) as l.
      induction l as [|x l IH]; intros Hinj Hnd; cbn; constructor.
      + inversion Hnd; subst. intros Hin. apply in_map_iff in Hin.
        destruct Hin as [y [Hy1 Hy2]].
        assert (y = x) by (apply Hinj; [now right|now left|assumption]). subst. contradiction.
      + inversion Hnd; subst. apply IH; [|assumption].
        intros u v Hu Hv. apply Hinj; now right.
    - rewrite map_length. lia.
    - intros y Hy. apply in_map_iff in Hy. destruct Hy as [x [<- Hx]].
      apply in_residues in Hx. apply in_residues. unfold f.
      pose proof (Z.mod_pos_bound (a * x) p ltac:(lia)).
      assert ((a * x) mod p <> 0).
      { intros H0. apply Z.mod_divide in H0; [|lia].
        apply prime_mult in H0; [|assumption]. destruct H0 as [H0|H0]; [contradiction|].
        apply Z.divide_pos_le in H0; lia. }
      lia. }
  apply zprod_perm in Hperm.
  pose proof (zprod_map_mul a p (residues p) ltac:(lia)) as H.
  fold f in H. rewrite Hperm in H.
  assert (Hlen : Z.of_nat (length (residues p)) = p - 1).
  { unfold residues. rewrite map_length, seq_length. lia. }
  rewrite Hlen in H.
  rewrite <- (Z.mul_1_l (zprod (residues p))) in H at 1.
  apply mod_mul_cancel in H.
  - rewrite <- H. apply Z.mod_1_l. lia.
  - apply zprod_rel_prime. intros x Hx. apply in_residues in Hx.
    apply rel_prime_sym, prime_rel_prime; [assumption|].
    intros Hd. apply Z.divide_pos_le in Hd; lia.
  - lia.
Qed.

(** * Pocklington *)
Lemma prime_divisor : forall n, 1 < n -> exists d, prime d /\ (d | n).
Proof.
  intros n. assert (H : forall k : nat, forall n, n < Z.of_nat k -> 1 < n -> exists d, prime d /\ (d | n)).
  { induction k as [|k IH]; intros m Hk Hm; [lia|].
    destruct (prime_dec m) as [Hp|Hp].
    - exists m. split; [assumption|apply Z.divide_refl].
    - apply not_prime_divide in Hp; [|assumption]. destruct Hp as [q [Hq Hd]].
      destruct (IH q) as [d [Hd1 Hd2]]; [lia|lia|].
      exists d. split; [assumption|]. eapply Z.divide_trans; eassumption. }
  intros Hn. apply (H (Z.to_nat (n + 1))); lia.
Qed.

Lemma prime_by_divisors : forall n, 1 < n ->
  (forall d, prime d -> (d | n) -> n < d * d) -> prime n.
Proof.
  intros n Hn H. destruct (prime_dec n) as [Hp|Hp]; [assumption|exfalso].
  apply not_prime_divide in Hp; [|assumption]. destruct Hp as [q [Hq [k Hk]]].
  assert (Hk1 : 1 < k) by nia.
  assert (Hqk : exists m, 1 < m /\ (m | n) /\ m * m <= n).
  { destruct (Z_le_gt_dec q k).
    - exists q. repeat split; [lia|exists k; lia|nia].
    - exists k. repeat split; [lia|exists q; lia|nia]. }
  destruct Hqk as [m [Hm1 [Hm2 Hm3]]].
  destruct (prime_divisor m Hm1) as [d [Hd1 Hd2]].
  assert (Hdn : (d | n)) by (eapply Z.divide_trans; eassumption).
  specialize (H d Hd1 Hdn). pose proof (prime_ge_2 _ Hd1).
  apply Z.divide_pos_le in Hd2; [|lia]. nia.
Qed.

Lemma pow_mod_1 : forall m b k, 1 < m -> b mod m = 1 -> 0 <= k -> b ^ k mod m = 1.
Proof.
  intros m b k Hm Hb Hk. rewrite Zpower_mod by lia. rewrite Hb.
  rewrite Z.pow_1_l by lia. apply Z.mod_1_l; lia.
Qed.

(** if b^q = 1, b^(d-1) = 1 and gcd(q, d-1) = 1 then b = 1 *)
Lemma order_coprime : forall m b q e, 1 < m -> 0 < q -> 0 < e -> rel_prime q e ->
  b ^ q mod m = 1 -> b ^ e mod m = 1 -> b mod m = 1.
Proof.
  intros m b q e Hm Hq He Hrel Hbq Hbe.
  destruct (rel_prime_bezout _ _ Hrel) as [u v Huv].
  set (k := Z.abs u + Z.abs v).
  set (u' := u + k * e). set (v' := k * q - v).
  assert (Hu' : 0 <= u') by (unfold u', k; nia).
  assert (Hv' : 0 <= v') by (unfold v', k; nia).
  assert (E : q * u' = e * v' + 1) by (unfold u', v'; clearbody k; lia).
  assert (H1 : b ^ (q * u') mod m = 1).
  { rewrite Z.pow_mul_r by lia. apply pow_mod_1; assumption. }
  rewrite E in H1. rewrite Z.pow_add_r, Z.pow_1_r in H1 by nia.
  rewrite <- Z.mul_mod_idemp_l in H1 by lia.
  rewrite Z.pow_mul_r in H1 by lia.
  rewrite (pow_mod_1 m (b ^ e) v') in H1 by assumption.
  rewrite Z.mul_1_l in H1. exact H1.
Qed.

Lemma pock_one : forall N a q d, 1 < N -> prime q -> (q | N - 1) -> prime d -> (d | N) ->
  a ^ (N - 1) mod N = 1 -> rel_prime (a ^ ((N - 1) / q) - 1) N -> (q | d - 1).
Proof.
  intros N a q d HN Hq Hqn Hd HdN Ha Hg.
  pose proof (prime_ge_2 _ Hq). pose proof (prime_ge_2 _ Hd).
  set (b := a ^ ((N - 1) / q)).
  assert (HNd : forall x, x mod N = 1 -> x mod d = 1).
  { intros x Hx. destruct HdN as [k Hk].
    assert (Hx' : x = d * (k * (x / N)) + 1) by (pose proof (Z.div_mod x N ltac:(lia)); nia).
    rewrite Hx'. rewrite Z.add_comm, Z.mul_comm, Z.mod_add by lia. apply Z.mod_1_l; lia. }
  assert (Hq1 : 0 <= (N - 1) / q) by (apply Z.div_pos; lia).
  assert (Hbq : b ^ q mod d = 1).
  { unfold b. rewrite <- Z.pow_mul_r by lia.
    replace ((N - 1) / q * q) with (N - 1).
    - apply HNd, Ha.
    - destruct Hqn as [k Hk]. rewrite Hk. rewrite Z.div_mul by lia. reflexivity. }
  assert (Hb1 : b mod d <> 1).
  { intros Hb. assert (Hdd : (d | b - 1)).
    { apply Z.mod_divide; [lia|]. rewrite Zminus_mod, Hb. rewrite (Z.mod_1_l d) by lia.
      rewrite Z.sub_diag. apply Z.mod_0_l; lia. }
    unfold b in Hdd. destruct Hg as [_ _ Hg]. specialize (Hg d Hdd HdN).
    apply Z.divide_1_r_nonneg in Hg; lia. }
  assert (Hbnz : ~ (d | b)).
  { intros Hdb. assert (b ^ q mod d = 0).
    { apply Z.mod_divide; [lia|].
      replace q with (Z.succ (q - 1)) by lia. rewrite Z.pow_succ_r by lia.
      apply Z.divide_mul_l. exact Hdb. }
    lia. }
  pose proof (fermat d b Hd Hbnz) as Hf.
  destruct (Zdivide_dec q (d - 1)) as [Hdiv|Hdiv]; [assumption|exfalso].
  apply Hb1.
  destruct (Z.eq_dec d 2) as [->|Hd2].
  { replace (2 - 1) with 1 in Hf by lia. rewrite Z.pow_1_r in Hf. exact Hf. }
  apply (order_coprime d b q (d - 1)); try lia.
  apply prime_rel_prime; assumption.
Qed.

(** a certificate step: a list of (prime factor of N-1, base) *)
Fixpoint nodupZ (l : list Z) : bool :=
  match l with [] => true | x :: l' => negb (existsb (Z.eqb x) l') && nodupZ l' end.

Definition pock_check (N : Z) (l : list (Z * Z)) : bool :=
  (1 <? N) && nodupZ (map fst l) && (N <? zprod (map fst l) * zprod (map fst l)) &&
  forallb (fun '(q, a) => (0 <? q) && ((N - 1) mod q =? 0) && (pow_mod N a (N - 1) =? 1)
                          && (Z.gcd (pow_mod N a ((N - 1) / q) - 1) N =? 1)) l.

Lemma nodupZ_NoDup : forall l, nodupZ l = true -> NoDup l.
Proof.
  induction l as [|x l IH]; cbn; intros H; constructor.
  - apply andb_prop in H. destruct H as [H _]. intros Hin.
    apply negb_true_iff in H. assert (existsb (Z.eqb x) l = true); [|congruence].
    apply existsb_exists. exists x. split; [assumption|apply Z.eqb_refl].
  - apply andb_prop in H. apply IH, H.
Qed.

Lemma zprod_divide : forall l m, NoDup l -> Forall prime l -> (forall q, In q l -> (q | m)) ->
  (zprod l | m).
Proof.
  induction l as [|x l IH]; intros m Hnd Hp Hd; cbn.
  - apply Z.divide_1_l.
  - inversion Hnd; subst. inversion Hp; subst.
    assert (Hr : rel_prime x (zprod l)).
    { apply rel_prime_sym. apply zprod_rel_prime. intros y Hy.
      assert (Hyp : prime y) by (rewrite Forall_forall in H4; apply H4; assumption).
      apply prime_rel_prime; [assumption|]. intros Hyx.
      apply prime_div_prime in Hyx; try assumption. subst. contradiction. }
    destruct (IH m H2 H4) as [k Hk]; [intros q Hq; apply Hd; now right|].
    assert (Hx : (x | m)) by (apply Hd; now left).
    rewrite Hk in Hx. rewrite Z.mul_comm in Hx. apply Gauss in Hx; [|assumption].
    destruct Hx as [j Hj]. exists j. rewrite Hk, Hj. fold (zprod l). ring.
Qed.

Theorem pock_prime : forall N l, pock_check N l = true -> Forall prime (map fst l) -> prime N.
Proof.
  intros N l Hc Hl. unfold pock_check in Hc.
  rewrite !andb_true_iff in Hc. destruct Hc as [[[HN Hnd] HF] Hall].
  apply Z.ltb_lt in HN, HF. rewrite forallb_forall in Hall.
  apply nodupZ_NoDup in Hnd.
  assert (Hpos : 0 <= zprod (map fst l)).
  { clear - Hl. induction l as [|x l IH]; cbn; [lia|]. inversion Hl; subst.
    pose proof (prime_ge_2 _ H1). specialize (IH H2). unfold zprod in *. nia. }
  apply prime_by_divisors; [assumption|].
  intros d Hd HdN.
  pose proof (prime_ge_2 _ Hd).
  assert (Hdiv : (zprod (map fst l) | d - 1)).
  { apply zprod_divide; try assumption. intros q Hq.
    apply in_map_iff in Hq. destruct Hq as [[q' a] [Hq1 Hq2]]. cbn in Hq1. subst q'.
    specialize (Hall _ Hq2). cbn in Hall. rewrite !andb_true_iff in Hall.
    destruct Hall as [[[Hq0 Hqn] Ha] Hg].
    apply Z.ltb_lt in Hq0. apply Z.eqb_eq in Hqn, Ha, Hg.
    assert (Hqp : prime q).
    { rewrite Forall_forall in Hl. apply Hl. apply in_map_iff. exists (q, a). auto. }
    rewrite pow_mod_spec in Ha by lia.
    rewrite pow_mod_spec in Hg; [|lia|apply Z.div_pos; lia].
    apply (pock_one N a q d); try assumption.
    - apply Z.mod_divide; lia.
    - apply Zgcd_1_rel_prime.
      rewrite Z.gcd_comm. rewrite Z.gcd_comm in Hg.
      rewrite <- Z.gcd_mod in Hg by lia. rewrite <- Z.gcd_mod by lia.
      rewrite Zminus_mod_idemp_l in Hg. exact Hg. }
  assert (1 <= d - 1) by lia.
  apply Z.divide_pos_le in Hdiv; [|lia]. nia.
Qed.

(** trial division for small primes *)
Definition small_prime_check (n : Z) (bound : nat) : bool :=
  (1 <? n) && (n <? (Z.of_nat bound + 2) * (Z.of_nat bound + 2)) &&
  forallb (fun i => negb (n mod (Z.of_nat i) =? 0)) (seq 2 bound).

Theorem small_prime : forall n bound, small_prime_check n bound = true -> prime n.
Proof.
  intros n b H. unfold small_prime_check in H. rewrite !andb_true_iff in H.
  destruct H as [[H1 H2] H3]. apply Z.ltb_lt in H1, H2. rewrite forallb_forall in H3.
  apply prime_by_divisors; [assumption|]. intros d Hd Hdn.
  pose proof (prime_ge_2 _ Hd).
  destruct (Z_lt_ge_dec d (Z.of_nat b + 2)) as [Hlt|Hge]; [|nia].
  exfalso. specialize (H3 (Z.to_nat d)). rewrite Z2Nat.id in H3 by lia.
  assert (Hin : In (Z.to_nat d) (seq 2 b)) by (apply in_seq; lia).
  specialize (H3 Hin). apply negb_true_iff in H3. apply Z.eqb_neq in H3. apply H3.
  apply Z.mod_divide; [lia|assumption].
Qed.
