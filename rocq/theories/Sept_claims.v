(** The lemmas behind PropertiesSept.v. *)
From Coq Require Import ZArith List Arith Lia Bool.
From Verif Require Import Field Rust ListAux Primitives Specs SpecHash Link Perm_proof Sponge_proof BaseHash_proof Base_claims Halo2 Septidon PermuteChip
  ChipUse SeptVal_proof SeptGate_proof Contract SeptBlock_proof Layout_proof SeptLayout_proof SeptChip_proof
  Stack_proof.
Import ListNotations.
Local Open Scope nat_scope.

Section Claims.
  Context {F : Type} {FO : FieldOps F} {PF : PrimeField F}.

  Lemma spec_permute_length : forall (c : p128_constants F) x, constants_ok c -> length x = 3 ->
    length (poseidon_permutation c x) = 3.
  Proof.
    intros c x Hc Hx. change (poseidon_permutation c x) with (textbook (p128_spec c) x). rewrite <- (hash_permute_textbook 3 (p128_spec c) x (p128_spec_ok c Hc) Hx).
    now apply (textbook_agrees 3 _ (p128_spec_ok c Hc)).
  Qed.

  Lemma chip_laws_ext : forall D (p p' : list F -> list F), (forall x, length x = 3 -> p x = p' x) ->
    chip_laws D p -> chip_laws D p'.
  Proof.
    intros D p p' E [L1 L2 L3 L4 L5 L6 L7 L8 L9 L10 L11]. constructor; try assumption.
    - intros loc H j Hj. rewrite <- E by reflexivity. now apply L8.
    - intros init. destruct (L9 init) as (A & B & C). split; [assumption|]. split; [assumption|].
      intros j Hj. rewrite <- E; [now apply C|]. now destruct init as [[x y] z].
  Qed.
  Lemma chip_correct_ext : forall P (p p' : list F -> list F) h, (forall x, length x = 3 -> p x = p' x) ->
    chip_correct P p h -> chip_correct P p' h.
  Proof.
    intros P p p' h E H c. destruct (H c) as (D & Laws & R). exists D. split; [|exact R].
    eapply chip_laws_ext; eassumption.
  Qed.

  Lemma compact_spec_ok : forall (c : p128_constants F) s, constants_ok c -> compact_spec c = Ok s ->
    poseidon_spec 3 s.
  Proof.
    intros c s (H1 & H2 & H3) Hs. unfold compact_spec in Hs.
    destruct (compact_round_constants 8 (pc_partial_rounds c) (pc_mds c) (pc_round_constants c)) as [rc|] eqn:E;
      [|discriminate]. cbn in Hs. apply Ok_inj in Hs. subst s.
    destruct (compact_forall _ _ _ _ _ H1 H2 E) as [R1 R2].
    split; [exact sbox_mul_power5|]. split; [exact H1|]. split; [exact R1|].
    cbn [full_rounds partial_rounds round_constants Nat.div2]. lia.
  Qed.

  (** the chip with the cached tables of a set of constants *)
  Lemma compact_table : forall (c : p128_constants F) s, constants_ok c -> pc_partial_rounds c = 57 ->
    compact_spec c = Ok s -> table_ok (round_constants s) (mds s)
    /\ forall x, length x = 3 -> spec_permute (mds s) 4 57 (round_constants s) x = poseidon_permutation c x.
  Proof.
    intros c s Hc Hp Hs. split.
    - unfold compact_spec in Hs. rewrite Hp in Hs.
      destruct (compact_round_constants 8 57 (pc_mds c) (pc_round_constants c)) as [rc|] eqn:E; [|discriminate].
      cbn in Hs. apply Ok_inj in Hs. subst s. cbn [round_constants mds].
      apply compact_table_ok; [exact Hc|lia|now rewrite Hp].
    - intros x Hx. destruct (compact_constants_claim c s x Hc Hs Hx) as [_ <-].
      pose proof (hash_permute_textbook 3 s x (compact_spec_ok c s Hc Hs) Hx) as E. unfold hash_permute, textbook in E.
      rewrite E. unfold compact_spec in Hs. rewrite Hp in Hs.
      destruct (compact_round_constants 8 57 (pc_mds c) (pc_round_constants c)) as [rc|]; [|discriminate].
      cbn in Hs. apply Ok_inj in Hs. subst s. reflexivity.
  Qed.

  Lemma septidon_poseidon : forall (c : p128_constants F) s, constants_ok c -> pc_partial_rounds c = 57 ->
    compact_spec c = Ok s ->
    chip_correct (septidon_chip (round_constants s) (mds s)) (poseidon_permutation c) 8.
  Proof.
    intros c s Hc Hp Hs. destruct (compact_table c s Hc Hp Hs) as [HT HE].
    eapply chip_correct_ext; [exact HE|]. now apply septidon_correct.
  Qed.

  Lemma as_list : forall (l : list F), length l = 3 -> map (fun j => nth j l fzero) (seq 0 3) = l.
  Proof. intros l H. destruct (length_list3 l H) as (x & y & z & ->). reflexivity. Qed.

  (** C16 *)
  Theorem septidon_sound_claim : forall (c : p128_constants F) s (cs0 : cs F) L calls other n adv,
    constants_ok c -> pc_partial_rounds c = 57 -> compact_spec c = Ok s ->
    let P := septidon_chip (round_constants s) (mds s) in
    let cfg := fst (pc_configure P cs0) in let cs1 := snd (pc_configure P cs0) in
    chip_used P cfg (added cs0 cs1) L calls other -> 8 * length calls <= n ->
    gates_hold n L adv (cs_gates cs1) -> copies_hold L adv ->
    forall ws out, In (ws, out) calls ->
    map (word_at L adv) out = poseidon_permutation c (map (word_at L adv) ws).
  Proof.
    intros c s cs0 L calls other n adv Hc Hp Hs P cfg cs1 U Hn G C ws out H.
    pose proof (used_sound P (poseidon_permutation c) 8 (septidon_poseidon c s Hc Hp Hs) cs0 L calls other n adv U Hn G C ws out H) as E.
    rewrite E. apply as_list. apply spec_permute_length; [assumption|]. rewrite map_length.
    destruct (septidon_poseidon c s Hc Hp Hs cs0) as (D & Laws & _ & Own & _ & _ & _ & _ & _ & _ & _ & R1 & R2).
    apply (used_own P cfg _ (cd_own D)) in U; [|intros col; symmetry; apply Own].
    pose proof (used_inv P D _ cfg L calls other Laws R1 R2 U) as I.
    apply In_nth_error in H. destruct H as [i Ei].
    destruct (inv_call D L calls other i ws out I Ei) as (_ & _ & [X _] & _). exact X.
  Qed.

  (** C17 *)
  Theorem septidon_complete_claim : forall (c : p128_constants F) s (cs0 : cs F) L calls other u n blind,
    constants_ok c -> pc_partial_rounds c = 57 -> compact_spec c = Ok s ->
    let P := septidon_chip (round_constants s) (mds s) in
    let cfg := fst (pc_configure P cs0) in let cs1 := snd (pc_configure P cs0) in
    chip_used P cfg (added cs0 cs1) L calls other -> 8 * length calls <= u -> u <= n ->
    let adv := honest u L blind in
    (forall i ws out, nth_error calls i = Some (ws, out) ->
       Forall (fun w => ac_val w = Some (word_at L adv w)
                 \/ exists j ws' out', j < i /\ nth_error calls j = Some (ws', out') /\ In w out') ws) ->
    (gates_hold n L adv (cs_gates cs0) -> gates_hold n L adv (cs_gates cs1))
    /\ (forall ws out, In (ws, out) calls ->
          map ac_val out = map Some (poseidon_permutation c (map (word_at L adv) ws))
          /\ map (word_at L adv) out = poseidon_permutation c (map (word_at L adv) ws))
    /\ ((forall a b, In (a, b) other -> cell_at L adv a = cell_at L adv b) -> copies_hold L adv)
    /\ (forall ws, three_words L ws -> exists L' out, pc_permute P cfg ws L = Ok (L', out)).
  Proof.
    intros c s cs0 L calls other u n blind Hc Hp Hs P cfg cs1 U Hu Hn adv T.
    pose proof (septidon_poseidon c s Hc Hp Hs) as PC.
    destruct (used_complete P (poseidon_permutation c) 8 PC cs0 L calls other u n blind U Hu Hn T) as (A & B & C).
    split; [exact A|]. split; [|split; [exact C|apply (used_total P _ 8 PC cs0 L calls other U)]].
    intros ws out H. destruct (B ws out H) as [B1 B2].
    assert (Lw : length (map (word_at L adv) ws) = 3).
    { rewrite map_length.
      destruct (PC cs0) as (D & Laws & _ & Own & _ & _ & _ & _ & _ & _ & _ & R1 & R2).
      apply (used_own P cfg _ (cd_own D)) in U; [|intros col; symmetry; apply Own].
      pose proof (used_inv P D _ cfg L calls other Laws R1 R2 U) as I.
      apply In_nth_error in H. destruct H as [i Ei].
      destruct (inv_call D L calls other i ws out I Ei) as (_ & _ & [X _] & _). exact X. }
    pose proof (spec_permute_length c _ Hc Lw) as Lp. split.
    - rewrite B1. rewrite <- (map_map (fun j => nth j _ fzero) Some). now rewrite as_list.
    - fold adv in B2. rewrite B2. now apply as_list.
  Qed.

  (** C20 *)
  Theorem septidon_batch_claim : forall (c : p128_constants F) s (cs0 : cs F) L calls other,
    constants_ok c -> pc_partial_rounds c = 57 -> compact_spec c = Ok s ->
    let P := septidon_chip (round_constants s) (mds s) in
    let cfg := fst (pc_configure P cs0) in let cs1 := snd (pc_configure P cs0) in
    chip_used P cfg (added cs0 cs1) L calls other ->
    (forall threads wss, 0 < threads -> Forall (three_words L) wss ->
       exists L1 o1 L2 o2,
         lmap (pc_permute P cfg) wss L = Ok (L1, o1) /\ pc_permute_batch P threads cfg wss L = Ok (L2, o2)
         /\ lo_adv L1 = lo_adv L2 /\ lo_fix L1 = lo_fix L2 /\ lo_sel L1 = lo_sel L2
         /\ lo_copy L1 = lo_copy L2 /\ lo_tables L1 = lo_tables L2 /\ length o2 = length wss
         /\ map (map (fun w => (abs_cell (lo_starts L1) (ac_cell w), ac_val w))) o1
            = map (map (fun w => (abs_cell (lo_starts L2) (ac_cell w), ac_val w))) o2)
    /\ (forall threads, pc_permute_batch P threads cfg [] L = Ok (L, [])).
  Proof.
    intros c s cs0 L calls other Hc Hp Hs P cfg cs1 U. split; [|reflexivity].
    intros threads wss. apply (used_total P _ 8 (septidon_poseidon c s Hc Hp Hs) cs0 L calls other U).
  Qed.

  (** C18 *)
  Lemma sept_own_added : forall rcs m (cs0 : cs F) col,
    added cs0 (snd (septidon_configure rcs m cs0)) col <-> sept_own (cs_adv cs0) (cs_fix cs0) col.
  Proof.
    intros rcs m cs0 col. destruct (configure_cs rcs m cs0) as (A & B & C & _).
    destruct col as [i|i|i]; cbn [added sept_own]; rewrite ?A, ?B, ?C; lia.
  Qed.

  Lemma sept_used_inv : forall rcs m (cs0 : cs F) L calls other, table_ok rcs m ->
    chip_used (septidon_chip rcs m) (fst (septidon_configure rcs m cs0))
      (added cs0 (snd (septidon_configure rcs m cs0))) L calls other ->
    inv (sept_data rcs m (cs_adv cs0) (cs_fix cs0)) L calls other.
  Proof.
    intros rcs m cs0 L calls other HT U.
    pose proof (sept_laws rcs m (cs_adv cs0) (cs_fix cs0) (table_rows _ _ HT) HT) as Laws.
    rewrite configure_chip in U.
    apply (used_own (septidon_chip rcs m) (chip_of (cs_adv cs0) (cs_fix cs0)) _
      (cd_own (sept_data rcs m (cs_adv cs0) (cs_fix cs0)))) in U; [|apply sept_own_added].
    apply (used_inv (septidon_chip rcs m) _ _ _ L calls other Laws) in U; [exact U| |].
    - intros wss. apply runs_lmap. intros ws L1. apply permute_stacked, (table_rows _ _ HT).
    - intros threads wss Ht. apply batch_runs; [exact (table_rows _ _ HT)|exact Ht].
  Qed.

  (** assignment with one cell changed *)
  Definition set_cell (adv : nat -> nat -> F) (c r : nat) (v : F) : nat -> nat -> F :=
    fun c' r' => if (c' =? c) && (r' =? r) then v else adv c' r'.

  Lemma block_cells_unique : forall rcs m a (x y : nat -> nat -> F) init,
    block_cells rcs m x a init 0 -> block_cells rcs m y a init 0 ->
    forall k o, k < 13 -> o < 8 -> ~ (k = 12 /\ (o = 0 \/ o = 4)) -> x (k + a) o = y (k + a) o.
  Proof.
    intros rcs m a x y init (X & X4 & X65) (Y & Y4 & Y65) k o Hk Ho N.
    destruct (X o Ho) as (X1 & X2 & X3). destruct (Y o Ho) as (Y1 & Y2 & Y3).
    rewrite <- Y1 in X1. rewrite <- Y2 in X2. rewrite <- Y4 in X4. rewrite <- Y65 in X65.
    unfold fullin, septin, tr in *. rewrite Nat.add_0_r in *.
    injection X1 as A0 A1 A2. injection X2 as B0 B1 B2. injection X4 as C1 C2 C3. injection X65 as D1 D2 D3.
    do 6 (destruct k as [|k]; [assumption|]).
    destruct (Nat.lt_ge_cases k 6) as [H6|H6].
    - change (S (S (S (S (S (S k)))))) with (6 + k). rewrite X3, Y3 by assumption. reflexivity.
    - replace k with 6 in * by lia. cbn [Nat.add] in *.
      do 8 (destruct o as [|o]; [first [assumption | exfalso; apply N; split; [reflexivity|tauto]]|]). lia.
  Qed.

  Theorem septidon_unique_claim : forall (c : p128_constants F) s (cs0 : cs F) L calls other n,
    constants_ok c -> pc_partial_rounds c = 57 -> compact_spec c = Ok s ->
    let chip := fst (septidon_configure (round_constants s) (mds s) cs0) in
    let cs1 := snd (septidon_configure (round_constants s) (mds s) cs0) in
    let a := cs_adv cs0 in
    chip_used (septidon_chip (round_constants s) (mds s)) chip (added cs0 cs1) L calls other -> 8 * length calls <= n ->
    forall G, cs_gates cs1 = cs_gates cs0 ++ G ->
    (forall adv adv' i, gates_hold n L adv G -> gates_hold n L adv' G -> i < length calls ->
      (forall j, j < 3 -> adv (j + a) (8 * i) = adv' (j + a) (8 * i)) ->
      forall k o, k < 13 -> o < 8 -> ~ (k = 12 /\ (o = 0 \/ o = 4)) ->
      adv (k + a) (o + 8 * i) = adv' (k + a) (o + 8 * i))
    /\ (forall adv i o v, gates_hold n L adv G -> i < length calls -> o = 0 \/ o = 4 ->
        gates_hold n L (set_cell adv (12 + a) (o + 8 * i) v) G).
  Proof.
    intros c s cs0 L calls other n Hc Hp Hs chip cs1 a U Hn G EG.
    unfold chip, cs1 in U, EG. clear chip cs1.
    destruct (compact_table c s Hc Hp Hs) as [HT _].
    pose proof (sept_used_inv _ _ cs0 L calls other HT U) as I.
    pose proof (sept_laws _ _ (cs_adv cs0) (cs_fix cs0) (table_rows _ _ HT) HT) as Laws.
    assert (G = cd_gates (sept_data (round_constants s) (mds s) (cs_adv cs0) (cs_fix cs0))) as ->.
    { destruct (configure_cs (round_constants s) (mds s) cs0) as (_ & _ & _ & E & _).
      rewrite E in EG.
      apply app_inv_head in EG. now symmetry. }
    destruct I as (_ & _ & HF & _ & HS & _).
    set (D := sept_data (round_constants s) (mds s) (cs_adv cs0) (cs_fix cs0)) in *.
    assert (GE : forall adv, gates_hold n L adv (cd_gates D) <->
              forall i, i < length calls -> cd_ok D (fun c o => adv c (o + (8 * i + 0)))).
    { intros adv. apply (stack_gates D _ Laws L 0 (length calls) n adv HF HS). cbn [cd_h D sept_data]. lia. }
    split.
    - intros adv adv' i H H' Hi E k o Hk Ho N.
      pose proof (proj1 (GE adv) H i Hi) as O1. pose proof (proj1 (GE adv') H' i Hi) as O2.
      cbn [cd_ok D sept_data] in O1, O2.
      replace (fullin (fun c o => adv' c (o + (8 * i + 0))) (cs_adv cs0) 0)
        with (fullin (fun c o => adv c (o + (8 * i + 0))) (cs_adv cs0) 0) in O2.
      + pose proof (block_cells_unique _ _ _ _ _ _ O1 O2 k o Hk Ho N) as X. cbn beta in X.
        now rewrite !Nat.add_0_r in X.
      + unfold fullin. rewrite Nat.add_0_r. cbn [Nat.add]. unfold a in E.
        f_equal; [f_equal|]; [apply (E 0)|apply (E 1)|apply (E 2)]; lia.
    - intros adv i o v H Hi Ho. apply GE. intros i' Hi'. pose proof (proj1 (GE adv) H i' Hi') as O1.
      cbn [cd_ok D sept_data] in *.
      assert (SC : forall k r, ~ (k = 12 /\ r = o + 8 * i) ->
                set_cell adv (12 + a) (o + 8 * i) v (k + cs_adv cs0) r = adv (k + cs_adv cs0) r).
      { intros k r N. unfold set_cell, a. destruct (Nat.eqb_spec (k + cs_adv cs0) (12 + cs_adv cs0)) as [E1|E1];
          destruct (Nat.eqb_spec r (o + 8 * i)) as [E2|E2]; cbn [andb]; try reflexivity. exfalso. apply N. lia. }
      set (loc := fun c o => adv c (o + (8 * i' + 0))) in *.
      set (loc' := fun c o0 => set_cell adv (12 + a) (o + 8 * i) v c (o0 + (8 * i' + 0))).
      assert (LOC : forall k r, r < 8 -> ~ (k = 12 /\ (r = 0 \/ r = 4)) -> loc' (k + cs_adv cs0) r = loc (k + cs_adv cs0) r).
      { intros k r Hr N. unfold loc, loc'. apply SC. intros [E1 E2]. apply N. split; [assumption|]. lia. }
      assert (FI : fullin loc' (cs_adv cs0) 0 = fullin loc (cs_adv cs0) 0).
      { unfold fullin. f_equal; [f_equal|]; [apply (LOC 0)|apply (LOC 1)|apply (LOC 2)]; lia. }
      rewrite FI. destruct O1 as (X & X4 & X65). split; [|split].
      + intros o0 Ho0. destruct (X o0 Ho0) as (X1 & X2 & X3). unfold fullin, septin in *. rewrite Nat.add_0_r in *.
        split; [|split].
        * rewrite <- X1. f_equal; [f_equal|]; [apply (LOC 0)|apply (LOC 1)|apply (LOC 2)]; lia.
        * rewrite <- X2. f_equal; [f_equal|]; [apply (LOC 3)|apply (LOC 4)|apply (LOC 5)]; lia.
        * intros k Hk. rewrite <- X3 by assumption. apply (LOC (6 + k)); lia.
      + rewrite <- X4. unfold tr. rewrite Nat.add_0_r. f_equal; [f_equal|]; apply (LOC 12); lia.
      + rewrite <- X65. unfold tr. rewrite Nat.add_0_r. f_equal; [f_equal|]; apply (LOC 12); lia.
  Qed.

  (** C19 *)
  Lemma scattered_read : forall {V} h (W : list (nat * nat * V)) bs s c o,
    (forall c o v, In (c, o, v) W -> o < h) -> apart h bs -> In s bs -> o < h ->
    last_write (flat_map (fun s => map (moved 0 s) W) bs) c (o + s) = last_write W c o.
  Proof.
    intros V h W bs s c o HW Hap Hs Ho. induction bs as [|s0 bs IH]; [easy|].
    inversion Hap as [|? ? A1 A2]; subst. cbn [flat_map]. rewrite last_write_app.
    destruct (in_dec Nat.eq_dec s bs) as [Hin|Hn].
    - rewrite IH by assumption. destruct (last_write W c o) eqn:E; [reflexivity|].
      apply last_write_none. intros v X. apply in_moved in X. destruct X as (c' & o' & X & _ & E').
      apply HW in X. rewrite Forall_forall in A1. specialize (A1 s Hin). lia.
    - destruct Hs as [->|Hs]; [|easy].
      replace (last_write (flat_map _ bs) c (o + s)) with (@None V).
      + rewrite <- (Nat.add_0_r c) at 1. apply last_write_moved.
      + symmetry. apply last_write_none. intros v X. apply in_flat_map in X. destruct X as (s' & Hs' & X).
        apply in_moved in X. destruct X as (c' & o' & X & _ & E'). apply HW in X.
        rewrite Forall_forall in A1. specialize (A1 s' Hs'). lia.
  Qed.

  Lemma lbind_inv : forall {A B} (p : Layouter F A) (k : A -> Layouter F B) L r,
    lbind p k L = Ok r -> exists L1 x, p L = Ok (L1, x) /\ k x L1 = Ok r.
  Proof.
    intros A B p k L r H. unfold lbind in H. destruct (p L) as [[L1 x]|]; [|discriminate]. eauto.
  Qed.
  Lemma lmap_cons : forall {A B} (f : A -> Layouter F B) x l L,
    lmap f (x :: l) L = lbind (f x) (fun y => lbind (lmap f l) (fun r => lret (y :: r))) L.
  Proof. reflexivity. Qed.
  Lemma place_step : forall {A B} row (p : Region F A) (k : A -> Layouter F B) L0 r evs x W,
    p (length (lo_starts L0)) = Ok (evs, x) -> fix_ws evs = W -> sel_ws evs = [] ->
    lbind (place row p) k L0 = Ok r ->
    exists L1, k x L1 = Ok r /\ lo_fix L1 = lo_fix L0 ++ map (moved 0 row) W /\ lo_sel L1 = lo_sel L0.
  Proof.
    intros A B row p k L0 r evs x W H EF ES E. unfold lbind, place in E. rewrite H in E. cbn [bind] in E.
    eexists. split; [exact E|]. cbn [commit lo_fix lo_sel lo_starts].
    rewrite app_nth2, Nat.sub_diag by lia. cbn [nth]. rewrite abs_fix_ws, abs_sel_ws, EF, ES.
    split; [reflexivity|]. apply app_nil_r.
  Qed.

  Lemma place_blocks : forall rcs m a f W blocks L0 L outs, 65 <= length rcs ->
    W = map (moved f 0) (REL rcs) ->
    Forall (fun '(_, ws) => length ws = 3) blocks ->
    lmap (fun '(row, ws) => place row (permute_at rcs m (chip_of a f) ws 0)) blocks L0 = Ok (L, outs) ->
    lo_fix L = lo_fix L0 ++ flat_map (fun s => map (moved 0 s) W) (map fst blocks)
    /\ lo_sel L = lo_sel L0.
  Proof.
    intros rcs m a f W blocks L0 L outs HT HW. revert L0 L outs.
    induction blocks as [|[row ws] blocks IH]; intros L0 L outs HL E.
    - cbn in E. apply Ok_inj in E. inversion E; subst. cbn. now rewrite app_nil_r.
    - inversion HL as [|? ? H1 H2]; subst x l. destruct (length_list3 ws H1) as (w0 & w1 & w2 & ->).
      rewrite lmap_cons in E. cbv beta iota in E.
      apply (place_step row _ _ L0 _ _ _ W (permute_at_ok rcs m a f HT (length (lo_starts L0)) 0 w0 w1 w2)) in E;
        [|rewrite fix_permute; symmetry; exact HW|apply sel_permute].
      destruct E as (L1 & E & F1 & S1). apply lbind_inv in E. destruct E as (L2 & o2 & E2 & E).
      unfold lret in E. apply Ok_inj in E. apply (f_equal fst) in E. cbn [fst] in E. subst L2.
      destruct (IH _ _ _ H2 E2) as [F2 S2]. rewrite F2, S2, F1, S1. cbn [map fst flat_map].
      split; [|reflexivity]. now rewrite <- app_assoc.
  Qed.

  Lemma place_total : forall {A} row (p : Region F A) L0 evs x, p (length (lo_starts L0)) = Ok (evs, x) ->
    exists L1, place row p L0 = Ok (L1, x).
  Proof. intros A row p L0 evs x H. unfold place. rewrite H. eexists. reflexivity. Qed.
  Lemma place_runs : forall rcs m a f blocks L0, 65 <= length rcs ->
    Forall (fun '(_, ws) => length ws = 3) blocks ->
    exists L outs, lmap (fun '(row, ws) => place row (permute_at rcs m (chip_of a f) ws 0)) blocks L0 = Ok (L, outs).
  Proof.
    intros rcs m a f blocks L0 HT. revert L0. induction blocks as [|[row ws] blocks IH]; intros L0 HL; [eexists; eexists; reflexivity|].
    inversion HL as [|? ? H1 H2]; subst x l. destruct (length_list3 ws H1) as (w0 & w1 & w2 & ->).
    rewrite lmap_cons. cbv beta iota.
    destruct (place_total row _ L0 _ _ (permute_at_ok rcs m a f HT (length (lo_starts L0)) 0 w0 w1 w2)) as [L1 E1].
    rewrite (lbind_ok _ _ _ _ _ E1). destruct (IH L1 H2) as (L2 & o2 & E2).
    rewrite (lbind_ok _ _ _ _ _ E2). eexists. eexists. reflexivity.
  Qed.
  Lemma list3_eq : forall (x y z x' y' z' : F), x = x' -> y = y' -> z = z' -> [x; y; z] = [x'; y'; z'].
  Proof. intros; subst; reflexivity. Qed.
  Theorem septidon_scattered_claim : forall (c : p128_constants F) s (cs0 : cs F) blocks L0 L outs n,
    constants_ok c -> pc_partial_rounds c = 57 -> compact_spec c = Ok s ->
    let rcs := round_constants s in let m := mds s in
    let chip := fst (septidon_configure rcs m cs0) in let cs1 := snd (septidon_configure rcs m cs0) in
    let a := cs_adv cs0 in
    unused (added cs0 cs1) L0 -> Forall (fun '(_, ws) => length ws = 3) blocks ->
    lmap (fun '(row, ws) => place row (permute_at rcs m chip ws 0)) blocks L0 = Ok (L, outs) ->
    disjoint_blocks 8 (map fst blocks) -> (forall row, In row (map fst blocks) -> row + 8 <= n) ->
    forall G, cs_gates cs1 = cs_gates cs0 ++ G ->
    (forall adv row, gates_hold n L adv G -> In row (map fst blocks) ->
       [adv (12 + a) (5 + row); adv (12 + a) (6 + row); adv (12 + a) (7 + row)]
       = poseidon_permutation c [adv a row; adv (1 + a) row; adv (2 + a) row])
    /\ (forall adv,
         (forall row, In row (map fst blocks) -> exists adv', gates_hold n L adv' G
            /\ forall k o, k < 13 -> o < 8 -> adv (k + a) (o + row) = adv' (k + a) (o + row)) ->
         gates_hold n L adv G).
  Proof.
    intros c s cs0 blocks L0 L outs n Hc Hp Hs rcs m chip cs1 a (U1 & U2 & U3 & U4) Hl E Hap Hfit G EG.
    destruct (compact_table c s Hc Hp Hs) as [HT HE].
    pose proof (sept_laws rcs m (cs_adv cs0) (cs_fix cs0) (table_rows _ _ HT) HT) as Laws.
    destruct (configure_cs rcs m cs0) as (CA & CF & CS & CG & _).
    assert (G = cd_gates (sept_data rcs m (cs_adv cs0) (cs_fix cs0))) as ->.
    { unfold cs1 in EG. rewrite CG in EG. apply app_inv_head in EG. now symmetry. }
    unfold chip in E. rewrite configure_chip in E.
    destruct (place_blocks rcs m _ _ _ blocks L0 L outs (table_rows _ _ HT) eq_refl Hl E) as [EF ES].
    set (D := sept_data rcs m (cs_adv cs0) (cs_fix cs0)) in *.
    assert (GE : forall adv, gates_hold n L adv (cd_gates D) <->
              forall s, In s (map fst blocks) -> cd_ok D (fun c o => adv c (o + s))).
    { intros adv. apply (law_gates D _ Laws n (fixed_at L) (selector_at L) adv (map fst blocks)).
      - exact Hap.
      - exact Hfit.
      - intros r c0 o Hr Ho Hc0. unfold fixed_at, rd. rewrite EF, last_write_app.
        rewrite (scattered_read 8) by (try assumption; intros c1 o1 v1 X; apply in_moved in X;
          destruct X as (c2 & o2 & X & _ & ->); apply REL_in in X; lia).
        cbn [cd_fix D sept_data]. destruct (last_write (map (moved (cs_fix cs0) 0) (REL rcs)) c0 o); [reflexivity|].
        rewrite last_write_none; [reflexivity|]. intros v X. apply U3 in X. apply X. cbn [added]. unfold cs1. rewrite CF.
        cbn in Hc0. lia.
      - intros c0 r Hr Hc0 Ho. unfold fixed_at. rewrite EF, last_write_none; [reflexivity|].
        intros v X. apply in_app_iff in X. destruct X as [X|X].
        + apply U3 in X. apply X. cbn [added]. unfold cs1. rewrite CF. cbn in Hc0. lia.
        + apply in_flat_map in X. destruct X as (r0 & Hr0 & X). apply in_moved in X.
          destruct X as (c1 & o1 & X & _ & ->). apply in_moved in X. destruct X as (c2 & o2 & X & _ & ->).
          apply REL_in in X. apply (Ho r0 Hr0). cbn [cd_h D sept_data]. lia.
      - intros r q o _ _ [].
      - intros q r _ []. }
    split.
    - intros adv row H Hrow. pose proof (proj1 (GE adv) H row Hrow) as OK.
      pose proof (law_sound D _ Laws _ OK) as S. cbn [cd_out_col cd_out_row cd_in D sept_data Nat.add] in S.
      rewrite HE in S by reflexivity.
      rewrite <- (as_list (poseidon_permutation c _)) by now apply spec_permute_length.
      cbn [map seq]. apply list3_eq; [apply (S 0); lia|apply (S 1); lia|apply (S 2); lia].
    - intros adv H. apply GE. intros row Hrow. destruct (H row Hrow) as (adv' & H' & A).
      pose proof (proj1 (GE adv') H' row Hrow) as OK.
      eapply (law_local D _ Laws); [|exact OK]. intros c0 o Hc0 Ho. cbn beta. symmetry.
      cbn [cd_own D sept_data sept_own] in Hc0. cbn [cd_h D sept_data] in Ho.
      replace c0 with (c0 - cs_adv cs0 + cs_adv cs0) by lia. apply A; lia.
  Qed.
End Claims.
