(** The Pow5 chip of width 3 meets the contract of a permutation chip. *)
From Coq Require Import ZArith List Arith Lia Bool.
From Verif Require Import Field Rust ListAux Primitives Specs SpecHash Perm_proof BigSum Link Halo2 Septidon PermuteChip
  ChipUse Pow5 Layout_proof SeptVal_proof SeptGate_proof Contract SeptBlock_proof Pow5Gate_proof Pow5Rows_proof Pow5Block_proof.
Import ListNotations.
Local Open Scope nat_scope.

Section Chip.
  Context {F : Type} {FO : FieldOps F} {PF : PrimeField F}.
  Variable s : spec F.
  Hypothesis Hspec : poseidon_spec 3 s.
  Hypothesis Inv1 : mat_prod_id 3 (mds s) (mds_inv s).
  Hypothesis Inv2 : mat_prod_id 3 (mds_inv s) (mds s).
  Notation R := (p5_R s).

  Section At.
    Variables a f q : nat.
    (** the configuration over fresh columns *)
    Definition pow5_of : pow5 :=
      {| p5_state := [a; S a; S (S a)]; p5_sbox := S (S (S a));
         p5_rc_a := [f; S f; S (S f)]; p5_rc_b := [S (S (S f)); S (S (S (S f))); S (S (S (S (S f))))];
         p5_full := q; p5_partial := S q; p5_single := S (S q); p5_pad := S (S (S q)) |}.
    Notation cfg := pow5_of.
    Notation sc := (col (p5_state cfg)).

    Lemma nd_adv : NoDup (p5_sbox cfg :: p5_state cfg).
    Proof. cbn. repeat (constructor; [cbn; lia|]). constructor. Qed.
    Lemma nd_fix : NoDup (p5_rc_a cfg ++ p5_rc_b cfg).
    Proof. cbn. repeat (constructor; [cbn; lia|]). constructor. Qed.
    Lemma nd_sel : NoDup [p5_full cfg; p5_partial cfg; p5_single cfg; p5_pad cfg].
    Proof. cbn. repeat (constructor; [cbn; lia|]). constructor. Qed.

    Lemma lt13 : 1 < 3.
    Proof. lia. Qed.
    Notation at3 L := (L 3 2 s Hspec lt13 eq_refl cfg eq_refl eq_refl eq_refl nd_adv nd_fix nd_sel).

    Definition p5_own (c : column) : Prop :=
      match c with
      | Adv i => a <= i < 4 + a
      | Fix i => f <= i < 6 + f
      | Sel i => q <= i < 4 + q
      end.
    Definition p5_data : chip_data := {|
      cd_h := S R;
      cd_own := p5_own;
      cd_main := Adv a;
      cd_gates := p5_gates 3 2 s cfg;
      cd_in := sc;
      cd_out_col := sc;
      cd_out_row := fun _ => R;
      cd_fix := p5_fix 3 s cfg;
      cd_sel := p5_sel s cfg;
      cd_adv := fun v => p5_adv 3 s cfg (of3 v);
      cd_out := fun v j => nth j (vs s (of3 v) R) None;
      cd_ok := block_ok 3 s cfg
    |}.

    Lemma sc_own : forall j, j < 3 -> p5_own (Adv (sc j)).
    Proof. intros j Hj. do 3 (destruct j as [|j]; [cbn; lia|]). lia. Qed.
    Lemma ac_own : forall j, j < 3 -> p5_own (Fix (col (p5_rc_a cfg) j)).
    Proof. intros j Hj. do 3 (destruct j as [|j]; [cbn; lia|]). lia. Qed.
    Lemma bc_own : forall j, j < 3 -> p5_own (Fix (col (p5_rc_b cfg) j)).
    Proof. intros j Hj. do 3 (destruct j as [|j]; [cbn; lia|]). lia. Qed.
    Lemma gate_own : forall k, p5_own (Sel (gate_of cfg k)).
    Proof. intros [r|r|r]; cbn; lia. Qed.

    Lemma adv_in : forall v c o w, length v = 3 -> In (c, o, w) (p5_adv 3 s cfg v) -> p5_own (Adv c) /\ o < S R.
    Proof.
      intros v c o w L H. apply (at3 p5_adv_in) in H; [|assumption].
      destruct H as [(i & Hi & Ho & -> & _)|(Ho & -> & _)].
      - split; [now apply sc_own|lia].
      - split; [cbn; lia|lia].
    Qed.
    Lemma fix_in : forall c o w, In (c, o, w) (p5_fix 3 s cfg) -> p5_own (Fix c) /\ o < S R.
    Proof.
      intros c o w H. apply (at3 p5_fix_in) in H. destruct H as (Ho & i & Hi & [(-> & _)|(r & _ & -> & _)]); (split; [|lia]).
      - now apply ac_own.
      - now apply bc_own.
    Qed.
    Lemma sel_in : forall c o, In (c, o) (p5_sel s cfg) -> p5_own (Sel c) /\ o < S R.
    Proof. intros c o H. apply (at3 p5_sel_in) in H. destruct H as [H ->]. split; [apply gate_own|lia]. Qed.

    Lemma of3_length : forall {A} (v : arr3 A), length (of3 v) = 3.
    Proof. intros A [[x y] z]. reflexivity. Qed.
    Lemma values_of3 : forall ws : list (acell F), length ws = 3 -> of3 (word_vals ws) = values ws.
    Proof. intros ws H. destruct (length_list3 ws H) as (x & y & z & ->). reflexivity. Qed.
    Lemma of3_map3 : forall {A B} (g : A -> B) v, of3 (map3 g v) = map g (of3 v).
    Proof. intros A B g [[x y] z]. reflexivity. Qed.

    Lemma p5_permute_stacked : forall ws L, ready p5_data L -> three_words L ws ->
      exists L' out, p5_permute s cfg ws L = Ok (L', out) /\ stacked p5_data L L' [ws] [out].
    Proof.
      intros ws L Rd K. pose proof (proj1 K) as L3. set (ri := length (lo_starts L)).
      pose proof (values_of3 ws L3) as V.
      exists (commit ri (ev_permute 3 s cfg ri ws) (reserve (ev_permute 3 s cfg ri ws) L)), (out_cells p5_data ri 0 ws).
      split.
      - unfold p5_permute. apply assign_region_ok; [|apply (at3 const_permute)].
        fold ri. rewrite (at3 permute_region_ok) by assumption.
        do 2 f_equal. unfold row_cells, out_cells. cbn [cd_out_row cd_out_col cd_out p5_data]. rewrite V.
        apply map_ext. intros j. now rewrite Nat.add_0_r.
      - assert (LV : length (values ws) = 3) by (unfold values; now rewrite map_length).
        assert (TS : forall o, o <= R -> In (Adv a, o) (touched (ev_permute 3 s cfg ri ws))).
        { intros o Ho. apply touched_adv. exists (nth 0 (vs s (values ws) o) None).
          rewrite (at3 adv_permute). apply (at3 p5_adv_in); [assumption|]. left. exists 0. repeat split; auto; lia. }
        apply stacked_region; try assumption.
        + cbn. lia.
        + cbn. lia.
        + cbn [cd_own cd_h p5_data]. intros [c|c|c] o H.
          * apply touched_adv in H. destruct H as [v H]. rewrite (at3 adv_permute) in H. now apply adv_in in H.
          * apply touched_fix in H. destruct H as [v H]. rewrite (at3 fix_permute) in H. now apply fix_in in H.
          * apply touched_sel in H. rewrite (at3 sel_permute) in H. now apply sel_in in H.
        + exists 0. apply TS. lia.
        + exists (Adv a). cbn [cd_h p5_data]. apply TS. lia.
        + rewrite (at3 adv_permute). cbn [cd_adv p5_data]. now rewrite V.
        + apply (at3 fix_permute).
        + apply (at3 sel_permute).
        + rewrite (at3 copies_permute) by assumption. reflexivity.
    Qed.

    Lemma lst3 : forall g : nat -> F, lst 3 g = [g 0; g 1; g 2].
    Proof. reflexivity. Qed.

    Lemma p5_laws : chip_laws p5_data (textbook s).
    Proof.
      constructor; cbn [cd_own cd_main cd_in cd_h cd_out_col cd_out_row cd_fix cd_sel cd_adv cd_ok cd_out cd_gates p5_data].
      - cbn. lia.
      - intros j Hj. split; [now apply sc_own|lia].
      - intros j Hj. split; [now apply sc_own|lia].
      - apply fix_in.
      - apply sel_in.
      - intros v c o w. apply adv_in. apply of3_length.
      - intros loc loc' H B o Ho. specialize (B o Ho).
        apply (kind_iff 3 s Hspec) in B; [|lia|now apply (at3 kd_fits)].
        apply (kind_iff 3 s Hspec); [lia|now apply (at3 kd_fits)|].
        rewrite !lst3 in *. rewrite <- !H by ((apply sc_own; lia) || (cbn; lia) || lia). exact B.
      - intros loc B j Hj. apply (at3 block_sound) in B.
        rewrite !lst3 in B. rewrite <- B. do 3 (destruct j as [|j]; [reflexivity|]). lia.
      - intros init. rewrite of3_map3. pose proof (of3_length init) as L. split; [|split].
        + now apply (at3 block_honest).
        + intros j Hj. now rewrite (at3 honest_state) by (assumption || lia).
        + intros j Hj. rewrite (at3 vs_result), (at3 nth_map_some); [reflexivity|].
          rewrite <- (rows_permutation 3 s Hspec lt13), (at3 steps_length); auto.
      - intros n fx sl adv bs Hap Hfit Hin Hout Sin Sout.
        assert (ROW : forall b o, In b bs -> o < R ->
          ((forall g, In g (p5_gates 3 2 s cfg) -> eval n fx sl adv (o + b) g = fzero)
           <-> kind_ok 3 s (kd s o) (fun i => adv (sc i) (o + b)) (fun i => adv (sc i) (S (o + b))) (adv (p5_sbox cfg) (o + b)))).
        { intros b o Hb Ho. specialize (Hfit b Hb). apply (at3 row_gates Inv1 Inv2); [lia| | |].
          - intros x Hx. destruct (Sin b x o Hb ltac:(lia)) as [S1 S2].
            { cbn in Hx. cbn. lia. }
            destruct (Nat.eqb_spec x (gate_of cfg (kd s o))) as [->|N].
            + apply S1. apply (at3 p5_sel_in). auto.
            + apply S2. intros X. apply (at3 p5_sel_in) in X. tauto.
          - intros i Hi. rewrite (Hin b _ o Hb ltac:(lia) (ac_own i Hi)). now apply (at3 p5_fix_a).
          - intros r i K Hi. rewrite (Hin b _ o Hb ltac:(lia) (bc_own i Hi)). now apply (at3 p5_fix_b). }
        assert (OFF : forall r, r < n -> (forall b o, In b bs -> o < R -> r <> o + b) ->
          forall g, In g (p5_gates 3 2 s cfg) -> eval n fx sl adv r g = fzero).
        { intros r Hr N.
          assert (Z : forall x, q <= x < 4 + q -> sl x r = fzero).
          { intros x Hx. destruct (existsb (fun b => (b <=? r) && (r <? b + S R)) bs) eqn:E.
            - apply existsb_exists in E. destruct E as (b & Hb & E). apply andb_prop in E. rewrite Nat.leb_le, Nat.ltb_lt in E.
              assert (r = R + b). { destruct (Nat.eq_dec r (R + b)); [assumption|]. exfalso. apply (N b (r - b)); auto; lia. }
              subst r. apply (Sin b x R Hb ltac:(lia) Hx). intros X. apply (at3 p5_sel_in) in X. lia.
            - apply Sout; [assumption|assumption|]. intros b Hb X. apply not_true_iff_false in E. apply E.
              apply existsb_exists. exists b. split; [assumption|]. apply andb_true_intro. rewrite Nat.leb_le, Nat.ltb_lt. exact X. }
          apply (at3 gates_off Inv1 Inv2); apply Z; cbn; lia. }
        split.
        + intros G b Hb o Ho. apply ROW; auto. intros g Hg. apply G; [assumption|]. specialize (Hfit b Hb). lia.
        + intros G g r Hg Hr.
          destruct (existsb (fun b => (b <=? r) && (r <? b + R)) bs) eqn:E.
          * apply existsb_exists in E. destruct E as (b & Hb & E). apply andb_prop in E. rewrite Nat.leb_le, Nat.ltb_lt in E.
            replace r with (r - b + b) by lia. revert g Hg. apply ROW; auto; [lia|]. apply (G b Hb). lia.
          * apply OFF; auto. intros b o Hb Ho ->. apply not_true_iff_false in E. apply E.
            apply existsb_exists. exists b. split; [assumption|]. apply andb_true_intro. rewrite Nat.leb_le, Nat.ltb_lt. lia.
      - intros v. exists (sc 0), (nth 0 (vs s (of3 v) R) None). replace (S R - 1) with R by lia.
        apply (at3 p5_adv_in); [apply of3_length|]. left. exists 0. repeat split; auto; lia.
    Qed.
  End At.

  Opaque full_gates partial_gates single_gates pad_gates.
  Lemma pow5_cs : forall c, exists c' e, pc_configure (pow5_chip s) c = (pow5_of (cs_adv c) (cs_fix c) (cs_sel c), c')
    /\ cs_adv c' = 4 + cs_adv c /\ cs_fix c' = 6 + cs_fix c /\ cs_sel c' = 4 + cs_sel c
    /\ cs_gates c' = cs_gates c ++ p5_gates 3 2 s (pow5_of (cs_adv c) (cs_fix c) (cs_sel c))
    /\ cs_lookups c' = cs_lookups c /\ cs_const c' = cs_const c
    /\ cs_eq c' = cs_eq c ++ e
    /\ (forall j, j < 3 -> In (Adv (col [cs_adv c; S (cs_adv c); S (S (cs_adv c))] j)) e).
  Proof.
    intros [a f q gs ls eq k].
    let t := eval lazy -[full_gates partial_gates single_gates pad_gates app] in
      (pc_configure (pow5_chip s) {| cs_adv := a; cs_fix := f; cs_sel := q; cs_gates := gs; cs_lookups := ls; cs_eq := eq; cs_const := k |}) in
    match t with (_, ?c') => exists c' end.
    exists [Adv a; Adv (S a); Adv (S (S a)); Fix (3 + f); Fix (4 + f); Fix (5 + f)].
    split. { lazy -[full_gates partial_gates single_gates pad_gates app]. reflexivity. }
    split; [reflexivity|]. split; [reflexivity|]. split; [reflexivity|].
    split. { unfold p5_gates. rewrite !app_assoc. reflexivity. }
    split; [reflexivity|]. split; [reflexivity|].
    split. { cbn. rewrite <- !app_assoc. reflexivity. }
    intros j Hj. do 3 (destruct j as [|j]; [cbn; tauto|]). lia.
  Qed.

  (** the Pow5 chip computes the textbook permutation of its spec in blocks of one row per step plus one *)
  Theorem pow5_correct : chip_correct (pow5_chip s) (textbook s) (S R).
  Proof.
    intros c. destruct (pow5_cs c) as (c' & e & E & A & B & C & G & K & X & Q & J). rewrite E.
    cbn [fst snd]. exists (p5_data (cs_adv c) (cs_fix c) (cs_sel c)). split; [apply p5_laws|].
    split; [reflexivity|].
    split. { intros [i|i|i]; cbn [added cd_own p5_data p5_own]; rewrite ?A, ?B, ?C; lia. }
    split; [lia|]. split; [lia|]. split; [lia|].
    split; [exact G|]. split; [exact K|]. split; [exact X|]. split.
    { exists e. split; [exact Q|]. intros j Hj. split; exact (J j Hj). }
    split.
    - intros wss. apply runs_lmap. intros ws L. apply p5_permute_stacked.
    - intros threads wss _. apply (runs_lmap _ (p5_permute s (pow5_of (cs_adv c) (cs_fix c) (cs_sel c)))).
      intros ws L. apply p5_permute_stacked.
  Qed.
End Chip.
