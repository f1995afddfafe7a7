(** The lemmas behind PropertiesGadget.v. *)
From Coq Require Import ZArith List Arith Lia Bool.
From Verif Require Import Field Rust ListAux Primitives Specs SpecHash Perm_proof Sponge_proof BaseHash_proof BigSum Link Base_claims Halo2 Septidon PermuteChip
  ChipUse Pow5 Built Pow5Use Gadget GadgetUse Layout_proof Contract Sept_claims Pow5Gate_proof Pow5Rows_proof Pow5Block_proof
  Pow5Chip_proof Trace_proof Pow5Use_proof Pow5Honest_proof Pow5_claims Gadget_proof.
Import ListNotations.
Local Open Scope nat_scope.

Section Claims.
  Context {F : Type} {FO : FieldOps F} {PF : PrimeField F}.

  Lemma squeezes_n : forall T RATE (s : spec F) k sp, squeezes T RATE s k sp = squeeze_n T RATE s k sp.
  Proof.
    induction k as [|k IH]; intros sp; cbn [squeezes squeeze_n]; [reflexivity|].
    destruct (squeeze T RATE s sp) as [[x sp']|]; [|reflexivity]. cbn [bind]. now rewrite IH.
  Qed.
  Lemma session_stream : forall T (s : spec F) cap w k, poseidon_spec T s -> 1 < T ->
    session T (T - 1) s cap 0 w k
    = if (length w =? 0) || negb (length w mod (T - 1) =? 0) then Panic
      else Ok (sponge_stream (textbook s) T (T - 1) 0 (T - 1) cap w k).
  Proof.
    intros T s cap w k Hs HT. pose proof (squeeze_claim T (T - 1) 0 s cap w k ltac:(lia) ltac:(lia) Hs) as H.
    rewrite Nat.add_0_r, (Nat.mod_small (T - 1)) in H by lia. unfold sponge_stream. cbv zeta in *. rewrite <- H. unfold session.
    destruct (absorb_all _ _ _ _ _) as [sp|]; [|reflexivity]. cbn [bind].
    destruct (finish_absorbing _ _ _ _) as [sp'|]; [|reflexivity]. cbn [bind]. apply squeezes_n.
  Qed.

  (** C23 *)
  Theorem circuit_hash_sound_claim : forall T (s : spec F) state sbox rc_a rc_b (cs0 cs1 : cs F) cfg m N L0 L1 L2 L3 L h msg out n adv,
    poseidon_spec T s -> 1 < T -> mat_prod_id T (mds s) (mds_inv s) -> mat_prod_id T (mds_inv s) (mds s) ->
    columns_ok T state sbox rc_a rc_b -> pow5_configure T (T - 1) s state sbox rc_a rc_b cs0 = (cfg, cs1) ->
    grows (layout_empty m) L0 -> circuit_hash_init (T - 1) cfg N L0 = Ok (L1, h) -> grows L1 L2 ->
    words_in L2 msg -> length msg = N -> circuit_hash T (T - 1) s cfg N h msg L2 = Ok (L3, out) ->
    grows L3 L -> fits n L -> gates_hold n L adv (cs_gates cs1) -> copies_hold L adv ->
    hash_constant_length T (T - 1) N s (hash_init T (T - 1) (constant_length (T - 1) N)) (map (word_at L adv) msg)
      = Ok (word_at L adv out)
    /\ word_at L adv out
       = sponge_hash (textbook s) T (T - 1) 0 (T - 1) (of_Z (Z.of_nat N * 2 ^ 64)) (map (word_at L adv) msg).
  Proof.
    intros T s state sbox rc_a rc_b cs0 cs1 cfg m N L0 L1 L2 L3 L h msg out n adv Hs HT I1 I2 Hc Hcfg G0 H0 G1 HW Hl H G Fn HG HC.
    destruct (cfg_cols T s state sbox rc_a rc_b cs0 cs1 cfg Hc Hcfg) as (A & B & C & D & E & K).
    assert (X : hash_constant_length T (T - 1) N s (hash_init T (T - 1) (constant_length (T - 1) N)) (map (word_at L adv) msg)
      = Ok (word_at L adv out)).
    { apply (hash_sound T (T - 1) s Hs HT eq_refl cfg A B C D E K I1 I2 n L adv m Fn) with (L0 := L0) (L1 := L1) (L2 := L2) (L3 := L3) (h := h);
        try assumption.
      intros g r Hg. apply HG. rewrite (cfg_gates T s state sbox rc_a rc_b cs0 cs1 cfg Hcfg), in_app_iff. now right. }
    split; [exact X|]. rewrite constant_length_claim in X; [|lia|assumption|now rewrite map_length].
    destruct (N =? 0); [discriminate X|]. injection X as X; now symmetry.
  Qed.

  (** C24 *)
  Theorem circuit_hash_complete_claim : forall T (s : spec F) state sbox rc_a rc_b (cs0 cs1 : cs F) cfg N L0 other0,
    poseidon_spec T s -> 1 < T -> mat_prod_id T (mds s) (mds_inv s) -> mat_prod_id T (mds_inv s) (mds s) ->
    columns_ok T state sbox rc_a rc_b -> pow5_configure T (T - 1) s state sbox rc_a rc_b cs0 = (cfg, cs1) ->
    let circuit := made (p5_selectors cfg) (p5_instruction T (T - 1) s cfg) in
    circuit L0 other0 -> lo_const L0 <> None ->
    exists L1 h, circuit_hash_init (T - 1) cfg N L0 = Ok (L1, h) /\ circuit L1 other0 /\ grows L0 L1
      /\ forall L2 other msg xs, grows L1 L2 -> circuit L2 other -> length msg = N -> Forall2 (carries L2) msg xs ->
         let digest := sponge_hash (textbook s) T (T - 1) 0 (T - 1) (of_Z (Z.of_nat N * 2 ^ 64)) xs in
         (N = 0 -> circuit_hash T (T - 1) s cfg N h msg L2 = Panic)
         /\ (N <> 0 -> exists L3 out, circuit_hash T (T - 1) s cfg N h msg L2 = Ok (L3, out)
              /\ circuit L3 other /\ grows L2 L3 /\ carries L3 out digest
              /\ forall L other' u n blind, grows L3 L -> circuit L other' -> fits u L -> u <= n ->
                 let adv := honest u L blind in
                 (forall a b, In (a, b) other' -> cell_at L adv a = cell_at L adv b) ->
                 gates_hold n L adv (cs_gates cs0) ->
                 gates_hold n L adv (cs_gates cs1) /\ copies_hold L adv
                 /\ map (word_at L adv) msg = xs /\ word_at L adv out = digest).
  Proof.
    intros T s state sbox rc_a rc_b cs0 cs1 cfg N L0 other0 Hs HT I1 I2 Hc Hcfg circuit M0 K0.
    destruct (cfg_cols T s state sbox rc_a rc_b cs0 cs1 cfg Hc Hcfg) as (A & B & C & D & E & K).
    assert (S0 : stage T (T - 1) s cfg other0 L0 L0) by (split; [exact M0|split; [exact K0|split; [apply grows_refl|auto]]]).
    destruct (new_mirror T (T - 1) s Hs HT eq_refl cfg A B C D E K I1 I2 other0 L0 (initial_capacity_element (constant_length (T - 1) N)) S0)
      as (L1 & h & E1 & R1).
    exists L1, h. split; [exact E1|]. destruct R1 as ((M1 & K1 & G1 & P1) & R1). split; [exact M1|]. split; [exact G1|].
    intros L2 other msg xs G2 M2 Hl HM digest. pose proof (Forall2_len2 HM) as Hx.
    destruct (made_inv T (T - 1) s Hs HT eq_refl cfg A B C D E K I1 I2 L1 other0 M1) as (rs & TR & _).
    destruct (grows_trace L1 L2 G2 rs TR) as (rs' & new & copies & T' & S' & _ & KJ).
    assert (KP : forall w v, carries L1 w v -> carries L2 w v) by (intros w v; exact (carries_kept L1 rs L2 _ _ w v TR T' S')).
    assert (R2 : ab_ok T (T - 1) s cfg other L2 L2 h (hash_init T (T - 1) (constant_length (T - 1) N))).
    { split; [split; [exact M2|split; [congruence|split; [apply grows_refl|auto]]]|].
      destruct R1 as (R11 & R12 & R13 & R14). split; [exact R11|]. split; [exact (Forall2_more _ _ _ _ KP R12)|].
      split; [exact (Forall2_more _ _ _ _ (entry_more L1 L2 KP) R13)|exact R14]. }
    pose proof (hash_mirror T (T - 1) s Hs HT eq_refl cfg A B C D E K I1 I2 other N L2 L2 h msg xs R2 HM) as X.
    rewrite constant_length_claim in X; [|lia|assumption|congruence].
    split; intros HN.
    - rewrite (proj2 (Nat.eqb_eq N 0) HN) in X. exact X.
    - rewrite (proj2 (Nat.eqb_neq N 0) HN) in X. destruct X as (L3 & out & E3 & (M3 & K3 & G3 & P3) & C3).
      exists L3, out. split; [exact E3|]. split; [exact M3|]. split; [exact G3|]. split; [exact C3|].
      intros L other' u n blind G M Fu Hu adv Ho Hg.
      destruct (made_honest T s state sbox rc_a rc_b cs0 cs1 cfg Hs HT I1 I2 Hc Hcfg L other' u n blind M Fu Hu) as [X1 X2].
      split; [now apply X1|]. split; [now apply X2|].
      assert (CL : Forall2 (carries L) (out :: msg) (digest :: xs)).
      { apply (carries_later T s state sbox rc_a rc_b cs0 cs1 cfg Hs HT I1 I2 Hc Hcfg L3 other L _ _ M3 G).
        constructor; [exact C3|]. exact (Forall2_more _ _ _ _ P3 HM). }
      inversion CL as [|w v l y C1 C2]; subst. split; [|now apply carries_word].
      clear - C2 Fu. induction C2 as [|w v l y X1 X IH]; [reflexivity|]. cbn [map]. rewrite IH. f_equal. now apply carries_word.
  Qed.

  (** C42 *)
  Theorem circuit_sponge_claim : forall T (s : spec F) state sbox rc_a rc_b (cs0 cs1 : cs F) cfg,
    poseidon_spec T s -> 1 < T -> mat_prod_id T (mds s) (mds_inv s) -> mat_prod_id T (mds_inv s) (mds s) ->
    columns_ok T state sbox rc_a rc_b -> pow5_configure T (T - 1) s state sbox rc_a rc_b cs0 = (cfg, cs1) ->
    let circuit := made (p5_selectors cfg) (p5_instruction T (T - 1) s cfg) in
    (forall m L0 L1 L cap input k out n adv, grows (layout_empty m) L0 -> padded_in L0 input ->
       circuit_session T (T - 1) s cfg cap input k L0 = Ok (L1, out) -> grows L1 L -> fits n L ->
       gates_hold n L adv (cs_gates cs1) -> copies_hold L adv ->
       session T (T - 1) s cap 0 (map (padded_at L adv) input) k = Ok (map (word_at L adv) out)
       /\ map (word_at L adv) out = sponge_stream (textbook s) T (T - 1) 0 (T - 1) cap (map (padded_at L adv) input) k)
    /\ (forall L0 other cap input vs k, circuit L0 other -> lo_const L0 <> None -> Forall2 (padded_carries L0) input vs ->
       match session T (T - 1) s cap 0 vs k with
       | Panic => circuit_session T (T - 1) s cfg cap input k L0 = Panic
       | Ok ys => exists L1 out, circuit_session T (T - 1) s cfg cap input k L0 = Ok (L1, out) /\ circuit L1 other
                    /\ grows L0 L1 /\ Forall2 (carries L1) out ys
       end)
    /\ (forall cap vs k, session T (T - 1) s cap 0 vs k = Panic <-> length vs = 0 \/ length vs mod (T - 1) <> 0).
  Proof.
    intros T s state sbox rc_a rc_b cs0 cs1 cfg Hs HT I1 I2 Hc Hcfg circuit.
    destruct (cfg_cols T s state sbox rc_a rc_b cs0 cs1 cfg Hc Hcfg) as (A & B & C & D & E & K).
    split; [|split].
    - intros m L0 L1 L cap input k out n adv G0 HP H G Fn HG HC.
      assert (X : session T (T - 1) s cap 0 (map (padded_at L adv) input) k = Ok (map (word_at L adv) out)).
      { apply (session_sound T (T - 1) s Hs HT eq_refl cfg A B C D E K I1 I2 n L adv m Fn) with (L0 := L0) (L1 := L1); try assumption.
        - intros g r Hg. apply HG. rewrite (cfg_gates T s state sbox rc_a rc_b cs0 cs1 cfg Hcfg), in_app_iff. now right.
        - intros w Hw. apply HP. apply in_map_iff in Hw. destruct Hw as (y & Ey & Hw). injection Ey as ->. exact Hw. }
      split; [exact X|]. rewrite session_stream in X by assumption. destruct (_ || _); [discriminate X|]. injection X as X; now symmetry.
    - intros L0 other cap input vs k M0 K0 HV.
      assert (S0 : stage T (T - 1) s cfg other L0 L0) by (split; [exact M0|split; [exact K0|split; [apply grows_refl|auto]]]).
      pose proof (session_mirror T (T - 1) s Hs HT eq_refl cfg A B C D E K I1 I2 other L0 cap input vs k S0 HV) as X.
      unfold mirrors in X. destruct (session T (T - 1) s cap 0 vs k) as [ys|]; [|exact X].
      destruct X as (L1 & out & E1 & (M1 & _ & G1 & _) & C1). exists L1, out. auto.
    - intros cap vs k. rewrite session_stream by assumption.
      destruct (Nat.eqb_spec (length vs) 0) as [H|H]; cbn [orb]; [tauto|].
      destruct (Nat.eqb_spec (length vs mod (T - 1)) 0) as [H'|H']; cbn [negb]; [|tauto].
      split; [discriminate|]. intros [X|X]; contradiction.
  Qed.
End Claims.
