(** Properties of the hash primitives (poseidon-base): C01-C15, C41.
    Statements only; see Link.v and SpecHash.v for the vocabulary. *)
From Coq Require Import ZArith List Arith Bool.
From Verif Require Import Field Rust ZpField Primes Primitives Specs Grain Mds Bn256 Pasta BaseHash SpecHash
  Link Perm_proof Sponge_proof BigSum Mds_proof BaseHash_proof Grain_proof GrainTerm_proof Const_proof
  Base_claims ExamplesBase.
Import ListNotations.
Local Open Scope nat_scope.

(** C01 *)
Theorem C01_compact_constants : forall F (FO : FieldOps F) (PF : PrimeField F) (c : p128_constants F) s st,
  constants_ok c -> compact_spec c = Ok s -> length st = 3 ->
  permute 3 s (mds s) (round_constants s) st
    = permute 3 (p128_spec c) (pc_mds c) (pc_round_constants c) st
  /\ permute 3 s (mds s) (round_constants s) st = poseidon_permutation c st.
Proof. exact (fun F FO PF => compact_constants_claim). Qed.
Print Assumptions C01_compact_constants.
Theorem C01_compact_exists : forall F (FO : FieldOps F) (PF : PrimeField F) (c : p128_constants F),
  constants_ok c -> exists s, compact_spec c = Ok s.
Proof. exact (fun F FO PF => compact_spec_exists). Qed.
Print Assumptions C01_compact_exists.
Example C01_instance : exists s, compact_spec bn256_c = Ok s /\ length [fr 0; fr 1; fr 2] = 3.
Proof. exact ex_compact. Qed.

(** C02 *)
Theorem C02_constant_length_hash : forall F (FO : FieldOps F) (PF : PrimeField F) T RATE L (s : spec F) m,
  0 < RATE < T -> poseidon_spec T s -> length m = L ->
  hash_constant_length T RATE L s (hash_init T RATE (constant_length RATE L)) m
  = if L =? 0 then Panic
    else Ok (sponge_hash (textbook s) T RATE 0 RATE (of_Z (Z.of_nat L * 2 ^ 64)) m).
Proof. exact (fun F FO PF => constant_length_claim). Qed.
Print Assumptions C02_constant_length_hash.
Example C02_instance : 0 < 2 < 3 /\ poseidon_spec 3 (p128_spec bn256_c) /\ length [fr 5; fr 7; fr 11] = 3.
Proof. exact ex_spec3. Qed.

(** C03 *)
Theorem C03_iden3_hash : forall F (FO : FieldOps F) (PF : PrimeField F) T RATE L (s : spec F) m d,
  0 < RATE < T -> poseidon_spec T s -> length m = L ->
  hash_constant_length_iden3 T RATE L s (hash_init T RATE (constant_length_iden3 RATE L)) m d
  = if L =? 0 then Panic else Ok (sponge_hash (textbook s) T RATE (T - RATE) 0 d m).
Proof. exact (fun F FO PF => constant_length_iden3_claim). Qed.
Print Assumptions C03_iden3_hash.
(** instance: [C02_instance] *)

(** C04 *)
Theorem C04_message_hash : forall F (FO : FieldOps F) (PF : PrimeField F) short legacy
    (c : p128_constants F) s msg cap,
  constants_ok c -> cached_hash_spec short c = Ok s ->
  hash_msg legacy s msg cap
  = match msg with
    | [] => Panic
    | _ => Ok (message_hash c
             (match cap with
              | Some n => of_Z (Z.of_N n)
              | None => of_Z (Z.of_nat (length msg) * (if legacy then 1 else 2 ^ 64))
              end) msg)
    end.
Proof. exact (fun F FO PF => hash_msg_claim). Qed.
Print Assumptions C04_message_hash.
Example C04_instance : constants_ok bn256_c /\ exists s, cached_hash_spec true bn256_c = Ok s.
Proof. exact ex_shape. Qed.

(** C05 *)
Theorem C05_panics_only_on_empty : forall F (FO : FieldOps F) (PF : PrimeField F) short legacy
    (c : p128_constants F) s,
  constants_ok c -> cached_hash_spec short c = Ok s ->
  (forall msg cap, hash_msg legacy s msg cap = Panic <-> msg = [])
  /\ (forall T RATE L s' m, 0 < RATE < T -> poseidon_spec T s' -> length m = L ->
        (hash_constant_length (F := F) T RATE L s' (hash_init T RATE (constant_length RATE L)) m = Panic
           <-> L = 0)
        /\ forall d, hash_constant_length_iden3 (F := F) T RATE L s'
               (hash_init T RATE (constant_length_iden3 RATE L)) m d = Panic <-> L = 0).
Proof. exact (fun F FO PF => no_panic_claim). Qed.
Print Assumptions C05_panics_only_on_empty.
(** instance: [C04_instance] and [C02_instance] *)

(** C06 *)
Theorem C06_two_word_apis_agree : forall F (FO : FieldOps F) (PF : PrimeField F) short legacy
    (c : p128_constants F) s a b,
  constants_ok c -> cached_hash_spec short c = Ok s ->
  (forall d, hash_with_domain s (a, b) d = Ok (two_word_hash c a b d))
  /\ hash s (a, b) = Ok (two_word_hash c a b fzero)
  /\ (forall n, hash_msg legacy s [a; b] (Some n) = hash_with_domain s (a, b) (of_Z (Z.of_N n)))
  /\ (forall d, nth 0 (hash_permute 3 s [d; a; b]) fzero = two_word_hash c a b d).
Proof. exact (fun F FO PF => two_word_claim). Qed.
Print Assumptions C06_two_word_apis_agree.
(** instance: [C04_instance] *)

(** C07 *)
Theorem C07_message_commitment : forall F (FO : FieldOps F) (PF : PrimeField F) (m1 m2 : list F),
  (forall legacy, (2 ^ 128 <= modulus (F := F))%Z ->
    (Z.of_nat (length m1) < 2 ^ 64)%Z -> (Z.of_nat (length m2) < 2 ^ 64)%Z ->
    @from_u128 F _ (msg_cap legacy (length m1) None) = from_u128 (msg_cap legacy (length m2) None) ->
    blocks 2 (pad_zeros 2 m1) = blocks 2 (pad_zeros 2 m2) -> m1 = m2)
  /\ (blocks 2 (pad_zeros 2 m1) = blocks 2 (pad_zeros 2 m2) <->
        m1 = m2
        \/ (Nat.odd (length m1) = true /\ m2 = m1 ++ [fzero])
        \/ (Nat.odd (length m2) = true /\ m1 = m2 ++ [fzero]))
  /\ (forall legacy s n, Nat.odd (length m1) = true ->
        hash_msg legacy s (m1 ++ [fzero]) (Some n) = hash_msg legacy s m1 (Some n)).
Proof. exact (fun F FO PF => commits_claim). Qed.
Print Assumptions C07_message_commitment.
Example C07_instance : (2 ^ 128 <= modulus (F := Fr))%Z.
Proof. exact ex_modulus. Qed.
Example C07_instance_collision : Nat.odd (length [fr 1; fr 2; fr 3]) = true
  /\ [fr 1; fr 2; fr 3] <> [fr 1; fr 2; fr 3; fr 0]
  /\ with_spec true (fun s => hash_msg false s [fr 1; fr 2; fr 3; fr 0] (Some 50%N))
     = with_spec true (fun s => hash_msg false s [fr 1; fr 2; fr 3] (Some 50%N)).
Proof. exact ex_collision. Qed.

(** C08 *)
Theorem C08_bn254_bijection : forall short s, cached_hash_spec short bn256_c = Ok s ->
  (forall x y, length x = 3 -> length y = 3 -> hash_permute 3 s x = hash_permute 3 s y -> x = y)
  /\ (forall y, length y = 3 -> exists x, length x = 3 /\ hash_permute 3 s x = y).
Proof. exact bn256_bijective_claim. Qed.
Print Assumptions C08_bn254_bijection.
(** instance: [C04_instance] *)

(** C09 *)
Theorem C09_history_independent : forall F (FO : FieldOps F) (PF : PrimeField F) legacy (s : spec F)
    (l : list (call F)),
  fst (run_calls legacy s empty_cells l) = map (fun c => fst (run_call legacy s empty_cells c)) l.
Proof. exact (fun F FO PF => run_calls_history). Qed.
Print Assumptions C09_history_independent.
Theorem C09_history_values : forall F (FO : FieldOps F) (PF : PrimeField F) legacy (s : spec F)
    (l : list (call F)),
  fst (run_calls legacy s empty_cells l) = map (call_spec legacy s) l.
Proof. exact (fun F FO PF => run_calls_spec). Qed.
Print Assumptions C09_history_values.

(** C10 *)
Theorem C10_feature_independent : forall F (FO : FieldOps F) (PF : PrimeField F) (c : p128_constants F) s1 s2,
  constants_ok c -> cached_hash_spec true c = Ok s1 -> cached_hash_spec false c = Ok s2 ->
  (forall a b d, hash_with_domain s1 (a, b) d = hash_with_domain s2 (a, b) d
                 /\ hash_with_domain s1 (a, b) d = hash_with_domain (p128_spec c) (a, b) d)
  /\ (forall legacy msg cap, hash_msg legacy s1 msg cap = hash_msg legacy s2 msg cap
                 /\ hash_msg legacy s1 msg cap = hash_msg legacy (p128_spec c) msg cap)
  /\ (forall st, length st = 3 -> hash_permute 3 s1 st = hash_permute 3 s2 st).
Proof. exact (fun F FO PF => feature_claim). Qed.
Print Assumptions C10_feature_independent.
Example C10_instance : constants_ok bn256_c
  /\ exists s1 s2, cached_hash_spec true bn256_c = Ok s1 /\ cached_hash_spec false bn256_c = Ok s2.
Proof. exact ex_builds. Qed.

(** C11 *)
Theorem C11_absorb_squeeze : forall F (FO : FieldOps F) (PF : PrimeField F) T RATE layout (s : spec F) cap w n,
  0 < RATE -> layout + RATE <= T -> poseidon_spec T s ->
  (do sp <- absorb_all T RATE s w (sponge_new T RATE cap layout);
   do sp <- finish_absorbing T RATE s sp;
   squeeze_n T RATE s n sp)
  = if (length w =? 0) || negb (length w mod RATE =? 0) then Panic
    else let st := absorb_blocks (textbook s) layout (blocks RATE w)
                     (init_state T ((RATE + layout) mod T) cap) in
         Ok (map (fun i => nth (i mod RATE) (Nat.iter (i / RATE) (textbook s) st) fzero) (seq 0 n)).
Proof. exact (fun F FO PF => squeeze_claim). Qed.
Print Assumptions C11_absorb_squeeze.
(** two full blocks into the last two words of three *)
Example C11_instance : 0 < 2 /\ 1 + 2 <= 3 /\ poseidon_spec 3 (p128_spec bn256_c)
  /\ (length [fr 5; fr 7; fr 11; fr 13] =? 0) || negb (length [fr 5; fr 7; fr 11; fr 13] mod 2 =? 0) = false.
Proof. exact ex_sponge. Qed.

(** C12 *)
Theorem C12_grain_bits : forall nb t f p b n, grain_sequence (grain_seed nb t f p) b ->
  fst (get_bits n (grain_new nb t f p)) = map b (seq 240 n).
Proof. exact grain_new_bits. Qed.
Print Assumptions C12_grain_bits.
Theorem C12_grain_shrunk : forall nb t f p b n fuel l g', grain_sequence (grain_seed nb t f p) b ->
  grain_take fuel n (grain_new nb t f p) = Some (l, g') ->
  length l = n /\ exists pairs, l = shrunk b 240 pairs.
Proof. exact grain_new_take. Qed.
Print Assumptions C12_grain_shrunk.
Theorem C12_sequence_exists : forall init, length init = 80 -> grain_sequence init (lfsr init).
Proof. exact lfsr_sequence. Qed.
Print Assumptions C12_sequence_exists.
Example C12_instance : grain_sequence (grain_seed 254 3 8 57) (lfsr (grain_seed 254 3 8 57))
  /\ exists l g, grain_take 80 16 (grain_new 254 3 8 57) = Some (l, g) /\ existsb (fun b => b) l = true
       /\ existsb negb l = true.
Proof. exact ex_grain. Qed.

(** C13 (finite domain, by computation) *)
Theorem C13_bn254_tables_generated :
  gen_constants 10 80 3 8 57 0 = Some (Ok (bn256_round_constants, bn256_mds, bn256_mds_inv))
  /\ bn256_constants = Ok bn256_c.
Proof. exact (conj bn256_generated bn256_constants_ok). Qed.
Print Assumptions C13_bn254_tables_generated.
Theorem C13_pallas_tables_generated :
  gen_constants 10 80 3 8 56 0 = Some (Ok (pc_round_constants pasta_constants, pc_mds pasta_constants, pc_mds_inv pasta_constants))
  /\ pc_partial_rounds pasta_constants = 56.
Proof. exact (conj pasta_generated eq_refl). Qed.
Print Assumptions C13_pallas_tables_generated.

(** C14 *)
Theorem C14_generated_inverse : forall F (FO : FieldOps F) (PF : PrimeField F) tries fuel T select g m mi,
  generate_mds (F := F) tries fuel T select g = Some (Ok (m, mi)) ->
  mat_prod_id T m mi /\ mat_prod_id T mi m /\
  exists xs ys, length xs = T /\ length ys = T /\ NoDup (xs ++ ys) /\
    forall i j, i < T -> j < T -> fmul (fadd (fnth xs i) (fnth ys j)) (mnth m i j) = fone.
Proof. exact (fun F FO PF => generate_mds_inverse). Qed.
Print Assumptions C14_generated_inverse.
Theorem C14_generated_separable : forall F (FO : FieldOps F) (PF : PrimeField F) tries fuel T select g m mi,
  generate_mds (F := F) tries fuel T select g = Some (Ok (m, mi)) ->
  forall k rows cols, indices T k rows -> indices T k cols ->
  exists inv, mat_prod_id k (submatrix m rows cols) inv /\ mat_prod_id k inv (submatrix m rows cols).
Proof. exact (fun F FO PF => generate_mds_minors). Qed.
Print Assumptions C14_generated_separable.
Theorem C14_generator_panic : forall F (FO : FieldOps F) (PF : PrimeField F) tries fuel T select g,
  generate_mds (F := F) tries fuel T select g = Some Panic ->
  exists xs ys i j, length xs = T /\ length ys = T /\ NoDup (xs ++ ys) /\
    i < T /\ j < T /\ fadd (fnth xs i) (fnth ys j) = (fzero : F).
Proof. exact (fun F FO PF => generate_mds_panic). Qed.
Print Assumptions C14_generator_panic.
Example C14_instance : exists g m mi, generate_mds (F := Fr) 10 80 3 0 g = Some (Ok (m, mi)).
Proof. exact ex_generated. Qed.
Example C14_instance_indices : indices 3 2 [0; 2] /\ indices 3 2 [2; 1].
Proof. exact ex_indices. Qed.

(** C15 *)
Theorem C15_cofactor_inverse : forall F (FO : FieldOps F) (PF : PrimeField F) (m : list (list F)),
  match inverse3 m with
  | Ok mi => det_spec m <> fzero /\ square 3 mi /\ mat_prod_id 3 m mi /\ mat_prod_id 3 mi m
  | Panic => det_spec m = fzero
  end.
Proof. exact (fun F FO PF => inverse3_spec). Qed.
Print Assumptions C15_cofactor_inverse.
Theorem C15_bn254_inverse : square 3 bn256_mds_inv
  /\ mat_prod_id 3 bn256_mds bn256_mds_inv /\ mat_prod_id 3 bn256_mds_inv bn256_mds.
Proof. exact bn256_inverse. Qed.
Print Assumptions C15_bn254_inverse.
Theorem C15_bn254_separable : forall k rows cols, indices 3 k rows -> indices 3 k cols ->
  exists inv, mat_prod_id k (submatrix bn256_mds rows cols) inv
           /\ mat_prod_id k inv (submatrix bn256_mds rows cols).
Proof. exact bn256_minors. Qed.
Print Assumptions C15_bn254_separable.
(** instance: [C14_instance_indices] *)

(** C41 *)
Theorem C41_grain_total : forall nb t f p n,
  exists l g, grain_take 80 n (grain_new nb t f p) = Some (l, g).
Proof. exact grain_take_total. Qed.
Print Assumptions C41_grain_total.
