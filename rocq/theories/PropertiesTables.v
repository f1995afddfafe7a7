(** Properties C67 and C72: several hash tables in one circuit, and one table several times.  The vocabulary is in Tables.v and TableUse.v. *)
From Coq Require Import ZArith NArith List Arith.
From Verif Require Import Field ZpField Primes Rust Primitives Specs Bn256 BaseHash SpecHash Halo2 PermuteChip ChipUse SpongeTable TableUse Tables
  Tables_claims Const_proof ExamplesTable ExamplesTables.
Import ListNotations.
Local Open Scope nat_scope.

(** every loaded table is the table of an accepted table circuit, so that the claims about those (C26 to C31, C45 to C47, C59
    to C61, C63) hold for each *)
Theorem C67_sound : forall F (FO : FieldOps F) (PF : PrimeField F) m (Ts : list (table_use F)) gates lookups L done other n u adv,
  tables_set_up m Ts gates lookups L done other n u -> satisfied n u m L adv ->
  forall T, In T done ->
  (exists L0 L1 copies, set_up (tu_constants T) (tu_circuit T) (tu_mode T) (tu_calcs T) (tu_table T) L0 L1 L copies n u)
  /\ satisfied n u (hc_cs (tu_circuit T)) L adv
  /\ accepted (tu_constants T) (tu_circuit T) (tu_calcs T) adv.
Proof. exact (fun F FO PF => tables_sound_claim). Qed.
Print Assumptions C67_sound.

(** the honest prover is accepted exactly when each table is well formed and the constraints of the rest hold *)
Theorem C67_complete : forall F (FO : FieldOps F) (PF : PrimeField F) m (Ts : list (table_use F)) gates lookups L done other n u blind,
  tables_set_up m Ts gates lookups L done other n u -> (forall T, In T Ts -> In T done) ->
  (forall T i, In T Ts -> (Z.of_N (row_control (tu_table T) i + N.of_nat (hc_step (tu_circuit T)))
     * (if hc_legacy (tu_circuit T) then 1 else 2 ^ 64) < modulus (F := F))%Z) ->
  let adv := honest u L blind in
  satisfied n u m L adv <->
  (forall T, In T Ts -> well_formed (hc_range (tu_circuit T)) (hc_step (tu_circuit T)) (tu_calcs T) (tu_table T))
  /\ gates_hold n L adv gates /\ lookups_hold n u L adv lookups
  /\ (forall a b, In (a, b) other -> cell_at L adv a = cell_at L adv b).
Proof. exact (fun F FO PF => tables_complete_claim). Qed.
Print Assumptions C67_complete.

(** whether a table can be loaded does not depend on the tables loaded before *)
Theorem C67_load : forall F (FO : FieldOps F) (PF : PrimeField F) m (Ts : list (table_use F)) gates lookups L done other n u T L0,
  tables_set_up m Ts gates lookups L done other n u -> In T Ts -> ~ In T done -> table_free (tu_circuit T) L0 ->
  let load := hc_load (tu_circuit T) (tu_mode T) (tu_calcs T) (tu_table T) in
  (exists L', load L = Ok (L', tt)) <-> (exists L', load L0 = Ok (L', tt)).
Proof. exact (fun F FO PF => tables_load_claim). Qed.
Print Assumptions C67_load.

(** what the honest prover exposes in it does not depend on the other tables: it is what it exposes in a circuit with
    this table alone *)
Theorem C67_contents : forall F (FO : FieldOps F) (PF : PrimeField F) m (Ts : list (table_use F)) gates lookups L done other n u T L0 L1 L' copies n' blind j r,
  tables_set_up m Ts gates lookups L done other n u -> In T done ->
  set_up (tu_constants T) (tu_circuit T) (tu_mode T) (tu_calcs T) (tu_table T) L0 L1 L' copies n' u -> j < 6 -> r < u ->
  tcell (tu_circuit T) (honest u L blind) j r = tcell (tu_circuit T) (honest u L' blind) j r.
Proof. exact (fun F FO PF => tables_contents_claim). Qed.
Print Assumptions C67_contents.

(** BN254, both builds: two tables with the same chip, configured in one order and loaded in the other *)
Example C67_instance : forall short mode, mode_ok mode -> exists m (T T' : table_use Fr) L n u,
  tables_set_up m [T; T'] [] [] L [T'; T] [] n u
  /\ tu_constants T = bn256_c /\ tu_constants T' = bn256_c /\ (exists h, build bn256_c short (hc_spec (tu_circuit T)) (hc_chip (tu_circuit T)) h)
  /\ tu_mode T = mode /\ tu_mode T' = mode
  /\ tu_calcs T = 4 /\ tu_table T = demo_table /\ tu_calcs T' = 2 /\ tu_table T' = other_table
  /\ (forall X, In X [T; T'] -> well_formed (hc_range (tu_circuit X)) (hc_step (tu_circuit X)) (tu_calcs X) (tu_table X))
  /\ (forall X i, In X [T; T'] -> (Z.of_N (row_control (tu_table X) i + N.of_nat (hc_step (tu_circuit X)))
        * (if hc_legacy (tu_circuit X) then 1 else 2 ^ 64) < modulus (F := Fr))%Z)
  /\ forall blind, satisfied n u m L (honest u L blind).
Proof. exact ex_tables. Qed.

(** C72: whatever happens in between *)
Theorem C72_once : forall F (FO : FieldOps F) (PF : PrimeField F) c (C : hash_circuit F) short h mode calcs t L0 L1 L2 mode' calcs' t',
  build c short (hc_spec C) (hc_chip C) h -> host_columns C -> table_free C L0 -> mode_ok mode ->
  hc_load C mode calcs t L0 = Ok (L1, tt) -> (exists ts, lo_tables L2 = lo_tables L1 ++ ts) ->
  hc_load C mode' calcs' t' L2 = Panic.
Proof. exact (fun F FO PF => load_once_claim). Qed.
Print Assumptions C72_once.
Example C72_instance : forall short mode, mode_ok mode -> exists (C : hash_circuit Fr) h L0 L1,
  build bn256_c short (hc_spec C) (hc_chip C) h /\ host_columns C /\ table_free C L0
  /\ hc_load C mode 4 demo_table L0 = Ok (L1, tt) /\ hc_load C mode 4 demo_table L1 = Panic.
Proof. exact ex_once. Qed.
