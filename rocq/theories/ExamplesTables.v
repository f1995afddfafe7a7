(** A circuit with two hash tables: an instance of the hypotheses of PropertiesTables.v. *)
From Coq Require Import ZArith NArith List Arith Lia Bool.
From Verif Require Import Field Rust ListAux ZpField Primes Primitives Specs BaseHash Bn256 SpecHash BigSum Link Const_proof Base_claims BaseHash_proof
  Halo2 Layout_proof Septidon PermuteChip ChipUse Pow5 Contract Sept_claims SpongeTable TableUse TableInv_proof TableLoad_proof TableState_proof
  Table_claims TableLayout_claims TableBuild_claims Tables Tables_claims ExamplesPow5 ExamplesTable ExamplesBase.
Import ListNotations.
Local Open Scope nat_scope.
Local Opaque hc_config hc_cs hc_load.

Section Two.
  Context {F : Type} {FO : FieldOps F} {PF : PrimeField F}.

  (** the second table: the host adds six advice columns and a fixed column after the first one is configured *)
  Definition second_host (m : cs F) : cs F :=
    {| cs_adv := 6 + cs_adv m; cs_fix := 1 + cs_fix m; cs_sel := cs_sel m; cs_gates := cs_gates m; cs_lookups := cs_lookups m;
       cs_eq := cs_eq m; cs_const := cs_const m |}.
  Definition second (C : hash_circuit F) : hash_circuit F :=
    let m := hc_cs C in
    {| hc_legacy := hc_legacy C; hc_chip := hc_chip C; hc_spec := hc_spec C; hc_range := hc_range C; hc_host := second_host m;
       hc_enable := cs_fix m; hc_table := seq (cs_adv m) 6; hc_step := hc_step C |}.

  Lemma second_columns : forall C, host_columns (second C).
  Proof.
    intros C. unfold host_columns, second. cbn [hc_enable hc_host hc_table second_host cs_fix cs_adv].
    split; [lia|]. split; [apply seq_length|]. split; [apply seq_NoDup|]. rewrite Forall_forall. intros x H. apply in_seq in H. lia.
  Qed.
  Lemma second_apart : forall c short h C, build c short (hc_spec C) (hc_chip C) h -> host_columns C ->
    forall col, table_columns C col -> ~ table_columns (second C) col.
  Proof.
    intros c short h C B HC col H1 H2. destruct (build_facts _ _ _ _ _ B) as (_ & _ & HP & _ & _).
    destruct (chip_is_here _ _ h HC HP) as (D & (_ & _ & _ & _ & _ & _ & _ & _ & La & Lf & Ls)).
    cbn [csm cs_adv cs_fix cs_sel] in La, Lf, Ls. unfold A0 in *.
    destruct HC as (X1 & X2 & X3 & X4). rewrite Forall_forall in X4.
    unfold table_columns in H1, H2.
    change (hc_host (second C)) with (second_host (hc_cs C)) in H2. change (hc_table (second C)) with (seq (cs_adv (hc_cs C)) 6) in H2.
    change (hc_enable (second C)) with (cs_fix (hc_cs C)) in H2.
    revert H1 H2 La Lf Ls. generalize (hc_cs (second C)). generalize (hc_cs C). clear - X1 X4. intros m m' H1 H2 La Lf Ls.
    destruct col as [i|i|i]; cbn [added second_host cs_adv cs_fix cs_sel] in H1, H2.
    - rewrite in_seq in H2. destruct H1 as [H1|H1]; [lia|]. apply X4 in H1. lia.
    - lia.
    - lia.
  Qed.

  Lemma loads : forall c short h C mode calcs t L, build c short (hc_spec C) (hc_chip C) h -> host_columns C -> table_free C L -> mode_ok mode ->
    table_size t <= calcs -> length (ht_controls t) <= calcs -> (forall i, row_check t i = None) ->
    exists L', hc_load C mode calcs t L = Ok (L', tt).
  Proof.
    intros c short h C mode calcs t L B HC TF Hm H1 H2 Hck.
    destruct (checks_claim c C short h mode calcs t L B HC TF Hm (fun _ => conj H1 H2)) as (Q1 & Q2 & _).
    destruct Q1 as [Q1|Q1]; [exact Q1|]. exfalso. apply Q2 in Q1. destruct Q1 as (i & ck & _ & Hk & _). rewrite Hck in Hk. discriminate.
  Qed.

  Lemma two_configured : forall T T' : table_use F, cs_gates (hc_host (tu_circuit T)) = [] -> cs_lookups (hc_host (tu_circuit T)) = [] ->
    hc_host (tu_circuit T') = second_host (hc_cs (tu_circuit T)) -> host_columns (tu_circuit T) -> host_columns (tu_circuit T') ->
    tables_configured (hc_cs (tu_circuit T')) [T; T'] [] [].
  Proof.
    intros T T' Eg El Eh HC HC'.
    pose proof (conf_host (hc_host (tu_circuit T))) as K0. rewrite Eg, El in K0.
    pose proof (conf_table [] T [] [] K0 HC) as K1.
    assert (K2 : tables_configured (second_host (hc_cs (tu_circuit T))) [T] [] []).
    { revert K1. generalize (hc_cs (tu_circuit T)). intros m K1.
      refine (conf_more m (second_host m) [T] [] [] [] [] K1 _ _ _ _ _); cbn [second_host cs_adv cs_fix cs_sel cs_gates cs_lookups];
        [lia|lia|lia|symmetry; apply app_nil_r|symmetry; apply app_nil_r]. }
    rewrite <- Eh in K2. exact (conf_table [T] T' [] [] K2 HC').
  Qed.
End Two.

(** one hash of two words *)
Definition other_table : hash_table Fr :=
  {| ht_inputs := [(fr 8, fr 9)]; ht_controls := [0]%N; ht_domain := [Some (fr 3)]; ht_checks := [None] |}.
Lemma other_no_check : forall i, row_check other_table i = None.
Proof. intros i. unfold row_check, other_table. cbn [ht_checks]. destruct i as [|i]; [reflexivity|]. destruct i; reflexivity. Qed.
Lemma other_control : forall i, row_control other_table i = 0%N.
Proof. intros i. unfold row_control, other_table. cbn [ht_controls]. destruct i as [|i]; [reflexivity|]. destruct i; reflexivity. Qed.
Lemma other_wf : well_formed 62 62 2 other_table.
Proof.
  split.
  - intros i Hi H. rewrite other_control in H. exfalso. apply N.nlt_0_r in H. exact H.
  - intros _. split; [reflexivity|apply other_control].
Qed.

Lemma ex_tables : forall short mode, mode_ok mode -> exists m (T T' : table_use Fr) L n u,
  tables_set_up m [T; T'] [] [] L [T'; T] [] n u
  /\ tu_constants T = bn256_c /\ tu_constants T' = bn256_c /\ (exists h, build bn256_c short (hc_spec (tu_circuit T)) (hc_chip (tu_circuit T)) h)
  /\ tu_mode T = mode /\ tu_mode T' = mode
  /\ tu_calcs T = 4 /\ tu_table T = demo_table /\ tu_calcs T' = 2 /\ tu_table T' = other_table
  /\ (forall X, In X [T; T'] -> well_formed (hc_range (tu_circuit X)) (hc_step (tu_circuit X)) (tu_calcs X) (tu_table X))
  /\ (forall X i, In X [T; T'] -> (Z.of_N (row_control (tu_table X) i + N.of_nat (hc_step (tu_circuit X)))
        * (if hc_legacy (tu_circuit X) then 1 else 2 ^ 64) < modulus (F := Fr))%Z)
  /\ forall blind, satisfied n u m L (honest u L blind).
Proof.
  intros short mode Hm. destruct (bn_build short) as (s & P & h & B & _).
  set (C := demo P s false 62 62). set (C' := second C).
  set (T := {| tu_constants := bn256_c; tu_circuit := C; tu_mode := mode; tu_calcs := 4; tu_table := demo_table |}).
  set (T' := {| tu_constants := bn256_c; tu_circuit := C'; tu_mode := mode; tu_calcs := 2; tu_table := other_table |}).
  assert (HC : host_columns C) by apply demo_columns.
  assert (HC' : host_columns C') by apply second_columns.
  assert (AP : tables_apart [T; T']).
  { apply FOP_cons; [apply Forall_cons; [exact (second_apart bn256_c short h C B HC)|apply Forall_nil]|].
    apply FOP_cons; [apply Forall_nil|apply FOP_nil]. }
  set (u := h * 4 + 70).
  assert (RM : forall X, In X [T; T'] -> table_room u u X).
  { intros X [<-|[<-|[]]]; (split; [exact Hm|]); (split; [exists short, h; split; [exact B|cbn [T T' tu_calcs]; unfold u; lia]|]);
      cbn [T T' tu_calcs tu_circuit C C' demo second hc_range]; unfold u; lia. }
  assert (CF : tables_configured (hc_cs C') [T; T'] [] []).
  { exact (two_configured T T' eq_refl eq_refl eq_refl HC HC'). }
  set (L0 := layout_empty (demo_host (F := Fr))).
  assert (S0 : tables_laid [T; T'] L0 [] []).
  { apply (laid_start [T; T'] L0). intros X _. apply empty_free. }
  destruct (loads bn256_c short h C' mode 2 other_table L0 B HC' (empty_free C') Hm) as (L1 & E1);
    [cbn; lia|cbn; lia|exact other_no_check|].
  assert (S1 : tables_laid [T; T'] L1 [T'] []).
  { apply (laid_load [T; T'] L0 [] [] T' L1 S0); [right; now left|intros []|exact E1]. }
  assert (NE : ~ In T [T']).
  { intros [X|[]]. apply (f_equal tu_calcs) in X. discriminate. }
  assert (TF : table_free C L1).
  { destruct (laid_facts _ _ _ _ _ _ _ u u (conj CF (conj AP (conj S1 RM)))) as (_ & I2 & _). exact (I2 T (or_introl eq_refl) NE). }
  destruct (loads bn256_c short h C mode 4 demo_table L1 B HC TF Hm) as (L2 & E2);
    [cbn; lia|cbn; lia|exact demo_no_check|].
  assert (S2 : tables_laid [T; T'] L2 [T'; T] []).
  { apply (laid_load [T; T'] L1 [T'] [] T L2 S1); [now left|exact NE|exact E2]. }
  assert (SU : tables_set_up (hc_cs C') [T; T'] [] [] L2 [T'; T] [] u u) by (split; [exact CF|split; [exact AP|split; [exact S2|exact RM]]]).
  assert (WF : forall X, In X [T; T'] -> well_formed (hc_range (tu_circuit X)) (hc_step (tu_circuit X)) (tu_calcs X) (tu_table X)).
  { intros X [<-|[<-|[]]]; [exact demo_wf|exact other_wf]. }
  assert (BD : forall X i, In X [T; T'] -> (Z.of_N (row_control (tu_table X) i + N.of_nat (hc_step (tu_circuit X)))
        * (if hc_legacy (tu_circuit X) then 1 else 2 ^ 64) < modulus (F := Fr))%Z).
  { intros X i [<-|[<-|[]]]; cbn [T T' tu_table tu_circuit C C' demo second hc_step hc_legacy].
    - pose proof (demo_control_big i) as Hb. eapply Z.le_lt_trans; [|exact demo_bound]. apply Z.mul_le_mono_nonneg_r; [lia|]. lia.
    - rewrite other_control. eapply Z.le_lt_trans; [|exact demo_bound]. apply Z.mul_le_mono_nonneg_r; [lia|]. lia. }
  exists (hc_cs C'), T, T', L2, u, u. split; [exact SU|].
  split; [reflexivity|]. split; [reflexivity|]. split; [exists h; exact B|]. split; [reflexivity|]. split; [reflexivity|].
  split; [reflexivity|]. split; [reflexivity|]. split; [reflexivity|]. split; [reflexivity|]. split; [exact WF|]. split; [exact BD|].
  intros blind. apply (tables_complete_claim _ _ _ _ _ _ _ u u blind SU).
  - intros X [<-|[<-|[]]]; [right; now left|now left].
  - exact BD.
  - split; [exact WF|]. split; [intros g r []|]. split; [intros e t r []|intros a b []].
Qed.

Lemma ex_once : forall short mode, mode_ok mode -> exists (C : hash_circuit Fr) h L0 L1,
  build bn256_c short (hc_spec C) (hc_chip C) h /\ host_columns C /\ table_free C L0
  /\ hc_load C mode 4 demo_table L0 = Ok (L1, tt) /\ hc_load C mode 4 demo_table L1 = Panic.
Proof.
  intros short mode Hm. destruct (bn_build short) as (s & P & h & B & _).
  destruct (loads bn256_c short h (demo P s false 62 62) mode 4 demo_table (layout_empty demo_host) B (demo_columns P s false 62 62)
              (empty_free (demo P s false 62 62)) Hm) as (L1 & E); [cbn; lia|cbn; lia|exact demo_no_check|].
  exists (demo P s false 62 62), h, (layout_empty demo_host), L1. split; [exact B|]. split; [apply demo_columns|].
  split; [apply empty_free|]. split; [exact E|].
  eapply (load_once_claim bn256_c (demo P s false 62 62) short h mode); [exact B|apply demo_columns|apply empty_free|exact Hm|exact E|].
  exists []. now rewrite app_nil_r.
Qed.
