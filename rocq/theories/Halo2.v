(** Model of the parts of halo2 (a dependency, not in /repo) that poseidon-circuit uses: expressions,
    the constraint system, regions, the layouter of [SimpleFloorPlanner] and satisfaction.

    Taken from the documented behaviour of halo2_proofs as used by
    poseidon-circuit/src/hash.rs:1-50, poseidon.rs:1-20, poseidon/pow5.rs:1-10 and
    poseidon/septidon/*.rs.  Simplifications: names and annotations are dropped; instance columns,
    challenges and phases do not occur; an [Err] of halo2 is [Panic] (the code only forwards it with
    [?]); "not enough rows" and "column not in permutation" are the predicates [fits] and
    [copies_enabled] on the finished layout. *)
From Coq Require Import ZArith List Arith Bool.
From Verif Require Import Field Rust.
Import ListNotations.
Local Open Scope nat_scope.

(** columns as the layouter sees them ([RegionColumn]): advice, fixed, selector *)
Inductive column : Type := Adv (i : nat) | Fix (i : nat) | Sel (i : nat).

Definition column_eqb (a b : column) : bool :=
  match a, b with
  | Adv i, Adv j | Fix i, Fix j | Sel i, Sel j => i =? j
  | _, _ => false
  end.

Section Halo2.
  Context {F : Type} {FO : FieldOps F}.

  (** ** Expressions and the constraint system *)

  (** [plonk::Expression] *)
  Inductive expr : Type :=
  | EConst (c : F)
  | ESel (s : nat)
  | EFix (c : nat) (rot : Z)
  | EAdv (c : nat) (rot : Z)
  | ENeg (a : expr)
  | ESum (a b : expr)
  | EProd (a b : expr)
  | EScaled (a : expr) (c : F).

  (** [a - b] of expressions *)
  Definition esub (a b : expr) : expr := ESum a (ENeg b).

  (** [plonk::ConstraintSystem]: number of columns of each kind, gates, lookups (input expression,
      table column), equality-enabled columns, constants columns *)
  Record cs : Type := {
    cs_adv : nat; cs_fix : nat; cs_sel : nat;
    cs_gates : list expr;
    cs_lookups : list (expr * nat);
    cs_eq : list column;
    cs_const : list nat
  }.

  Definition cs_empty : cs :=
    {| cs_adv := 0; cs_fix := 0; cs_sel := 0; cs_gates := []; cs_lookups := []; cs_eq := [];
       cs_const := [] |}.

  Definition advice_column (m : cs) : nat * cs :=
    (cs_adv m, {| cs_adv := S (cs_adv m); cs_fix := cs_fix m; cs_sel := cs_sel m;
                  cs_gates := cs_gates m; cs_lookups := cs_lookups m; cs_eq := cs_eq m;
                  cs_const := cs_const m |}).
  (** also [lookup_table_column], which allocates a fixed column *)
  Definition fixed_column (m : cs) : nat * cs :=
    (cs_fix m, {| cs_adv := cs_adv m; cs_fix := S (cs_fix m); cs_sel := cs_sel m;
                  cs_gates := cs_gates m; cs_lookups := cs_lookups m; cs_eq := cs_eq m;
                  cs_const := cs_const m |}).
  Definition complex_selector (m : cs) : nat * cs :=
    (cs_sel m, {| cs_adv := cs_adv m; cs_fix := cs_fix m; cs_sel := S (cs_sel m);
                  cs_gates := cs_gates m; cs_lookups := cs_lookups m; cs_eq := cs_eq m;
                  cs_const := cs_const m |}).
  (** a gate is the list of its polynomials *)
  Definition create_gate (polys : list expr) (m : cs) : cs :=
    {| cs_adv := cs_adv m; cs_fix := cs_fix m; cs_sel := cs_sel m;
       cs_gates := cs_gates m ++ polys; cs_lookups := cs_lookups m; cs_eq := cs_eq m;
       cs_const := cs_const m |}.
  Definition lookup (input : expr) (table : nat) (m : cs) : cs :=
    {| cs_adv := cs_adv m; cs_fix := cs_fix m; cs_sel := cs_sel m;
       cs_gates := cs_gates m; cs_lookups := cs_lookups m ++ [(input, table)]; cs_eq := cs_eq m;
       cs_const := cs_const m |}.
  Definition enable_equality (c : column) (m : cs) : cs :=
    {| cs_adv := cs_adv m; cs_fix := cs_fix m; cs_sel := cs_sel m;
       cs_gates := cs_gates m; cs_lookups := cs_lookups m; cs_eq := cs_eq m ++ [c];
       cs_const := cs_const m |}.
  (** [enable_constant] also enables equality on the column *)
  Definition enable_constant (c : nat) (m : cs) : cs :=
    {| cs_adv := cs_adv m; cs_fix := cs_fix m; cs_sel := cs_sel m;
       cs_gates := cs_gates m; cs_lookups := cs_lookups m; cs_eq := cs_eq m ++ [Fix c];
       cs_const := cs_const m ++ [c] |}.

  (** [Constraints::with_selector] *)
  Definition with_selector (q : expr) (l : list expr) : list expr := map (EProd q) l.

  (** ** Regions *)

  (** [circuit::Cell]: region index, row in the region, column *)
  Record cell : Type := { ce_region : nat; ce_off : nat; ce_col : column }.
  (** [circuit::AssignedCell]; [circuit::Value] is an option *)
  Record acell : Type := { ac_cell : cell; ac_val : option F }.

  Inductive event : Type :=
  | AssignAdvice (c o : nat) (v : option F)
  | AssignFixed (c o : nat) (v : F)
  | EnableSelector (s o : nat)
  | ConstrainEqual (a b : cell)
  | ConstrainConstant (a : cell) (v : F).

  (** code run in a region: reads the region index, emits events, may fail *)
  Definition Region (A : Type) : Type := nat -> result (list event * A).
  Definition rret {A} (a : A) : Region A := fun _ => Ok ([], a).
  Definition rbind {A B} (m : Region A) (f : A -> Region B) : Region B :=
    fun ri => do (e1, a) <- m ri; do (e2, b) <- f a ri; Ok (e1 ++ e2, b).
  Definition rfail {A} : Region A := fun _ => Panic.
  Definition rlift {A} (m : result A) : Region A := fun _ => do a <- m; Ok ([], a).

  Definition assign_advice (c o : nat) (v : option F) : Region acell :=
    fun ri => Ok ([AssignAdvice c o v],
                  {| ac_cell := {| ce_region := ri; ce_off := o; ce_col := Adv c |}; ac_val := v |}).
  Definition assign_fixed (c o : nat) (v : F) : Region acell :=
    fun ri => Ok ([AssignFixed c o v],
                  {| ac_cell := {| ce_region := ri; ce_off := o; ce_col := Fix c |};
                     ac_val := Some v |}).
  Definition enable_selector (s o : nat) : Region unit := fun _ => Ok ([EnableSelector s o], tt).
  Definition constrain_equal (a b : cell) : Region unit := fun _ => Ok ([ConstrainEqual a b], tt).
  (** [AssignedCell::copy_advice] *)
  Definition copy_advice (src : acell) (c o : nat) : Region acell :=
    rbind (assign_advice c o (ac_val src)) (fun d =>
    rbind (constrain_equal (ac_cell d) (ac_cell src)) (fun _ => rret d)).
  (** [Region::assign_advice_from_constant] *)
  Definition assign_advice_from_constant (c o : nat) (v : F) : Region acell :=
    rbind (assign_advice c o (Some v)) (fun d =>
    rbind (fun _ => Ok ([ConstrainConstant (ac_cell d) v], tt)) (fun _ => rret d)).

  (** [iter().map(f).collect::<Result<Vec<_>, _>>()] and loops *)
  Fixpoint rmap {A B} (f : A -> Region B) (l : list A) : Region (list B) :=
    match l with
    | [] => rret []
    | x :: l' => rbind (f x) (fun y => rbind (rmap f l') (fun r => rret (y :: r)))
    end.
  Fixpoint rfold {A B} (f : B -> A -> Region B) (l : list A) (b : B) : Region B :=
    match l with
    | [] => rret b
    | x :: l' => rbind (f b x) (rfold f l')
    end.

  (** ** Layouter *)

  (** everything laid down so far, at absolute rows: starts of the regions, next free row per column,
      advice, fixed and selector cells in the order they are written, copies, lookup tables, and the
      constants column *)
  Record layout : Type := {
    lo_starts : list nat;
    lo_next : column -> nat;
    lo_adv : list (nat * nat * option F);
    lo_fix : list (nat * nat * F);
    lo_sel : list (nat * nat);
    lo_copy : list ((column * nat) * (column * nat));
    lo_tables : list (nat * list F);
    lo_const : option nat
  }.

  Definition layout_empty (m : cs) : layout :=
    {| lo_starts := []; lo_next := fun _ => 0; lo_adv := []; lo_fix := []; lo_sel := [];
       lo_copy := []; lo_tables := []; lo_const := hd_error (cs_const m) |}.

  Definition Layouter (A : Type) : Type := layout -> result (layout * A).
  Definition lret {A} (a : A) : Layouter A := fun L => Ok (L, a).
  Definition lbind {A B} (m : Layouter A) (f : A -> Layouter B) : Layouter B :=
    fun L => do (L1, a) <- m L; f a L1.
  Definition llift {A} (m : result A) : Layouter A := fun L => do a <- m; Ok (L, a).
  Fixpoint lmap {A B} (f : A -> Layouter B) (l : list A) : Layouter (list B) :=
    match l with
    | [] => lret []
    | x :: l' => lbind (f x) (fun y => lbind (lmap f l') (fun r => lret (y :: r)))
    end.
  Fixpoint lfold {A B} (f : B -> A -> Layouter B) (l : list A) (b : B) : Layouter B :=
    match l with
    | [] => lret b
    | x :: l' => lbind (f b x) (lfold f l')
    end.

  (** [RegionShape]: the cells that count for columns and height of a region *)
  Definition touched (evs : list event) : list (column * nat) :=
    flat_map (fun e =>
      match e with
      | AssignAdvice c o _ => [(Adv c, o)]
      | AssignFixed c o _ => [(Fix c, o)]
      | EnableSelector s o => [(Sel s, o)]
      | _ => []
      end) evs.
  Definition row_count (evs : list event) : nat :=
    fold_right (fun '(_, o) m => Nat.max (S o) m) 0 (touched evs).
  (** first row free in all columns of the shape *)
  Definition region_start (next : column -> nat) (evs : list event) : nat :=
    fold_right (fun '(c, _) m => Nat.max (next c) m) 0 (touched evs).
  Definition next_after (next : column -> nat) (evs : list event) (till : nat) : column -> nat :=
    fun c => if existsb (fun '(c', _) => column_eqb c c') (touched evs) then till else next c.

  Definition abs_cell (starts : list nat) (c : cell) : column * nat :=
    (ce_col c, ce_off c + nth (ce_region c) starts 0).

  (** place the events of a region that starts at row [st] *)
  Definition abs_adv (st : nat) (evs : list event) : list (nat * nat * option F) :=
    flat_map (fun e => match e with AssignAdvice c o v => [(c, o + st, v)] | _ => [] end) evs.
  Definition abs_fix (st : nat) (evs : list event) : list (nat * nat * F) :=
    flat_map (fun e => match e with AssignFixed c o v => [(c, o + st, v)] | _ => [] end) evs.
  Definition abs_sel (st : nat) (evs : list event) : list (nat * nat) :=
    flat_map (fun e => match e with EnableSelector s o => [(s, o + st)] | _ => [] end) evs.
  Definition abs_copy (starts : list nat) (evs : list event)
    : list ((column * nat) * (column * nat)) :=
    flat_map (fun e => match e with
                       | ConstrainEqual a b => [(abs_cell starts a, abs_cell starts b)]
                       | _ => []
                       end) evs.
  Definition const_events (evs : list event) : list (cell * F) :=
    flat_map (fun e => match e with ConstrainConstant a v => [(a, v)] | _ => [] end) evs.

  Definition commit (ri : nat) (evs : list event) (L : layout) : layout :=
    let st := nth ri (lo_starts L) 0 in
    {| lo_starts := lo_starts L; lo_next := lo_next L;
       lo_adv := lo_adv L ++ abs_adv st evs;
       lo_fix := lo_fix L ++ abs_fix st evs;
       lo_sel := lo_sel L ++ abs_sel st evs;
       lo_copy := lo_copy L ++ abs_copy (lo_starts L) evs;
       lo_tables := lo_tables L; lo_const := lo_const L |}.

  (** reserve the rows of a region with the shape of [evs] *)
  Definition reserve (evs : list event) (L : layout) : layout :=
    let st := region_start (lo_next L) evs in
    {| lo_starts := lo_starts L ++ [st];
       lo_next := next_after (lo_next L) evs (row_count evs + st);
       lo_adv := lo_adv L; lo_fix := lo_fix L; lo_sel := lo_sel L; lo_copy := lo_copy L;
       lo_tables := lo_tables L; lo_const := lo_const L |}.

  (** a constant: the next free cell of the constants column, and a copy; fails without such a column *)
  Definition place_constant (L : layout) (av : cell * F) : result layout :=
    let '(a, v) := av in
    do k <- unwrap (lo_const L);
    let row := lo_next L (Fix k) in
    Ok {| lo_starts := lo_starts L;
          lo_next := fun c => if column_eqb c (Fix k) then S row else lo_next L c;
          lo_adv := lo_adv L; lo_fix := lo_fix L ++ [(k, row, v)]; lo_sel := lo_sel L;
          lo_copy := lo_copy L ++ [((Fix k, row), abs_cell (lo_starts L) a)];
          lo_tables := lo_tables L; lo_const := lo_const L |}.

  (** [Layouter::assign_region]: the closure runs twice, first for the shape, then at its place *)
  Definition assign_region {A} (p : Region A) : Layouter A :=
    fun L =>
      let ri := length (lo_starts L) in
      do (shape, _) <- p ri;
      let L1 := reserve shape L in
      do (evs, a) <- p ri;
      do L2 <- fold_r place_constant (const_events evs) (commit ri evs L1);
      Ok (L2, a).

  (** [Layouter::assign_regions] (the parallel version of scroll-tech/halo2): all shapes are measured
      first, in order; then the constraint system is split by the rows of the shapes ([fork]), the closures run again,
      each on its own thread and part, and the parts are merged.  [fork] fails unless the rows of the regions increase,
      and a write outside the part of a closure fails.  Closures that behave differently the first time are given as two
      programs.  Constants do not occur in these regions. *)
  Fixpoint reserve_all {A} (ri : nat) (ps : list (Region A * Region A)) (L : layout)
    : result layout :=
    match ps with
    | [] => Ok L
    | (p1, _) :: ps' => do (shape, _) <- p1 ri; reserve_all (S ri) ps' (reserve shape L)
    end.
  Fixpoint commit_all {A} (ri : nat) (ps : list (Region A * Region A)) (L : layout)
    : result (layout * list A) :=
    match ps with
    | [] => Ok (L, [])
    | (_, p2) :: ps' =>
      do (evs, a) <- p2 ri;
      do (L', r) <- commit_all (S ri) ps' (commit ri evs L);
      Ok (L', a :: r)
    end.
  (** first row and end of each shape *)
  Fixpoint row_ranges {A} (ri : nat) (ps : list (Region A * Region A)) (L : layout) : result (list (nat * nat)) :=
    match ps with
    | [] => Ok []
    | (p1, _) :: ps' =>
      do (shape, _) <- p1 ri;
      let st := region_start (lo_next L) shape in
      do r <- row_ranges (S ri) ps' (reserve shape L);
      Ok ((st, row_count shape + st) :: r)
    end.
  Fixpoint increasing (from : nat) (rs : list (nat * nat)) : bool :=
    match rs with [] => true | (a, b) :: rs' => (from <=? a) && increasing b rs' end.
  Fixpoint kept {A} (ri : nat) (ps : list (Region A * Region A)) (rs : list (nat * nat)) : bool :=
    match ps, rs with
    | (_, p2) :: ps', (a, b) :: rs' =>
      match p2 ri with Ok (evs, _) => forallb (fun '(_, o) => o + a <? b) (touched evs) | Panic => true end
      && kept (S ri) ps' rs'
    | _, _ => true
    end.
  Definition assign_regions {A} (ps : list (Region A * Region A)) : Layouter (list A) :=
    fun L =>
      let ri := length (lo_starts L) in
      do rs <- row_ranges ri ps L;
      do _ <- rassert (increasing 0 rs && kept ri ps rs);
      do L1 <- reserve_all ri ps L;
      commit_all ri ps L1.

  (** [Layouter::assign_table] with one column filled from row 0; it fails without values and on a column that is
      already assigned *)
  Definition assign_table (c : nat) (vals : list F) : Layouter unit :=
    fun L =>
      do _ <- rassert (negb (existsb (fun '(c', _) => c' =? c) (lo_tables L)) && (0 <? length vals));
      Ok ({| lo_starts := lo_starts L; lo_next := lo_next L; lo_adv := lo_adv L;
             lo_fix := lo_fix L; lo_sel := lo_sel L; lo_copy := lo_copy L;
             lo_tables := lo_tables L ++ [(c, vals)]; lo_const := lo_const L |}, tt).

  (** ** Satisfaction *)

  (** last value written to a cell *)
  Fixpoint last_write {V} (l : list (nat * nat * V)) (c r : nat) : option V :=
    match l with
    | [] => None
    | (c', r', v) :: l' =>
      match last_write l' c r with
      | Some w => Some w
      | None => if (c =? c') && (r =? r') then Some v else None
      end
    end.

  Definition fixed_at (L : layout) (c r : nat) : F :=
    match last_write (lo_fix L) c r with Some v => v | None => fzero end.
  Definition selector_at (L : layout) (s r : nat) : F :=
    if existsb (fun '(s', r') => (s =? s') && (r =? r')) (lo_sel L) then fone else fzero.
  (** rows of a table beyond the assigned ones are filled with its first value *)
  Definition table_at (L : layout) (c r : nat) : F :=
    match find (fun '(c', _) => c =? c') (lo_tables L) with
    | Some (_, vals) => nth r vals (hd fzero vals)
    | None => fzero
    end.

  (** row [r] rotated by [z] in a circuit of [n] rows *)
  Definition rotate (n r : nat) (z : Z) : nat := Z.to_nat ((Z.of_nat r + z) mod Z.of_nat n).

  Fixpoint eval (n : nat) (fx sl adv : nat -> nat -> F) (r : nat) (e : expr) : F :=
    match e with
    | EConst c => c
    | ESel s => sl s r
    | EFix c z => fx c (rotate n r z)
    | EAdv c z => adv c (rotate n r z)
    | ENeg a => fopp (eval n fx sl adv r a)
    | ESum a b => fadd (eval n fx sl adv r a) (eval n fx sl adv r b)
    | EProd a b => fmul (eval n fx sl adv r a) (eval n fx sl adv r b)
    | EScaled a c => fmul (eval n fx sl adv r a) c
    end.

  (** content of a cell in a column that takes part in copies *)
  Definition cell_at (L : layout) (adv : nat -> nat -> F) (c : column * nat) : F :=
    match c with
    | (Adv i, r) => adv i r
    | (Fix i, r) => fixed_at L i r
    | (Sel i, r) => selector_at L i r
    end.

  (** all polynomials of a list vanish on all [n] rows *)
  Definition gates_hold (n : nat) (L : layout) (adv : nat -> nat -> F) (gs : list expr) : Prop :=
    forall g r, In g gs -> r < n -> eval n (fixed_at L) (selector_at L) adv r g = fzero.

  (** every lookup input on a usable row is a value of the table *)
  Definition lookups_hold (n u : nat) (L : layout) (adv : nat -> nat -> F) (ls : list (expr * nat))
    : Prop :=
    forall e t r, In (e, t) ls -> r < u ->
      exists r', r' < u /\ eval n (fixed_at L) (selector_at L) adv r e = table_at L t r'.

  Definition copies_hold (L : layout) (adv : nat -> nat -> F) : Prop :=
    forall a b, In (a, b) (lo_copy L) -> cell_at L adv a = cell_at L adv b.

  (** an assignment of the advice columns (any prover) satisfies a circuit of [n] rows of which the
      first [u] are usable *)
  Definition satisfied (n u : nat) (m : cs) (L : layout) (adv : nat -> nat -> F) : Prop :=
    gates_hold n L adv (cs_gates m)
    /\ lookups_hold n u L adv (cs_lookups m)
    /\ copies_hold L adv.

  (** the layout fits into the usable rows (else halo2 reports NotEnoughRowsAvailable) *)
  Definition fits (u : nat) (L : layout) : Prop :=
    (forall c r v, In (c, r, v) (lo_adv L) -> r < u)
    /\ (forall c r v, In (c, r, v) (lo_fix L) -> r < u)
    /\ (forall s r, In (s, r) (lo_sel L) -> r < u)
    /\ (forall t vals, In (t, vals) (lo_tables L) -> length vals <= u).

  (** copies only between equality-enabled columns (else halo2 reports ColumnNotInPermutation) *)
  Definition copies_enabled (m : cs) (L : layout) : Prop :=
    forall a b, In (a, b) (lo_copy L) -> In (fst a) (cs_eq m) /\ In (fst b) (cs_eq m).

  (** the advice of the honest prover: the values written, zero in other usable cells, anything
      ([blind]) in the remaining rows *)
  Definition honest (u : nat) (L : layout) (blind : nat -> nat -> F) (c r : nat) : F :=
    if r <? u then
      match last_write (lo_adv L) c r with Some (Some v) => v | _ => fzero end
    else blind c r.
End Halo2.

Arguments expr F : clear implicits.
Arguments cs F : clear implicits.
Arguments event F : clear implicits.
Arguments acell F : clear implicits.
Arguments layout F : clear implicits.
Arguments Region F A : clear implicits.
Arguments Layouter F A : clear implicits.

Notation "'rdo' x <- m ; k" := (rbind m (fun x => k))
  (at level 200, x pattern, m at level 100, k at level 200, right associativity) : rust_scope.
Notation "'ldo' x <- m ; k" := (lbind m (fun x => k))
  (at level 200, x pattern, m at level 100, k at level 200, right associativity) : rust_scope.
