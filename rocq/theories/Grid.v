(** The table that halo2 checks: fixed columns, selectors and lookup tables.

    Gate.v records the constraints of a circuit one by one.  halo2 does not: it has one gate
    and seven lookups for the whole circuit, which hold on every row, and what a row asks for
    is decided by the fixed columns that the chips fill in.  Here are these columns, the gate
    and the lookups as configured, and the tables as initialised. *)
From Coq Require Import ZArith Arith Lia List Bool.
From Verif Require Import Util Algebra PField Gate Integer.
Import ListNotations.

(** The range selectors that are set on a row: none, the common one (range_gate.rs:84-103), or
    the common one and one of the three for the leading chunk (range_gate.rs:105-178). *)
Inductive ranged := Unranged | Common | WCeil | NFloor | DLeading.

Section Grid.
  Variables N W : PF.
  Local Open Scope fld_scope.

  (** What one line writes besides the advice cells (base_gate.rs:739-802 and
      range_gate.rs:84-178): the fixed cells, the copies and the selectors.  The log of a
      circuit has the line of row r at position r. *)
  Record gline := GL { gl_row : grow N; gl_copies : list (cell * cell); gl_ranged : ranged }.

  (** A fixed cell that was never assigned is 0 (halo2). *)
  Definition fixed (f : gline -> N) (log : list gline) (r : nat) : N :=
    match nth_error log r with Some l => f l | None => 0 end.
  Definition coeff_column (i : nat) := fixed (fun l => nth i (g_coeff (gl_row l)) 0).
  Definition mul_column (i : nat) := fixed (fun l => nth i (g_mul (gl_row l)) 0).
  Definition constant_column := fixed (fun l => g_const (gl_row l)).
  Definition next_column := fixed (fun l => g_next (gl_row l)).
  Definition common_selector := fixed (fun l => match gl_ranged l with Unranged => 0 | _ => 1 end).
  Definition w_ceil_selector := fixed (fun l => match gl_ranged l with WCeil => 1 | _ => 0 end).
  Definition n_floor_selector := fixed (fun l => match gl_ranged l with NFloor => 1 | _ => 0 end).
  Definition d_selector := fixed (fun l => match gl_ranged l with DLeading => 1 | _ => 0 end).

  (** base_gate.rs:701-720, the polynomial of [configure] at row [r] *)
  Definition base_gate (log : list gline) (w : asg N) (r : nat) : N :=
    let acc := constant_column log r + w (S r, (VAR_COLUMNS - 1)%nat) * next_column log r in
    let acc := fold_left (fun acc i => acc + w (r, i) * coeff_column i log r) (seq 0 VAR_COLUMNS) acc in
    fold_left (fun acc i => acc + w (r, i * 2)%nat * w (r, i * 2 + 1)%nat * mul_column i log r) (seq 0 MUL_COLUMNS) acc.

  Record tables := mkTables { t_common : list N; t_w_ceil : list N; t_n_floor : list N; t_d : list N }.
  (** five/range_gate.rs:41-79, the lookups of [configure]: what is looked up on each row, and where *)
  Definition lookups (t : tables) (log : list gline) (w : asg N) : list ((nat -> N) * list N) :=
    map (fun i => (fun r => w (r, i) * common_selector log r, t_common t)) (seq 0 (VAR_COLUMNS - 1)) ++
    [(fun r => w (r, 0%nat) * w_ceil_selector log r, t_w_ceil t);
     (fun r => w (r, 0%nat) * n_floor_selector log r, t_n_floor t);
     (fun r => w (r, 0%nat) * d_selector log r, t_d t)].

  (** range_gate.rs:233-291, one [assign_table]: 0, 1, ..., 2^bits - 1; halo2 fills the rest of
      the column with its first value and fails if there are too few rows. *)
  Definition assign_table (rows bits : nat) : option (list N) :=
    if (Z.of_nat rows <? 2 ^ Z.of_nat bits)%Z then None
    else let n := Z.to_nat (2 ^ Z.of_nat bits) in
         Some (map (fun i => ofZ (Z.of_nat i)) (seq 0 n) ++ repeat (ofZ 0) (rows - n)).
  (** range_gate.rs:198-294, [init_table], with the subtractions and the assertion of
      utils.rs:53-54; the widths are those of Integer.v. *)
  Definition init_table (rows : nat) : option tables :=
    let w_max := (pf_n W - 1)%Z in
    let n_max := (pf_n N - 1)%Z in
    let w_bits := nbits w_max in
    let n_bits := (nbits n_max - 1)%Z in
    if (w_max <=? 2 ^ w_bits)%Z && (2 ^ (w_bits - 1) <? w_max)%Z && (2 ^ n_bits <? n_max)%Z && (n_max <=? 2 ^ (n_bits + 1))%Z
       && (0 <=? d_bits N W)%Z && (2 ^ d_bits N W * pf_n W + pf_n W <=? Z.lcm integer_modulus (pf_n N))%Z
    then do c <- assign_table rows COMMON_RANGE_BITS;
         do w <- assign_table rows (w_table W);
         do n <- assign_table rows (n_table N);
         do d <- assign_table rows (d_table N W);
         Some (mkTables c w n d)
    else None.

  (** What halo2 accepts: on every usable row the gate is 0 and every lookup finds its input,
      and the two ends of every copy agree. *)
  Definition accepts (rows : nat) (t : tables) (log : list gline) (w : asg N) : Prop :=
    (forall r, (r < rows)%nat -> base_gate log w r = 0) /\
    (forall l r, In l (lookups t log w) -> (r < rows)%nat -> In (fst l r) (snd l)) /\
    (forall l a b, In l log -> In (a, b) (gl_copies l) -> w a = w b).

  (** The constraints of Gate.v that a line stands for *)
  Definition leading (x : ranged) : option nat :=
    match x with Unranged | Common => None | WCeil => Some (w_table W) | NFloor => Some (n_table N) | DLeading => Some (d_table N W) end.
  Definition asks (r : nat) (l : gline) (x : constr N) : Prop :=
    x = CRow r (gl_row l) \/ (exists a b, In (a, b) (gl_copies l) /\ x = CCopy a b) \/
    (gl_ranged l <> Unranged /\ exists i, (i < VAR_COLUMNS - 1)%nat /\ x = CRange (r, i) COMMON_RANGE_BITS) \/
    (exists t, leading (gl_ranged l) = Some t /\ x = CRange (r, 0%nat) t).
  (** The log of a context: one line for each row, which together ask for what was emitted *)
  Definition log_of (c : ctx N) (log : list gline) : Prop :=
    List.length log = offset c /\
    (forall x, In x (emitted c) <-> exists r l, nth_error log r = Some l /\ asks r l x) /\
    (forall l, In l log -> List.length (g_coeff (gl_row l)) = VAR_COLUMNS /\ List.length (g_mul (gl_row l)) = MUL_COLUMNS).
End Grid.
Arguments GL {N} _ _ _. Arguments gl_row {N} _. Arguments gl_copies {N} _. Arguments gl_ranged {N} _.
Arguments init_table N W rows : clear implicits. Arguments accepts {N} rows t log w.
Arguments log_of {N} W c log. Arguments assign_table N rows bits : clear implicits.
