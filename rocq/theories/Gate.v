(** Base gate and range gate of halo2-ecc-circuit-lib: the circuit builder.

    A circuit under construction is a list of constraints (gate rows with their
    fixed values, copy constraints, range lookups) together with the advice
    values written by the prover.  Every operation of the trait [BaseGateOps]
    appends rows at the current offset.

    Simplifications: one region, no selectors other than the fixed columns; the
    measuring pass ("shape mode": Context::expand, in_shape_mode) is in Measure.v;
    errors of the halo2 region API are not modelled, [None] is a Rust panic. *)
From Coq Require Import ZArith Arith Lia List Bool.
From Verif Require Import Util Algebra PField.
Import ListNotations.
Local Open Scope fld_scope.

(** five/config.rs:1-2 *)
Definition VAR_COLUMNS : nat := 5.
Definition MUL_COLUMNS : nat := 2.

(** A cell of the advice columns: (row, column).  halo2 [Cell]. *)
Definition cell := (nat * nat)%type.

Section Gate.
  Variable N : PF.

  (** base_gate.rs:16-20, [AssignedValue] (and :10-14, [AssignedCondition], the
      same data; the conversions :22-56 are the identity). *)
  Record aval := AV { av_cell : cell; av_val : N }.

  (** base_gate.rs:58-62, [ValueSchema]. *)
  Inductive vschema := VA (a : aval) | VU (v : N).
  (** base_gate.rs:77-82, [value]. *)
  Definition vs_val (s : vschema) : N := match s with VA a => av_val a | VU v => v end.

  (** Fixed values of one row of the base gate (base_gate.rs:149-155). *)
  Record grow := mkRow { g_coeff : list N; g_mul : list N; g_const : N; g_next : N }.

  Inductive constr :=
  | CRow (r : nat) (g : grow)          (* the gate polynomial at row r *)
  | CCopy (a b : cell)                 (* constrain_equal *)
  | CRange (c : cell) (bits : nat).    (* lookup of a cell in the table [0, 2^bits) *)

  (** An assignment of the advice columns. *)
  Definition asg := cell -> N.

  Fixpoint dot (w : asg) (r i : nat) (coeffs : list N) : N :=
    match coeffs with [] => 0 | c :: l => w (r, i) * c + dot w r (S i) l end.
  Fixpoint muls (w : asg) (r i : nat) (coeffs : list N) : N :=
    match coeffs with
    | [] => 0
    | c :: l => w (r, (i * 2)%nat) * w (r, (i * 2 + 1)%nat) * c + muls w r (S i) l
    end.
  (** base_gate.rs:703-719, the gate polynomial; the next row enters through
      its last column. *)
  Definition gate_poly (w : asg) (r : nat) (g : grow) : N :=
    g_const g + w (S r, (VAR_COLUMNS - 1)%nat) * g_next g + dot w r 0 (g_coeff g) + muls w r 0 (g_mul g).

  Definition holds (w : asg) (c : constr) : Prop :=
    match c with
    | CRow r g => gate_poly w r g = 0
    | CCopy a b => w a = w b
    | CRange c bits => (toZ (w c) < 2 ^ Z.of_nat bits)%Z
    end.

  (** base_gate.rs:113-117, [Context]: current offset, what was emitted, and the
      advice values written so far (cells never written are 0). *)
  Record ctx := mkCtx { offset : nat; emitted : list constr; adv : asg }.

  (** [w] satisfies everything emitted so far. *)
  Definition sat (w : asg) (c : ctx) : Prop := Forall (holds w) (emitted c).

  Definition B (A : Type) := ctx -> option (A * ctx).
  Definition ret {A} (a : A) : B A := fun c => Some (a, c).
  Definition panic {A} : B A := fun _ => None.
  Definition bind {A A'} (m : B A) (k : A -> B A') : B A' :=
    fun c => match m c with Some (a, c') => k a c' | None => None end.
  (** [assert!] *)
  Definition guard (b : bool) : B unit := if b then ret tt else panic.
End Gate.

Arguments AV {N} _ _. Arguments av_cell {N} _. Arguments av_val {N} _.
Arguments VA {N} _. Arguments VU {N} _. Arguments vs_val {N} _.
Arguments mkRow {N} _ _ _ _. Arguments g_coeff {N} _. Arguments g_mul {N} _.
Arguments g_const {N} _. Arguments g_next {N} _.
Arguments CRow {N} _ _. Arguments CCopy {N} _ _. Arguments CRange {N} _ _.
Arguments dot {N} _ _ _ _. Arguments muls {N} _ _ _ _. Arguments gate_poly {N} _ _ _. Arguments holds {N} _ _.
Arguments mkCtx {N} _ _ _. Arguments offset {N} _. Arguments emitted {N} _. Arguments adv {N} _ _.
Arguments sat {N} _ _. Arguments ret {N A} _ _. Arguments panic {N A} _.
Arguments bind {N A A'} _ _ _. Arguments guard {N} _ _.

Notation "x <- m ;; k" := (bind m (fun x => k))
  (at level 100, m at next level, right associativity).
Notation "m ;;; k" := (bind m (fun _ => k)) (at level 100, right associativity).

(** Sequencing a list of builders (Rust loops collecting cells). *)
Fixpoint bmap {N A A'} (f : A -> B N A') (l : list A) : B N (list A') :=
  match l with
  | [] => ret []
  | a :: l' => x <- f a ;; xs <- bmap f l' ;; ret (x :: xs)
  end.

Section Ops.
  Variable N : PF.
  Local Notation aval := (aval N).
  Local Notation B := (B N).
  Local Notation pairs := (list (vschema N * N)).

  (** [Vec::resize_with(n, || pair_empty!(N))], base_gate.rs:104-111. *)
  Definition pair_empty : vschema N * N := (VU 0, 0).
  Definition resize {A} (n : nat) (d : A) (l : list A) : list A := firstn n l ++ repeat d (n - length l).

  Fixpoint copies_of (r i : nat) (ps : pairs) : list (constr N) :=
    match ps with
    | [] => []
    | (VA a, _) :: l => CCopy (av_cell a) (r, i) :: copies_of r (S i) l
    | (VU _, _) :: l => copies_of r (S i) l
    end.
  Fixpoint cells_of (r i : nat) (ps : pairs) : list aval :=
    match ps with [] => [] | (s, _) :: l => AV (r, i) (vs_val s) :: cells_of r (S i) l end.

  (** base_gate.rs:739-802, [BaseGate::one_line]: writes one row and returns its
      five cells.  (The returned fixed/advice values used by the shape-mode probe
      are not modelled.) *)
  Definition one_line (ps : pairs) (constant : N) (mul_coeffs : list N) (next : N) : B (list aval) :=
    guard (length ps <=? VAR_COLUMNS)%nat ;;;
    guard (length mul_coeffs <=? MUL_COLUMNS)%nat ;;;
    fun c =>
      let ps := resize VAR_COLUMNS pair_empty ps in
      let r := offset c in
      let row := mkRow (map snd ps) (resize MUL_COLUMNS 0 mul_coeffs) constant next in
      let w := fun cl => if Nat.eqb (fst cl) r then nth (snd cl) (map (fun p => vs_val (fst p)) ps) 0 else adv c cl in
      Some (cells_of r 0 ps, mkCtx (S r) (CRow r row :: copies_of r 0 ps ++ emitted c) w).

  (** base_gate.rs:169-176, [one_line_add]. *)
  Definition one_line_add (ps : pairs) (constant : N) : B (list aval) := one_line ps constant [] 0.

  (** base_gate.rs:178-191, [one_line_with_last_base]. *)
  Definition one_line_with_last_base (ps : pairs) (last : vschema N * N) (constant : N)
             (mul_coeffs : list N) (next : N) : B (list aval) :=
    guard (length ps <? VAR_COLUMNS)%nat ;;;
    one_line (resize (VAR_COLUMNS - 1) pair_empty ps ++ [last]) constant mul_coeffs next.

  (** Indexing [cells[i]] (panics out of range). *)
  Definition at_ {A} (l : list A) (i : nat) : B A :=
    match nth_error l i with Some a => ret a | None => panic end.

  Definition acc_len (acc : option N) : nat := match acc with Some _ => 1 | None => 0 end.
  Definition acc_or0 (acc : option N) : N := match acc with Some a => a | None => 0 end.
  Definition lin (l : list (aval * N)) (init : N) : N :=
    fold_left (fun acc vc => acc + av_val (fst vc) * snd vc) l init.
  Definition pairs_of (l : list (aval * N)) : pairs := map (fun vc => (VA (fst vc), snd vc)) l.

  (** base_gate.rs:206-237, the [while] loop of [sum_with_constant]; [fuel] is the
      number of elements plus one (each iteration consumes at least one). *)
  Fixpoint sum_loop (fuel : nat) (elems : list (aval * N)) (acc : option N) : B (list (aval * N) * option N) :=
    match fuel with
    | O => panic
    | S fuel =>
        if (VAR_COLUMNS <? length elems + acc_len acc + 1)%nat then
          let line_len := (VAR_COLUMNS - acc_len acc)%nat in
          guard (line_len <=? length elems)%nat ;;;
          let line := firstn line_len elems in
          let line_sum := lin line 0 in
          (match acc with
           | None => one_line (pairs_of line) 0 [] (- (1))
           | Some t => one_line_with_last_base (pairs_of line) (VU t, 1) 0 [] (- (1))
           end) ;;;
          sum_loop fuel (skipn line_len elems) (Some (acc_or0 acc + line_sum))
        else ret (elems, acc)
    end.

  (** base_gate.rs:193-262, [sum_with_constant]. *)
  Definition sum_with_constant (elems : list (aval * N)) (constant : N) : B aval :=
    ra <- sum_loop (S (length elems)) elems None ;;
    let (rest, acc) := ra : list (aval * N) * option N in
    let sum := lin rest constant + acc_or0 acc in
    let ps := (VU sum, - (1)) :: pairs_of rest in
    cells <- (match acc with
              | None => one_line ps constant [] 0
              | Some t => one_line_with_last_base ps (VU t, 1) constant [] 0
              end) ;;
    at_ cells 0.

  (** base_gate.rs:264-275, 277-287, 289-300 *)
  Definition add (a b : aval) : B aval := sum_with_constant [(a, 1); (b, 1)] 0.
  Definition add_constant (a : aval) (c : N) : B aval := sum_with_constant [(a, 1)] c.
  Definition sub (a b : aval) : B aval := sum_with_constant [(a, 1); (b, - (1))] 0.

  (** base_gate.rs:302-324 *)
  Definition mul (a b : aval) : B aval :=
    let c := av_val a * av_val b in
    cells <- one_line [(VA a, 0); (VA b, 0); (VU c, - (1))] 0 [1] 0 ;; at_ cells 2.

  (** base_gate.rs:326-349 *)
  Definition mul_add_constant (a b : aval) (c : N) : B aval :=
    let d := av_val a * av_val b + c in
    cells <- one_line [(VA a, 0); (VA b, 0); (VU d, - (1))] c [1] 0 ;; at_ cells 2.

  (** base_gate.rs:351-380 *)
  Definition mul_add (a b c : aval) (c_coeff : N) : B aval :=
    let d := av_val a * av_val b + av_val c * c_coeff in
    cells <- one_line [(VA a, 0); (VA b, 0); (VA c, c_coeff); (VU d, - (1))] 0 [1] 0 ;; at_ cells 3.

  (** five/base_gate.rs:27-59 *)
  Definition mul_add2 (a b c : aval) (c_coeff : N) (d : aval) (d_coeff : N) : B aval :=
    let e := av_val a * av_val b + av_val c * c_coeff + av_val d * d_coeff in
    cells <- one_line [(VA a, 0); (VA b, 0); (VA c, c_coeff); (VA d, d_coeff); (VU e, - (1))] 0 [1] 0 ;; at_ cells 4.

  (** five/base_gate.rs:110-128, the override used by the five-column gate. *)
  Fixpoint mul_add_fold (acc : aval) (ls : list (aval * aval * aval * N)) : B aval :=
    match ls with
    | [] => ret acc
    | (a, b, c, k) :: ls => acc' <- mul_add2 a b c k acc 1 ;; mul_add_fold acc' ls
    end.
  Definition mul_add_with_next_line (ls : list (aval * aval * aval * N)) : B aval :=
    match ls with
    | [] => panic
    | (a, b, c, k) :: ls => acc <- mul_add a b c k ;; mul_add_fold acc ls
    end.

  (** base_gate.rs:382-417, the trait's default [mul_add_with_next_line] (not used
      by the five-column gate). *)
  Fixpoint mul_add_lines (t : N) (ls : list (aval * aval * aval * N)) : B N :=
    match ls with
    | [] => ret t
    | (a, b, c, k) :: ls =>
        one_line_with_last_base [(VA a, 0); (VA b, 0); (VA c, k)] (VU t, 1) 0 [1] (- (1)) ;;;
        mul_add_lines (av_val a * av_val b + av_val c * k + t) ls
    end.
  Definition mul_add_with_next_line_default (ls : list (aval * aval * aval * N)) : B aval :=
    match ls with
    | [] => panic
    | [(a, b, c, k)] => mul_add a b c k
    | _ => t <- mul_add_lines 0 ls ;;
           cells <- one_line_with_last_base [] (VU t, 0) 0 [] 0 ;;
           at_ cells (VAR_COLUMNS - 1)
    end.

  (** base_gate.rs:419-437; [invert().unwrap()] panics on zero. *)
  Definition invert_unsafe (a : aval) : B aval :=
    if feq_dec (av_val a) 0 then panic else
    let b := finv (av_val a) in
    cells <- one_line [(VA a, 0); (VU b, 0)] (- (1)) [1] 0 ;; at_ cells 1.

  Definition inv_or0 (a : N) : N := if feq_dec a 0 then 0 else finv a.

  (** base_gate.rs:439-467; returns (is zero, inverse). *)
  Definition invert (a : aval) : B (aval * aval) :=
    let b := inv_or0 (av_val a) in
    let c := 1 - av_val a * b in
    cells <- one_line [(VA a, 0); (VU c, 0)] 0 [1] 0 ;;
    c <- at_ cells 1 ;;
    cells <- one_line [(VA a, 0); (VU b, 0); (VA c, 1)] (- (1)) [1] 0 ;;
    res <- at_ cells 2 ;; inv <- at_ cells 1 ;;
    ret (res, inv).

  (** base_gate.rs:469-476 *)
  Definition is_zero (a : aval) : B aval := ri <- invert a ;; ret (fst ri).

  (** base_gate.rs:478-497 *)
  Definition div_unsafe (a b : aval) : B aval :=
    if feq_dec (av_val b) 0 then panic else
    let c := finv (av_val b) * av_val a in
    cells <- one_line [(VA b, 0); (VU c, 0); (VA a, - (1))] 0 [1] 0 ;; at_ cells 1.

  (** base_gate.rs:499-505, 507-511 *)
  Definition assign_constant (v : N) : B aval :=
    cells <- one_line_add [(VU v, - (1))] v ;; at_ cells 0.
  Definition assign (v : N) : B aval :=
    cells <- one_line_add [(VU v, 0)] 0 ;; at_ cells 0.

  (** base_gate.rs:513-525, 527-538 *)
  Definition assert_equal (a b : aval) : B unit :=
    one_line_add [(VA a, - (1)); (VA b, 1)] 0 ;;; ret tt.
  Definition assert_constant (a : aval) (b : N) : B unit :=
    one_line_add [(VA a, - (1))] b ;;; ret tt.

  (** base_gate.rs:540-552 *)
  Definition assert_bit (a : aval) : B unit :=
    one_line [(VA a, 1); (VA a, 0)] 0 [- (1)] 0 ;;; ret tt.

  (** base_gate.rs:554-563 *)
  Definition and_ (a b : aval) : B aval := mul a b.

  (** base_gate.rs:565-574 *)
  Definition not_ (a : aval) : B aval := sum_with_constant [(a, - (1))] 1.

  (** base_gate.rs:576-595 *)
  Definition or_ (a b : aval) : B aval :=
    let c := av_val a + av_val b - av_val a * av_val b in
    cells <- one_line [(VA a, 1); (VA b, 1); (VU c, - (1))] 0 [- (1)] 0 ;; at_ cells 2.

  (** base_gate.rs:597-617 *)
  Definition xor_ (a b : aval) : B aval :=
    let two := 1 + 1 in
    let c := av_val a + av_val b - two * av_val a * av_val b in
    cells <- one_line [(VA a, 1); (VA b, 1); (VU c, - (1))] 0 [- two] 0 ;; at_ cells 2.

  (** base_gate.rs:619-639 *)
  Definition xnor_ (a b : aval) : B aval :=
    let two := 1 + 1 in
    let c := 1 - av_val a - av_val b + two * av_val a * av_val b in
    cells <- one_line [(VA a, - (1)); (VA b, - (1)); (VU c, - (1))] 1 [two] 0 ;; at_ cells 2.

  (** five/base_gate.rs:82-108 and base_gate.rs:649-660 ([bisec_cond], same). *)
  Definition bisec (cond a b : aval) : B aval :=
    let c := av_val cond * av_val a + (1 - av_val cond) * av_val b in
    cells <- one_line [(VA cond, 0); (VA a, 0); (VA cond, 0); (VA b, 1); (VU c, - (1))] 0 [1; - (1)] 0 ;;
    at_ cells 4.

  (** base_gate.rs:662-672 *)
  Definition assert_true (a : aval) : B unit := assert_constant a 1.
  Definition assert_false (a : aval) : B unit := assert_constant a 0.

  (** Range gate: range_gate.rs:76-183 and five/range_gate.rs:41-91.  With the
      common selector on, columns 0..3 of the row are looked up in [0, 2^common);
      with a leading selector on, column 0 is also looked up in [0, 2^leading). *)
  Definition one_line_in_range (common : nat) (leading : option nat)
             (ps : pairs) (constant : N) (mul_coeffs : list N) (next : N) : B (list aval) :=
    fun c =>
      match one_line ps constant mul_coeffs next c with
      | None => None
      | Some (cells, c') =>
          let r := offset c in
          let lookups := map (fun i => CRange (r, i) common) (seq 0 (VAR_COLUMNS - 1)) ++
                         match leading with Some l => [CRange (r, 0%nat) l] | None => [] end in
          Some (cells, mkCtx (offset c') (lookups ++ emitted c') (adv c'))
      end.
End Ops.

Arguments pair_empty {N}. Arguments resize {A} _ _ _. Arguments at_ {N A} _ _.
Arguments one_line {N} _ _ _ _ _. Arguments one_line_add {N} _ _ _.
Arguments one_line_with_last_base {N} _ _ _ _ _ _. Arguments lin {N} _ _. Arguments pairs_of {N} _.
Arguments sum_loop {N} _ _ _ _. Arguments sum_with_constant {N} _ _ _.
Arguments add {N} _ _ _. Arguments add_constant {N} _ _ _. Arguments sub {N} _ _ _. Arguments mul {N} _ _ _.
Arguments mul_add_constant {N} _ _ _ _. Arguments mul_add {N} _ _ _ _ _. Arguments mul_add2 {N} _ _ _ _ _ _ _.
Arguments mul_add_fold {N} _ _ _. Arguments mul_add_with_next_line {N} _ _.
Arguments mul_add_lines {N} _ _ _. Arguments mul_add_with_next_line_default {N} _ _.
Arguments invert_unsafe {N} _ _. Arguments inv_or0 {N} _. Arguments invert {N} _ _. Arguments is_zero {N} _ _.
Arguments div_unsafe {N} _ _ _. Arguments assign_constant {N} _ _. Arguments assign {N} _ _.
Arguments assert_equal {N} _ _ _. Arguments assert_constant {N} _ _ _. Arguments assert_bit {N} _ _.
Arguments and_ {N} _ _ _. Arguments not_ {N} _ _. Arguments or_ {N} _ _ _. Arguments xor_ {N} _ _ _.
Arguments xnor_ {N} _ _ _. Arguments bisec {N} _ _ _ _. Arguments assert_true {N} _ _. Arguments assert_false {N} _ _.
Arguments one_line_in_range {N} _ _ _ _ _ _ _. Arguments acc_len {N} _. Arguments acc_or0 {N} _.
Arguments copies_of {N} _ _ _. Arguments cells_of {N} _ _ _.
