(** Model of halo2-snark-aggregator-api/src/hash/poseidon.rs: the sponge used by
    the transcripts of the aggregated proofs, written once against the interface
    of a field chip, as in the source, and instantiated natively and in circuit. *)
From Coq Require Import List Arith Bool.
From Verif Require Import Util Algebra PField Gate.
Import ListNotations.

(** arith/common.rs, arith/field.rs: the part of [ArithFieldChip] that the sponge
    uses.  [cM] is the type of a computation of the chip (context and errors). *)
Record fchip (F : Fld) := mkChip {
  cM : Type -> Type;
  cV : Type;                                   (** [AssignedValue] *)
  cret : forall X, X -> cM X;
  cbind : forall X Y, cM X -> (X -> cM Y) -> cM Y;
  cfail : forall X, cM X;
  c_const : F -> cM cV;                        (** [assign_const] *)
  c_mul : cV -> cV -> cM cV;                   (** [mul] *)
  c_mul_add_constant : cV -> cV -> F -> cM cV; (** [mul_add_constant] *)
  c_sum : list (cV * F) -> F -> cM cV          (** [sum_with_coeff_and_constant] *)
}.
Arguments cM {F} _ _. Arguments cV {F} _. Arguments cret {F} _ {X} _. Arguments cbind {F} _ {X Y} _ _. Arguments cfail {F} _ {X}.
Arguments c_const {F} _ _. Arguments c_mul {F} _ _ _. Arguments c_mul_add_constant {F} _ _ _ _. Arguments c_sum {F} _ _ _.

(** The external crate [poseidon]: [Spec::new(r_f, r_p)].  Its numbers are not
    modelled: every theorem holds for arbitrary constants. *)
Record pspec (F : Fld) := mkSpec {
  sp_r_f : nat;
  sp_start : list (list F);              (** constants().start() *)
  sp_partial : list F;                   (** constants().partial() *)
  sp_end : list (list F);                (** constants().end() *)
  sp_mds : list (list F);
  sp_pre_sparse_mds : list (list F);
  sp_sparse : list (list F * list F)     (** sparse_matrices(): row(), col_hat() *)
}.
Arguments sp_r_f {F} _. Arguments sp_start {F} _. Arguments sp_partial {F} _. Arguments sp_end {F} _.
Arguments sp_mds {F} _. Arguments sp_pre_sparse_mds {F} _. Arguments sp_sparse {F} _.

Section Poseidon.
  Variable F : Fld.
  Variable A : fchip F.
  Variable sp : pspec F.
  Variables T RATE : nat.
  Local Notation V := (cV A).
  Local Notation M := (cM A).
  Local Notation "x <-- m ;; k" := (cbind A m (fun x => k)) (at level 100, m at next level, right associativity).

  Fixpoint cmap {X Y} (f : X -> M Y) (l : list X) : M (list Y) :=
    match l with
    | [] => cret A []
    | x :: l => y <-- f x ;; ys <-- cmap f l ;; cret A (y :: ys)
    end.
  Fixpoint cfold {X Y} (f : Y -> X -> M Y) (l : list X) (y : Y) : M Y :=
    match l with [] => cret A y | x :: l => y' <-- f y x ;; cfold f l y' end.
  (** arith/field.rs:34-46, [sum_with_constant] *)
  Definition c_sum_with_constant (a : list V) (b : F) : M V := c_sum A (map (fun x => (x, f1)) a) b.

  (** poseidon.rs:10-19 *)
  Definition x_power5_with_constant (x : V) (constant : F) : M V :=
    x2 <-- c_mul A x x ;;
    x4 <-- c_mul A x2 x2 ;;
    c_mul_add_constant A x x4 constant.
  (** poseidon.rs:21-31; the state array is a list, [zip] stops at the shorter list:
      the words beyond it keep their value. *)
  Fixpoint sbox_full (s : list V) (constants : list F) : M (list V) :=
    match s, constants with
    | x :: s, constant :: constants =>
        y <-- x_power5_with_constant x constant ;;
        ys <-- sbox_full s constants ;;
        cret A (y :: ys)
    | s, _ => cret A s
    end.
  (** poseidon.rs:33-43 *)
  Definition sbox_part (s : list V) (constant : F) : M (list V) :=
    match s with
    | [] => cfail A
    | x :: s => y <-- x_power5_with_constant x constant ;; cret A (y :: s)
    end.
  (** poseidon.rs:57-65 *)
  Fixpoint absorb_inputs (s : list V) (constants : list F) (inputs : list V) : M (list V) :=
    match s, constants, inputs with
    | x :: s, constant :: constants, input :: inputs =>
        y <-- c_sum_with_constant [x; input] constant ;;
        ys <-- absorb_inputs s constants inputs ;;
        cret A (y :: ys)
    | s, _, _ => cret A s
    end.
  (** poseidon.rs:67-83 *)
  Fixpoint absorb_padding (i : nat) (s : list V) (constants : list F) : M (list V) :=
    match s, constants with
    | x :: s, constant :: constants =>
        y <-- c_sum_with_constant [x] (if (i =? 0)%nat then fadd constant f1 else constant) ;;
        ys <-- absorb_padding (S i) s constants ;;
        cret A (y :: ys)
    | s, _ => cret A s
    end.
  (** poseidon.rs:45-86; [iter_mut().skip(k)] splits the state. *)
  Definition absorb_with_pre_constants (s : list V) (inputs : list V) (pre_constants : list F) : M (list V) :=
    if (length inputs <? T)%nat then
      let offset := (length inputs + 1)%nat in
      match s, pre_constants with
      | x :: s, constant :: constants =>
          y <-- c_sum_with_constant [x] constant ;;
          ys <-- absorb_inputs s constants inputs ;;
          zs <-- absorb_padding 0 (skipn offset (y :: ys)) (skipn offset pre_constants) ;;
          cret A (firstn offset (y :: ys) ++ zs)
      | _, _ => cfail A
      end
    else cfail A.
  (** poseidon.rs:88-111; the [try_into] at line 108 cannot fail: there are T rows. *)
  Definition apply_mds (s : list V) (mds : list (list F)) : M (list V) :=
    cmap (fun row => c_sum A (combine s row) f0) mds.
  (** poseidon.rs:113-141 *)
  Definition apply_sparse_mds (s : list V) (mds : list F * list F) : M (list V) :=
    match s with
    | [] => cfail A
    | s0 :: rest =>
        r0 <-- c_sum A (combine s (fst mds)) f0 ;;
        rs <-- cmap (fun '(e, x) => c_sum A [(s0, e); (x, f1)] f0) (combine (snd mds) rest) ;;
        let res := r0 :: rs in
        cret A (res ++ skipn (length res) s)
    end.

  (** poseidon.rs:193-230 *)
  Definition permutation (s : list V) (inputs : list V) : M (list V) :=
    let r_f := (sp_r_f sp / 2)%nat in
    match sp_start sp, r_f with
    | c0 :: cs, S r_f1 =>
        s <-- absorb_with_pre_constants s inputs c0 ;;
        s <-- cfold (fun s c => s <-- sbox_full s c ;; apply_mds s (sp_mds sp)) (firstn r_f1 cs) s ;;
        s <-- sbox_full s (last (sp_start sp) []) ;;
        s <-- apply_mds s (sp_pre_sparse_mds sp) ;;
        s <-- cfold (fun s '(c, m) => s <-- sbox_part s c ;; apply_sparse_mds s m) (combine (sp_partial sp) (sp_sparse sp)) s ;;
        s <-- cfold (fun s c => s <-- sbox_full s c ;; apply_mds s (sp_mds sp)) (sp_end sp) s ;;
        s <-- sbox_full s (repeat f0 T) ;;
        apply_mds s (sp_mds sp)
    | _, _ => cfail A
    end.

  (** poseidon.rs:144-148; the specification is the section variable. *)
  Record pstate := mkP { ps_s : list V; ps_absorbing : list V }.
  (** poseidon.rs:151-165; [State::default()] is 2^64 followed by zeros in the external
      crate; [init] is arbitrary here. *)
  Definition poseidon_new (init : list F) : M pstate :=
    s <-- cmap (c_const A) init ;; cret A (mkP s []).
  (** poseidon.rs:167-169 *)
  Definition update (p : pstate) (elements : list V) : pstate := mkP (ps_s p) (ps_absorbing p ++ elements).
  (** poseidon.rs:171-191 *)
  Definition squeeze (p : pstate) : M (V * pstate) :=
    r <-- cfold (fun '(_, s) chunk =>
                  let padding_offset := (RATE - length chunk)%nat in
                  s <-- permutation s chunk ;; cret A (padding_offset, s))
               (chunks RATE (ps_absorbing p)) (0%nat, ps_s p) ;;
    let '(padding_offset, s) := r in
    s <-- (if (padding_offset =? 0)%nat then permutation s [] else cret A s) ;;
    match nth_error s 1 with
    | Some v => cret A (v, mkP s [])
    | None => cfail A
    end.

  (** A sequence of calls: the challenges, in order, and the final state. *)
  Inductive pcall := Update (elements : list V) | Squeeze.
  Fixpoint run_calls (cs : list pcall) (p : pstate) : M (list V * pstate) :=
    match cs with
    | [] => cret A ([], p)
    | Update l :: cs => run_calls cs (update p l)
    | Squeeze :: cs =>
        r <-- squeeze p ;;
        let '(v, p) := r in
        rs <-- run_calls cs p ;;
        let '(vs, p) := rs in
        cret A (v :: vs, p)
    end.
End Poseidon.
Arguments mkP {F A} _ _. Arguments ps_s {F A} _. Arguments ps_absorbing {F A} _.
Arguments Update {F A} _. Arguments Squeeze {F A}.

(** mock/arith/field.rs: a value is a field element, there is no circuit. *)
Definition mock_chip (F : Fld) : fchip F := {|
  cM := option; cV := F;
  cret := fun X x => Some x;
  cbind := fun X Y m k => match m with Some x => k x | None => None end;
  cfail := fun X => None;
  c_const := fun c => Some c;
  c_mul := fun a b => Some (fmul a b);
  c_mul_add_constant := fun a b c => Some (fadd (fmul a b) c);
  c_sum := fun l b => Some (fold_left (fun acc '(x, k) => fadd acc (fmul x k)) l b)
|}.

(** halo2-snark-aggregator-circuit/src/chips/scalar_chip.rs:18-127: the chip of the
    native field inside the circuit, on the five-column base gate. *)
Definition circuit_chip (N : PF) : fchip N := {|
  cM := B N; cV := aval N;
  cret := fun X x => ret x;
  cbind := fun X Y m k => bind m k;
  cfail := fun X => panic;
  c_const := fun c => assign_constant c;
  c_mul := fun a b => mul a b;
  c_mul_add_constant := fun a b c => mul_add_constant a b c;
  c_sum := fun l b => sum_with_constant l b
|}.
