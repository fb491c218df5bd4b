(** Client programs of the integer chip: any finite sequence of the operations of
    [IntegerChipOps] (chips/integer_chip.rs:14-105) applied to registers.  This file
    models no code of its own; it only calls the operations of Integer.v.

    A register file is a list of integers and a list of condition cells.  An
    operation appends its results; arguments taken by [&mut] are written back. *)
From Coq Require Import ZArith Arith List Bool.
From Verif Require Import Util Algebra PField Gate Integer.
Import ListNotations.

Inductive iop (W : PF) : Type :=
| IAssign (v : W)
| IConst (v : W)
| IAdd (i j : nat) | ISub (i j : nat) | INeg (i : nat)
| IMul (i j : nat) | ISquare (i : nat) | IDiv (i j : nat)
| IReduce (i : nat) | INative (i : nat)
| IIsZero (i : nat) | IIsEqual (i j : nat) | IAssertEqual (i j : nat)
| IBisec (s i j : nat)
| ILastBit (i : nat)
| IMulSmall (i b : nat).
Arguments IAssign {W} v. Arguments IConst {W} v.
Arguments IAdd {W}. Arguments ISub {W}. Arguments INeg {W}. Arguments IMul {W}. Arguments ISquare {W}.
Arguments IDiv {W}. Arguments IReduce {W}. Arguments INative {W}. Arguments IIsZero {W}. Arguments IIsEqual {W}.
Arguments IAssertEqual {W}. Arguments IBisec {W}. Arguments ILastBit {W}. Arguments IMulSmall {W}.

Fixpoint upd {A} (l : list A) (i : nat) (x : A) : list A :=
  match l, i with
  | [], _ => []
  | _ :: l, O => x :: l
  | y :: l, S i => y :: upd l i x
  end.

Section Run.
  Context {N : PF} (W : PF).
  Local Notation aint := (aint N).
  Local Notation B := (B N).
  Definition regs : Type := list aint * list (aval N).

  Definition run_op (o : iop W) (e : regs) : B regs :=
    let '(is, fs) := e in
    match o with
    | IAssign v => r <- assign_w v ;; ret (is ++ [r], fs)
    | IConst v => r <- int_assign_constant v ;; ret (is ++ [r], fs)
    | IAdd i j => a <- at_ is i ;; b <- at_ is j ;; r <- int_add W a b ;; ret (is ++ [r], fs)
    | ISub i j => a <- at_ is i ;; b <- at_ is j ;; r <- int_sub W a b ;; ret (is ++ [r], fs)
    | INeg i => a <- at_ is i ;; r <- int_neg W a ;; ret (is ++ [r], fs)
    | IMul i j => a <- at_ is i ;; b <- at_ is j ;; r <- int_mul W a b ;;
        let '(p, a', b') := r in ret (upd (upd is i a') j b' ++ [p], fs)
    | ISquare i => a <- at_ is i ;; r <- int_square W a ;; ret (upd is i (snd r) ++ [fst r], fs)
    | IDiv i j => a <- at_ is i ;; b <- at_ is j ;; r <- int_div W a b ;;
        let '(z, q, a', b') := r in ret (upd (upd is i a') j b' ++ [q], fs ++ [z])
    | IReduce i => a <- at_ is i ;; r <- int_reduce W a ;; ret (upd is i r, fs)
    | INative i => a <- at_ is i ;; r <- int_native a ;; ret (upd is i (snd r), fs)
    | IIsZero i => a <- at_ is i ;; r <- int_is_zero W a ;; ret (upd is i (snd r), fs ++ [fst r])
    | IIsEqual i j => a <- at_ is i ;; b <- at_ is j ;; r <- int_is_equal W a b ;; ret (is, fs ++ [r])
    | IAssertEqual i j => a <- at_ is i ;; b <- at_ is j ;; int_assert_equal W a b ;;; ret (is, fs)
    | IBisec s i j => c <- at_ fs s ;; a <- at_ is i ;; b <- at_ is j ;; r <- int_bisec c a b ;; ret (is ++ [r], fs)
    | ILastBit i => a <- at_ is i ;; r <- get_last_bit a ;; ret (is, fs ++ [r])
    | IMulSmall i b => a <- at_ is i ;; r <- mul_small_constant W a b ;; ret (upd is i (snd r) ++ [fst r], fs)
    end.
  Fixpoint run (os : list (iop W)) (e : regs) : B regs :=
    match os with
    | [] => ret e
    | o :: os => e <- run_op o e ;; run os e
    end.
End Run.

(** ** What a history means over the foreign field *)
Section Sem.
  Variable W : PF.
  Definition fstate : Type := list W * list bool.
  (** [fstep o s s']: one operation read as exact field arithmetic.  An assigned
      witness is an arbitrary element; the quotient by zero is arbitrary. *)
  Inductive fstep : iop W -> fstate -> fstate -> Prop :=
  | FAssign v x vs bs : fstep (IAssign v) (vs, bs) (vs ++ [x], bs)
  | FConst v vs bs : fstep (IConst v) (vs, bs) (vs ++ [v], bs)
  | FAdd i j x y vs bs : nth_error vs i = Some x -> nth_error vs j = Some y ->
      fstep (IAdd i j) (vs, bs) (vs ++ [fadd x y], bs)
  | FSub i j x y vs bs : nth_error vs i = Some x -> nth_error vs j = Some y ->
      fstep (ISub i j) (vs, bs) (vs ++ [fsub x y], bs)
  | FNeg i x vs bs : nth_error vs i = Some x -> fstep (INeg i) (vs, bs) (vs ++ [fopp x], bs)
  | FMul i j x y vs bs : nth_error vs i = Some x -> nth_error vs j = Some y ->
      fstep (IMul i j) (vs, bs) (vs ++ [fmul x y], bs)
  | FSquare i x vs bs : nth_error vs i = Some x -> fstep (ISquare i) (vs, bs) (vs ++ [fmul x x], bs)
  | FDiv i j x y q (z : bool) vs bs : nth_error vs i = Some x -> nth_error vs j = Some y ->
      (z = true <-> y = f0) -> (y <> f0 -> fmul q y = x) ->
      fstep (IDiv i j) (vs, bs) (vs ++ [q], bs ++ [z])
  | FReduce i x vs bs : nth_error vs i = Some x -> fstep (IReduce i) (vs, bs) (vs, bs)
  | FNative i x vs bs : nth_error vs i = Some x -> fstep (INative i) (vs, bs) (vs, bs)
  | FIsZero i x (z : bool) vs bs : nth_error vs i = Some x -> (z = true <-> x = f0) ->
      fstep (IIsZero i) (vs, bs) (vs, bs ++ [z])
  | FIsEqual i j x y (z : bool) vs bs : nth_error vs i = Some x -> nth_error vs j = Some y -> (z = true <-> x = y) ->
      fstep (IIsEqual i j) (vs, bs) (vs, bs ++ [z])
  | FAssertEqual i j x vs bs : nth_error vs i = Some x -> nth_error vs j = Some x ->
      fstep (IAssertEqual i j) (vs, bs) (vs, bs)
  | FBisec s i j (z : bool) x y vs bs : nth_error bs s = Some z -> nth_error vs i = Some x -> nth_error vs j = Some y ->
      fstep (IBisec s i j) (vs, bs) (vs ++ [if z then x else y], bs)
  | FLastBit i (z : bool) x vs bs : nth_error vs i = Some x -> fstep (ILastBit i) (vs, bs) (vs, bs ++ [z])
  | FMulSmall i b x vs bs : nth_error vs i = Some x ->
      fstep (IMulSmall i b) (vs, bs) (vs ++ [fmul (ofZ (Z.of_nat b)) x], bs).
  Inductive fsteps : list (iop W) -> fstate -> fstate -> Prop :=
  | FNil s : fsteps [] s s
  | FCons o os s s' s'' : fstep o s s' -> fsteps os s' s'' -> fsteps (o :: os) s s''.
End Sem.
Arguments fstep {W}. Arguments fsteps {W}.

(** The factor of every [mul_small_constant] call is 0 or 1. *)
Definition small_ok {W : PF} (o : iop W) : Prop := match o with IMulSmall _ b => (b <= 1)%nat | _ => True end.

(** ** The honest run: values, recorded overflow counts, flags *)
Section Honest.
  Variable W : PF.
  Local Open Scope nat_scope.
  Definition hstate : Type := list (W * nat) * list bool.
  Definition feqb (x y : W) : bool := if feq_dec x y then true else false.
  (** The count recorded for a sum: at 32 and above the chip reduces at once. *)
  Definition keep (ov : nat) : nat := if 32 <=? ov then 0 else ov.
  Definition get1 (vs : list (W * nat)) i (k : W -> nat -> option hstate) : option hstate :=
    match nth_error vs i with Some (x, o) => k x o | None => None end.
  (** [None] when the call is outside the proved envelope: a missing register, a
      difference of two operands with 31 recorded overflows each, asserting
      equality of different elements, the parity of an unreduced integer, or
      [mul_small_constant] by 2 or more. *)
  Definition hstep (o : iop W) (s : hstate) : option hstate :=
    let '(vs, bs) := s in
    match o with
    | IAssign v | IConst v => Some (vs ++ [(v, 0)], bs)
    | IAdd i j => get1 vs i (fun x ox => get1 vs j (fun y oy => Some (vs ++ [(fadd x y, keep (ox + oy + 1))], bs)))
    | ISub i j => get1 vs i (fun x ox => get1 vs j (fun y oy =>
        if ox + oy <? 62 then Some (vs ++ [(fsub x y, keep (ox + oy + 2))], bs) else None))
    | INeg i => get1 vs i (fun x ox => Some (vs ++ [(fopp x, keep (ox + 1))], bs))
    | IMul i j => get1 vs i (fun x ox => get1 vs j (fun y oy => Some (vs ++ [(fmul x y, 0)], bs)))
    | ISquare i => get1 vs i (fun x ox => Some (vs ++ [(fmul x x, 0)], bs))
    | IDiv i j => get1 vs i (fun x ox => get1 vs j (fun y oy =>
        Some (upd (upd vs i (x, 0)) j (y, 0) ++ [(if feq_dec y f0 then f0 else fmul x (finv y), 0)], bs ++ [feqb y f0])))
    | IReduce i => get1 vs i (fun x ox => Some (upd vs i (x, 0), bs))
    | INative i => get1 vs i (fun x ox => Some (vs, bs))
    | IIsZero i => get1 vs i (fun x ox => Some (upd vs i (x, 0), bs ++ [feqb x f0]))
    | IIsEqual i j => get1 vs i (fun x ox => get1 vs j (fun y oy =>
        if ox + oy <? 62 then Some (vs, bs ++ [feqb x y]) else None))
    | IAssertEqual i j => get1 vs i (fun x ox => get1 vs j (fun y oy =>
        if (ox + oy <? 62) && feqb x y then Some (vs, bs) else None))
    | IBisec k i j => match nth_error bs k with
        | Some z => get1 vs i (fun x ox => get1 vs j (fun y oy => Some (vs ++ [(if z then x else y, Nat.max ox oy)], bs)))
        | None => None end
    | ILastBit i => get1 vs i (fun x ox => if ox =? 0 then Some (vs, bs ++ [Z.odd (toZ x)]) else None)
    | IMulSmall i b => get1 vs i (fun x ox =>
        if b <=? 1 then Some (vs ++ [(fmul (ofZ (Z.of_nat b)) x, ox * b)], bs) else None)
    end.
  Fixpoint hsteps (os : list (iop W)) (s : hstate) : option hstate :=
    match os with
    | [] => Some s
    | o :: os => match hstep o s with Some s => hsteps os s | None => None end
    end.
End Honest.
Arguments hstep {W}. Arguments hsteps {W}.
