(** The calls that halo2-snark-aggregator-api makes to its chips and transcripts, as data.

    The verifier of the API crate is generic over a scalar chip, a point chip and a
    transcript reader (arith/{common,field,ecc}.rs, transcript/read.rs).  It never branches
    on an assigned value, so one run is determined by a list of calls whose arguments are
    the results of earlier calls.  This file defines such lists, the monad in which
    VerifierCalls.v generates them, and what a list yields with the chips of
    mock/arith/{field,ecc}.rs and a transcript given by the variables of BuildParams.v. *)
From Coq Require Import ZArith Arith List Bool.
From Verif Require Import Util Algebra Schema Plonk BuildParams.
Import ListNotations.

Section Call.
  Variable F : Fld.
  Variable M : Mod F.

  (** One call.  [nat] arguments are positions in the list of the results so far; [t] is
      the number of the transcript.  All calls but [common_point] and [common_scalar]
      append one result.  [assign_zero]/[assign_one] of the scalar chips are
      [assign_const] of 0 and 1 (mock/arith/field.rs:57-63,
      halo2-snark-aggregator-circuit/src/chips/scalar_chip.rs:42-48,
      halo2-snark-aggregator-solidity/src/chips/scalar_chip.rs:93-99). *)
  Inductive call :=
  | CConst (c : F)                               (** [assign_const] of the scalar chip *)
  | CAdd (i j : nat) | CSub (i j : nat) | CMul (i j : nat) | CDiv (i j : nat) | CSquare (i : nat)
  | CSum (l : list (nat * F)) (c : F)            (** [sum_with_coeff_and_constant] *)
  | CPConst (P : M)                              (** [assign_const] of the point chip *)
  | CPOne                                        (** [assign_one] of the point chip *)
  | CPAdd (i j : nat) | CPSub (i j : nat)
  | CPMul (i j : nat)                            (** [scalar_mul], scalar first *)
  | CPMulConst (i : nat) (P : M)                 (** [scalar_mul_constant] *)
  | CMultiExp (ps ss : list nat)                 (** [multi_exp] *)
  | CNormalize (i : nat)
  | CInstance                                    (** [assign_var] of the next instance value *)
  | CReadPoint (t : nat) | CReadScalar (t : nat)
  | CCommonPoint (t i : nat) | CCommonScalar (t i : nat) | CSqueeze (t : nat).

  (** Generation: the number of results so far; the calls made; panics are [None]. *)
  Definition Q (A : Type) := nat -> option (A * list call * nat).
  Definition qret {A} (a : A) : Q A := fun n => Some (a, [], n).
  Definition qfail {A} : Q A := fun _ => None.
  Definition qbind {A B} (m : Q A) (k : A -> Q B) : Q B := fun n =>
    match m n with
    | Some (a, cs, n') => match k a n' with Some (b, cs', n'') => Some (b, cs ++ cs', n'') | None => None end
    | None => None
    end.
  Definition qlift {A} (o : option A) : Q A := match o with Some a => qret a | None => qfail end.
  Definition emit (c : call) : Q nat := fun n => Some (n, [c], S n).
  Definition emit_ (c : call) : Q unit := fun n => Some (tt, [c], n).
  (** loops *)
  Fixpoint qmap {A B} (f : A -> Q B) (l : list A) : Q (list B) :=
    match l with
    | [] => qret []
    | a :: l => qbind (f a) (fun b => qbind (qmap f l) (fun r => qret (b :: r)))
    end.
  Fixpoint qfold {A B} (f : B -> A -> Q B) (l : list A) (b : B) : Q B :=
    match l with
    | [] => qret b
    | a :: l => qbind (f b a) (fun b => qfold f l b)
    end.
  Definition qtimes {B} (n : nat) (m : Q B) : Q (list B) := qmap (fun _ => m) (repeat tt n).

  (** *** Native semantics *)
  Variables (PT SC : nat).
  Variable pt_decode : list Z -> option M.
  Variable sc_decode : list Z -> option F.
  Variable St : Type.
  Variable upd_pt : St -> M -> St.
  Variable upd_sc : St -> F -> St.
  Variable sqz : St -> option (F * St).
  Variable generator : M.                        (** what [assign_one] of the point chip yields *)

  Inductive cval := VS (s : F) | VP (P : M).
  (** results, instance values left, transcripts *)
  Record cst := mkC { c_vals : list cval; c_inst : list F; c_trs : list (tr St) }.
  Definition val_s (s : cst) (i : nat) : option F := match nth_error (c_vals s) i with Some (VS x) => Some x | _ => None end.
  Definition val_p (s : cst) (i : nat) : option M := match nth_error (c_vals s) i with Some (VP P) => Some P | _ => None end.
  Definition push (v : cval) (s : cst) : option cst := Some (mkC (c_vals s ++ [v]) (c_inst s) (c_trs s)).
  (** run a reader on transcript [t] *)
  Definition set_nth {A} (l : list A) (i : nat) (a : A) : list A := firstn i l ++ a :: skipn (S i) l.
  Definition on_tr {A} (t : nat) (m : R St A) (s : cst) : option (A * cst) :=
    match nth_error (c_trs s) t with
    | Some x => match m x with Some (a, x') => Some (a, mkC (c_vals s) (c_inst s) (set_nth (c_trs s) t x')) | None => None end
    | None => None
    end.
  Definition run_call (c : call) (s : cst) : option cst :=
    match c with
    | CConst c => push (VS c) s
    | CAdd i j => do x <- val_s s i; do y <- val_s s j; push (VS (fadd x y)) s
    | CSub i j => do x <- val_s s i; do y <- val_s s j; push (VS (fsub x y)) s
    | CMul i j => do x <- val_s s i; do y <- val_s s j; push (VS (fmul x y)) s
    | CDiv i j => do x <- val_s s i; do y <- val_s s j; do z <- chip_div x y; push (VS z) s
    | CSquare i => do x <- val_s s i; push (VS (fmul x x)) s
    | CSum l c => do xs <- mapM (fun ic => do x <- val_s s (fst ic); Some (x, snd ic)) l; push (VS (sum_with_coeff_and_constant xs c)) s
    | CPConst P => push (VP P) s
    | CPOne => push (VP generator) s
    | CPAdd i j => do x <- val_p s i; do y <- val_p s j; push (VP (madd x y)) s
    | CPSub i j => do x <- val_p s i; do y <- val_p s j; push (VP (msub x y)) s
    | CPMul i j => do x <- val_s s i; do y <- val_p s j; push (VP (smul x y)) s
    | CPMulConst i P => do x <- val_s s i; push (VP (smul x P)) s
    | CMultiExp ps ss => do ps <- mapM (val_p s) ps; do ss <- mapM (val_s s) ss; do P <- multi_exp ps ss; push (VP P) s
    | CNormalize i => do x <- val_p s i; push (VP x) s
    | CInstance => match c_inst s with [] => None | x :: l => Some (mkC (c_vals s ++ [VS x]) l (c_trs s)) end
    | CReadPoint t => do (P, s) <- on_tr t (read_point F M PT pt_decode St upd_pt) s; push (VP P) s
    | CReadScalar t => do (x, s) <- on_tr t (read_scalar F SC sc_decode St upd_sc) s; push (VS x) s
    | CCommonPoint t i => do P <- val_p s i; do (_, s) <- on_tr t (common_point F M St upd_pt P) s; Some s
    | CCommonScalar t i => do x <- val_s s i; do (_, s) <- on_tr t (common_scalar F St upd_sc x) s; Some s
    | CSqueeze t => do (x, s) <- on_tr t (squeeze_scalar F St sqz) s; push (VS x) s
    end.
  Fixpoint run_calls (cs : list call) (s : cst) : option cst :=
    match cs with [] => Some s | c :: cs => do s <- run_call c s; run_calls cs s end.
End Call.
Arguments CConst {F M} _. Arguments CAdd {F M} _ _. Arguments CSub {F M} _ _. Arguments CMul {F M} _ _. Arguments CDiv {F M} _ _.
Arguments CSquare {F M} _. Arguments CSum {F M} _ _. Arguments CPConst {F M} _. Arguments CPOne {F M}. Arguments CPAdd {F M} _ _.
Arguments CPSub {F M} _ _. Arguments CPMul {F M} _ _. Arguments CPMulConst {F M} _ _. Arguments CMultiExp {F M} _ _. Arguments CNormalize {F M} _.
Arguments CInstance {F M}. Arguments CReadPoint {F M} _. Arguments CReadScalar {F M} _. Arguments CCommonPoint {F M} _ _.
Arguments CCommonScalar {F M} _ _. Arguments CSqueeze {F M} _.
Arguments qret {F M A} _ _. Arguments qfail {F M A} _. Arguments qbind {F M A B} _ _ _. Arguments qlift {F M A} _.
Arguments emit {F M} _ _. Arguments emit_ {F M} _ _. Arguments qmap {F M A B} _ _ _. Arguments qfold {F M A B} _ _ _ _. Arguments qtimes {F M B} _ _ _.
Arguments VS {F M} _. Arguments VP {F M} _. Arguments mkC {F M St} _ _ _. Arguments c_vals {F M St} _. Arguments c_inst {F M St} _. Arguments c_trs {F M St} _.
Arguments val_s {F M St} _ _. Arguments val_p {F M St} _ _. Arguments push {F M St} _ _. Arguments on_tr {F M St A} _ _ _.
