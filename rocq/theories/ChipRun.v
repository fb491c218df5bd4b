(** The calls a verifier makes to its chips and its transcript, and what they yield
    without any circuit or code generation (mock/arith/{field,ecc}.rs and
    transcript/sha.rs of halo2-snark-aggregator-api). *)
From Coq Require Import ZArith NArith List Bool.
From Verif Require Import Util Algebra PField Curve Bytes.
From Verif Require ShaTranscript.
Import ListNotations.

Section Run.
  Variables S W : PF.
  Variable b : W.
  (** external: the digest of the transcript; whether the identity has coordinates *)
  Variable H : list Z -> list Z.
  Variable ident_ok : bool.

  (** A call; the numbers are positions in the list of the results so far.
      arith/common.rs, arith/field.rs, arith/ecc.rs, transcript/read.rs.  The remaining
      methods of these traits are sequences of these calls. *)
  Inductive op :=
  | OConst (c : S)                          (** [assign_const] of a scalar *)
  | OAdd (i j : nat) | OSub (i j : nat) | OMul (i j : nat) | ODiv (i j : nat) | OSquare (i : nat)
  | OSum (l : list (nat * S)) (c : S)       (** [sum_with_coeff_and_constant] *)
  | OPConst (P : point W)                   (** [assign_const] of a point *)
  | OPAdd (i j : nat) | OPSub (i j : nat)
  | OPMul (i j : nat)                       (** [scalar_mul] *)
  | OPMulConst (i : nat) (P : point W)      (** [scalar_mul_constant] *)
  | OInstance                               (** [assign_var] of the next public input *)
  | OReadPoint | OReadScalar | OCommonPoint (i : nat) | OCommonScalar (i : nat) | OSqueeze.

  Inductive nval := NS (s : S) | NP (P : point W).
  Definition n_s (l : list nval) (i : nat) : option S := match nth_error l i with Some (NS s) => Some s | _ => None end.
  Definition n_p (l : list nval) (i : nat) : option (point W) := match nth_error l i with Some (NP P) => Some P | _ => None end.
  (** results, public inputs left, bytes hashed so far, bytes of the proof left *)
  Record nst := mkN { n_vals : list nval; n_inst : list S; n_st : list Z; n_rest : list Z }.
  Definition n_ret (v : nval) (s : nst) : option nst := Some (mkN (n_vals s ++ [v]) (n_inst s) (n_st s) (n_rest s)).
  Fixpoint n_sum (r : list nval) (l : list (nat * S)) (acc : S) : option S :=
    match l with
    | [] => Some acc
    | (i, c) :: l => do x <- n_s r i; n_sum r l (fadd acc (fmul x c))
    end.
  Definition native_op (o : op) (s : nst) : option nst :=
    let r := n_vals s in
    match o with
    | OConst c => n_ret (NS c) s
    | OAdd i j => do x <- n_s r i; do y <- n_s r j; n_ret (NS (fadd x y)) s
    | OSub i j => do x <- n_s r i; do y <- n_s r j; n_ret (NS (fsub x y)) s
    | OMul i j => do x <- n_s r i; do y <- n_s r j; n_ret (NS (fmul x y)) s
    | ODiv i j => do x <- n_s r i; do y <- n_s r j; if feq_dec y f0 then None else n_ret (NS (fmul x (finv y))) s
    | OSquare i => do x <- n_s r i; n_ret (NS (fmul x x)) s
    | OSum l c => do x <- n_sum r l c; n_ret (NS x) s
    | OPConst P => n_ret (NP P) s
    | OPAdd i j => do P <- n_p r i; do Q <- n_p r j; n_ret (NP (padd P Q)) s
    | OPSub i j => do P <- n_p r i; do Q <- n_p r j; n_ret (NP (padd P (pneg Q))) s
    | OPMul i j => do x <- n_s r i; do P <- n_p r j; n_ret (NP (smul (Z.to_N (toZ x)) P)) s
    | OPMulConst i P => do x <- n_s r i; n_ret (NP (smul (Z.to_N (toZ x)) P)) s
    | OInstance => match n_inst s with [] => None | x :: l => Some (mkN (r ++ [NS x]) l (n_st s) (n_rest s)) end
    | OReadPoint => do (P, st, rest) <- ShaTranscript.read_point b ident_ok (n_st s) (n_rest s); Some (mkN (r ++ [NP P]) (n_inst s) st rest)
    | OReadScalar => do (x, st, rest) <- @ShaTranscript.read_scalar S (n_st s) (n_rest s); Some (mkN (r ++ [NS x]) (n_inst s) st rest)
    | OCommonPoint i => do P <- n_p r i; do st <- ShaTranscript.common_point ident_ok (n_st s) P; Some (mkN r (n_inst s) st (n_rest s))
    | OCommonScalar i => do x <- n_s r i; Some (mkN r (n_inst s) (ShaTranscript.common_scalar (n_st s) x) (n_rest s))
    | OSqueeze => let '(c, st) := @ShaTranscript.squeeze_challenge S H (n_st s) in Some (mkN (r ++ [NS c]) (n_inst s) st (n_rest s))
    end.
  Fixpoint native_run (l : list op) (s : nst) : option nst :=
    match l with [] => Some s | o :: l => do s <- native_op o s; native_run l s end.
  Definition native (l : list op) (proof : list Z) (instances : list S) : option nst := native_run l (mkN [] instances [] proof).

  (** No call subtracts the identity. *)
  Definition fine_op (o : op) (s : nst) : Prop := match o with OPSub _ j => n_p (n_vals s) j <> Some Inf | _ => True end.
  Fixpoint fine_run (l : list op) (s : nst) : Prop :=
    match l with [] => True | o :: l => fine_op o s /\ (forall s', native_op o s = Some s' -> fine_run l s') end.
  Definition fine (l : list op) (proof : list Z) (instances : list S) : Prop := fine_run l (mkN [] instances [] proof).
  (** The points that are constants of the verifier lie on the curve. *)
  Definition const_on (o : op) : Prop := match o with OPConst P | OPMulConst _ P => on_curve b P | _ => True end.
End Run.
Arguments OConst {S W} _. Arguments OAdd {S W} _ _. Arguments OSub {S W} _ _. Arguments OMul {S W} _ _. Arguments ODiv {S W} _ _.
Arguments OSquare {S W} _. Arguments OSum {S W} _ _. Arguments OPConst {S W} _. Arguments OPAdd {S W} _ _. Arguments OPSub {S W} _ _.
Arguments OPMul {S W} _ _. Arguments OPMulConst {S W} _ _. Arguments OInstance {S W}. Arguments OReadPoint {S W}. Arguments OReadScalar {S W}.
Arguments OCommonPoint {S W} _. Arguments OCommonScalar {S W} _. Arguments OSqueeze {S W}.
Arguments NS {S W} _. Arguments NP {S W} _. Arguments n_s {S W} _ _. Arguments n_p {S W} _ _. Arguments n_sum {S W} _ _ _.
Arguments mkN {S W} _ _ _ _. Arguments n_vals {S W} _. Arguments n_inst {S W} _. Arguments n_st {S W} _. Arguments n_rest {S W} _. Arguments n_ret {S W} _ _.
Arguments native_op {S W} _ _ _ _ _. Arguments native_run {S W} _ _ _ _ _. Arguments native {S W} _ _ _ _ _ _.
Arguments fine_op {S W} _ _. Arguments fine_run {S W} _ _ _ _ _. Arguments fine {S W} _ _ _ _ _ _. Arguments const_on {S W} _ _.
