(** Model of halo2-snark-aggregator-api/src/transcript/sha.rs: the transcript whose
    challenges are hashes of the byte string absorbed so far. *)
From Coq Require Import ZArith List Bool.
From Verif Require Import Util Algebra PField Curve Bytes.
Import ListNotations.
Local Open Scope Z_scope.

Section Sha.
  (** scalar field, coordinate field, constant of the curve equation *)
  Variables S W : PF.
  Variable b : W.
  (** external: the digest [D] (sha2::Sha256 in verify_circuit.rs:985, 1045,
      sha3::Keccak256 in transcript/codegen.rs:34) of everything passed to [update] *)
  Variable H : list Z -> list Z.
  (** external (halo2curves): whether the identity has the coordinates (0, 0) or none *)
  Variable ident_ok : bool.

  (** [PrimeField::to_repr], [from_repr] (external): 32 bytes, little-endian, canonical. *)
  Definition to_repr {F : PF} (x : F) : list Z := le 32 (toZ x).
  Definition from_repr {F : PF} (l : list Z) : option F :=
    if leval l <? pf_n F then Some (ofZ (leval l)) else None.
  Definition on_curve_dec (x y : W) : bool :=
    if feq_dec (fmul y y) (fadd (fmul (fmul x x) x) b) then true else false.
  (** [CurveAffine::coordinates], [from_xy] (external). *)
  Definition coordinates (P : point W) : option (W * W) :=
    match P with Aff x y => Some (x, y) | Inf => if ident_ok then Some (f0, f0) else None end.
  Definition from_xy (x y : W) : option (point W) :=
    if on_curve_dec x y then Some (Aff x y)
    else if ident_ok then (if feq_dec x f0 then if feq_dec y f0 then Some Inf else None else None)
    else None.

  (** sha.rs:14-19 *)
  Definition SHA_PREFIX_CHALLENGE : Z := 0.
  Definition SHA_PREFIX_POINT : Z := 1.
  Definition SHA_PREFIX_SCALAR : Z := 2.

  (** sha.rs:94-112 and 199-217, [common_point] of the reader and of the writer;
      [st]: the bytes passed to the digest so far; [None] is an [Err]. *)
  Definition common_point (st : list Z) (P : point W) : option (list Z) :=
    do (x, y) <- coordinates P;
    Some (st ++ repeat 0 31 ++ [SHA_PREFIX_POINT] ++ rev (to_repr x) ++ rev (to_repr y)).
  (** sha.rs:114-126 and 219-231, [common_scalar] *)
  Definition common_scalar (st : list Z) (s : S) : list Z :=
    st ++ repeat 0 31 ++ [SHA_PREFIX_SCALAR] ++ rev (to_repr s).
  (** sha.rs:81-92 and 186-197, [squeeze_challenge] followed by [get_scalar]; the
      64 bytes are reduced modulo the order ([from_bytes_wide]).  Returns the
      challenge and the new state. *)
  Definition squeeze_challenge (st : list Z) : S * list Z :=
    let result := H (st ++ [SHA_PREFIX_CHALLENGE]) in
    let bytes := result ++ repeat 0 (64 - length result) in
    (ofZ (leval bytes), result).

  (** [Read::read_exact] on the remaining bytes. *)
  Definition read_exact (n : nat) (rest : list Z) : option (list Z * list Z) :=
    if (n <=? length rest)%nat then Some (firstn n rest, skipn n rest) else None.
  (** sha.rs:44-52, [read_base] *)
  Definition read_base (rest : list Z) : option (W * list Z) :=
    do (data, rest) <- read_exact 32 rest;
    do base <- from_repr data;
    Some (base, rest).
  (** sha.rs:43-61, [read_point]; state and remaining bytes *)
  Definition read_point (st rest : list Z) : option (point W * list Z * list Z) :=
    do (x, rest) <- read_base rest;
    do (y, rest) <- read_base rest;
    do point <- from_xy x y;
    do st <- common_point st point;
    Some (point, st, rest).
  (** sha.rs:63-75, [read_scalar] *)
  Definition read_scalar (st rest : list Z) : option (S * list Z * list Z) :=
    do (data, rest) <- read_exact 32 rest;
    do scalar <- from_repr data;
    Some (scalar, common_scalar st scalar, rest).

  (** sha.rs:156-173, [write_point]; state and written bytes *)
  Definition write_point (st out : list Z) (P : point W) : option (list Z * list Z) :=
    do st <- common_point st P;
    let '(x, y) := match coordinates P with Some xy => xy | None => (f0, f0) end in
    Some (st, out ++ to_repr x ++ to_repr y).
  (** sha.rs:175-180, [write_scalar] *)
  Definition write_scalar (st out : list Z) (s : S) : list Z * list Z :=
    (common_scalar st s, out ++ to_repr s).

  (** ** Sequences of transcript operations *)
  (** What the prover does. *)
  Inductive wop := WPoint (P : point W) | WScalar (s : S) | WCommonPoint (P : point W) | WCommonScalar (s : S) | WSqueeze.
  (** What the verifier does. *)
  Inductive rop := RPoint | RScalar | RCommonPoint (P : point W) | RCommonScalar (s : S) | RSqueeze.
  (** What an operation yields. *)
  Inductive val := VPoint (P : point W) | VScalar (s : S) | VChallenge (c : S) | VNone.

  Definition write_op (o : wop) (st out : list Z) : option (val * list Z * list Z) :=
    match o with
    | WPoint P => do (st, out) <- write_point st out P; Some (VPoint P, st, out)
    | WScalar s => let '(st, out) := write_scalar st out s in Some (VScalar s, st, out)
    | WCommonPoint P => do st <- common_point st P; Some (VNone, st, out)
    | WCommonScalar s => Some (VNone, common_scalar st s, out)
    | WSqueeze => let '(c, st) := squeeze_challenge st in Some (VChallenge c, st, out)
    end.
  Fixpoint write_all (os : list wop) (st out : list Z) : option (list val * list Z * list Z) :=
    match os with
    | [] => Some ([], st, out)
    | o :: os =>
        do (v, st, out) <- write_op o st out;
        do (vs, st, out) <- write_all os st out;
        Some (v :: vs, st, out)
    end.
  Definition read_op (o : rop) (st rest : list Z) : option (val * list Z * list Z) :=
    match o with
    | RPoint => do (P, st, rest) <- read_point st rest; Some (VPoint P, st, rest)
    | RScalar => do (s, st, rest) <- read_scalar st rest; Some (VScalar s, st, rest)
    | RCommonPoint P => do st <- common_point st P; Some (VNone, st, rest)
    | RCommonScalar s => Some (VNone, common_scalar st s, rest)
    | RSqueeze => let '(c, st) := squeeze_challenge st in Some (VChallenge c, st, rest)
    end.
  Fixpoint read_all (os : list rop) (st rest : list Z) : option (list val * list Z * list Z) :=
    match os with
    | [] => Some ([], st, rest)
    | o :: os =>
        do (v, st, rest) <- read_op o st rest;
        do (vs, st, rest) <- read_all os st rest;
        Some (v :: vs, st, rest)
    end.
  (** the verifier's counterpart of a prover's sequence *)
  Definition counterpart (o : wop) : rop :=
    match o with
    | WPoint _ => RPoint | WScalar _ => RScalar
    | WCommonPoint P => RCommonPoint P | WCommonScalar s => RCommonScalar s | WSqueeze => RSqueeze
    end.
End Sha.

Arguments to_repr {F} _. Arguments from_repr {F} _.
Arguments coordinates {W} _ _. Arguments from_xy {W} _ _ _ _.
Arguments common_point {W} _ _ _. Arguments common_scalar {S} _ _. Arguments squeeze_challenge {S} _ _.
Arguments read_base {W} _. Arguments read_point {W} _ _ _ _. Arguments read_scalar {S} _ _.
Arguments write_point {W} _ _ _ _. Arguments write_scalar {S} _ _ _.
Arguments WPoint {S W} _. Arguments WScalar {S W} _. Arguments WCommonPoint {S W} _. Arguments WCommonScalar {S W} _. Arguments WSqueeze {S W}.
Arguments RPoint {S W}. Arguments RScalar {S W}. Arguments RCommonPoint {S W} _. Arguments RCommonScalar {S W} _. Arguments RSqueeze {S W}.
Arguments VPoint {S W} _. Arguments VScalar {S W} _. Arguments VChallenge {S W} _. Arguments VNone {S W}.
Arguments write_op {S W} _ _ _ _ _. Arguments write_all {S W} _ _ _ _ _.
Arguments read_op {S W} _ _ _ _ _ _. Arguments read_all {S W} _ _ _ _ _ _.
Arguments counterpart {S W} _.
