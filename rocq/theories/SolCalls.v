(** The verifier as the code generator runs it: halo2-snark-aggregator-solidity/src/lib.rs:196-258
    makes the calls of [verify_single_proof_in_chip] (verify.rs:778-831) to the Solidity
    chips.  Two methods are no calls of their own there: [multi_exp] is the default of
    arith/ecc.rs:42-60, and [normalize] returns its argument (chips/ecc_chip.rs:159-165). *)
From Coq Require Import String ZArith NArith List Bool.
From Verif Require Import Util Algebra PField Curve Bytes Schema Plonk BuildParams Calls VerifierCalls ChipRun.
From Verif Require ShaTranscript.
Import ListNotations.

Section Translate.
  Variables S W : PF.
  Variable M : Mod S.
  (** the affine point *)
  Variable pt : M -> point W.
  Variable generator : M.

  (** Result number [i] of a call is result number [nth i ren] of the operations; [n] is
      the number of results of the operations. *)
  Definition tstate := (list nat * nat)%type.
  Definition one_op (o : op S W) (st : tstate) : option (list (op S W) * tstate) :=
    Some ([o], (fst st ++ [snd st], Datatypes.S (snd st))).
  (** arith/ecc.rs:42-60: [acc] is the accumulated sum *)
  Fixpoint multi_ops (l : list (nat * nat)) (acc : option nat) (n : nat) : option (list (op S W) * nat * nat) :=
    match l with
    | [] => match acc with Some a => Some ([], a, n) | None => None end
    | (p, s) :: l =>
        match acc with
        | None => do (os, r, n') <- multi_ops l (Some n) (n + 1); Some (OPMul s p :: os, r, n')
        | Some a => do (os, r, n') <- multi_ops l (Some (n + 1)) (n + 2); Some (OPMul s p :: OPAdd a n :: os, r, n')
        end
    end.
  Definition tr_call (c : call S M) (st : tstate) : option (list (op S W) * tstate) :=
    let at_ i := nth_error (fst st) i in
    match c with
    | CConst c => one_op (OConst c) st
    | CAdd i j => do i <- at_ i; do j <- at_ j; one_op (OAdd i j) st
    | CSub i j => do i <- at_ i; do j <- at_ j; one_op (OSub i j) st
    | CMul i j => do i <- at_ i; do j <- at_ j; one_op (OMul i j) st
    | CDiv i j => do i <- at_ i; do j <- at_ j; one_op (ODiv i j) st
    | CSquare i => do i <- at_ i; one_op (OSquare i) st
    | CSum l c => do l <- mapM (fun ic => do i <- at_ (fst ic); Some (i, snd ic)) l; one_op (OSum l c) st
    | CPConst P => one_op (OPConst (pt P)) st
    | CPOne => one_op (OPConst (pt generator)) st
    | CPAdd i j => do i <- at_ i; do j <- at_ j; one_op (OPAdd i j) st
    | CPSub i j => do i <- at_ i; do j <- at_ j; one_op (OPSub i j) st
    | CPMul i j => do i <- at_ i; do j <- at_ j; one_op (OPMul i j) st
    | CPMulConst i P => do i <- at_ i; one_op (OPMulConst i (pt P)) st
    | CMultiExp ps ss =>
        do ps <- mapM at_ ps; do ss <- mapM at_ ss;
        do (os, r, n) <- multi_ops (combine ps ss) None (snd st);
        Some (os, (fst st ++ [r], n))
    | CNormalize i => do i <- at_ i; Some ([], (fst st ++ [i], snd st))
    | CInstance => one_op OInstance st
    | CReadPoint 0 => one_op OReadPoint st
    | CReadScalar 0 => one_op OReadScalar st
    | CCommonPoint 0 i => do i <- at_ i; Some ([OCommonPoint i], st)
    | CCommonScalar 0 i => do i <- at_ i; Some ([OCommonScalar i], st)
    | CSqueeze 0 => one_op OSqueeze st
    | _ => None                               (** there is one transcript *)
    end.
  Fixpoint tr_calls (l : list (call S M)) (st : tstate) : option (list (op S W) * tstate) :=
    match l with
    | [] => Some ([], st)
    | c :: l => do (os, st) <- tr_call c st; do (os', st) <- tr_calls l st; Some (os ++ os', st)
    end.

  (** lib.rs:196-258: the operations and the positions of [left] and [right]; [nw] is the
      number of opening points of the sample proof, [shape] the lengths of the sample's
      instance columns. *)
  Definition verifier_ops (vk : vkey S M) (nw num_instance_columns : nat) (g_lagrange : list M) (shape : list (list nat))
    : option (list (op S W) * nat * nat) :=
    do (r, calls, _) <- c_verify_single_proof_in_chip S M 0 vk nw num_instance_columns g_lagrange shape 0;
    do (ops, (ren, _)) <- tr_calls calls ([], 0);
    do ix <- nth_error ren (fst (fst (fst r)));
    do ig <- nth_error ren (snd (fst (fst r)));
    Some (ops, ix, ig).
End Translate.

(** ** The transcript of transcript/sha.rs as an instance of the reader's transcript *)
Section ShaReader.
  Variables S W : PF.
  Variable b : W.
  Variable H : list Z -> list Z.
  Variable ident_ok : bool.
  Variable M : Mod S.
  Variable pt : M -> point W.
  Variable lift : point W -> option M.           (** [None] for points off the curve *)
  (** sha.rs:43-61: 32 bytes of each coordinate *)
  Definition sha_pt (l : list Z) : option M :=
    do x <- ShaTranscript.from_repr (F := W) (firstn 32 l);
    do y <- ShaTranscript.from_repr (F := W) (skipn 32 l);
    do P <- ShaTranscript.from_xy b ident_ok x y;
    lift P.
  Definition sha_sc (l : list Z) : option S := ShaTranscript.from_repr (F := S) l.
  (** [None]: a point without coordinates was absorbed.  sha.rs:94-112 returns an error
      then, which verify.rs:74-92 drops; here the next challenge fails. *)
  Definition sha_state := option (list Z).
  Definition sha_upd_pt (st : sha_state) (P : M) : sha_state := do st <- st; ShaTranscript.common_point ident_ok st (pt P).
  Definition sha_upd_sc (st : sha_state) (s : S) : sha_state := do st <- st; Some (ShaTranscript.common_scalar st s).
  Definition sha_sqz (st : sha_state) : option (S * sha_state) :=
    do st <- st; let '(c, st) := ShaTranscript.squeeze_challenge (S := S) H st in Some (c, Some st).
End ShaReader.
