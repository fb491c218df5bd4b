(** The verifier inside the circuit: the calls of VerifierCalls.v carried out by the chips of
    halo2-snark-aggregator-circuit/src/chips/{scalar_chip,ecc_chip,encode_chip}.rs, and the
    circuit of verify_circuit.rs around them. *)
From Coq Require Import String ZArith NArith Arith List Bool.
From Verif Require Import Util Algebra PField Gate Integer Curve Ecc Schema Plonk Poseidon BuildParams Calls VerifierCalls VerifierCallsTop VerifyCircuit.
Import ListNotations.

Section CircuitRun.
  Variables N W : PF.
  (** the points of keys and parameters; [to_curve] *)
  Variable M : Mod N.
  Variable affine : M -> point W.
  (** external: [C::from_bytes], [from_repr] and the sizes of the encodings; the constants of
      the sponge (Poseidon.v) and its initial state *)
  Variables (PT SC : nat).
  Variable pt_decode : list Z -> option M.
  Variable sc_decode : list Z -> option N.
  Variable sp : pspec N.
  Variable RATE : nat.
  Variable init : list N.
  (** [C::generator()] *)
  Variable generator : M.
  Local Notation chip := (circuit_chip N).
  Local Notation hash := (pstate N (circuit_chip N)).

  (** The result of a call: a cell or an assigned point. *)
  Inductive xval := XS (a : aval N) | XP (p : apoint N).
  (** results, instance values left, transcripts *)
  Record xst := mkX { x_vals : list xval; x_inst : list N; x_trs : list (tr hash) }.
  (** Not part of the code: the places where the constraints leave something open (the
      points read from proofs, the points absorbed by a transcript, the divisors). *)
  Inductive note := NRead (p : apoint N) | NAbsorb (p : apoint N) | NDiv (b : aval N).

  Definition lift_o {A} (o : option A) : B N A := match o with Some a => ret a | None => panic end.
  Definition x_s (s : xst) (i : nat) : B N (aval N) := match nth_error (x_vals s) i with Some (XS a) => ret a | _ => panic end.
  Definition x_p (s : xst) (i : nat) : B N (apoint N) := match nth_error (x_vals s) i with Some (XP p) => ret p | _ => panic end.
  Definition x_push (v : xval) (s : xst) : xst := mkX (x_vals s ++ [v]) (x_inst s) (x_trs s).
  Definition x_set (t : nat) (x : tr hash) (s : xst) : xst := mkX (x_vals s) (x_inst s) (set_nth (x_trs s) t x).

  (** encode_chip.rs:15-34; works on copies of the coordinates, ignores the identity flag *)
  Definition encode_point (p : apoint N) : B N (list (aval N)) :=
    x <- int_native (pt_x p) ;;
    y <- int_native (pt_y p) ;;
    ret [fst x; fst y].
  (** transcript.rs:152-164 with encode_chip.rs *)
  Definition x_common_point (p : apoint N) (x : tr hash) : B N (tr hash) :=
    e <- encode_point p ;;
    ret (mkTr (t_rest x) (update N chip (t_hash x) e)).
  (** transcript.rs:166-177, encode_chip.rs:36-43: the cell itself *)
  Definition x_common_scalar (a : aval N) (x : tr hash) : tr hash := mkTr (t_rest x) (update N chip (t_hash x) [a]).

  (** One call.  The adapters work on copies of their arguments ([clone]), so caches filled
      by the operation are not written back. *)
  Definition x_call (c : call N M) (s : xst) : B N (xst * list note) :=
    match c with
    | CConst c => r <- assign_constant c ;; ret (x_push (XS r) s, [])                             (* scalar_chip.rs:42-56 *)
    | CAdd i j => a <- x_s s i ;; b <- x_s s j ;; r <- add a b ;; ret (x_push (XS r) s, [])       (* 24-31 *)
    | CSub i j => a <- x_s s i ;; b <- x_s s j ;; r <- sub a b ;; ret (x_push (XS r) s, [])       (* 33-40 *)
    | CMul i j => a <- x_s s i ;; b <- x_s s j ;; r <- mul a b ;; ret (x_push (XS r) s, [])       (* 83-90 *)
    | CDiv i j => a <- x_s s i ;; b <- x_s s j ;; r <- div_unsafe a b ;; ret (x_push (XS r) s, [NDiv b])   (* 92-99 *)
    | CSquare i => a <- x_s s i ;; r <- mul a a ;; ret (x_push (XS r) s, [])                      (* 101-107 *)
    | CSum l c =>                                                                                (* 109-116 *)
        l <- bmap (fun ic => a <- x_s s (fst ic) ;; ret (a, snd ic)) l ;;
        r <- Gate.sum_with_constant l c ;; ret (x_push (XS r) s, [])
    | CPConst P => r <- assign_constant_point (affine P) ;; ret (x_push (XP r) s, [])             (* ecc_chip.rs:62-68 *)
    | CPOne =>                                                                                   (* 57-60: [generator * 1] *)
        r <- assign_constant_point (Curve.smul 1 (affine generator)) ;; ret (x_push (XP r) s, [])
    | CPAdd i j => a <- x_p s i ;; b <- x_p s j ;; r <- ecc_add W a b ;; ret (x_push (XP (fst r)) s, [])   (* 35-42 *)
    | CPSub i j => a <- x_p s i ;; b <- x_p s j ;; r <- ecc_sub W a b ;; ret (x_push (XP (fst r)) s, [])   (* 44-51 *)
    | CPMul i j => a <- x_s s i ;; p <- x_p s j ;; r <- ecc_mul W p a ;; ret (x_push (XP r) s, [])         (* 108-115 *)
    | CPMulConst i P => a <- x_s s i ;; r <- constant_mul (affine P) a ;; ret (x_push (XP r) s, [])        (* 117-124 *)
    | CMultiExp ps ss =>                                                                         (* 126-133 *)
        ps <- bmap (x_p s) ps ;; ss <- bmap (x_s s) ss ;; r <- shamir W ps ss ;; ret (x_push (XP r) s, [])
    | CNormalize i => p <- x_p s i ;; r <- ecc_reduce W p ;; ret (x_push (XP (fst r)) s, [])      (* 88-94 *)
    | Calls.CInstance =>                                                                         (* scalar_chip.rs:58-64 *)
        match x_inst s with
        | [] => panic
        | v :: l => r <- assign v ;; ret (mkX (x_vals s ++ [XS r]) l (x_trs s), [])
        end
    | CReadPoint t =>                                                                            (* transcript.rs:51-71, ecc_chip.rs:70-76 *)
        x <- at_ (x_trs s) t ;;
        v <- lift_o (read_decode hash PT pt_decode x) ;;
        p <- assign_point (affine (fst v)) ;;
        x <- x_common_point p (snd v) ;;
        ret (x_push (XP p) (x_set t x s), [NRead p; NAbsorb p])
    | CReadScalar t =>                                                                           (* transcript.rs:95-114 *)
        x <- at_ (x_trs s) t ;;
        v <- lift_o (read_decode hash SC sc_decode x) ;;
        a <- assign (fst v) ;;
        ret (x_push (XS a) (x_set t (x_common_scalar a (snd v)) s), [])
    | CCommonPoint t i =>
        p <- x_p s i ;;
        x <- at_ (x_trs s) t ;;
        x <- x_common_point p x ;;
        ret (x_set t x s, [NAbsorb p])
    | CCommonScalar t i =>
        a <- x_s s i ;;
        x <- at_ (x_trs s) t ;;
        ret (x_set t (x_common_scalar a x) s, [])
    | CSqueeze t =>                                                                              (* transcript.rs:138-150, encode_chip.rs:45-51 *)
        x <- at_ (x_trs s) t ;;
        r <- squeeze N chip sp (S RATE) RATE (t_hash x) ;;
        ret (x_push (XS (fst r)) (x_set t (mkTr (t_rest x) (snd r)) s), [])
    end.
  Fixpoint x_calls (cs : list (call N M)) (s : xst) : B N (xst * list note) :=
    match cs with
    | [] => ret (s, [])
    | c :: cs => r <- x_call c s ;; r' <- x_calls cs (fst r) ;; ret (fst r', snd r ++ snd r')
    end.

  (** transcript.rs:33-47, [PoseidonTranscriptRead::new] *)
  Definition x_transcript (bytes : list Z) : B N (tr hash) :=
    p <- poseidon_new N chip init ;; ret (mkTr bytes p).

  (** verify_circuit.rs:487-493: pairs of commitments (proof, column) that have to agree *)
  Definition x_coherent (commits : list (list (apoint N))) (coherent : list ((nat * nat) * (nat * nat))) : B N (list unit) :=
    bmap (fun c => l <- at_ commits (fst (fst c)) ;; a <- at_ l (snd (fst c)) ;;
                   l <- at_ commits (fst (snd c)) ;; b <- at_ l (snd (snd c)) ;;
                   ecc_assert_equal W a b) coherent.

  (** What the circuit verifies (verify_circuit.rs:415-467), with the keys and parameters of
      VerifyCircuit.v.  The state of a transcript is of no concern for the calls. *)
  Definition given_circuits (gs : list (given N (kzg N M) (key N M))) : list (circuit_proof N M unit) :=
    map (circuit_proof_of N M unit tt) gs.
  Definition given_bytes (gs : list (given N (kzg N M) (key N M))) : list (list Z) :=
    concat (map (fun g => map gp_bytes (g_proofs g)) gs).
  (** verify_circuit.rs:385-501, [synthesize_proof], followed by the rest of [synthesize]
      (242-370): the cells tied to the rows of the instance column.  [nw k]: the number of
      points after the evaluations in proof [k] = 1, 2, ..., which the code finds by reading
      until it fails.  The same verifier produced the calls (C49). *)
  Definition x_verify (nw : nat -> nat) (gs : list (given N (kzg N M) (key N M))) (coherent : list ((nat * nat) * (nat * nat)))
    : B N (apoint N * apoint N * list (aval N) * list note) :=
    ts <- bmap x_transcript (given_bytes gs) ;;
    main <- x_transcript [] ;;
    g <- lift_o (c_verify_aggregation_proofs_in_chip N M 0 (hcircuits_of N M unit nw 1 (given_circuits gs)) 0) ;;
    let '(a, b, is_, ads, calls, _) := g in
    r <- x_calls calls (mkX [] (all_instances N M unit (given_circuits gs)) (main :: ts)) ;;
    let '(s, notes) := r in
    p1 <- x_p s a ;;
    p2 <- x_p s b ;;
    ins <- bmap (x_s s) is_ ;;
    commits <- bmap (bmap (x_p s)) ads ;;
    x_coherent commits coherent ;;;
    ret (p1, p2, ins, notes).
  Definition x_synthesize (nw : nat -> nat) (gs : list (given N (kzg N M) (key N M))) (coherent : list ((nat * nat) * (nat * nat)))
    : B N (list (aval N) * list note) :=
    r <- x_verify nw gs coherent ;;
    let '(p1, p2, ins, notes) := r in
    column <- synthesize_tail N W p1 p2 ins ;;
    ret (column, notes).
End CircuitRun.
Arguments XS {N} _. Arguments XP {N} _. Arguments mkX {N} _ _ _. Arguments x_vals {N} _. Arguments x_inst {N} _. Arguments x_trs {N} _.
Arguments NRead {N} _. Arguments NAbsorb {N} _. Arguments NDiv {N} _. Arguments lift_o {N A} _ _.
Arguments x_s {N} _ _ _. Arguments x_p {N} _ _ _. Arguments x_push {N} _ _. Arguments x_set {N} _ _ _. Arguments encode_point {N} _ _.
Arguments x_common_point {N} _ _ _. Arguments x_common_scalar {N} _ _.
