(** The measuring pass.

    halo2's floor planner (type [V1], verify_circuit.rs:217) runs the circuit's [synthesize]
    twice: first on [without_witnesses], to learn how many rows each region takes, then on the
    circuit itself.  Everything is as in CircuitRun.v in both passes except [shamir], which in
    the measuring pass ("shape mode", verify_circuit.rs:413) skips most of its work.

    The row of the probe (five/base_gate.rs:16-25) that tells the passes apart is the first
    row of the region in both and left out here as in CircuitRun.v. *)
From Coq Require Import String ZArith NArith Arith List Bool.
From Verif Require Import Util Algebra PField Gate Integer Curve Ecc Schema Plonk Poseidon BuildParams Calls VerifierCalls VerifierCallsTop VerifyCircuit CircuitRun.
Import ListNotations.

Section Measure.
  Variables N W : PF.
  (** gates/base_gate.rs:130-139, [Context::expand]: one cell in the last of [size] rows; the
      row number must not underflow. *)
  Definition expand (size : nat) (a : aval N) : B N unit := fun c =>
    if (offset c + size =? 0)%nat then None else
    let r := (offset c + size - 1)%nat in
    Some (tt, mkCtx (offset c + size) (emitted c)
                    (fun cl => if Nat.eqb (fst cl) r && Nat.eqb (snd cl) (snd (av_cell a)) then av_val a else adv c cl)).
  (** [*ctx.offset] *)
  Definition rows : B N nat := fun c => Some (offset c, c).

  (** ecc_chip.rs:192-222, [get_inner] in shape mode *)
  Definition get_inner (ps : list (list (apoint N) * list (list (aval N)))) (wi : nat) (acc : option (apoint N)) (round_size : option nat) : B N (nat * apoint N) :=
    match round_size with
    | Some n => match acc with Some p => expand n (pt_z p) ;;; ret (n, p) | None => panic end
    | None => c <- rows ;; inner <- shamir_inner W ps wi None ;; c' <- rows ;; ret ((c' - c)%nat, inner)
    end.
  (** ecc_chip.rs:189-243 in shape mode *)
  Fixpoint shamir_loop_measured (ps : list (list (apoint N) * list (list (aval N)))) (wis : list nat) (acc : option (apoint N)) (round_size : option nat) {struct wis}
    : B N (apoint N) :=
    match wis with
    | [] => match acc with Some p => ret p | None => panic end
    | wi :: wis =>
        r <- get_inner ps wi acc round_size ;;
        let '(rsize, inner) := r in
        let round_size := if Nat.eqb wi 0 then round_size else Some rsize in
        match acc with
        | None => shamir_loop_measured ps wis (Some inner) round_size
        | Some p => p <- repeat_double W CONFIG_WINDOW_SIZE p ;;
                    s <- ecc_add W inner p ;;
                    shamir_loop_measured ps wis (Some (fst s)) round_size
        end
    end.
  (** ecc_chip.rs:139-244 in shape mode *)
  Definition shamir_measured (points : list (apoint N)) (scalars : list (aval N)) : B N (apoint N) :=
    guard (length points =? length scalars)%nat ;;;
    windows <- bmap (decompose_scalar CONFIG_WINDOW_SIZE) scalars ;;
    identity <- assign_identity W ;;
    cands <- bmap (fun a => rest <- build_candidates_with_curvature W 14 a a ;; ret (identity :: rest)) points ;;
    w0 <- at_ windows 0 ;;
    shamir_loop_measured (combine cands windows) (seq 0 (length w0)) None None.

  Variable M : Mod N.
  Variable affine : M -> point W.
  Variables (PT SC : nat).
  Variable pt_decode : list Z -> option M.
  Variable sc_decode : list Z -> option N.
  Variable sp : pspec N.
  Variable RATE : nat.
  Variable init : list N.
  Variable generator : M.
  (** CircuitRun.v with [shamir_measured]: circuit/src/chips/ecc_chip.rs:126-133 *)
  Definition m_call (c : call N M) (s : xst N) : B N (xst N * list (note N)) :=
    match c with
    | CMultiExp ps ss =>
        ps <- bmap (x_p s) ps ;; ss <- bmap (x_s s) ss ;; r <- shamir_measured ps ss ;; ret (x_push (XP r) s, [])
    | _ => x_call N W M affine PT SC pt_decode sc_decode sp RATE generator c s
    end.
  Fixpoint m_calls (cs : list (call N M)) (s : xst N) : B N (xst N * list (note N)) :=
    match cs with
    | [] => ret (s, [])
    | c :: cs => r <- m_call c s ;; r' <- m_calls cs (fst r) ;; ret (fst r', snd r ++ snd r')
    end.
  (** verify_circuit.rs:385-501, the first region, in the measuring pass *)
  Definition m_verify (nw : nat -> nat) (gs : list (given N (kzg N M) (key N M))) (coherent : list ((nat * nat) * (nat * nat)))
    : B N (apoint N * apoint N * list (aval N) * list (note N)) :=
    ts <- bmap (x_transcript N init) (given_bytes N M gs) ;;
    main <- x_transcript N init [] ;;
    g <- lift_o (c_verify_aggregation_proofs_in_chip N M 0 (hcircuits_of N M unit nw 1 (given_circuits N M gs)) 0) ;;
    let '(a, b, is_, ads, calls, _) := g in
    r <- m_calls calls (mkX [] (all_instances N M unit (given_circuits N M gs)) (main :: ts)) ;;
    let '(s, notes) := r in
    p1 <- x_p s a ;;
    p2 <- x_p s b ;;
    ins <- bmap (x_s s) is_ ;;
    commits <- bmap (bmap (x_p s)) ads ;;
    x_coherent N W commits coherent ;;;
    ret (p1, p2, ins, notes).
End Measure.
Arguments expand {N} _ _ _. Arguments rows {N} _. Arguments get_inner {N} W _ _ _ _ _. Arguments shamir_loop_measured {N} W _ _ _ _ _. Arguments shamir_measured {N} W _ _ _.
