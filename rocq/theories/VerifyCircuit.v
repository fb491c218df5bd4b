(** The aggregation circuit around the verifier: its public inputs, the files it is run
    from and the way proofs are handed to it
    (halo2-snark-aggregator-circuit/src/{verify_circuit,fs,sample_circuit}.rs and
    halo2-snark-aggregator-sdk/src/lib.rs). *)
From Coq Require Import String ZArith NArith Arith Lia List Bool.
From Verif Require Import Util Algebra Schema Plonk Keys BuildParams PField Bytes Gate Integer Curve Ecc.
Import ListNotations.
Local Open Scope Z_scope.

Section PublicInputs.
  Variables N W : PF.
  Local Open Scope fld_scope.
  Local Notation aval := (aval N).

  (** chips/integer_chip.rs:69-72, 86-88, [w_to_limb_n_le]: limb [i] of a coordinate *)
  Definition w_to_limb_n_le (v : W) (i : nat) : N := ofZ (bn_limb i (toZ v)).
  (** verify_circuit.rs:780-786 *)
  Definition last_bit_word (n : N) : N := if Z.odd (toZ n) then limb_exp N 2 else 0.
  Definition low_word (x : W) : N := w_to_limb_n_le x 0 * limb_exp N 0 + w_to_limb_n_le x 1 * limb_exp N 1.
  Definition high_word (x y : W) : N :=
    w_to_limb_n_le x 2 * limb_exp N 0 + w_to_limb_n_le x 3 * limb_exp N 1 + last_bit_word (w_to_limb_n_le y 0).
  (** verify_circuit.rs:768-804, [final_pair_to_instances].  [coordinates()] of the identity
      is [None] ((0, 0) is not on the curve), so [unwrap] panics. *)
  Definition final_pair_to_instances (P Q : point W) (instances : list N) : option (list N) :=
    match P, Q with
    | Aff x0 y0, Aff x1 y1 => Some (low_word x0 :: high_word x0 y0 :: low_word x1 :: high_word x1 y1 :: instances)
    | _, _ => None
    end.

  (** verify_circuit.rs:284-297, 315-328 *)
  Definition expose_low (x : aint N) : B N aval := sum_with_constant [(l0 x, limb_exp N 0); (l1 x, limb_exp N 1)] 0.
  (** verify_circuit.rs:299-313, 330-344 *)
  Definition expose_high (x : aint N) (bit : aval) : B N aval :=
    sum_with_constant [(l2 x, limb_exp N 0); (l3 x, limb_exp N 1); (bit, limb_exp N 2)] 0.
  (** verify_circuit.rs:264-353.  The second region of the circuit continues the rows of the
      first here: only the identity of cells matters. *)
  Definition expose_pair (p1 p2 : apoint N) : B N (list aval) :=
    x0 <- int_reduce W (pt_x p1) ;;
    y0 <- int_reduce W (pt_y p1) ;;
    x1 <- int_reduce W (pt_x p2) ;;
    y1 <- int_reduce W (pt_y p2) ;;
    guard (Z.odd (w_modulus W)) ;;;
    b0 <- get_last_bit y0 ;;
    b1 <- get_last_bit y1 ;;
    w0 <- expose_low x0 ;;
    w1 <- expose_high x0 b0 ;;
    w2 <- expose_low x1 ;;
    w3 <- expose_high x1 b1 ;;
    ret [w0; w1; w2; w3].
  (** verify_circuit.rs:495-497 (end of [synthesize_proof]) and 242-370 ([synthesize]), for
      the pair and the instance cells returned by the verifier: the cells tied by
      [constrain_instance] to rows 0, 1, 2, ... of the instance column. *)
  Definition synthesize_tail (p1 p2 : apoint N) (instances : list aval) : B N (list aval) :=
    assert_false (pt_z p1) ;;;
    assert_false (pt_z p2) ;;;
    ws <- expose_pair p1 p2 ;;
    ret (ws ++ instances).
End PublicInputs.

(** ** Files *)
Section Files.
  Variable S : PF.
  (** halo2curves [to_repr]/[from_repr]: 32 bytes, little-endian, canonical. *)
  Definition to_repr (x : S) : list Z := le 32 (toZ x).
  Definition from_repr (b : list Z) : option S := if leval b <? pf_n S then Some (ofZ (leval b)) else None.
  (** fs.rs:169-180, [write_verify_circuit_instance]: the contents of the file *)
  Definition write_instances (l : list S) : list Z := flat_map to_repr l.
  (** fs.rs:137-139: [read_exact] fails when fewer than 32 bytes remain; a non-canonical
      scalar panics.  [fuel]: at least the number of bytes. *)
  Fixpoint load_loop (fuel : nat) (buf : list Z) : option (list S) :=
    match fuel with
    | O => Some []
    | Datatypes.S fuel =>
        if (32 <=? length buf)%nat then
          do x <- from_repr (firstn 32 buf);
          do r <- load_loop fuel (skipn 32 buf);
          Some (x :: r)
        else Some []
    end.
  (** fs.rs:132-142, [load_instances] *)
  Definition load_instances (buf : list Z) : option (list (list (list S))) :=
    do r <- load_loop (length buf) buf; Some [[r]].
End Files.
Arguments to_repr {S} _. Arguments from_repr {S} _. Arguments write_instances {S} _.
Arguments load_loop {S} _ _. Arguments load_instances {S} _.

(** fs.rs:182-195, [write_verify_circuit_final_pair].  halo2curves represents the identity by
    the coordinates (0, 0). *)
Definition write_final_pair {S W : PF} (P Q : point W) (instances : list S) : list Z :=
  let xy (P : point W) := match P with Inf => (f0, f0) | Aff x y => (x, y) end in
  to_repr (fst (xy P)) ++ to_repr (snd (xy P)) ++ to_repr (fst (xy Q)) ++ to_repr (snd (xy Q)) ++ flat_map to_repr instances.

(** ** File names *)
Section Names.
  Local Open Scope string_scope.
  (** fs.rs:85-103, sample_circuit.rs:87-106: the proof and instance files of proof [index]
      of the circuit called [name] *)
  Definition proof_file (name : string) (index : nat) : string := "sample_circuit_proof_" ++ name ++ fmt_nat index ++ ".data".
  Definition instance_file (name : string) (index : nat) : string := "sample_circuit_instance_" ++ name ++ fmt_nat index ++ ".data".
End Names.

(** ** Handing proofs to the circuit *)
Section Handing.
  Variable F : Fld.
  (** parameters and verifying keys, uninterpreted here *)
  Variables Params Vk : Type.

  (** verify_circuit.rs:73-77, [SingleProofPair] *)
  Record proof_pair := PP { pp_instances : list (list (list F)); pp_transcript : list Z }.
  (** verify_circuit.rs:583-589, [Setup] *)
  Record setup := mkSetup { s_name : string; s_params : Params; s_vk : Vk; s_proofs : list proof_pair; s_nproofs : nat }.
  (** verify_circuit.rs:634-642, [SetupOutcome] *)
  Record outcome := mkOut {
    o_name : string; o_params : Params; o_vk : Vk;
    o_instances : list (list (list (list F))); o_proofs : list (list Z); o_nproofs : nat
  }.
  (** verify_circuit.rs:827-834, [CreateProof] *)
  Record create_proof := mkCreate {
    c_name : string; c_params : Params; c_vk : Vk; c_template_proofs : list proof_pair; c_proofs : list proof_pair; c_nproofs : nat
  }.
  (** verify_circuit.rs:79-92, [SingleProofWitness] (same fields as [proof_pair]) and
      [Halo2VerifierCircuit] *)
  Record verifier_circuit := mkVC { v_name : string; v_params : Params; v_vk : Vk; v_proofs : list proof_pair; v_nproofs : nat }.
  (** What both runs of the verifier receive for one circuit (verify.rs:747-776,
      [CircuitProof]); the transcript is still the proof's bytes. *)
  Record given_proof := GP { gp_instances : list (list (list F)); gp_bytes : list Z; gp_key : string }.
  Record given := mkGiven { g_name : string; g_params : Params; g_vk : Vk; g_proofs : list given_proof }.

  (** verify_circuit.rs:667-699, [new_verify_circuit_info] for one circuit; indexing past the
      end panics. *)
  Definition circuit_info (is_setup : bool) (s : setup) : option outcome :=
    do ps <- mapM (fun i => nth_error (s_proofs s) (if is_setup then O else i)) (seq 0 (s_nproofs s));
    Some (mkOut (s_name s) (s_params s) (s_vk s) (map pp_instances ps) (map pp_transcript ps) (s_nproofs s)).
  Definition new_verify_circuit_info (is_setup : bool) (ss : list setup) : option (list outcome) := mapM (circuit_info is_setup) ss.

  (** verify_circuit.rs:737-751, 922-936: the circuit of an outcome *)
  Definition circuit_of (o : outcome) : verifier_circuit :=
    mkVC (o_name o) (o_params o) (o_vk o) (map (fun it => PP (fst it) (snd it)) (combine (o_instances o) (o_proofs o))) (o_nproofs o).
  (** verify_circuit.rs:512-520, [without_witnesses] *)
  Definition without_witnesses (c : verifier_circuit) : option verifier_circuit :=
    do ps <- mapM (fun _ => nth_error (v_proofs c) 0) (seq 0 (v_nproofs c));
    Some (mkVC (v_name c) (v_params c) (v_vk c) ps (v_nproofs c)).
  (** verify_circuit.rs:415-467: what the circuit verifies *)
  Definition synthesized (c : verifier_circuit) : option given :=
    do ps <- mapM (fun i => do p <- nth_error (v_proofs c) i; Some (GP (pp_instances p) (pp_transcript p) (proof_key (v_name c) i))) (seq 0 (v_nproofs c));
    Some (mkGiven (v_name c) (v_params c) (v_vk c) ps).
  (** verify_circuit.rs:120-152: what [calc_verify_circuit_final_pair] verifies *)
  Definition calculated (o : outcome) : option given :=
    do ps <- mapM (fun ii => do t <- nth_error (o_proofs o) (fst ii); Some (GP (snd ii) t (proof_key (o_name o) (fst ii))))
               (combine (seq 0 (length (o_instances o))) (o_instances o));
    Some (mkGiven (o_name o) (o_params o) (o_vk o) ps).

  (** verify_circuit.rs:733-765, [MultiCircuitsSetup::call]: the circuit given to [keygen_vk]
      (which lays out [without_witnesses] of it) *)
  Definition setup_call (ss : list setup) : option (list verifier_circuit) :=
    do os <- new_verify_circuit_info true ss; Some (map circuit_of os).
  (** verify_circuit.rs:898-1009, [MultiCircuitsCreateProof::call]: what the circuit and what
      the native computation of the final pair and the public inputs are run on *)
  Definition create_call (cs : list create_proof) : option (list given * list given) :=
    let ss := map (fun c => mkSetup (c_name c) (c_params c) (c_vk c) (c_template_proofs c) (c_nproofs c)) cs in
    do os <- new_verify_circuit_info false ss;
    do circuit <- mapM synthesized (map circuit_of os);
    do native <- mapM calculated os;
    Some (circuit, native).
  (** verify_circuit.rs:836-878, [CreateProof::new]; the circuit's name is the folder *)
  Definition create_new (folder : string) (params : Params) (vk : Vk) (instances : list (list (list (list F)))) (transcripts : list (list Z)) (n : nat)
    : create_proof :=
    let ps := map (fun it => PP (fst it) (snd it)) (combine instances transcripts) in
    mkCreate folder params vk ps ps n.
End Handing.
Arguments PP {F} _ _. Arguments pp_instances {F} _. Arguments pp_transcript {F} _.
Arguments GP {F} _ _ _. Arguments gp_instances {F} _. Arguments gp_bytes {F} _. Arguments gp_key {F} _.
Arguments mkSetup {F Params Vk} _ _ _ _ _. Arguments mkCreate {F Params Vk} _ _ _ _ _ _. Arguments mkVC {F Params Vk} _ _ _ _ _.
Arguments mkGiven {F Params Vk} _ _ _ _. Arguments mkOut {F Params Vk} _ _ _ _ _ _.
Arguments s_name {F Params Vk} _. Arguments s_params {F Params Vk} _. Arguments s_vk {F Params Vk} _. Arguments s_proofs {F Params Vk} _. Arguments s_nproofs {F Params Vk} _.
Arguments c_name {F Params Vk} _. Arguments c_params {F Params Vk} _. Arguments c_vk {F Params Vk} _. Arguments c_template_proofs {F Params Vk} _.
Arguments c_proofs {F Params Vk} _. Arguments c_nproofs {F Params Vk} _.
Arguments v_name {F Params Vk} _. Arguments v_params {F Params Vk} _. Arguments v_vk {F Params Vk} _. Arguments v_proofs {F Params Vk} _. Arguments v_nproofs {F Params Vk} _.
Arguments g_name {F Params Vk} _. Arguments g_params {F Params Vk} _. Arguments g_vk {F Params Vk} _. Arguments g_proofs {F Params Vk} _.
Arguments o_name {F Params Vk} _. Arguments o_params {F Params Vk} _. Arguments o_vk {F Params Vk} _. Arguments o_instances {F Params Vk} _.
Arguments o_proofs {F Params Vk} _. Arguments o_nproofs {F Params Vk} _.
Arguments circuit_info {F Params Vk} _ _. Arguments new_verify_circuit_info {F Params Vk} _ _. Arguments circuit_of {F Params Vk} _.
Arguments without_witnesses {F Params Vk} _. Arguments synthesized {F Params Vk} _. Arguments calculated {F Params Vk} _.
Arguments setup_call {F Params Vk} _. Arguments create_call {F Params Vk} _. Arguments create_new {F Params Vk} _ _ _ _ _ _.

(** ** From the proofs to the public inputs *)
Section Instances.
  Variables (S W : PF) (M : Mod S).
  Variables (PT SC : nat).
  Variable pt_decode : list Z -> option M.
  Variable sc_decode : list Z -> option S.
  Variable St : Type.
  Variable upd_pt : St -> M -> St.
  Variable upd_sc : St -> S -> St.
  Variable sqz : St -> option (S * St).
  (** the state of a new transcript; [to_affine] *)
  Variable st0 : St.
  Variable affine : M -> point W.
  (** the parameters: the Lagrange bases and the generator *)
  Record kzg := mkKzg { k_lagrange : list M; k_generator : M }.
  (** the verifying key with the number of instance columns *)
  Definition key : Type := vkey S M * nat.

  (** verify_circuit.rs:127-150 *)
  Definition circuit_proof_of (g : given S kzg key) : circuit_proof S M St :=
    mkCP (fst (g_vk g)) (snd (g_vk g)) (k_lagrange (g_params g)) (k_generator (g_params g))
      (map (fun p => mkPD (gp_instances p) (mkTr (gp_bytes p) st0) (gp_key p)) (g_proofs g)).
  (** verify_circuit.rs:114-201, [calc_verify_circuit_final_pair]; the pairing check in it is
      a [debug_assert!] and not part of the result. *)
  Definition calc_verify_circuit_final_pair (gs : list (given S kzg key)) : option (point W * point W * list S) :=
    do (wx, wg, ins, _) <- verify_aggregation_proofs_in_chip S M PT SC pt_decode sc_decode St upd_pt upd_sc sqz (map circuit_proof_of gs) st0;
    Some (affine wx, affine wg, ins).
  (** verify_circuit.rs:898-1009: the final pair and the public inputs returned by
      [MultiCircuitsCreateProof::call], and what its circuit is run on *)
  Definition create_instances (cs : list (create_proof S kzg key)) : option (list (given S kzg key) * (point W * point W * list S) * list S) :=
    do (circuit, native) <- create_call cs;
    do fp <- calc_verify_circuit_final_pair native;
    let '(P, Q, ins) := fp in
    do column <- final_pair_to_instances S W P Q ins;
    Some (circuit, fp, column).
End Instances.

(** sdk/lib.rs:76-81, [compute_verify_public_input_size]: one entry (N_PROOFS,
    PUBLIC_INPUT_SIZE) per target circuit. *)
Definition compute_verify_public_input_size (l : list (nat * nat)) : nat :=
  fold_left (fun n c => (n + fst c * snd c)%nat) l 4%nat.
