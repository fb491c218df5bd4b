(** Model of the proof reader of halo2-snark-aggregator-api:
    systems/halo2/transcript.rs ([PoseidonTranscriptRead]) and
    systems/halo2/verify.rs ([VerifierParamsBuilder], [verify_single_proof_no_eval],
    [verify_single_proof_in_chip], [verify_aggregation_proofs_in_chip]).

    The chips are interpreted natively, as in Plonk.v.  [None] is a panic or an [Err].
    External code enters as section variables: the byte decoding of points and scalars
    ([C::from_bytes], [from_repr]) and the hash of the transcript (absorbing a point,
    absorbing a scalar, squeezing, on a state type; instantiated with Poseidon.v and
    mock/transcript_encode.rs:30-73 in Properties_Reader.v). *)
From Coq Require Import String ZArith NArith Arith Bool List.
From Verif Require Import Util Algebra Schema Plonk.
Import ListNotations.

(** Columns of the permutation argument (halo2 [Column<Any>]). *)
Inductive col_kind := CAdvice | CFixed | CInstance.

Section Keys.
  Variable F : Fld.
  Variable M : Mod F.
  (** What the reader looks at in halo2's [VerifyingKey]/[ConstraintSystem] and
      [ParamsVerifierKZG]. *)
  Record vkey := mkVk {
    vk_hash : F;                                 (** verify.rs:50-66: digest of the pinned key *)
    vk_num_advice : nat; vk_num_challenges : nat;
    vk_phases : list nat;
    vk_advice_phase : list nat; vk_challenge_phase : list nat;
    vk_lookups : list (list (expr F) * list (expr F));
    vk_perm_columns : list (col_kind * nat);
    vk_degree : nat; vk_quotient_degree : nat; vk_blinding : nat;
    vk_instance_queries : list (nat * Z); vk_advice_queries : list (nat * Z); vk_fixed_queries : list (nat * Z);
    vk_perm_commitments : list M; vk_fixed_commitments : list M;
    vk_gates : list (list (expr F));
    vk_omega : F; vk_delta : F; vk_n : N
  }.
End Keys.
Arguments vk_hash {F M} _. Arguments vk_num_advice {F M} _. Arguments vk_num_challenges {F M} _. Arguments vk_phases {F M} _.
Arguments vk_advice_phase {F M} _. Arguments vk_challenge_phase {F M} _. Arguments vk_lookups {F M} _. Arguments vk_perm_columns {F M} _.
Arguments vk_degree {F M} _. Arguments vk_quotient_degree {F M} _. Arguments vk_blinding {F M} _. Arguments vk_instance_queries {F M} _.
Arguments vk_advice_queries {F M} _. Arguments vk_fixed_queries {F M} _. Arguments vk_perm_commitments {F M} _.
Arguments vk_fixed_commitments {F M} _. Arguments vk_gates {F M} _. Arguments vk_omega {F M} _. Arguments vk_delta {F M} _. Arguments vk_n {F M} _.
Arguments mkVk {F M}.

Section Reader.
  Variable F : Fld.
  Variable M : Mod F.
  Variables (PT SC : nat).                      (* sizes of the two encodings *)
  Variable pt_decode : list Z -> option M.
  Variable sc_decode : list Z -> option F.
  Variable St : Type.
  Variable upd_pt : St -> M -> St.
  Variable upd_sc : St -> F -> St.
  Variable sqz : St -> option (F * St).

  (** transcript.rs:12-22: the unread bytes and the hash. *)
  Record tr := mkTr { t_rest : list Z; t_hash : St }.

  (** State and failure. *)
  Definition R (A : Type) := tr -> option (A * tr).
  Definition rret {A} (a : A) : R A := fun t => Some (a, t).
  Definition rbind {A B} (m : R A) (k : A -> R B) : R B :=
    fun t => match m t with Some (a, t') => k a t' | None => None end.
  Definition rlift {A} (o : option A) : R A := fun t => match o with Some a => Some (a, t) | None => None end.
  Local Notation "x <~ m ;; k" := (rbind m (fun x => k)) (at level 100, m at next level, right associativity).
  (** [(0..n).map(..).collect::<Result<Vec<_>, _>>()] and the [for] loops pushing on a vector *)
  Fixpoint rmap {A B} (f : A -> R B) (l : list A) : R (list B) :=
    match l with
    | [] => rret []
    | a :: l => b <~ f a ;; r <~ rmap f l ;; rret (b :: r)
    end.
  Definition rtimes {B} (n : nat) (m : R B) : R (list B) := rmap (fun _ => m) (repeat tt n).

  (** transcript.rs:152-164, [common_point], and 166-177, [common_scalar]. *)
  Definition common_point (P : M) : R unit := fun t => Some (tt, mkTr (t_rest t) (upd_pt (t_hash t) P)).
  Definition common_scalar (s : F) : R unit := fun t => Some (tt, mkTr (t_rest t) (upd_sc (t_hash t) s)).
  (** [Read::read_exact] on a byte slice followed by the decoding. *)
  Definition read_decode {A} (size : nat) (decode : list Z -> option A) : R A := fun t =>
    if Nat.leb size (length (t_rest t))
    then match decode (firstn size (t_rest t)) with
         | Some a => Some (a, mkTr (skipn size (t_rest t)) (t_hash t))
         | None => None
         end
    else None.
  (** transcript.rs:55-77 [read_point], 102-121 [read_scalar]. *)
  Definition read_point : R M := P <~ read_decode PT pt_decode ;; _ <~ common_point P ;; rret P.
  Definition read_scalar : R F := s <~ read_decode SC sc_decode ;; _ <~ common_scalar s ;; rret s.
  (** transcript.rs:142-151, [squeeze_challenge_scalar]. *)
  Definition squeeze_scalar : R F := fun t =>
    match sqz (t_hash t) with Some (c, h) => Some (c, mkTr (t_rest t) h) | None => None end.

  (** verify.rs:94-151: [load_n_points] and its relatives. *)
  Definition load_n_points (n : nat) : R (list M) := rtimes n read_point.
  Definition load_n_m_points (n m : nat) : R (list (list M)) := rtimes n (load_n_points m).
  Definition load_n_scalars (n : nat) : R (list F) := rtimes n read_scalar.
  Definition load_n_m_scalars (n m : nat) : R (list (list F)) := rtimes n (load_n_scalars m).

  (** verify.rs:477-479: [while let Ok(p) = self.load_point()].  The failing call
      leaves the hash unchanged; it may consume bytes, which nothing reads afterwards,
      so the model keeps them.  [fuel] bounds the number of points. *)
  Fixpoint load_points_while (fuel : nat) : R (list M) := fun t =>
    match fuel with
    | O => Some ([], t)
    | S fuel =>
        match read_point t with
        | Some (P, t') => (r <~ load_points_while fuel ;; rret (P :: r)) t'
        | None => Some ([], t)
        end
    end.

  Variable vk : vkey F M.

  (** verify.rs:74-92, [squeeze_instance_commitment]. *)
  Definition squeeze_instance_commitment (instances : list (list M)) : R unit :=
    _ <~ rmap (rmap common_point) instances ;; rret tt.

  (** verify.rs:364-374: the columns of the current phase of one proof; the two lists
      are zipped. *)
  Fixpoint read_phase (current : nat) (phases : list nat) (cells : list (option M)) : R (list (option M)) :=
    match phases, cells with
    | ph :: phases, c :: cells =>
        c <~ (if Nat.eqb current ph then P <~ read_point ;; rret (Some P) else rret c) ;;
        r <~ read_phase current phases cells ;; rret (c :: r)
    | _, _ => rret cells
    end.
  (** verify.rs:375-379: the challenges of the current phase. *)
  Fixpoint squeeze_phase (current : nat) (phases : list nat) (cells : list F) : R (list F) :=
    match phases, cells with
    | ph :: phases, c :: cells =>
        c <~ (if Nat.eqb current ph then squeeze_scalar else rret c) ;;
        r <~ squeeze_phase current phases cells ;; rret (c :: r)
    | _, _ => rret cells
    end.
  (** verify.rs:363-380: the loop over the phases. *)
  Fixpoint read_phases (phases : list nat) (advice : list (list (option M))) (challenges : list F)
    : R (list (list (option M)) * list F) :=
    match phases with
    | [] => rret (advice, challenges)
    | current :: phases =>
        advice <~ rmap (read_phase current (vk_advice_phase vk)) advice ;;
        challenges <~ squeeze_phase current (vk_challenge_phase vk) challenges ;;
        read_phases phases advice challenges
    end.
  (** verify.rs:352-389; the [unwrap] fails for a column whose phase is never reached. *)
  Definition read_advice (num_proofs : nat) : R (list (list M) * list F) :=
    ac <~ read_phases (vk_phases vk) (repeat (repeat None (vk_num_advice vk)) num_proofs)
                      (repeat f0 (vk_num_challenges vk)) ;;
    advice <~ rlift (mapM (mapM (fun x => x)) (fst ac)) ;;
    rret (advice, snd ac).

  (** verify.rs:397-412 *)
  Definition read_lookups_permuted (num_proofs : nat) : R (list (list (M * M))) :=
    rtimes num_proofs (rtimes (length (vk_lookups vk)) (i <~ read_point ;; t <~ read_point ;; rret (i, t))).

  (** [ConstraintSystem::get_any_query_index(column, Rotation::cur())] of halo2: position
      of the query; panics when there is none. *)
  Fixpoint query_index (qs : list (nat * Z)) (column : nat) : option nat :=
    match qs with
    | [] => None
    | (c, at_) :: qs =>
        if Nat.eqb c column && Z.eqb at_ 0 then Some O
        else do i <- query_index qs column; Some (S i)
    end.
  (** verify.rs:243-264: evaluation of one permuted column *)
  Definition column_eval (advice instance fixed : list F) (c : col_kind * nat) : option F :=
    match fst c with
    | CAdvice => do i <- query_index (vk_advice_queries vk) (snd c); nth_error advice i
    | CFixed => do i <- query_index (vk_fixed_queries vk) (snd c); nth_error fixed i
    | CInstance => do i <- query_index (vk_instance_queries vk) (snd c); nth_error instance i
    end.
  (** verify.rs:210-229: the sets of one proof *)
  Fixpoint read_sets (commitments : list M) : R (list (perm_set F M)) :=
    match commitments with
    | [] => rret []
    | c :: commitments =>
        e <~ read_scalar ;; nx <~ read_scalar ;;
        la <~ (match commitments with [] => rret None | _ => x <~ read_scalar ;; rret (Some x) end) ;;
        r <~ read_sets commitments ;;
        rret (mkPS c e nx la :: r)
    end.
  Definition chunk_len : nat := (vk_degree vk - 2)%nat.
  Definition perm_keys_and_evals (key : string) (x : F) (sets : list (list (perm_set F M))) (evals : list (list F))
    : list (perm_evaluated F M) :=
    map (fun '(i, (s, e)) => mkPE (key ++ "_" ++ fmt_nat i)%string (vk_blinding vk) x s e chunk_len)
        (enumerate (combine sets evals)).
  (** verify.rs:198-290, [build_permutation_evaluated]; the concatenation of the chunks of
      columns is the list of columns. *)
  Definition build_permutation_evaluated (key : string) (x : F) (committed : list (list M))
             (advice_evals instance_evals : list (list F)) (fixed_evals : list F) : R (list (perm_evaluated F M)) :=
    sets <~ rmap read_sets committed ;;
    evals <~ rlift (mapM (fun ai => mapM (column_eval (fst ai) (snd ai) fixed_evals) (vk_perm_columns vk))
                         (combine advice_evals instance_evals)) ;;
    rret (perm_keys_and_evals key x sets evals).

  (** verify.rs:292-339, [build_lookup_evaluated]; [convert_expression] (169-196) turns
      constants into assigned constants, the identity here. *)
  Definition read_lookup (key : string) (i : nat) (a : nat * (M * M * M * (list (expr F) * list (expr F)))) : R (lookup_evaluated F M) :=
    let '(j, ((pi, pt, pr), (ie, te))) := a in
    e <~ read_scalar ;; en <~ read_scalar ;; ei <~ read_scalar ;; einv <~ read_scalar ;; et <~ read_scalar ;;
    rret (mkLE (key ++ "_" ++ fmt_nat i ++ "_" ++ fmt_nat j)%string ie te pi pt pr e en ei einv et).
  Definition build_lookup_evaluated (key : string) (permuted : list (list (M * M))) (committed : list (list M))
    : R (list (list (lookup_evaluated F M))) :=
    rmap (fun '(i, (p, c)) => rmap (read_lookup key i) (enumerate (combine (combine p c) (vk_lookups vk))))
         (enumerate (combine permuted committed)).

  (** [u64 -> Scalar] *)
  Definition of_N (n : N) : F := N.iter n (fadd f1) f0.

  (** verify.rs:341-572, [build_params], with the reading of the opening points (477-479)
      as a parameter.  [chunks(0)] and [degree - 2] below zero panic. *)
  Definition build_params_with (read_w : R (list M)) (key : string) (instances : list (list M)) : R (params F M) :=
    if Nat.leb (vk_degree vk) 2 then (fun _ => None) else
    _ <~ common_scalar (vk_hash vk) ;;
    _ <~ squeeze_instance_commitment instances ;;
    let num_proofs := length instances in
    ac <~ read_advice num_proofs ;;
    let '(advice_commitments, challenges) := ac in
    theta <~ squeeze_scalar ;;
    lookups_permuted <~ read_lookups_permuted num_proofs ;;
    beta <~ squeeze_scalar ;;
    gamma <~ squeeze_scalar ;;
    permutations_committed <~ load_n_m_points num_proofs (length (chunks chunk_len (vk_perm_columns vk))) ;;
    lookups_committed <~ rmap (rmap (fun _ => read_point)) lookups_permuted ;;
    random_commitment <~ read_point ;;
    y <~ squeeze_scalar ;;
    h_commitments <~ load_n_points (vk_quotient_degree vk) ;;
    let l := (vk_blinding vk + 1)%nat in
    let n := (vk_n vk mod 2 ^ 32)%N in
    x <~ squeeze_scalar ;;
    instance_evals <~ load_n_m_scalars num_proofs (length (vk_instance_queries vk)) ;;
    advice_evals <~ load_n_m_scalars num_proofs (length (vk_advice_queries vk)) ;;
    fixed_evals <~ load_n_scalars (length (vk_fixed_queries vk)) ;;
    random_eval <~ read_scalar ;;
    permutation_evals <~ load_n_scalars (length (vk_perm_commitments vk)) ;;
    permutation <~ build_permutation_evaluated key x permutations_committed advice_evals instance_evals fixed_evals ;;
    lookup <~ build_lookup_evaluated key lookups_permuted lookups_committed ;;
    v <~ squeeze_scalar ;;
    w <~ read_w ;;
    u <~ squeeze_scalar ;;
    x_next <~ rlift (rotate_omega x (vk_omega vk) 1) ;;
    x_last <~ rlift (rotate_omega x (vk_omega vk) (- Z.of_nat l)) ;;
    x_inv <~ rlift (rotate_omega x (vk_omega vk) (-1)) ;;
    xn <~ rlift (pow_constant POW_FUEL x n) ;;
    rret {| p_key := key; p_gates := vk_gates vk; p_l := l; p_lookup := lookup; p_permutation := permutation;
            p_instance_commitments := instances; p_instance_evals := instance_evals;
            p_instance_queries := vk_instance_queries vk; p_challenges := challenges;
            p_advice_commitments := advice_commitments; p_advice_evals := advice_evals;
            p_advice_queries := vk_advice_queries vk; p_fixed_commitments := vk_fixed_commitments vk;
            p_fixed_evals := fixed_evals; p_fixed_queries := vk_fixed_queries vk;
            p_permutation_commitments := vk_perm_commitments vk; p_permutation_evals := permutation_evals;
            p_vanish_commitments := h_commitments; p_random_commitment := random_commitment; p_w := w;
            p_random_eval := random_eval; p_beta := beta; p_gamma := gamma; p_theta := theta;
            p_delta := vk_delta vk; p_x := x; p_x_next := x_next; p_x_last := x_last; p_x_inv := x_inv;
            p_xn := xn; p_y := y; p_u := u; p_v := v; p_omega := vk_omega vk;
            p_zero := f0; p_one := f1; p_n := of_N n |}.
  Definition build_params : string -> list (list M) -> R (params F M) :=
    build_params_with (fun t => load_points_while (S (length (t_rest t))) t).

  (** verify.rs:651-688, [verify_single_proof_no_eval]; [advice_commitments[0]] panics when
      there is no instance list. *)
  Definition verify_single_proof_no_eval (key : string) (instances : list (list M)) : R (multiopen F M * list M) :=
    p <~ build_params key instances ;;
    proof <~ rlift (batch_multi_open_proofs p) ;;
    c <~ rlift (nth_error (p_advice_commitments p) 0) ;;
    rret (proof, c).

  (** verify.rs:778-831, [verify_single_proof_in_chip]. *)
  Definition verify_single_proof_in_chip (num_instance_columns : nat) (g_lagrange : list M) (generator : M)
             (instances : list (list (list F))) : R (M * M * list F * list M) :=
    ic <~ rlift (assign_instance_commitment num_instance_columns (N.to_nat (vk_n vk)) (vk_blinding vk) g_lagrange instances) ;;
    pc <~ verify_single_proof_no_eval "" (snd ic) ;;
    wp <~ rlift (evaluate_multiopen_proof generator (fst pc)) ;;
    rret (fst wp, snd wp, fst ic, snd pc).
End Reader.
Arguments t_rest {St} _. Arguments t_hash {St} _. Arguments mkTr {St} _ _.
Arguments rret {St A} _ _. Arguments rbind {St A B} _ _ _. Arguments rlift {St A} _ _. Arguments rmap {St A B} _ _ _.
Arguments rtimes {St B} _ _ _.

(** ** The aggregation *)
Section Aggregation.
  Variable F : Fld.
  Variable M : Mod F.
  Variables (PT SC : nat).
  Variable pt_decode : list Z -> option M.
  Variable sc_decode : list Z -> option F.
  Variable St : Type.
  Variable upd_pt : St -> M -> St.
  Variable upd_sc : St -> F -> St.
  Variable sqz : St -> option (F * St).

  (** verify.rs:747-776, [ProofData] and [CircuitProof]. *)
  Record proof_data := mkPD { pd_instances : list (list (list F)); pd_transcript : tr St; pd_key : string }.
  Record circuit_proof := mkCP {
    cp_vk : vkey F M; cp_columns : nat; cp_g_lagrange : list M; cp_generator : M; cp_proofs : list proof_data
  }.

  (** verify.rs:868-899: one proof; returns its instances, the multi-opening, the advice
      commitments and the transcript afterwards. *)
  Definition aggregate_proof (c : circuit_proof) (p : proof_data) : option (list F * multiopen F M * list M * tr St) :=
    do (ic1, ic2) <- assign_instance_commitment (cp_columns c) (N.to_nat (vk_n (cp_vk c))) (vk_blinding (cp_vk c)) (cp_g_lagrange c) (pd_instances p);
    do (pc, t) <- verify_single_proof_no_eval F M PT SC pt_decode sc_decode St upd_pt upd_sc sqz (cp_vk c) (pd_key p) ic2 (pd_transcript p);
    Some (ic1, fst pc, snd pc, t).
  (** verify.rs:902-907: absorb one squeeze of every proof transcript. *)
  Definition absorb_transcripts (ts : list (tr St)) (h : St) : option St :=
    foldM (fun h t => do (c, _) <- sqz (t_hash t); Some (upd_sc h c)) ts h.
  (** verify.rs:863-911: one circuit.  A failing proof fails the whole call (the error in
      [r] is returned after the transcripts have been squeezed). *)
  Definition aggregate_circuit (h : St) (c : circuit_proof) : option (list (list F * multiopen F M * list M * tr St) * St) :=
    do rs <- mapM (aggregate_proof c) (cp_proofs c);
    do h <- absorb_transcripts (map snd rs) h;
    Some (rs, h).
  Fixpoint aggregate_circuits (cs : list circuit_proof) (h : St) : option (list (list F * multiopen F M * list M * tr St) * St) :=
    match cs with
    | [] => Some ([], h)
    | c :: cs =>
        do (rs, h) <- aggregate_circuit h c;
        do (rest, h) <- aggregate_circuits cs h;
        Some ((rs ++ rest)%list, h)
    end.
  (** verify.rs:833-941, [verify_aggregation_proofs_in_chip]. *)
  Definition verify_aggregation_proofs_in_chip (cs : list circuit_proof) (h : St)
    : option (M * M * list F * list (list M)) :=
    do (rs, h) <- aggregate_circuits cs h;
    do (challenge, _) <- sqz h;
    do agg <- aggregate challenge (map (fun r => snd (fst (fst r))) rs);
    do c0 <- nth_error cs 0;
    do (wx, wg) <- evaluate_multiopen_proof (cp_generator c0) agg;
    Some (wx, wg, concat (map (fun r => fst (fst (fst r))) rs), map (fun r => snd (fst r)) rs).
End Aggregation.
Arguments pd_instances {F St} _. Arguments pd_transcript {F St} _. Arguments pd_key {F St} _.
Arguments cp_vk {F M St} _. Arguments cp_columns {F M St} _. Arguments cp_g_lagrange {F M St} _. Arguments cp_generator {F M St} _. Arguments cp_proofs {F M St} _.
Arguments mkPD {F St} _ _ _. Arguments mkCP {F M St} _ _ _ _ _.
