(** Properties C18-C25 and C29: the verifier logic of
    halo2-snark-aggregator-api. *)
From Coq Require Import String NArith ZArith Arith Bool Lia List.
From Verif Require Import Util Algebra Poly Schema SchemaProofs Plonk PowLagrange PlonkSpec PlonkProofs
  MultiopenProofs Keys ApiProofs.
Import ListNotations.
Local Open Scope fld_scope.

(** ** C18 *)
Theorem C18_schema_eval_denotes (F : Fld) (M : Mod F) (K : string -> M) (t : schema F M) :
  well_built K t -> linear t = true ->
  mentions t = true -> (scales_commitment t = true \/ ~ NoDup (commit_keys t)) ->
  exists names, eval t = Some (pt_of t, (if has_scalar_part t then Some (sc_of t) else None), names)
    /\ NoDup names
    /\ (In ""%string names <-> has_scalar_part t = true)
    /\ (forall k, k <> ""%string -> (In k names <-> In k (commit_keys t))).
Proof. intros H1 H2 H3 H4. exact (proj1 (eval_spec F M K t H1 H2) (conj H3 H4)). Qed.
Print Assumptions C18_schema_eval_denotes.

(** A nested, shared schema meeting the hypotheses: 2*(3*A + B + 4) + A over F_7. *)
Example C18_example :
  let a := SCommitment (M := self_mod F7) (mkCQ (M := self_mod F7) "A" (Some (f7 2)) None) in
  let b := SCommitment (M := self_mod F7) (mkCQ (M := self_mod F7) "B" (Some (f7 5)) None) in
  let t := sch_add (sch_mul (SScalar (f7 2)) (sch_add (sch_add (sch_mul (SScalar (f7 3)) a) b) (SScalar (f7 4)))) a in
  well_built (M := self_mod F7) (fun k => if String.eqb k "A" then f7 2 else f7 5) t /\ linear t = true /\ mentions t = true /\
  scales_commitment t = true /\ eval t <> None.
Proof. cbv zeta. repeat split; try discriminate. Qed.

(** Without linearity the claim fails: A * (B * 3) evaluates to 3 A. *)
Theorem C18_product_of_commitments_refuted :
  exists (t : schema F7 (self_mod F7)) K names,
    well_built K t /\ mentions t = true /\ scales_commitment t = true /\
    eval t = Some (f7 6, None, names) /\ pt_of t = f7 0.
Proof. exact product_of_commitments_refuted. Qed.
Print Assumptions C18_product_of_commitments_refuted.

(** ** C19 *)
(** Proofs under distinct keys [<name>_p<i>]: a name stands for one point.  Missing:
    circuits with the same name, whose proofs share keys (refuted below). *)
Theorem C19_keys_identify_commitments_partial (F : Fld) (M : Mod F) (ps : list (params F M)) qss :
  Forall keys_built ps -> Forall (fun p => (length (p_instance_commitments p) <= 1)%nat) ps ->
  Forall (fun p => exists name i, p_key p = proof_key name i) ps ->
  NoDup (map p_key ps) -> mapM queries ps = Some qss ->
  forall k c1 c2,
    In (k, c1) (flat_map (fun pq => named_commitments (p_key (fst pq)) (p_w (fst pq)) (snd pq)) (combine ps qss)) ->
    In (k, c2) (flat_map (fun pq => named_commitments (p_key (fst pq)) (p_w (fst pq)) (snd pq)) (combine ps qss)) ->
    c1 = c2.
Proof. exact (instances_consistent F M ps qss). Qed.
Print Assumptions C19_keys_identify_commitments_partial.

(** Distinct circuit names and indices give distinct proof keys. *)
Theorem C19_proof_keys_distinct n1 i1 n2 i2 :
  proof_key n1 i1 = proof_key n2 i2 -> n1 = n2 /\ i1 = i2.
Proof. exact (proof_key_inj2 n1 i1 n2 i2). Qed.
Print Assumptions C19_proof_keys_distinct.

Example C19_example :
  let ps := [ex_params "a_p0" (f101 5); ex_params "a_p1" (f101 6)] in
  Forall keys_built ps /\ Forall (fun p => (length (p_instance_commitments p) <= 1)%nat) ps /\
  Forall (fun p => exists name i, p_key p = proof_key name i) ps /\
  NoDup (map p_key ps) /\ mapM queries ps <> None.
Proof. exact keys_example. Qed.

(** Two circuits loaded from the same folder get the same name, hence the same
    keys (verify_circuit.rs:625, :870, :140): the aggregated evaluation is then
    not the linear combination of the two accumulators. *)
Theorem C19_same_circuit_name_refuted :
  exists (p1 p2 : params F101 (self_mod F101)) m1 m2 m (c : F101) (G l r : self_mod F101),
    p_key p1 = p_key p2 /\
    batch_multi_open_proofs p1 = Some m1 /\ batch_multi_open_proofs p2 = Some m2 /\
    aggregate c [m1; m2] = Some m /\
    evaluate_multiopen_proof G m = Some (l, r) /\
    r <> msub (pt_of (w_g m)) (smul (sc_of (w_g m)) G).
Proof. exact same_name_refuted. Qed.
Print Assumptions C19_same_circuit_name_refuted.

(** ** C20 *)
(** Evaluation succeeds as soon as there are two proofs, or two opening points
    in every proof (names consistent, see C19).  Missing: one proof with a single
    opening point, for which the evaluation aborts (refuted below). *)
Theorem C20_evaluation_succeeds_partial (F : Fld) (M : Mod F) (ps : list (params F M)) qss ms (c : F) m (G : M) :
  mapM queries ps = Some qss -> mapM batch_multi_open_proofs ps = Some ms -> aggregate c ms = Some m ->
  consistent (flat_map (fun pq => named_commitments (p_key (fst pq)) (p_w (fst pq)) (snd pq)) (combine ps qss)) ->
  ((2 <= length ps)%nat \/ Forall (fun qs => (2 <= length (rotations qs))%nat) qss) ->
  evaluate_multiopen_proof G m <> None.
Proof. exact (evaluation_succeeds F M ps qss ms c m G). Qed.
Print Assumptions C20_evaluation_succeeds_partial.

(** A single proof all of whose queries are at one rotation makes [eval] panic. *)
Theorem C20_single_rotation_refuted :
  exists (key : string) (u v : F101) (w : list (self_mod F101)) qs m,
    Forall (good_query F101 (self_mod F101)) qs /\ length (rotations qs) = 1%nat /\
    batch_queries key u v w qs = Some m /\ forall G, evaluate_multiopen_proof G m = None.
Proof. exact single_rotation_refuted. Qed.
Print Assumptions C20_single_rotation_refuted.

(** ** C21 *)
Theorem C21_batch_is_gwc (F : Fld) (M : Mod F) (key : string) (u v : F) (w : list M) (qs : list (query F M)) m :
  batch_queries key u v w qs = Some m ->
  length w = length (rotations qs) /\
  sc_of (w_x m) = 0 /\ pt_of (w_x m) = gwc_left u w /\
  pt_of (w_g m) = gwc_right_pt u v w qs /\ sc_of (w_g m) = gwc_right_sc u v qs.
Proof. exact (batch_queries_value F M key u v w qs m). Qed.
Print Assumptions C21_batch_is_gwc.

(** It fails only on a wrong number of opening points. *)
Theorem C21_batch_defined (F : Fld) (M : Mod F) (key : string) (u v : F) (w : list M) (qs : list (query F M)) :
  (exists m, batch_queries key u v w qs = Some m) <-> qs <> [] /\ length w = length (rotations qs).
Proof. exact (batch_defined F M key u v w qs). Qed.
Print Assumptions C21_batch_defined.

(** Honest KZG openings pass, for every batching challenge [u]. *)
Theorem C21_honest_openings_accepted (F : Fld) (M : Mod F) (s : F) (G : M) (u v : F) (w : list M)
        (qs : list (query F M)) :
  length w = length (rotations qs) ->
  Forall (fun rw =>
    exists (polys : list (list F)) (wit : F),
      Forall2 (fun q p => fst (claim q) = smul (feval F p s) G /\
                          snd (claim q) = feval F p (rotation_point qs (fst rw)))
              (at_rotation qs (fst rw)) polys /\
      wit * (s - rotation_point qs (fst rw)) =
        feval F (map (fun p => feval F p s) polys) v -
        feval F (map (fun p => feval F p (rotation_point qs (fst rw))) polys) v /\
      snd rw = smul wit G)
    (combine (rotations qs) w) ->
  smul s (gwc_left u w) = msub (gwc_right_pt u v w qs) (smul (gwc_right_sc u v qs) G).
Proof. exact (honest_accepted F M s G u v w qs). Qed.
Print Assumptions C21_honest_openings_accepted.

(** Acceptance for as many [u] as opening points forces the opening equation at every point. *)
Theorem C21_batch_sound_in_u (F : Fld) (M : Mod F) (s : F) (G : M) (v : F) (w : list M)
        (qs : list (query F M)) (us : list F) :
  length w = length (rotations qs) -> NoDup us -> (length (rotations qs) <= length us)%nat ->
  (forall u, In u us -> smul s (gwc_left u w) = msub (gwc_right_pt u v w qs) (smul (gwc_right_sc u v qs) G)) ->
  Forall (fun rw => opening_holds s G v qs (fst rw) (snd rw)) (combine (rotations qs) w).
Proof. exact (gwc_sound F M s G v w qs us). Qed.
Print Assumptions C21_batch_sound_in_u.

(** Every column query of the circuit is in the list, with the queried column's
    commitment, the claimed evaluation and the point x*omega^rotation. *)
Theorem C21_column_queries_present (F : Fld) (M : Mod F) (p : params F M) qs :
  queries p = Some qs ->
  forall k ics ievs acs aevs,
    (k < length (p_instance_commitments p))%nat ->
    nth_error (p_instance_commitments p) k = Some ics -> nth_error (p_instance_evals p) k = Some ievs ->
    nth_error (p_advice_commitments p) k = Some acs -> nth_error (p_advice_evals p) k = Some aevs ->
  forall i column rot,
    (nth_error (p_instance_queries p) i = Some (column, rot) -> query_present p qs ics ievs i column rot) /\
    (nth_error (p_advice_queries p) i = Some (column, rot) -> query_present p qs acs aevs i column rot) /\
    (nth_error (p_fixed_queries p) i = Some (column, rot) ->
       query_present p qs (p_fixed_commitments p) (p_fixed_evals p) i column rot).
Proof. exact (column_queries_present F M p qs). Qed.
Print Assumptions C21_column_queries_present.

(** The permutation products, lookup products/permuted columns and sigma
    commitments are opened where the argument needs them. *)
Theorem C21_argument_queries_present (F : Fld) (M : Mod F) (p : params F M) qs :
  queries p = Some qs ->
  (forall i c e, nth_error (p_permutation_commitments p) i = Some c -> nth_error (p_permutation_evals p) i = Some e ->
     exists q, In q qs /\ opens F M q (p_x p) 0 c e) /\
  (forall k pe i s, (k < length (p_instance_commitments p))%nat ->
     nth_error (p_permutation p) k = Some pe -> nth_error (pe_sets pe) i = Some s ->
     (exists q, In q qs /\ opens F M q (pe_x pe) 0 (ps_commitment s) (ps_eval s)) /\
     (exists q, In q qs /\ opens F M q (p_x_next p) 1 (ps_commitment s) (ps_next_eval s)) /\
     ((S i < length (pe_sets pe))%nat ->
      exists q e, In q qs /\ ps_last_eval s = Some e /\
        opens F M q (p_x_last p) (- Z.of_nat (pe_blinding_factors pe + 1)) (ps_commitment s) e)) /\
  (forall k lks le, (k < length (p_instance_commitments p))%nat ->
     nth_error (p_lookup p) k = Some lks -> In le lks ->
     (exists q, In q qs /\ opens F M q (p_x p) 0 (le_product_commitment le) (le_product_eval le)) /\
     (exists q, In q qs /\ opens F M q (p_x_next p) 1 (le_product_commitment le) (le_product_next_eval le)) /\
     (exists q, In q qs /\ opens F M q (p_x p) 0 (le_permuted_input_commitment le) (le_permuted_input_eval le)) /\
     (exists q, In q qs /\ opens F M q (p_x_inv p) (-1) (le_permuted_input_commitment le) (le_permuted_input_inv_eval le)) /\
     (exists q, In q qs /\ opens F M q (p_x p) 0 (le_permuted_table_commitment le) (le_permuted_table_eval le))).
Proof. exact (argument_queries_present F M p qs). Qed.
Print Assumptions C21_argument_queries_present.

Example C21_example :
  let p := ex_params "a_p0" (f101 5) in
  queries p <> None /\ batch_multi_open_proofs p <> None.
Proof. cbv zeta. split; apply is_some_ne; vm_compute; reflexivity. Qed.

(** ** C22 *)
Section Pairing.
  (** The pairing is an abstract bilinear map, injective in its first argument at [g2]. *)
  Variable F : Fld.
  Variables G1 G2 GT : Mod F.
  Variable e : G1 -> G2 -> GT.
  Hypothesis e_bilinear : forall a P Q, e (smul a P) Q = e P (smul a Q).
  Variable g2 : G2.
  Hypothesis e_nondegenerate : forall P Q, e P g2 = e Q g2 -> P = Q.

  (** verify_circuit.rs:183-190: e(w_x, s g2) = e(w_g, g2) *)
  Definition pairing_check (s : F) (lr : G1 * G1) : Prop := e (fst lr) (smul s g2) = e (snd lr) g2.

  Definition combined (c : F) (lrs : list (G1 * G1)) : G1 * G1 :=
    (msum_pow (rev (map fst lrs)) c, msum_pow (rev (map snd lrs)) c).

  Theorem C22_aggregation_complete s c lrs :
    Forall (pairing_check s) lrs -> pairing_check s (combined c lrs).
  Proof. exact (aggregation_complete F G1 G2 GT e e_bilinear g2 e_nondegenerate s c lrs). Qed.

  Theorem C22_aggregation_sound s cs lrs :
    NoDup cs -> (length lrs <= length cs)%nat ->
    (forall c, In c cs -> pairing_check s (combined c lrs)) ->
    Forall (pairing_check s) lrs.
  Proof. exact (aggregation_sound F G1 G2 GT e e_bilinear g2 e_nondegenerate s cs lrs). Qed.
End Pairing.
Print Assumptions C22_aggregation_complete.
Print Assumptions C22_aggregation_sound.

(** The pair produced by the verifier is that combination of the GWC
    accumulators of the proofs. *)
Theorem C22_verifier_output (F : Fld) (M : Mod F) (ps : list (params F M)) qss ms (c : F) m (G : M) :
  mapM queries ps = Some qss -> mapM batch_multi_open_proofs ps = Some ms -> aggregate c ms = Some m ->
  consistent (flat_map (fun pq => named_commitments (p_key (fst pq)) (p_w (fst pq)) (snd pq)) (combine ps qss)) ->
  ((2 <= length ps)%nat \/ Forall (fun qs => (2 <= length (rotations qs))%nat) qss) ->
  evaluate_multiopen_proof G m =
    Some (combined F M c (map (fun pq => let '(p, qs) := pq in
            (gwc_left (p_u p) (p_w p),
             msub (gwc_right_pt (p_u p) (p_v p) (p_w p) qs) (smul (gwc_right_sc (p_u p) (p_v p) qs) G)))
          (combine ps qss))).
Proof. exact (verifier_output F M ps qss ms c m G). Qed.
Print Assumptions C22_verifier_output.

Example C22_example :
  let ps := [ex_params "a_p0" (f101 5); ex_params "a_p1" (f101 6)] in
  exists qss ms m, mapM queries ps = Some qss /\ mapM batch_multi_open_proofs ps = Some ms /\
    aggregate (f101 9) ms = Some m /\
    consistent (flat_map (fun pq => named_commitments (p_key (fst pq)) (p_w (fst pq)) (snd pq)) (combine ps qss)).
Proof. exact aggregate_example. Qed.

(** ** C23 *)
Theorem C23_lagrange_values (F : Fld) (l n : nat) (omega x : F) :
  primitive_root F omega n -> nat_f F n <> 0 ->
  (forall i, (i <= l)%nat -> x <> fpow (finv omega) i) ->
  exists ls, get_lagrange_commits l (nat_f F n) x (fpow x n) 1 omega = Some ls /\
    length ls = S l /\
    forall i, (i <= l)%nat ->
      forall p : list F, (length p <= n)%nat -> feval F p (fpow (finv omega) i) = 1 ->
        (forall z, In z (domain F omega n) -> z <> fpow (finv omega) i -> feval F p z = 0) ->
        nth_error ls i = Some (feval F p x).
Proof. exact (get_lagrange_commits_ok F l n omega x). Qed.
Print Assumptions C23_lagrange_values.

(** The Lagrange polynomial of the statement exists. *)
Theorem C23_lagrange_poly_exists (F : Fld) (omega w : F) (n : nat) :
  primitive_root F omega n -> nat_f F n <> 0 -> In w (domain F omega n) ->
  exists p : list F, (length p <= n)%nat /\ feval F p w = 1 /\
    forall z, In z (domain F omega n) -> z <> w -> feval F p z = 0.
Proof. exact (lagrange_poly_exists F omega w n). Qed.
Print Assumptions C23_lagrange_poly_exists.

(** At the excluded points the verifier aborts (division by zero). *)
Theorem C23_abort_on_domain_points (F : Fld) (l n : nat) (omega x : F) :
  omega <> 0 -> (exists i, (i <= l)%nat /\ x = fpow (finv omega) i) ->
  get_lagrange_commits l (nat_f F n) x (fpow x n) 1 omega = None.
Proof. exact (get_lagrange_commits_panics F l n omega x). Qed.
Print Assumptions C23_abort_on_domain_points.

Example C23_example :
  primitive_root F101 (f101 10) 4 /\ nat_f F101 4 <> f0 /\
  (forall i, (i <= 2)%nat -> f101 3 <> fpow (finv (f101 10)) i).
Proof. exact lagrange_example. Qed.

(** ** C24 *)
Theorem C24_vanishing_identity (F : Fld) (M : Mod F) (p : params F M) qs :
  params_consistent F M p -> queries p = Some qs ->
  exists ls hq rq init,
    get_lagrange_commits (p_l p) (p_n p) (p_x p) (p_xn p) 1 (p_omega p) = Some ls /\
    qs = init ++ [hq; rq] /\
    q_point hq = p_x p /\ q_rotation hq = 0%Z /\
    fst (claim hq) = msum_pow (p_vanish_commitments p) (p_xn p) /\
    snd (claim hq) * (p_xn p - 1) =
      compress (all_constraints p (nth 0 ls 0) (nth (p_l p) ls 0)
                  (fold_right fadd 0 (firstn (p_l p - 1) (skipn 1 ls)))) (p_y p) /\
    q_point rq = p_x p /\ q_rotation rq = 0%Z /\
    claim rq = (p_random_commitment p, p_random_eval p).
Proof. exact (queries_vanish F M p qs). Qed.
Print Assumptions C24_vanishing_identity.

Example C24_example :
  params_consistent F101 (self_mod F101) (ex_params "a_p0" (f101 5)) /\ queries (ex_params "a_p0" (f101 5)) <> None /\
  length (all_constraints (ex_params "a_p0" (f101 5)) (f101 1) (f101 2) (f101 3)) = 11%nat.
Proof. exact consistent_example. Qed.

(** ** C25 *)
(** Missing: exponents from 2^31 on, for which the loop does not end (refuted below). *)
Theorem C25_pow_constant_partial (F : Fld) (base : F) (e : N) (fuel : nat) :
  (1 <= e < 2 ^ 31)%N -> (33 <= fuel)%nat ->
  pow_constant fuel base e = Some (fpow base (N.to_nat e)).
Proof. intros H1 H2. exact (pow_constant_ok F fuel base e H1 H2). Qed.
Print Assumptions C25_pow_constant_partial.

Example C25_example : pow_constant 33 (f101 2) 1000 = Some (fpow (f101 2) 1000).
Proof. apply C25_pow_constant_partial; lia. Qed.

(** For exponents 2^31 .. 2^32-1 (all meeting the function's own precondition)
    the loop computing the top bit never ends: no amount of fuel suffices. *)
Theorem C25_large_exponent_refuted :
  exists e : N, (1 <= e < 2 ^ 32)%N /\ forall (F : Fld) (base : F) fuel, pow_constant fuel base e = None.
Proof.
  exists (2 ^ 31)%N. split; [lia|]. intros F base fuel. apply (pow_constant_diverges F fuel base). lia.
Qed.
Print Assumptions C25_large_exponent_refuted.

(** ** C29 *)
Theorem C29_instance_commitments (F : Fld) (M : Mod F) (cols n blinding : nat) (gl : list M)
        (instances : list (list (list F))) :
  (forall i, In i instances -> length i = cols) ->
  (forall i c, In i instances -> In c i -> (length c + blinding + 1 <= n)%nat) ->
  (n <= length gl)%nat ->
  assign_instance_commitment cols n blinding gl instances =
    Some (concat (concat instances),
          map (map (fun c => fold_right madd m0 (map (fun sg => smul (fst sg) (snd sg)) (combine c gl)))) instances).
Proof. exact (instance_commitments F M cols n blinding gl instances). Qed.
Print Assumptions C29_instance_commitments.

(** A column longer than the usable rows, or a wrong number of columns, is refused. *)
Theorem C29_bad_instances_refused (F : Fld) (M : Mod F) (cols n blinding : nat) (gl : list M)
        (instances : list (list (list F))) i :
  In i instances -> length i <> cols \/ (exists c, In c i /\ (n < length c + blinding + 1)%nat) ->
  assign_instance_commitment cols n blinding gl instances = None.
Proof. exact (bad_instances_refused F M cols n blinding gl instances i). Qed.
Print Assumptions C29_bad_instances_refused.

Example C29_example :
  let gl := map f101 [1; 2; 3; 4; 5; 6; 7; 8]%Z in
  let inst := [[map f101 [4; 5]%Z; []]] in
  assign_instance_commitment (M := self_mod F101) 2 8 3 gl inst = Some (map f101 [4; 5]%Z, [[f101 14; f101 0]]).
Proof. vm_compute. reflexivity. Qed.
