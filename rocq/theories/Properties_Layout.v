(** Property C53: the circuit does not depend on the proofs.

    halo2 lays the circuit out twice: for the keys, with template proofs, and for a proof of
    the circuit, with the proofs to be aggregated.  A proof can only be made if both layouts
    have the same rows, the same copies and lookups, and tie the same cells to the public
    inputs: no decision of the chips may depend on the values in the cells. *)
From Coq Require Import String ZArith NArith Arith Lia List Bool.
From Verif Require Import Util Algebra ListFacts Schema Plonk Poseidon PoseidonSpec BuildParams.
From Verif Require Import PField Gate GateProofs GateOps GateExtra Integer Bn254 Bn254Prime IntegerFacts IntegerSound IntegerComplete IntegerHistorySound IntegerHistory IntegerHistoryComplete
  CircuitCheck Curve CurveAssoc Bn254Curve Ecc EccSound EccScalar EccMul EccComplete EccHistory CurveOrder GeneratorOrder EccMulComplete EccHonest EccLucky CurveMod CircuitSponge Calls VerifierCalls VerifierCallsTop
  VerifyCircuit VerifyCircuitProofs Properties_Integer Properties_Ecc Properties_EccHonest Properties_Circuit CircuitRun CircuitRunSpec CallOrder CircuitHonest CircuitHonestTop ExponentRun Properties_Calls Properties_CircuitRun Properties_CircuitComplete Shape ShapeRun.
Import ListNotations.
Local Open Scope Z_scope.
Local Notation fr_n := (eq_refl : pf_n Fr = fr_mod).
Local Notation fq_n := (eq_refl : pf_n Fq = fq_mod).

(** ** One row

    Two layouts at the same point: the same offset, the same constraints so far. *)
Definition alike {N : PF} (c c' : ctx N) : Prop := offset c = offset c' /\ emitted c = emitted c'.
Definition same_cell {N : PF} (a b : aval N) : Prop := av_cell a = av_cell b.
Section Row.
  Variable N : PF.
  Local Notation RS := (RS N same_cell).
  Lemma copies_alike r (ps1 ps2 : list (vschema N * N)) : Forall2 (both RS eq) ps1 ps2 -> forall i, copies_of r i ps1 = copies_of r i ps2.
  Proof.
    induction 1 as [|s s' l1 l2 Hs _ IH]; intro i; [reflexivity|]. destruct s as [[a|u] k], s' as [[b|v] k'], Hs as [H _]; cbn in H; try contradiction; cbn [copies_of]; [|apply IH].
    rewrite IH. unfold same_cell in H. now rewrite H.
  Qed.
  Lemma cells_alike r (ps1 ps2 : list (vschema N * N)) : Forall2 (both RS eq) ps1 ps2 -> forall i, Forall2 same_cell (cells_of r i ps1) (cells_of r i ps2).
  Proof. induction 1 as [|[s k] [s' k'] l1 l2 _ _ IH]; intro i; cbn [cells_of]; constructor; [reflexivity|apply IH]. Qed.
  Lemma coeffs_alike (ps1 ps2 : list (vschema N * N)) : Forall2 (both RS eq) ps1 ps2 -> map snd ps1 = map snd ps2.
  Proof. induction 1 as [|[s k] [s' k'] l1 l2 [_ H] _ IH]; [reflexivity|]. cbn in *. now rewrite IH, H. Qed.
  Lemma line_alike (ps1 ps2 : list (vschema N * N)) k mc nx : Forall2 (both RS eq) ps1 ps2 -> shp N alike (one_line ps1 k mc nx) (one_line ps2 k mc nx) (Forall2 same_cell).
  Proof.
    intro H. unfold one_line. eapply (shp_bind N alike); [apply shp_guard|intros _ _ _]. eapply (shp_bind N alike); [apply shp_guard|intros _ _ _].
    intros c1 c2 [E1 E2] r1 d1 r2 d2 F1 F2. injection F1 as <- <-. injection F2 as <- <-.
    assert (K : Forall2 (both RS eq) (resize VAR_COLUMNS pair_empty ps1) (resize VAR_COLUMNS pair_empty ps2)) by (apply resize_rel; [apply empty_rel|exact H]).
    rewrite E1. split; [|apply cells_alike; exact K]. split; [reflexivity|]. cbn [emitted]. now rewrite (coeffs_alike _ _ K), (copies_alike _ _ _ K), E2.
  Qed.
  Lemma rline_alike {W : PF} b l (ps1 ps2 : list (vschema N * N)) k mc nx : configured N W b l -> Forall2 (both RS eq) ps1 ps2 ->
    shp N alike (one_line_in_range b l ps1 k mc nx) (one_line_in_range b l ps2 k mc nx) (Forall2 same_cell).
  Proof.
    intros _ H c1 c2 HC r1 d1 r2 d2. unfold one_line_in_range.
    destruct (one_line ps1 k mc nx c1) as [[x1 e1]|] eqn:F1; [|discriminate]. destruct (one_line ps2 k mc nx c2) as [[x2 e2]|] eqn:F2; [|discriminate].
    destruct (line_alike _ _ _ _ _ H c1 c2 HC _ _ _ _ F1 F2) as [[E1 E2] R]. intros G1 G2. injection G1 as <- <-. injection G2 as <- <-.
    split; [|exact R]. split; [exact E1|]. cbn [emitted]. rewrite E2. now rewrite (proj1 HC).
  Qed.
End Row.

(** ** The circuit *)
Lemma cells_same {N : PF} (l l' : list (aval N)) : Forall2 same_cell l l' -> map av_cell l = map av_cell l'.
Proof. induction 1 as [|a b l l' H _ IH]; [reflexivity|]. cbn. unfold same_cell in H. now rewrite H, IH. Qed.
Section C53.
  (** Any fields, any group of commitments, any encodings, any constants of the sponge. *)
  Variables N W : PF.
  Variable M : Mod N.
  Variable affine : M -> point W.
  Variables (PT SC : nat).
  Variable pt_decode : list Z -> option M.
  Variable sc_decode : list Z -> option N.
  Variable sp : pspec N.
  Variable RATE : nat.
  Variable init : list N.
  Variable generator : M.
  Notation given := (given N (kzg N M) (key N M)).
  Notation layout := (x_synthesize N W M affine PT SC pt_decode sc_decode sp RATE init generator).

  Lemma same_calls nw (gs gs' : list given) : Forall2 same_but_proofs gs gs' ->
    c_verify_aggregation_proofs_in_chip N M 0%nat (hcircuits_of N M unit nw 1%nat (given_circuits N M gs)) 0%nat =
    c_verify_aggregation_proofs_in_chip N M 0%nat (hcircuits_of N M unit nw 1%nat (given_circuits N M gs')) 0%nat.
  Proof.
    intro H. apply C49_same_calls. unfold given_circuits. induction H as [|g g' gs gs' (_ & H2 & H3 & H4) _ IH]; cbn [map]; constructor; [|exact IH].
    unfold circuit_proof_of. cbn [cp_vk cp_columns cp_g_lagrange cp_proofs]. rewrite H2, H3. do 3 (split; [reflexivity|]). clear - H4.
    induction H4 as [|p p' l l' [A B] _ IH]; cbn [map]; constructor; [|exact IH]. cbn. split; [symmetry; exact B|symmetry; exact A].
  Qed.
  Lemma same_bytes_length (gs gs' : list given) : Forall2 same_but_proofs gs gs' -> List.length (given_bytes N M gs) = List.length (given_bytes N M gs').
  Proof.
    unfold given_bytes. induction 1 as [|g g' gs gs' (_ & _ & _ & H) _ IH]; [reflexivity|]. cbn [map concat]. rewrite !app_length, IH, !map_length. f_equal. clear - H.
    induction H; cbn; congruence.
  Qed.

  (** Two sets of proofs for the same circuits, with instances of the same shapes: if both can
      be laid out, the constraints are the same and the same cells are public inputs. *)
  Theorem C53_same_circuit nw (gs gs' : list given) coherent column notes c column' notes' c' :
    Forall2 same_but_proofs gs gs' ->
    layout nw gs coherent (ctx0 N) = Some ((column, notes), c) -> layout nw gs' coherent (ctx0 N) = Some ((column', notes'), c') ->
    emitted c = emitted c' /\ offset c = offset c' /\ map av_cell column = map av_cell column'.
  Proof.
    intros H E E'.
    destruct (x_synthesize_shp N W M affine PT SC pt_decode sc_decode sp RATE init generator alike same_cell (line_alike N) (rline_alike N) nw gs gs' coherent
      (same_calls nw gs gs' H) (same_bytes_length gs gs' H) (ctx0 N) (ctx0 N) (conj eq_refl eq_refl) _ _ _ _ E E') as [[A B] C].
    split; [exact B|]. split; [exact A|]. apply cells_same. exact C.
  Qed.
  (** Hence whatever the prover writes, it satisfies one circuit if and only if it satisfies
      the other, with the same public inputs. *)
  Theorem C53_same_solutions nw (gs gs' : list given) coherent column notes c column' notes' c' w :
    Forall2 same_but_proofs gs gs' ->
    layout nw gs coherent (ctx0 N) = Some ((column, notes), c) -> layout nw gs' coherent (ctx0 N) = Some ((column', notes'), c') ->
    (sat w c <-> sat w c') /\ map (fun a => w (av_cell a)) column = map (fun a => w (av_cell a)) column'.
  Proof.
    intros H E E'. destruct (C53_same_circuit nw gs gs' coherent _ _ _ _ _ _ H E E') as (A & _ & C). unfold sat. rewrite A. split; [reflexivity|].
    rewrite <- !(map_map av_cell w). now rewrite C.
  Qed.

  (** *** Keys and proofs

      What [keygen] lays out for a [Setup] and what [create_proof] lays out for a
      [CreateProof] of the same circuits (C42): the same but for the proofs, if all proofs of
      a circuit have instances of the same shape. *)
  Notation setup := (setup N (kzg N M) (key N M)).
  Notation create := (create_proof N (kzg N M) (key N M)).
  Definition keygen_layout (ss : list setup) : option (list given) :=
    do circuits <- setup_call ss; mapM (fun c => do c' <- without_witnesses c; synthesized c') circuits.
  Definition of_the_same_circuit (s : setup) (c : create) : Prop :=
    s_name s = c_name c /\ s_params s = c_params c /\ s_vk s = c_vk c /\ s_nproofs s = c_nproofs c /\
    forall p q, In p (s_proofs s) -> In q (c_template_proofs c) -> shape (pp_instances q) = shape (pp_instances p).
  Lemma Forall2_idx {A B C} (R : A -> B -> Prop) (S : A -> C -> Prop) (T : B -> C -> Prop) l l1 l2 :
    Forall2 R l l1 -> Forall2 S l l2 -> (forall a b c, In a l -> R a b -> S a c -> T b c) -> Forall2 T l1 l2.
  Proof.
    intro H. revert l2. induction H as [|a b l l1 Hab _ IH]; intros l2 H2 K; inversion H2 as [|? c ? l2' Hac H2']; subst; [constructor|].
    constructor; [apply (K a); [left; reflexivity|exact Hab|exact Hac]|]. apply IH; [exact H2'|]. intros x y z Hx. apply K. right. exact Hx.
  Qed.
  Lemma combine_zip {A B C} (f : A -> B) (g : A -> C) l : combine (map f l) (map g l) = map (fun x => (f x, g x)) l.
  Proof. induction l as [|a l IH]; [reflexivity|]. cbn. now rewrite IH. Qed.
  Lemma zip_map (ps : list (proof_pair N)) : map (fun it => PP (fst it) (snd it)) (combine (map pp_instances ps) (map pp_transcript ps)) = ps.
  Proof. rewrite combine_zip, map_map. erewrite map_ext; [apply map_id|]. intros []. reflexivity. Qed.
  Theorem C53_keys_and_proofs (ss : list setup) (cs : list create) laid circuit native :
    Forall2 of_the_same_circuit ss cs -> keygen_layout ss = Some laid -> create_call cs = Some (circuit, native) ->
    Forall2 same_but_proofs laid circuit.
  Proof.
    intros H K C. unfold keygen_layout, setup_call in K. destruct (new_verify_circuit_info true ss) as [os|] eqn:Eo; [|discriminate].
    unfold create_call in C. cbv zeta in C. destruct (new_verify_circuit_info false _) as [os'|] eqn:Eo' in C; [|discriminate].
    destruct (mapM synthesized (map circuit_of os')) as [cir|] eqn:Ec; [|discriminate]. destruct (mapM calculated os') as [nat_|]; [|discriminate]. injection C as <- _.
    unfold new_verify_circuit_info in Eo, Eo'. apply mapM_Forall2 in Eo, Eo', Ec, K.
    revert os os' laid cir Eo Eo' Ec K. induction H as [|s c ss cs (H1 & H2 & H3 & H4 & H5) _ IH]; intros os os' laid cir Eo Eo' Ec K; cbn [map] in *.
    - inversion Eo; subst. inversion Eo'; subst. inversion Ec; subst. inversion K; subst. constructor.
    - inversion Eo as [|? o ? os1 Eo1 Eo2]; subst. inversion Eo' as [|? o' ? os1' Eo1' Eo2']; subst. cbn [map] in *.
      inversion Ec as [|? g' ? cir1 Ec1 Ec2]; subst. inversion K as [|? g ? laid1 K1 K2]; subst. constructor; [|exact (IH _ _ _ _ Eo2 Eo2' Ec2 K2)].
      clear IH Eo Eo' Ec K Eo2 Eo2' Ec2 K2.
      unfold circuit_info in Eo1, Eo1'. cbn [s_nproofs s_proofs s_name s_params s_vk] in Eo1'.
      destruct (mapM _ (seq 0 (s_nproofs s))) as [ps|] eqn:Ep in Eo1; [|discriminate]. injection Eo1 as <-.
      destruct (mapM _ (seq 0 (c_nproofs c))) as [ps'|] eqn:Ep' in Eo1'; [|discriminate]. injection Eo1' as <-.
      unfold circuit_of in K1, Ec1. cbn [o_name o_params o_vk o_instances o_proofs o_nproofs] in K1, Ec1. rewrite zip_map in K1, Ec1.
      unfold without_witnesses in K1. cbn [v_proofs v_nproofs v_name v_params v_vk] in K1. destruct (mapM _ (seq 0 (s_nproofs s))) as [qs|] eqn:Eq in K1; [|discriminate].
      unfold synthesized in K1, Ec1. cbn [v_proofs v_nproofs v_name v_params v_vk] in K1, Ec1.
      destruct (mapM _ (seq 0 (s_nproofs s))) as [gp|] eqn:Eg in K1; [|discriminate]. injection K1 as <-.
      destruct (mapM _ (seq 0 (c_nproofs c))) as [gp'|] eqn:Eg' in Ec1; [|discriminate]. injection Ec1 as <-.
      unfold same_but_proofs. cbn [g_name g_params g_vk g_proofs]. split; [now symmetry|]. split; [now symmetry|]. split; [now symmetry|].
      rewrite H4 in *. apply mapM_Forall2 in Eg, Eg', Ep, Ep', Eq.
      assert (Ip : forall p, In p ps -> In p (s_proofs s)).
      { intros p Hp. clear - Ep Hp. induction Ep as [|i q l l' E _ IH]; [destruct Hp|]. destruct Hp as [<-|Hp]; [exact (nth_error_In _ _ E)|exact (IH Hp)]. }
      assert (Iq : forall q, In q qs -> In q ps).
      { intros q Hq. clear - Eq Hq. induction Eq as [|i r l l' E _ IH]; [destruct Hq|]. destruct Hq as [<-|Hq]; [exact (nth_error_In _ _ E)|exact (IH Hq)]. }
      assert (Ip' : forall p, In p ps' -> In p (c_template_proofs c)).
      { intros p Hp. clear - Ep' Hp. induction Ep' as [|i q l l' E _ IH]; [destruct Hp|]. destruct Hp as [<-|Hp]; [exact (nth_error_In _ _ E)|exact (IH Hp)]. }
      refine (Forall2_idx _ _ _ _ _ _ Eg Eg' _). intros i a b _ Ea Eb. cbv beta in Ea, Eb.
      destruct (nth_error qs i) as [q|] eqn:Eqi; [|discriminate]. injection Ea as <-. destruct (nth_error ps' i) as [p'|] eqn:Epi; [|discriminate]. injection Eb as <-.
      cbn [gp_key gp_instances]. rewrite H1. split; [reflexivity|]. apply H5; [apply Ip, Iq, (nth_error_In _ _ Eqi)|apply Ip', (nth_error_In _ _ Epi)].
  Qed.
End C53.
Print Assumptions C53_same_circuit.
Print Assumptions C53_same_solutions.
Print Assumptions C53_keys_and_proofs.

(** ** An honest prover and the circuit of the keys

    A template [gs] was laid out as [c] when the keys were made.  The proofs [gs'] are
    accepted natively, for the same circuits.  Then there is an assignment that satisfies
    the constraints of [c] and gives its public cells the public inputs of [gs'].

    Partial as C52: the slopes of the tangents must exist. *)
Section Prover.
  Variables (PT SC : nat).
  Hypothesis Hpos : (1 <= PT)%nat.
  Variable pt_decode : list Z -> option BN.
  Variable sc_decode : list Z -> option Fr.
  Variable sp : pspec Fr.
  Variable RATE : nat.
  Hypothesis wf : wf_spec sp RATE.
  Variable init : list Fr.
  Hypothesis L0 : List.length init = S RATE.
  Variable generator : BN.
  Notation sponge := (pstate Fr (mock_chip Fr)).
  Notation given := (given Fr (kzg Fr BN) (key Fr BN)).
  Notation layout := (x_synthesize Fr Fq BN affine PT SC pt_decode sc_decode sp RATE init generator).
  Notation native_aggregation := (verify_aggregation_proofs_in_chip Fr BN PT SC pt_decode sc_decode sponge
    (native_pt Fr Fq BN affine) (native_sc Fr) (native_sqz Fr sp RATE)).
  Notation opening_points_counted nw gs := (counts Fr BN PT SC pt_decode sc_decode sponge (native_pt Fr Fq BN affine) (native_sc Fr) (native_sqz Fr sp RATE) nw 1
    (all_proofs Fr BN sponge (map (circuit_proof_of Fr BN sponge (start init)) gs))).
  Theorem C53_prover_satisfies_setup_partial nw (gs gs' : list given) coherent column notes c wx wg ins advices ns :
    Forall2 same_but_proofs gs gs' -> layout nw gs coherent (ctx0 Fr) = Some ((column, notes), c) ->
    (forall g, nth_error gs 0 = Some g -> VerifyCircuit.k_generator _ _ (g_params g) = generator) ->
    native_aggregation (map (circuit_proof_of Fr BN sponge (start init)) gs') (start init) = Some (wx, wg, ins, advices) ->
    final_pair_to_instances Fr Fq (affine wx) (affine wg) ins = Some ns -> opening_points_counted nw gs' ->
    Forall (commitments_agree advices) coherent -> slopes_given PT SC pt_decode sc_decode sp RATE init generator nw gs' ->
    exists w, sat w c /\ map (fun a => w (av_cell a)) column = ns.
  Proof.
    intros Hsame E Hg Ea En Hc Hco Hs.
    assert (Hg' : forall g, nth_error gs' 0 = Some g -> VerifyCircuit.k_generator _ _ (g_params g) = generator).
    { intros g Hk. destruct Hsame as [|g0 g1 gs gs' (_ & H2 & _) _]; [discriminate|]. cbn in Hk. injection Hk as <-. rewrite H2. exact (Hg g0 eq_refl). }
    destruct (C52_circuit_complete_partial PT SC Hpos pt_decode sc_decode sp RATE wf init L0 generator nw gs' coherent wx wg ins advices ns Hg' Ea En Hc Hco Hs)
      as (column' & notes' & c' & E' & Hsat & _ & _ & _ & Hcol).
    destruct (C53_same_solutions Fr Fq BN affine PT SC pt_decode sc_decode sp RATE init generator nw gs gs' coherent _ _ _ _ _ _ (adv c') Hsame E E') as [A B].
    exists (adv c'). split; [apply (proj2 A); exact Hsat|]. rewrite B. exact Hcol.
  Qed.
End Prover.
Print Assumptions C53_prover_satisfies_setup_partial.

(** ** Cases

    The circuit of C52's example with its key: a proof for the instance 5 as the template and
    another proof, for the instance 7.  Both are laid out, the constraints are those of the
    template, and what the second prover writes satisfies them with other public inputs. *)
Lemma mini_run7 : mini_run 7 4 3 11.
Proof. vm_compute. reflexivity. Qed.
Lemma mini_same v e v' e' : Forall2 same_but_proofs (minis v e) (minis v' e').
Proof. constructor; [|constructor]. split; [reflexivity|]. split; [reflexivity|]. split; [reflexivity|]. constructor; [|constructor]. split; reflexivity. Qed.
Notation mini_layout v e := (x_synthesize Fr Fq BN affine 2 1 pair_decode one_decode (two_spec Fr) 1 (two_init Fr) G12 (fun _ => 2%nat) (minis v e) [] (ctx0 Fr)).
Example C53_example : exists column notes c w,
  Forall2 same_but_proofs (minis 5 0) (minis 7 4) /\ mini_layout 5 0 = Some ((column, notes), c) /\ (exists r, mini_layout 7 4 = Some r) /\
  sat (adv c) c /\ map toZ (map (fun a => adv c (av_cell a)) column) = words (Curve.smul 3 (G Fq)) ++ words (Curve.smul 15 (G Fq)) ++ [5] /\
  sat w c /\ map toZ (map (fun a => w (av_cell a)) column) = words (Curve.smul 3 (G Fq)) ++ words (Curve.smul 11 (G Fq)) ++ [7].
Proof.
  destruct (mini_circuit 5 0 3 15 mini_run5 ltac:(discriminate) ltac:(discriminate)) as (ns & column & notes & c & E & Hs & _ & _ & _ & Hc & Hz).
  destruct (mini_circuit 7 4 3 11 mini_run7 ltac:(discriminate) ltac:(discriminate)) as (ns' & column' & notes' & c' & E' & Hs' & _ & _ & _ & Hc' & Hz').
  destruct (C53_same_solutions Fr Fq BN affine 2 1 pair_decode one_decode (two_spec Fr) 1 (two_init Fr) G12 (fun _ => 2%nat) (minis 5 0) (minis 7 4) [] _ _ _ _ _ _
    (adv c') (mini_same 5 0 7 4) E E') as [A B].
  exists column, notes, c, (adv c'). split; [apply mini_same|]. split; [exact E|]. split; [exists ((column', notes'), c'); exact E'|].
  split; [exact Hs|]. split; [rewrite Hc; exact Hz|]. split; [apply (proj2 A); exact Hs'|]. rewrite B, Hc'. exact Hz'.
Qed.
Print Assumptions C53_example.
(** Keys made from one template, two proofs to aggregate: what the keys are made for and what
    the prover lays out. *)
Example C53_example_keys : let pp v e := PP [[[fr v]]] [1; 2; 1; 2; 1; 2; e; 0; 0; 1; 2; 1; 2] in
  let s := mkSetup "c"%string (mkKzg Fr BN [G12] G12) (mini_vk BN, 1%nat) [pp 5 0] 2%nat in
  let k := mkCreate "c"%string (mkKzg Fr BN [G12] G12) (mini_vk BN, 1%nat) [pp 7 4; pp 5 0] [pp 7 4; pp 5 0] 2%nat in
  Forall2 (of_the_same_circuit Fr BN) [s] [k] /\ exists laid circuit native, keygen_layout Fr BN [s] = Some laid /\ create_call [k] = Some (circuit, native) /\
    map (fun g => List.length (g_proofs g)) laid = [2%nat] /\ given_bytes Fr BN laid <> given_bytes Fr BN circuit.
Proof.
  split.
  - constructor; [|constructor]. do 4 (split; [reflexivity|]). intros p q [<-|[]] [<-|[<-|[]]]; reflexivity.
  - eexists _, _, _. split; [reflexivity|]. split; [reflexivity|]. split; [reflexivity|]. discriminate.
Qed.
