(** C50: from the verification key to the contract.  The operations that the generator
    emits code for are those of the verifier, so the contract decides what
    [verify_single_proof_in_chip] computes. *)
From Coq Require Import String ZArith NArith Arith List Bool Lia.
From Verif Require Import Util Algebra PField Poseidon PoseidonSpec Bn254 Bn254Prime Curve CurveAssoc Bn254Curve CurveMod Bytes Evm SolIr SolAgg SolPool SolSem SolMemOpt SolAggDriver SolMulAdd
  EvmProofs ShaProofs SolScan SolIntervals SolAggProofs ChipRun SolChip SolChipProofs SolEmit SolSharing SolCheck Properties_Emission
  Schema Plonk BuildParams Calls VerifierCalls CallsSim VerifierCallsProofs VerifierCallsTop SolCalls SolCallsProofs.
From Verif Require ShaTranscript.
Import ListNotations.

Section Operations.
  Variables S W : PF.
  Variable b : W.
  Hypothesis two : fadd f1 f1 <> (f0 : W).
  Hypothesis noy : forall x y : W, on_curve b (Aff x y) -> y <> f0.
  Hypothesis order : forall P : point W, on_curve b P -> Curve.smul (Z.to_N (pf_n S)) P = Inf.
  Notation M := (CM S W b two noy order).
  Variable H : list Z -> list Z.
  Variable ident_ok : bool.
  Variable generator : M.
  Notation pt := (fun P : M => proj1_sig P).
  Notation decode := (sha_pt S W b ident_ok M (lift_pt W b)).
  Notation verifier := (verify_single_proof_in_chip S M 64 32 decode (sha_sc S) sha_state (sha_upd_pt S W ident_ok M pt) (sha_upd_sc S) (sha_sqz S H)).
  Notation opening_points := (opening_points S M 64 32 decode (sha_sc S) sha_state (sha_upd_pt S W ident_ok M pt) (sha_upd_sc S) (sha_sqz S H)).
  Notation verifier_ops := (verifier_ops S W M pt generator).

  (** Whenever the verifier reads a proof with [nw] opening points through the SHA
      transcript and returns [wx] and [wg], the operations made for [nw] opening points
      and instances of this shape run on the proof and yield [wx] and [wg] at the
      positions that enter the pairing check. *)
  Theorem C50_operations vk nw columns g_lagrange instances proof wx wg insts advice rest st :
    verifier vk columns g_lagrange generator instances (mkTr proof (Some [])) = Some (wx, wg, insts, advice, mkTr rest (Some st)) ->
    opening_points (mkCP vk columns g_lagrange generator []) (mkPD instances (mkTr proof (Some [])) "") = Some nw ->
    exists l ix ig n, verifier_ops vk nw columns g_lagrange (map (map (@List.length S)) instances) = Some (l, ix, ig) /\
      native b H ident_ok l proof (concat (concat instances)) = Some n /\
      n_p (n_vals n) ix = Some (proj1_sig wx) /\ n_p (n_vals n) ig = Some (proj1_sig wg) /\ n_rest n = rest /\ n_st n = st /\ n_inst n = [] /\
      Forall (const_on b) l.
  Proof.
    intros Hv Hn.
    destruct (proj1 (single_calls S M 64 32 decode (sha_sc S) sha_state (sha_upd_pt S W ident_ok M pt) (sha_upd_sc S) (sha_sqz S H) generator
      ltac:(lia) vk nw columns g_lagrange instances (mkTr proof (Some [])) [] wx wg insts advice (mkTr rest (Some st))) (conj Hv Hn))
      as (ca & cb & is_ & ad & calls & n & s' & Ec & Er & E1 & E2 & _ & _ & Ei & Et & _).
    rewrite app_nil_r in Er.
    assert (A : agree S W M pt ([], 0) (mkC [] (concat (concat instances)) [mkTr proof (Some [])]) (mkN [] (concat (concat instances)) [] proof))
      by (constructor; cbn; auto).
    destruct (calls_ok S W b H ident_ok M pt (lift_pt W b) generator (fun _ _ => eq_refl) (fun _ _ => eq_refl) (fun _ _ => eq_refl) (lift_pt_iff W b)
      (fun P HP => ex_intro _ (mk W b P HP) eq_refl) calls _ _ _ _ A Er) as (ops & [ren k] & ns & Tr & Nr & Ag).
    { intros [r D]. rewrite Et in D. discriminate D. }
    pose proof (look S W M pt _ _ _ ca Ag) as La. pose proof (look S W M pt _ _ _ cb Ag) as Lb. rewrite E1 in La. rewrite E2 in Lb. cbn [fst] in La, Lb.
    destruct (nth_error ren ca) as [ix|] eqn:Nx; [|destruct La; discriminate]. destruct (nth_error ren cb) as [ig|] eqn:Ng; [|destruct Lb; discriminate].
    destruct La as [_ La], Lb as [_ Lb].
    exists ops, ix, ig, ns. unfold SolCalls.verifier_ops. rewrite Ec. cbn [fst snd]. rewrite Tr, Nx, Ng. split; [reflexivity|]. split; [exact Nr|].
    split; [exact La|]. split; [exact Lb|]. destruct Ag as [_ _ A3 A4]. rewrite Et in A4. injection A4 as -> ->. rewrite Ei in A3. split; [reflexivity|]. split; [reflexivity|]. split; [now symmetry|].
    eapply (trs_const S W b M pt generator); [|exact Tr]. intro m. apply cpt_on.
  Qed.
End Operations.
Print Assumptions C50_operations.

Section Contract.
  Variables S W : PF.
  Hypothesis HS : pf_n S = q_mod.
  Hypothesis HW : pf_n W = p_mod.
  Notation b := (ofZ 3 : W).
  Notation M := (G1 S W HS HW).
  Variable ident_ok checked : bool.
  Variable sha256 : list Z -> list Z.
  Hypothesis sha_ok : forall l, Forall byte (sha256 l) /\ List.length (sha256 l) = 32%nat.
  Variable H : list Z -> list Z.
  Variable sp : pspec S.
  Variables T RATE : nat.
  Variable init : list S.
  Hypothesis shape_ok : sponge_shape S sp T.
  Variable generator : M.
  Notation pt := (fun P : M => proj1_sig P).
  Notation decode := (sha_pt S W b ident_ok M (lift_pt W b)).
  Notation verifier := (verify_single_proof_in_chip S M 64 32 decode (sha_sc S) sha_state (sha_upd_pt S W ident_ok M pt) (sha_upd_sc S) (sha_sqz S sha256)).
  Notation opening_points := (opening_points S M 64 32 decode (sha_sc S) sha_state (sha_upd_pt S W ident_ok M pt) (sha_upd_sc S) (sha_sqz S sha256)).
  Notation verifier_ops := (verifier_ops S W M pt generator).
  Notation generate := (generate S W b ident_ok H sp T RATE init).

  (** The contract generated from a verification key and a sample proof with [nw] opening
      points and instances of shape [shape].  For every proof and instances of the same
      shape on which the verifier computes the points [wx] and [wg], the contract
      accepts exactly if the pairing checks of [wx], [wg] and of the final pair succeed.
      Missing: proofs that the verifier rejects while reading, verifiers that subtract
      the identity ([fine]), and the conditions of the passes (as in [C47_contract_partial]). *)
  Theorem C50_contract_partial vk nw columns g_lagrange shape sample sample_inst l ix ig gs g X G q' q wX wG size :
    verifier_ops vk nw columns g_lagrange shape = Some (l, ix, ig) ->
    generate l sample sample_inst = Some (gs, g) -> nth_error (gs_vals S W gs) ix = Some (RP S W X) -> nth_error (gs_vals S W gs) ig = Some (RP S W G) ->
    Forall no_self_add (g_stmts g) -> (g_mem g < DEADBEAF)%N ->
    memory_optimize (g_stmts g) (p_expr W X) (p_expr W G) = Some (q, wX, wG, size) ->
    Forall fits q -> paired q -> no_abandoned q -> SolAgg.aggregate false q = Some q' ->
    forall instances proof wx wg insts advice rest st final_pair precompile vs vn ts tn,
    map (map (@List.length S)) instances = shape ->
    verifier vk columns g_lagrange generator instances (mkTr proof (Some [])) = Some (wx, wg, insts, advice, mkTr rest (Some st)) ->
    opening_points (mkCP vk columns g_lagrange generator []) (mkPD instances (mkTr proof (Some [])) "") = Some nw ->
    fine b sha256 ident_ok l proof (concat (concat instances)) -> Forall byte proof ->
    let inst := concat (concat instances) in
    contract_instances (List.length inst) final_pair = Some (map toZ inst) ->
    let body pr ins := get_wx_wg b checked sha256 (mkEnv pr ins size (absorbing_length g + 1)) q' wX wG in
    let '(px, py) := encode (proj1_sig wx) in let '(qx, qy) := encode (proj1_sig wg) in
    Evm.verify precompile (List.length inst) body vs vn ts tn (words proof) final_pair = Some tt <->
    pairing precompile px py qx qy vs vn = Some true /\
    exists x0 y0 x1 y1 rest, final_pair = x0 :: y0 :: x1 :: y1 :: rest /\ pairing precompile x0 y0 x1 y1 ts tn = Some true.
  Proof.
    intros Ho Hg EX EG Ns Hd Hm Ft Pa Na Ha instances proof wx wg insts advice rest st final_pair precompile vs vn ts tn Hs Hv Hn Hf Hb inst Hci.
    destruct (C50_operations S W b _ _ _ sha256 ident_ok generator vk nw columns g_lagrange instances proof wx wg insts advice rest st Hv Hn)
      as (l0 & ix0 & ig0 & n & Ho0 & Nr & Px & Pg & _ & _ & _ & Hc).
    fold M in Ho0. rewrite Hs in Ho0. rewrite Ho in Ho0. injection Ho0 as <- <- <-.
    exact (C47_contract_partial S W HS HW ident_ok checked sha256 sha_ok H sp T RATE init shape_ok l sample sample_inst gs g ix ig X G q' q wX wG size
      Hg EX EG Hc Ns Hd Hm Ft Pa Na Ha proof inst final_pair n _ _ precompile vs vn ts tn Nr Hf Hb Px Pg Hci).
  Qed.
End Contract.
Print Assumptions C50_contract_partial.

(** ** Example *)
(** The group of BN254, its generator, a key with two advice columns, an instance column,
    a fixed column, two gates and a permutation of the advice columns.  The digest has
    small values, and the domain generator is small, so that the multiplications of
    points can be run. *)
Local Open Scope Z_scope.
Notation EM := (G1 Fr Fq eq_refl eq_refl).
Notation fr z := (ofZ z : Fr).
Definition eG : EM := match lift_pt Fq (ofZ 3) (Aff (ofZ 1) (ofZ 2)) with Some P => P | None => m0 end.
Definition ex_vk : vkey Fr EM :=
  mkVk (M := EM) (fr 5) 2 0 [0]%nat [0; 0]%nat [] [] [(CAdvice, 0); (CAdvice, 1)]%nat 4 2 1
    [(0%nat, 0)] [(0%nat, 0); (1%nat, 0)] [(0%nat, 0)] [m0; m0] [m0]
    [[ESum (EProd (EAdvice 0) (EFixed 0)) (ENeg (EInstance 0)); EProd (EAdvice 1) (EFixed 0)]] (fr 2) (fr 7) 8.
Definition small (l : list Z) : list Z := le 32 (Z.of_nat (List.length l) / 32 mod 5 mod 2 + 2).
Lemma small_ok l : Forall byte (small l) /\ List.length (small l) = 32%nat.
Proof. split; [apply le_bytes|apply le_length]. Qed.
(** the last evaluation makes the multiple of the generator that is subtracted small *)
Definition ex_r : Z := 13368995401133204375940696842446355274672187275940381760905863929643851659613.
Definition vk_evals : list Z :=
  (le 32 1 ++ le 32 2 ++ le 32 3 ++ le 32 4 ++ le 32 ex_r ++ le 32 6 ++ le 32 7 ++ le 32 8 ++ le 32 9)%list.
Definition vk_proof : list Z :=
  (point_bytes 1 2 ++ point_bytes 1 (p_mod - 2) ++ point_bytes 0 0 ++ point_bytes 0 0 ++ point_bytes 0 0 ++ point_bytes 0 0 ++
   vk_evals ++ point_bytes 1 2 ++ point_bytes 0 0)%list.
Lemma vk_proof_bytes : Forall byte vk_proof.
Proof. unfold vk_proof, vk_evals, point_bytes. repeat (apply Forall_app; split); apply le_bytes. Qed.
Definition vk_inst : list (list (list Fr)) := [[[fr 1; fr 0; fr 0; fr 0]]].
Definition lagrange : list EM := repeat eG 8.
Notation ex_decode := (sha_pt Fr Fq (ofZ 3) true EM (lift_pt Fq (ofZ 3))).
Notation ex_verifier := (verify_single_proof_in_chip Fr EM 64 32 ex_decode (sha_sc Fr) sha_state (sha_upd_pt Fr Fq true EM (fun P : EM => proj1_sig P)) (sha_upd_sc Fr) (sha_sqz Fr small)).
Notation ex_opening := (opening_points Fr EM 64 32 ex_decode (sha_sc Fr) sha_state (sha_upd_pt Fr Fq true EM (fun P : EM => proj1_sig P)) (sha_upd_sc Fr) (sha_sqz Fr small)).
Notation ex_vops := (verifier_ops Fr Fq EM (fun P : EM => proj1_sig P) eG ex_vk 2 1 lagrange [[4%nat]]).

(** the two points *)
Definition vk_wg : Z * Z := (1368015179489954701390400359078579693043519447331113978918064868415326638035, 11970132820537103637166003141937572314130795164147247315533067598634108082819).
Definition returned (r : option (EM * EM * list Fr * list EM * tr sha_state)) (P : EM -> EM -> list Z -> Prop) : Prop :=
  match r with Some (wx, wg, insts, advice, mkTr rest (Some st)) => P wx wg rest | _ => False end.
Lemma returned_inv r P : returned r P -> exists wx wg insts advice rest st, r = Some (wx, wg, insts, advice, mkTr rest (Some st)) /\ P wx wg rest.
Proof.
  unfold returned. destruct r as [[[[[wx wg] insts] advice] [rest [st|]]]|]; try contradiction. intro H. exists wx, wg, insts, advice, rest, st. auto.
Qed.
Lemma vk_run : returned (ex_verifier ex_vk 1%nat lagrange eG vk_inst (mkTr vk_proof (Some [])))
  (fun wx wg rest => encode (proj1_sig wx : point Fq) = (1, 2) /\ encode (proj1_sig wg : point Fq) = vk_wg /\ rest = []).
Proof. vm_compute. repeat split. Qed.
Lemma vk_opening : ex_opening (mkCP ex_vk 1%nat lagrange eG []) (mkPD vk_inst (mkTr vk_proof (Some [])) "") = Some 2%nat.
Proof. vm_compute. reflexivity. Qed.
(** code is generated from a sample of zeros; the statements meet the conditions of the
    passes *)
Notation ex_generate := (generate Fr Fq (@ofZ Fq 3) true small tiny 2 1 [@ofZ Fr 1; @ofZ Fr 0]).
Definition vk_sample : list Z := (repeat 0 (6 * 64) ++ vk_evals ++ repeat 0 (2 * 64))%list.
Definition generated (ops : option (list (op Fr Fq) * nat * nat)) (gen : list (op Fr Fq) -> option (gst Fr Fq * gctx))
    (P : gctx -> list stmt -> N -> list stmt -> Prop) : Prop :=
  match ops with
  | Some (l, ix, ig) =>
      match gen l with
      | Some (gs, g) =>
          match nth_error (gs_vals _ _ gs) ix, nth_error (gs_vals _ _ gs) ig with
          | Some (RP _ _ X), Some (RP _ _ G) =>
              match memory_optimize (g_stmts g) (p_expr _ X) (p_expr _ G) with
              | Some (q, x, y, size) => match SolAgg.aggregate false q with Some q' => P g q size q' | None => False end
              | None => False
              end
          | _, _ => False
          end
      | None => False
      end
  | None => False
  end.
Lemma generated_inv ops gen P : generated ops gen P -> exists l ix ig gs g X G q x y size q',
  ops = Some (l, ix, ig) /\ gen l = Some (gs, g) /\ nth_error (gs_vals _ _ gs) ix = Some (RP _ _ X) /\ nth_error (gs_vals _ _ gs) ig = Some (RP _ _ G) /\
  memory_optimize (g_stmts g) (p_expr _ X) (p_expr _ G) = Some (q, x, y, size) /\ SolAgg.aggregate false q = Some q' /\ P g q size q'.
Proof.
  unfold generated. destruct ops as [[[l ix] ig]|]; [|contradiction]. destruct (gen l) as [[gs g]|] eqn:Eg; [|contradiction].
  destruct (nth_error (gs_vals _ _ gs) ix) as [[|X]|] eqn:EX; try contradiction. destruct (nth_error (gs_vals _ _ gs) ig) as [[|G]|] eqn:EG; try contradiction.
  destruct (memory_optimize (g_stmts g) (p_expr _ X) (p_expr _ G)) as [[[[q x] y] size]|] eqn:Em; [|contradiction].
  destruct (SolAgg.aggregate false q) as [q'|] eqn:Ea; [|contradiction]. intro H.
  exists l, ix, ig, gs, g, X, G, q, x, y, size, q'. auto 10.
Qed.
Lemma vk_generated : generated ex_vops (fun l => ex_generate l vk_sample (repeat (fr 0) 4)) (fun g q size q' =>
  forallb no_self_add_b (g_stmts g) = true /\ (g_mem g <? DEADBEAF)%N = true /\ conditions q = true /\
  List.length (g_stmts g) = 142%nat /\ size = 20%N /\ List.length q' = 83%nat).
Proof. lazy. repeat split. Qed.
Fixpoint fine_b (l : list (op Fr Fq)) (s : nst Fr Fq) : bool :=
  match l with
  | [] => true
  | o :: l =>
      match o with OPSub _ j => match n_p (n_vals s) j with Some Inf => false | _ => true end | _ => true end &&
      match native_op (@ofZ Fq 3) small true o s with Some s => fine_b l s | None => true end
  end.
Lemma fine_b_ok l : forall s, fine_b l s = true -> fine_run (@ofZ Fq 3) small true l s.
Proof.
  induction l as [|o l IH]; intros s H; [exact I|]. cbn [fine_b] in H. apply andb_true_iff in H. destruct H as [H1 H2]. split.
  - destruct o; try exact I. cbn [fine_op]. intro X. rewrite X in H1. discriminate H1.
  - intros s' E. rewrite E in H2. now apply IH.
Qed.
Definition fine_ops (ops : option (list (op Fr Fq) * nat * nat)) (s : nst Fr Fq) : bool := match ops with Some (l, _, _) => fine_b l s | None => false end.
Lemma vk_fine : fine_ops ex_vops (mkN [] (concat (concat vk_inst)) [] vk_proof) = true.
Proof. vm_compute. reflexivity. Qed.
Lemma fine_ops_inv ops s l ix ig : fine_ops ops s = true -> ops = Some (l, ix, ig) -> fine_run (@ofZ Fq 3) small true l s.
Proof. intros H ->. now apply fine_b_ok. Qed.
Definition vk_pair : list Z := [1; 2; 0; 0]%Z.
(** the pairing precompile accepts everything *)
Example C50_example : exists l ix ig gs g X G q x y size q' wx wg insts advice st,
  ex_vops = Some (l, ix, ig) /\ ex_generate l vk_sample (repeat (fr 0) 4) = Some (gs, g) /\
  nth_error (gs_vals _ _ gs) ix = Some (RP _ _ X) /\ nth_error (gs_vals _ _ gs) ig = Some (RP _ _ G) /\
  Forall no_self_add (g_stmts g) /\ (g_mem g < DEADBEAF)%N /\
  memory_optimize (g_stmts g) (p_expr _ X) (p_expr _ G) = Some (q, x, y, size) /\
  Forall fits q /\ paired q /\ no_abandoned q /\ SolAgg.aggregate false q = Some q' /\
  ex_verifier ex_vk 1%nat lagrange eG vk_inst (mkTr vk_proof (Some [])) = Some (wx, wg, insts, advice, mkTr [] (Some st)) /\
  ex_opening (mkCP ex_vk 1%nat lagrange eG []) (mkPD vk_inst (mkTr vk_proof (Some [])) "") = Some 2%nat /\
  fine (@ofZ Fq 3) small true l vk_proof (concat (concat vk_inst)) /\
  contract_instances 4 vk_pair = Some (map toZ (concat (concat vk_inst))) /\
  encode (proj1_sig wx : point Fq) = (1, 2) /\ encode (proj1_sig wg : point Fq) = vk_wg /\
  forall vs vn ts tn,
    Evm.verify (fun _ => Some 1) 4 (fun pr ins => get_wx_wg (@ofZ Fq 3) true small (mkEnv pr ins size (absorbing_length g + 1)) q' x y) vs vn ts tn (words vk_proof) vk_pair = Some tt.
Proof.
  destruct (generated_inv _ _ _ vk_generated) as (l & ix & ig & gs & g & X & G & q & x & y & size & q' & Eo & Eg & EX & EG & Em & Ea & H1 & H2 & H3 & _).
  destruct (returned_inv _ _ vk_run) as (wx & wg & insts & advice & rest & st & Er & Ex & Ey & Ez). subst rest.
  pose proof (fine_ops_inv _ _ _ _ _ vk_fine Eo) as Hf.
  apply no_self_add_all in H1. apply N.ltb_lt in H2. apply conditions_ok in H3. destruct H3 as (H3 & H4 & H5).
  assert (Hi : contract_instances 4 vk_pair = Some (map toZ (concat (concat vk_inst)))) by (vm_compute; reflexivity).
  exists l, ix, ig, gs, g, X, G, q, x, y, size, q', wx, wg, insts, advice, st.
  split; [exact Eo|]. split; [exact Eg|]. split; [exact EX|]. split; [exact EG|]. split; [exact H1|]. split; [exact H2|]. split; [exact Em|].
  split; [exact H3|]. split; [exact H4|]. split; [exact H5|]. split; [exact Ea|]. split; [exact Er|]. split; [exact vk_opening|]. split; [exact Hf|].
  split; [exact Hi|]. split; [exact Ex|]. split; [exact Ey|]. intros vs vn ts tn.
  pose proof (C50_contract_partial Fr Fq eq_refl eq_refl true true small small_ok small tiny 2 1 [@ofZ Fr 1; @ofZ Fr 0] tiny_shape eG ex_vk 2 1 lagrange [[4%nat]] vk_sample (repeat (fr 0) 4)
    l ix ig gs g X G q' q x y size Eo Eg EX EG H1 H2 Em H3 H4 H5 Ea vk_inst vk_proof wx wg insts advice [] st vk_pair (fun _ => Some 1) vs vn ts tn
    eq_refl Er vk_opening Hf vk_proof_bytes Hi) as V.
  cbv zeta in V. rewrite Ex, Ey in V. unfold vk_wg in V. apply V. split; [reflexivity|]. exists 1, 2, 0, 0, []. split; reflexivity.
Qed.
