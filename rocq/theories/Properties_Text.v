(** C57: the text of the contract.  The printed statements read back as Solidity and do what
    the statements do, so the results about the generated program are about its text. *)
From Coq Require Import String ZArith NArith List Bool Lia.
From Verif Require Import Util Algebra PField Poseidon PoseidonSpec Bn254 Bn254Prime Curve CurveAssoc Bn254Curve CurveMod Bytes Evm SolScan SolAgg SolPool SolSem SolMemOpt SolAggDriver SolMulAdd
  EvmProofs ShaProofs SolIntervals SolAggProofs ChipRun SolChip SolChipProofs SolEmit SolSharing SolCheck Properties_Emission
  Schema Plonk BuildParams Calls VerifierCalls CallsSim VerifierCallsProofs VerifierCallsTop SolCalls SolCallsProofs SolIr SolText SolRead SolTextProofs SolTextSpec.
From Verif Require ShaTranscript SolTextPasses Properties_EndToEnd.
Import ListNotations.
Local Open Scope string_scope.

(** * The text of a program *)
Lemma in_range_sized e : in_range e -> sized e.
Proof. induction e; cbn [in_range sized]; tauto. Qed.
Lemma stmt_in_range_sized s : stmt_in_range s -> sized_stmt s.
Proof. destruct s as [l r|e o|? ? ? ? ? ?|[[? ?] ?] [[? ?] ?] ? ?]; cbn [stmt_in_range sized_stmt]; try tauto; intros [H1 H2]; split; try apply in_range_sized; assumption. Qed.

(** A program of the generator's form ([wt_stmt]: every statement is one operation on
    operands of the right types) and two points, printed into the body of [get_wx_wg]: the
    text is a sequence of Solidity statements and a return statement, and running them
    returns what the program returns, or reverts as it does, for every proof, every public
    input, every size of the two arrays. *)
Theorem C57_text p wx wg text : Forall wt_stmt p -> Forall stmt_in_range p -> operand wx TPoint -> operand wg TPoint -> in_range wx -> in_range wg ->
  get_wx_wg_text p wx wg = Some text ->
  exists prog, read text = Some prog /\
    forall (W : PF) (b : W) checked sha256 E, do_body b checked sha256 E prog = get_wx_wg b checked sha256 E p wx wg.
Proof.
  intros Hw Hs Ox Og Sx Sg Ht. assert (Hs' : Forall sized_stmt p) by (eapply Forall_impl; [exact stmt_in_range_sized|exact Hs]).
  pose proof (fun (W : PF) (b : W) checked sha256 E => text_body W b checked sha256 E p wx wg text Hw Hs' Ox Og (in_range_sized _ Sx) (in_range_sized _ Sg) Ht) as T.
  destruct (T Fq f1 false (fun l => l) (mkEnv [] [] 0 0)) as (prog & R & _). exists prog. split; [exact R|]. intros W b checked sha256 E. destruct (T W b checked sha256 E) as (prog' & R' & D). rewrite R in R'. injection R' as <-. exact D.
Qed.
Print Assumptions C57_text.

(** Printing succeeds exactly for the statements that [prints] (SolTextSpec.v) describes. *)
Lemma operand_prints e t : operand e t -> exists u, to_typed_string e = Some u.
Proof. intros [H _]. destruct (atoms_text e H) as (u & Hu & _). eauto. Qed.
Lemma wt_prints r : wt r -> (exists u, to_typed_string r = Some u) <-> match r with EPow _ _ t => t = TScalar | _ => True end.
Proof.
  intro H. destruct r as [o t|o t|o t|o t|x y|z|l r t|l r t|l r t|l r t|l r c t|e o t|m o|e n t|n|t]; cbn [wt] in H;
    try (split; [tauto|intros _; destruct t; eexists; reflexivity]); try (split; [tauto|intros _; eexists; reflexivity]).
  1, 2, 3, 4 : destruct H as [H1 H2]; destruct (operand_prints _ _ H1) as (u1 & U1), (operand_prints _ _ H2) as (u2 & U2); split; [tauto|intros _; cbn [to_typed_string]; rewrite U1, U2; destruct t; eexists; reflexivity].
  - split; [tauto|intros _]. cbn [to_typed_string]. destruct t; destruct H as (H1 & H2 & H3); destruct (operand_prints _ _ H1) as (u1 & U1), (operand_prints _ _ H2) as (u2 & U2), (operand_prints _ _ H3) as (u3 & U3); rewrite U1, U2, U3; eexists; reflexivity.
  - subst e. split; [tauto|intros _]. destruct t; eexists; reflexivity.
  - destruct (operand_prints _ _ H) as (u & U). cbn [to_typed_string]. destruct t; [rewrite U; split; [reflexivity|eexists; reflexivity]|split; [intros [? X]; discriminate X|discriminate]].
Qed.
Theorem C57_printed p wx wg : Forall wt_stmt p -> operand wx TPoint -> operand wg TPoint -> (exists text, get_wx_wg_text p wx wg = Some text) <-> Forall prints p.
Proof.
  intros Hw Ox Og. destruct (operand_prints _ _ Ox) as (ux & Ux), (operand_prints _ _ Og) as (ug & Ug). unfold get_wx_wg_text. rewrite Ux, Ug.
  assert (G : (exists l, equations p = Some l) <-> Forall prints p).
  { induction Hw as [|s p Hs Hw IH]; [split; [constructor|eexists; reflexivity]|]. cbn [equations].
    assert (P : (exists l, to_solidity_string s = Some l) <-> prints s).
    { destruct s as [l r|e o|ms me mst as_ ast t|[[? ?] ?] [[? ?] ?] n t]; cbn [wt_stmt to_solidity_string prints] in *.
      - destruct Hs as (Hl & _ & Hr). assert (exists u, to_untyped_string l = Some u) as (u & ->) by (destruct l as [? t| | | | | | | | | | | | | | |t]; try discriminate Hl; destruct t; eexists; reflexivity).
        pose proof (wt_prints r Hr) as P. destruct (to_typed_string r) as [v|]; [split; [intros _|intros _; eexists; reflexivity]|].
        + assert (Q : match r with EPow _ _ t => t = TScalar | _ => True end) by (apply P; eauto). destruct r; exact Q.
        + split; [intros [? X]; discriminate X|]. intro Q. exfalso. assert (Q' : match r with EPow _ _ t => t = TScalar | _ => True end) by (destruct r; exact Q). apply P in Q'. destruct Q' as [? X]. discriminate X.
      - destruct (atoms_text e Hs) as (u & -> & _). split; [constructor|intros _]. destruct (get_type e); eexists; reflexivity.
      - destruct (N.ltb_spec me ms) as [L|L]; cbn [orb]; [split; [intros [? X]; discriminate X|lia]|]. destruct (N.eqb_spec mst 0) as [Z|Z]; [split; [intros [? X]; discriminate X|tauto]|]. split; [auto|eexists; reflexivity].
      - destruct t; [split; [reflexivity|eexists; reflexivity]|split; [intros [? X]; discriminate X|discriminate]]. }
    split.
    - intros [l H]. destruct (to_solidity_string s) as [ls|] eqn:Es; [|discriminate]. destruct (equations p) as [lp|] eqn:Ep; [|discriminate]. constructor; [apply P; eauto|apply IH; eauto].
    - intro F. inversion F; subst. destruct (proj2 P ltac:(assumption)) as (ls & ->). destruct (proj2 IH ltac:(assumption)) as (lp & ->). eexists. reflexivity. }
  rewrite <- G. destruct (equations p) as [l|]; split; intros [? X]; try discriminate X; eexists; reflexivity.
Qed.
Print Assumptions C57_printed.

(** The merging passes make no offset too large and no loop that cannot be printed. *)
Theorem C57_passes p q : Forall stmt_in_range p -> Forall prints p -> SolAgg.aggregate false p = Some q -> Forall stmt_in_range q /\ Forall prints q.
Proof. intros H1 H2 H. apply Forall_and_inv. refine (SolTextPasses.aggregate_keeps p q _ H). apply Forall_and; assumption. Qed.
Print Assumptions C57_passes.

(** Operations inside operations would print to text that is not Solidity: the two words of
    an inner point are not two arguments.  The generator never makes them. *)
Theorem C57_nested_refuted : exists p wx wg text prog E, Forall stmt_in_range p /\ operand wx TPoint /\ operand wg TPoint /\ in_range wx /\ in_range wg /\
  get_wx_wg_text p wx wg = Some text /\ read text = Some prog /\
  do_body (@ofZ Fq 3) true toy E prog = None /\ get_wx_wg (@ofZ Fq 3) true toy E p wx wg = Some (0, 0, 0, 0)%Z.
Proof.
  set (t := ETranscript 0 TPoint). set (m := EMemory 0 TPoint). exists [Assign m (EAdd (EAdd t t TPoint) t TPoint)], m, m. eexists. eexists. exists (mkEnv [0; 0]%Z [] 2 0).
  split; [repeat constructor|]. split; [split; [exact I|reflexivity]|]. split; [split; [exact I|reflexivity]|]. split; [reflexivity|]. split; [reflexivity|].
  split; [vm_compute; reflexivity|]. split; [vm_compute; reflexivity|]. split; vm_compute; reflexivity.
Qed.
Print Assumptions C57_nested_refuted.

(** * The contract *)
(** a contract whose [get_wx_wg] has the text [text] as its body; text that is not Solidity
    has no result *)
Definition text_of {W : PF} (b : W) checked sha256 text size asize (proof instances : list Z) : option (Z * Z * Z * Z) :=
  do prog <- read text; do_body b checked sha256 (mkEnv proof instances size asize) prog.
Lemma esubst_operand from to e t : operand e t -> operand (esubst from to e) t.
Proof.
  intros [H T]. unfold esubst. destruct e as [o u|o u|o u|o u|x y|z| | | | | | | | | |u]; cbn [simple] in H; try contradiction H; try (split; [exact I|exact T]).
  cbn [emap replace]. destruct (o =? from)%N; [destruct (to =? DEADBEAF)%N|]; (split; [exact I|exact T]).
Qed.
Lemma scan_operands ivs : forall active p es po q es' size, linear_scan ivs active p es po = Some (q, es', size) -> Forall (fun e => operand e TPoint) es -> Forall (fun e => operand e TPoint) es'.
Proof.
  induction ivs as [|i ivs IH]; intros active p es po q es' size H F; cbn [linear_scan] in H; [injection H as <- <- <-; exact F|].
  destruct (expire active i po) as [[ac po']|]; [|discriminate]. destruct (take_block i po') as [[bl po'']|]; [|discriminate]. destruct (subst_from _ _ _ _); [|discriminate].
  eapply IH; [exact H|]. apply Forall_map. eapply Forall_impl; [|exact F]. intro e. apply esubst_operand.
Qed.
Lemma optimized_operands p wx wg q wx' wg' size : memory_optimize p wx wg = Some (q, wx', wg', size) -> operand wx TPoint -> operand wg TPoint -> operand wx' TPoint /\ operand wg' TPoint.
Proof.
  intros H Hx Hg. unfold memory_optimize in H. destruct (build_intervals p [wx; wg]) as [[ivs t]|]; [|discriminate]. destruct (combine_mul_add p ivs t) as [p'|]; [|discriminate].
  destruct (build_intervals p' [wx; wg]) as [[ivs' t']|]; [|discriminate]. destruct (linear_scan ivs' [] p' [wx; wg] pool0) as [[[q0 es] sz]|] eqn:El; [|discriminate].
  assert (F : Forall (fun e => operand e TPoint) es) by (eapply scan_operands; [exact El|]; repeat constructor; (apply Hx || apply Hg)).
  destruct es as [|x [|g [|]]]; try discriminate. injection H as <- <- <- <-. inversion F as [|? ? F1 F2]; subst. inversion F2; subst. auto.
Qed.
Lemma verify_text {W : PF} (b : W) checked sha256 size asize p wx wg text prog precompile n vs vn ts tn proof pair : read text = Some prog ->
  (forall E, do_body b checked sha256 E prog = get_wx_wg b checked sha256 E p wx wg) ->
  Evm.verify precompile n (text_of b checked sha256 text size asize) vs vn ts tn proof pair =
  Evm.verify precompile n (fun pr ins => get_wx_wg b checked sha256 (mkEnv pr ins size asize) p wx wg) vs vn ts tn proof pair.
Proof. intros R D. unfold Evm.verify, text_of. rewrite R. destruct (contract_instances n pair) as [ins|]; [|reflexivity]. cbv beta iota. rewrite D. reflexivity. Qed.

Section Program.
  Variables S W : PF.
  Hypothesis HS : pf_n S = q_mod.
  Hypothesis HW : pf_n W = p_mod.
  Notation b := (ofZ 3 : W).
  Variable ident_ok checked : bool.
  Variable sha256 : list Z -> list Z.
  Hypothesis sha_ok : forall l, Forall byte (sha256 l) /\ List.length (sha256 l) = 32%nat.
  Variable H : list Z -> list Z.
  Variable sp : pspec S.
  Variables T RATE : nat.
  Variable init : list S.
  Hypothesis shape : sponge_shape S sp T.
  Notation generate := (generate S W b ident_ok H sp T RATE init).
  Notation native := (native b sha256 ident_ok). Notation fine := (fine b sha256 ident_ok).

  (** [C47_contract_partial] for the text: the calls of a verifier are compiled to a program,
      which is optimized and printed; the contract with this text accepts exactly if the
      pairing checks succeed on the points that the native verifier computes.
      Missing: what [C47_contract_partial] lists. *)
  Theorem C47_text_partial l sample sample_inst gs g ix ig X G q' q wx wg size :
    generate l sample sample_inst = Some (gs, g) -> nth_error (gs_vals S W gs) ix = Some (RP S W X) -> nth_error (gs_vals S W gs) ig = Some (RP S W G) ->
    Forall (const_on b) l -> Forall no_self_add (g_stmts g) -> (g_mem g < DEADBEAF)%N ->
    memory_optimize (g_stmts g) (p_expr W X) (p_expr W G) = Some (q, wx, wg, size) ->
    Forall fits q -> paired q -> no_abandoned q -> SolAgg.aggregate false q = Some q' ->
    Forall stmt_in_range q -> Forall prints q -> in_range wx -> in_range wg ->
    forall proof inst final_pair n P Q precompile vs vn ts tn,
    native l proof inst = Some n -> fine l proof inst -> Forall byte proof -> n_p (n_vals n) ix = Some P -> n_p (n_vals n) ig = Some Q ->
    contract_instances (List.length inst) final_pair = Some (map toZ inst) ->
    let '(px, py) := encode P in let '(qx, qy) := encode Q in
    exists text, get_wx_wg_text q' wx wg = Some text /\
    (Evm.verify precompile (List.length inst) (text_of b checked sha256 text size (absorbing_length g + 1)) vs vn ts tn (words proof) final_pair = Some tt <->
    pairing precompile px py qx qy vs vn = Some true /\
    exists x0 y0 x1 y1 rest, final_pair = x0 :: y0 :: x1 :: y1 :: rest /\ pairing precompile x0 y0 x1 y1 ts tn = Some true).
  Proof.
    intros Hg EX EG Hc Ns Hd Hm Ft Pa Na Ha Rq Pq Rx Rg proof inst final_pair n P Q precompile vs vn ts tn Hn Hf Hb EP EQ Hci.
    assert (A : Forall wt_stmt q' /\ operand wx TPoint /\ operand wg TPoint).
    { set (E := mkEnv (words proof) (map toZ inst) (g_mem g) (absorbing_length g + 1)).
      destruct (generate_ok S W HS HW b (three_nz W HW) (no_ordinate_0 W HW) ident_ok checked sha256 E sha_ok H sp T RATE init shape l sample sample_inst gs g proof inst n Hg Hn Hf Hc Hb eq_refl eq_refl (N.le_refl _) (N.le_refl _)) as [s [C V _ _ _ _]].
      unfold n_p in EP, EQ. destruct (nth_error (n_vals n) ix) as [[|P']|] eqn:E1; try discriminate. destruct (nth_error (n_vals n) ig) as [[|Q']|] eqn:E2; try discriminate.
      pose proof (F2_nth _ _ _ _ _ _ V EX E1) as GX. pose proof (F2_nth _ _ _ _ _ _ V EG E2) as GG. cbn [SolEmit.good] in GX, GG. pose proof (c_top _ _ _ _ _ _ _ C) as Ct.
      destruct (memory_optimize_ok (g_stmts g) (p_expr W X) (p_expr W G) (c_ssa _ _ _ _ _ _ _ C) Ns ltac:(lia) (pg_reads _ _ _ _ _ _ _ _ GX) (pg_reads _ _ _ _ _ _ _ _ GG)) as (q0 & wx0 & wg0 & size0 & Hm0 & [_ Od Ot _ Or]).
      rewrite Hm in Hm0. injection Hm0 as <- <- <- <-. split; [apply (SolAggProofs.aggregate_ok W b checked sha256 E q q' false Ft Od Pa Na Ha)|].
      exact (optimized_operands _ _ _ _ _ _ _ Hm (pg_op _ _ _ _ _ _ _ _ GX) (pg_op _ _ _ _ _ _ _ _ GG)). }
    destruct A as (Wq & Ox & Og). destruct (C57_passes q q' Rq Pq Ha) as [Rq' Pq']. destruct (proj2 (C57_printed q' wx wg Wq Ox Og) Pq') as (text & Ht). destruct (C57_text q' wx wg text Wq Rq' Ox Og Rx Rg Ht) as (prog & R & D).
    pose proof (C47_contract_partial S W HS HW ident_ok checked sha256 sha_ok H sp T RATE init shape l sample sample_inst gs g ix ig X G q' q wx wg size
      Hg EX EG Hc Ns Hd Hm Ft Pa Na Ha proof inst final_pair n P Q precompile vs vn ts tn Hn Hf Hb EP EQ Hci) as V. cbv zeta in V.
    destruct (encode P) as [px py], (encode Q) as [qx qy]. exists text. split; [exact Ht|].
    rewrite (verify_text b checked sha256 size (absorbing_length g + 1) q' wx wg text prog precompile (List.length inst) vs vn ts tn (words proof) final_pair R (fun E => D W b checked sha256 E)). exact V.
  Qed.
End Program.
Print Assumptions C47_text_partial.

Section Contract.
  Variables S W : PF.
  Hypothesis HS : pf_n S = q_mod.
  Hypothesis HW : pf_n W = p_mod.
  Notation b := (ofZ 3 : W).
  Notation M := (G1 S W HS HW).
  Variable ident_ok checked : bool.
  Variable sha256 : list Z -> list Z.
  Hypothesis sha_ok : forall l, Forall byte (sha256 l) /\ List.length (sha256 l) = 32%nat.
  Variable H : list Z -> list Z.
  Variable sp : pspec S.
  Variables T RATE : nat.
  Variable init : list S.
  Hypothesis shape_ok : sponge_shape S sp T.
  Variable generator : M.
  Notation pt := (fun P : M => proj1_sig P).
  Notation decode := (sha_pt S W b ident_ok M (lift_pt W b)).
  Notation verifier := (verify_single_proof_in_chip S M 64 32 decode (sha_sc S) sha_state (sha_upd_pt S W ident_ok M pt) (sha_upd_sc S) (sha_sqz S sha256)).
  Notation opening_points := (opening_points S M 64 32 decode (sha_sc S) sha_state (sha_upd_pt S W ident_ok M pt) (sha_upd_sc S) (sha_sqz S sha256)).
  Notation verifier_ops := (verifier_ops S W M pt generator).
  Notation generate := (generate S W b ident_ok H sp T RATE init).

  (** [C50_contract_partial] for the text: from the verification key to the text of the
      contract.  Missing: what [C50_contract_partial] lists. *)
  Theorem C50_text_partial vk nw columns g_lagrange shape sample sample_inst l ix ig gs g X G q' q wX wG size :
    verifier_ops vk nw columns g_lagrange shape = Some (l, ix, ig) ->
    generate l sample sample_inst = Some (gs, g) -> nth_error (gs_vals S W gs) ix = Some (RP S W X) -> nth_error (gs_vals S W gs) ig = Some (RP S W G) ->
    Forall no_self_add (g_stmts g) -> (g_mem g < DEADBEAF)%N ->
    memory_optimize (g_stmts g) (p_expr W X) (p_expr W G) = Some (q, wX, wG, size) ->
    Forall fits q -> paired q -> no_abandoned q -> SolAgg.aggregate false q = Some q' ->
    Forall stmt_in_range q -> Forall prints q -> in_range wX -> in_range wG ->
    forall instances proof wx wg insts advice rest st final_pair precompile vs vn ts tn,
    map (map (@List.length S)) instances = shape ->
    verifier vk columns g_lagrange generator instances (mkTr proof (Some [])) = Some (wx, wg, insts, advice, mkTr rest (Some st)) ->
    opening_points (mkCP vk columns g_lagrange generator []) (mkPD instances (mkTr proof (Some [])) "") = Some nw ->
    fine b sha256 ident_ok l proof (List.concat (List.concat instances)) -> Forall byte proof ->
    let inst := List.concat (List.concat instances) in
    contract_instances (List.length inst) final_pair = Some (map toZ inst) ->
    let '(px, py) := encode (proj1_sig wx) in let '(qx, qy) := encode (proj1_sig wg) in
    exists text, get_wx_wg_text q' wX wG = Some text /\
    (Evm.verify precompile (List.length inst) (text_of b checked sha256 text size (absorbing_length g + 1)) vs vn ts tn (words proof) final_pair = Some tt <->
    pairing precompile px py qx qy vs vn = Some true /\
    exists x0 y0 x1 y1 rest, final_pair = x0 :: y0 :: x1 :: y1 :: rest /\ pairing precompile x0 y0 x1 y1 ts tn = Some true).
  Proof.
    intros Ho Hg EX EG Ns Hd Hm Ft Pa Na Ha Rq Pq Rx Rg instances proof wx wg insts advice rest st final_pair precompile vs vn ts tn Hs Hv Hn Hf Hb inst Hci.
    destruct (Properties_EndToEnd.C50_operations S W b _ _ _ sha256 ident_ok generator vk nw columns g_lagrange instances proof wx wg insts advice rest st Hv Hn)
      as (l0 & ix0 & ig0 & n & Ho0 & Nr & Px & Pg & _ & _ & _ & Hc).
    fold M in Ho0. rewrite Hs in Ho0. rewrite Ho in Ho0. injection Ho0 as <- <- <-.
    exact (C47_text_partial S W HS HW ident_ok checked sha256 sha_ok H sp T RATE init shape_ok l sample sample_inst gs g ix ig X G q' q wX wG size
      Hg EX EG Hc Ns Hd Hm Ft Pa Na Ha Rq Pq Rx Rg proof inst final_pair n _ _ precompile vs vn ts tn Nr Hf Hb Px Pg Hci).
  Qed.
End Contract.
Print Assumptions C50_text_partial.

(** ** Examples *)
Definition ex_program : list stmt :=
  [UpdateHash (EInstance 0 TScalar) 0; For 0 4 2 2 3 TPoint; Assign (ETemp TScalar) (EHash 11); Assign (EMemory 3 TScalar) (EPow (ETemp TScalar) 5 TScalar);
   Assign (EMemory 4 TScalar) (ESub (EMemory 3 TScalar) (EScalar 7) TScalar); ForMMMMul (5, 3, 4)%N (1, 0, 0)%N 2 TScalar;
   Assign (EMemory 0 TPoint) (EMulAdd (ETranscript 2 TPoint) (EMemory 6 TScalar) (EPoint 1 2) TPoint); Assign (ETemp TPoint) (EMul (EScalar 9) (EMemory 0 TPoint) TPoint);
   Assign (ETemp TPoint) (EMulAddPM (ETemp TPoint) 66565 TPoint)]%N.
Definition nl : string := String (Ascii.ascii_of_nat 10) "        ".
Definition ex_text : string := String.concat nl
  [""; "update_hash_scalar(instances[0], absorbing, 0);";
   "for (t0 = 0; t0 <= 2; t0++) {"; "    update_hash_point(proof[0 + t0 * 2], proof[1 + t0 * 2], absorbing, 2 + t0 * 3);"; "}";
   "t0 = (squeeze_challenge(absorbing, 11));"; "m[3] = (fr_pow(t0, 5));"; "m[4] = (addmod(m[3], q_mod - 7, q_mod));";
   "for (t0 = 0; t0 < 2; t0++) {"; "    m[5 + t0 * 1] = (mulmod(m[3 + t0 * 0], m[4 + t0 * 0], q_mod));"; "}";
   "(m[0], m[1]) = (ecc_mul_add(proof[2], proof[3], m[6], 1, 2));"; "(t0, t1) = (ecc_mul(m[0], m[1], 9));"; "(t0, t1) = (ecc_mul_add_pm(m, proof, 66565, t0, t1));";
   "return (t0, t1, m[0], m[1]);"].
Ltac easy_all := repeat (apply Forall_cons; [cbn; unfold operand; cbn; repeat split; try reflexivity; try exact I; try discriminate|]); try apply Forall_nil.
Example C57_text_example : Forall wt_stmt ex_program /\ Forall stmt_in_range ex_program /\ Forall prints ex_program /\
  get_wx_wg_text ex_program (ETemp TPoint) (EMemory 0 TPoint) = Some ex_text.
Proof. split; [|split; [|split]]; [unfold ex_program; easy_all..|vm_compute; reflexivity]. Qed.

(** the program of [C47_contract_example] as text, and the contract with this text *)
Definition ex_contract : string := String.concat nl
  [""; "for (t0 = 0; t0 <= 1; t0++) {"; "    update_hash_point(proof[0 + t0 * 2], proof[1 + t0 * 2], absorbing, 0 + t0 * 3);"; "}";
   "update_hash_scalar(proof[4], absorbing, 6);"; "update_hash_scalar(instances[0], absorbing, 8);"; "t0 = (squeeze_challenge(absorbing, 10));";
   "m[0] = (mulmod(t0, proof[4], q_mod));"; "t0 = (fr_mul_add(3, proof[4], 315));"; "t0 = (addmod(t0, instances[0], q_mod));"; "t0 = (addmod(m[0], q_mod - t0, q_mod));";
   "(m[0], m[1]) = (ecc_mul(proof[0], proof[1], t0));"; "(m[2], m[3]) = (ecc_sub(proof[2], proof[3], proof[0], proof[1]));"; "return (m[0], m[1], m[2], m[3]);"].
Definition ex_agg : list stmt := match SolAgg.aggregate false ex_opt with Some q => q | None => [] end.
Example C47_text_example : SolAgg.aggregate false ex_opt = Some ex_agg /\ Forall wt_stmt ex_agg /\ Forall stmt_in_range ex_agg /\
  get_wx_wg_text ex_agg (EMemory 0 TPoint) (EMemory 2 TPoint) = Some ex_contract /\
  forall vs vn ts tn, Evm.verify (fun _ => Some 1%Z) 4 (text_of (@ofZ Fq 3) true toy ex_contract 4 11) vs vn ts tn (words ex_proof) ex_pair = Some tt.
Proof.
  assert (Ea : SolAgg.aggregate false ex_opt = Some ex_agg) by (vm_compute; reflexivity). split; [exact Ea|].
  assert (Wq : Forall wt_stmt ex_agg) by (cbv [ex_agg]; let x := eval vm_compute in ex_agg in change (Forall wt_stmt x); easy_all). split; [exact Wq|].
  assert (Rq : Forall stmt_in_range ex_agg) by (let x := eval vm_compute in ex_agg in change (Forall stmt_in_range x); easy_all). split; [exact Rq|].
  assert (Et : get_wx_wg_text ex_agg (EMemory 0 TPoint) (EMemory 2 TPoint) = Some ex_contract) by (vm_compute; reflexivity). split; [exact Et|].
  intros vs vn ts tn. destruct C47_contract_example as (gs & g & X & G & q' & Hg & _ & _ & _ & _ & _ & _ & _ & _ & _ & Hq & _ & V). rewrite Ea in Hq. injection Hq as <-.
  pose proof ex_gen_ok as K. rewrite Hg in K. destruct K as (_ & _ & K & _). rewrite K in V.
  destruct (C57_text ex_agg (EMemory 0 TPoint) (EMemory 2 TPoint) ex_contract Wq Rq (conj I eq_refl) (conj I eq_refl) eq_refl eq_refl Et) as (prog & R & D).
  rewrite (verify_text (@ofZ Fq 3) true toy 4 11 ex_agg _ _ ex_contract prog (fun _ => Some 1%Z) 4 vs vn ts tn (words ex_proof) ex_pair R (fun E => D Fq (@ofZ Fq 3) true toy E)). apply V.
Qed.
(** the hypotheses of [C47_text_partial] on this program; the passes make a loop *)
Example C57_passes_example : Forall stmt_in_range ex_opt /\ Forall prints ex_opt /\ SolAgg.aggregate false ex_opt = Some ex_agg /\ In (For 0 2 2 0 3 TPoint) ex_agg.
Proof. split; [|split; [|split]]; [unfold ex_opt; easy_all..|vm_compute; reflexivity|vm_compute; left; reflexivity]. Qed.
