(** Properties C30, C39 and C47: the statements emitted by the code generator compute what
    the verifier computes natively, and the contract derives the same challenges. *)
From Coq Require Import ZArith NArith List Bool Lia.
From Verif Require Import Util Algebra PField Curve Bytes Evm EvmProofs ShaProofs Poseidon Bn254Prime Bn254Curve SolIr SolScan SolAgg SolPool SolSem SolIntervals SolMulAdd SolAggDriver SolAggProofs SolMemOpt ListFacts ChipRun SolChip SolChipProofs SolEmit SolSharing.
From Verif Require ShaTranscript Properties_Codegen.
Import ListNotations.
Import ShaTranscript (rop, RPoint, RScalar, RCommonPoint, RCommonScalar, RSqueeze, VChallenge, read_all).

(** * C30: sharing *)
(** Requests for values: the leaves [EMemory i] of a request stand for the result of the
    [i]-th request ([requests_ok]: every request is one operation on literals, calldata
    and earlier results).  [emit_all assign_memory] emits them through the cache,
    [emit_all assign_fresh] gives each its own cell.  Whatever the calldata, both
    programs revert, or the results have the same values. *)
Theorem C30_sharing (W : PF) (b : W) checked sha256 rs : requests_ok rs ->
  exists hs g hs' g', emit_all assign_memory rs [] new_ctx = Some (hs, g) /\ emit_all assign_fresh rs [] new_ctx = Some (hs', g') /\
    length hs = length rs /\ (g_mem g <= g_mem g')%N /\ (length (g_stmts g) <= length (g_stmts g'))%nat /\
    forall E, (g_mem g' <= e_msize E)%N ->
      orel (fun s s' => absorbing s = absorbing s' /\ Forall2 (fun h h' => eval b checked E s h = eval b checked E s' h' /\ eval b checked E s h <> None) hs hs')
        (run b checked sha256 E (g_stmts g) st0) (run b checked sha256 E (g_stmts g') st0).
Proof.
  intro R. destruct (emit_total rs [] new_ctx eq_refl) as (hs & g & H1). destruct (emit_total_fresh rs [] new_ctx) as (hs' & g' & H2).
  exists hs, g, hs', g'. split; [exact H1|]. split; [exact H2|].
  pose proof (fun E => share W b checked sha256 E rs R _ _ _ _ H1 H2) as L.
  destruct (L (mkEnv [] [] 0 0)) as [L1 L2 _ _ L5 _]. split; [apply (all3_length _ _ _ _ L5)|]. split; [exact L1|]. split; [exact L2|].
  intros E Le. destruct (l_run _ _ _ _ _ _ _ _ _ _ (L E) Le) as [(s & s' & C & C' & Ab & A)|[N1 N2]].
  - rewrite (c_run _ _ _ _ _ _ _ C), (c_run _ _ _ _ _ _ _ C'). split; [exact Ab|].
    assert (X : forall r h h', paired_results W b checked E g s g' s' r h h' -> eval b checked E s h = eval b checked E s' h' /\ eval b checked E s h <> None).
    { intros r h h' ((o & -> & Hi) & _ & He). split; [exact He|]. pose proof (core_below _ _ _ _ _ _ _ C _ _ Hi) as Bl.
      destruct (get_type r); cbn [eval to_length] in *; unfold rd; rewrite ?(proj2 (N.ltb_lt _ _)) by lia; discriminate. }
    clear - A X. revert hs hs' A. induction rs as [|r rs IH]; intros [|h hs] [|h' hs'] A; try contradiction; constructor.
    + destruct A as [A _]. eapply X, A.
    + apply IH. apply A.
  - now rewrite N1, N2.
Qed.
Print Assumptions C30_sharing.

(** * C39: challenges *)
Section Challenges.
  Variables S W : PF.
  Hypothesis HS : pf_n S = q_mod.
  Hypothesis HW : pf_n W = p_mod.
  Variable b : W.
  Variable ident_ok : bool.
  Variable sha256 : list Z -> list Z.
  Hypothesis sha_ok : forall l, Forall byte (sha256 l) /\ length (sha256 l) = 32%nat.
  Variable size : N.

  (** What the contract does for an operation of the reader (codegen.rs:68-96, 135-214):
      [proof] is the array of words in calldata, [tr] the next word, [pos] the position
      in the buffer [a] of [size] words. *)
  Definition contract_op (o : rop S W) (proof : list Z) (tr : N) (a : arr) (pos : N) : option (list Z * N * arr * N) :=
    match o with
    | RPoint => do x <- calldata proof tr; do y <- calldata proof (tr + 1); do a <- update_hash_point size x y a pos; Some ([], tr + 2, a, pos + 3)%N
    | RScalar => do x <- calldata proof tr; do a <- update_hash_scalar size x a pos; Some ([], tr + 1, a, pos + 2)%N
    | RCommonPoint P => do a <- update_hash_point size (fst (encode P)) (snd (encode P)) a pos; Some ([], tr, a, pos + 3)%N
    | RCommonScalar s => do a <- update_hash_scalar size (toZ s) a pos; Some ([], tr, a, pos + 2)%N
    | RSqueeze => do (c, a) <- squeeze_challenge sha256 size a pos; Some ([c], tr, a, 1%N)
    end.
  Fixpoint contract_all (os : list (rop S W)) (proof : list Z) (tr : N) (a : arr) (pos : N) : option (list Z * N * arr * N) :=
    match os with
    | [] => Some ([], tr, a, pos)
    | o :: os => do (c, tr, a, pos) <- contract_op o proof tr a pos; do (cs, tr, a, pos) <- contract_all os proof tr a pos; Some (c ++ cs, tr, a, pos)
    end.
  (** the words needed *)
  Fixpoint buffer (os : list (rop S W)) (pos : N) : N :=
    match os with
    | [] => pos
    | (RPoint | RCommonPoint _) :: os => buffer os (pos + 3)
    | (RScalar | RCommonScalar _) :: os => buffer os (pos + 2)
    | RSqueeze :: os => N.max (pos + 1) (buffer os 1)
    end.
  Fixpoint challenges (vs : list (ShaTranscript.val S W)) : list Z :=
    match vs with [] => [] | VChallenge c :: vs => toZ c :: challenges vs | _ :: vs => challenges vs end.

  Lemma buffer_ge os : forall pos, (pos <= buffer os pos)%N.
  Proof. induction os as [|o os IH]; intro pos; [reflexivity|]. destruct o; cbn [buffer]; [specialize (IH (pos + 3)%N)|specialize (IH (pos + 2)%N)|specialize (IH (pos + 3)%N)|specialize (IH (pos + 2)%N)|]; lia. Qed.
  Lemma challenges_ok os : forall proof pr tr a pos st vs st' rest,
    read_all b sha256 ident_ok os st proof = Some (vs, st', rest) -> Forall byte proof ->
    skipn (N.to_nat tr) pr = words proof -> mem_bytes a pos = st -> (buffer os pos <= size)%N ->
    exists tr' a' pos', contract_all os pr tr a pos = Some (challenges vs, tr', a', pos') /\
      skipn (N.to_nat tr') pr = words rest /\ mem_bytes a' pos' = st'.
  Proof.
    induction os as [|o os IH]; intros proof pr tr a pos st vs st' rest Hr By Tr A L.
    - injection Hr as <- <- <-. exists tr, a, pos. auto.
    - cbn [read_all ShaTranscript.read_all] in Hr. destruct (ShaTranscript.read_op b sha256 ident_ok o st proof) as [[[v st1] rest1]|] eqn:Eo; [|discriminate].
      destruct (ShaTranscript.read_all b sha256 ident_ok os st1 rest1) as [[[vs1 st2] rest2]|] eqn:Er; [|discriminate]. injection Hr as <- <- <-.
      assert (St : exists tr1 a1 pos1, contract_op o pr tr a pos = Some (challenges [v], tr1, a1, pos1) /\ skipn (N.to_nat tr1) pr = words rest1 /\
        mem_bytes a1 pos1 = st1 /\ Forall byte rest1 /\ (buffer os pos1 <= size)%N).
      { destruct o as [| |P|x|]; cbn [ShaTranscript.read_op] in Eo; cbn [buffer] in L; cbn [contract_op].
        - unfold ShaTranscript.read_point, ShaTranscript.read_base in Eo.
          destruct (ShaTranscript.read_exact 32 proof) as [[d r]|] eqn:Er1; [|discriminate]. destruct (ShaTranscript.from_repr d) as [ax|] eqn:Ef; [|discriminate].
          destruct (ShaTranscript.read_exact 32 r) as [[d2 r2]|] eqn:Er2; [|discriminate]. destruct (ShaTranscript.from_repr d2) as [ay|] eqn:Ef2; [|discriminate].
          destruct (ShaTranscript.from_xy b ident_ok ax ay) as [a0|] eqn:Exy; [|discriminate]. destruct (ShaTranscript.common_point ident_ok st a0) as [st3|] eqn:Est; [|discriminate].
          injection Eo as <- <- <-. apply from_xy_coords in Exy. destruct Exy as [_ Co].
          destruct (read_exact_bytes _ _ _ _ By Er1) as [Bd Br]. destruct (read_exact_bytes _ _ _ _ Br Er2) as [Bd2 Br2]. apply from_repr_inv in Ef; [|exact Bd]. apply from_repr_inv in Ef2; [|exact Bd2].
          rewrite (words_read _ _ _ Er1), (words_read _ _ _ Er2) in Tr. apply skipn_next in Tr. destruct Tr as [Tn Ts]. apply skipn_next in Ts. destruct Ts as [Tn2 Ts].
          unfold calldata. rewrite Tn, N2Nat.inj_add. change (N.to_nat 1) with 1%nat. rewrite Tn2.
          pose proof (buffer_ge os (pos + 3)). destruct (update_hash_point_ok size (leval d) (leval d2) a pos ltac:(lia)) as (a' & Ha & Hb). rewrite Ha.
          eexists _, _, _. split; [reflexivity|]. replace (N.to_nat (tr + 2)) with (N.to_nat tr + 1 + 1)%nat by lia. split; [exact Ts|]. split; [|split; [exact Br2|exact L]].
          unfold ShaTranscript.common_point in Est. rewrite Co in Est. injection Est as <-. unfold ShaTranscript.to_repr. rewrite Ef, Ef2, Hb, A. reflexivity.
        - unfold ShaTranscript.read_scalar in Eo. destruct (ShaTranscript.read_exact 32 proof) as [[d r]|] eqn:Er1; [|discriminate].
          destruct (ShaTranscript.from_repr d) as [a0|] eqn:Ef; [|discriminate]. injection Eo as <- <- <-.
          destruct (read_exact_bytes _ _ _ _ By Er1) as [Bd Br]. apply from_repr_inv in Ef; [|exact Bd]. rewrite (words_read _ _ _ Er1) in Tr. apply skipn_next in Tr. destruct Tr as [Tn Ts].
          unfold calldata. rewrite Tn. pose proof (buffer_ge os (pos + 2)). destruct (update_hash_scalar_ok size (leval d) a pos ltac:(lia)) as (a' & Ha & Hb). rewrite Ha.
          eexists _, _, _. split; [reflexivity|]. replace (N.to_nat (tr + 1)) with (N.to_nat tr + 1)%nat by lia. split; [exact Ts|]. split; [|split; [exact Br|exact L]].
          unfold ShaTranscript.common_scalar, ShaTranscript.to_repr. rewrite Ef, Hb, A. reflexivity.
        - destruct (ShaTranscript.common_point ident_ok st P) as [st3|] eqn:Est; [|discriminate]. injection Eo as <- <- <-.
          unfold ShaTranscript.common_point in Est. destruct (ShaTranscript.coordinates ident_ok P) as [[px py]|] eqn:Ec; [|discriminate]. injection Est as <-.
          apply encode_coords in Ec. rewrite Ec. cbn [fst snd].
          pose proof (buffer_ge os (pos + 3)). destruct (update_hash_point_ok size (toZ px) (toZ py) a pos ltac:(lia)) as (a' & Ha & Hb). rewrite Ha.
          eexists _, _, _. split; [reflexivity|]. split; [exact Tr|]. split; [|split; [exact By|exact L]]. rewrite Hb, A. reflexivity.
        - injection Eo as <- <- <-. pose proof (buffer_ge os (pos + 2)). destruct (update_hash_scalar_ok size (toZ x) a pos ltac:(lia)) as (a' & Ha & Hb). rewrite Ha.
          eexists _, _, _. split; [reflexivity|]. split; [exact Tr|]. split; [|split; [exact By|exact L]]. rewrite Hb, A. reflexivity.
        - unfold ShaTranscript.squeeze_challenge in Eo. injection Eo as <- <- <-.
          destruct (squeeze_ok sha256 size a pos sha_ok ltac:(lia)) as (a' & Ha & Hb). cbv zeta in Ha, Hb. rewrite Ha, A.
          exists tr, a', 1%N. split; [|split; [exact Tr|split; [|split; [exact By|lia]]]].
          + cbn [challenges]. rewrite leval_app, leval_zeros, Z.mul_0_r, Z.add_0_r, toZ_ofZ, HS. reflexivity.
          + rewrite Hb, A. reflexivity. }
      destruct St as (tr1 & a1 & pos1 & Ec & Ts & A1 & B1 & L1). destruct (IH _ _ _ _ _ _ _ _ _ Er B1 Ts A1 L1) as (tr' & a' & pos' & Ea & Tr' & A').
      exists tr', a', pos'. cbn [contract_all]. rewrite Ec, Ea. split; [|auto]. do 4 f_equal. destruct v; reflexivity.
  Qed.
  (** Whatever the native reader ([transcript/sha.rs]) accepts, the contract accepts, and
      at every point the words of its buffer are the bytes hashed natively, in order; the
      challenges are equal. *)
  Theorem C39_challenges os proof vs st rest a : read_all b sha256 ident_ok os [] proof = Some (vs, st, rest) -> Forall byte proof ->
    (buffer os 0 <= size)%N ->
    exists tr a' pos, contract_all os (words proof) 0 a 0 = Some (challenges vs, tr, a', pos) /\
      mem_bytes a' pos = st /\ skipn (N.to_nat tr) (words proof) = words rest.
  Proof.
    intros Hr By L. destruct (challenges_ok os proof (words proof) 0 a 0 [] vs st rest Hr By eq_refl eq_refl L) as (tr & a' & pos & H1 & H2 & H3). exists tr, a', pos. auto.
  Qed.
End Challenges.
Print Assumptions C39_challenges.

(** * The emitted program *)
Section Program.
  Variables S W : PF.
  Hypothesis HS : pf_n S = q_mod.
  Hypothesis HW : pf_n W = p_mod.
  Notation b := (ofZ 3 : W).
  Variable ident_ok checked : bool.
  Variable sha256 : list Z -> list Z.
  Hypothesis sha_ok : forall l, Forall byte (sha256 l) /\ length (sha256 l) = 32%nat.
  (** what the generator knows: the digest used on the sample, the sponge *)
  Variable H : list Z -> list Z.
  Variable sp : pspec S.
  Variables T RATE : nat.
  Variable init : list S.
  Hypothesis shape : sponge_shape S sp T.
  Notation generate := (generate S W b ident_ok H sp T RATE init).
  Notation native := (native b sha256 ident_ok). Notation fine := (fine b sha256 ident_ok).
  (** a scalar as a word, a point as two words *)
  Notation value_of := (value_of S W).

  Lemma three_nz : b <> f0.
  Proof. rewrite <- ofZ_0. intro X. apply ofZ_eq in X. rewrite HW in X. discriminate X. Qed.

  (** The calls [l] of a verifier to its chips and its transcript, run on a sample, emit
      statements.  Executing them on any proof and public inputs for which the same
      calls succeed natively yields the native result of every call. *)
  Theorem C30_emission l sample sample_inst gs g E proof inst n :
    generate l sample sample_inst = Some (gs, g) ->
    native l proof inst = Some n -> fine l proof inst -> Forall (const_on b) l -> Forall byte proof ->
    e_proof E = words proof -> e_instances E = map toZ inst -> (g_mem g <= e_msize E)%N -> (absorbing_length g + 1 <= e_asize E)%N ->
    exists s, run b checked sha256 E (g_stmts g) st0 = Some s /\
      Forall2 (fun x v => eval b checked E s (r_expr S W x) = Some (value_of v)) (gs_vals S W gs) (n_vals n) /\
      mem_bytes (absorbing s) (g_abs g) = n_st n /\ ssa 0 [] (g_stmts g) /\ Forall wt_stmt (g_stmts g).
  Proof.
    intros Hg Hn Hf Hc Hb Hp Hi L La.
    destruct (generate_ok S W HS HW b three_nz (no_ordinate_0 W HW) ident_ok checked sha256 E sha_ok H sp T RATE init shape l sample sample_inst gs g proof inst n Hg Hn Hf Hc Hb Hp Hi L La) as [s [C V A _ _ _]].
    exists s. split; [apply (c_run _ _ _ _ _ _ _ C)|]. split; [|split; [exact A|split; [apply (c_ssa _ _ _ _ _ _ _ C)|apply (c_wt _ _ _ _ _ _ _ C)]]].
    eapply Forall2_weaken; [|exact V]. intros [x|x] [v|v] X; try contradiction X; cbn [good r_expr value_of SolEmit.value_of] in *.
    - apply (sg_eval _ _ _ _ _ _ _ _ _ X).
    - apply (pg_eval _ _ _ _ _ _ _ _ X).
  Qed.

  (** The contract: the statements go through the fusion, the allocation and the merging
      passes, and the points at [ix] and [ig] enter the pairing check.  Whenever the
      native verifier reaches the points [P] and [Q] for a proof, the contract accepts
      exactly if the pairing checks of [P], [Q] and of the final pair succeed.
      Missing: programs that add a cell to itself ([C47_contract_refuted]), programs that
      fall outside the conditions of the merging passes, and proofs that the native
      verifier rejects. *)
  Theorem C47_contract_partial l sample sample_inst gs g ix ig X G q' q wx wg size :
    generate l sample sample_inst = Some (gs, g) -> nth_error (gs_vals S W gs) ix = Some (RP S W X) -> nth_error (gs_vals S W gs) ig = Some (RP S W G) ->
    Forall (const_on b) l -> Forall no_self_add (g_stmts g) -> (g_mem g < DEADBEAF)%N ->
    memory_optimize (g_stmts g) (p_expr W X) (p_expr W G) = Some (q, wx, wg, size) ->
    Forall fits q -> paired q -> no_abandoned q -> aggregate false q = Some q' ->
    forall proof inst final_pair n P Q precompile vs vn ts tn,
    native l proof inst = Some n -> fine l proof inst -> Forall byte proof -> n_p (n_vals n) ix = Some P -> n_p (n_vals n) ig = Some Q ->
    contract_instances (length inst) final_pair = Some (map toZ inst) ->
    let body pr ins := get_wx_wg b checked sha256 (mkEnv pr ins size (absorbing_length g + 1)) q' wx wg in
    let '(px, py) := encode P in let '(qx, qy) := encode Q in
    verify precompile (length inst) body vs vn ts tn (words proof) final_pair = Some tt <->
    pairing precompile px py qx qy vs vn = Some true /\
    exists x0 y0 x1 y1 rest, final_pair = x0 :: y0 :: x1 :: y1 :: rest /\ pairing precompile x0 y0 x1 y1 ts tn = Some true.
  Proof.
    intros Hg EX EG Hc Ns Hd Hm Ft Pa Na Ha proof inst final_pair n P Q precompile vs vn ts tn Hn Hf Hb EP EQ Hci. cbv zeta.
    set (E := mkEnv (words proof) (map toZ inst) (g_mem g) (absorbing_length g + 1)).
    destruct (generate_ok S W HS HW b three_nz (no_ordinate_0 W HW) ident_ok checked sha256 E sha_ok H sp T RATE init shape l sample sample_inst gs g proof inst n Hg Hn Hf Hc Hb eq_refl eq_refl (N.le_refl _) (N.le_refl _)) as [s [C V _ _ _ _]].
    unfold n_p in EP, EQ. destruct (nth_error (n_vals n) ix) as [[|P']|] eqn:E1; try discriminate. injection EP as ->.
    destruct (nth_error (n_vals n) ig) as [[|Q']|] eqn:E2; try discriminate. injection EQ as ->.
    pose proof (F2_nth _ _ _ _ _ _ V EX E1) as GX. pose proof (F2_nth _ _ _ _ _ _ V EG E2) as GG. cbn [good] in GX, GG.
    pose proof (c_top _ _ _ _ _ _ _ C) as Ct.
    destruct (memory_optimize_ok (g_stmts g) (p_expr W X) (p_expr W G) (c_ssa _ _ _ _ _ _ _ C) Ns ltac:(lia) (pg_reads _ _ _ _ _ _ _ _ GX) (pg_reads _ _ _ _ _ _ _ _ GG)) as (q0 & wx0 & wg0 & size0 & Hm0 & [_ Od Ot _ Or]).
    rewrite Hm in Hm0. injection Hm0 as <- <- <- <-.
    assert (B : get_wx_wg b checked sha256 (mkEnv (words proof) (map toZ inst) size (absorbing_length g + 1)) q' wx wg =
      Some (fst (encode P), snd (encode P), fst (encode Q), snd (encode Q))).
    { rewrite (aggregate_result _ b checked sha256 _ q q' wx wg Ft Od Pa Na) by tauto. 
      change (mkEnv (words proof) (map toZ inst) size (absorbing_length g + 1)) with (resize E size).
      rewrite (Or W b checked sha256 E Ct). unfold get_wx_wg. rewrite (c_run _ _ _ _ _ _ _ C), (pg_eval _ _ _ _ _ _ _ _ GX), (pg_eval _ _ _ _ _ _ _ _ GG). reflexivity. }
    destruct (encode P) as [px py], (encode Q) as [qx qy]. cbn [fst snd] in B. unfold verify. rewrite Hci. cbv beta iota. rewrite B.
    destruct (pairing precompile px py qx qy vs vn) as [[|]|]; cbn [negb].
    - destruct final_pair as [|x0 [|y0 [|x1 [|y1 rest]]]]; cbn [nth_error]; try (split; [discriminate|intros (_ & ? & ? & ? & ? & ? & Ef & _); discriminate Ef]).
      destruct (pairing precompile x0 y0 x1 y1 ts tn) as [[|]|] eqn:Ep; cbn [negb]; split; intro X0; try discriminate X0; try reflexivity.
      + split; [reflexivity|]. exists x0, y0, x1, y1, rest. auto.
      + destruct X0 as (_ & ? & ? & ? & ? & ? & Ef & X0). injection Ef as <- <- <- <- <-. congruence.
      + destruct X0 as (_ & ? & ? & ? & ? & ? & Ef & X0). injection Ef as <- <- <- <- <-. congruence.
    - split; [discriminate|intros [? _]; discriminate].
    - split; [discriminate|intros [? _]; discriminate].
  Qed.
End Program.
Print Assumptions C30_emission.
Print Assumptions C47_contract_partial.

(** ** Examples *)
Ltac decide_all := Properties_Codegen.decide_all.
(** C30: the first two requests and the fourth share a cell *)
Definition ex_requests : list expr :=
  let t o := ETranscript o TScalar in let m o := EMemory o TScalar in
  [EMul (t 0) (t 1) TScalar; EMul (t 0) (t 1) TScalar; EAdd (m 0) (t 2) TScalar; EMul (t 0) (t 1) TScalar; EAdd (m 1) (t 2) TScalar; EMul (m 4) (m 3) TScalar]%N.
Example C30_sharing_example : requests_ok ex_requests /\
  (exists g, emit_all assign_memory ex_requests [] new_ctx = Some (map (fun o => EMemory o TScalar) [0; 0; 1; 0; 1; 2]%N, g) /\ g_mem g = 3%N) /\
  (exists g, emit_all assign_fresh ex_requests [] new_ctx = Some (map (fun o => EMemory o TScalar) [0; 1; 2; 3; 4; 5]%N, g) /\ g_mem g = 6%N).
Proof.
  split; [|split; (eexists; split; [vm_compute; reflexivity|reflexivity])]. intros pre r post H. unfold ex_requests in H.
  do 6 (destruct pre as [|? pre]; cbn [app] in H; [injection H as <- _; split; [cbn; repeat split|split; [exact I|repeat constructor; cbn; tauto]]|injection H as ? H; subst]).
  destruct pre; discriminate H.
Qed.

(** a toy digest, a tiny sponge, the curve of the contract *)
Definition toy (l : list Z) : list Z := le 32 (Z.of_nat (length l)).
Definition tiny : pspec Fr :=
  mkSpec Fr 2 [[@ofZ Fr 1; @ofZ Fr 2]] [] [[@ofZ Fr 3; @ofZ Fr 4]] [[@ofZ Fr 1; @ofZ Fr 2]; [@ofZ Fr 3; @ofZ Fr 4]]
    [[@ofZ Fr 5; @ofZ Fr 6]; [@ofZ Fr 7; @ofZ Fr 8]] [].
Lemma toy_ok l : Forall byte (toy l) /\ length (toy l) = 32%nat.
Proof. split; [apply le_bytes|apply le_length]. Qed.
Lemma tiny_shape : sponge_shape Fr tiny 2.
Proof. split; [discriminate|]. split; [discriminate|]. repeat constructor; discriminate. Qed.
Definition point_bytes (x y : Z) : list Z := le 32 x ++ le 32 y.
Definition ex_proof : list Z := point_bytes 1 2 ++ point_bytes 1 (p_mod - 2) ++ le 32 1.
Lemma ex_bytes : Forall byte ex_proof.
Proof. unfold ex_proof, point_bytes. repeat (apply Forall_app; split); apply le_bytes. Qed.

Definition ex_reads : list (rop Fr Fq) := [RPoint; RSqueeze; RPoint; RScalar; RSqueeze; RCommonScalar (@ofZ Fr 5); RSqueeze].
Example C39_challenges_example : buffer Fr Fq ex_reads 0 = 7%N /\ 
  match read_all (@ofZ Fq 3) toy true ex_reads [] ex_proof with
  | Some (vs, st, rest) => challenges Fr Fq vs = [97; 193; 97]%Z /\ length st = 32%nat /\ rest = []
  | None => False end.
Proof. split; vm_compute; repeat split. Qed.

Notation gen := (generate Fr Fq (@ofZ Fq 3) true toy tiny 2 1 [@ofZ Fr 1; @ofZ Fr 0]).
Notation nat_run := (native (@ofZ Fq 3) toy true).
Definition ex_inst : list Fr := map (@ofZ Fr) [1; 0; 1; 0]%Z.
(** two points and a scalar are read, a public input is absorbed, a challenge derived *)
Definition ex_ops : list (op Fr Fq) :=
  [OReadPoint; OReadPoint; OReadScalar; OInstance; OCommonScalar 3; OSqueeze; OMul 4 2;
   OSum [(2%nat, @ofZ Fr 3); (3%nat, @ofZ Fr 1)] (@ofZ Fr 315); OSub 5 6; OPMul 7 0; OPSub 1 0].
Definition ex_stmts : list stmt :=
  let t o := ETranscript o TScalar in let m o := EMemory o TScalar in
  [UpdateHash (ETranscript 0 TPoint) 0; UpdateHash (ETranscript 2 TPoint) 3; UpdateHash (t 4) 6; UpdateHash (EInstance 0 TScalar) 8;
   Assign (m 212) (EHash 10); Assign (m 213) (EMul (m 212) (t 4) TScalar); Assign (m 214) (EMul (t 4) (EScalar 3) TScalar);
   Assign (m 215) (EAdd (EScalar 315) (m 214) TScalar); Assign (m 216) (EAdd (m 215) (EInstance 0 TScalar) TScalar);
   Assign (m 217) (ESub (m 213) (m 216) TScalar); Assign (EMemory 218 TPoint) (EMul (m 217) (ETranscript 0 TPoint) TPoint);
   Assign (EMemory 220 TPoint) (ESub (ETranscript 2 TPoint) (ETranscript 0 TPoint) TPoint)]%N.
Definition is_point (gs : gst Fr Fq) (i : nat) (e : expr) : Prop := match nth_error (gs_vals _ _ gs) i with Some (RP _ _ X) => p_expr Fq X = e | _ => False end.
Lemma is_point_inv gs i e : is_point gs i e -> exists X, nth_error (gs_vals _ _ gs) i = Some (RP Fr Fq X) /\ p_expr Fq X = e.
Proof. unfold is_point. destruct (nth_error _ i) as [[|X]|]; try contradiction. eauto. Qed.
Lemma ex_gen_ok : match gen ex_ops ex_proof ex_inst with
  | Some (gs, g) => g_stmts g = ex_stmts /\ g_mem g = 222%N /\ absorbing_length g = 10%N /\ is_point gs 8 (EMemory 218 TPoint) /\ is_point gs 9 (EMemory 220 TPoint)
  | None => False end.
Proof. vm_compute. repeat split. Qed.
Definition ex_opt : list stmt :=
  let t o := ETranscript o TScalar in let tmp := ETemp TScalar in
  [UpdateHash (ETranscript 0 TPoint) 0; UpdateHash (ETranscript 2 TPoint) 3; UpdateHash (t 4) 6; UpdateHash (EInstance 0 TScalar) 8;
   Assign tmp (EHash 10); Assign (EMemory 0 TScalar) (EMul tmp (t 4) TScalar); Assign tmp (EMulAdd (EScalar 3) (t 4) (EScalar 315) TScalar);
   Assign tmp (EAdd tmp (EInstance 0 TScalar) TScalar); Assign tmp (ESub (EMemory 0 TScalar) tmp TScalar);
   Assign (EMemory 0 TPoint) (EMul tmp (ETranscript 0 TPoint) TPoint); Assign (EMemory 2 TPoint) (ESub (ETranscript 2 TPoint) (ETranscript 0 TPoint) TPoint)]%N.
Lemma ex_opt_ok : memory_optimize ex_stmts (EMemory 218 TPoint) (EMemory 220 TPoint) = Some (ex_opt, EMemory 0 TPoint, EMemory 2 TPoint, 4%N).
Proof. vm_compute. reflexivity. Qed.
(** twice the generator *)
Definition twice_x : Z := 1368015179489954701390400359078579693043519447331113978918064868415326638035.
Definition twice_y : Z := 9918110051302171585080402603319702774565515993150576347155970296011118125764.
Definition points_are (r : option (nst Fr Fq)) (i j : nat) (xy : Z * Z * (Z * Z)) : Prop :=
  match r with
  | Some n => match n_p (n_vals n) i, n_p (n_vals n) j with Some P, Some Q => (encode P, encode Q) = xy | _, _ => False end
  | None => False
  end.
Lemma points_are_inv r i j xy : points_are r i j xy -> exists n P Q, r = Some n /\ n_p (n_vals n) i = Some P /\ n_p (n_vals n) j = Some Q /\ encode P = fst xy /\ encode Q = snd xy.
Proof.
  unfold points_are. destruct r as [n|]; [|contradiction]. destruct (n_p (n_vals n) i) as [P|] eqn:E1; [|contradiction]. destruct (n_p (n_vals n) j) as [Q|] eqn:E2; [|contradiction].
  intros <-. exists n, P, Q. auto.
Qed.
Lemma ex_native_ok : points_are (nat_run ex_ops ex_proof ex_inst) 8 9 ((twice_x, twice_y), (twice_x, p_mod - twice_y)%Z).
Proof. vm_compute. reflexivity. Qed.
Fixpoint fine_b (l : list (op Fr Fq)) (s : nst Fr Fq) : bool :=
  match l with
  | [] => true
  | o :: l =>
      match o with OPSub _ j => match n_p (n_vals s) j with Some Inf => false | _ => true end | _ => true end &&
      match native_op (@ofZ Fq 3) toy true o s with Some s => fine_b l s | None => true end
  end.
Lemma fine_b_ok l : forall s, fine_b l s = true -> fine_run (@ofZ Fq 3) toy true l s.
Proof.
  induction l as [|o l IH]; intros s H; [exact I|]. cbn [fine_b] in H. apply andb_true_iff in H. destruct H as [H1 H2]. split.
  - destruct o; try exact I. cbn [fine_op]. intro X. rewrite X in H1. discriminate H1.
  - intros s' E. rewrite E in H2. now apply IH.
Qed.
Lemma ex_fine : fine (@ofZ Fq 3) toy true ex_ops ex_proof ex_inst.
Proof. apply fine_b_ok. vm_compute. reflexivity. Qed.
(** the pairing precompile accepts everything; the final pair is twice the generator *)
Definition ex_pair : list Z := [1; 2; 1; 2]%Z.
Example C47_contract_example : exists gs g X G q', gen ex_ops ex_proof ex_inst = Some (gs, g) /\
  nth_error (gs_vals _ _ gs) 8 = Some (RP _ _ X) /\ nth_error (gs_vals _ _ gs) 9 = Some (RP _ _ G) /\
  Forall (const_on (@ofZ Fq 3)) ex_ops /\ Forall no_self_add (g_stmts g) /\ (g_mem g < DEADBEAF)%N /\
  memory_optimize (g_stmts g) (p_expr _ X) (p_expr _ G) = Some (ex_opt, EMemory 0 TPoint, EMemory 2 TPoint, 4%N) /\
  Forall fits ex_opt /\ paired ex_opt /\ no_abandoned ex_opt /\ aggregate false ex_opt = Some q' /\
  contract_instances 4 ex_pair = Some (map toZ ex_inst) /\
  forall vs vn ts tn,
    verify (fun _ => Some 1%Z) 4 (fun pr ins => get_wx_wg (@ofZ Fq 3) true toy (mkEnv pr ins 4 (absorbing_length g + 1)) q' (EMemory 0 TPoint) (EMemory 2 TPoint))
      vs vn ts tn (words ex_proof) ex_pair = Some tt.
Proof.
  pose proof ex_gen_ok as Hg. destruct (gen ex_ops ex_proof ex_inst) as [[gs g]|] eqn:Eg; [|contradiction].
  destruct Hg as (Es & Em & Ea & Hx & Hw). apply is_point_inv in Hx, Hw. destruct Hx as (X & EX & PX), Hw as (G & EG & PG).
  destruct (points_are_inv _ _ _ _ ex_native_ok) as (n & P & Q & En & EP & EQ & CP & CQ).
  assert (Hc : Forall (const_on (@ofZ Fq 3)) ex_ops) by (unfold ex_ops; repeat constructor).
  assert (Hn : Forall no_self_add (g_stmts g)) by (rewrite Es; unfold ex_stmts; repeat apply Forall_cons; try apply Forall_nil; try exact I; cbn; intros o ty; split; intros; intuition discriminate).
  assert (Hd : (g_mem g < DEADBEAF)%N) by (rewrite Em; reflexivity).
  assert (Ho : memory_optimize (g_stmts g) (p_expr _ X) (p_expr _ G) = Some (ex_opt, EMemory 0 TPoint, EMemory 2 TPoint, 4%N)) by (rewrite Es, PX, PG; exact ex_opt_ok).
  assert (Hf : Forall fits ex_opt) by (unfold ex_opt; Properties_Codegen.decide_all).
  assert (Hp : paired ex_opt).
  { intros pre m a rest H. unfold ex_opt in H.
    destruct pre as [|? pre]; cbn [app] in H; [injection H as <- <- <-; right; eexists; reflexivity|injection H as <- H].
    destruct pre as [|? pre]; cbn [app] in H; [injection H as <- <- <-; left; eexists [], _, _; split; [reflexivity|split; reflexivity]|injection H as <- H].
    repeat (destruct pre as [|? pre]; cbn [app] in H; [discriminate H|injection H as _ H]). destruct pre; discriminate H. }
  assert (Ha : no_abandoned ex_opt).
  { intros pre a c s post H Hc0 Nc. unfold ex_opt, square in H.
    repeat (destruct pre as [|? pre]; cbn [app] in H; [discriminate H|injection H as _ H]). destruct pre; discriminate H. }
  destruct (aggregate false ex_opt) as [q'|] eqn:Eq; [|vm_compute in Eq; discriminate Eq].
  assert (Hi : contract_instances 4 ex_pair = Some (map toZ ex_inst)) by (vm_compute; reflexivity).
  exists gs, g, X, G, q'. repeat (split; [eassumption || reflexivity|]). intros vs vn ts tn.
  pose proof (C47_contract_partial Fr Fq eq_refl eq_refl true true toy toy_ok toy tiny 2 1 _ tiny_shape ex_ops ex_proof ex_inst gs g 8 9 X G q' ex_opt _ _ _
    Eg EX EG Hc Hn Hd Ho Hf Hp Ha Eq ex_proof ex_inst ex_pair n P Q (fun _ => Some 1%Z) vs vn ts tn En ex_fine ex_bytes EP EQ Hi) as V.
  cbv zeta in V. rewrite CP, CQ in V. apply V. split; [reflexivity|]. exists 1%Z, 2%Z, 1%Z, 2%Z, []. split; reflexivity.
Qed.

(** ** The same product twice *)
(** The verifier adds two equal products; the cache gives both the same cell, and the
    fusion computes the product plus the content of a cell that is never assigned.  The
    native verifier obtains twice the point read from the proof, the contract the point
    itself: the contract accepts although the native pairing check fails. *)
Definition bad_proof : list Z := point_bytes 1 2 ++ point_bytes 1 (p_mod - 2) ++ le 32 1 ++ le 32 1.
Definition bad_ops : list (op Fr Fq) := [OReadPoint; OReadPoint; OReadScalar; OReadScalar; OMul 2 3; OMul 2 3; OAdd 4 5; OPMul 6 0].
Definition bad_stmts : list stmt :=
  let t o := ETranscript o TScalar in let m o := EMemory o TScalar in
  [UpdateHash (ETranscript 0 TPoint) 0; UpdateHash (ETranscript 2 TPoint) 3; UpdateHash (t 4) 6; UpdateHash (t 5) 8;
   Assign (m 0) (EMul (t 4) (t 5) TScalar); Assign (m 1) (EAdd (m 0) (m 0) TScalar); Assign (EMemory 2 TPoint) (EMul (m 1) (ETranscript 0 TPoint) TPoint)]%N.
Lemma bad_gen_ok : match gen bad_ops bad_proof ex_inst with
  | Some (gs, g) => g_stmts g = bad_stmts /\ g_mem g = 4%N /\ absorbing_length g = 10%N /\ is_point gs 7 (EMemory 2 TPoint) /\ is_point gs 1 (ETranscript 2 TPoint)
  | None => False end.
Proof. vm_compute. repeat split. Qed.
Definition bad_opt : list stmt :=
  let t o := ETranscript o TScalar in
  [UpdateHash (ETranscript 0 TPoint) 0; UpdateHash (ETranscript 2 TPoint) 3; UpdateHash (t 4) 6; UpdateHash (t 5) 8;
   Assign (ETemp TScalar) (EMulAdd (t 5) (t 4) (EMemory 0 TScalar) TScalar); Assign (EMemory 0 TPoint) (EMul (ETemp TScalar) (ETranscript 0 TPoint) TPoint)]%N.
Lemma bad_opt_ok : memory_optimize bad_stmts (EMemory 2 TPoint) (ETranscript 2 TPoint) = Some (bad_opt, EMemory 0 TPoint, ETranscript 2 TPoint, 2%N).
Proof. vm_compute. reflexivity. Qed.
Lemma bad_native_ok : points_are (nat_run bad_ops bad_proof ex_inst) 7 1 ((twice_x, twice_y), (1, p_mod - 2)%Z).
Proof. vm_compute. reflexivity. Qed.
Lemma bad_fine : fine (@ofZ Fq 3) toy true bad_ops bad_proof ex_inst.
Proof. apply fine_b_ok. vm_compute. reflexivity. Qed.
(** accepts pairs whose first coordinate is one *)
Definition one_first (l : list Z) : option Z := Some (match l with 1%Z :: _ => 1%Z | _ => 0%Z end).
Theorem C47_contract_refuted : exists gs g X G q' n P Q, gen bad_ops bad_proof ex_inst = Some (gs, g) /\
  nth_error (gs_vals _ _ gs) 7 = Some (RP _ _ X) /\ nth_error (gs_vals _ _ gs) 1 = Some (RP _ _ G) /\
  Forall (const_on (@ofZ Fq 3)) bad_ops /\ (g_mem g < DEADBEAF)%N /\
  memory_optimize (g_stmts g) (p_expr _ X) (p_expr _ G) = Some (bad_opt, EMemory 0 TPoint, ETranscript 2 TPoint, 2%N) /\
  Forall fits bad_opt /\ paired bad_opt /\ no_abandoned bad_opt /\ aggregate false bad_opt = Some q' /\
  nat_run bad_ops bad_proof ex_inst = Some n /\ fine (@ofZ Fq 3) toy true bad_ops bad_proof ex_inst /\
  n_p (n_vals n) 7 = Some P /\ n_p (n_vals n) 1 = Some Q /\ contract_instances 4 ex_pair = Some (map toZ ex_inst) /\
  let z := (0, 0, 0, 0)%Z in
  pairing one_first (fst (encode P)) (snd (encode P)) (fst (encode Q)) (snd (encode Q)) z z = Some false /\
  verify one_first 4 (fun pr ins => get_wx_wg (@ofZ Fq 3) true toy (mkEnv pr ins 2 (absorbing_length g + 1)) q' (EMemory 0 TPoint) (ETranscript 2 TPoint))
      z z z z (words bad_proof) ex_pair = Some tt.
Proof.
  pose proof bad_gen_ok as Hg. destruct (gen bad_ops bad_proof ex_inst) as [[gs g]|] eqn:Eg; [|contradiction].
  destruct Hg as (Es & Em & Ea & Hx & Hw). apply is_point_inv in Hx, Hw. destruct Hx as (X & EX & PX), Hw as (G & EG & PG).
  destruct (points_are_inv _ _ _ _ bad_native_ok) as (n & P & Q & En & EP & EQ & CP & CQ).
  assert (Hc : Forall (const_on (@ofZ Fq 3)) bad_ops) by (unfold bad_ops; repeat constructor).
  assert (Hd : (g_mem g < DEADBEAF)%N) by (rewrite Em; reflexivity).
  assert (Ho : memory_optimize (g_stmts g) (p_expr _ X) (p_expr _ G) = Some (bad_opt, EMemory 0 TPoint, ETranscript 2 TPoint, 2%N)) by (rewrite Es, PX, PG; exact bad_opt_ok).
  assert (Hf : Forall fits bad_opt) by (unfold bad_opt; Properties_Codegen.decide_all).
  assert (Hp : paired bad_opt).
  { intros pre m a rest H. unfold bad_opt in H.
    destruct pre as [|? pre]; cbn [app] in H; [injection H as <- <- <-; right; eexists; reflexivity|injection H as <- H].
    destruct pre as [|? pre]; cbn [app] in H; [injection H as <- <- <-; left; eexists [], _, _; split; [reflexivity|split; reflexivity]|injection H as <- H].
    repeat (destruct pre as [|? pre]; cbn [app] in H; [discriminate H|injection H as _ H]). destruct pre; discriminate H. }
  assert (Ha : no_abandoned bad_opt).
  { intros pre a c s post H Hc0 Nc. unfold bad_opt, square in H.
    repeat (destruct pre as [|? pre]; cbn [app] in H; [discriminate H|injection H as _ H]). destruct pre; discriminate H. }
  assert (Hi : contract_instances 4 ex_pair = Some (map toZ ex_inst)) by (vm_compute; reflexivity).
  destruct (aggregate false bad_opt) as [q'|] eqn:Eq; [|vm_compute in Eq; discriminate Eq].
  exists gs, g, X, G, q', n, P, Q. pose proof bad_fine. repeat (split; [eassumption || reflexivity|]). cbv zeta. rewrite CP, CQ, Ea. split; [reflexivity|].
  vm_compute in Eq. injection Eq as <-. vm_compute. reflexivity.
Qed.
Print Assumptions C47_contract_refuted.
