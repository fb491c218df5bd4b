(** The honest prover's run of the whole circuit. *)
From Coq Require Import String ZArith NArith Arith Lia List Bool.
From Verif Require Import Util Algebra PField IntegerHistorySound ListFacts Gate GateProofs GateOps Integer Bn254 IntegerSound IntegerComplete IntegerHistory
  Curve CurveAssoc Bn254Curve Ecc EccSound EccScalar EccMul EccComplete EccHistory EccHonest CurveOrder CurveMod
  Schema Plonk Poseidon PoseidonSpec CircuitSponge BuildParams Calls VerifierCalls VerifierCallsProofs VerifierCallsTop Properties_Calls VerifyCircuit VerifyCircuitProofs
  CircuitRun CircuitRunSpec CallOrder CircuitHonest.
Import ListNotations.

(** *** numbers of points after the evaluations exist *)
Section Counts.
  Variable F : Fld.
  Variable M : Mod F.
  Variables (PT SC : nat).
  Variable pt_decode : list Z -> option M.
  Variable sc_decode : list Z -> option F.
  Variable St : Type.
  Variable upd_pt : St -> M -> St.
  Variable upd_sc : St -> F -> St.
  Variable sqz : St -> option (F * St).
  Notation agg_proof := (aggregate_proof F M PT SC pt_decode sc_decode St upd_pt upd_sc sqz).
  Notation agg_circuits := (aggregate_circuits F M PT SC pt_decode sc_decode St upd_pt upd_sc sqz).
  Notation aggregation := (verify_aggregation_proofs_in_chip F M PT SC pt_decode sc_decode St upd_pt upd_sc sqz).
  Notation opening_points := (opening_points F M PT SC pt_decode sc_decode St upd_pt upd_sc sqz).
  Notation all_proofs := (all_proofs F M St).
  Definition count_of (l : list (circuit_proof F M St * proof_data F St)) (k : nat) : nat :=
    match nth_error l (k - 1) with
    | Some (c, p) => match opening_points c p with Some n => n | None => 0 end
    | None => 0
    end.
  Lemma proof_counts c p r : agg_proof c p = Some r -> exists n, opening_points c p = Some n.
  Proof.
    unfold aggregate_proof, VerifierCallsTop.opening_points. destruct (assign_instance_commitment _ _ _ _ _) as [[i1 i2]|]; [|discriminate].
    unfold points, verify_single_proof_no_eval, rbind.
    destruct (build_params _ _ _ _ _ _ _ _ _ _ _ _ _ _) as [[p' t]|]; [|discriminate]. intros _. eexists. reflexivity.
  Qed.
  Lemma proofs_counts c ps : forall rs, mapM (agg_proof c) ps = Some rs -> Forall (fun q => exists n, opening_points (fst q) (snd q) = Some n) (map (pair c) ps).
  Proof.
    induction ps as [|p ps IH]; intros rs E; [constructor|]. cbn [mapM] in E. destruct (agg_proof c p) as [r|] eqn:E1; [|discriminate].
    destruct (mapM (agg_proof c) ps) as [rs'|]; [|discriminate]. cbn [map]. constructor; [exact (proof_counts c p r E1)|exact (IH rs' eq_refl)].
  Qed.
  Lemma circuits_counts cs : forall h r, agg_circuits cs h = Some r -> Forall (fun q => exists n, opening_points (fst q) (snd q) = Some n) (all_proofs cs).
  Proof.
    induction cs as [|c cs IH]; intros h r E; [constructor|]. cbn [aggregate_circuits] in E. unfold aggregate_circuit in E.
    destruct (mapM (agg_proof c) (cp_proofs c)) as [r1|] eqn:E1; [|discriminate]. destruct (absorb_transcripts _ _ _ _ _ _) as [h1|]; [|discriminate].
    destruct (agg_circuits cs h1) as [r2|] eqn:E3; [|discriminate]. unfold VerifierCallsTop.all_proofs. cbn [flat_map]. apply Forall_app. split; [exact (proofs_counts c _ _ E1)|exact (IH h1 r2 E3)].
  Qed.
  Lemma aggregation_counts cs h r : aggregation cs h = Some r -> counts F M PT SC pt_decode sc_decode St upd_pt upd_sc sqz (count_of (all_proofs cs)) 1 (all_proofs cs).
  Proof.
    unfold verify_aggregation_proofs_in_chip. destruct (agg_circuits cs h) as [[rs h']|] eqn:E; [|discriminate]. intros _.
    pose proof (circuits_counts cs h _ E) as H. intros i c p Ei. unfold count_of. replace (1 + i - 1)%nat with i by lia. rewrite Ei.
    rewrite Forall_forall in H. destruct (H _ (nth_error_In _ _ Ei)) as (n & En). cbn [fst snd] in En. now rewrite En.
  Qed.
End Counts.

Section Top.
  Variables NN W : PF.
  Hypothesis HN : pf_n NN = fr_mod.
  Hypothesis HW : pf_n W = fq_mod.
  Notation M := (G1 NN W HN HW).
  Notation aff := (g1_affine NN W HN HW).
  Variables (PT SC : nat).
  Hypothesis Hpos : (1 <= PT)%nat.
  Variable pt_decode : list Z -> option M.
  Variable sc_decode : list Z -> option NN.
  Variable sp : pspec NN.
  Variable RATE : nat.
  Hypothesis wf : wf_spec sp RATE.
  Variable init : list NN.
  Hypothesis L0 : List.length init = S RATE.
  Variable generator : M.
  Notation mchip := (mock_chip NN).
  Notation chip := (circuit_chip NN).
  Notation St := (pstate NN (mock_chip NN)).
  Notation npt := (native_pt NN W M aff).
  Notation nsc := (native_sc NN).
  Notation nsqz := (native_sqz NN sp RATE).
  Notation run := (run_calls NN M PT SC pt_decode sc_decode St npt nsc nsqz generator).
  Notation aggregation := (verify_aggregation_proofs_in_chip NN M PT SC pt_decode sc_decode St npt nsc nsqz).
  Notation counts := (counts NN M PT SC pt_decode sc_decode St npt nsc nsqz).
  Notation x_calls := (x_calls NN W M aff PT SC pt_decode sc_decode sp RATE generator).
  Notation x_verify := (x_verify NN W M aff PT SC pt_decode sc_decode sp RATE init generator).
  Notation x_synthesize := (x_synthesize NN W M aff PT SC pt_decode sc_decode sp RATE init generator).
  Notation lucky_calls := (lucky_calls NN W HN HW PT SC pt_decode sc_decode sp RATE generator).
  Notation rel := (rel NN W HN HW RATE).
  Notation hs := (hs NN).
  Notation hx := (hx NN W).
  Notation shown := (shown NN W).
  Notation trr := (trr NN RATE).
  Notation note_fine := (note_fine NN W).
  Notation h0 := (mkP (A := mock_chip NN) init []).
  Notation given := (given NN (kzg NN M) (key NN M)).
  Implicit Types (c : ctx NN).

  (** *** the transcripts *)
  Lemma constants_cpl : forall (l : list NN) c, cpl c (cmap NN chip (c_const chip) l) (fun r c' => Forall2 (hs c') r l).
  Proof.
    induction l as [|v l IH]; intro c; cbn [cmap]; [apply cpl_ret; constructor|]. eapply cpl_bind; [apply assign_constant_cpl|]. intros a c1 _ L1 _ Ha.
    eapply cpl_bind; [exact (IH c1)|]. intros r c2 _ L2 _ Hr. apply cpl_ret. constructor; [exact (hs_le NN c1 c2 a v L2 Ha)|exact Hr].
  Qed.
  Lemma transcript_cpl c bytes : cpl c (x_transcript NN init bytes) (fun x c' => trr c' x (mkTr bytes h0)).
  Proof.
    unfold x_transcript, poseidon_new. eapply cpl_bind with (P := fun p c' => hr NN RATE c' p h0).
    - eapply (cpl_bind NN); [exact (constants_cpl init c)|]. intros r c1 _ _ _ Hr. apply cpl_ret. split; [exact Hr|]. split; [constructor|exact L0].
    - intros p c1 _ _ _ Hp. apply cpl_ret. split; [reflexivity|exact Hp].
  Qed.
  Lemma transcripts_cpl bs : forall c, cpl c (bmap (x_transcript NN init) bs) (fun ts c' => Forall2 (trr c') ts (map (fun b => mkTr b h0) bs)).
  Proof.
    induction bs as [|b bs IH]; intro c; cbn [bmap map]; [apply cpl_ret; constructor|]. eapply cpl_bind; [apply transcript_cpl|]. intros x c1 _ L1 _ Hx.
    eapply cpl_bind; [exact (IH c1)|]. intros xs c2 _ L2 _ Hxs. apply cpl_ret. constructor; [|exact Hxs]. destruct Hx as [E H]. split; [exact E|exact (hr_le NN RATE c1 c2 _ _ L2 H)].
  Qed.
  Lemma start_rel c inst ts bs : Forall2 (trr c) ts (map (fun b => mkTr b h0) bs) -> rel c [] (mkX [] inst ts) (mkC [] inst (map (fun b => mkTr b h0) bs)).
  Proof.
    intro H. split; [|split; [reflexivity|exact H]]. split; [reflexivity|]. split; [reflexivity|]. intros [|i] v E; discriminate E.
  Qed.

  (** *** any list of calls on fresh transcripts *)
  Lemma laid_out_cpl c calls inst bytes s' : orderly [] calls = true ->
    run calls (mkC [] inst (map (fun b => mkTr b h0) bytes)) = Some s' -> lucky_calls calls (mkC [] inst (map (fun b => mkTr b h0) bytes)) ->
    cpl c (ts <- bmap (x_transcript NN init) bytes ;; x_calls calls (mkX [] inst ts)) (fun r c' =>
      rel c' (kinds_after [] calls) (fst r) s' /\ Forall (note_fine c') (snd r)).
  Proof.
    intros Ho Er Lk. eapply cpl_bind; [apply transcripts_cpl|]. intros ts c1 _ _ _ Ht.
    exact (x_calls_cpl NN W HN HW PT SC pt_decode sc_decode sp RATE wf init L0 generator calls c1 [] _ _ s' (start_rel c1 inst ts bytes Ht) Ho Lk Er).
  Qed.

  (** *** the same calls *)
  Lemma same_hproofs nw ps : forall k, hproofs_of NN St nw k (map (fun p => mkPD (gp_instances p) (mkTr (gp_bytes p) h0) (gp_key p)) ps) =
    hproofs_of NN unit nw k (map (fun p : given_proof NN => mkPD (gp_instances p) (mkTr (gp_bytes p) tt) (gp_key p)) ps).
  Proof. induction ps as [|p ps IH]; intro k; [reflexivity|]. cbn [hproofs_of map]. rewrite IH. reflexivity. Qed.
  Lemma same_hcircuits nw (gs : list given) : forall k, hcircuits_of NN M St nw k (map (circuit_proof_of NN M St h0) gs) = hcircuits_of NN M unit nw k (given_circuits NN M gs).
  Proof.
    induction gs as [|g gs IH]; intro k; [reflexivity|]. cbn [hcircuits_of given_circuits map]. fold (given_circuits NN M gs). rewrite IH.
    unfold hcircuit_of, circuit_proof_of. cbn [cp_vk cp_columns cp_g_lagrange cp_proofs]. rewrite same_hproofs, !map_length. reflexivity.
  Qed.
  Lemma same_instances (gs : list given) : all_instances NN M St (map (circuit_proof_of NN M St h0) gs) = all_instances NN M unit (given_circuits NN M gs).
  Proof.
    unfold all_instances, given_circuits. f_equal. rewrite !map_map. apply map_ext. intro g. unfold circuit_proof_of. cbn [cp_proofs]. f_equal. rewrite !map_map. reflexivity.
  Qed.
  Lemma same_transcripts (gs : list given) : all_transcripts NN M St (map (circuit_proof_of NN M St h0) gs) = map (fun b => mkTr b h0) (given_bytes NN M gs).
  Proof.
    unfold all_transcripts, given_bytes. rewrite concat_map, !map_map. f_equal. apply map_ext. intro g. unfold circuit_proof_of. cbn [cp_proofs]. rewrite !map_map. reflexivity.
  Qed.

  (** *** commitments that have to agree *)
  Definition equal_commits (advices : list (list M)) (co : (nat * nat) * (nat * nat)) : Prop :=
    exists l a l' b, nth_error advices (fst (fst co)) = Some l /\ nth_error l (snd (fst co)) = Some a /\
      nth_error advices (fst (snd co)) = Some l' /\ nth_error l' (snd (snd co)) = Some b /\ aff a = aff b.
  Lemma exact_points c ks s ns l : rel c ks s ns -> exacts l ks -> forall Ps, mapM (val_p ns) l = Some Ps ->
    cpl c (bmap (x_p s) l) (fun r c' => c' = c /\ Forall2 (fun p P => hx c p (aff P)) r Ps).
  Proof.
    intros R X. induction X as [|i l Xi _ IH]; intros Ps E; cbn [mapM] in E; [injection E as <-; apply cpl_ret; split; [reflexivity|constructor]|].
    destruct (val_p ns i) as [P|] eqn:Ei; [|discriminate]. destruct (mapM (val_p ns) l) as [Ps'|]; [|discriminate]. injection E as <-. cbn [bmap].
    eapply cpl_bind; [exact (cpl_px NN W HN HW RATE c ks s ns i P R Ei Xi)|]. intros p c' _ _ _ [-> Hp]. eapply cpl_bind; [exact (IH Ps' eq_refl)|].
    intros r c' _ _ _ [-> Hr]. apply cpl_ret. split; [reflexivity|now constructor].
  Qed.
  Lemma exact_pointss c ks s ns ls : rel c ks s ns -> Forall (fun l => exacts l ks) ls -> forall Pss, mapM (mapM (val_p ns)) ls = Some Pss ->
    cpl c (bmap (bmap (x_p s)) ls) (fun r c' => c' = c /\ Forall2 (Forall2 (fun p P => hx c p (aff P))) r Pss).
  Proof.
    intros R X. induction X as [|l ls Xl _ IH]; intros Pss E; cbn [mapM] in E; [injection E as <-; apply cpl_ret; split; [reflexivity|constructor]|].
    destruct (mapM (val_p ns) l) as [Ps|] eqn:Ei; [|discriminate]. destruct (mapM (mapM (val_p ns)) ls) as [Pss'|]; [|discriminate]. injection E as <-. cbn [bmap].
    eapply cpl_bind; [exact (exact_points c ks s ns l R Xl Ps Ei)|]. intros p c' _ _ _ [-> Hp]. eapply cpl_bind; [exact (IH Pss' eq_refl)|].
    intros r c' _ _ _ [-> Hr]. apply cpl_ret. split; [reflexivity|now constructor].
  Qed.
  Lemma coherent_cpl advices coherent : Forall (equal_commits advices) coherent -> forall c commits, Forall2 (Forall2 (fun p P => hx c p (aff P))) commits advices ->
    cpl c (x_coherent NN W commits coherent) (fun _ _ => True).
  Proof.
    unfold x_coherent. induction 1 as [|co cs (l & A & l' & B & E1 & E2 & E3 & E4 & EAB) _ IH]; intros c commits H; cbn [bmap]; [apply cpl_ret; exact I|].
    destruct (Forall2_nth_r _ _ _ _ _ H E1) as (m & F1 & H1). destruct (Forall2_nth_r _ _ _ _ _ H1 E2) as (a & F2 & [_ Ha]).
    destruct (Forall2_nth_r _ _ _ _ _ H E3) as (m' & F3 & H3). destruct (Forall2_nth_r _ _ _ _ _ H3 E4) as (b & F4 & [_ Hb]).
    eapply cpl_bind with (P := fun _ _ => True).
    - eapply cpl_bind; [apply cpl_at with (a := m) (P := fun x c' => x = m /\ c' = c); [exact F1|auto]|]. intros x c1 _ _ _ [-> ->].
      eapply cpl_bind; [apply cpl_at with (a := a) (P := fun x c' => x = a /\ c' = c); [exact F2|auto]|]. intros x c1 _ _ _ [-> ->].
      eapply cpl_bind; [apply cpl_at with (a := m') (P := fun x c' => x = m' /\ c' = c); [exact F3|auto]|]. intros x c1 _ _ _ [-> ->].
      eapply cpl_bind; [apply cpl_at with (a := b) (P := fun x c' => x = b /\ c' = c); [exact F4|auto]|]. intros x c1 _ _ _ [-> ->].
      rewrite EAB in Ha. exact (ecc_assert_equal_cpl NN W HN HW c a b _ _ _ _ _ _ _ _ _ _ Ha Hb ltac:(lia) ltac:(lia) (or_introl (conj eq_refl eq_refl))).
    - intros u c1 _ L1 _ _. eapply cpl_bind; [apply (IH c1 commits)|].
      + eapply Forall2_weaken; [|exact H]. intros q Q K. eapply Forall2_weaken; [|exact K]. intros q' Q' K'. exact (hx_le NN W c c1 q' _ L1 K').
      + intros us c2 _ _ _ _. apply cpl_ret. exact I.
  Qed.

  (** *** the whole of [synthesize_proof] *)
  Definition lucky_given (nw : nat -> nat) (gs : list given) : Prop := forall r calls n,
    c_verify_aggregation_proofs_in_chip NN M 0 (hcircuits_of NN M unit nw 1 (given_circuits NN M gs)) 0 = Some (r, calls, n) ->
    lucky_calls calls (mkC [] (all_instances NN M unit (given_circuits NN M gs)) (map (fun b => mkTr b h0) ([] :: given_bytes NN M gs))).
  Lemma x_verify_cpl c nw gs coherent wx wg ins advices : (forall g, nth_error gs 0 = Some g -> VerifyCircuit.k_generator _ _ (g_params g) = generator) ->
    aggregation (map (circuit_proof_of NN M St h0) gs) h0 = Some (wx, wg, ins, advices) ->
    counts nw 1 (all_proofs NN M St (map (circuit_proof_of NN M St h0) gs)) ->
    lucky_given nw gs -> Forall (equal_commits advices) coherent ->
    cpl c (x_verify nw gs coherent) (fun r c' => let '(p1, p2, cells, notes) := r in
      shown c' p1 (aff wx) /\ shown c' p2 (aff wg) /\ Forall2 (hs c') cells ins /\ Forall (note_fine c') notes).
  Proof.
    intros Hg Ea Hc Lk Hco.
    destruct (proj1 (C49_aggregation NN M PT SC pt_decode sc_decode Hpos St npt nsc nsqz generator nw (map (circuit_proof_of NN M St h0) gs) h0 [] [] wx wg ins advices
      ltac:(intros c' Ec; destruct gs as [|g gs']; [discriminate Ec|]; injection Ec as <-; exact (Hg g eq_refl))) (conj Ea Hc))
      as (a & b & is_ & ads & calls & n & s' & E1 & E2 & E3 & E4 & E5 & E6 & _ & _).
    rewrite same_hcircuits in E1. rewrite same_instances, same_transcripts, app_nil_r in E2.
    change (mkTr [] h0 :: map (fun b => mkTr b h0) (given_bytes NN M gs)) with (map (fun b => mkTr b h0) ([] :: given_bytes NN M gs)) in E2.
    destruct (o_top NN M 0 (hcircuits_of NN M unit nw 1 (given_circuits NN M gs)) _ _ _ E1) as (Hfit & _ & _ & Hex). cbn [snd app] in Hex.
    destruct (fits_orderly NN M PT SC pt_decode sc_decode St npt nsc nsqz generator calls [] (mkC [] (all_instances NN M unit (given_circuits NN M gs)) (map (fun b => mkTr b h0) ([] :: given_bytes NN M gs))) s' (Forall2_nil _) Hfit E2) as [Ho _].
    specialize (Lk _ _ _ E1).
    unfold CircuitRun.x_verify. eapply cpl_bind; [apply transcripts_cpl|]. intros ts c1 _ _ _ Hts. eapply cpl_bind; [apply transcript_cpl|]. intros main c2 _ L2 _ Hm.
    rewrite E1. cbn [lift_o]. eapply cpl_bind; [apply cpl_ret with (P := fun g c' => g = (a, b, is_, ads, calls, n) /\ c' = c2); auto|]. intros g c3 _ _ _ [-> ->].
    assert (R0 : rel c2 [] (mkX [] (all_instances NN M unit (given_circuits NN M gs)) (main :: ts))
      (mkC [] (all_instances NN M unit (given_circuits NN M gs)) (map (fun b => mkTr b h0) ([] :: given_bytes NN M gs)))).
    { apply start_rel. cbn [map]. constructor; [exact Hm|exact (trs_le NN RATE c1 c2 _ _ L2 Hts)]. }
    eapply cpl_bind; [exact (x_calls_cpl NN W HN HW PT SC pt_decode sc_decode sp RATE wf init L0 generator calls c2 [] _ _ s' R0 Ho Lk E2)|].
    intros [s notes] c3 _ _ _ [R Hn]. cbn [fst snd] in R, Hn. unfold kinds_after in R. cbn [app] in R.
    eapply cpl_bind; [exact (cpl_p NN W HN HW RATE c3 _ s s' a wx R E3)|]. intros p1 c4 _ _ _ [-> H1].
    eapply cpl_bind; [exact (cpl_p NN W HN HW RATE c3 _ s s' b wg R E4)|]. intros p2 c4 _ _ _ [-> H2].
    eapply cpl_bind; [exact (cpl_ss NN W HN HW RATE c3 _ s s' is_ ins R E5)|]. intros cells c4 _ _ _ [-> H3].
    eapply cpl_bind; [exact (exact_pointss c3 _ s s' ads R Hex advices E6)|]. intros commits c4 _ _ _ [-> H4].
    eapply cpl_bind; [exact (coherent_cpl advices coherent Hco c3 commits H4)|]. intros us c4 _ L4 _ _. apply cpl_ret.
    split; [exact (shown_le NN W c3 c4 _ _ L4 H1)|]. split; [exact (shown_le NN W c3 c4 _ _ L4 H2)|]. split; [exact (hss_le NN c3 c4 _ _ L4 H3)|exact (notes_le NN W c3 c4 _ L4 Hn)].
  Qed.

  Lemma shown_aff c p x y : shown c p (Aff x y) -> exists i j, has_pt NN W c p x y false i j.
  Proof. intros (_ & x' & y' & [] & i & j & H & E); [discriminate E|]. injection E as -> ->. eauto. Qed.
  Lemma x_synthesize_cpl c nw gs coherent wx wg ins advices x0 y0 x1 y1 : (forall g, nth_error gs 0 = Some g -> VerifyCircuit.k_generator _ _ (g_params g) = generator) ->
    aggregation (map (circuit_proof_of NN M St h0) gs) h0 = Some (wx, wg, ins, advices) ->
    counts nw 1 (all_proofs NN M St (map (circuit_proof_of NN M St h0) gs)) ->
    lucky_given nw gs -> Forall (equal_commits advices) coherent -> aff wx = Aff x0 y0 -> aff wg = Aff x1 y1 ->
    cpl c (x_synthesize nw gs coherent) (fun r c' =>
      shows NN c' (fst r) (point_words (toZ x0) (toZ y0) ++ point_words (toZ x1) (toZ y1) ++ map toZ ins) /\ Forall (note_fine c') (snd r)).
  Proof.
    intros Hg Ea Hc Lk Hco Ex Eg. unfold CircuitRun.x_synthesize. eapply cpl_bind; [exact (x_verify_cpl c nw gs coherent wx wg ins advices Hg Ea Hc Lk Hco)|].
    intros [[[p1 p2] cells] notes] c1 _ _ _ (H1 & H2 & H3 & H4). rewrite Ex in H1. rewrite Eg in H2.
    destruct (shown_aff c1 p1 x0 y0 H1) as (i0 & j0 & K1). destruct (shown_aff c1 p2 x1 y1 H2) as (i1 & j1 & K2).
    assert (V : Forall (valid c1) cells) by (clear - H3; induction H3 as [|p P l l' H _ IH]; constructor; [apply H|exact IH]).
    eapply cpl_bind; [exact (synthesize_tail_cpl NN W HN HW c1 p1 p2 x0 y0 i0 j0 x1 y1 i1 j1 cells K1 K2 V)|]. intros column c2 _ L2 _ Hs. apply cpl_ret. cbn [fst snd].
    split; [|exact (notes_le NN W c1 c2 _ L2 H4)]. replace (map toZ ins) with (map (fun a : aval NN => toZ (av_val a)) cells); [exact Hs|].
    clear - H3. induction H3 as [|p P l l' [_ H] _ IH]; [reflexivity|]. cbn [map]. now rewrite IH, H.
  Qed.
End Top.
