(** From a satisfying assignment of the whole circuit to a native verification. *)
From Coq Require Import String ZArith NArith Arith Lia List Bool.
From Verif Require Import Util Algebra PField ListFacts Gate GateProofs GateOps Integer Bn254 IntegerSound IntegerHistorySound IntegerHistory
  Curve CurveAssoc Bn254Curve Ecc EccSound EccScalar EccMul EccHistory CurveOrder CurveMod
  Schema Plonk Poseidon PoseidonSpec CircuitSponge BuildParams Calls VerifierCalls VerifierCallsTop Properties_Calls VerifyCircuit VerifyCircuitProofs
  CircuitRun CircuitRunSpec CircuitRunProofs CallKinds.
Import ListNotations.

Section Top.
  Variables NN W : PF.
  Hypothesis HN : pf_n NN = fr_mod.
  Hypothesis HW : pf_n W = fq_mod.
  Notation M := (G1 NN W HN HW).
  Notation aff := (g1_affine NN W HN HW).
  Variables (PT SC : nat).
  Hypothesis Hpos : (1 <= PT)%nat.
  Variable pt_decode : list Z -> option M.
  Variable sc_decode : list Z -> option NN.
  Hypothesis pt_enc : forall P, exists bs, List.length bs = PT /\ pt_decode bs = Some P.
  Hypothesis sc_enc : forall s, exists bs, List.length bs = SC /\ sc_decode bs = Some s.
  Variable sp : pspec NN.
  Variable RATE : nat.
  Hypothesis wf : wf_spec sp RATE.
  Variable init : list NN.
  Hypothesis L0 : List.length init = S RATE.
  Variable generator : M.
  Variable allowed : NN * NN -> point W -> bool.
  Notation mchip := (mock_chip NN).
  Notation chip := (circuit_chip NN).
  Notation sponge_st := (pstate NN (mock_chip NN)).
  Variable St : Type.
  Variable st : list (NN * NN) -> sponge_st -> St.
  Variable upd_pt : St -> M -> St.
  Variable upd_sc : St -> NN -> St.
  Variable sqz : St -> option (NN * St).
  Hypothesis st_pt : forall e l h P, allowed e (aff P) = true -> upd_pt (st (e :: l) h) P = st l (update NN mchip h [fst e; snd e]).
  Hypothesis st_sc : forall l h s, upd_sc (st l h) s = st l (update NN mchip h [s]).
  Hypothesis st_sqz : forall l h c h', squeeze NN mchip sp (S RATE) RATE h = Some (c, h') -> sqz (st l h) = Some (c, st l h').
  Notation run := (run_calls NN M PT SC pt_decode sc_decode St upd_pt upd_sc sqz generator).
  Notation aggregation := (verify_aggregation_proofs_in_chip NN M PT SC pt_decode sc_decode St upd_pt upd_sc sqz).
  Notation x_verify := (x_verify NN W M aff PT SC pt_decode sc_decode sp RATE init generator).
  Notation x_synthesize := (x_synthesize NN W M aff PT SC pt_decode sc_decode sp RATE init generator).
  Notation rp := (EccMul.rp NN W).
  Notation note_ok := (note_ok NN W allowed).
  Notation rel := (rel NN W HN HW RATE).
  Notation h0 := (mkP (A := mock_chip NN) init []).
  Notation given := (given NN (kzg NN M) (key NN M)).
  Implicit Types (w : asg NN).

  Definition fresh (s : St) : Prop := exists hints, s = st hints h0.
  Notation serves := (serves fresh).

  (** *** the same calls *)
  Lemma serves_hproofs nw ps ds : Forall2 (fun (p : given_proof NN) (d : proof_data NN St) => pd_key d = gp_key p /\ shape (pd_instances d) = shape (gp_instances p) /\
                        fresh (t_hash (pd_transcript d))) ps ds ->
    forall k, hproofs_of NN St nw k ds = hproofs_of NN unit nw k (map (fun p => mkPD (gp_instances p) (mkTr (gp_bytes p) tt) (gp_key p)) ps).
  Proof.
    induction 1 as [|p d ps ds (H1 & H2 & _) _ IH]; intro k; [reflexivity|]. cbn [hproofs_of map]. rewrite IH. unfold hproof_of. cbn [pd_instances pd_key]. unfold shape in H2. rewrite H1, H2. reflexivity.
  Qed.
  Lemma serves_hcircuits nw gs cs : Forall2 serves gs cs -> forall k, hcircuits_of NN M St nw k cs = hcircuits_of NN M unit nw k (given_circuits NN M gs).
  Proof.
    induction 1 as [|g c gs cs (H1 & H2 & H3 & _ & H4) _ IH]; intro k; [reflexivity|]. cbn [hcircuits_of given_circuits map]. fold (given_circuits NN M gs). rewrite IH.
    pose proof (Forall2_length _ _ _ H4) as L. unfold hcircuit_of. rewrite H1, H2, H3, (serves_hproofs nw _ _ H4 k).
    unfold circuit_proof_of. cbn [cp_vk cp_columns cp_g_lagrange cp_proofs]. rewrite map_length, <- L. reflexivity.
  Qed.

  (** *** new proofs of a given shape *)
  Definition inst_size (inst : list (list (list NN))) : nat := List.length (concat (concat inst)).
  Definition total (gs : list given) : nat := list_sum (map (fun g => list_sum (map (fun p => inst_size (gp_instances p)) (g_proofs g))) gs).
  Lemma split_len {A} (n m : nat) (l : list A) : List.length l = n + m -> exists a b, l = a ++ b /\ List.length a = n /\ List.length b = m.
  Proof. intro L. exists (firstn n l), (skipn n l). rewrite firstn_skipn, firstn_length, skipn_length. repeat split; lia. Qed.
  Lemma reshape_cols (cols : list (list NN)) : forall l : list NN, List.length l = List.length (concat cols) -> exists cols', map (@List.length NN) cols' = map (@List.length NN) cols /\ concat cols' = l.
  Proof.
    induction cols as [|c cols IH]; intros l L; [exists []; split; [reflexivity|]; destruct l; [reflexivity|discriminate L]|].
    cbn [concat] in L. rewrite app_length in L. destruct (split_len _ _ _ L) as (a & b & -> & La & Lb). destruct (IH b Lb) as (cols' & E1 & E2).
    exists (a :: cols'). cbn. now rewrite La, E1, E2.
  Qed.
  Lemma reshape (inst : list (list (list NN))) : forall l : list NN, List.length l = inst_size inst ->
    exists inst', shape inst' = shape inst /\ concat (concat inst') = l.
  Proof.
    unfold inst_size. induction inst as [|c inst IH]; intros l L; [exists []; split; [reflexivity|]; destruct l; [reflexivity|discriminate L]|].
    cbn [concat] in L. rewrite concat_app, app_length in L. destruct (split_len _ _ _ L) as (a & b & -> & La & Lb).
    destruct (IH b Lb) as (inst' & E1 & E2). destruct (reshape_cols c a La) as (c' & E3 & E4).
    exists (c' :: inst'). unfold shape in *. cbn [map concat]. rewrite concat_app, E1, E2, E3, E4. split; reflexivity.
  Qed.
  Lemma new_proofs (f : @fut NN) (ps : list (given_proof NN)) : forall k ins, List.length ins = list_sum (map (fun p => inst_size (gp_instances p)) ps) ->
    exists ds : list (proof_data NN St),
      Forall2 (fun p d => pd_key d = gp_key p /\ shape (pd_instances d) = shape (gp_instances p) /\
                          fresh (t_hash (pd_transcript d))) ps ds /\
      concat (map (flat_instances NN St) ds) = ins /\ map pd_transcript ds = mk_trs st f k (repeat h0 (List.length ps)).
  Proof.
    induction ps as [|p ps IH]; intros k ins L; [exists []; repeat split; [constructor|destruct ins; [reflexivity|discriminate L]]|].
    change (list_sum (map (fun p => inst_size (gp_instances p)) (p :: ps))) with (inst_size (gp_instances p) + list_sum (map (fun p => inst_size (gp_instances p)) ps)) in L.
    destruct (split_len _ _ _ L) as (a & b & -> & La & Lb). destruct (reshape _ a La) as (inst & E1 & E2). destruct (IH (S k) b Lb) as (ds & H1 & H2 & H3).
    exists (mkPD inst (mkTr (fst (f k)) (st (snd (f k)) h0)) (gp_key p) :: ds). split; [|split].
    - constructor; [|exact H1]. split; [reflexivity|]. split; [exact E1|]. eexists. reflexivity.
    - cbn [map concat]. unfold flat_instances at 1. cbn [pd_instances]. now rewrite E2, H2.
    - cbn [map List.length repeat mk_trs pd_transcript]. now rewrite H3.
  Qed.
  Lemma mk_app f a : forall b k, mk_trs st f k (a ++ b) = mk_trs st f k a ++ mk_trs st f (k + List.length a) b.
  Proof. induction a as [|x a IH]; intros b k; cbn; [now rewrite Nat.add_0_r|]. now rewrite IH, Nat.add_succ_r. Qed.
  Definition count (gs : list given) : nat := list_sum (map (fun g => List.length (g_proofs g)) gs).
  Lemma new_circuits (f : @fut NN) gs : forall k ins, List.length ins = total gs ->
    exists cs, Forall2 serves gs cs /\ all_instances NN M St cs = ins /\ all_transcripts NN M St cs = mk_trs st f k (repeat h0 (count gs)).
  Proof.
    induction gs as [|g gs IH]; intros k ins L; [exists []; repeat split; [constructor|destruct ins; [reflexivity|discriminate L]]|].
    change (total (g :: gs)) with (list_sum (map (fun p => inst_size (gp_instances p)) (g_proofs g)) + total gs) in L.
    destruct (split_len _ _ _ L) as (a & b & -> & La & Lb). destruct (new_proofs f (g_proofs g) k a La) as (ds & H1 & H2 & H3).
    destruct (IH (k + List.length (g_proofs g)) b Lb) as (cs & K1 & K2 & K3).
    exists (mkCP (fst (g_vk g)) (snd (g_vk g)) (VerifyCircuit.k_lagrange _ _ (g_params g)) (VerifyCircuit.k_generator _ _ (g_params g)) ds :: cs). split; [|split].
    - constructor; [|exact K1]. repeat split; try reflexivity. exact H1.
    - unfold all_instances in *. cbn [map concat cp_proofs]. now rewrite H2, K2.
    - unfold all_transcripts in *. cbn [map concat cp_proofs]. rewrite H3, K3. change (count (g :: gs)) with (List.length (g_proofs g) + count gs).
      rewrite repeat_app, mk_app, repeat_length. reflexivity.
  Qed.
  Lemma total_size nw gs : forall k, total_shape NN M (hcircuits_of NN M unit nw k (given_circuits NN M gs)) = total gs.
  Proof.
    induction gs as [|g gs IH]; intro k; [reflexivity|]. cbn [given_circuits map hcircuits_of]. fold (given_circuits NN M gs).
    unfold total_shape in *. cbn [map]. change (list_sum (?a :: ?b)) with (a + list_sum b). rewrite IH. unfold total at 2. cbn [map]. change (list_sum (?a :: ?b)) with (a + list_sum b). f_equal.
    unfold circuit_proof_of, hcircuit_of. cbn [hc_proofs cp_proofs]. clear IH. revert k. induction (g_proofs g) as [|p ps IH]; intro k; [reflexivity|].
    cbn [map hproofs_of]. change (list_sum (?a :: ?b)) with (a + list_sum b). rewrite IH. f_equal. unfold hproof_of. cbn [hpr_shape pd_instances].
    clear. unfold shape_size, inst_size. induction (gp_instances p) as [|c l IH]; [reflexivity|]. cbn [map concat]. change (list_sum (?a :: ?b)) with (a + list_sum b).
    rewrite IH, concat_app, app_length. f_equal. clear. induction c as [|x c IH]; [reflexivity|]. cbn [map concat]. change (list_sum (?a :: ?b)) with (a + list_sum b). now rewrite IH, app_length.
  Qed.

  (** *** the circuit *)
  Lemma x_transcript_snd w bytes : snd_ w (x_transcript NN init bytes) (fun x => hrel NN RATE w (t_hash x) h0).
  Proof.
    unfold x_transcript. eapply snd_bind; [apply (circuit_new NN)|]. intro p. apply snd_ret. intros [H1 H2]. cbn [t_hash]. split; [exact H1|split; [|exact L0]].
    pose proof H2 as H2'. cbn in H2' |- *. rewrite H2'. constructor.
  Qed.
  Lemma transcripts_snd w bs : snd_ w (bmap (x_transcript NN init) bs) (fun ts => Forall2 (fun x h => hrel NN RATE w (t_hash x) h) ts (repeat h0 (List.length bs))).
  Proof.
    induction bs as [|b bs IH]; cbn [bmap List.length repeat]; [apply snd_ret; constructor|]. eapply snd_bind; [apply x_transcript_snd|]. intro x.
    eapply snd_bind; [exact IH|]. intro xs. apply snd_ret. intros. now constructor.
  Qed.
  Lemma bytes_count gs : List.length (given_bytes NN M gs) = count gs.
  Proof.
    unfold given_bytes, count. induction gs as [|g gs IH]; [reflexivity|]. cbn [map concat]. rewrite app_length, map_length, IH. reflexivity.
  Qed.
  Lemma vals_pss w s ls : snd_ w (bmap (bmap (x_p s)) ls) (fun r => forall vals hs, rel w s vals hs -> exists Pss : list (list M), Forall2 (Forall2 (fun p P => rp w p (aff P))) r Pss /\
    forall ins trs, mapM (mapM (val_p (mkC vals ins trs : cst NN M St))) ls = Some Pss).
  Proof.
    induction ls as [|l ls IH]; cbn [bmap]; [apply snd_ret; intros; exists []; split; [constructor|reflexivity]|]. eapply snd_bind; [apply (vals_ps NN W HN HW RATE St)|]. intro a.
    eapply snd_bind; [exact IH|]. intro r. apply snd_ret. intros Hr Ha vals hs R. destruct (Ha vals hs R) as (Ps & HP & EP). destruct (Hr vals hs R) as (Pss & HPs & EPs).
    exists (Ps :: Pss). split; [now constructor|]. intros ins trs. cbn [mapM]. rewrite EP, EPs. reflexivity.
  Qed.

  (** *** what the assertions of equal commitments give *)
  Definition same_commits (advices : list (list M)) (c : (nat * nat) * (nat * nat)) : Prop :=
    exists l a l' b, nth_error advices (fst (fst c)) = Some l /\ nth_error l (snd (fst c)) = Some a /\
      nth_error advices (fst (snd c)) = Some l' /\ nth_error l' (snd (snd c)) = Some b /\ (aff a = aff b \/ aff a = Inf \/ aff b = Inf).
  Lemma nth_rp w commits advices i a : Forall2 (fun p P => rp w p (aff P)) commits advices -> nth_error commits i = Some a ->
    exists P, nth_error advices i = Some P /\ rp w a (aff P).
  Proof. intros H E. destruct (Forall2_nth_l _ _ _ _ _ H E) as (P & E' & R). exists P. split; assumption. Qed.
  Lemma coherent_snd w commits coherent : snd_ w (x_coherent NN W commits coherent) (fun _ => forall advices,
    Forall2 (Forall2 (fun p P => rp w p (aff P))) commits advices -> Forall (same_commits advices) coherent).
  Proof.
    unfold x_coherent. induction coherent as [|c cs IH]; cbn [bmap]; [apply snd_ret; intros; constructor|].
    eapply snd_bind with (P := fun _ => forall advices, Forall2 (Forall2 (fun p P => rp w p (aff P))) commits advices -> same_commits advices c).
    - eapply snd_bind; [apply snd_at; intros l E; exact E|]. intro l. eapply snd_bind; [apply snd_at; intros a E; exact E|]. intro a.
      eapply snd_bind; [apply snd_at; intros l' E; exact E|]. intro l'. eapply snd_bind; [apply snd_at; intros b E; exact E|]. intro b.
      eapply snd_conseq; [apply (ecc_assert_equal_snd NN W HN HW)|]. intros [] K Eb El' Ea El advices H.
      destruct (Forall2_nth_l _ _ _ _ _ H El) as (Ps & E1 & H1). destruct (nth_rp _ _ _ _ _ H1 Ea) as (P & E2 & RP).
      destruct (Forall2_nth_l _ _ _ _ _ H El') as (Qs & E3 & H3). destruct (nth_rp _ _ _ _ _ H3 Eb) as (Q & E4 & RQ).
      exists Ps, P, Qs, Q. split; [exact E1|]. split; [exact E2|]. split; [exact E3|]. split; [exact E4|].
      destruct RP as [(xa & ya & za & Xa & Ya & Za & -> & _) _]. destruct RQ as [(xb & yb & zb & Xb & Yb & Zb & -> & _) _].
      destruct (K _ _ _ _ _ _ Xa Ya Za Xb Yb Zb) as [[-> ->]|[-> ->]]; [|right; left; reflexivity].
      destruct za; [right; left; reflexivity|]. destruct zb; [right; right; reflexivity|left; reflexivity].
    - intro u. eapply snd_bind; [exact IH|]. intro us. apply snd_ret. intros Hr Hc advices H. constructor; auto.
  Qed.

  (** *** the whole of [synthesize_proof] *)
  Definition accepted w (gs : list given) (coherent : list ((nat * nat) * (nat * nat))) (r : apoint NN * apoint NN * list (aval NN) * list (note NN)) : Prop :=
    let '(p1, p2, ins, notes) := r in
    exists cs hm wx wg advices, Forall2 serves gs cs /\
      aggregation cs (st hm h0) = Some (wx, wg, map (fun a : aval NN => w (av_cell a)) ins, advices) /\
      rp w p1 (aff wx) /\ rp w p2 (aff wg) /\ Forall (same_commits advices) coherent.

  Lemma x_verify_snd w nw gs coherent : (forall g, nth_error gs 0 = Some g -> VerifyCircuit.k_generator _ _ (g_params g) = generator) ->
    snd_ w (x_verify nw gs coherent) (fun r => Forall (note_ok w) (snd r) -> accepted w gs coherent r).
  Proof.
    intro Hg. unfold CircuitRun.x_verify. eapply snd_bind; [apply transcripts_snd|]. intro ts. eapply snd_bind; [apply x_transcript_snd|]. intro main.
    set (cx := c_verify_aggregation_proofs_in_chip NN M 0 (hcircuits_of NN M unit nw 1 (given_circuits NN M gs)) 0).
    eapply snd_bind with (P := fun g => cx = Some g); [unfold lift_o; destruct cx; [apply snd_ret; reflexivity|apply snd_panic]|].
    intros [[[[[a b] is_] ads] calls] n]. eapply snd_bind; [exact (x_calls_snd NN W HN HW PT SC pt_decode sc_decode pt_enc sc_enc sp RATE wf init L0 generator allowed St st upd_pt upd_sc sqz st_pt st_sc st_sqz w calls _)|].
    intros [s notes]. eapply snd_bind; [apply (vals_p NN W HN HW RATE St)|]. intro p1. eapply snd_bind; [apply (vals_p NN W HN HW RATE St)|]. intro p2.
    eapply snd_bind; [apply (vals_ss NN W HN HW RATE St)|]. intro ins. eapply snd_bind; [apply vals_pss|]. intro commits.
    eapply snd_bind; [apply coherent_snd|]. intro us. apply snd_ret. intros Hc Hads Hins H2 H1 Hrun Hcx Hmain Hts. cbn [fst snd]. intro Gn.
    unfold posts in Hrun. cbn [fst snd] in Hrun.
    destruct (Hrun Gn [] (h0 :: repeat h0 (List.length (given_bytes NN M gs)))) as (vals & hs & R & Erun).
    { split; cbn [x_vals x_trs]; [constructor|]. constructor; [exact Hmain|exact Hts]. }
    destruct (Erun [] (fun _ => ([], []))) as (ins0 & f0 & Er). clear Erun Hrun.
    destruct (H1 _ _ R) as (wx & R1 & E1). destruct (H2 _ _ R) as (wg & R2 & E2). specialize (Hins _ _ R). destruct (Hads _ _ R) as (advices & R3 & E3).
    assert (L : List.length ins0 = total gs).
    { pose proof (run_inst _ _ _ _ _ _ _ _ _ _ _ _ _ _ Er) as Hl. cbn [c_inst List.length] in Hl.
      rewrite (t_top NN M 0 _ _ _ _ _ Hcx), total_size in Hl. lia. }
    destruct (new_circuits f0 gs 1 ins0 L) as (cs & S1 & S2 & S3).
    exists cs, (snd (f0 0)), wx, wg, advices. split; [exact S1|]. split; [|split; [exact R1|split; [exact R2|exact (Hc advices R3)]]].
    refine (proj1 (proj2 (C49_aggregation NN M PT SC pt_decode sc_decode Hpos St upd_pt upd_sc sqz generator nw cs (st (snd (f0 0)) h0) (fst (f0 0)) [] wx wg (map (fun a : aval NN => w (av_cell a)) ins) advices _) _)).
    - intros c Ec. destruct S1 as [|g c' gs' cs' (_ & _ & _ & Eg & _) _]; [discriminate Ec|]. injection Ec as <-. rewrite Eg. apply Hg. reflexivity.
    - exists a, b, is_, ads, calls, n, (mkC vals [] (mk_trs st (fun _ => ([], [])) 0 hs)). split; [rewrite (serves_hcircuits nw _ _ S1); exact Hcx|].
      split; [rewrite S2, S3, app_nil_r, <- bytes_count; exact Er|]. split; [apply E1|]. split; [apply E2|]. split; [apply Hins|]. split; [apply E3|]. split; [reflexivity|].
      cbn [c_trs]. apply Forall_forall. intros t Ht. assert (T : t_rest t = []).
      { clear - Ht. destruct hs as [|h hs]; [destruct Ht|]. cbn [mk_trs skipn] in Ht. revert Ht. generalize 1. induction hs as [|h' hs IH]; intros k Ht; [destruct Ht|].
        cbn [mk_trs] in Ht. destruct Ht as [<-|Ht]; [reflexivity|]. exact (IH _ Ht). }
      unfold read_point, rbind, read_decode. rewrite T. cbn [List.length]. destruct (Nat.leb_spec PT 0); [lia|reflexivity].
  Qed.

  Lemma x_synthesize_snd w nw gs coherent : (forall g, nth_error gs 0 = Some g -> VerifyCircuit.k_generator _ _ (g_params g) = generator) ->
    snd_ w (x_synthesize nw gs coherent) (fun r => Forall (note_ok w) (snd r) -> exists p1 p2 ins c c', accepted w gs coherent (p1, p2, ins, snd r) /\
      synthesize_tail NN W p1 p2 ins c = Some (fst r, c') /\ sat w c').
  Proof.
    intro Hg. unfold CircuitRun.x_synthesize. eapply snd_bind; [apply x_verify_snd, Hg|]. intros [[[p1 p2] ins] notes].
    eapply snd_bind with (P := fun column => exists c c', synthesize_tail NN W p1 p2 ins c = Some (column, c') /\ sat w c').
    - intros c r c' E Hs. split; [|exists c, c'; split; [exact E|exact Hs]]. exact (proj1 (synthesize_tail_snd NN W HN HW w p1 p2 ins c r c' E Hs)).
    - intro column. apply snd_ret. intros (c & c' & E & Hs) Ha G. cbn [fst snd] in *. exists p1, p2, ins, c, c'. split; [exact (Ha G)|]. split; [exact E|exact Hs].
  Qed.

  (** *** any list of calls on fresh transcripts *)
  Lemma mk_fresh f n : forall k, exists xs, mk_trs st f k (repeat h0 n) = map (fun x => mkTr (fst x) (st (snd x) h0)) xs /\ List.length xs = n.
  Proof.
    induction n as [|n IH]; intro k; [exists []; split; reflexivity|]. destruct (IH (S k)) as (xs & E & L). exists (f k :: xs). cbn [repeat mk_trs map List.length]. rewrite E, L. split; reflexivity.
  Qed.
  Lemma laid_out_snd w calls inst bytes :
    snd_ w (ts <- bmap (x_transcript NN init) bytes ;; x_calls NN W M aff PT SC pt_decode sc_decode sp RATE generator calls (mkX [] inst ts)) (fun r =>
      Forall (note_ok w) (snd r) -> exists inst' xs s', List.length xs = List.length bytes /\
        run calls (mkC [] inst' (map (fun x => mkTr (fst x) (st (snd x) h0)) xs)) = Some s' /\ Forall2 (vrel NN W HN HW w) (x_vals (fst r)) (c_vals s')).
  Proof.
    eapply snd_bind; [apply transcripts_snd|]. intro ts.
    eapply snd_conseq; [exact (x_calls_snd NN W HN HW PT SC pt_decode sc_decode pt_enc sc_enc sp RATE wf init L0 generator allowed St st upd_pt upd_sc sqz st_pt st_sc st_sqz w calls _)|].
    intros r Hrun Hts G. destruct (Hrun G [] (repeat h0 (List.length bytes))) as (vals & hs & R & Er); [split; [constructor|exact Hts]|].
    destruct (Er [] (fun _ => ([], []))) as (ins0 & f0 & E). destruct (mk_fresh f0 (List.length bytes) 0) as (xs & Ex & L). rewrite Ex in E.
    exists ins0, xs. eexists. split; [exact L|]. split; [exact E|]. exact (proj1 R).
  Qed.
End Top.
