(** From the bytes of the proofs to the aggregated pair. *)
From Coq Require Import String ZArith NArith Arith Bool Lia List.
From Verif Require Import Util Algebra Schema Plonk PlonkSpec PlonkProofs MultiopenProofs Keys ApiProofs
  BuildParams ReaderSpec ListFacts ReaderProofs ReaderMain.
Import ListNotations.

Section Aggregation.
  Variable F : Fld.
  Variable M : Mod F.
  Variables (PT SC : nat).
  Variable pt_decode : list Z -> option M.
  Variable sc_decode : list Z -> option F.
  Variable St : Type.
  Variable upd_pt : St -> M -> St.
  Variable upd_sc : St -> F -> St.
  Variable sqz : St -> option (F * St).
  Hypothesis PT_pos : (1 <= PT)%nat.
  Local Notation follows := (follows F M PT SC pt_decode sc_decode St upd_pt upd_sc sqz).
  Local Notation build := (build_params F M PT SC pt_decode sc_decode St upd_pt upd_sc sqz).
  Local Notation verify := (verify_single_proof_no_eval F M PT SC pt_decode sc_decode St upd_pt upd_sc sqz).
  Local Notation agg_proof := (aggregate_proof F M PT SC pt_decode sc_decode St upd_pt upd_sc sqz).
  Local Notation agg_circuit := (aggregate_circuit F M PT SC pt_decode sc_decode St upd_pt upd_sc sqz).
  Local Notation agg_circuits := (aggregate_circuits F M PT SC pt_decode sc_decode St upd_pt upd_sc sqz).
  Local Notation circuit := (circuit_proof F M St).
  Local Notation pdata := (proof_data F St).

  (** The commitments to the instance columns of a proof. *)
  Definition instance_points (gl : list M) (instances : list (list (list F))) : list (list M) :=
    map (map (fun c => fold_right madd m0 (map (fun sg => smul (fst sg) (snd sg)) (combine c gl)))) instances.

  (** What reading one proof yields: parameters, opening queries, transcript. *)
  Definition proof_read (cd : circuit * pdata) (o : params F M * list (query F M) * tr St) : Prop :=
    let '(p, qs, t) := o in
    let vk := cp_vk (fst cd) in
    let ics := instance_points (cp_g_lagrange (fst cd)) (pd_instances (snd cd)) in
    determined vk (pd_key (snd cd)) ics p /\ shaped vk (length ics) p /\
    follows (protocol vk p) (pd_transcript (snd cd)) t /\ queries p = Some qs.

  Lemma instance_guards cols n blinding (gl : list M) (ins : list (list (list F))) r : (n <= length gl)%nat ->
    assign_instance_commitment cols n blinding gl ins = Some r -> r = (concat (concat ins), instance_points gl ins).
  Proof.
    intros L E. assert (X := E). unfold assign_instance_commitment in X.
    destruct (forallb _ ins) eqn:E1 in X; [|discriminate]. destruct (forallb _ ins) eqn:E2 in X; [|discriminate]. clear X.
    rewrite forallb_forall in E1, E2.
    rewrite instance_commitments in E; [now injection E as <-| | |exact L].
    - intros i Hi. apply Nat.eqb_eq, E1, Hi.
    - intros i c Hi Hc. specialize (E2 i Hi). rewrite forallb_forall in E2. specialize (E2 c Hc). apply andb_prop in E2 as [H1 H2].
      apply Nat.leb_le in H1, H2. lia.
  Qed.

  Lemma agg_proof_read (c : circuit) (d : pdata) r : wf_vk (cp_vk c) -> (N.to_nat (vk_n (cp_vk c)) <= length (cp_g_lagrange c))%nat ->
    agg_proof c d = Some r ->
    exists p qs t adv mo, proof_read (c, d) (p, qs, t) /\ batch_multi_open_proofs p = Some mo /\
      nth_error (p_advice_commitments p) 0 = Some adv /\ r = (concat (concat (pd_instances d)), mo, adv, t).
  Proof.
    intros W G E. unfold aggregate_proof in E. destruct (assign_instance_commitment _ _ _ _ _) as [[ic1 ic2]|] eqn:E1; [|discriminate].
    apply instance_guards in E1; [|exact G]. injection E1 as -> ->.
    destruct (verify _ _ _ _) as [[pc t]|] eqn:E2; [|discriminate]. injection E as <-.
    unfold verify_single_proof_no_eval in E2. apply rbind_iff in E2 as (p & t1 & E2 & E3).
    apply rbind_iff in E3 as (mo & t2 & E3 & E4). apply rlift_iff in E3 as [E3 ->].
    apply rbind_iff in E4 as (adv & t3 & E4 & E5). apply rlift_iff in E4 as [E4 ->]. apply rret_iff in E5 as [-> ->].
    apply build_params_iff in E2 as (D & S & R); auto.
    destruct (queries p) as [qs|] eqn:Q; [|unfold batch_multi_open_proofs in E3; rewrite Q in E3; discriminate].
    exists p, qs, t1, adv, mo. split; [exact (conj D (conj S (conj R Q)))|]. split; [exact E3|]. split; [exact E4|]. reflexivity.
  Qed.

  Definition all_proofs (cs : list circuit) : list (circuit * pdata) := flat_map (fun c => map (pair c) (cp_proofs c)) cs.

  Lemma absorb_answers ts : forall h h', absorb_transcripts F St upd_sc sqz ts h = Some h' ->
    exists answers, Forall2 (fun t a => exists h, sqz (t_hash t) = Some (a, h)) ts answers /\
      h' = fold_left (fun h a => upd_sc h a) answers h.
  Proof.
    induction ts as [|t ts IH]; intros h h' E; cbn in E.
    - injection E as <-. exists []. split; [constructor|reflexivity].
    - destruct (sqz (t_hash t)) as [[a h1]|] eqn:S; [|discriminate]. apply IH in E as (as_ & A & ->).
      exists (a :: as_). split; [constructor; eauto|reflexivity].
  Qed.

  Local Notation outcome := (params F M * list (query F M) * tr St)%type.
  Lemma agg_circuits_read cs : forall h rs h', Forall (fun c : circuit => wf_vk (cp_vk c) /\ (N.to_nat (vk_n (cp_vk c)) <= length (cp_g_lagrange c))%nat) cs ->
    agg_circuits cs h = Some (rs, h') ->
    exists (os : list outcome) (mos : list (multiopen F M)) answers,
      Forall2 proof_read (all_proofs cs) os /\
      mapM batch_multi_open_proofs (map (fun o => fst (fst o)) os) = Some mos /\ map (fun r => snd (fst (fst r))) rs = mos /\
      map (fun r => fst (fst (fst r))) rs = map (fun cd => concat (concat (pd_instances (snd cd)))) (all_proofs cs) /\
      Forall2 (fun (o : outcome) c => nth_error (p_advice_commitments (fst (fst o))) 0 = Some c) os (map (fun r => snd (fst r)) rs) /\
      Forall2 (fun (o : outcome) a => exists h, sqz (t_hash (snd o)) = Some (a, h)) os answers /\
      h' = fold_left (fun h a => upd_sc h a) answers h.
  Proof.
    induction cs as [|c cs IH]; intros h rs h' W E.
    - cbn in E. injection E as <- <-. exists [], [], []. repeat split; constructor.
    - cbn in E. inversion W as [|? ? [W1 W2] W3]; subst. destruct (agg_circuit h c) as [[rs1 h1]|] eqn:E1; [|discriminate].
      destruct (agg_circuits cs h1) as [[rs2 h2]|] eqn:E2; [|discriminate]. injection E as <- <-.
      destruct (IH _ _ _ W3 E2) as (os2 & mos2 & an2 & A1 & A2 & A3 & A4 & A5 & A6 & A7). clear IH E2.
      unfold aggregate_circuit in E1. destruct (mapM (agg_proof c) (cp_proofs c)) as [rs'|] eqn:E3; [|discriminate].
      destruct (absorb_transcripts _ _ _ _ (map snd rs') h) as [h3|] eqn:E4; [|discriminate]. injection E1 as -> ->.
      apply absorb_answers in E4 as (an1 & B1 & ->). apply mapM_Forall2 in E3.
      assert (X : exists (os : list outcome) (mos : list (multiopen F M)),
        Forall2 proof_read (map (pair c) (cp_proofs c)) os /\
        mapM batch_multi_open_proofs (map (fun o => fst (fst o)) os) = Some mos /\ map (fun r => snd (fst (fst r))) rs1 = mos /\
        map (fun r => fst (fst (fst r))) rs1 = map (fun cd => concat (concat (pd_instances (snd cd)))) (map (pair c) (cp_proofs c)) /\
        Forall2 (fun (o : outcome) c => nth_error (p_advice_commitments (fst (fst o))) 0 = Some c) os (map (fun r => snd (fst r)) rs1) /\
        map snd os = map snd rs1).
      { clear -W1 W2 E3 PT_pos. induction E3 as [|d r ds rs H _ IH].
        - exists [], []. repeat split; constructor.
        - destruct IH as (os & mos & H1 & H2 & H3 & H4 & H5 & H6).
          apply agg_proof_read in H as (p & qs & t & adv & mo & K1 & K2 & K3 & ->); auto.
          exists ((p, qs, t) :: os), (mo :: mos). cbn [map mapM fst snd]. rewrite K2, H2, H3, H4, H6. repeat split; constructor; auto. }
      destruct X as (os1 & mos1 & C1 & C2 & C3 & C4 & C5 & C6).
      exists (os1 ++ os2), (mos1 ++ mos2), (an1 ++ an2). unfold all_proofs. cbn [flat_map]. rewrite !map_app. rewrite mapM_app, C2, A2, C3, A3, C4, A4.
      split; [now apply Forall2_app|]. split; [reflexivity|]. split; [reflexivity|]. split; [reflexivity|]. split; [now apply Forall2_app|].
      split; [|now rewrite fold_left_app]. apply Forall2_app; [|exact A6].
      rewrite <- C6 in B1. clear -B1. remember (map snd os1) as ts eqn:E. revert os1 E. induction B1; intros os E; destruct os; try discriminate; constructor.
      + injection E as -> _. assumption.
      + apply IHB1. now injection E.
  Qed.

  (** A proof with a permutation argument or a lookup has openings at two rotations. *)
  Lemma two_rotations (qs : list (query F M)) q1 q2 : In q1 qs -> In q2 qs -> q_rotation q1 <> q_rotation q2 -> (2 <= length (rotations qs))%nat.
  Proof.
    intros H1 H2 N. assert (A1 : In (q_rotation q1) (rotations qs)). { apply first_rotations_In. split; [intros []|now apply in_map]. }
    assert (A2 : In (q_rotation q2) (rotations qs)). { apply first_rotations_In. split; [intros []|now apply in_map]. }
    destruct (rotations qs) as [|a [|b l]]; [destruct A1| |cbn; lia]. destruct A1 as [A1|[]], A2 as [A2|[]]. congruence.
  Qed.
  Lemma read_rotations cd (o : outcome) : length (pd_instances (snd cd)) = 1%nat -> proof_read cd o ->
    vk_perm_columns (cp_vk (fst cd)) <> [] \/ vk_lookups (cp_vk (fst cd)) <> [] -> wf_vk (cp_vk (fst cd)) ->
    (2 <= length (rotations (snd (fst o))))%nat.
  Proof.
    destruct o as [[p qs] t]. intros L (D & S & _ & Q) N W. cbn [fst snd].
    assert (L' : length (instance_points (cp_g_lagrange (fst cd)) (pd_instances (snd cd))) = 1%nat) by (unfold instance_points; now rewrite map_length).
    unfold queries in Q. destruct (get_lagrange_commits _ _ _ _ _ _) as [ls|]; [|discriminate]. destruct (nth_error ls 0); [|discriminate].
    destruct (nth_error ls (p_l p)); [|discriminate]. destruct (Nat.eqb (p_l p) 0); [discriminate|].
    destruct (mapM (proof_expressions _ _ _ _) _) as [ex|]; [|discriminate].
    destruct (mapM (proof_queries p) _) as [pq|] eqn:E1; [|discriminate]. destruct (column_queries p _ _ _ _) as [fq|]; [|discriminate].
    destruct (vanish_queries _ _ _ _ _ _ _ _ _) as [vq|] eqn:E2; [|discriminate]. injection Q as <-.
    assert (V : exists q, In q vq /\ q_rotation q = 0%Z).
    { unfold vanish_queries in E2. destruct (ast_eval _) as [a|]; [|discriminate]. destruct (reduce _ _) as [b|]; [|discriminate]. injection E2 as <-.
      eexists. split; [left; reflexivity|reflexivity]. }
    assert (I0 : length (p_instance_commitments p) = 1%nat). { destruct D as (_ & _ & _ & -> & _). exact L'. }
    rewrite I0 in E1. cbn [seq mapM] in E1. destruct (proof_queries p 0) as [q0|] eqn:E0; [|discriminate]. injection E1 as <-.
    assert (Q1 : exists q, In q q0 /\ q_rotation q = 1%Z).
    { unfold proof_queries in E0. destruct (nth_error (p_instance_commitments p) 0); [|discriminate]. destruct (nth_error (p_instance_evals p) 0); [|discriminate].
      destruct (nth_error (p_advice_commitments p) 0); [|discriminate]. destruct (nth_error (p_advice_evals p) 0); [|discriminate].
      destruct (nth_error (p_permutation p) 0) as [pe|] eqn:EP; [|discriminate]. destruct (nth_error (p_lookup p) 0) as [lk|] eqn:EL; [|discriminate].
      destruct (column_queries p _ _ _ _) as [c1|]; [|discriminate]. destruct (column_queries p _ _ _ _) as [c2|]; [|discriminate].
      destruct (perm_queries pe _ _) as [c3|] eqn:E3; [|discriminate]. injection E0 as <-.
      destruct S as (_ & _ & _ & _ & S1 & _ & S2 & _). destruct N as [N|N].
      - unfold all_len in S2. rewrite Forall_forall in S2. specialize (S2 (pe_sets pe)).
        assert (X : exists s ss, pe_sets pe = s :: ss).
        { assert (Y : length (pe_sets pe) = length (chunks (vk_degree (cp_vk (fst cd)) - 2) (vk_perm_columns (cp_vk (fst cd))))) by (apply S2, in_map, (nth_error_In _ _ EP)).
          destruct (pe_sets pe); [|eauto]. exfalso. cbn [length] in Y.
          destruct (vk_perm_columns (cp_vk (fst cd))) as [|col cols]; [now apply N|]. cbn in Y. destruct W as (_ & _ & _ & _ & _ & W & _).
          destruct (vk_degree (cp_vk (fst cd)) - 2)%nat eqn:Z; [lia|]. discriminate. }
        destruct X as (s & ss & X). unfold perm_queries in E3. rewrite X in E3. cbn [enumerate length seq combine] in E3.
        destruct (mapM _ _) as [lasts|] in E3; [|discriminate]. injection E3 as <-. eexists. split; [apply in_or_app; right; apply in_or_app; right; apply in_or_app; left; right; left; reflexivity|reflexivity].
      - unfold all_len in S1. rewrite Forall_forall in S1. specialize (S1 lk (nth_error_In _ _ EL)).
        destruct lk as [|le lk]; [destruct (vk_lookups (cp_vk (fst cd))); [now destruct N|discriminate]|].
        eexists. split; [apply in_or_app; right; apply in_or_app; right; apply in_or_app; right; cbn [flat_map lookup_queries app]; do 4 right; left; reflexivity|reflexivity]. }
    destruct V as (q & V1 & V2), Q1 as (q' & V3 & V4). eapply (two_rotations _ q q'); [| |congruence].
    - do 3 (apply in_or_app; right). exact V1.
    - apply in_or_app; left. cbn [concat]. rewrite app_nil_r. exact V3.
  Qed.

  Lemma read_keys cd (o : outcome) : proof_read cd o -> keys_built (fst (fst o)) /\ p_key (fst (fst o)) = pd_key (snd cd).
  Proof.
    clear PT_pos.
    destruct o as [[p qs] t]. intros (D & _). cbn [fst snd]. destruct D as (K & _ & _ & _ & _ & _ & _ & _ & _ & _ & _ & _ & _ & _ & _ & _ & _ & _ & D1 & D2).
    split; [|exact K]. split.
    - intros k pe H. rewrite K. apply D2 in H. apply H.
    - intros k lks j le H1 H2. rewrite K. apply D1 in H1 as [L H1].
      destruct (nth_error (vk_lookups (cp_vk (fst cd))) j) as [a|] eqn:E.
      + now destruct (H1 j le a H2 E) as [-> _].
      + apply nth_error_None in E. assert (j < length lks)%nat by (apply nth_error_Some; congruence). lia.
  Qed.

  Lemma end_to_end cs h wx wg ins advs :
    Forall (fun c : circuit => wf_vk (cp_vk c) /\ (N.to_nat (vk_n (cp_vk c)) <= length (cp_g_lagrange c))%nat) cs ->
    Forall (fun cd : circuit * pdata => length (pd_instances (snd cd)) = 1%nat /\ exists name i, pd_key (snd cd) = proof_key name i) (all_proofs cs) ->
    NoDup (map (fun cd => pd_key (snd cd)) (all_proofs cs)) ->
    (2 <= length (all_proofs cs))%nat \/ Forall (fun c : circuit => vk_perm_columns (cp_vk c) <> [] \/ vk_lookups (cp_vk c) <> []) cs ->
    verify_aggregation_proofs_in_chip F M PT SC pt_decode sc_decode St upd_pt upd_sc sqz cs h = Some (wx, wg, ins, advs) ->
    exists (os : list outcome) answers c h' c0 rest,
      cs = c0 :: rest /\ Forall2 proof_read (all_proofs cs) os /\
      Forall2 (fun (o : outcome) a => exists h, sqz (t_hash (snd o)) = Some (a, h)) os answers /\
      sqz (fold_left (fun h a => upd_sc h a) answers h) = Some (c, h') /\
      (wx, wg) = (let lrs := map (fun o : outcome => let '(p, qs, _) := o in
            (gwc_left (p_u p) (p_w p),
             msub (gwc_right_pt (p_u p) (p_v p) (p_w p) qs) (smul (gwc_right_sc (p_u p) (p_v p) qs) (cp_generator c0)))) os in
            (msum_pow (rev (map fst lrs)) c, msum_pow (rev (map snd lrs)) c)) /\
      ins = concat (map (fun cd => concat (concat (pd_instances (snd cd)))) (all_proofs cs)) /\
      Forall2 (fun (o : outcome) c => nth_error (p_advice_commitments (fst (fst o))) 0 = Some c) os advs.
  Proof.
    intros W Hi Hk H2 E. unfold verify_aggregation_proofs_in_chip in E. destruct (agg_circuits cs h) as [[rs h1]|] eqn:E1; [|discriminate].
    destruct (sqz h1) as [[c h']|] eqn:E2; [|discriminate]. destruct (aggregate c _) as [agg|] eqn:E3; [|discriminate].
    destruct (nth_error cs 0) as [c0|] eqn:E4; [|discriminate]. destruct (evaluate_multiopen_proof _ _) as [[a b]|] eqn:E5; [|discriminate].
    injection E as -> -> <- <-. destruct cs as [|c1 rest]; [discriminate|]. injection E4 as ->. set (cs := c0 :: rest) in *.
    destruct (agg_circuits_read _ _ _ _ W E1) as (os & mos & answers & A1 & A2 & A3 & A4 & A5 & A6 & ->).
    exists os, answers, c, h', c0, rest. split; [reflexivity|]. split; [exact A1|]. split; [exact A6|]. split; [exact E2|].
    split; [|split; [now rewrite A4|exact A5]].
    rewrite A3 in E3. set (ps := map (fun o : outcome => fst (fst o)) os) in *. set (qss := map (fun o : outcome => snd (fst o)) os).
    assert (Q : mapM queries ps = Some qss).
    { apply mapM_Forall2. unfold ps, qss. clear -A1. induction A1 as [|cd [[p qs] t] l os H _ IH]; constructor; [|exact IH]. apply H. }
    assert (CB : combine ps qss = map fst os). { unfold ps, qss. clear. induction os as [|[[p qs] t] os IH]; [reflexivity|]. cbn. now rewrite IH. }
    pose proof (verifier_output F M ps qss mos c agg (cp_generator c0) Q A2 E3) as V. rewrite CB in V.
    rewrite E5 in V. assert (V' := fun h1 h2 => eq_sym (f_equal (fun o => match o with Some x => x | None => (wx, wg) end) (V h1 h2))). clear V. cbv beta iota in V'.
    rewrite <- V' at 1. clear V'.
    - cbv zeta. rewrite !map_map. f_equal; f_equal; f_equal; apply map_ext; intros [[p qs] t]; reflexivity.
    - assert (X := instances_consistent F M ps qss). rewrite CB in X. apply X; auto.
      + unfold ps. clear -A1. induction A1; constructor; auto. now apply (read_keys x).
      + unfold ps. clear -A1 Hi. induction A1 as [|cd [[p qs] t] l os H _ IH]; inversion Hi as [|? ? [B _] B']; subst; constructor; auto. cbn [fst].
        destruct H as (D & _). destruct D as (_ & _ & _ & -> & _). unfold instance_points. rewrite map_length. lia.
      + unfold ps. clear -A1 Hi. induction A1 as [|cd o l os H _ IH]; inversion Hi as [|? ? [_ B] B']; subst; constructor; auto. cbv beta.
        rewrite (proj2 (read_keys _ _ H)). exact B.
      + replace (map p_key ps) with (map (fun cd : circuit * pdata => pd_key (snd cd)) (all_proofs cs)); [exact Hk|].
        unfold ps. clear -A1. induction A1 as [|cd o l os H _ IH]; [reflexivity|]. cbn [map]. rewrite IH. f_equal. symmetry. apply (read_keys _ _ H).
    - destruct H2 as [H2|H2].
      + left. unfold ps. rewrite map_length. apply Forall2_length in A1. lia.
      + right. unfold qss.
        assert (P : Forall (fun cd : circuit * pdata => (vk_perm_columns (cp_vk (fst cd)) <> [] \/ vk_lookups (cp_vk (fst cd)) <> []) /\ wf_vk (cp_vk (fst cd))) (all_proofs cs)).
        { unfold all_proofs. clear -H2 W. apply Forall_forall. intros [x d] H. apply in_flat_map in H as (y & H1 & H). apply in_map_iff in H as (d' & H & _). injection H as -> ->.
          rewrite Forall_forall in H2, W. cbn [fst]. split; [now apply H2|now apply W]. }
        clear -A1 Hi P PT_pos. induction A1 as [|cd o l os H _ IH]; inversion Hi as [|? ? [B _] B']; inversion P as [|? ? [P1 P2] P']; subst; constructor; auto.
        exact (read_rotations cd o B H P1 P2).
  Qed.
End Aggregation.
