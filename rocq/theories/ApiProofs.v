(** Glue between the proofs about the verifier logic and the property
    statements, and the concrete instances used as examples. *)
From Coq Require Import String NArith ZArith Arith Bool Lia Ring Field List.
From Verif Require Import Util Algebra Poly Schema SchemaProofs Plonk PowLagrange PlonkSpec PlonkProofs
  MultiopenProofs Keys.
Import ListNotations.
Local Open Scope fld_scope.

Definition f7 (z : Z) : F7 := to_zp 7 z.
Definition f101 (z : Z) : F101 := to_zp 101 z.
Arguments f7 z%Z. Arguments f101 z%Z.
Local Notation f := f101.

(** A small verification instance: one gate, three permutation columns in two
    chunks, one lookup, domain of size 4, blinding 1. *)
Definition ex_params (key : string) (c : F101) : params F101 (self_mod F101) :=
  mkParams (M := self_mod F101) key
    [[ESum (EProd (EAdvice 0) (EAdvice 1)) (ENeg (EScaled (EFixed 0) (f 3)))]]
    2
    [[mkLE (M := self_mod F101) (key ++ "_0_0")%string [EAdvice 0] [EFixed 0] (f 11) (f 12) (f 13)
           (f 21) (f 22) (f 23) (f 24) (f 25)]]
    [mkPE (M := self_mod F101) (key ++ "_0")%string 1 (f 3)
          [mkPS (M := self_mod F101) (f 31) (f 32) (f 33) (Some (f 34)); mkPS (M := self_mod F101) (f 35) (f 36) (f 37) None]
          [f 41; f 42; f 43] 2]
    [[f 51]] [[f 52]] [(0%nat, 0%Z)]
    []
    [[c; f 61]] [[f 62; f 63; f 64]] [(0%nat, 0%Z); (1%nat, 0%Z); (0%nat, 1%Z)]
    [f 71] [f 72] [(0%nat, 0%Z)]
    [f 73; f 74; f 75] [f 76; f 77; f 78]
    [f 81; f 82] (f 83) [f 84; f 85; f 86; f 87] (f 88)
    (f 91) (f 92) (f 93) (f 94)
    (f 3) (f 30) (f 33) (f 14) (fpow (f 3) 4)
    (f 95) (f 96) (f 97) (f 10)
    (f 0) (f 1) (f 4).

Section Glue.
  Variable F : Fld.
  Variable M : Mod F.
  Add Field FGl : (f_th F).

  (** query [i] (column, rotation) is opened with the right data *)
  Definition query_present (p : params F M) (qs : list (query F M)) (cs : list M) (evs : list F)
             (i column : nat) (rot : Z) : Prop :=
    exists q c e, In q qs /\ nth_error cs column = Some c /\ nth_error evs i = Some e /\
      q_rotation q = rot /\ claim q = (c, e) /\
      ((0 <= rot)%Z -> q_point q = p_x p * fpow (p_omega p) (Z.to_nat rot)) /\
      ((rot < 0)%Z -> q_point q * fpow (p_omega p) (Z.to_nat (- rot)) = p_x p).

  Lemma column_present (p : params F M) sfx cqs cs evs r qs i column rot :
    column_queries p sfx cqs cs evs = Some r -> incl r qs -> nth_error cqs i = Some (column, rot) ->
    query_present p qs cs evs i column rot.
  Proof.
    intros H I Hi. destruct (column_queries_opens F M p sfx cqs cs evs r i column rot H Hi)
      as [q [c [e [pt [Q1 [Q2 [Q3 [Q4 [Q5 [Q6 Q7]]]]]]]]]].
    exists q, c, e. apply rotate_omega_val in Q4. destruct Q4 as [R1 R2]. subst pt.
    repeat split; auto. intro HN. now apply R2.
  Qed.

  Lemma proof_queries_inv (p : params F M) qs k :
    queries p = Some qs -> (k < length (p_instance_commitments p))%nat ->
    exists r, proof_queries p k = Some r /\ incl r qs.
  Proof.
    intros H Hk. destruct (queries_inv F M p qs H) as [pq [fq [vq [E1 [E2 E3]]]]].
    destruct (mapM_In _ _ _ k E1) as [r [R1 R2]]; [apply in_seq; lia|].
    exists r. split; [exact R1|]. intros q Hq. rewrite E3. apply in_or_app. left. apply in_concat. eauto.
  Qed.

  Lemma column_queries_present (p : params F M) qs :
    queries p = Some qs ->
    forall k ics ievs acs aevs,
      (k < length (p_instance_commitments p))%nat ->
      nth_error (p_instance_commitments p) k = Some ics -> nth_error (p_instance_evals p) k = Some ievs ->
      nth_error (p_advice_commitments p) k = Some acs -> nth_error (p_advice_evals p) k = Some aevs ->
    forall i column rot,
      (nth_error (p_instance_queries p) i = Some (column, rot) -> query_present p qs ics ievs i column rot) /\
      (nth_error (p_advice_queries p) i = Some (column, rot) -> query_present p qs acs aevs i column rot) /\
      (nth_error (p_fixed_queries p) i = Some (column, rot) ->
         query_present p qs (p_fixed_commitments p) (p_fixed_evals p) i column rot).
  Proof.
    intros H k ics ievs acs aevs Hk H1 H2 H3 H4 i column rot.
    destruct (proof_queries_inv p qs k H Hk) as [r [R1 R2]].
    unfold proof_queries in R1. rewrite H1, H2, H3, H4 in R1.
    destruct (nth_error (p_permutation p) k) as [pe|]; [|discriminate].
    destruct (nth_error (p_lookup p) k) as [lk|]; [|discriminate].
    destruct (column_queries _ _ (p_instance_queries p) _ _) as [q1|] eqn:Q1; [|discriminate].
    destruct (column_queries _ _ (p_advice_queries p) _ _) as [q2|] eqn:Q2; [|discriminate].
    destruct (perm_queries pe _ _) as [q3|]; [|discriminate]. injection R1 as <-.
    split; [|split].
    - eapply column_present; [exact Q1|]. intros q Hq. apply R2, in_or_app. now left.
    - eapply column_present; [exact Q2|]. intros q Hq. apply R2, in_or_app. right. apply in_or_app. now left.
    - destruct (queries_inv F M p qs H) as [pq [fq [vq [E1 [E2 E3]]]]].
      eapply column_present; [exact E2|]. intros q Hq. rewrite E3. apply in_or_app. right. apply in_or_app. now left.
  Qed.

  Lemma argument_queries_present (p : params F M) qs :
    queries p = Some qs ->
    (forall i c e, nth_error (p_permutation_commitments p) i = Some c -> nth_error (p_permutation_evals p) i = Some e ->
       exists q, In q qs /\ opens F M q (p_x p) 0 c e) /\
    (forall k pe i s, (k < length (p_instance_commitments p))%nat ->
       nth_error (p_permutation p) k = Some pe -> nth_error (pe_sets pe) i = Some s ->
       (exists q, In q qs /\ opens F M q (pe_x pe) 0 (ps_commitment s) (ps_eval s)) /\
       (exists q, In q qs /\ opens F M q (p_x_next p) 1 (ps_commitment s) (ps_next_eval s)) /\
       ((S i < length (pe_sets pe))%nat ->
        exists q e, In q qs /\ ps_last_eval s = Some e /\
          opens F M q (p_x_last p) (- Z.of_nat (pe_blinding_factors pe + 1)) (ps_commitment s) e)) /\
    (forall k lks le, (k < length (p_instance_commitments p))%nat ->
       nth_error (p_lookup p) k = Some lks -> In le lks ->
       (exists q, In q qs /\ opens F M q (p_x p) 0 (le_product_commitment le) (le_product_eval le)) /\
       (exists q, In q qs /\ opens F M q (p_x_next p) 1 (le_product_commitment le) (le_product_next_eval le)) /\
       (exists q, In q qs /\ opens F M q (p_x p) 0 (le_permuted_input_commitment le) (le_permuted_input_eval le)) /\
       (exists q, In q qs /\ opens F M q (p_x_inv p) (-1) (le_permuted_input_commitment le) (le_permuted_input_inv_eval le)) /\
       (exists q, In q qs /\ opens F M q (p_x p) 0 (le_permuted_table_commitment le) (le_permuted_table_eval le))).
  Proof.
    intro H. split; [|split].
    - intros i c e Hc He. destruct (queries_inv F M p qs H) as [pq [fq [vq [E1 [E2 E3]]]]].
      eexists. split; [|apply query_new_opens]. rewrite E3. apply in_or_app. right. apply in_or_app. right.
      apply in_or_app. left. unfold perm_common_queries. apply in_map_iff. exists (i, (c, e)).
      split; [reflexivity|]. apply enumerate_In.
      clear -Hc He. revert i Hc He. generalize (p_permutation_evals p) as r. generalize (p_permutation_commitments p) as l.
      induction l as [|a l IH]; intros [|b r] [|i] H1 H2; cbn in *; try discriminate; [congruence|auto].
    - intros k pe i s Hk Hp Hs. destruct (proof_queries_inv p qs k H Hk) as [r [R1 R2]].
      unfold proof_queries in R1. rewrite Hp in R1.
      destruct (nth_error (p_instance_commitments p) k); [|discriminate].
      destruct (nth_error (p_instance_evals p) k); [|discriminate].
      destruct (nth_error (p_advice_commitments p) k); [|discriminate].
      destruct (nth_error (p_advice_evals p) k); [|discriminate].
      destruct (nth_error (p_lookup p) k) as [lk|]; [|discriminate].
      destruct (column_queries _ _ (p_instance_queries p) _ _) as [q1|]; [|discriminate].
      destruct (column_queries _ _ (p_advice_queries p) _ _) as [q2|]; [|discriminate].
      destruct (perm_queries pe _ _) as [q3|] eqn:Q3; [|discriminate]. injection R1 as <-.
      assert (I3 : incl q3 qs).
      { intros q Hq. apply R2, in_or_app. right. apply in_or_app. right. apply in_or_app. now left. }
      destruct (perm_queries_opens F M pe _ _ q3 i s Q3 Hs) as [[a [A1 A2]] [[b [B1 B2]] C]].
      split; [exists a; auto|]. split; [exists b; auto|]. intro HL. destruct (C HL) as [q [e [C1 [C2 C3]]]].
      exists q, e. auto.
    - intros k lks le Hk Hl Hin. destruct (proof_queries_inv p qs k H Hk) as [r [R1 R2]].
      unfold proof_queries in R1. rewrite Hl in R1.
      destruct (nth_error (p_instance_commitments p) k); [|discriminate].
      destruct (nth_error (p_instance_evals p) k); [|discriminate].
      destruct (nth_error (p_advice_commitments p) k); [|discriminate].
      destruct (nth_error (p_advice_evals p) k); [|discriminate].
      destruct (nth_error (p_permutation p) k) as [pe|]; [|discriminate].
      destruct (column_queries _ _ (p_instance_queries p) _ _) as [q1|]; [|discriminate].
      destruct (column_queries _ _ (p_advice_queries p) _ _) as [q2|]; [|discriminate].
      destruct (perm_queries pe _ _) as [q3|]; [|discriminate]. injection R1 as <-.
      assert (I3 : incl (lookup_queries le (p_x p) (p_x_inv p) (p_x_next p)) qs).
      { intros q Hq. apply R2. do 3 (apply in_or_app; right). apply in_flat_map. eauto. }
      unfold lookup_queries in I3.
      repeat split; eexists; (split; [apply I3|apply query_new_opens]); cbn; eauto 10.
  Qed.

  Lemma batch_defined (key : string) (u v : F) (w : list M) (qs : list (query F M)) :
    (exists m, batch_queries key u v w qs = Some m) <-> qs <> [] /\ length w = length (rotations qs).
  Proof.
    split.
    - intros [m H]. assert (V := batch_queries_value F M key u v w qs m H). destruct V as [V _]. split; [|exact V].
      intros ->. destruct w; [|discriminate]. discriminate.
    - intros [H1 H2]. now apply batch_queries_some.
  Qed.

  Lemma honest_accepted (s : F) (G : M) (u v : F) (w : list M) (qs : list (query F M)) :
    length w = length (rotations qs) ->
    Forall (fun rw =>
      exists (polys : list (list F)) (wit : F),
        Forall2 (fun q p => fst (claim q) = smul (feval F p s) G /\
                            snd (claim q) = feval F p (rotation_point qs (fst rw)))
                (at_rotation qs (fst rw)) polys /\
        wit * (s - rotation_point qs (fst rw)) =
          feval F (map (fun p => feval F p s) polys) v -
          feval F (map (fun p => feval F p (rotation_point qs (fst rw))) polys) v /\
        snd rw = smul wit G)
      (combine (rotations qs) w) ->
    smul s (gwc_left u w) = msub (gwc_right_pt u v w qs) (smul (gwc_right_sc u v qs) G).
  Proof.
    intros HL H. apply gwc_complete; [exact HL|]. eapply Forall_impl; [|exact H].
    intros [r W] [polys [wit [P1 [P2 P3]]]]. cbn [fst snd] in *. subst W.
    eapply honest_opening; eauto.
  Qed.

  (** *** Aggregation *)
  Lemma batches_ok (ps : list (params F M)) : forall qss ms,
    mapM queries ps = Some qss -> mapM batch_multi_open_proofs ps = Some ms ->
    let table := flat_map (fun pq => named_commitments (p_key (fst pq)) (p_w (fst pq)) (snd pq)) (combine ps qss) in
    length ms = length ps /\
    Forall (batch_ok F M table) ms /\
    (Forall (fun qs => (2 <= length (rotations qs))%nat) qss -> Forall (fun x => scales_commitment (w_x x) = true) ms) /\
    map (fun x => pt_of (w_x x)) ms = map (fun p => gwc_left (p_u p) (p_w p)) ps /\
    map (fun x => pt_of (w_g x)) ms =
      map (fun pq => gwc_right_pt (p_u (fst pq)) (p_v (fst pq)) (p_w (fst pq)) (snd pq)) (combine ps qss) /\
    map (fun x => sc_of (w_g x)) ms =
      map (fun pq => gwc_right_sc (p_u (fst pq)) (p_v (fst pq)) (snd pq)) (combine ps qss).
  Proof.
    induction ps as [|p ps IH]; intros qss ms HQ HM; cbn [mapM] in HQ, HM.
    - injection HQ as <-. injection HM as <-. cbn. repeat split; auto.
    - destruct (queries p) as [qs|] eqn:Eq; [|discriminate].
      destruct (mapM queries ps) as [qss'|]; [|discriminate]. injection HQ as <-.
      unfold batch_multi_open_proofs in HM at 1. rewrite Eq in HM.
      destruct (batch_queries (p_key p) (p_u p) (p_v p) (p_w p) qs) as [m|] eqn:Em; [|discriminate].
      destruct (mapM batch_multi_open_proofs ps) as [ms'|]; [|discriminate]. injection HM as <-.
      destruct (IH qss' ms' eq_refl eq_refl) as [I1 [I2 [I3 [I4 [I5 I6]]]]].
      destruct (batch_queries_value F M _ _ _ _ _ _ Em) as [V1 [V2 [V3 [V4 V5]]]].
      destruct (batch_queries_ok F M _ _ _ _ _ _ (queries_good F M p qs Eq) Em) as [B1 B2].
      cbv zeta. cbn [combine flat_map length map fst snd].
      assert (MONO : forall t1 t2 x, incl t1 t2 -> batch_ok F M t1 x -> batch_ok F M t2 x).
      { clear. intros t1 t2 x I [A1 [A2 [A3 [A4 [A5 [A6 A7]]]]]]. unfold batch_ok.
        refine (conj A1 (conj A2 (conj A3 (conj A4 (conj A5 (conj _ _)))))); eapply incl_tran; eauto. }
      refine (conj _ (conj _ (conj _ (conj _ (conj _ _))))).
      + now rewrite I1.
      + constructor.
        * eapply MONO; [|exact B1]. apply incl_appl, incl_refl.
        * eapply Forall_impl; [|exact I2]. intros x Hx. eapply MONO; [|exact Hx]. apply incl_appr, incl_refl.
      + intro HF. rewrite Forall_cons_iff in HF. constructor; [apply B2; tauto|apply I3; tauto].
      + now rewrite V3, I4.
      + now rewrite V4, I5.
      + now rewrite V5, I6.
  Qed.

  Lemma verifier_output (ps : list (params F M)) qss ms (c : F) m (G : M) :
    mapM queries ps = Some qss -> mapM batch_multi_open_proofs ps = Some ms -> aggregate c ms = Some m ->
    consistent (flat_map (fun pq => named_commitments (p_key (fst pq)) (p_w (fst pq)) (snd pq)) (combine ps qss)) ->
    ((2 <= length ps)%nat \/ Forall (fun qs => (2 <= length (rotations qs))%nat) qss) ->
    evaluate_multiopen_proof G m =
      Some (let lrs := map (fun pq => let '(p, qs) := pq in
              (gwc_left (p_u p) (p_w p),
               msub (gwc_right_pt (p_u p) (p_v p) (p_w p) qs) (smul (gwc_right_sc (p_u p) (p_v p) qs) G)))
            (combine ps qss) in
            (msum_pow (rev (map fst lrs)) c, msum_pow (rev (map snd lrs)) c)).
  Proof.
    intros HQ HM HA HC H2.
    destruct (batches_ok ps qss ms HQ HM) as [L [B1 [B2 [B3 [B4 B5]]]]].
    destruct (aggregate_ok F M c _ ms m B1 HA) as [A1 A2].
    rewrite (evaluate_multiopen_value F M G _ m A1 HC).
    2:{ apply A2. destruct H2 as [H2|H2]; [left; lia|right; auto]. }
    destruct (aggregate_value F M c ms m HA) as [V1 [V2 V3]]. rewrite V1, V2, V3.
    rewrite B3, B4, B5. apply mapM_length in HQ. cbv zeta. rewrite !map_map. f_equal. f_equal.
    - unfold msum_pow. f_equal. f_equal. clear -HQ. revert qss HQ. induction ps as [|p ps IH]; intros [|qs qss] H; try discriminate; [reflexivity|].
      cbn. rewrite (IH qss); [reflexivity|]. now inversion H.
    - unfold msum_pow. rewrite <- !map_rev. induction (rev (combine ps qss)) as [|[p qs] l IH]; cbn [map peval fst snd].
      + unfold feval. cbn. rewrite (smul_0_l F M). apply (msub_diag F M).
      + rewrite feval_cons, <- IH. unfold gwc_right_sc.
        rewrite smul_add_l, smul_msub, <- msub4. f_equal. f_equal. now rewrite <- smul_mul.
  Qed.

  Lemma evaluation_succeeds (ps : list (params F M)) qss ms (c : F) m (G : M) :
    mapM queries ps = Some qss -> mapM batch_multi_open_proofs ps = Some ms -> aggregate c ms = Some m ->
    consistent (flat_map (fun pq => named_commitments (p_key (fst pq)) (p_w (fst pq)) (snd pq)) (combine ps qss)) ->
    ((2 <= length ps)%nat \/ Forall (fun qs => (2 <= length (rotations qs))%nat) qss) ->
    evaluate_multiopen_proof G m <> None.
  Proof. intros. erewrite verifier_output; eauto. discriminate. Qed.

  Lemma instance_commitments (cols n blinding : nat) (gl : list M) (instances : list (list (list F))) :
    (forall i, In i instances -> length i = cols) ->
    (forall i c, In i instances -> In c i -> (length c + blinding + 1 <= n)%nat) ->
    (n <= length gl)%nat ->
    assign_instance_commitment cols n blinding gl instances =
      Some (concat (concat instances),
            map (map (fun c => fold_right madd m0 (map (fun sg => smul (fst sg) (snd sg)) (combine c gl)))) instances).
  Proof.
    intros H1 H2 H3. unfold assign_instance_commitment.
    replace (forallb _ instances) with true.
    2:{ symmetry. apply forallb_forall. intros i Hi. apply Nat.eqb_eq, H1, Hi. }
    replace (forallb _ instances) with true.
    2:{ symmetry. apply forallb_forall. intros i Hi. apply forallb_forall. intros c Hc.
        specialize (H2 i c Hi Hc). apply andb_true_iff. split; apply Nat.leb_le; lia. }
    rewrite (mapM_Some _ (map (fun c => fold_right madd m0 (map (fun sg => smul (fst sg) (snd sg)) (combine c gl))))); [reflexivity|].
    intros i Hi. apply mapM_Some. intros c Hc. apply instance_commitment_spec. specialize (H2 i c Hi Hc). lia.
  Qed.

  Lemma bad_instances_refused (cols n blinding : nat) (gl : list M) (instances : list (list (list F))) i :
    In i instances -> length i <> cols \/ (exists c, In c i /\ (n < length c + blinding + 1)%nat) ->
    assign_instance_commitment cols n blinding gl instances = None.
  Proof.
    intros Hi H. unfold assign_instance_commitment.
    destruct (forallb _ instances) eqn:E1; [|reflexivity].
    destruct (forallb _ instances) eqn:E2 in |- *; [|reflexivity]. exfalso.
    rewrite forallb_forall in E1, E2. specialize (E1 i Hi). specialize (E2 i Hi). apply Nat.eqb_eq in E1.
    destruct H as [H|[c [Hc H]]]; [congruence|]. rewrite forallb_forall in E2. specialize (E2 c Hc).
    apply andb_true_iff in E2. destruct E2 as [E3 E4]. apply Nat.leb_le in E3, E4. lia.
  Qed.

  Lemma lagrange_poly_exists (omega w : F) (n : nat) :
    primitive_root F omega n -> nat_f F n <> 0 -> In w (domain F omega n) ->
    exists p : list F, (length p <= n)%nat /\ feval F p w = 1 /\
      forall z, In z (domain F omega n) -> z <> w -> feval F p z = 0.
  Proof.
    intros P Hn Hw.
    assert (DR : forall z, In z (domain F omega n) -> fpow z n = 1).
    { intros z Hz. unfold domain in Hz. apply in_map_iff in Hz. destruct Hz as [k [<- _]].
      rewrite fpow_pow, Nat.mul_comm, <- fpow_pow. destruct P as [_ [P _]]. rewrite P. apply fpow_1. }
    destruct (lagrange_poly F omega n w P (DR w Hw) Hn) as [Q1 [Q2 _]].
    eexists. split; [|split; [exact Q1|]].
    - rewrite gpoly_length. lia.
    - intros z Hz Hne. apply Q2; auto.
  Qed.
End Glue.
Arguments query_present {F M} _ _ _ _ _ _ _.

Section Pairing.
  Variable F : Fld.
  Variables G1 G2 GT : Mod F.
  Variable e : G1 -> G2 -> GT.
  Hypothesis e_bilinear : forall a P Q, e (smul a P) Q = e P (smul a Q).
  Variable g2 : G2.
  Hypothesis e_nondegenerate : forall P Q, e P g2 = e Q g2 -> P = Q.

  Lemma pairing_iff s (l r : G1) : e l (smul s g2) = e r g2 <-> smul s l = r.
  Proof.
    rewrite <- e_bilinear. split; [apply e_nondegenerate|now intros ->].
  Qed.

  Lemma aggregation_complete s c (lrs : list (G1 * G1)) :
    Forall (fun lr => e (fst lr) (smul s g2) = e (snd lr) g2) lrs ->
    e (msum_pow (rev (map fst lrs)) c) (smul s g2) = e (msum_pow (rev (map snd lrs)) c) g2.
  Proof.
    intro H. apply pairing_iff. apply (msub_eq0 F G1). unfold msum_pow. rewrite (agg_check F G1 s c lrs).
    apply (pzero_eval F G1). unfold pzero. apply Forall_rev. rewrite Forall_map.
    eapply Forall_impl; [|exact H]. intros lr Hlr. apply (msub_eq0 F G1). now apply pairing_iff.
  Qed.

  Lemma aggregation_sound s cs (lrs : list (G1 * G1)) :
    NoDup cs -> (length lrs <= length cs)%nat ->
    (forall c, In c cs -> e (msum_pow (rev (map fst lrs)) c) (smul s g2) = e (msum_pow (rev (map snd lrs)) c) g2) ->
    Forall (fun lr => e (fst lr) (smul s g2) = e (snd lr) g2) lrs.
  Proof.
    intros ND HL H.
    assert (Z : pzero F G1 (rev (map (fun x => msub (smul s (fst x)) (snd x)) lrs))).
    { apply (roots_zero F G1 cs); [exact ND|now rewrite rev_length, map_length|].
      intros c Hc. rewrite <- agg_check. apply (msub_eq0 F G1). apply pairing_iff. now apply H. }
    unfold pzero in Z. apply Forall_rev in Z. rewrite rev_involutive, Forall_map in Z.
    eapply Forall_impl; [|exact Z]. intros lr Hlr. apply pairing_iff. apply (msub_eq0 F G1). exact Hlr.
  Qed.
End Pairing.

(** ** Concrete witnesses *)
Definition is_some {A} (o : option A) : bool := match o with Some _ => true | None => false end.
Lemma is_some_ne {A} (o : option A) : is_some o = true -> o <> None.
Proof. destruct o; discriminate. Qed.
Lemma is_some_ex {A} (o : option A) : is_some o = true -> exists x, o = Some x.
Proof. destruct o; [eauto|discriminate]. Qed.
Ltac f101_neq := let H := fresh in intro H; apply (f_equal (@proj1_sig _ _)) in H; vm_compute in H; discriminate H.

Lemma product_of_commitments_refuted :
  exists (t : schema F7 (self_mod F7)) K names,
    well_built K t /\ mentions t = true /\ scales_commitment t = true /\
    eval t = Some (f7 6, None, names) /\ pt_of t = f7 0.
Proof.
  set (a := SCommitment (M := self_mod F7) (mkCQ (M := self_mod F7) "A" (Some (f7 2)) None)).
  set (b := SCommitment (M := self_mod F7) (mkCQ (M := self_mod F7) "B" (Some (f7 5)) None)).
  exists (sch_mul a (sch_mul b (SScalar (f7 3)))), (fun k => if String.eqb k "A" then f7 2 else f7 5), ["A"%string].
  repeat split; try discriminate; vm_compute; reflexivity.
Qed.

Lemma ex_keys_built key c : keys_built (ex_params key c).
Proof.
  split.
  - intros [|[|k]] pe H; cbn in H; try discriminate; injection H as <-; cbn; reflexivity.
  - intros [|[|k]] lks [|[|j]] le H1 H2; cbn in H1; try discriminate; injection H1 as <-; cbn in H2; try discriminate;
      injection H2 as <-; cbn; reflexivity.
Qed.

Lemma keys_example :
  let ps := [ex_params "a_p0" (f101 5); ex_params "a_p1" (f101 6)] in
  Forall keys_built ps /\ Forall (fun p => (length (p_instance_commitments p) <= 1)%nat) ps /\
  Forall (fun p => exists name i, p_key p = proof_key name i) ps /\
  NoDup (map p_key ps) /\ mapM queries ps <> None.
Proof.
  cbv zeta. split; [|split; [|split; [|split]]].
  - repeat constructor; apply ex_keys_built.
  - repeat constructor; cbn; lia.
  - constructor; [exists "a"%string, 0%nat; reflexivity|]. constructor; [exists "a"%string, 1%nat; reflexivity|constructor].
  - cbn. repeat constructor; cbn; intuition discriminate.
  - apply is_some_ne. vm_compute. reflexivity.
Qed.

Lemma aggregate_example :
  let ps := [ex_params "a_p0" (f101 5); ex_params "a_p1" (f101 6)] in
  exists qss ms m, mapM queries ps = Some qss /\ mapM batch_multi_open_proofs ps = Some ms /\
    aggregate (f101 9) ms = Some m /\
    consistent (flat_map (fun pq => named_commitments (p_key (fst pq)) (p_w (fst pq)) (snd pq)) (combine ps qss)).
Proof.
  cbv zeta. destruct keys_example as [K1 [K2 [K3 [K4 K5]]]].
  set (ps := [_; _]) in *.
  destruct (mapM queries ps) as [qss|] eqn:E1; [|contradiction K5; reflexivity].
  destruct (is_some_ex (mapM batch_multi_open_proofs ps)) as [ms E2]; [vm_compute; reflexivity|].
  rewrite E2. exists qss, ms. assert (L := mapM_length _ _ _ E2). destruct ms as [|m ms]; [discriminate|].
  eexists. split; [reflexivity|]. split; [reflexivity|]. split; [reflexivity|].
  eapply instances_consistent; eauto.
Qed.

Lemma same_name_refuted :
  exists (p1 p2 : params F101 (self_mod F101)) m1 m2 m (c : F101) (G l r : self_mod F101),
    p_key p1 = p_key p2 /\
    batch_multi_open_proofs p1 = Some m1 /\ batch_multi_open_proofs p2 = Some m2 /\
    aggregate c [m1; m2] = Some m /\
    evaluate_multiopen_proof G m = Some (l, r) /\
    r <> msub (pt_of (w_g m)) (smul (sc_of (w_g m)) G).
Proof.
  exists (ex_params "a_p0" (f101 5)), (ex_params "a_p0" (f101 6)).
  destruct (is_some_ex (batch_multi_open_proofs (ex_params "a_p0" (f101 5)))) as [m1 E1]; [vm_compute; reflexivity|].
  destruct (is_some_ex (batch_multi_open_proofs (ex_params "a_p0" (f101 6)))) as [m2 E2]; [vm_compute; reflexivity|].
  exists m1, m2.
  destruct (aggregate (f101 9) [m1; m2]) as [m|] eqn:E3; [|discriminate].
  exists m, (f101 9), (f101 2).
  assert (X : match batch_multi_open_proofs (ex_params "a_p0" (f101 5)), batch_multi_open_proofs (ex_params "a_p0" (f101 6)) with
              | Some m1, Some m2 =>
                  match aggregate (f101 9) [m1; m2] with
                  | Some m => match evaluate_multiopen_proof (f101 2 : self_mod F101) m with
                              | Some (l, r) => negb (Z.eqb (proj1_sig (r : F101)) (proj1_sig (msub (pt_of (w_g m)) (smul (sc_of (w_g m)) (f101 2 : self_mod F101)) : F101)))
                              | None => false end
                  | None => false end
              | _, _ => false end = true) by (vm_compute; reflexivity).
  rewrite E1, E2, E3 in X.
  destruct (evaluate_multiopen_proof (f101 2 : self_mod F101) m) as [[l r]|] eqn:E4; [|discriminate].
  exists l, r. repeat split; auto.
  intro H. rewrite <- H, Z.eqb_refl in X. discriminate.
Qed.

Lemma single_rotation_refuted :
  exists (key : string) (u v : F101) (w : list (self_mod F101)) qs m,
    Forall (good_query F101 (self_mod F101)) qs /\ length (rotations qs) = 1%nat /\
    batch_queries key u v w qs = Some m /\ forall G, evaluate_multiopen_proof G m = None.
Proof.
  set (qs := [query_new (M := self_mod F101) 0 "k_a0" (f101 3) (f101 5) (f101 7);
              query_new (M := self_mod F101) 0 "k_a1" (f101 3) (f101 6) (f101 8)]).
  exists "k"%string, (f101 2), (f101 4), [f101 9], qs.
  destruct (batch_queries "k" (f101 2) (f101 4) [f101 9 : self_mod F101] qs) as [m|] eqn:E; [|discriminate].
  exists m. split; [|split; [|split]].
  - repeat apply Forall_cons; [..|apply Forall_nil]; apply good_query_new; discriminate.
  - reflexivity.
  - exact E.
  - intro G. cbn in E. injection E as <-. reflexivity.
Qed.

Lemma lagrange_example :
  primitive_root F101 (f101 10) 4 /\ nat_f F101 4 <> f0 /\
  (forall i, (i <= 2)%nat -> f101 3 <> fpow (finv (f101 10)) i).
Proof.
  split; [|split].
  - split; [lia|]. split; [apply zp_eq; vm_compute; reflexivity|].
    intros k Hk. destruct k as [|[|[|[|k]]]]; try lia; f101_neq.
  - f101_neq.
  - intros i Hi. destruct i as [|[|[|i]]]; try lia; f101_neq.
Qed.

Lemma consistent_example :
  params_consistent F101 (self_mod F101) (ex_params "a_p0" (f101 5)) /\ queries (ex_params "a_p0" (f101 5)) <> None /\
  length (all_constraints (ex_params "a_p0" (f101 5)) (f101 1) (f101 2) (f101 3)) = 11%nat.
Proof.
  split; [|split].
  - split; [reflexivity|]. split; [reflexivity|]. repeat constructor; cbn; lia.
  - apply is_some_ne. vm_compute. reflexivity.
  - vm_compute. reflexivity.
Qed.
