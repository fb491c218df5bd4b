(** Proofs about multiopen.rs / verify.rs: the batched opening equation, the
    aggregation of several proofs, instance commitments. *)
From Coq Require Import String NArith ZArith Arith Bool Lia Ring Field List ZifyBool ZifyNat ZifyN.
From Verif Require Import Util Algebra Poly Schema SchemaProofs Plonk PowLagrange PlonkSpec PlonkProofs.
Import ListNotations.

Section Proofs.
  Variable F : Fld.
  Variable M : Mod F.
  Local Open Scope fld_scope.
  Add Field FMo : (f_th F).
  Notation schema := (schema F M).

  (** *** Well-formed schemas without reference to a commitment table *)
  Fixpoint wf_schema (t : schema) : Prop :=
    match t with
    | SCommitment q => cq_commitment q <> None /\ cq_key q <> ""%string
    | SEval q => cq_eval q <> None
    | SScalar _ => True
    | SAdd l lc r rc | SMul l lc r rc =>
        wf_schema l /\ wf_schema r /\ lc = has_commitment l /\ rc = has_commitment r
    end.
  Fixpoint commit_pairs (t : schema) : list (string * M) :=
    match t with
    | SCommitment q => match cq_commitment q with Some c => [(cq_key q, c)] | None => [] end
    | SEval _ | SScalar _ => []
    | SAdd l _ r _ | SMul l _ r _ => commit_pairs l ++ commit_pairs r
    end.
  (** Same key, same point. *)
  Definition consistent (ps : list (string * M)) : Prop :=
    forall k c1 c2, In (k, c1) ps -> In (k, c2) ps -> c1 = c2.

  Lemma wf_well_built K t :
    wf_schema t -> (forall k c, In (k, c) (commit_pairs t) -> K k = c) -> well_built K t.
  Proof.
    induction t as [q|q|s|l IHl lc r IHr rc|l IHl lc r IHr rc]; cbn; auto.
    - intros [H1 H2] H. destruct (cq_commitment q) as [c|]; [|congruence].
      split; [|assumption]. f_equal. symmetry. apply H. now left.
    - intros [H1 [H2 [H3 H4]]] H. repeat split; auto.
      + apply IHl; auto. intros k c Hc. apply H, in_or_app; auto.
      + apply IHr; auto. intros k c Hc. apply H, in_or_app; auto.
    - intros [H1 [H2 [H3 H4]]] H. repeat split; auto.
      + apply IHl; auto. intros k c Hc. apply H, in_or_app; auto.
      + apply IHr; auto. intros k c Hc. apply H, in_or_app; auto.
  Qed.

  Lemma consistent_table ps : consistent ps -> exists K, forall k c, In (k, c) ps -> K k = c.
  Proof.
    intro H. exists (fun k => match find (fun p => String.eqb (fst p) k) ps with Some p => snd p | None => m0 end).
    intros k c Hc. destruct (find _ ps) as [[k' c']|] eqn:E.
    - apply find_some in E. destruct E as [E1 E2]. cbn in E2. apply String.eqb_eq in E2. subst k'.
      cbn. eapply H; eassumption.
    - exfalso. apply (find_none _ _ E) in Hc. cbn in Hc. rewrite String.eqb_refl in Hc. discriminate.
  Qed.

  Lemma consistent_incl ps qs : incl ps qs -> consistent qs -> consistent ps.
  Proof. intros I H k c1 c2 H1 H2. eapply H; apply I; eassumption. Qed.

  Definition lin_pt (t : schema) : Prop := wf_schema t /\ linear t = true /\ mentions t = true.

  Lemma wf_flag t : wf_schema t -> has_commitment t = mentions t.
  Proof.
    induction t as [q|q|s|l IHl lc r IHr rc|l IHl lc r IHr rc]; cbn; try reflexivity;
      intros [Hl [Hr [-> ->]]]; rewrite IHl, IHr; auto.
  Qed.

  Lemma lin_pt_add a b : lin_pt a -> lin_pt b -> lin_pt (sch_add a b).
  Proof.
    intros [A1 [A2 A3]] [B1 [B2 B3]]. unfold sch_add. repeat split; cbn; auto.
    - now rewrite A2, B2.
    - now rewrite A3.
  Qed.
  Lemma lin_pt_add_scalar a (s : F) : lin_pt a -> lin_pt (sch_add a (SScalar s)).
  Proof.
    intros [A1 [A2 A3]]. unfold sch_add. repeat split; cbn; auto.
    - now rewrite A2.
    - now rewrite A3.
  Qed.
  Lemma lin_pt_mul_l a (s : F) : lin_pt a -> lin_pt (sch_mul (SScalar s) a).
  Proof. intros [A1 [A2 A3]]. unfold sch_mul. repeat split; cbn; auto. now rewrite A2. Qed.
  Lemma lin_pt_mul_r a (s : F) : lin_pt a -> lin_pt (sch_mul a (SScalar s)).
  Proof.
    intros [A1 [A2 A3]]. unfold sch_mul. repeat split; cbn; auto.
    - now rewrite A2, A3.
    - now rewrite A3.
  Qed.

  Lemma query_new_lin rot key pt (c : M) (e : F) : key <> ""%string ->
    lin_pt (q_s (query_new rot key pt c e)) /\ has_scalar_part (q_s (query_new rot key pt c e)) = true /\
    commit_pairs (q_s (query_new rot key pt c e)) = [(key, c)].
  Proof. intro H. cbn. repeat split; cbn; auto; discriminate. Qed.

  (** *** Polynomial in the fold scalar *)
  Lemma peval_app (p q : list M) (x : F) :
    peval (p ++ q) x = madd (peval p x) (smul (fpow x (length p)) (peval q x)).
  Proof.
    induction p as [|a p IH]; cbn [app peval length fpow].
    - now rewrite smul_1, madd_0_l.
    - rewrite IH, smul_add_r, madd_assoc, <- smul_mul. reflexivity.
  Qed.

  Lemma peval_one (a : M) (x : F) : peval [a] x = a.
  Proof. cbn. now rewrite smul_0_r, madd_0_r. Qed.

  Lemma fold_horner (v : F) (l : list schema) : forall acc,
    let t := fold_left (fun acc q => sch_add (sch_mul (SScalar v) acc) q) l acc in
    sc_of t = fpow v (length l) * sc_of acc + feval F (rev (map sc_of l)) v /\
    pt_of t = madd (smul (fpow v (length l)) (pt_of acc)) (peval (rev (map pt_of l)) v).
  Proof.
    induction l as [|q l IH]; intro acc.
    - cbn. rewrite smul_1, madd_0_r. split; [unfold feval; cbn; ring|reflexivity].
    - cbn [fold_left length map rev fpow]. cbn zeta.
      destruct (IH (sch_add (sch_mul (SScalar v) acc) q)) as [I1 I2].
      rewrite I1, I2. split.
      + unfold sch_add, sch_mul. cbn [sc_of]. rewrite feval_app, feval_snoc1, rev_length, map_length. ring.
      + unfold sch_add, sch_mul. cbn [pt_of sc_of]. rewrite peval_app, peval_one, rev_length, map_length.
        rewrite (smul_0_r F M), (madd_0_r F M), smul_add_r, <- smul_mul, <- madd_assoc.
        f_equal; [f_equal; ring|apply madd_comm].
  Qed.

  Lemma reduce_rev_horner (v : F) (l : list schema) t :
    reduce (fun acc q => sch_add (sch_mul (SScalar v) acc) q) (rev l) = Some t ->
    sc_of t = feval F (map sc_of l) v /\ pt_of t = peval (map pt_of l) v.
  Proof.
    destruct (rev l) as [|a r] eqn:E; [discriminate|]. cbn [reduce]. intro H; inversion H; subst; clear H.
    assert (El : l = rev r ++ [a]) by (rewrite <- (rev_involutive l), E; reflexivity).
    destruct (fold_horner v r a) as [I1 I2]. rewrite I1, I2, El, !map_app. cbn [map].
    rewrite feval_app, feval_snoc1, peval_app, peval_one, !map_length, rev_length, !map_rev. split; [ring|].
    apply madd_comm.
  Qed.

  (** Invariants of the fold that do not depend on values. *)
  Lemma fold_horner_inv (v : F) (l : list schema) : forall acc,
    lin_pt acc -> has_scalar_part acc = true ->
    Forall (fun t => lin_pt t /\ has_scalar_part t = true) l ->
    let t := fold_left (fun acc q => sch_add (sch_mul (SScalar v) acc) q) l acc in
    lin_pt t /\ has_scalar_part t = true /\ incl (commit_pairs t) (commit_pairs acc ++ flat_map commit_pairs l).
  Proof.
    induction l as [|q l IH]; intros acc A1 A2 Hl.
    - cbn. repeat split; try apply A1; auto. rewrite app_nil_r. apply incl_refl.
    - rewrite Forall_cons_iff in Hl. destruct Hl as [[Q1 Q2] Hl]. cbn [fold_left]. cbn zeta.
      destruct (IH (sch_add (sch_mul (SScalar v) acc) q)) as [I1 [I2 I3]]; auto.
      + apply lin_pt_add; [now apply lin_pt_mul_l|exact Q1].
      + cbn. now rewrite Q2, orb_true_r.
      + split; [exact I1|]. split; [exact I2|]. eapply incl_tran; [exact I3|].
        cbn. rewrite app_assoc. apply incl_refl.
  Qed.

  Lemma reduce_rev_inv (v : F) (l : list schema) t :
    Forall (fun t => lin_pt t /\ has_scalar_part t = true) l ->
    reduce (fun acc q => sch_add (sch_mul (SScalar v) acc) q) (rev l) = Some t ->
    lin_pt t /\ has_scalar_part t = true /\ incl (commit_pairs t) (flat_map commit_pairs l).
  Proof.
    intros Hl. destruct (rev l) as [|a r] eqn:E; [discriminate|]. cbn [reduce]. intro H; inversion H; subst; clear H.
    assert (El : l = rev r ++ [a]) by (rewrite <- (rev_involutive l), E; reflexivity).
    rewrite El, Forall_app, Forall_cons_iff in Hl. destruct Hl as [Hr [[A1 A2] _]].
    apply Forall_rev in Hr. rewrite rev_involutive in Hr.
    destruct (fold_horner_inv v r a A1 A2 Hr) as [I1 [I2 I3]].
    split; [exact I1|]. split; [exact I2|]. eapply incl_tran; [exact I3|].
    intros x Hx. rewrite El, flat_map_app. cbn. rewrite app_nil_r. apply in_or_app.
    apply in_app_or in Hx. destruct Hx as [Hx|Hx]; [right; exact Hx|left].
    apply in_flat_map in Hx. destruct Hx as [y [Hy Hx]]. apply in_flat_map. exists y. split; [now apply -> in_rev|exact Hx].
  Qed.

  (** *** Grouping *)
  Lemma first_rotations_snoc (qs : list (query F M)) q : forall seen,
    first_rotations seen (qs ++ [q]) =
    first_rotations seen qs ++
      (if existsb (Z.eqb (q_rotation q)) (seen ++ first_rotations seen qs) then [] else [q_rotation q]).
  Proof.
    induction qs as [|a qs IH]; intro seen; cbn [app first_rotations].
    - rewrite app_nil_r. destruct (existsb _ seen); reflexivity.
    - destruct (existsb (Z.eqb (q_rotation a)) seen) eqn:E; [apply IH|].
      rewrite IH. cbn [app]. f_equal. f_equal.
      replace (existsb (Z.eqb (q_rotation q)) (q_rotation a :: seen ++ first_rotations (q_rotation a :: seen) qs))
        with (existsb (Z.eqb (q_rotation q)) (seen ++ q_rotation a :: first_rotations (q_rotation a :: seen) qs)); [reflexivity|].
      cbn [existsb]. rewrite !existsb_app. cbn [existsb].
      destruct (existsb (Z.eqb (q_rotation q)) seen), (Z.eqb (q_rotation q) (q_rotation a)); reflexivity.
  Qed.

  Lemma first_rotations_In (qs : list (query F M)) : forall seen r,
    In r (first_rotations seen qs) <-> ~ In r seen /\ In r (map q_rotation qs).
  Proof.
    assert (EX : forall r l, existsb (Z.eqb r) l = true <-> In r l).
    { intros r l. rewrite existsb_exists. split.
      - intros [x [H1 H2]]. apply Z.eqb_eq in H2. now subst.
      - intro H. exists r. split; [exact H|apply Z.eqb_refl]. }
    induction qs as [|a qs IH]; intros seen r; cbn [first_rotations map].
    - cbn. tauto.
    - destruct (existsb (Z.eqb (q_rotation a)) seen) eqn:E.
      + apply EX in E. rewrite IH. cbn. split; [tauto|]. intros [H1 [H2|H2]]; [subst; tauto|tauto].
      + cbn. rewrite IH. cbn.
        assert (E' : ~ In (q_rotation a) seen) by (rewrite <- EX, E; discriminate).
        destruct (Z.eq_dec (q_rotation a) r) as [<-|Hne]; [tauto|]. tauto.
  Qed.

  Lemma first_rotations_NoDup (qs : list (query F M)) : forall seen, NoDup (first_rotations seen qs).
  Proof.
    induction qs as [|a qs IH]; intros seen; cbn [first_rotations]; [constructor|].
    destruct (existsb _ seen); [apply IH|]. constructor; [|apply IH].
    rewrite first_rotations_In. cbn. tauto.
  Qed.

  Definition groups_of (qs : list (query F M)) : list (Z * (F * list schema)) :=
    map (fun r => (r, (rotation_point qs r, map q_s (at_rotation qs r)))) (rotations qs).

  Lemma at_rotation_snoc (qs : list (query F M)) q r :
    at_rotation (qs ++ [q]) r = at_rotation qs r ++ (if Z.eqb (q_rotation q) r then [q] else []).
  Proof. unfold at_rotation. rewrite filter_app. reflexivity. Qed.

  Lemma at_rotation_nil (qs : list (query F M)) r : at_rotation qs r = [] <-> ~ In r (map q_rotation qs).
  Proof.
    unfold at_rotation. induction qs as [|a qs IH]; cbn; [tauto|].
    destruct (Z.eqb_spec (q_rotation a) r) as [E|E]; [split; [discriminate|tauto]|].
    rewrite IH. tauto.
  Qed.

  Lemma group_insert_notin gs (q : query F M) :
    ~ In (q_rotation q) (map fst gs) ->
    group_insert gs q = gs ++ [(q_rotation q, (q_point q, [q_s q]))].
  Proof.
    induction gs as [|[r [pt ss]] gs IH]; cbn; intro H; [reflexivity|].
    destruct (Z.eqb_spec r (q_rotation q)) as [E|E]; [tauto|]. rewrite IH; tauto.
  Qed.

  Lemma group_insert_in (f : Z -> F * list schema) (rs : list Z) (q : query F M) :
    NoDup rs -> In (q_rotation q) rs ->
    group_insert (map (fun r => (r, f r)) rs) q =
    map (fun r => (r, (fst (f r), snd (f r) ++ (if Z.eqb (q_rotation q) r then [q_s q] else [])))) rs.
  Proof.
    induction rs as [|r rs IH]; intros ND HI; [destruct HI|].
    inversion ND as [|? ? NI ND']; subst. cbn [map group_insert].
    destruct (f r) as [pt ss] eqn:Ef.
    destruct (Z.eqb_spec r (q_rotation q)) as [E|E].
    - subst r. rewrite Z.eqb_refl. cbn [fst snd]. f_equal.
      apply map_ext_in. intros r Hr. destruct (Z.eqb_spec (q_rotation q) r) as [E|E]; [subst; contradiction|].
      rewrite app_nil_r. destruct (f r); reflexivity.
    - cbn [fst snd]. destruct (Z.eqb_spec (q_rotation q) r) as [E'|E']; [congruence|].
      rewrite app_nil_r. f_equal. apply IH; [assumption|]. destruct HI; [congruence|assumption].
  Qed.

  Lemma group_queries_spec (qs : list (query F M)) : group_queries qs = groups_of qs.
  Proof.
    induction qs as [|q qs IH] using rev_ind; [reflexivity|].
    unfold group_queries in *. rewrite fold_left_app. cbn [fold_left]. rewrite IH. unfold groups_of.
    unfold rotations. rewrite first_rotations_snoc. cbn [app].
    destruct (existsb (Z.eqb (q_rotation q)) (first_rotations [] qs)) eqn:E.
    - rewrite app_nil_r. apply existsb_exists in E. destruct E as [x [E1 E2]]. apply Z.eqb_eq in E2. subst x.
      rewrite (group_insert_in (fun r => (rotation_point qs r, map q_s (at_rotation qs r))));
        [|apply first_rotations_NoDup|exact E1].
      apply map_ext_in. intros r Hr. cbn [fst snd]. rewrite at_rotation_snoc.
      apply first_rotations_In in Hr. destruct Hr as [_ Hr].
      f_equal. f_equal.
      + unfold rotation_point. rewrite at_rotation_snoc.
        destruct (at_rotation qs r) eqn:Ea; [apply at_rotation_nil in Ea; contradiction|reflexivity].
      + rewrite map_app. destruct (Z.eqb _ _); reflexivity.
    - assert (NI : ~ In (q_rotation q) (first_rotations [] qs)).
      { intro H. assert (existsb (Z.eqb (q_rotation q)) (first_rotations [] qs) = true); [|congruence].
        apply existsb_exists. exists (q_rotation q). split; [exact H|apply Z.eqb_refl]. }
      rewrite group_insert_notin by (rewrite map_map; cbn [fst]; rewrite map_id; exact NI).
      rewrite map_app. cbn [map]. f_equal.
      + apply map_ext_in. intros r Hr. unfold rotation_point. rewrite at_rotation_snoc.
        destruct (Z.eqb_spec (q_rotation q) r) as [E'|E']; [subst; contradiction|]. now rewrite app_nil_r.
      + assert (En : at_rotation qs (q_rotation q) = []).
        { apply at_rotation_nil. intro H. apply NI. apply first_rotations_In. cbn. tauto. }
        unfold rotation_point. rewrite at_rotation_snoc, En, Z.eqb_refl. reflexivity.
  Qed.

  Lemma Forall2_length' {A B} (R : A -> B -> Prop) l r : Forall2 R l r -> length l = length r.
  Proof. induction 1; cbn; auto. Qed.

  (** *** Batching *)
  Definition eval_proof_of (v : F) (qs : list (query F M)) (r : Z) (W : M) (ep : eval_proof F M) : Prop :=
    ep_point ep = rotation_point qs r /\ ep_w ep = W /\
    pt_of (ep_s ep) = msum_pow (map (fun q => fst (claim q)) (at_rotation qs r)) v /\
    sc_of (ep_s ep) = feval F (map (fun q => snd (claim q)) (at_rotation qs r)) v.

  Definition good_query (q : query F M) : Prop := lin_pt (q_s q) /\ has_scalar_part (q_s q) = true.

  Lemma get_point_schemas_spec (v : F) (w : list M) (qs : list (query F M)) eps :
    get_point_schemas v w qs = Some eps ->
    length w = length (rotations qs) /\
    Forall2 (fun rw ep => eval_proof_of v qs (fst rw) (snd rw) ep) (combine (rotations qs) w) eps.
  Proof.
    unfold get_point_schemas. rewrite group_queries_spec. unfold groups_of.
    rewrite map_length. destruct (Nat.eqb_spec (length w) (length (rotations qs))) as [E|]; [|discriminate].
    intro H. split; [exact E|]. apply mapM_Forall2 in H.
    revert H. clear E. generalize (rotations qs) as rs. intro rs. revert w eps.
    induction rs as [|r rs IH]; intros [|W w] eps H; cbn [map combine] in *; try (inversion H; constructor; fail).
    inversion H as [|? ep ? eps' H1 H2]; subst. constructor; [|now apply IH].
    cbn [fst snd]. cbn beta iota in H1.
    destruct (reduce _ _) as [t|] eqn:Er; [|discriminate]. inversion H1; subst; clear H1.
    apply reduce_rev_horner in Er. destruct Er as [E1 E2]. unfold eval_proof_of. cbn [ep_point ep_w ep_s].
    rewrite E1, E2, !map_map. repeat split.
  Qed.

  Lemma get_point_schemas_some (v : F) (w : list M) (qs : list (query F M)) :
    length w = length (rotations qs) -> exists eps, get_point_schemas v w qs = Some eps.
  Proof.
    intro E. unfold get_point_schemas. rewrite group_queries_spec. unfold groups_of. rewrite map_length.
    rewrite (proj2 (Nat.eqb_eq _ _) E).
    assert (G : forall rs w, (forall r, In r rs -> In r (map q_rotation qs)) ->
      exists eps, mapM (fun gw : (Z * (F * list schema)) * M => let '((_, (point, schemas)), w0) := gw in
              do acc <- reduce (fun acc q => sch_add (sch_mul (SScalar v) acc) q) (rev schemas);
              Some (mkEP point acc w0))
           (combine (map (fun r => (r, (rotation_point qs r, map q_s (at_rotation qs r)))) rs) w) = Some eps).
    { induction rs as [|r rs IH]; intros w' Hr; [exists []; reflexivity|].
      destruct w' as [|W w']; [exists []; reflexivity|]. cbn [map combine mapM].
      destruct (rev (map q_s (at_rotation qs r))) as [|a l] eqn:Er.
      - exfalso. assert (En : at_rotation qs r = []).
        { apply (f_equal (@length _)) in Er. rewrite rev_length, map_length in Er.
          destruct (at_rotation qs r); [reflexivity|discriminate]. }
        apply at_rotation_nil in En. apply En, Hr. now left.
      - cbn [reduce]. destruct (IH w') as [eps He]; [intros; apply Hr; now right|].
        rewrite He. eauto. }
    apply G. intros r Hr. apply first_rotations_In in Hr. tauto.
  Qed.

  Lemma get_point_schemas_inv (v : F) (w : list M) (qs : list (query F M)) eps :
    Forall good_query qs ->
    get_point_schemas v w qs = Some eps ->
    Forall (fun ep => lin_pt (ep_s ep) /\ has_scalar_part (ep_s ep) = true /\
                      incl (commit_pairs (ep_s ep)) (flat_map (fun q => commit_pairs (q_s q)) qs)) eps /\
    map (@ep_w F M) eps = w.
  Proof.
    intros Hq. unfold get_point_schemas. rewrite group_queries_spec. unfold groups_of.
    rewrite map_length. destruct (Nat.eqb_spec (length w) (length (rotations qs))) as [E|]; [|discriminate].
    intro H. apply mapM_Forall2 in H.
    revert E H. generalize (rotations qs) as rs. intro rs. revert w eps.
    induction rs as [|r rs IH]; intros [|W w] eps E H; cbn [map combine] in *; try discriminate.
    { inversion H; subst. split; [constructor|reflexivity]. }
    inversion H as [|? ep ? eps' H1 H2]; subst.
    destruct (IH w eps') as [I1 I2]; [now inversion E|assumption|].
    cbn beta iota in H1. destruct (reduce _ _) as [t|] eqn:Er; [|discriminate]. inversion H1; subst; clear H1.
    split; [|cbn; reflexivity]. constructor; [|exact I1]. cbn [ep_s].
    apply reduce_rev_inv in Er.
    - destruct Er as [R1 [R2 R3]]. split; [exact R1|]. split; [exact R2|]. eapply incl_tran; [exact R3|].
      intros x Hx. apply in_flat_map in Hx. destruct Hx as [s [Hs Hx]]. apply in_map_iff in Hs.
      destruct Hs as [q [<- Hs]]. apply filter_In in Hs. apply in_flat_map. exists q. tauto.
    - rewrite Forall_map. unfold at_rotation. apply Forall_forall. intros q Hin. apply filter_In in Hin.
      rewrite Forall_forall in Hq. apply Hq. tauto.
  Qed.

  (** value of the batch fold *)
  Lemma batch_fold (key : string) (u : F) : forall (l : list (nat * eval_proof F M)) a m,
    fold_left (batch_step key u) l (Some a) = Some m ->
    sc_of (w_x a) = 0 ->
    sc_of (w_x m) = 0 /\
    pt_of (w_x m) = madd (smul (fpow u (length l)) (pt_of (w_x a))) (peval (rev (map (fun ip => ep_w (snd ip)) l)) u) /\
    pt_of (w_g m) = madd (smul (fpow u (length l)) (pt_of (w_g a)))
                         (peval (rev (map (fun ip => madd (smul (ep_point (snd ip)) (ep_w (snd ip))) (pt_of (ep_s (snd ip)))) l)) u) /\
    sc_of (w_g m) = fpow u (length l) * sc_of (w_g a) + feval F (rev (map (fun ip => sc_of (ep_s (snd ip))) l)) u.
  Proof.
    induction l as [|[i p] l IH]; intros a m H Ha.
    - cbn in H. inversion H; subst. cbn. rewrite !smul_1, !madd_0_r. repeat split; auto. unfold feval; cbn. ring.
    - cbn [fold_left batch_step] in H. apply IH in H.
      + destruct H as [H1 [H2 [H3 H4]]]. split; [exact H1|].
        rewrite H2, H3, H4. cbn [w_x w_g sch_add sch_mul pt_of sc_of cq_commitment length map rev fpow snd].
        rewrite !peval_app, !peval_one, feval_app, feval_snoc1, !rev_length, !map_length.
        rewrite ?(smul_0_r F M), ?(smul_0_l F M), ?(madd_0_r F M), !smul_add_r, <- !smul_mul.
        split; [|split].
        * rewrite <- madd_assoc. f_equal; [f_equal; ring|apply madd_comm].
        * replace (u * fpow u (length l)) with (fpow u (length l) * u) by ring.
          rewrite <- !madd_assoc. f_equal.
          match goal with |- madd ?X (madd ?Y ?P) = _ =>
            transitivity (madd (madd X Y) P); [apply madd_assoc|apply madd_comm] end.
        * ring.
      + cbn. rewrite Ha. ring.
  Qed.

  Lemma enumerate_map_snd {A B} (f : A -> B) (l : list A) :
    map (fun ip => f (snd ip)) (enumerate l) = map f l.
  Proof. rewrite <- (map_map snd f), enumerate_snd. reflexivity. Qed.

  Lemma batch_queries_value (key : string) (u v : F) (w : list M) (qs : list (query F M)) m :
    batch_queries key u v w qs = Some m ->
    length w = length (rotations qs) /\
    sc_of (w_x m) = 0 /\ pt_of (w_x m) = gwc_left u w /\
    pt_of (w_g m) = gwc_right_pt u v w qs /\ sc_of (w_g m) = gwc_right_sc u v qs.
  Proof.
    unfold batch_queries. destruct (get_point_schemas v w qs) as [eps|] eqn:E; [|discriminate].
    apply get_point_schemas_spec in E. destruct E as [EL E]. intro H. split; [exact EL|].
    assert (V : sc_of (w_x m) = 0 /\ pt_of (w_x m) = peval (map (@ep_w F M) eps) u /\
                pt_of (w_g m) = peval (map (fun p => madd (smul (ep_point p) (ep_w p)) (pt_of (ep_s p))) eps) u /\
                sc_of (w_g m) = feval F (map (fun p => sc_of (ep_s p)) eps) u).
    { destruct (rev (enumerate eps)) as [|[i p] l] eqn:Er; [discriminate|].
      assert (El : enumerate eps = rev l ++ [(i, p)]) by (rewrite <- (rev_involutive (enumerate eps)), Er; reflexivity).
      cbn [fold_left batch_step] in H. apply batch_fold in H; [|reflexivity].
      rewrite <- !(enumerate_map_snd (@ep_w F M)), <- (enumerate_map_snd (fun p => madd (smul (ep_point p) (ep_w p)) (pt_of (ep_s p)))),
        <- (enumerate_map_snd (fun p => sc_of (ep_s p))).
      rewrite El, !map_app. cbn [map snd].
      destruct H as [H1 [H2 [H3 H4]]]. split; [exact H1|]. rewrite H2, H3, H4.
      rewrite !peval_app, !peval_one, feval_app, feval_snoc1, !map_length, !rev_length, !map_rev.
      cbn [w_x w_g sch_add sch_mul pt_of sc_of cq_commitment].
      rewrite ?(smul_0_l F M), ?(smul_0_r F M), ?(madd_0_r F M).
      split; [|split].
      - apply madd_comm.
      - apply madd_comm.
      - ring. }
    destruct V as [V1 [V2 [V3 V4]]]. split; [exact V1|]. rewrite V2, V3, V4.
    unfold gwc_left, gwc_right_pt, gwc_right_sc, msum_pow.
    clear H V1 V2 V3 V4. revert EL E. generalize (rotations qs) as rs. intros rs. revert w eps.
    induction rs as [|r rs IH]; intros [|W w] eps EL E; try discriminate.
    - inversion E; subst. repeat split.
    - cbn [combine] in E. inversion E as [|? ep ? eps' E1 E2]; subst.
      destruct (IH w eps') as [I1 [I2 I3]]; [now inversion EL|exact E2|].
      destruct E1 as [P1 [P2 [P3 P4]]]. cbn [fst snd] in *.
      cbn [map combine peval]. rewrite !feval_cons. rewrite I1, I2, I3, P1, P2, P3, P4. repeat split.
  Qed.

  Lemma batch_queries_some (key : string) (u v : F) (w : list M) (qs : list (query F M)) :
    qs <> [] -> length w = length (rotations qs) -> exists m, batch_queries key u v w qs = Some m.
  Proof.
    intros Hq Hw. unfold batch_queries. destruct (get_point_schemas_some v w qs Hw) as [eps E]. rewrite E.
    apply get_point_schemas_spec in E. destruct E as [_ E]. apply (Forall2_length' _) in E.
    assert (Hr : rotations qs <> []).
    { destruct qs as [|q qs']; [congruence|]. unfold rotations. cbn. discriminate. }
    rewrite combine_length, Hw, Nat.min_id in E.
    destruct (rev (enumerate eps)) as [|[i p] l] eqn:Er.
    - apply (f_equal (@length _)) in Er. rewrite rev_length, enumerate_length in Er.
      destruct (rotations qs); [congruence|]. cbn in *. lia.
    - cbn [fold_left batch_step].
      assert (G : forall (l : list (nat * eval_proof F M)) a, exists m, fold_left (batch_step key u) l (Some a) = Some m).
      { clear. induction l as [|[i p] l IH]; intro a; [exists a; reflexivity|]. cbn [fold_left batch_step]. apply IH. }
      apply G.
  Qed.

  (** structural facts about the batch *)
  Definition batch_ok (named : list (string * M)) (m : multiopen F M) : Prop :=
    lin_pt (w_x m) /\ has_scalar_part (w_x m) = false /\
    lin_pt (w_g m) /\ has_scalar_part (w_g m) = true /\ scales_commitment (w_g m) = true /\
    incl (commit_pairs (w_x m)) named /\ incl (commit_pairs (w_g m)) named.

  Lemma str_app_ne (a b : string) : b <> ""%string -> (a ++ b)%string <> ""%string.
  Proof. destruct a; cbn; [auto|discriminate]. Qed.

  Lemma batch_step_ok (key : string) (u : F) named acc i p m :
    match acc with None => True | Some a => batch_ok named a end ->
    lin_pt (ep_s p) -> has_scalar_part (ep_s p) = true -> incl (commit_pairs (ep_s p)) named ->
    In ((key ++ "_w" ++ fmt_nat i)%string, ep_w p) named ->
    batch_step key u acc (i, p) = Some m ->
    batch_ok named m /\ (acc <> None -> scales_commitment (w_x m) = true).
  Proof.
    intros HA P1 P2 P3 P4 H. cbn [batch_step] in H. inversion H; subst; clear H.
    set (w := SCommitment (mkCQ (key ++ "_w" ++ fmt_nat i)%string (Some (ep_w p)) None)) in *.
    assert (W1 : lin_pt w).
    { unfold w. repeat split; cbn; try discriminate. apply str_app_ne. discriminate. }
    assert (W2 : incl (commit_pairs w) named) by (unfold w; cbn; intros x [<-|[]]; exact P4).
    destruct acc as [a|].
    - destruct HA as [A1 [A2 [A3 [A4 [A5 [A6 A7]]]]]]. split.
      + unfold batch_ok. cbn [w_x w_g].
        refine (conj _ (conj _ (conj _ (conj _ (conj _ (conj _ _)))))).
        * apply lin_pt_add; [apply lin_pt_mul_l, A1|apply W1].
        * cbn. now rewrite A2.
        * apply lin_pt_add; [apply lin_pt_add; [apply lin_pt_mul_l, A3|apply lin_pt_mul_l, W1]|apply P1].
        * cbn. now rewrite P2, !orb_true_r.
        * cbn. destruct A3 as [_ [_ ->]]. reflexivity.
        * cbn [commit_pairs sch_add sch_mul app]. apply incl_app; assumption.
        * cbn [commit_pairs sch_add sch_mul app]. apply incl_app; [apply incl_app; assumption|exact P3].
      + intros _. cbn. destruct A1 as [_ [_ ->]]. reflexivity.
    - split; [|congruence]. unfold batch_ok. cbn [w_x w_g].
      refine (conj W1 (conj _ (conj _ (conj _ (conj _ (conj W2 _)))))).
      + reflexivity.
      + apply lin_pt_add; [apply lin_pt_mul_l, W1|apply P1].
      + cbn. exact P2.
      + reflexivity.
      + cbn [commit_pairs sch_add sch_mul app]. apply incl_app; assumption.
  Qed.

  Lemma batch_fold_ok (key : string) (u : F) named : forall (l : list (nat * eval_proof F M)) a m,
    Forall (fun ip => lin_pt (ep_s (snd ip)) /\ has_scalar_part (ep_s (snd ip)) = true /\
                      incl (commit_pairs (ep_s (snd ip))) named /\
                      In ((key ++ "_w" ++ fmt_nat (fst ip))%string, ep_w (snd ip)) named) l ->
    batch_ok named a ->
    fold_left (batch_step key u) l (Some a) = Some m ->
    batch_ok named m /\ (l <> [] -> scales_commitment (w_x m) = true).
  Proof.
    induction l as [|[i p] l IH]; intros a m Hl Ha H.
    - cbn in H. inversion H; subst. split; [exact Ha|congruence].
    - rewrite Forall_cons_iff in Hl. destruct Hl as [[P1 [P2 [P3 P4]]] Hl]. cbn [fst snd] in *.
      cbn [fold_left] in H. destruct (batch_step key u (Some a) (i, p)) as [a'|] eqn:Es; [|discriminate].
      assert (B := batch_step_ok key u named (Some a) i p a' Ha P1 P2 P3 P4 Es). destruct B as [B1 B2].
      destruct (IH a' m Hl B1 H) as [I1 I2]. split; [exact I1|]. intros _.
      destruct l as [|x l].
      + cbn in H. inversion H; subst. apply B2. discriminate.
      + apply I2. discriminate.
  Qed.

  (** the table of named commitments of a batch *)
  Definition named_commitments (key : string) (w : list M) (qs : list (query F M)) : list (string * M) :=
    map (fun iw => ((key ++ "_w" ++ fmt_nat (fst iw))%string, snd iw)) (enumerate w) ++
    flat_map (fun q => commit_pairs (q_s q)) qs.

  Lemma batch_queries_ok (key : string) (u v : F) (w : list M) (qs : list (query F M)) m :
    Forall good_query qs ->
    batch_queries key u v w qs = Some m ->
    batch_ok (named_commitments key w qs) m /\
    ((2 <= length (rotations qs))%nat -> scales_commitment (w_x m) = true).
  Proof.
    intros Hq. unfold batch_queries. destruct (get_point_schemas v w qs) as [eps|] eqn:E; [|discriminate].
    assert (E' := E). apply get_point_schemas_inv in E'; [|exact Hq]. destruct E' as [E1 E2].
    apply get_point_schemas_spec in E. destruct E as [EL E]. apply (Forall2_length' _) in E.
    rewrite combine_length, EL, Nat.min_id in E.
    intro H.
    assert (Hall : Forall (fun ip => lin_pt (ep_s (snd ip)) /\ has_scalar_part (ep_s (snd ip)) = true /\
                      incl (commit_pairs (ep_s (snd ip))) (named_commitments key w qs) /\
                      In ((key ++ "_w" ++ fmt_nat (fst ip))%string, ep_w (snd ip)) (named_commitments key w qs))
                          (rev (enumerate eps))).
    { apply Forall_rev. apply Forall_forall. intros [i p] Hin. apply enumerate_In in Hin. cbn [fst snd].
      rewrite Forall_forall in E1. destruct (E1 p (nth_error_In _ _ Hin)) as [P1 [P2 P3]].
      split; [exact P1|]. split; [exact P2|]. unfold named_commitments. split.
      - intros x Hx. apply in_or_app. right. now apply P3.
      - apply in_or_app. left. apply in_map_iff. exists (i, ep_w p). split; [reflexivity|].
        apply enumerate_In. rewrite <- E2. now apply map_nth_error. }
    destruct (rev (enumerate eps)) as [|[i p] l] eqn:Er; [discriminate|].
    rewrite Forall_cons_iff in Hall. destruct Hall as [[P1 [P2 [P3 P4]]] Hall]. cbn [fst snd] in *.
    cbn [fold_left] in H. destruct (batch_step key u None (i, p)) as [a|] eqn:Es; [|discriminate].
    destruct (batch_step_ok key u (named_commitments key w qs) None i p a I P1 P2 P3 P4 Es) as [B1 _].
    destruct (batch_fold_ok key u _ l a m Hall B1 H) as [R1 R2]. split; [exact R1|].
    intro HL. apply R2. intro Z. subst l.
    apply (f_equal (@length _)) in Er. rewrite rev_length, enumerate_length in Er. cbn in Er. lia.
  Qed.

  (** *** Aggregation of several proofs *)
  Lemma aggregate_fold (c : F) : forall (l : list (multiopen F M)) a,
    let f := (fun acc proof : multiopen F M =>
              mkMO (sch_add (sch_mul (w_x acc) (SScalar c)) (w_x proof))
                   (sch_add (sch_mul (w_g acc) (SScalar c)) (w_g proof))) in
    let m := fold_left f l a in
    pt_of (w_x m) = madd (smul (fpow c (length l)) (pt_of (w_x a))) (peval (rev (map (fun x => pt_of (w_x x)) l)) c) /\
    pt_of (w_g m) = madd (smul (fpow c (length l)) (pt_of (w_g a))) (peval (rev (map (fun x => pt_of (w_g x)) l)) c) /\
    sc_of (w_g m) = fpow c (length l) * sc_of (w_g a) + feval F (rev (map (fun x => sc_of (w_g x)) l)) c.
  Proof.
    induction l as [|x l IH]; intro a.
    - cbn. rewrite !smul_1, !madd_0_r. repeat split; auto. unfold feval; cbn. ring.
    - cbn zeta. cbn [fold_left length map rev fpow].
      match goal with |- context [fold_left ?f l ?b] => destruct (IH b) as [I1 [I2 I3]] end.
      rewrite I1, I2, I3. cbn [w_x w_g sch_add sch_mul pt_of sc_of].
      rewrite !peval_app, !peval_one, feval_app, feval_snoc1, !rev_length, !map_length.
      rewrite !(smul_0_r F M), !(madd_0_l), !smul_add_r, <- !smul_mul, <- !madd_assoc.
      replace (c * fpow c (length l)) with (fpow c (length l) * c) by ring.
      split; [|split].
      + f_equal. apply madd_comm.
      + f_equal. apply madd_comm.
      + ring.
  Qed.

  Lemma aggregate_value (c : F) (ms : list (multiopen F M)) m :
    aggregate c ms = Some m ->
    pt_of (w_x m) = peval (rev (map (fun x => pt_of (w_x x)) ms)) c /\
    pt_of (w_g m) = peval (rev (map (fun x => pt_of (w_g x)) ms)) c /\
    sc_of (w_g m) = feval F (rev (map (fun x => sc_of (w_g x)) ms)) c.
  Proof.
    destruct ms as [|a l]; [discriminate|]. unfold aggregate. cbn [reduce]. intro H. inversion H; subst; clear H.
    destruct (aggregate_fold c l a) as [I1 [I2 I3]]. rewrite I1, I2, I3. cbn [map rev].
    rewrite !peval_app, !peval_one, feval_app, feval_snoc1, !rev_length, !map_length.
    split; [apply madd_comm|]. split; [apply madd_comm|]. ring.
  Qed.

  Lemma aggregate_ok (c : F) (named : list (string * M)) (ms : list (multiopen F M)) m :
    Forall (batch_ok named) ms -> aggregate c ms = Some m ->
    batch_ok named m /\
    ((2 <= length ms)%nat \/ Forall (fun x => scales_commitment (w_x x) = true) ms -> scales_commitment (w_x m) = true).
  Proof.
    destruct ms as [|a l]; [discriminate|]. unfold aggregate. cbn [reduce]. intros Hb H. inversion H; subst; clear H.
    rewrite Forall_cons_iff in Hb. destruct Hb as [Ha Hl].
    assert (G : forall l a, Forall (batch_ok named) l -> batch_ok named a ->
      let m := fold_left (fun acc proof : multiopen F M =>
              mkMO (sch_add (sch_mul (w_x acc) (SScalar c)) (w_x proof))
                   (sch_add (sch_mul (w_g acc) (SScalar c)) (w_g proof))) l a in
      batch_ok named m /\ (l <> [] -> scales_commitment (w_x m) = true)).
    { clear. induction l as [|x l IH]; intros a Hl Ha; [split; [exact Ha|congruence]|].
      rewrite Forall_cons_iff in Hl. destruct Hl as [Hx Hl]. cbn zeta. cbn [fold_left].
      match goal with |- context [fold_left ?f l ?b] => set (b0 := b) end.
      assert (Hb0 : batch_ok named b0).
      { destruct Ha as [A1 [A2 [A3 [A4 [A5 [A6 A7]]]]]]. destruct Hx as [X1 [X2 [X3 [X4 [X5 [X6 X7]]]]]].
        unfold batch_ok, b0. cbn [w_x w_g].
        refine (conj _ (conj _ (conj _ (conj _ (conj _ (conj _ _)))))).
        - apply lin_pt_add; [apply lin_pt_mul_r, A1|apply X1].
        - cbn. destruct A1 as [_ [_ ->]]. now rewrite A2, X2.
        - apply lin_pt_add; [apply lin_pt_mul_r, A3|apply X3].
        - cbn. now rewrite X4, orb_true_r.
        - cbn. now rewrite X5, orb_true_r.
        - cbn [commit_pairs sch_add sch_mul]. rewrite app_nil_r. apply incl_app; assumption.
        - cbn [commit_pairs sch_add sch_mul]. rewrite app_nil_r. apply incl_app; assumption. }
      assert (Hs : scales_commitment (w_x b0) = true).
      { unfold b0. cbn. destruct Ha as [[_ [_ ->]] _]. reflexivity. }
      destruct (IH b0 Hl Hb0) as [I1 I2]. split; [exact I1|]. intros _.
      destruct l as [|y l]; [exact Hs|]. apply I2. discriminate. }
    destruct (G l a Hl Ha) as [G1 G2]. split; [exact G1|]. intros [H2|H2].
    - apply G2. intro Z. subst l. cbn in H2. lia.
    - destruct l as [|y l].
      + cbn. rewrite Forall_cons_iff in H2. tauto.
      + apply G2. discriminate.
  Qed.

  (** Evaluation of a batch is exact when equal keys stand for equal points. *)
  Lemma evaluate_multiopen_value (G : M) named (m : multiopen F M) :
    batch_ok named m -> consistent named -> scales_commitment (w_x m) = true ->
    evaluate_multiopen_proof G m = Some (pt_of (w_x m), msub (pt_of (w_g m)) (smul (sc_of (w_g m)) G)).
  Proof.
    intros [[A1 [A2 A3]] [A4 [[B1 [B2 B3]] [B4 [B5 [A6 B6]]]]]] HC HS.
    destruct (consistent_table named HC) as [K HK].
    assert (WX : well_built K (w_x m)) by (apply wf_well_built; [exact A1|intros k c Hin; apply HK, A6, Hin]).
    assert (WG : well_built K (w_g m)) by (apply wf_well_built; [exact B1|intros k c Hin; apply HK, B6, Hin]).
    destruct (eval_spec F M K (w_x m) WX A2) as [EX _].
    destruct (eval_spec F M K (w_g m) WG B2) as [EG _].
    destruct EX as [n1 [EX _]]; [split; [exact A3|now left]|].
    destruct EG as [n2 [EG _]]; [split; [exact B3|now left]|].
    unfold evaluate_multiopen_proof. rewrite EX, EG, A4, B4. reflexivity.
  Qed.

  (** *** The queries of a verification instance are good *)
  Lemma Forall_mapM {A B} (P : B -> Prop) (f : A -> option B) l r :
    (forall a b, f a = Some b -> P b) -> mapM f l = Some r -> Forall P r.
  Proof.
    intro H. revert r; induction l as [|a l IH]; cbn; intros r Hr; [inversion Hr; constructor|].
    destruct (f a) as [b|] eqn:E; [|discriminate]. destruct (mapM f l) as [r'|]; [|discriminate].
    inversion Hr; subst. constructor; eauto.
  Qed.

  Lemma app_suffix_ne (k : string) a s : (k ++ String a s)%string <> ""%string.
  Proof. apply str_app_ne. discriminate. Qed.

  Lemma good_query_new rot key pt (c : M) (e : F) : key <> ""%string -> good_query (query_new rot key pt c e).
  Proof. intro H. destruct (query_new_lin rot key pt c e H) as [A [B _]]. split; assumption. Qed.

  Lemma column_queries_good (p : params F M) suffix qs cs evs r :
    suffix <> ""%string -> column_queries p suffix qs cs evs = Some r -> Forall good_query r.
  Proof.
    intro Hs. apply Forall_mapM. intros [i [column at_]] q H.
    destruct (rotate_omega _ _ _); [|discriminate]. destruct (nth_error cs column); [|discriminate].
    destruct (nth_error evs i); [|discriminate]. inversion H; subst. apply good_query_new.
    apply str_app_ne. destruct suffix; [congruence|discriminate].
  Qed.

  Lemma proof_queries_good (p : params F M) i r : proof_queries p i = Some r -> Forall good_query r.
  Proof.
    unfold proof_queries. intro H.
    destruct (nth_error (p_instance_commitments p) i); [|discriminate].
    destruct (nth_error (p_instance_evals p) i); [|discriminate].
    destruct (nth_error (p_advice_commitments p) i); [|discriminate].
    destruct (nth_error (p_advice_evals p) i); [|discriminate].
    destruct (nth_error (p_permutation p) i) as [pe|]; [|discriminate].
    destruct (nth_error (p_lookup p) i) as [lk|]; [|discriminate].
    destruct (column_queries _ _ (p_instance_queries p) _ _) as [q1|] eqn:E1; [|discriminate].
    destruct (column_queries _ _ (p_advice_queries p) _ _) as [q2|] eqn:E2; [|discriminate].
    destruct (perm_queries pe _ _) as [q3|] eqn:E3; [|discriminate]. inversion H; subst; clear H.
    apply column_queries_good in E1; [|discriminate]. apply column_queries_good in E2; [|discriminate].
    rewrite !Forall_app. split; [exact E1|]. split; [exact E2|]. split.
    - unfold perm_queries in E3. destruct (mapM _ _) as [ls|] eqn:El; [|discriminate]. inversion E3; subst.
      apply Forall_app. split.
      + apply Forall_flat_map, Forall_forall. intros [j s] _. repeat (apply Forall_cons; [apply good_query_new, str_app_ne; discriminate|]); apply Forall_nil.
      + revert El. apply Forall_mapM. intros [j s] q Hq. destruct (ps_last_eval s); [|discriminate].
        inversion Hq; subst. apply good_query_new, str_app_ne. discriminate.
    - apply Forall_flat_map, Forall_forall. intros le _. unfold lookup_queries.
      repeat (apply Forall_cons; [apply good_query_new, str_app_ne; discriminate|]); apply Forall_nil.
  Qed.

  Lemma h_schema_lin (xn : F) : forall (l : list (schema)) acc,
    lin_pt acc -> Forall lin_pt l ->
    lin_pt (fold_left (fun acc commitment => sch_add (sch_mul (SScalar xn) acc) commitment) l acc).
  Proof.
    induction l as [|a l IH]; intros acc Ha Hl; [exact Ha|]. cbn [fold_left].
    rewrite Forall_cons_iff in Hl. apply IH; [|tauto]. apply lin_pt_add; [apply lin_pt_mul_l, Ha|tauto].
  Qed.

  Lemma queries_good (p : params F M) qs : queries p = Some qs -> Forall good_query qs.
  Proof.
    intro H. unfold queries in H.
    destruct (get_lagrange_commits _ _ _ _ _ _) as [ls|]; [|discriminate].
    destruct (nth_error ls 0) as [l_0|]; [|discriminate].
    destruct (nth_error ls (p_l p)) as [l_last|]; [|discriminate].
    destruct (Nat.eqb (p_l p) 0); [discriminate|].
    destruct (mapM (proof_expressions _ _ _ _) _) as [ex|]; [|discriminate].
    destruct (mapM (proof_queries p) _) as [pq|] eqn:E1; [|discriminate].
    destruct (column_queries _ _ _ _ _) as [fq|] eqn:E2; [|discriminate].
    destruct (vanish_queries _ _ _ _ _ _ _ _ _) as [vq|] eqn:E3; [|discriminate].
    inversion H; subst; clear H. rewrite !Forall_app. split; [|split; [|split]].
    - apply Forall_concat. revert E1. apply Forall_mapM. intros i r. apply proof_queries_good.
    - revert E2. apply column_queries_good. discriminate.
    - unfold perm_common_queries. apply Forall_map, Forall_forall. intros [i [c e]] _.
      apply good_query_new, str_app_ne. discriminate.
    - unfold vanish_queries in E3. cbn [ast_eval] in E3. destruct (chip_div _ _) as [he|]; [|discriminate].
      destruct (reduce _ _) as [h|] eqn:Er; [|discriminate]. inversion E3; subst; clear E3.
      constructor; [|constructor; [|constructor]].
      + unfold good_query. cbn [q_s]. split.
        * apply lin_pt_add_scalar. destruct (map _ _) as [|a l] eqn:Em; [discriminate|].
          cbn [reduce] in Er. inversion Er; subst; clear Er.
          assert (HL : Forall lin_pt (a :: l)).
          { rewrite <- Em. apply Forall_map, Forall_forall. intros ic _. repeat split; cbn; try discriminate.
            apply str_app_ne. discriminate. }
          rewrite Forall_cons_iff in HL. apply h_schema_lin; tauto.
        * cbn. apply orb_true_r.
      + apply good_query_new, str_app_ne. discriminate.
  Qed.

  (** *** Opening check *)
  (** The check the final pairing performs: e(left, [s]_2) = e(right, [1]_2). *)
  Definition opening_holds (s : F) (G : M) (v : F) (qs : list (query F M)) (r : Z) (W : M) : Prop :=
    smul s W = msub (madd (smul (rotation_point qs r) W)
                          (msum_pow (map (fun q => fst (claim q)) (at_rotation qs r)) v))
                    (smul (feval F (map (fun q => snd (claim q)) (at_rotation qs r)) v) G).

  Definition residual (s : F) (G : M) (v : F) (qs : list (query F M)) (rw : Z * M) : M :=
    let '(r, W) := rw in
    msub (smul s W) (msub (madd (smul (rotation_point qs r) W)
                          (msum_pow (map (fun q => fst (claim q)) (at_rotation qs r)) v))
                    (smul (feval F (map (fun q => snd (claim q)) (at_rotation qs r)) v) G)).

  Lemma msub_alt (a b : M) : msub a b = madd a (mopp b).
  Proof. reflexivity. Qed.

  Lemma smul_msub (k : F) (a b : M) : smul k (msub a b) = msub (smul k a) (smul k b).
  Proof. rewrite !msub_alt, smul_add_r. now rewrite (smul_opp_r F M). Qed.

  Lemma msub4 (a b c d : M) : madd (msub a b) (msub c d) = msub (madd a c) (madd b d).
  Proof. rewrite !msub_alt, (mopp_add F M). apply madd4. Qed.

  Lemma residual_step (s u E S : F) (W L P R G : M) :
    msub (smul s (madd W (smul u L))) (msub (madd P (smul u R)) (smul (E + u * S) G)) =
    madd (msub (smul s W) (msub P (smul E G))) (smul u (msub (smul s L) (msub R (smul S G)))).
  Proof.
    rewrite !smul_msub, !msub4, smul_add_r, smul_add_l. rewrite <- !smul_mul.
    replace (s * u) with (u * s) by ring. reflexivity.
  Qed.

  Lemma gwc_residual (s : F) (G : M) (u v : F) (w : list M) (qs : list (query F M)) :
    length w = length (rotations qs) ->
    msub (smul s (gwc_left u w)) (msub (gwc_right_pt u v w qs) (smul (gwc_right_sc u v qs) G)) =
    peval (map (residual s G v qs) (combine (rotations qs) w)) u.
  Proof.
    unfold gwc_left, gwc_right_pt, gwc_right_sc, msum_pow. generalize (rotations qs) as rs. intro rs. revert w.
    induction rs as [|r rs IH]; intros [|W w] HL; try discriminate.
    - cbn. unfold feval. cbn. rewrite (smul_0_l F M), !msub_alt, (smul_0_r F M), !madd_0_l.
      rewrite (mopp_mopp F M). reflexivity.
    - cbn [combine map peval]. rewrite feval_cons. rewrite <- IH by (now inversion HL).
      cbn [residual]. unfold msum_pow.
      apply residual_step.
  Qed.

  Lemma opening_residual s G v qs r W : opening_holds s G v qs r W <-> residual s G v qs (r, W) = m0.
  Proof. unfold opening_holds, residual. symmetry. apply (msub_eq0 F M). Qed.

  (** completeness *)
  Lemma gwc_complete s G u v w (qs : list (query F M)) :
    length w = length (rotations qs) ->
    Forall (fun rw => opening_holds s G v qs (fst rw) (snd rw)) (combine (rotations qs) w) ->
    smul s (gwc_left u w) = msub (gwc_right_pt u v w qs) (smul (gwc_right_sc u v qs) G).
  Proof.
    intros HL H. apply (msub_eq0 F M). rewrite gwc_residual by exact HL. apply (pzero_eval F M).
    unfold pzero. rewrite Forall_map. eapply Forall_impl; [|exact H]. intros [r W] Hr. now apply opening_residual.
  Qed.

  (** soundness in u *)
  Lemma gwc_sound s G v w (qs : list (query F M)) (us : list F) :
    length w = length (rotations qs) -> NoDup us -> (length (rotations qs) <= length us)%nat ->
    (forall u, In u us -> smul s (gwc_left u w) = msub (gwc_right_pt u v w qs) (smul (gwc_right_sc u v qs) G)) ->
    Forall (fun rw => opening_holds s G v qs (fst rw) (snd rw)) (combine (rotations qs) w).
  Proof.
    intros HL ND HU H.
    assert (Z : pzero F M (map (residual s G v qs) (combine (rotations qs) w))).
    { apply (roots_zero F M us); [exact ND| |].
      - rewrite map_length, combine_length, HL, Nat.min_id. exact HU.
      - intros u Hu. rewrite <- gwc_residual by exact HL. apply (msub_eq0 F M), H, Hu. }
    unfold pzero in Z. rewrite Forall_map in Z. eapply Forall_impl; [|exact Z].
    intros [r W] Hr. now apply opening_residual.
  Qed.

  (** Honest KZG openings satisfy the per-point equation. *)
  Lemma honest_opening s G v (qs : list (query F M)) r (polys : list (list F)) :
    Forall2 (fun q p => fst (claim q) = smul (feval F p s) G /\
                        snd (claim q) = feval F p (rotation_point qs r)) (at_rotation qs r) polys ->
    forall wit,
    wit * (s - rotation_point qs r) =
      feval F (map (fun p => feval F p s) polys) v - feval F (map (fun p => feval F p (rotation_point qs r)) polys) v ->
    opening_holds s G v qs r (smul wit G).
  Proof.
    intros H wit Hw. unfold opening_holds, msum_pow.
    assert (E1 : peval (map (fun q => fst (claim q)) (at_rotation qs r)) v =
                 smul (feval F (map (fun p => feval F p s) polys) v) G).
    { clear Hw. induction H as [|q p l ps [H1 H2] H IH]; cbn [map peval]; [now rewrite (smul_0_l F M)|].
      rewrite IH, H1, feval_cons, smul_add_l, smul_mul. reflexivity. }
    assert (E2 : feval F (map (fun q => snd (claim q)) (at_rotation qs r)) v =
                 feval F (map (fun p => feval F p (rotation_point qs r)) polys) v).
    { clear Hw E1. induction H as [|q p l ps [H1 H2] H IH]; cbn [map]; [reflexivity|].
      rewrite !feval_cons, IH, H2. reflexivity. }
    rewrite E1, E2. set (A := feval F (map (fun p => feval F p s) polys) v) in *.
    set (B := feval F _ v) in *. rewrite !msub_alt, <- !smul_mul, <- (smul_opp_l F M), <- !smul_add_l.
    f_equal. transitivity (wit * (s - rotation_point qs r) + rotation_point qs r * wit); [ring|].
    rewrite Hw. ring.
  Qed.

  (** *** Aggregation equation *)
  Lemma agg_check (s c : F) (lr : list (M * M)) :
    msub (smul s (peval (rev (map fst lr)) c)) (peval (rev (map snd lr)) c) =
    peval (rev (map (fun x => msub (smul s (fst x)) (snd x)) lr)) c.
  Proof.
    rewrite <- !map_rev. induction (rev lr) as [|x l IH]; cbn [map peval].
    - rewrite (smul_0_r F M). apply (msub_diag F M).
    - rewrite <- IH, smul_add_r, smul_msub, <- msub4. f_equal. f_equal.
      rewrite <- !smul_mul. f_equal. ring.
  Qed.

  (** *** Instance commitments *)
  Lemma instance_commitment_spec (gl : list M) (inst : list F) :
    (length inst <= length gl)%nat ->
    instance_commitment gl inst =
    Some (fold_right madd m0 (map (fun sg => smul (fst sg) (snd sg)) (combine inst gl))).
  Proof.
    intro HL. unfold instance_commitment, enumerate.
    assert (G : forall inst k acc, (k + length inst <= length gl)%nat ->
      foldM (fun (acc : option M) (ii : nat * F) =>
               do g <- nth_error gl (fst ii);
               Some (match acc with None => Some (smul (snd ii) g) | Some a => Some (madd a (smul (snd ii) g)) end))
            (combine (seq k (length inst)) inst) acc =
      Some (match inst with
            | [] => acc
            | _ => Some (madd (match acc with None => m0 | Some a => a end)
                       (fold_right madd m0 (map (fun sg => smul (fst sg) (snd sg)) (combine inst (skipn k gl)))))
            end)).
    { clear inst HL. induction inst as [|a inst IH]; intros k acc HL; [reflexivity|].
      cbn [length seq combine foldM fst snd]. cbn [length] in HL.
      destruct (nth_error gl k) as [g|] eqn:E; [|apply nth_error_None in E; lia].
      rewrite IH by lia.
      assert (Es : skipn k gl = g :: skipn (S k) gl).
      { clear -E. revert gl E. induction k as [|k IH]; intros [|b gl] E; cbn in *; try discriminate.
        - now inversion E.
        - rewrite (IH gl E). reflexivity. }
      rewrite Es. cbn [combine map fold_right fst snd].
      destruct inst as [|b inst'].
      - cbn. destruct acc; [now rewrite madd_0_r|now rewrite madd_0_l, madd_0_r].
      - destruct acc; [now rewrite madd_assoc|now rewrite madd_0_l]. }
    rewrite G by (cbn; lia). cbn [skipn]. destruct inst; [reflexivity|]. now rewrite madd_0_l.
  Qed.

  Lemma instance_commitment_panics (gl : list M) (inst : list F) :
    (length gl < length inst)%nat -> instance_commitment gl inst = None.
  Proof.
    intro HL. unfold instance_commitment, enumerate.
    assert (G : forall inst k acc, (k <= length gl)%nat -> (length gl < k + length inst)%nat ->
      foldM (fun (acc : option M) (ii : nat * F) =>
               do g <- nth_error gl (fst ii);
               Some (match acc with None => Some (smul (snd ii) g) | Some a => Some (madd a (smul (snd ii) g)) end))
            (combine (seq k (length inst)) inst) acc = None).
    { clear inst HL. induction inst as [|a inst IH]; intros k acc HK HL; [cbn in HL; lia|].
      cbn [length seq combine foldM fst snd]. cbn [length] in HL.
      destruct (nth_error gl k) as [g|] eqn:E; [|reflexivity].
      assert (k < length gl)%nat by (apply nth_error_Some; congruence).
      apply IH; lia. }
    rewrite G by (cbn; lia). reflexivity.
  Qed.
End Proofs.
Arguments wf_schema {F M} _. Arguments commit_pairs {F M} _. Arguments consistent {F M} _.
Arguments named_commitments {F M} _ _ _. Arguments opening_holds {F M} _ _ _ _ _ _.
