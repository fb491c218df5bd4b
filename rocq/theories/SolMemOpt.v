(** [memory_optimize]: the optimized program returns the same points, uses the temporary
    as intended and fits into the memory it asks for. *)
From Coq Require Import ZArith NArith List Bool Lia.
From Verif Require Import Util Algebra PField Curve Evm EvmProofs SolIr SolScan SolPool SolSem SolIntervals SolMulAdd SolScanProofs SolAgg SolAggDriver SolAggProofs ListFacts Bn254Prime.
Import ListNotations.

(** * Types *)
Lemma combine_pair_wt c s s' : wt_stmt c -> wt_stmt s -> combine_pair c s = Some s' -> wt_stmt s'.
Proof.
  intros Hc Hs H. destruct c as [l r| | |]; try discriminate. destruct r as [| | | | | | | |x y t| | | | | | |]; try discriminate. cbn [combine_pair] in H.
  destruct s as [l2 r2| | |]; try discriminate. destruct r2 as [| | | | | |u v t2| | | | | | | | |]; try discriminate.
  destruct Hc as (Hc1 & Hc2 & Hx & Hy). destruct Hs as (Hs1 & Hs2 & Hu & Hv). cbn [get_type] in *.
  destruct (expr_eqb u l && ty_eqb t t2) eqn:E1.
  - apply andb_true_iff in E1. destruct E1 as [_ E1]. apply ty_eqb_true in E1. rewrite <- E1 in *. injection H as <-. split; [exact Hs1|]. split; [exact Hs2|].
    destruct t; cbn [wt]; auto.
  - destruct (expr_eqb v l && ty_eqb t t2) eqn:E2; [|discriminate]. apply andb_true_iff in E2. destruct E2 as [_ E2]. apply ty_eqb_true in E2. rewrite <- E2 in *.
    injection H as <-. split; [exact Hs1|]. split; [exact Hs2|]. destruct t; cbn [wt]; auto.
Qed.
Lemma combine_loop_wt ivs tb p : forall i cand q, Forall wt_stmt p -> Forall wt_stmt (ol cand) -> combine_loop i ivs tb cand p = Some q -> Forall wt_stmt q.
Proof.
  induction p as [|s p IH]; intros i cand q Hp Hc H; cbn [combine_loop] in H.
  - injection H as <-. exact Hc.
  - apply Forall_cons_iff in Hp. destruct Hp as [Hs Hp]. destruct (able_to_be_optimized i ivs tb s) as [able|]; [|discriminate]. destruct cand as [c|].
    + assert (Hc' := Forall_inv Hc). destruct (combine_pair c s) as [s'|] eqn:E1.
      * destruct (combine_loop (S i) ivs tb None p) as [q'|] eqn:E2; [|discriminate]. injection H as <-. constructor; [exact (combine_pair_wt c s s' Hc' Hs E1)|]. eapply IH; [exact Hp| |exact E2]. constructor.
      * destruct able.
        -- destruct (combine_loop (S i) ivs tb (Some s) p) as [q'|] eqn:E2; [|discriminate]. injection H as <-. constructor; [exact Hc'|]. eapply IH; [exact Hp| |exact E2]. constructor; [exact Hs|constructor].
        -- destruct (combine_loop (S i) ivs tb None p) as [q'|] eqn:E2; [|discriminate]. injection H as <-. constructor; [exact Hc'|]. constructor; [exact Hs|]. eapply IH; [exact Hp| |exact E2]. constructor.
    + destruct able.
      * eapply IH; [exact Hp| |exact H]. constructor; [exact Hs|constructor].
      * destruct (combine_loop (S i) ivs tb None p) as [q'|] eqn:E2; [|discriminate]. injection H as <-. constructor; [exact Hs|]. eapply IH; [exact Hp| |exact E2]. constructor.
Qed.

Lemma rho_type D e : get_type (rho D e) = get_type e.
Proof. destruct e as [o t| | | | | | | | | | | | | | |]; try reflexivity. cbn [rho]. destruct (find (hit o) D); [|reflexivity]. unfold loc. now destruct (_ =? _)%N. Qed.
Lemma rho_simple D e : simple e -> simple (emap (rho D) e) /\ get_type (emap (rho D) e) = get_type e.
Proof.
  intro H. destruct e as [o t| | | | | | | | | | | | | | |]; try contradiction; try (split; [exact I|reflexivity]). cbn [emap].
  split; [|apply rho_type]. cbn [rho]. destruct (find (hit o) D); [|exact I]. unfold loc. now destruct (_ =? _)%N.
Qed.
Lemma rho_operand D e t : operand e t -> operand (emap (rho D) e) t.
Proof. intros [H1 H2]. destruct (rho_simple D e H1) as [H3 H4]. split; [exact H3|congruence]. Qed.
Lemma smap_wt D s : (forall l r, s = Assign l r -> exists o t, l = EMemory o t) -> wt_stmt s -> wt_stmt (smap (rho D) s).
Proof.
  intros Hm H. destruct s as [l r|e k| |]; cbn [smap wt_stmt] in *.
  - destruct H as (_ & H2 & H3). destruct (Hm l r eq_refl) as (o & t & ->).
    assert (L : is_memory (emap (rho D) (EMemory o t)) || is_temp (emap (rho D) (EMemory o t)) = true /\ get_type (emap (rho D) (EMemory o t)) = t).
    { cbn [emap]. rewrite rho_type. split; [|reflexivity]. cbn [rho]. destruct (find (hit o) D); [|reflexivity]. unfold loc. now destruct (_ =? _)%N. }
    destruct L as [L1 L2]. split; [exact L1|]. rewrite L2. cbn [get_type] in H2.
    assert (S : forall e, simple e -> wt e) by (intros e He; destruct e; try contradiction; exact I).
    destruct r as [o' t'|o' t'|o' t'|o' t'| | |x y t'|x y t'|x y t'|x y t'|x y z t'|x op t'| |x n t'| |t']; cbn [wt get_type] in *; try contradiction.
    + split; [cbn [emap]; rewrite rho_type; exact H2|]. apply S. apply (rho_simple D (EMemory o' t')). exact I.
    + split; [exact H2|exact I].
    + split; [exact H2|exact I].
    + split; [exact H2|exact I].
    + split; [exact H2|exact I].
    + split; [exact H2|]. split; apply rho_operand; apply H3.
    + split; [exact H2|]. split; apply rho_operand; apply H3.
    + split; [exact H2|]. split; apply rho_operand; apply H3.
    + split; [exact H2|]. split; apply rho_operand; apply H3.
    + split; [exact H2|]. destruct t'; destruct H3 as (A & B & C); cbn [emap wt]; auto using rho_operand.
    + split; [exact H2|exact H3].
    + split; [exact H2|exact I].
    + split; [exact H2|]. apply rho_operand. exact H3.
    + split; [exact H2|exact I].
    + split; [exact H2|exact I].
  - apply rho_simple, H.
  - exact I.
  - exact I.
Qed.

(** * The temporary *)
Lemma reads_temp_leaves f e : Forall (fun l => match l with ETemp _ | EMulAddPM _ _ _ | EMulAddMT _ _ => False | _ => True end) (leaves e) ->
  reads_temp (emap f e) = true -> exists l, In l (leaves e) /\ reads_temp (f l) = true.
Proof.
  induction e; intros H R; try (exists (EMemory 0 TScalar); fail); cbn [emap leaves reads_temp] in *;
  try (eexists; split; [left; reflexivity|exact R]).
  - apply Forall_app in H. destruct H as [H1 H2]. apply orb_true_iff in R. destruct R as [R|R].
    + destruct (IHe1 H1 R) as (x & X & Y). exists x. split; [apply in_or_app; now left|exact Y].
    + destruct (IHe2 H2 R) as (x & X & Y). exists x. split; [apply in_or_app; now right|exact Y].
  - apply Forall_app in H. destruct H as [H1 H2]. apply orb_true_iff in R. destruct R as [R|R].
    + destruct (IHe1 H1 R) as (x & X & Y). exists x. split; [apply in_or_app; now left|exact Y].
    + destruct (IHe2 H2 R) as (x & X & Y). exists x. split; [apply in_or_app; now right|exact Y].
  - apply Forall_app in H. destruct H as [H1 H2]. apply orb_true_iff in R. destruct R as [R|R].
    + destruct (IHe1 H1 R) as (x & X & Y). exists x. split; [apply in_or_app; now left|exact Y].
    + destruct (IHe2 H2 R) as (x & X & Y). exists x. split; [apply in_or_app; now right|exact Y].
  - apply Forall_app in H. destruct H as [H1 H2]. apply orb_true_iff in R. destruct R as [R|R].
    + destruct (IHe1 H1 R) as (x & X & Y). exists x. split; [apply in_or_app; now left|exact Y].
    + destruct (IHe2 H2 R) as (x & X & Y). exists x. split; [apply in_or_app; now right|exact Y].
  - apply Forall_app in H. destruct H as [H1 H2]. apply Forall_app in H2. destruct H2 as [H2 H3]. apply orb_true_iff in R. destruct R as [R|R]; [apply orb_true_iff in R; destruct R as [R|R]|].
    + destruct (IHe1 H1 R) as (x & X & Y). exists x. split; [apply in_or_app; now left|exact Y].
    + destruct (IHe2 H2 R) as (x & X & Y). exists x. split; [apply in_or_app; right; apply in_or_app; now left|exact Y].
    + destruct (IHe3 H3 R) as (x & X & Y). exists x. split; [apply in_or_app; right; apply in_or_app; now right|exact Y].
  - apply (IHe H R).
Qed.
Lemma leaf_ok_plain K e : reads_ok K e -> Forall (fun l => match l with ETemp _ | EMulAddPM _ _ _ | EMulAddMT _ _ => False | _ => True end) (leaves e).
Proof. apply Forall_impl. intros []; auto. Qed.

Section Temp.
  Variables (p : list stmt) (es : list expr) (ivs : list interval) (tb : table) (D : list place).
  Hypothesis Hp : ssa 0 [] p.
  Hypothesis Hes : Forall (reads_ok (targets p)) es.
  Hypothesis Hivs : intervals p es ivs tb.
  Hypothesis HD : map fst D = ivs.
  Hypothesis Htemp : Forall temp_iff D.
  Hypothesis Hapart : ForallOrdPairs apart D.

  Lemma rho_temp d t : In d D -> reads_temp (rho D (EMemory (iv_expr (fst d)) t)) = true -> iv_end (fst d) = S (iv_start (fst d)).
  Proof.
    intros Hin. rewrite (rho_at D Hapart d t Hin). unfold loc. rewrite Forall_forall in Htemp. assert (T := Htemp d Hin). unfold temp_iff, in_mem in T.
    destruct (N.eqb_spec (snd d) DEADBEAF); [intros _; now apply T|discriminate].
  Qed.
  (** the cell read through the temporary is written by the statement before *)
  Lemma scan_disc suf : forall pre, p = pre ++ suf -> disc (wout false (map (smap (rho D)) pre)) (map (smap (rho D)) suf).
  Proof.
    induction suf as [|c suf IH]; intros pre Hpp; [exact I|]. cbn [map disc]. split.
    - intro R. destruct (ssa_at pre (c :: suf) 0%N []) as [n' Hs]; [rewrite <- Hpp; exact Hp|]. rewrite app_nil_r in Hs.
      assert (Nc : nth_error p (length pre) = Some c) by (rewrite Hpp, nth_error_app2, Nat.sub_diag by lia; reflexivity).
      assert (X : exists e, rhs c = e /\ reads_ok (rev (targets pre)) e /\ reads_temp (emap (rho D) e) = true).
      { destruct c as [[o t| | | | | | | | | | | | | | |] r|e k| |]; cbn [ssa] in Hs; try contradiction; cbn [smap s_reads] in R.
        - exists r. destruct Hs as (_ & (_ & Hs) & _). auto.
        - exists e. destruct Hs as (Hs & _). auto. }
      destruct X as (e & He & Re & Rt). destruct (reads_temp_leaves _ e (leaf_ok_plain _ _ Re) Rt) as (l & Hl & Rl).
      unfold reads_ok in Re. rewrite Forall_forall in Re. specialize (Re l Hl). destruct l as [o t| | | | | | | | | | | | | | |]; try discriminate; try contradiction.
      cbn in Re. apply in_rev in Re. destruct (known_defs pre 0 o t Re) as [k Hk]. assert (Rk := defs_index _ _ _ _ _ Hk).
      assert (Hk' : In (o, t, k) (defs 0 p)) by (rewrite Hpp, defs_app; apply in_or_app; now left).
      destruct (by_key p es ivs tb D Hivs HD o t k Hk') as (d & Hd & <- & <- & <-).
      assert (Ee := rho_temp d _ Hd Rl).
      assert (Hv : In (fst d) ivs) by (rewrite <- HD; now apply in_map). apply In_nth_error in Hv. destruct Hv as [kk Hkk].
      assert (Rd : (length pre <= iv_end (fst d))%nat) by (eapply (it_reads _ _ _ _ Hivs); eauto; unfold reads; now rewrite He).
      assert (Es : S (iv_start (fst d)) = length pre) by lia.
      (* the statement before *)
      destruct (exists_last (l := pre)) as (pre0 & c0 & Ep); [intro; subst pre; cbn in *; lia|]. rewrite Ep, map_app, wout_app. cbn [map wout fold_left].
      assert (L0 : length pre0 = iv_start (fst d)) by (rewrite Ep, app_length in Es; cbn [length] in Es; lia).
      rewrite Ep, defs_app in Hk. apply in_app_or in Hk. destruct Hk as [Hk|Hk]; [apply defs_index in Hk; lia|].
      cbn [Nat.add] in Hk. destruct c0 as [[o t| | | | | | | | | | | | | | |] r|e0 k0| |]; cbn [defs] in Hk; try contradiction. destruct Hk as [Hk|[]].
      injection Hk as -> -> _. cbn [smap s_writes emap]. rewrite (rho_at D Hapart d _ Hd) in *. unfold loc in *. destruct (snd d =? DEADBEAF)%N; [reflexivity|discriminate].
    - assert (F : p = (pre ++ [c]) ++ suf) by (rewrite <- app_assoc; exact Hpp). specialize (IH _ F). rewrite map_app, wout_app in IH. exact IH.
  Qed.
  Lemma scan_result e : In e es -> reads_temp (emap (rho D) e) = false.
  Proof.
    intro He. destruct (reads_temp (emap (rho D) e)) eqn:R; [|reflexivity]. exfalso. rewrite Forall_forall in Hes. assert (Re := Hes e He).
    destruct (reads_temp_leaves _ e (leaf_ok_plain _ _ Re) R) as (l & Hl & Rl). unfold reads_ok in Re. rewrite Forall_forall in Re. specialize (Re l Hl).
    destruct l as [o t| | | | | | | | | | | | | | |]; try discriminate; try contradiction. cbn in Re.
    destruct (known_defs p 0 o t Re) as [k Hk]. assert (Rk := defs_index _ _ _ _ _ Hk). destruct (by_key p es ivs tb D Hivs HD o t k Hk) as (d & Hd & <- & <- & <-).
    assert (Ee := rho_temp d _ Hd Rl). assert (Hv : In (fst d) ivs) by (rewrite <- HD; now apply in_map). apply In_nth_error in Hv. destruct Hv as [kk Hkk].
    assert (X := it_result _ _ _ _ Hivs kk _ e Hkk He Hl). lia.
  Qed.
End Temp.

(** * The scan *)
Definition resize (E : env) (m : N) : env := mkEnv (e_proof E) (e_instances E) m (e_asize E).

Lemma rho_nil e : emap (rho []) e = e.
Proof. rewrite <- (emap_id e) at 2. apply emap_ext. intros l _. now destruct l. Qed.
Lemma smap_nil p : map (smap (rho [])) p = p.
Proof. rewrite <- (map_id p) at 2. apply map_ext. intros []; cbn [smap]; now rewrite ?rho_nil. Qed.
Lemma state0 : state [] 0 0 [] pool0.
Proof. constructor; try (constructor; fail); try (intros; contradiction); cbn; try lia; [exact inv0|now split; constructor]. Qed.
Lemma targets_keys p : forall i, map (fun x => fst x) (defs i p) = targets p.
Proof. induction p as [|s p IH]; intro i; [reflexivity|]. destruct s as [[]| | |]; cbn [defs targets map fst]; now rewrite ?IH. Qed.

(** what the scan yields: the statements [q], the results [es'], the size of the memory *)
Record scanned (p : list stmt) (es : list expr) (q : list stmt) (es' : list expr) (size : N) : Prop := mkScanned {
  sc_size : (size <= top 0 p + 1)%N;
  sc_types : map get_type es' = map get_type es;
  sc_disc : disc false q;
  sc_temp : Forall (fun e => reads_temp e = false) es';
  sc_wt : Forall wt_stmt p -> Forall wt_stmt q;
  sc_run : forall (W : PF) (b : W) checked sha256 E, (top 0 p <= e_msize E)%N ->
    orel (fun s s' => map (eval b checked E s) es = map (eval b checked (resize E size) s') es')
      (run b checked sha256 E p st0) (run b checked sha256 (resize E size) q st0)
}.
Theorem scan_ok p es : ssa 0 [] p -> Forall (reads_ok (targets p)) es -> (top 0 p < DEADBEAF)%N ->
  exists ivs tb q es' size, build_intervals p es = Some (ivs, tb) /\ linear_scan ivs [] p es pool0 = Some (q, es', size) /\ scanned p es q es' size.
Proof.
  intros Hp Hes Hdead. destruct (build_intervals_ok p es 0 [] Hp) as (ivs & tb & Hb & Hivs).
  assert (K : forall i, In i ivs -> In (iv_key i) (defs 0 p)) by (intros i Hi; rewrite <- (it_keys _ _ _ _ Hivs); now apply in_map).
  assert (Bd : forall i, In i ivs -> (iv_expr i + to_length (iv_t i) <= top 0 p)%N).
  { intros i Hi. apply (no_msize 0 [] p Hp). rewrite <- (targets_keys p 0). apply in_map_iff. exists (iv_key i). split; [reflexivity|now apply K]. }
  destruct (linear_scan_ok p es Hp ivs [] 0 0 [] pool0 state0) as (D & n & k & A & po & Eq & Hst & HD & Hn).
  { rewrite (it_keys _ _ _ _ Hivs). eapply defs_chain; eauto. }
  { exact K. }
  { intros i Hi. apply Bd in Hi. lia. }
  rewrite smap_nil, (map_ext _ _ rho_nil), map_id in Eq. cbn [map app] in Eq, HD.
  exists ivs, tb, (map (smap (rho D)) p), (map (emap (rho D)) es), (capability po). split; [exact Hb|]. split; [exact Eq|].
  destruct Hst as [S1 S2 S3 S4 S5 S6 S7 S8 S9 S10]. constructor.
  - enough (n <= top 0 p)%N by lia. destruct Hn as [->|(i & Hi & ->)]; [lia|now apply Bd].
  - rewrite map_map. apply map_ext. intro e. destruct e; try reflexivity. apply rho_type.
  - apply (scan_disc p es ivs tb D Hp Hivs HD S9 S10 p []). reflexivity.
  - apply Forall_forall. intros e He. apply in_map_iff in He. destruct He as (e0 & <- & He). exact (scan_result p es ivs tb D Hes Hivs HD S9 S10 e0 He).
  - intro Wt. apply Forall_forall. intros s Hs. apply in_map_iff in Hs. destruct Hs as (c & <- & Hc). rewrite Forall_forall in Wt. apply smap_wt; [|now apply Wt].
    intros l r ->. clear - Hp Hc. revert Hp. generalize 0%N, (@nil (N * ty)). induction p as [|c p IH]; intros n K Hp; [destruct Hc|].
    destruct Hc as [->|Hc].
    + cbn [ssa] in Hp. destruct l as [o t| | | | | | | | | | | | | | |]; try contradiction. eauto.
    + destruct c as [[o t| | | | | | | | | | | | | | |] r'|e' k'| |]; cbn [ssa] in Hp; try contradiction; [destruct Hp as (_ & _ & Hp)|destruct Hp as (_ & Hp)]; eapply IH; eauto.
  - intros W b checked sha256 E Htop. set (E' := resize E (capability po)).
    assert (Q := sim_run W b checked sha256 E E' eq_refl eq_refl eq_refl p es ivs tb D Hp Hivs HD Htop S8 S9 S10 p [] st0 st0 eq_refl (sim0 W b checked E E' eq_refl p D Htop)).
    destruct (run b checked sha256 E p st0) as [s|], (run b checked sha256 E' (map (smap (rho D)) p) st0) as [s'|]; try exact Q. cbn [orel] in *.
    rewrite map_map. apply map_ext_in. intros e He. symmetry. exact (sim_result W b checked E E' eq_refl eq_refl eq_refl p es ivs tb D Hes Hivs HD Htop S10 s s' e Q He).
Qed.

(** * [memory_optimize] as a whole *)
Record optimized (p : list stmt) (wx wg : expr) (q : list stmt) (wx' wg' : expr) (size : N) : Prop := mkOptimized {
  op_size : (size <= top 0 p + 1)%N;
  op_disc : disc false q;
  op_temp : reads_temp wx' = false /\ reads_temp wg' = false;
  op_wt : Forall wt_stmt p -> Forall wt_stmt q;
  op_run : forall (W : PF) (b : W) checked sha256 E, (top 0 p <= e_msize E)%N ->
    get_wx_wg b checked sha256 (resize E size) q wx' wg' = get_wx_wg b checked sha256 E p wx wg
}.
Theorem memory_optimize_ok p wx wg : ssa 0 [] p -> Forall no_self_add p -> (top 0 p < DEADBEAF)%N ->
  reads_ok (targets p) wx -> reads_ok (targets p) wg ->
  exists q wx' wg' size, memory_optimize p wx wg = Some (q, wx', wg', size) /\ optimized p wx wg q wx' wg' size.
Proof.
  intros Hp Ns Hd Hx Hg. set (es := [wx; wg]). assert (Hes : Forall (reads_ok (targets p)) es) by (repeat constructor; auto).
  destruct (build_intervals_ok p es 0 [] Hp) as (ivs & tb & Hb & _).
  assert (C : forall (W : PF) (b : W) checked sha256 E, (top 0 p <= e_msize E)%N ->
    exists q, combine_mul_add p ivs tb = Some q /\ good W b checked sha256 E es 0 [] p q) by (intros; now apply combine_ok).
  destruct (C Fq f1 false (fun _ => []) (mkEnv [] [] (top 0 p) 0) (N.le_refl _)) as (q & Eq & Q1 & Q2 & Q3 & _).
  rewrite app_nil_r in Q3. destruct (scan_ok q es Q1 Q3) as (ivs' & tb' & q' & es' & size & Eb & El & [S1 S0 S2 S3 S4 S5]); [rewrite Q2; exact Hd|].
  assert (Len : exists wx' wg', es' = [wx'; wg']).
  { destruct es' as [|x [|y [|z l]]]; try discriminate. eauto. }
  destruct Len as (wx' & wg' & ->). exists q', wx', wg', size. split.
  - unfold memory_optimize. fold es. now rewrite Hb, Eq, Eb, El.
  - constructor.
    + now rewrite <- Q2.
    + exact S2.
    + split; [exact (Forall_inv S3)|exact (Forall_inv (Forall_inv_tail S3))].
    + intro Wt. apply S4. exact (combine_loop_wt ivs tb p 0 None q Wt (Forall_nil _) Eq).
    + intros W b checked sha256 E Ht. destruct (C W b checked sha256 E Ht) as (q0 & Eq0 & _ & _ & _ & R). rewrite Eq in Eq0. injection Eq0 as <-.
      assert (A0 : agree W b checked E [] st0 st0) by (constructor; [reflexivity|]; intros; contradiction). specialize (R st0 st0 A0). rewrite app_nil_r in R.
      rewrite <- Q2 in Ht. specialize (S5 W b checked sha256 E Ht). unfold get_wx_wg.
      destruct (run b checked sha256 E p st0) as [s|], (run b checked sha256 E q st0) as [s1|]; try contradiction;
      destruct (run b checked sha256 (resize E size) q' st0) as [s2|]; try contradiction; [|reflexivity].
      cbn [orel map es] in R, S5. injection S5 as Ex Eg. rewrite <- Ex, <- Eg.
      rewrite (agree_eval W b checked E _ s s1 wx R), (agree_eval W b checked E _ s s1 wg R); [reflexivity| |].
      * exact (Forall_inv (Forall_inv_tail Q3)).
      * exact (Forall_inv Q3).
Qed.

(** * Both optimizations *)
(** The merging passes leave what [get_wx_wg] returns as it is. *)
Theorem aggregate_result (W : PF) (b : W) checked sha256 E p q wx wg : Forall fits p -> disc false p -> paired p -> no_abandoned p ->
  reads_temp wx = false -> reads_temp wg = false -> aggregate false p = Some q ->
  get_wx_wg b checked sha256 E q wx wg = get_wx_wg b checked sha256 E p wx wg.
Proof.
  intros F D P A Tx Tg Eq. destruct (aggregate_ok W b checked sha256 E p q false F D P A Eq) as [_ [_ _ R]].
  specialize (R st0 st0 (eqv_refl _ _)). unfold get_wx_wg.
  destruct (run b checked sha256 E p st0) as [s|], (run b checked sha256 E q st0) as [s'|]; try contradiction; [|reflexivity]. cbn [orel] in R.
  rewrite (eval_eqv W b checked E _ s s' wx R), (eval_eqv W b checked E _ s s' wg R); [reflexivity| |]; intro X; congruence.
Qed.
