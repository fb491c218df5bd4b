(** The cache of [assign_memory] (code_generator/ctx.rs:663-676) shares cells without
    changing values: emission with the cache against emission without it. *)
From Coq Require Import ZArith NArith List Bool Lia.
From Verif Require Import Util Algebra PField Curve Evm SolIr SolSem SolIntervals SolMulAdd SolAggDriver ListFacts SolChip SolChipProofs SolEmit.
Import ListNotations.

(** [assign_memory] without the cache: a new cell for every expression *)
Definition assign_fresh (v : expr) : G expr := m <-g allocate (get_type v) ;; _ <-g push (Assign m v) ;; gret m.
(** A request is an expression in which the cell [i] stands for the result of request
    number [i]; [fill] puts the cells of these results in. *)
Definition fill (hs : list expr) (e : expr) : expr :=
  emap (fun l => match l with EMemory i _ => nth (N.to_nat i) hs l | _ => l end) e.
Fixpoint emit_all (assign : expr -> G expr) (rs : list expr) (hs : list expr) : G (list expr) :=
  match rs with
  | [] => gret hs
  | r :: rs => h <-g assign (fill hs r) ;; emit_all assign rs (hs ++ [h])
  end.
(** the results so far, with their types *)
Definition results (pre : list expr) : list (N * ty) := combine (map N.of_nat (seq 0 (length pre))) (map get_type pre).
(** every request is one operation on literals, calldata and earlier results *)
Definition requests_ok (rs : list expr) : Prop :=
  forall pre r post, rs = pre ++ r :: post -> wt r /\ no_hash r /\ reads_ok (results pre) r.

Lemma in_results pre i t : In (i, t) (results pre) <-> exists r, nth_error pre (N.to_nat i) = Some r /\ get_type r = t.
Proof.
  unfold results. split.
  - intro H. apply In_nth_error in H. destruct H as [k H]. apply combine_nth_error in H. destruct H as [H1 H2].
    rewrite nth_error_map in H1, H2. destruct (nth_error (seq 0 (length pre)) k) as [j|] eqn:Ej; [|discriminate]. injection H1 as <-.
    assert (k < length pre)%nat by (rewrite <- (seq_length (length pre) 0); apply nth_error_Some; congruence).
    rewrite (nth_error_nth' _ 0%nat) in Ej by now rewrite seq_length. rewrite seq_nth in Ej by assumption. injection Ej as <-. rewrite Nat2N.id. cbn.
    destruct (nth_error pre k) as [r|]; [|discriminate]. injection H2 as <-. eauto.
  - intros (r & H & <-). assert (N.to_nat i < length pre)%nat by (apply nth_error_Some; congruence).
    apply (nth_error_In _ (N.to_nat i)). apply combine_nth_error. rewrite !nth_error_map, H. split; [|reflexivity].
    rewrite (nth_error_nth' _ 0%nat) by now rewrite seq_length. rewrite seq_nth by assumption. cbn. now rewrite N2Nat.id.
Qed.
Lemma emit_all_app asg rs : forall rs2 hs g, emit_all asg (rs ++ rs2) hs g = (h <-g emit_all asg rs hs ;; emit_all asg rs2 h) g.
Proof.
  induction rs as [|r rs IH]; intros rs2 hs g; [reflexivity|]. cbn [app emit_all]. unfold gbind. destruct (asg (fill hs r) g) as [[h g1]|]; [|reflexivity].
  apply IH.
Qed.

Section Sem.
  Variable W : PF.
  Variable b : W.
  Variable checked : bool.
  Variable sha256 : list Z -> list Z.
  Variable E : env.
  Notation eval := (eval b checked E). Notation exec := (exec b checked sha256 E). Notation run := (run b checked sha256 E).
  Notation core := (core W b checked sha256 E). Notation K g := (targets (g_stmts g)).

  Lemma eval_emap2 s s' f f' e : (forall l, In l (leaves e) -> eval s (f l) = eval s' (f' l)) -> eval s (emap f e) = eval s' (emap f' e).
  Proof.
    induction e; cbn [leaves emap]; intro H; try (apply H; now left).
    1-4: assert (H1 := IHe1 (fun l Hl => H l (in_or_app _ _ _ (or_introl Hl)))); assert (H2 := IHe2 (fun l Hl => H l (in_or_app _ _ _ (or_intror Hl))));
      destruct t; cbn [SolIr.eval]; rewrite ?H1, ?H2; reflexivity.
    - assert (H1 := IHe1 (fun l Hl => H l (in_or_app _ _ _ (or_introl Hl)))).
      assert (H2 := IHe2 (fun l Hl => H l (in_or_app _ _ _ (or_intror (in_or_app _ _ _ (or_introl Hl)))))).
      assert (H3 := IHe3 (fun l Hl => H l (in_or_app _ _ _ (or_intror (in_or_app _ _ _ (or_intror Hl)))))).
      destruct t; cbn [SolIr.eval]; now rewrite H1, H2, H3.
    - destruct t; cbn [SolIr.eval]; [|reflexivity]. now rewrite (IHe H).
  Qed.
  (** results of both emissions *)
  Definition paired_results (g : gctx) (s : st) (g' : gctx) (s' : st) (r h h' : expr) : Prop :=
    (exists o, h = EMemory o (get_type r) /\ In (o, get_type r) (K g)) /\ (exists o, h' = EMemory o (get_type r) /\ In (o, get_type r) (K g')) /\ eval s h = eval s' h'.
  Fixpoint all3 {A B C} (P : A -> B -> C -> Prop) (l : list A) (m : list B) (n : list C) : Prop :=
    match l, m, n with [], [], [] => True | x :: l, y :: m, z :: n => P x y z /\ all3 P l m n | _, _, _ => False end.
  Lemma all3_nth {A B C} (P : A -> B -> C -> Prop) l : forall m n i x, all3 P l m n -> nth_error l i = Some x -> exists y z, nth_error m i = Some y /\ nth_error n i = Some z /\ P x y z.
  Proof. induction l as [|a l IH]; intros [|y m] [|z n] [|i] x H Hi; cbn in *; try contradiction; try discriminate; [injection Hi as <-; destruct H; eauto|]. eapply IH; [apply H|exact Hi]. Qed.
  Lemma all3_snoc {A B C} (P : A -> B -> C -> Prop) l : forall m n x y z, all3 P l m n -> P x y z -> all3 P (l ++ [x]) (m ++ [y]) (n ++ [z]).
  Proof. induction l as [|a l IH]; intros [|y0 m] [|z0 n] x y z H Hp; cbn in *; try contradiction; auto. split; [apply H|]. apply IH; tauto. Qed.
  Lemma all3_weaken {A B C} (P Q : A -> B -> C -> Prop) l : (forall x y z, P x y z -> Q x y z) -> forall m n, all3 P l m n -> all3 Q l m n.
  Proof. intro H. induction l as [|a l IH]; intros [|y0 m] [|z0 n]; cbn; auto. intros [H1 H2]. auto. Qed.
  Lemma all3_length {A B C} (P : A -> B -> C -> Prop) l : forall m n, all3 P l m n -> length m = length l /\ length n = length l.
  Proof. induction l as [|a l IH]; intros [|y0 m] [|z0 n]; cbn; try contradiction; auto. intros [_ H]. destruct (IH _ _ H). split; congruence. Qed.

  Lemma wt_emap f r known : (forall l, leaf_ok known l -> simple l -> simple (f l) /\ get_type (f l) = get_type l) -> (forall l, is_memory l = false -> f l = l) -> wt r -> reads_ok known r -> wt (emap f r).
  Proof.
    intros Hf Hn Wr R.
    assert (O : forall e t, operand e t -> reads_ok known e -> operand (emap f e) t).
    { intros e t [Si Ty] Re. destruct e; try contradiction Si; cbn [emap]; destruct (Hf _ (Forall_inv Re) Si) as [A B]; split; try exact A; rewrite B; exact Ty. }
    destruct r; cbn [wt emap] in *; unfold reads_ok in R; cbn [leaves] in R; rewrite ?Forall_app in R;
      try (rewrite Hn by reflexivity; exact Wr); try (now (destruct Wr; destruct R; split; apply O));
      try (destruct (Hf _ (Forall_inv R) Wr) as [A B]; destruct (f _); try contradiction A; exact A).
    - destruct R as (R1 & R2 & R3), t; destruct Wr as (W1 & W2 & W3); (split; [now apply O|split; now apply O]).
    - now apply O.
  Qed.
  Lemma run_snoc p c : run (p ++ [c]) st0 = do s <- run p st0; exec s c.
  Proof. rewrite run_app. destruct (run p st0) as [s|]; [|reflexivity]. cbn [SolIr.run]. now destruct (exec s c). Qed.

  Lemma fresh_core g s v val : core g s -> g_cache g = [] -> reads_ok (K g) v -> wt v -> no_hash v -> eval s v = Some val -> has_ty val (get_type v) ->
    forall x g', assign_fresh v g = Some (x, g') -> (g_mem g' <= e_msize E)%N -> g_cache g' = [] /\ exists s', core g' s' /\ astep W b checked E g s g' s' /\
      exists o, x = EMemory o (get_type v) /\ In (o, get_type v) (K g') /\ eval s' x = Some val.
  Proof.
    intros C Ec R Wt Nh Ev Tv x g' H L. unfold assign_fresh, gbind, allocate, push, gret in H. cbn in H. injection H as <- <-. split; [exact Ec|].
    destruct (assign_memory_ok W b checked sha256 E g s v val C R Wt Nh Ev Tv (EMemory (g_mem g) (get_type v))
      (mkG (g_abs g) (g_maxabs g) (g_mem g + to_length (get_type v)) (g_tr g) (g_inst g) (g_tmp g) (g_stmts g ++ [Assign (EMemory (g_mem g) (get_type v)) v]) [(v, EMemory (g_mem g) (get_type v))] (g_mock g) (g_in_tr g) (g_in_inst g))) as (s' & C' & A' & Q').
    - unfold assign_memory. rewrite Ec. cbn [cache_get]. destruct (c_flags _ _ _ _ _ _ _ C) as (Fm & _). unfold gbind, allocate, cache_insert, push, gret. cbn. rewrite Fm, Ec. reflexivity.
    - exact L.
    - exists s'. split; [|split; [|exact Q']].
      + destruct C' as [C1 C2 C3 C4 C5 C6]. constructor; cbn in *; auto. rewrite Ec. contradiction.
      + destruct A' as [A1 A2 A3]. constructor; assumption.
  Qed.
  Lemma mono_fresh v : gmono (assign_fresh v).
  Proof.
    unfold assign_fresh. intros g x g' H. unfold gbind, allocate, push, gret in H. cbn in H. injection H as <- <-. split; cbn; [lia|apply N.le_refl].
  Qed.

  (** the state of both emissions after the same requests *)
  Definition typed (g : gctx) : Prop := g_mock g = false /\ forall e m, In (e, m) (g_cache g) -> exists o, m = EMemory o (get_type e).
  Definition handle (r h h' : expr) : Prop := (exists o, h = EMemory o (get_type r)) /\ (exists o, h' = EMemory o (get_type r)).
  Record linked (rs hs : list expr) (g : gctx) (hs' : list expr) (g' : gctx) : Prop := mkLinked {
    l_mem : (g_mem g <= g_mem g')%N;
    l_len : (length (g_stmts g) <= length (g_stmts g'))%nat;
    l_typed : typed g;
    l_cache : g_cache g' = [];
    l_handles : all3 handle rs hs hs';
    l_run : (g_mem g' <= e_msize E)%N ->
      (exists s s', core g s /\ core g' s' /\ absorbing s = absorbing s' /\ all3 (paired_results g s g' s') rs hs hs') \/
      (run (g_stmts g) st0 = None /\ run (g_stmts g') st0 = None)
  }.
  Lemma fill_type hs e : (forall i t, In (EMemory i t) (leaves e) -> exists o, nth_error hs (N.to_nat i) = Some (EMemory o t)) -> get_type (fill hs e) = get_type e.
  Proof.
    intro H. apply emap_type. intros l Hl. destruct l; try reflexivity. destruct (H _ _ Hl) as [o' Ho]. now rewrite (nth_error_nth _ _ _ Ho).
  Qed.
  Lemma fill_reads known hs e : (forall i t, In (EMemory i t) (leaves e) -> exists o, nth_error hs (N.to_nat i) = Some (EMemory o t) /\ In (o, t) known) ->
    (exists known', reads_ok known' e) -> reads_ok known (fill hs e).
  Proof.
    intros H [k' R]. unfold reads_ok, fill. assert (F : forall l, In l (leaves e) -> leaf_ok known (match l with EMemory i _ => nth (N.to_nat i) hs l | _ => l end)).
    { intros l Hl. unfold reads_ok in R. rewrite Forall_forall in R. specialize (R l Hl). destruct l; try exact R. destruct (H _ _ Hl) as (o' & Ho & Hin). rewrite (nth_error_nth _ _ _ Ho). exact Hin. }
    rewrite emap_leaves.
    - rewrite Forall_map, Forall_forall. exact F.
    - intros l Hl. specialize (F l Hl). revert F. generalize (match l with EMemory i _ => nth (N.to_nat i) hs l | _ => l end). intros []; try contradiction; reflexivity.
  Qed.
  Lemma store_ty s o t v s1 : store E s (EMemory o t) v = Some s1 -> has_ty v t.
  Proof. destruct t, v; cbn; try discriminate; auto. Qed.
  Lemma share rs : requests_ok rs -> forall hs g hs' g', emit_all assign_memory rs [] new_ctx = Some (hs, g) -> emit_all assign_fresh rs [] new_ctx = Some (hs', g') ->
    linked rs hs g hs' g'.
  Proof.
    induction rs as [|r rs IH] using rev_ind; intros Ok hs g hs' g' H H'.
    - injection H as <- <-. injection H' as <- <-. constructor; cbn; try lia; auto.
      + split; [reflexivity|contradiction].
      + intros _. left. exists st0, st0. assert (C : core new_ctx st0) by (constructor; cbn; auto; [lia|contradiction]). auto.
    - assert (Ok0 : requests_ok rs) by (intros pre q post Eq; apply (Ok pre q (post ++ [r])); rewrite Eq, <- app_assoc; reflexivity).
      rewrite emit_all_app in H, H'. apply gbind_inv in H. destruct H as (hs0 & g0 & H0 & H). apply gbind_inv in H'. destruct H' as (hs0' & g0' & H0' & H').
      destruct (IH Ok0 _ _ _ _ H0 H0') as [Lm Ll Lt Lc Lh Lr]. clear IH.
      cbn [emit_all] in H, H'. apply gbind_inv in H. destruct H as (h & g1 & Ha & H). injection H as <- <-. apply gbind_inv in H'. destruct H' as (h' & g1' & Ha' & H'). injection H' as <- <-.
      destruct (Ok rs r [] eq_refl) as (Wr & Nr & Rr).
      assert (Res : forall i t, In (EMemory i t) (leaves r) -> exists r', nth_error rs (N.to_nat i) = Some r' /\ get_type r' = t).
      { intros i t Hi. unfold reads_ok in Rr. rewrite Forall_forall in Rr. apply in_results. exact (Rr _ Hi). }
      assert (Th : get_type (fill hs0 r) = get_type r).
      { apply fill_type. intros i t Hi. destruct (Res i t Hi) as (r' & Hr' & <-). destruct (all3_nth _ _ _ _ _ _ Lh Hr') as (y & z & Hy & _ & (o & ->) & _). eauto. }
      assert (Th' : get_type (fill hs0' r) = get_type r).
      { apply fill_type. intros i t Hi. destruct (Res i t Hi) as (r' & Hr' & <-). destruct (all3_nth _ _ _ _ _ _ Lh Hr') as (y & z & _ & Hz & _ & (o & ->)). eauto. }
      destruct (mono_fresh _ _ _ _ Ha') as [Mf _].
      (* structure *)
      assert (St : (g_mem g1 <= g_mem g1')%N /\ (length (g_stmts g1) <= length (g_stmts g1'))%nat /\ typed g1 /\ g_cache g1' = [] /\ handle r h h').
      { destruct Lt as [Lt1 Lt2]. unfold assign_fresh, gbind, allocate, push, gret in Ha'. cbn in Ha'. injection Ha' as <- <-. cbn [g_mem g_stmts g_cache]. rewrite Th', app_length. cbn [length].
        unfold assign_memory in Ha. destruct (cache_get (fill hs0 r) (g_cache g0)) as [m|] eqn:Ec.
        - injection Ha as <- <-. apply cache_get_in in Ec. destruct (Lt2 _ _ Ec) as [o ->]. rewrite Th. split; [lia|]. split; [lia|]. split; [split; assumption|]. split; [exact Lc|]. split; eauto.
        - unfold gbind, allocate in Ha. rewrite Lt1 in Ha. cbn in Ha. injection Ha as <- <-. cbn [g_mem g_stmts g_cache]. rewrite Th, app_length. cbn [length].
          split; [lia|]. split; [lia|]. split; [|split; [exact Lc|split; eauto]]. split; [reflexivity|]. cbn [g_cache]. intros e m [X|X]; [injection X as <- <-; rewrite Th; eauto|]. eauto. }
      destruct St as (S1 & S2 & S3 & S4 & S5). constructor; auto.
      { now apply all3_snoc. }
      intro L. destruct (Lr ltac:(lia)) as [(s & s' & C & C' & Ab & Pr)|[N1 N2]].
      + assert (Ev : eval s (fill hs0 r) = eval s' (fill hs0' r)).
        { apply eval_emap2. intros l Hl. assert (Rl := Rr). unfold reads_ok in Rl. rewrite Forall_forall in Rl. specialize (Rl l Hl). destruct l; try contradiction; try reflexivity.
          destruct (Res _ _ Hl) as (r' & Hr' & <-). destruct (all3_nth _ _ _ _ _ _ Pr Hr') as (y & z & Hy & Hz & _ & _ & He). now rewrite (nth_error_nth _ _ _ Hy), (nth_error_nth _ _ _ Hz). }
        assert (Rd : reads_ok (K g0) (fill hs0 r)).
        { apply fill_reads; [|eauto]. intros i t Hi. destruct (Res i t Hi) as (r' & Hr' & <-). destruct (all3_nth _ _ _ _ _ _ Pr Hr') as (y & z & Hy & Hz & (o & -> & Ho) & _). eauto. }
        assert (Rd' : reads_ok (K g0') (fill hs0' r)).
        { apply fill_reads; [|eauto]. intros i t Hi. destruct (Res i t Hi) as (r' & Hr' & <-). destruct (all3_nth _ _ _ _ _ _ Pr Hr') as (y & z & Hy & Hz & _ & (o & -> & Ho) & _). eauto. }
        assert (Wf : forall hs1 (X : forall i t, In (i, t) (results rs) -> exists o, nth_error hs1 (N.to_nat i) = Some (EMemory o t)), wt (fill hs1 r) /\ no_hash (fill hs1 r)).
        { intros hs1 X. split.
          - unfold fill. apply (wt_emap _ _ (results rs)); auto.
            + intros l Ol Sl. destruct l; try (split; [exact Sl|reflexivity]). destruct (X _ _ Ol) as [o' Ho]. rewrite (nth_error_nth _ _ _ Ho). split; [exact I|reflexivity].
            + intros []; try reflexivity. discriminate.
          - destruct r; try exact I; try contradiction Nr. cbn. unfold reads_ok in Rr. assert (Y := Forall_inv Rr). destruct (X _ _ Y) as [o' Ho]. now rewrite (nth_error_nth _ _ _ Ho). }
        destruct (Wf hs0) as [W1 W2].
        { intros i t Hi. apply in_results in Hi. destruct Hi as (r' & Hr' & <-). destruct (all3_nth _ _ _ _ _ _ Lh Hr') as (y & z & Hy & _ & (o & ->) & _). eauto. }
        destruct (Wf hs0') as [W1' W2'].
        { intros i t Hi. apply in_results in Hi. destruct Hi as (r' & Hr' & <-). destruct (all3_nth _ _ _ _ _ _ Lh Hr') as (y & z & _ & Hz & _ & (o & ->)). eauto. }
        assert (Es' : g_stmts g1' = g_stmts g0' ++ [Assign (EMemory (g_mem g0') (get_type r)) (fill hs0' r)] /\ g_mem g1' = (g_mem g0' + to_length (get_type r))%N).
        { unfold assign_fresh, gbind, allocate, push, gret in Ha'. cbn in Ha'. injection Ha' as <- <-. cbn [g_stmts g_mem]. rewrite Th'. split; reflexivity. }
        destruct Es' as [Es' Em'].
        assert (Ex' : exec s' (Assign (EMemory (g_mem g0') (get_type r)) (fill hs0' r)) = do v <- eval s' (fill hs0' r); store E s' (EMemory (g_mem g0') (get_type r)) v).
        { rewrite exec_assign. destruct (fill hs0' r); try contradiction W2'; reflexivity. }
        destruct (eval s' (fill hs0' r)) as [val|] eqn:Ev'.
        * assert (Dt : has_ty val (get_type r) \/ ~ has_ty val (get_type r)) by (destruct val, (get_type r); cbn; tauto). destruct Dt as [Dt|Dt].
          -- destruct (assign_memory_ok W b checked sha256 E g0 s _ val C Rd W1 W2 Ev ltac:(now rewrite Th) h g1 Ha ltac:(lia)) as (s1 & C1 & A1 & (o & -> & Ho & He)).
             destruct (fresh_core g0' s' _ val C' Lc Rd' W1' W2' Ev' ltac:(now rewrite Th') h' g1' Ha' ltac:(lia)) as (_ & s1' & C1' & A1' & (o' & -> & Ho' & He')).
             left. exists s1, s1'. split; [exact C1|]. split; [exact C1'|]. split.
             { rewrite (a_abs _ _ _ _ _ _ _ _ A1), (a_abs _ _ _ _ _ _ _ _ A1'). exact Ab. }
             apply all3_snoc.
             ++ eapply all3_weaken; [|exact Pr]. intros x y z ((oy & -> & Hy) & (oz & -> & Hz) & Hyz).
                destruct (a_keeps _ _ _ _ _ _ _ _ A1) as [In1 Ke1]. destruct (a_keeps _ _ _ _ _ _ _ _ A1') as [In1' Ke1'].
                split; [exists oy; split; [reflexivity|now apply In1]|]. split; [exists oz; split; [reflexivity|now apply In1']|].
                rewrite Ke1, Ke1'; [exact Hyz|constructor; [exact Hz|constructor]|constructor; [exact Hy|constructor]].
             ++ rewrite Th in *. rewrite Th' in *. split; [eauto|]. split; [eauto|]. now rewrite He, He'.
          -- (* a value of the wrong type reverts on both sides *)
             right. rewrite Es', run_snoc, (c_run _ _ _ _ _ _ _ C'), Ex'.
             assert (Nt : forall s2 o2, store E s2 (EMemory o2 (get_type r)) val = None) by (intros s2 o2; destruct (store E s2 (EMemory o2 (get_type r)) val) eqn:X; [exfalso; apply Dt; eapply store_ty; eauto|reflexivity]).
             split; [|apply Nt]. unfold assign_memory in Ha. destruct (cache_get (fill hs0 r) (g_cache g0)) as [m|] eqn:Ec.
             ++ exfalso. apply Dt. apply cache_get_in in Ec. destruct (c_cache _ _ _ _ _ _ _ C _ _ Ec) as (o & -> & _ & _ & X). rewrite Ev, Th in X. revert X. 
                destruct (get_type r); cbn [SolIr.eval]; [|destruct (rd _ _ _) as [z1|]; [|discriminate]]; destruct (rd _ _ _) as [z2|]; cbn; try discriminate; intros [= <-]; exact I.
             ++ unfold gbind, allocate in Ha. rewrite (proj1 Lt) in Ha. cbn in Ha. injection Ha as <- <-. cbn [g_stmts]. rewrite run_snoc, (c_run _ _ _ _ _ _ _ C), exec_assign, Th.
                destruct (fill hs0 r); try contradiction W2; rewrite Ev; apply Nt.
        * right. rewrite Es', run_snoc, (c_run _ _ _ _ _ _ _ C'), Ex'. split; [|reflexivity].
          unfold assign_memory in Ha. destruct (cache_get (fill hs0 r) (g_cache g0)) as [m|] eqn:Ec.
          -- exfalso. apply cache_get_in in Ec. destruct (c_cache _ _ _ _ _ _ _ C _ _ Ec) as (o & -> & Hin & _ & X). rewrite Ev, Th in X.
             rewrite Th in Hin. pose proof (core_below _ _ _ _ _ _ _ C _ _ Hin) as Bl. revert X. destruct (get_type r); cbn [SolIr.eval to_length] in *; unfold rd; rewrite ?(proj2 (N.ltb_lt _ _)) by lia; discriminate.
          -- unfold gbind, allocate in Ha. rewrite (proj1 Lt) in Ha. cbn in Ha. injection Ha as <- <-. cbn [g_stmts]. rewrite run_snoc, (c_run _ _ _ _ _ _ _ C), exec_assign.
             destruct (fill hs0 r); try contradiction W2; rewrite Ev; reflexivity.
      + right. assert (Es' : exists c, g_stmts g1' = g_stmts g0' ++ [c]) by (unfold assign_fresh, gbind, allocate, push, gret in Ha'; cbn in Ha'; injection Ha' as <- <-; eexists; reflexivity).
        destruct Es' as [c ->]. rewrite run_snoc, N2. split; [|reflexivity].
        unfold assign_memory in Ha. destruct (cache_get (fill hs0 r) (g_cache g0)) as [m|]; [now injection Ha as <- <-|].
        unfold gbind, allocate in Ha. rewrite (proj1 Lt) in Ha. cbn in Ha. injection Ha as <- <-. cbn [g_stmts]. now rewrite run_snoc, N1.
  Qed.
  Lemma emit_total rs : forall hs g, g_mock g = false -> exists hs' g', emit_all assign_memory rs hs g = Some (hs', g').
  Proof.
    induction rs as [|r rs IH]; intros hs g M; [cbn; unfold gret; eauto|]. cbn [emit_all]. unfold gbind, assign_memory. destruct (cache_get (fill hs r) (g_cache g)); [now apply IH|].
    unfold gbind, allocate. rewrite M. cbn. apply IH. reflexivity.
  Qed.
  Lemma emit_total_fresh rs : forall hs g, exists hs' g', emit_all assign_fresh rs hs g = Some (hs', g').
  Proof. induction rs as [|r rs IH]; intros hs g; [cbn; unfold gret; eauto|]. cbn [emit_all]. unfold assign_fresh, gbind, allocate, push, gret. apply IH. Qed.
End Sem.
