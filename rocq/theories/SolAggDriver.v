(** Merging passes: which programs a pass may exchange, and the loop that drives the
    passes. *)
From Coq Require Import ZArith NArith List Bool Lia.
From Verif Require Import Util Algebra PField Curve Evm EvmProofs SolIr SolScan SolAgg SolSem SolMulAdd ListFacts.
Import ListNotations.

(** * Programs as the passes see them *)
(** operands *)
Definition simple (e : expr) : Prop :=
  match e with EMemory _ _ | ETranscript _ _ | EInstance _ _ | EPoint _ _ | EScalar _ | ETemp _ => True | _ => False end.
Definition operand (e : expr) (t : ty) : Prop := simple e /\ get_type e = t.
(** right hand sides: the operands are simple and have the types of the operation *)
Definition wt (r : expr) : Prop :=
  match r with
  | EAdd a c t | ESub a c t | EDiv a c t => operand a t /\ operand c t
  | EMul a c t => operand a TScalar /\ operand c t
  | EMulAdd a c d TScalar => operand a TScalar /\ operand c TScalar /\ operand d TScalar
  | EMulAdd a c d TPoint => operand a TPoint /\ operand c TScalar /\ operand d TPoint
  | EPow a _ t => operand a t
  | EMulAddPM a _ t => a = ETemp t
  | EMulAddMT _ _ | EHash _ => True
  | r => simple r
  end.
Definition wt_stmt (s : stmt) : Prop :=
  match s with
  | Assign l r => (is_memory l || is_temp l = true) /\ get_type l = get_type r /\ wt r
  | UpdateHash e _ => simple e
  | For _ _ _ _ _ _ | ForMMMMul _ _ _ _ => True
  end.

(** the use of the two temporary variables *)
Fixpoint reads_temp (e : expr) : bool :=
  match e with
  | EAdd l r _ | ESub l r _ | EMul l r _ | EDiv l r _ => reads_temp l || reads_temp r
  | EMulAdd l r c _ => reads_temp l || reads_temp r || reads_temp c
  | EPow a _ _ | EMulAddPM a _ _ => reads_temp a
  | EMulAddMT _ _ | ETemp _ => true
  | _ => false
  end.
Definition s_reads (s : stmt) : bool := match s with Assign _ r => reads_temp r | UpdateHash e _ => reads_temp e | _ => false end.
Definition s_writes (s : stmt) : bool := match s with Assign (ETemp _) _ => true | _ => false end.
(** Every statement that reads the temporary comes right after one that writes it;
    [w]: the statement before [p] does. *)
Fixpoint disc (w : bool) (p : list stmt) : Prop :=
  match p with
  | [] => True
  | s :: p => (s_reads s = true -> w = true) /\ disc (s_writes s) p
  end.
Definition wout (w : bool) (p : list stmt) : bool := fold_left (fun _ s => s_writes s) p w.

Lemma disc_app p : forall w q, disc w (p ++ q) <-> disc w p /\ disc (wout w p) q.
Proof. induction p as [|s p IH]; intros w q; cbn [app disc wout fold_left]; [tauto|]. rewrite IH. unfold wout. tauto. Qed.
Lemma wout_app w p q : wout w (p ++ q) = wout (wout w p) q.
Proof. unfold wout. apply fold_left_app. Qed.

Section Sem.
  Variable W : PF.
  Variable b : W.
  Variable checked : bool.
  Variable sha256 : list Z -> list Z.
  Variable E : env.
  Notation eval := (eval b checked E). Notation exec := (exec b checked sha256 E). Notation run := (run b checked sha256 E).

  (** states equal up to a dead temporary *)
  Record eqv (w : bool) (s s' : st) : Prop := mkEqv {
    eq_mem : mem s = mem s';
    eq_abs : absorbing s = absorbing s';
    eq_t1 : t1 s = t1 s';
    eq_t0 : w = true -> t0 s = t0 s'
  }.
  Lemma eqv_refl w s : eqv w s s.
  Proof. constructor; reflexivity. Qed.
  Lemma eqv_true s s' : eqv true s s' -> s = s'.
  Proof. intros [A B C D]. destruct s, s'. cbn in *. rewrite A, B, C, D by reflexivity. reflexivity. Qed.
  Lemma eqv_weak w s s' : eqv w s s' -> eqv false s s'.
  Proof. intros [A B C D]. constructor; auto. discriminate. Qed.

  Lemma eval_eqv w s s' e : eqv w s s' -> (reads_temp e = true -> w = true) -> eval s e = eval s' e.
  Proof.
    intros [A B C D].
    induction e as [o t|o t|o t|o t| | |l IHl r IHr t|l IHl r IHr t|l IHl r IHr t|l IHl r IHr t|l IHl r IHr c IHc t|a IHa op t| |a IHa n t| |t];
    cbn [reads_temp]; intro H;
    try (assert (El : eval s l = eval s' l) by (apply IHl; intro X; apply H; rewrite X; reflexivity));
    try (assert (Er : eval s r = eval s' r) by (apply IHr; intro X; apply H; rewrite X, ?orb_true_r; reflexivity));
    try (assert (Ec : eval s c = eval s' c) by (apply IHc; intro X; apply H; rewrite X, ?orb_true_r; reflexivity));
    try (assert (Ea : eval s a = eval s' a) by (apply IHa; exact H)).
    - destruct t; cbn [SolIr.eval]; rewrite A; reflexivity.
    - reflexivity.
    - reflexivity.
    - reflexivity.
    - reflexivity.
    - reflexivity.
    - destruct t; cbn [SolIr.eval]; rewrite El, Er; reflexivity.
    - destruct t; cbn [SolIr.eval]; rewrite El, Er; reflexivity.
    - destruct t; cbn [SolIr.eval]; rewrite El, Er; reflexivity.
    - destruct t; cbn [SolIr.eval]; [rewrite El, Er|]; reflexivity.
    - destruct t; cbn [SolIr.eval]; rewrite El, Er, Ec; reflexivity.
    - destruct t; cbn [SolIr.eval]; rewrite Ea, A; reflexivity.
    - cbn [SolIr.eval]. rewrite A, D by (apply H; reflexivity). reflexivity.
    - destruct t; cbn [SolIr.eval]; [rewrite Ea|]; reflexivity.
    - reflexivity.
    - destruct t; cbn [SolIr.eval]; rewrite ?C, D by (apply H; reflexivity); reflexivity.
  Qed.
  Lemma store_eqv w s s' l v : eqv w s s' -> orel (eqv (match l with ETemp _ => true | _ => false end)) (store E s l v) (store E s' l v).
  Proof.
    intros [A B C D]. destruct l as [o t| | | | | | | | | | | | | | |t]; try exact I; destruct t, v; cbn [store]; try exact I.
    - rewrite A. destruct (wr _ _ _ _); [|exact I]. constructor; cbn; auto. discriminate.
    - rewrite A. destruct (wr _ _ _ _) as [m|]; [|exact I]. destruct (wr _ m _ _); [|exact I]. constructor; cbn; auto. discriminate.
    - constructor; cbn; auto.
    - constructor; cbn; auto.
  Qed.
  Lemma set_abs_eqv w s s' a : eqv w s s' -> eqv w (set_abs s a) (set_abs s' a).
  Proof. intros [A B C D]. constructor; auto. Qed.
  Lemma exec_eqv w s s' c : eqv w s s' -> (s_reads c = true -> w = true) -> orel (eqv (s_writes c)) (exec s c) (exec s' c).
  Proof.
    intros Q H. destruct c as [l r|e k| |]; cbn [s_reads s_writes] in *.
    - rewrite !exec_assign.
      assert (G : orel (eqv (match l with ETemp _ => true | _ => false end)) (do v <- eval s r; store E s l v) (do v <- eval s' r; store E s' l v)).
      { rewrite (eval_eqv w s s' r Q H). destruct (eval s' r); [|exact I]. eapply store_eqv; eauto. }
      destruct r; try exact G. rewrite (eq_abs _ _ _ Q). destruct (squeeze_challenge _ _ _ _) as [[v a]|]; [|exact I].
      eapply store_eqv. apply set_abs_eqv. exact Q.
    - cbn [SolIr.exec]. rewrite (eval_eqv w s s' e Q H), (eq_abs _ _ _ Q). destruct (eval s' e) as [v|]; [|exact I]. destruct (get_type e).
      + destruct (sc v); [|exact I]. destruct (update_hash_scalar _ _ _ _); [|exact I]. apply set_abs_eqv. eapply eqv_weak; eauto.
      + destruct (pt v) as [[]|]; [|exact I]. destruct (update_hash_point _ _ _ _ _); [|exact I]. apply set_abs_eqv. eapply eqv_weak; eauto.
    - cbn [SolIr.exec]. rewrite (eq_abs _ _ _ Q). destruct (for_hash _ _ _ _ _ _ _ _ _); [|exact I]. destruct Q. constructor; cbn; auto.
    - cbn [SolIr.exec]. destruct t; [|exact I]. rewrite (eq_mem _ _ _ Q). destruct (for_mul _ _ _ _ _ _); [|exact I]. destruct Q. constructor; cbn; auto.
  Qed.
  Lemma run_app p : forall q s, run (p ++ q) s = do s <- run p s; run q s.
  Proof. induction p as [|c p IH]; intros q s; cbn [app SolIr.run]; [reflexivity|]. destruct (exec s c); [apply IH|reflexivity]. Qed.
  Lemma orel_trans {A} (R : A -> A -> Prop) x y z : (forall a c d, R a c -> R c d -> R a d) -> orel R x y -> orel R y z -> orel R x z.
  Proof. intro T. destruct x, y, z; cbn; try tauto. apply T. Qed.
  Lemma eqv_trans w s1 s2 s3 : eqv w s1 s2 -> eqv w s2 s3 -> eqv w s1 s3.
  Proof. intros [A B C D] [A' B' C' D']. constructor; try congruence. intro H. rewrite D, D' by exact H. reflexivity. Qed.
  Lemma eqv_sym w s1 s2 : eqv w s1 s2 -> eqv w s2 s1.
  Proof. intros [A B C D]. constructor; try congruence. intro H. now rewrite D. Qed.

  (** [q] can replace [p] after a statement that writes the temporary or not *)
  Record piece (w : bool) (p q : list stmt) : Prop := mkPiece {
    pc_disc : disc w q;
    pc_out : wout w q = wout w p;
    pc_run : forall s s', eqv w s s' -> orel (eqv (wout w p)) (run p s) (run q s')
  }.
  Lemma run_eqv p : forall w s s', disc w p -> eqv w s s' -> orel (eqv (wout w p)) (run p s) (run p s').
  Proof.
    induction p as [|c p IH]; intros w s s' H Q; [exact Q|]. destruct H as [H1 H2]. cbn [SolIr.run wout fold_left].
    eapply orel_bind; [eapply exec_eqv; eauto|]. intros s1 s1' Q1. now apply IH.
  Qed.
  Lemma piece_refl w p : disc w p -> piece w p p.
  Proof. intro H. constructor; [exact H|reflexivity|]. intros s s' Q. now apply run_eqv. Qed.
  Lemma piece_app w p1 q1 p2 q2 : piece w p1 q1 -> piece (wout w p1) p2 q2 -> piece w (p1 ++ p2) (q1 ++ q2).
  Proof.
    intros [A B C] [A' B' C']. constructor.
    - apply disc_app. rewrite B. auto.
    - rewrite !wout_app, B. exact B'.
    - intros s s' Q. rewrite !run_app, wout_app. eapply orel_bind; [exact (C _ _ Q)|]. auto.
  Qed.
  Lemma piece_trans w p q r : piece w p q -> piece w q r -> piece w p r.
  Proof.
    intros [A B C] [A' B' C']. constructor; [exact A'|congruence|]. intros s s' Q. rewrite <- B in *.
    eapply orel_trans; [intros; eapply eqv_trans; eauto|exact (C _ _ (eqv_refl w s))|exact (C' _ _ Q)].
  Qed.
  (** enough: the same result from the same state *)
  Lemma piece_intro w p q : disc w p -> disc w q -> wout w q = wout w p ->
    (forall s, orel (eqv (wout w p)) (run p s) (run q s)) -> piece w p q.
  Proof.
    intros Hp Hq Ho H. constructor; [exact Hq|exact Ho|]. intros s s' Q.
    eapply orel_trans; [intros; eapply eqv_trans; eauto|exact (H s)|]. rewrite <- Ho. now apply run_eqv.
  Qed.

  (** * The driver *)
  Section Driver.
    (** anything else kept by every exchange *)
    Variable R : list stmt -> list stmt -> Prop.
    Hypothesis R_nil : R [] [].
    Hypothesis R_one : forall s, R [s] [s].
    Hypothesis R_app : forall p1 q1 p2 q2, R p1 q1 -> R p2 q2 -> R (p1 ++ p2) (q1 ++ q2).
    Definition ok (pend q : list stmt) : Prop := R pend q /\ forall w, disc w pend -> piece w pend q.
    Variable O : optimizer.
    Variable full : list stmt.
    Variable Fresh : list stmt -> list stmt -> o_state O -> Prop.
    Variable J : list stmt -> list stmt -> list stmt -> o_state O -> Prop.
    Hypothesis H_start : forall pre s rest (o : o_state O), full = pre ++ s :: rest -> Fresh pre (s :: rest) o ->
      match o_start O s o with
      | (Continue, o') => J pre [s] rest o'
      | (Skip, o') => Fresh (pre ++ [s]) rest o'
      | _ => False
      end.
    Hypothesis H_merge : forall pre pend s rest (o : o_state O) a (o' : o_state O), full = pre ++ pend ++ s :: rest -> J pre pend (s :: rest) o ->
      o_merge O s o = Some (a, o') ->
      match a with
      | Skip => False
      | Continue => J pre (pend ++ [s]) rest o'
      | Abort => (exists us, o_unresolved O o' = Some us /\ ok pend us) /\ Fresh (pre ++ pend) (s :: rest) (o_reset O o')
      | Complete => (exists c, o_stmt O o' = Some c /\ ok pend [c]) /\ Fresh (pre ++ pend) (s :: rest) (o_reset O o')
      end.
    Hypothesis H_end : forall pre pend (o : o_state O), full = pre ++ pend -> J pre pend [] o ->
      if o_can_complete O o then exists c, o_stmt O o = Some c /\ ok pend [c] else exists us, o_unresolved O o = Some us /\ ok pend us.

    Lemma disabled_ok w pre s rest o active o' out : full = pre ++ s :: rest -> Fresh pre (s :: rest) o -> disc w (s :: rest) ->
      disabled O s o = Some (active, o', out) ->
      (active = true /\ out = [] /\ J pre [s] rest o') \/ (active = false /\ out = [s] /\ Fresh (pre ++ [s]) rest o').
    Proof.
      intros Hf F D H. assert (S := H_start pre s rest o Hf F). unfold disabled in H. destruct (o_start O s o) as [a o1].
      destruct a; try contradiction; injection H as <- <- <-; auto.
    Qed.
    Lemma loop_ok rest : forall pre pend (active : bool) o q w,
      full = pre ++ pend ++ rest -> (if active then J pre pend rest o else pend = [] /\ Fresh pre rest o) ->
      disc w (pend ++ rest) -> loop O rest active o = Some q -> R (pend ++ rest) q /\ piece w (pend ++ rest) q.
    Proof.
      induction rest as [|s rest IH]; intros pre pend active o q w Hf Hj D Hl.
      - cbn [loop] in Hl. rewrite app_nil_r in *. destruct active.
        + assert (He := H_end pre pend o Hf Hj). destruct (o_can_complete O o).
          * destruct He as (c & Ec & Hr & Hok). rewrite Ec in Hl. injection Hl as <-. split; [exact Hr|now apply Hok].
          * destruct He as (us & Ec & Hr & Hok). rewrite Ec in Hl. injection Hl as <-. split; [exact Hr|now apply Hok].
        + destruct Hj as [-> _]. injection Hl as <-. split; [exact R_nil|now apply piece_refl].
      - cbn [loop] in Hl. destruct (one O s active o) as [[[active' o'] out]|] eqn:Eo; [|discriminate].
        destruct (loop O rest active' o') as [q'|] eqn:El; [|discriminate]. injection Hl as <-.
        assert (Restart : forall pre' o1 out1 w1, full = pre' ++ s :: rest -> Fresh pre' (s :: rest) o1 -> disc w1 (s :: rest) ->
          disabled O s o1 = Some (active', o', out1) -> R (s :: rest) (out1 ++ q') /\ piece w1 (s :: rest) (out1 ++ q')).
        { intros pre' o1 out1 w1 Hf' F' D' Hd. destruct (disabled_ok w1 pre' s rest o1 _ _ _ Hf' F' D' Hd) as [(-> & -> & J')|(-> & -> & F1)].
          - cbn [app]. exact (IH pre' [s] true o' q' w1 Hf' J' D' El).
          - change (s :: rest) with ([s] ++ rest). destruct D' as [D1 D2].
            destruct (IH (pre' ++ [s]) [] false o' q' (s_writes s)) as [R2 P2]; [rewrite <- app_assoc; exact Hf'|auto|exact D2|exact El|].
            split; [now apply R_app|]. apply piece_app; [apply piece_refl; now split|exact P2]. }
        unfold one in Eo. destruct active.
        + destruct (o_merge O s o) as [[a o1]|] eqn:Em; [|discriminate]. assert (Hm := H_merge pre pend s rest o a o1 Hf Hj Em).
          apply disc_app in D. destruct D as [D1 D2].
          destruct a; try contradiction.
          * injection Eo as <- <- <-. cbn [app]. replace (pend ++ s :: rest) with ((pend ++ [s]) ++ rest) by now rewrite <- app_assoc.
            apply (IH pre (pend ++ [s]) true o1 q' w); [rewrite <- app_assoc; exact Hf|exact Hm| |exact El].
            rewrite <- app_assoc. apply disc_app. auto.
          * destruct Hm as [(us & Eu & Hr & Hok) F]. rewrite Eu in Eo. destruct (disabled O s (o_reset O o1)) as [[[a2 o2] out2]|] eqn:Ed; [|discriminate]. injection Eo as -> -> <-.
            destruct (Restart (pre ++ pend) (o_reset O o1) out2 (wout w pend)) as [R2 P2]; auto; [now rewrite <- app_assoc|].
            rewrite <- app_assoc. split; [now apply R_app|]. apply piece_app; [now apply Hok|exact P2].
          * destruct Hm as [(c & Eu & Hr & Hok) F]. rewrite Eu in Eo. destruct (disabled O s (o_reset O o1)) as [[[a2 o2] out2]|] eqn:Ed; [|discriminate]. injection Eo as -> -> <-.
            destruct (Restart (pre ++ pend) (o_reset O o1) out2 (wout w pend)) as [R2 P2]; auto; [now rewrite <- app_assoc|].
            change ((c :: out2) ++ q') with ([c] ++ (out2 ++ q')). split; [now apply R_app|]. apply piece_app; [now apply Hok|exact P2].
        + destruct Hj as [-> F]. cbn [app] in *. eapply Restart; eauto.
    Qed.
    Lemma merge_ok q w : Fresh [] full (o_init O) -> disc w full -> merge_groups O full = Some q -> R full q /\ piece w full q.
    Proof. intros F D H. apply (loop_ok full [] [] false (o_init O) q w); auto. Qed.
  End Driver.
End Sem.
