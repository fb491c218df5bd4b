(** A checker for the conditions under which the passes of the code generator are proved
    correct.  It is not part of the code; it decides, for the statements generated from a
    given verification key, whether the theorems apply. *)
From Coq Require Import ZArith NArith List Bool Lia.
From Verif Require Import Util Algebra PField SolIr SolScan SolAgg SolSem SolIntervals SolMulAdd SolAggDriver SolAggProofs.
Import ListNotations.

Definition simple_b (e : expr) : bool :=
  match e with EMemory _ _ | ETranscript _ _ | EInstance _ _ | EPoint _ _ | EScalar _ | ETemp _ => true | _ => false end.
Definition operand_b (e : expr) (t : ty) : bool := simple_b e && ty_eqb (get_type e) t.
Definition wt_b (r : expr) : bool :=
  match r with
  | EAdd a c t | ESub a c t | EDiv a c t => operand_b a t && operand_b c t
  | EMul a c t => operand_b a TScalar && operand_b c t
  | EMulAdd a c d TScalar => operand_b a TScalar && operand_b c TScalar && operand_b d TScalar
  | EMulAdd a c d TPoint => operand_b a TPoint && operand_b c TScalar && operand_b d TPoint
  | EPow a _ t => operand_b a t
  | EMulAddPM a _ t => expr_eqb a (ETemp t)
  | EMulAddMT _ _ | EHash _ => true
  | r => simple_b r
  end.
Definition fits_b (s : stmt) : bool :=
  match s with
  | Assign l r => (is_memory l || is_temp l) && ty_eqb (get_type l) (get_type r) && wt_b r &&
      match l, r with
      | ETemp _, EMulAdd (ETranscript x _) (EMemory y _) (ETemp _) _ => (x <? 255)%N && (y <? 256)%N
      | ETemp _, EMulAdd (EMemory _ _) (ETemp _) (EMemory y _) TScalar => (y <? 255)%N
      | _, _ => true
      end
  | UpdateHash e _ => simple_b e
  | _ => true
  end.
Definition no_self_add_b (s : stmt) : bool :=
  match s with
  | Assign _ (EAdd l r _) =>
      (negb (is_memory l) || negb (existsb (expr_eqb l) (leaves r))) && (negb (is_memory r) || negb (existsb (expr_eqb r) (leaves l)))
  | _ => true
  end.
(** [prev]: the statement before *)
Definition absorbs (s : option stmt) (m a : N) : bool :=
  match s with Some (UpdateHash (ETranscript m' TPoint) a') => (m =? m')%N && (a =? a')%N | _ => false end.
Definition before (s : option stmt) (m a : N) : bool :=
  match s with Some (UpdateHash (ETranscript m' TPoint) a') => (m =? m' + 2)%N && (a =? a' + 3)%N | _ => false end.
Fixpoint paired_b (prev : option stmt) (p : list stmt) : bool :=
  match p with
  | [] => true
  | s :: p =>
      match s with
      | UpdateHash (ETranscript m TPoint) a => before prev m a || absorbs (hd_error p) (m + 2) (a + 3)
      | _ => true
      end && paired_b (Some s) p
  end.
Definition step_b (a : expr) (s : stmt) : bool :=
  match s with
  | Assign _ (EMul x y TScalar) => (is_temp x && (is_temp y || expr_eqb y a)) || (is_temp y && expr_eqb x a)
  | _ => false
  end.
Definition scalar_mul_b (s : stmt) : bool := match s with Assign _ (EMul _ _ TScalar) => true | _ => false end.
Definition squared (s : stmt) : option expr :=
  match s with Assign (ETemp TScalar) (EMul a b TScalar) => if expr_eqb a b then Some a else None | _ => None end.
(** [more]: a step has been made *)
Fixpoint walk (a : expr) (more : bool) (p : list stmt) : bool :=
  match p with
  | [] => true
  | s :: p => if s_writes s && step_b a s then walk a true p else negb more || negb (scalar_mul_b s) || step_b a s
  end.
Fixpoint no_abandoned_b (prev : bool) (p : list stmt) : bool :=
  match p with
  | [] => true
  | s :: p =>
      match squared s with
      | Some a => ((is_temp a && prev) || walk a false p) && no_abandoned_b true p
      | None => no_abandoned_b false p
      end
  end.
Definition conditions (q : list stmt) : bool := forallb fits_b q && paired_b None q && no_abandoned_b false q.

Lemma simple_ok e : simple_b e = true -> simple e.
Proof. destruct e; try discriminate; intro; exact I. Qed.
Lemma operand_ok e t : operand_b e t = true -> operand e t.
Proof. unfold operand_b, operand. rewrite andb_true_iff, ty_eqb_true. intros [H1 H2]. split; [now apply simple_ok|exact H2]. Qed.
Lemma wt_ok r : wt_b r = true -> wt r.
Proof.
  assert (H := operand_ok). destruct r as [| | | | | | | | | |l r c [|]| | | | |]; cbn [wt_b wt]; rewrite ?andb_true_iff, ?expr_eqb_true; try (intro; discriminate);
    try (intro; exact I); intuition auto; exact I.
Qed.
Lemma fits_ok s : fits_b s = true -> fits s.
Proof.
  destruct s as [l r| | |]; cbn [fits_b]; unfold fits; cbn [wt_stmt pm_range mt_range]; try (intro; repeat split; exact I).
  - rewrite !andb_true_iff. intros [[[H1 H2] H3] H4]. split; [split; [exact H1|split; [now apply ty_eqb_true|now apply wt_ok]]|].
    destruct l; try (split; exact I). destruct r as [| | | | | | | | | |x y c t'| | | | |]; try (split; exact I).
    destruct x; try (split; exact I); destruct y; try (split; exact I); destruct c; try (split; exact I).
    + destruct t'; (split; [exact I|]); [apply N.ltb_lt, H4|exact I].
    + rewrite andb_true_iff, !N.ltb_lt in H4. destruct t'; (split; [exact H4|exact I]).
  - intro H. split; [now apply simple_ok|]. split; exact I.
Qed.
Lemma existsb_false {A} (f : A -> bool) l x : existsb f l = false -> In x l -> f x = false.
Proof. intros H I. destruct (f x) eqn:E; [|reflexivity]. assert (existsb f l = true) by (apply existsb_exists; eauto). congruence. Qed.
Lemma no_self_add_ok s : no_self_add_b s = true -> no_self_add s.
Proof.
  destruct s as [l r| | |]; try (intro; exact I). destruct r as [| | | | | |a c t| | | | | | | | |]; try (intro; exact I).
  cbn [no_self_add_b no_self_add]. rewrite andb_true_iff, !orb_true_iff, !negb_true_iff. intros [H1 H2] o t'. split; intros -> I.
  - destruct H1 as [H1|H1]; [discriminate|]. apply (existsb_false _ _ _ H1) in I. assert (expr_eqb (EMemory o t') (EMemory o t') = true) by now apply expr_eqb_true. congruence.
  - destruct H2 as [H2|H2]; [discriminate|]. apply (existsb_false _ _ _ H2) in I. assert (expr_eqb (EMemory o t') (EMemory o t') = true) by now apply expr_eqb_true. congruence.
Qed.
Lemma absorbs_ok s m a : absorbs s m a = true -> s = Some (UpdateHash (ETranscript m TPoint) a).
Proof.
  destruct s as [[|e b| |]|]; try discriminate. destruct e as [|o [|]| | | | | | | | | | | | | |]; try discriminate. cbn [absorbs]. rewrite andb_true_iff, !N.eqb_eq. now intros [-> ->].
Qed.
Lemma before_ok s m a : before s m a = true -> exists m' a', s = Some (UpdateHash (ETranscript m' TPoint) a') /\ m = (m' + 2)%N /\ a = (a' + 3)%N.
Proof.
  destruct s as [[|e b| |]|]; try discriminate. destruct e as [|o [|]| | | | | | | | | | | | | |]; try discriminate. cbn [before]. rewrite andb_true_iff, !N.eqb_eq. intros [-> ->]. eauto.
Qed.
Lemma paired_ok p : forall pre0, paired_b (hd_error (rev pre0)) p = true ->
  forall pre m a rest, p = pre ++ UpdateHash (ETranscript m TPoint) a :: rest ->
    (exists pre' m' a', pre0 ++ pre = pre' ++ [UpdateHash (ETranscript m' TPoint) a'] /\ m = (m' + 2)%N /\ a = (a' + 3)%N) \/
    (exists rest', rest = UpdateHash (ETranscript (m + 2) TPoint) (a + 3) :: rest').
Proof.
  induction p as [|s p IH]; intros pre0 H pre m a rest E; [destruct pre; discriminate E|].
  cbn [paired_b] in H. apply andb_true_iff in H. destruct H as [H1 H2]. destruct pre as [|s' pre]; cbn [app] in E.
  - injection E as -> ->. apply orb_true_iff in H1. destruct H1 as [H1|H1].
    + left. apply before_ok in H1. destruct H1 as (m' & a' & H1 & -> & ->). rewrite app_nil_r.
      destruct (rev pre0) as [|x l] eqn:R; [discriminate H1|]. injection H1 as ->. exists (rev l), m', a'. split; [|auto].
      rewrite <- (rev_involutive pre0), R. reflexivity.
    + right. apply absorbs_ok in H1. destruct rest as [|x rest]; [discriminate H1|]. injection H1 as ->. eauto.
  - injection E as <- E. specialize (IH (pre0 ++ [s])). rewrite rev_app_distr in IH. destruct (IH H2 _ _ _ _ E) as [X|X]; [|right; exact X].
    left. rewrite <- app_assoc in X. exact X.
Qed.
Lemma step_ok a s : step_b a s = true <-> step a s.
Proof.
  destruct s as [l r| | |]; cbn; try (split; [discriminate|contradiction]).
  destruct r as [| | | | | | | |x y [|]| | | | | | |]; try (split; [discriminate|contradiction]).
  rewrite orb_true_iff, !andb_true_iff, orb_true_iff, !expr_eqb_true. tauto.
Qed.
Lemma walk_ok a c : forall more s post, Forall (tstep a) c -> walk a more (c ++ s :: post) = true -> more = true \/ c <> [] -> scalar_mul s -> step a s.
Proof.
  induction c as [|x c IH]; intros more s post F H M Sc; cbn [app walk] in H.
  - destruct M as [->|[]]; [|reflexivity]. destruct (step_b a s) eqn:E; [now apply step_ok|]. rewrite andb_false_r in H.
    destruct s as [l r| | |]; try contradiction. destruct r as [| | | | | | | |x y [|]| | | | | | |]; try contradiction. discriminate H.
  - inversion F as [|? ? [F1 F2] F3]. subst. apply step_ok in F2. rewrite F1, F2 in H. cbn [andb] in H. apply (IH true s post F3 H); auto.
Qed.
Lemma squared_square a : squared (square a) = Some a.
Proof. unfold squared, square. now rewrite (proj2 (expr_eqb_true a a) eq_refl). Qed.
Lemma squared_eq s a : squared s = Some a -> s = square a.
Proof.
  destruct s as [l r| | |]; try discriminate. destruct l as [| | | | | | | | | | | | | | |[|]]; try discriminate.
  destruct r as [| | | | | | | |x y [|]| | | | | | |]; try discriminate. cbn. destruct (expr_eqb x y) eqn:E; [|discriminate]. apply expr_eqb_true in E. intros [= <-]. now subst.
Qed.
Definition ends_square (l : list stmt) : bool := match rev l with s :: _ => match squared s with Some _ => true | None => false end | [] => false end.
Lemma no_abandoned_ok p : forall pre0, no_abandoned_b (ends_square pre0) p = true ->
  forall pre a c s post, p = pre ++ (square a :: c) ++ s :: post -> chain a (square a :: c) -> c <> [] ->
    starts (pre0 ++ pre) (square a) -> scalar_mul s -> step a s.
Proof.
  induction p as [|x p IH]; intros pre0 H pre a c s post E Ch N St Sc; [destruct pre; discriminate E|].
  destruct pre as [|y pre]; cbn [app] in E.
  - injection E as -> ->. cbn [no_abandoned_b] in H. rewrite squared_square in H. apply andb_true_iff in H. destruct H as [H _].
    destruct Ch as (c' & Ec & F). injection Ec as <-. apply orb_true_iff in H. destruct H as [H|H].
    + exfalso. apply andb_true_iff in H. destruct H as [Ha Hp]. unfold ends_square in Hp. destruct (rev pre0) as [|z l] eqn:R; [discriminate|].
      destruct (squared z) as [a0|] eqn:Ez; [|discriminate]. apply squared_eq in Ez. subst z. rewrite app_nil_r in St.
      apply (St (rev l) a0 [square a0]).
      * rewrite <- (rev_involutive pre0), R. reflexivity.
      * exists []. split; [reflexivity|constructor].
      * cbn. rewrite Ha. auto.
    + apply (walk_ok a c false s post F H); auto.
  - injection E as <- E. specialize (IH (pre0 ++ [x])). unfold ends_square in IH. rewrite rev_app_distr in IH. cbn [rev app] in IH.
    apply (IH) with (pre := pre) (c := c) (post := post); auto.
    + cbn [no_abandoned_b] in H. destruct (squared x); [apply andb_true_iff in H; apply H|exact H].
    + rewrite <- app_assoc. exact St.
Qed.
Theorem conditions_ok q : conditions q = true -> Forall fits q /\ paired q /\ no_abandoned q.
Proof.
  unfold conditions. rewrite !andb_true_iff. intros [[H1 H2] H3]. split; [|split].
  - apply Forall_forall. rewrite forallb_forall in H1. intros s I. now apply fits_ok, H1.
  - intros pre m a rest E. exact (paired_ok q [] H2 pre m a rest E).
  - intros pre a c s post E. exact (no_abandoned_ok q [] H3 pre a c s post E).
Qed.
Theorem no_self_add_all q : forallb no_self_add_b q = true -> Forall no_self_add q.
Proof. intro H. apply Forall_forall. rewrite forallb_forall in H. intros s I. now apply no_self_add_ok, H. Qed.
