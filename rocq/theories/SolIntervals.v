(** What [build_intervals] computes: one interval per assignment, ending no earlier
    than the last statement that reads the cell. *)
From Coq Require Import ZArith NArith List Bool Lia.
From Verif Require Import Util Algebra PField Curve Evm SolIr SolScan SolSem ListFacts.
Import ListNotations.

(** the expression a statement evaluates *)
Definition rhs (s : stmt) : expr := match s with Assign _ r => r | UpdateHash e _ => e | _ => EScalar 0 end.
Definition reads (s : stmt) (o : N) (t : ty) : Prop := In (EMemory o t) (leaves (rhs s)).
(** targets with the index of the assignment *)
Fixpoint defs (i : nat) (p : list stmt) : list (N * ty * nat) :=
  match p with
  | [] => []
  | Assign (EMemory o t) _ :: p => (o, t, i) :: defs (S i) p
  | _ :: p => defs (S i) p
  end.
Definition iv_key (iv : interval) : N * ty * nat := (iv_expr iv, iv_t iv, iv_start iv).

Lemma expr_eqb_true a c : expr_eqb a c = true <-> a = c.
Proof. unfold expr_eqb. destruct (expr_eq_dec a c); split; congruence. Qed.
Lemma ty_eqb_true a c : ty_eqb a c = true <-> a = c.
Proof. unfold ty_eqb. destruct (ty_eq_dec a c); split; congruence. Qed.

Lemma nth_update {A} (f : A -> A) l : forall i k,
  nth_error (update_nth i f l) k = if (i =? k)%nat then option_map f (nth_error l k) else nth_error l k.
Proof.
  induction l as [|x l IH]; intros [|i] [|k]; cbn; try reflexivity.
  - now destruct (i =? k)%nat.
  - apply IH.
Qed.
Lemma length_update {A} (f : A -> A) l : forall i, length (update_nth i f l) = length l.
Proof. induction l as [|x l IH]; intros [|i]; cbn; auto. Qed.

Lemma nth_ext_error {A} (l r : list A) : (forall k, nth_error l k = nth_error r k) -> l = r.
Proof.
  revert r. induction l as [|x l IH]; intros [|y r] H; [reflexivity|specialize (H O); discriminate..|].
  f_equal; [specialize (H O); now injection H|]. apply IH. intro k. apply (H (S k)).
Qed.

Definition hits (tb : table) (k : nat) (L : list expr) : bool :=
  existsb (fun e => match lookup e tb with Some j => (j =? k)%nat | None => false end) L.
Lemma fold_touch c tb L : forall ivs k,
  nth_error (fold_left (touch c tb) L ivs) k = option_map (fun iv => if hits tb k L then set_end c iv else iv) (nth_error ivs k).
Proof.
  induction L as [|e L IH]; intros ivs k; cbn [fold_left hits existsb].
  - now destruct (nth_error ivs k).
  - rewrite IH. unfold touch. destruct (lookup e tb) as [j|]; [|reflexivity]. rewrite nth_update.
    destruct (Nat.eqb_spec j k) as [->|]; [|reflexivity]. destruct (nth_error ivs k) as [iv|]; [|reflexivity]. cbn [option_map orb].
    destruct (hits tb k L); reflexivity.
Qed.
Lemma fold_touch_length c tb L : forall ivs, length (fold_left (touch c tb) L ivs) = length ivs.
Proof.
  induction L as [|e L IH]; intro ivs; cbn [fold_left]; [reflexivity|]. rewrite IH. unfold touch.
  destruct (lookup e tb); [apply length_update|reflexivity].
Qed.
Lemma hits_true tb k L e : In e L -> lookup e tb = Some k -> hits tb k L = true.
Proof. intros H E. apply existsb_exists. exists e. split; [exact H|]. now rewrite E, Nat.eqb_refl. Qed.

Lemma targets_app p q : targets (p ++ q) = targets p ++ targets q.
Proof. induction p as [|s p IH]; [reflexivity|]. cbn. destruct s as [[]| | |]; cbn; now rewrite IH. Qed.
Lemma defs_app p : forall i q, defs i (p ++ q) = defs i p ++ defs (i + length p) q.
Proof.
  induction p as [|s p IH]; intros i q; cbn [app defs length]; [now rewrite Nat.add_0_r|].
  destruct s as [[]| | |]; cbn [defs app]; rewrite IH; replace (S i + length p)%nat with (i + S (length p))%nat by lia; reflexivity.
Qed.
Lemma defs_targets p : forall i, map fst (defs i p) = targets p.
Proof. induction p as [|s p IH]; intro i; [reflexivity|]. cbn. destruct s as [[]| | |]; cbn; now rewrite IH. Qed.

(** the state of the loop after the statements [pre] *)
Record built (pre : list stmt) (ivs : list interval) (tb : table) : Prop := mkBuilt {
  bt_keys : map iv_key ivs = defs 0 pre;
  bt_blocks : Forall (fun iv => iv_block iv = None) ivs;
  bt_lookup : forall e k, lookup e tb = Some k <-> exists o t, e = EMemory o t /\ nth_error (targets pre) k = Some (o, t);
  bt_ends : forall k iv, nth_error ivs k = Some iv ->
    (iv_start iv <= iv_end iv < length pre)%nat /\
    forall i s, nth_error pre i = Some s -> reads s (iv_expr iv) (iv_t iv) -> (i <= iv_end iv)%nat
}.

Lemma keys_targets pre ivs k iv : map iv_key ivs = defs 0 pre -> nth_error ivs k = Some iv -> nth_error (targets pre) k = Some (iv_expr iv, iv_t iv).
Proof.
  intros H E. rewrite <- (defs_targets pre 0), <- H, map_map. rewrite nth_error_map, E. reflexivity.
Qed.
Lemma keys_length pre ivs : map iv_key ivs = defs 0 pre -> length ivs = length (targets pre).
Proof. intro H. rewrite <- (defs_targets pre 0), <- H, !map_length. reflexivity. Qed.
Lemma nth_error_last {A} (l : list A) x k : nth_error (l ++ [x]) k = if (k =? length l)%nat then Some x else nth_error l k.
Proof.
  destruct (Nat.eqb_spec k (length l)) as [->|N].
  - rewrite nth_error_app2, Nat.sub_diag by lia. reflexivity.
  - destruct (Nat.lt_ge_cases k (length l)) as [L|L]; [now rewrite nth_error_app1|].
    rewrite nth_error_app2 by lia. destruct (k - length l)%nat as [|[|m]] eqn:D; [lia| |]; cbn; symmetry; apply nth_error_None; lia.
Qed.

(** touching the leaves of the current statement *)
Lemma touch_step pre s ivs tb c : c = length pre ->
  map iv_key ivs = defs 0 (pre ++ [s]) -> Forall (fun iv => iv_block iv = None) ivs ->
  (forall e k, lookup e tb = Some k <-> exists o t, e = EMemory o t /\ nth_error (targets (pre ++ [s])) k = Some (o, t)) ->
  (forall k iv, nth_error ivs k = Some iv -> (iv_start iv <= iv_end iv < length (pre ++ [s]))%nat /\
    forall i s', nth_error pre i = Some s' -> reads s' (iv_expr iv) (iv_t iv) -> (i <= iv_end iv)%nat) ->
  (forall o t, reads s o t -> True) ->
  built (pre ++ [s]) (fold_left (touch c tb) (leaves (rhs s)) ivs) tb.
Proof.
  intros -> K B L Ends _. set (ivs' := fold_left _ _ _).
  assert (Keys : map iv_key ivs' = map iv_key ivs).
  { apply nth_ext_error. intro k. rewrite !nth_error_map. unfold ivs'. rewrite fold_touch. destruct (nth_error ivs k); [|reflexivity].
    cbn [option_map]. destruct (hits tb k _); reflexivity. }
  constructor.
  - now rewrite Keys.
  - apply Forall_forall. intros iv' H. apply In_nth_error in H. destruct H as [k H]. unfold ivs' in H. rewrite fold_touch in H.
    destruct (nth_error ivs k) as [iv|] eqn:E; [|discriminate]. cbn [option_map] in H. injection H as <-.
    assert (Bk : iv_block iv = None) by (rewrite Forall_forall in B; apply B; eapply nth_error_In; exact E).
    destruct (hits tb k _); exact Bk.
  - exact L.
  - intros k iv' H. unfold ivs' in H. rewrite fold_touch in H. destruct (nth_error ivs k) as [iv|] eqn:E; [|discriminate].
    cbn [option_map] in H. injection H as <-. destruct (Ends k iv E) as [[E1 E2] E3].
    assert (Len : length (pre ++ [s]) = S (length pre)) by (rewrite app_length; cbn; lia).
    destruct (hits tb k (leaves (rhs s))) eqn:Hit.
    + cbn [set_end iv_start iv_end iv_expr iv_t]. split; [rewrite Len in *; lia|].
      intros i s' Hn _. rewrite nth_error_last in Hn. destruct (Nat.eqb_spec i (length pre)); [lia|].
      assert (i < length pre)%nat by (apply nth_error_Some; congruence). lia.
    + split; [lia|]. intros i s' Hn R. rewrite nth_error_last in Hn. destruct (Nat.eqb_spec i (length pre)) as [->|]; [|eapply E3; eauto].
      injection Hn as <-. exfalso. unfold reads in R.
      assert (Hl : lookup (EMemory (iv_expr iv) (iv_t iv)) tb = Some k).
      { apply L. exists (iv_expr iv), (iv_t iv). split; [reflexivity|]. eapply keys_targets; eauto. }
      rewrite (hits_true tb k _ _ R Hl) in Hit. discriminate.
Qed.

Lemma ssa_fresh p : forall n known o t, ssa n known p -> In (o, t) (targets p) -> (n <= o)%N.
Proof.
  induction p as [|s p IH]; intros n known o t S H; [destruct H|].
  destruct s as [l r|e off| |]; cbn [ssa targets] in *; try contradiction.
  - destruct l as [o' t'| | | | | | | | | | | | | | |]; try contradiction. destruct S as (A & _ & S). destruct H as [H|H]; [now injection H as <- <-|].
    specialize (IH _ _ _ _ S H). assert (o' + to_length t' <= o)%N by exact IH. lia.
  - destruct S as [_ S]. eapply IH; eauto.
Qed.

Lemma build_stmts_ok p : forall pre n known ivs tb,
  (forall o t, In (o, t) (targets pre) -> (o < n)%N) -> ssa n known p -> built pre ivs tb ->
  exists ivs' tb', build_stmts (length pre) p ivs tb = Some (ivs', tb') /\ built (pre ++ p) ivs' tb'.
Proof.
  induction p as [|s p IH]; intros pre n known ivs tb Lt Hs Bt.
  - exists ivs, tb. rewrite app_nil_r. auto.
  - assert (Len : S (length pre) = length (pre ++ [s])) by (rewrite app_length; cbn; lia).
    replace (pre ++ s :: p) with ((pre ++ [s]) ++ p) by now rewrite <- app_assoc.
    destruct Bt as [K B L Ends].
    destruct s as [l r|e off| |]; cbn [ssa] in Hs; try contradiction.
    + destruct l as [o t| | | | | | | | | | | | | | |]; try contradiction. destruct Hs as (Ho & Hr & Hs). cbn [build_stmts get_type].
      set (iv := mkIv o t None (length pre) (length pre)). rewrite Len. 
      set (s := Assign (EMemory o t) r) in *. set (tb' := (EMemory o t, length ivs) :: tb).
      change (leaves r) with (leaves (rhs s)).
      assert (Tg : targets (pre ++ [s]) = targets pre ++ [(o, t)]) by (rewrite targets_app; reflexivity).
      apply (IH (pre ++ [s]) (o + to_length t)%N ((o, t) :: known)).
      * intros o' t' H. rewrite Tg in H. apply in_app_or in H. destruct H as [H|[H|[]]].
        -- apply Lt in H. destruct t; cbn; lia.
        -- injection H as <- <-. destruct t; cbn; lia.
      * exact Hs.
      * apply touch_step; try reflexivity; auto.
        -- rewrite map_app, K, defs_app. reflexivity.
        -- apply Forall_app. split; [exact B|]. repeat constructor.
        -- intros e k. unfold tb'. cbn [lookup]. destruct (expr_eqb (EMemory o t) e) eqn:Eq.
           ++ apply expr_eqb_true in Eq. subst e. rewrite Tg, (keys_length _ _ K). split.
              ** intro H. injection H as <-. exists o, t. split; [reflexivity|]. rewrite nth_error_last, Nat.eqb_refl. reflexivity.
              ** intros (o' & t' & H & Nk). injection H as <- <-. rewrite nth_error_last in Nk. destruct (Nat.eqb_spec k (length (targets pre))); [congruence|].
                 apply nth_error_In, Lt in Nk. lia.
           ++ rewrite L. rewrite Tg. split; intros (o' & t' & -> & Nk); exists o', t'; (split; [reflexivity|]).
              ** rewrite nth_error_last. destruct (Nat.eqb_spec k (length (targets pre))) as [->|]; [|exact Nk].
                 exfalso. assert (length (targets pre) < length (targets pre))%nat by (apply nth_error_Some; congruence). lia.
              ** rewrite nth_error_last in Nk. destruct (Nat.eqb_spec k (length (targets pre))) as [->|]; [|exact Nk].
                 injection Nk as <- <-. rewrite (proj2 (expr_eqb_true _ _) eq_refl) in Eq. discriminate.
        -- intros k iv' H. rewrite nth_error_last in H. destruct (Nat.eqb_spec k (length ivs)) as [->|].
           ++ injection H as <-. unfold iv. cbn [iv_start iv_end]. split; [lia|]. intros i s' Hn _.
              assert (i < length pre)%nat by (apply nth_error_Some; congruence). lia.
           ++ destruct (Ends k iv' H) as [E1 E2]. split; [lia|exact E2].
    + destruct Hs as [He Hs]. cbn [build_stmts]. rewrite Len. set (s := UpdateHash e off) in *. change (leaves e) with (leaves (rhs s)).
      assert (Tg : targets (pre ++ [s]) = targets pre) by (rewrite targets_app; apply app_nil_r).
      apply (IH (pre ++ [s]) n known); [rewrite Tg; exact Lt|exact Hs|]. apply touch_step; try reflexivity; auto.
      * rewrite K, defs_app. symmetry. apply app_nil_r.
      * intros e' k. rewrite L, Tg. reflexivity.
      * intros k iv' H. destruct (Ends k iv' H) as [E1 E2]. split; [lia|exact E2].
Qed.

(** * The whole function *)
Record intervals (p : list stmt) (es : list expr) (ivs : list interval) (tb : table) : Prop := mkIntervals {
  it_keys : map iv_key ivs = defs 0 p;
  it_blocks : Forall (fun iv => iv_block iv = None) ivs;
  it_lookup : forall e k, lookup e tb = Some k <-> exists o t, e = EMemory o t /\ nth_error (targets p) k = Some (o, t);
  it_range : forall k iv, nth_error ivs k = Some iv -> (iv_start iv < length p /\ iv_start iv <= iv_end iv <= S (length p))%nat;
  it_reads : forall k iv i s, nth_error ivs k = Some iv -> nth_error p i = Some s -> reads s (iv_expr iv) (iv_t iv) -> (i <= iv_end iv)%nat;
  it_result : forall k iv e, nth_error ivs k = Some iv -> In e es -> In (EMemory (iv_expr iv) (iv_t iv)) (leaves e) -> iv_end iv = S (length p)
}.

Lemma fold_fold_touch c tb es : forall ivs, fold_left (fun ivs e => fold_left (touch c tb) (leaves e) ivs) es ivs =
  fold_left (touch c tb) (flat_map leaves es) ivs.
Proof. induction es as [|e es IH]; intro ivs; cbn [fold_left flat_map]; [reflexivity|]. now rewrite IH, fold_left_app. Qed.

Lemma build_intervals_ok p es n known : ssa n known p -> exists ivs tb, build_intervals p es = Some (ivs, tb) /\ intervals p es ivs tb.
Proof.
  intro Hs. destruct (build_stmts_ok p [] n known [] []) as (ivs & tb & E & Bt).
  - intros o t [].
  - exact Hs.
  - constructor; try reflexivity; [constructor|..].
    + intros e k. cbn. split; [discriminate|]. intros (o & t & _ & H). now destruct k.
    + intros [|k] iv H; discriminate.
  - cbn [app length] in *. unfold build_intervals. rewrite E. cbn beta iota. do 2 eexists. split; [reflexivity|]. rewrite fold_fold_touch.
    destruct Bt as [K B L Ends]. set (ivs' := fold_left _ _ _).
    assert (Nth : forall k iv', nth_error ivs' k = Some iv' -> exists iv, nth_error ivs k = Some iv /\
      iv' = if hits tb k (flat_map leaves es) then set_end (S (length p)) iv else iv).
    { intros k iv' H. unfold ivs' in H. rewrite fold_touch in H. destruct (nth_error ivs k) as [iv|]; [|discriminate]. exists iv. split; [reflexivity|].
      cbn [option_map] in H. congruence. }
    constructor.
    + rewrite <- K. apply nth_ext_error. intro k. rewrite !nth_error_map. unfold ivs'. rewrite fold_touch. destruct (nth_error ivs k); [|reflexivity].
      cbn [option_map]. destruct (hits tb k _); reflexivity.
    + apply Forall_forall. intros iv' H. apply In_nth_error in H. destruct H as [k H]. destruct (Nth k iv' H) as (iv & Hk & ->).
      assert (Bk : iv_block iv = None) by (rewrite Forall_forall in B; apply B; eapply nth_error_In; exact Hk). destruct (hits tb k _); exact Bk.
    + exact L.
    + intros k iv' H. destruct (Nth k iv' H) as (iv & Hk & ->). destruct (Ends k iv Hk) as [E1 _]. destruct (hits tb k _); cbn [set_end iv_start iv_end]; lia.
    + intros k iv' i s H Hi R. destruct (Nth k iv' H) as (iv & Hk & ->). destruct (Ends k iv Hk) as [E1 E2].
      assert (i < length p)%nat by (apply nth_error_Some; congruence). destruct (hits tb k _); cbn [set_end iv_end]; [lia|]. eapply E2; eauto.
    + intros k iv' e H He Hl. destruct (Nth k iv' H) as (iv & Hk & ->). destruct (hits tb k (flat_map leaves es)) eqn:Hit; [reflexivity|]. exfalso.
      assert (Hl2 : lookup (EMemory (iv_expr iv) (iv_t iv)) tb = Some k).
      { apply L. exists (iv_expr iv), (iv_t iv). split; [reflexivity|]. eapply keys_targets; eauto. }
      assert (In (EMemory (iv_expr iv) (iv_t iv)) (flat_map leaves es)) by (apply in_flat_map; eauto).
      rewrite (hits_true tb k _ _ H0 Hl2) in Hit. discriminate.
Qed.
