(** [combine_mul_add] preserves the outcome of the program. *)
From Coq Require Import ZArith NArith List Bool Lia.
From Verif Require Import Util Algebra PField Curve Evm EvmProofs SolIr SolScan SolSem SolIntervals ListFacts.
Import ListNotations.

Definition orel {A B} (R : A -> B -> Prop) (x : option A) (y : option B) : Prop :=
  match x, y with Some a, Some c => R a c | None, None => True | _, _ => False end.
Lemma orel_bind {A A' B B'} (R : A -> A' -> Prop) (Q : B -> B' -> Prop) x y f g :
  orel R x y -> (forall a a', R a a' -> orel Q (f a) (g a')) -> orel Q (do a <- x; f a) (do a <- y; g a).
Proof. destruct x, y; cbn; intros H K; try contradiction; auto. Qed.

(** an addition whose operand is a cell that the other operand reads too *)
Definition no_self_add (s : stmt) : Prop :=
  match s with
  | Assign _ (EAdd l r _) => forall o t, (l = EMemory o t -> ~ In l (leaves r)) /\ (r = EMemory o t -> ~ In r (leaves l))
  | _ => True
  end.

(** the cells of [L] lie below [n] *)
Definition below (n : N) (L : list (N * ty)) : Prop := forall o t, In (o, t) L -> (o + to_length t <= n)%N.

Lemma reads_sub K K' e : (forall x, In x K -> In x K') -> reads_ok K e -> reads_ok K' e.
Proof. intros S. apply Forall_impl. intros [] H; auto. apply (S _ H). Qed.
Lemma ssa_sub p : forall n K K', (forall x, In x K -> In x K') -> ssa n K p -> ssa n K' p.
Proof.
  induction p as [|s p IH]; intros n K K' S H; [exact I|]. destruct s as [[]| | |]; cbn [ssa] in *; try contradiction.
  - destruct H as (A & (B & C) & D). split; [exact A|]. split; [split; [exact B|eapply reads_sub; eauto]|]. eapply IH; [|exact D]. cbn. intuition.
  - destruct H as [A B]. split; [eapply reads_sub; eauto|eapply IH; eauto].
Qed.
Lemma reads_drop o t K K' e : ~ In (EMemory o t) (leaves e) -> (forall x, In x K -> x = (o, t) \/ In x K') -> reads_ok K e -> reads_ok K' e.
Proof.
  intros H S. unfold reads_ok. rewrite !Forall_forall. intros R l Hl. specialize (R l Hl). destruct l as [o' t'| | | | | | | | | | | | | | |]; try exact R.
  cbn in *. destruct (S _ R) as [E|E]; [|exact E]. injection E as -> ->. contradiction.
Qed.
Lemma ssa_drop o t p : forall n K K', (forall s, In s p -> ~ reads s o t) -> (forall x, In x K -> x = (o, t) \/ In x K') -> ssa n K p -> ssa n K' p.
Proof.
  induction p as [|s p IH]; intros n K K' Hr S H; [exact I|].
  assert (R0 := Hr s (or_introl eq_refl)). assert (Rp := fun s Hs => Hr s (or_intror Hs)).
  destruct s as [[]| | |]; cbn [ssa] in *; try contradiction.
  - destruct H as (A & (B & C) & D). split; [exact A|]. split; [split; [exact B|exact (reads_drop _ _ _ _ _ R0 S C)]|]. eapply IH; [exact Rp| |exact D]. cbn. intros x [X|X]; [tauto|]. destruct (S x X); tauto.
  - destruct H as [A B]. split; [exact (reads_drop _ _ _ _ _ R0 S A)|eapply IH; eauto].
Qed.
Lemma ssa_low p : forall n n' K, (n' <= n)%N -> ssa n K p -> ssa n' K p.
Proof.
  induction p as [|s p IH]; intros n n' K Hn H; [exact I|]. destruct s as [[]| | |]; cbn [ssa] in *; try contradiction.
  - destruct H as (A & H). split; [lia|exact H].
  - destruct H as (A & H). split; [exact A|]. eapply IH; eauto.
Qed.
Lemma top_ge p : forall n K, ssa n K p -> (n <= top n p)%N.
Proof.
  induction p as [|s p IH]; intros n K H; [apply N.le_refl|]. destruct s as [[]| | |]; cbn [ssa top] in *; try contradiction.
  - destruct H as (A & _ & H). apply IH in H. lia.
  - destruct H as [_ H]. eapply IH; eauto.
Qed.

Section Sem.
  Variable W : PF.
  Variable b : W.
  Variable checked : bool.
  Variable sha256 : list Z -> list Z.
  Variable E : env.
  Notation eval := (eval b checked E). Notation exec := (exec b checked sha256 E). Notation run := (run b checked sha256 E).

  (** two states that agree on the cells of [L] *)
  Record agree (L : list (N * ty)) (s s' : st) : Prop := mkAgree {
    ag_abs : absorbing s = absorbing s';
    ag_mem : forall o t, In (o, t) L -> eval s (EMemory o t) = eval s' (EMemory o t)
  }.
  Lemma agree_eval L s s' e : agree L s s' -> reads_ok L e -> eval s e = eval s' e.
  Proof.
    intros A R. symmetry. apply eval_ext. intros l Hl. unfold reads_ok in R. rewrite Forall_forall in R. specialize (R l Hl).
    destruct l as [o t|o t|o t|o t| | | | | | | | | | | |]; try contradiction; try reflexivity. symmetry. now apply (ag_mem _ _ _ A).
  Qed.

  Lemma store_agree L n s s' o t v : agree L s s' -> below n L -> (n <= o)%N ->
    orel (agree ((o, t) :: L)) (store E s (EMemory o t) v) (store E s' (EMemory o t) v).
  Proof.
    intros A B Ho. destruct t, v as [z|x y]; cbn [store]; try exact I; unfold wr.
    - destruct (N.ltb_spec o (e_msize E)) as [L1|L1]; [|exact I]. constructor; [exact (ag_abs _ _ _ A)|]. cbn [In]. intros o' t' [H|H].
      + injection H as <- <-. cbn [SolIr.eval mem]. unfold rd, upd. rewrite N.eqb_refl. reflexivity.
      + assert (H1 := ag_mem _ _ _ A _ _ H). assert (H2 := B _ _ H). destruct t'; cbn [SolIr.eval mem to_length] in *; unfold rd, upd in *.
        * now rewrite !(proj2 (N.eqb_neq o' o)) by lia.
        * now rewrite !(proj2 (N.eqb_neq o' o)), !(proj2 (N.eqb_neq (o' + 1) o)) by lia.
    - destruct (N.ltb_spec o (e_msize E)) as [L1|L1]; [|exact I]. destruct (N.ltb_spec (o + 1) (e_msize E)) as [L2|L2]; [|exact I].
      constructor; [exact (ag_abs _ _ _ A)|]. cbn [In]. intros o' t' [H|H].
      + injection H as <- <-. cbn [SolIr.eval mem]. unfold rd, upd. rewrite !N.eqb_refl. now rewrite (proj2 (N.eqb_neq o (o + 1))) by lia.
      + assert (H1 := ag_mem _ _ _ A _ _ H). assert (H2 := B _ _ H). destruct t'; cbn [SolIr.eval mem to_length] in *; unfold rd, upd in *.
        * now rewrite !(proj2 (N.eqb_neq o' (o + 1))), !(proj2 (N.eqb_neq o' o)) by lia.
        * now rewrite !(proj2 (N.eqb_neq o' (o + 1))), !(proj2 (N.eqb_neq o' o)), !(proj2 (N.eqb_neq (o' + 1) o)), !(proj2 (N.eqb_neq (o' + 1) (o + 1))) by lia.
  Qed.
  Lemma agree_abs L s s' a : agree L s s' -> agree L (set_abs s a) (set_abs s' a).
  Proof. intros [A B]. constructor; [reflexivity|]. intros o t H. specialize (B o t H). destruct t; exact B. Qed.

  (** one statement *)
  Lemma exec_assign s l r : exec s (Assign l r) =
    match r with
    | EHash n => do (v, a) <- squeeze_challenge sha256 (e_asize E) (absorbing s) n; store E (set_abs s a) l (VS v)
    | _ => do v <- eval s r; store E s l v
    end.
  Proof. now destruct r. Qed.
  Lemma exec_agree_assign L n s s' o t r : agree L s s' -> below n L -> (n <= o)%N -> reads_ok L r ->
    orel (agree ((o, t) :: L)) (exec s (Assign (EMemory o t) r)) (exec s' (Assign (EMemory o t) r)).
  Proof.
    intros A B Ho R. rewrite !exec_assign.
    assert (G : orel (agree ((o, t) :: L)) (do v <- eval s r; store E s (EMemory o t) v) (do v <- eval s' r; store E s' (EMemory o t) v)).
    { rewrite (agree_eval L s s' r A R). destruct (eval s' r); [|exact I]. eapply store_agree; eauto. }
    destruct r; try exact G. rewrite <- (ag_abs _ _ _ A). destruct (squeeze_challenge _ _ _ _) as [[v a]|]; [|exact I].
    eapply store_agree; [apply agree_abs, A|exact B|exact Ho].
  Qed.
  Lemma exec_agree_hash L s s' e k : agree L s s' -> reads_ok L e -> orel (agree L) (exec s (UpdateHash e k)) (exec s' (UpdateHash e k)).
  Proof.
    intros A R. cbn [SolIr.exec]. rewrite (agree_eval L s s' e A R), (ag_abs _ _ _ A). destruct (eval s' e) as [v|]; [|exact I]. destruct (get_type e).
    - destruct (sc v); [|exact I]. destruct (update_hash_scalar _ _ _ _); [|exact I]. now apply agree_abs.
    - destruct (pt v) as [[]|]; [|exact I]. destruct (update_hash_point _ _ _ _ _); [|exact I]. now apply agree_abs.
  Qed.
  Definition added (s : stmt) (L : list (N * ty)) : list (N * ty) := match s with Assign (EMemory o t) _ => (o, t) :: L | _ => L end.
  Definition above (s : stmt) (n : N) : N := match s with Assign (EMemory o t) _ => o + to_length t | _ => n end.
  Lemma below_added n L s p : below n L -> ssa n L (s :: p) -> below (above s n) (added s L) /\ ssa (above s n) (added s L) p.
  Proof.
    intros B H. destruct s as [[]| | |]; cbn [ssa added above] in *; try contradiction.
    - destruct H as (A & _ & H). split; [|exact H]. intros o' t' [X|X]; [injection X as <- <-; lia|]. apply B in X. lia.
    - destruct H as [_ H]. auto.
  Qed.
  Lemma exec_agree L n s s' c p : agree L s s' -> below n L -> ssa n L (c :: p) -> orel (agree (added c L)) (exec s c) (exec s' c).
  Proof.
    intros A B H. destruct c as [[o t| | | | | | | | | | | | | | |] r|e k| |]; cbn [ssa added] in *; try contradiction.
    - destruct H as (H1 & (_ & H2) & _). eapply exec_agree_assign; eauto.
    - destruct H as (H1 & _). now apply exec_agree_hash.
  Qed.
  Lemma top_above s n K p : ssa n K (s :: p) -> top n (s :: p) = top (above s n) p.
  Proof. destruct s as [[]| | |]; try reflexivity. Qed.

  (** * Fusing two statements *)
  Lemma ecAdd_comm ax ay bx by_ : ecAdd b ax ay bx by_ = ecAdd b bx by_ ax ay.
  Proof.
    unfold ecAdd. destruct (decode b ax ay) as [P|] eqn:EP, (decode b bx by_) as [Q|] eqn:EQ; try reflexivity. 
    now rewrite (padd_comm W b P Q (decode_on W b _ _ _ EP) (decode_on W b _ _ _ EQ)).
  Qed.
  Lemma store_read s o t v s1 : store E s (EMemory o t) v = Some s1 -> eval s1 (EMemory o t) = Some v.
  Proof.
    destruct t, v as [z|x y]; cbn [store]; try discriminate; unfold wr.
    - destruct (N.ltb_spec o (e_msize E)); [|discriminate]. intro H1. injection H1 as <-. cbn. unfold rd, upd. rewrite N.eqb_refl, (proj2 (N.ltb_lt _ _)) by assumption. reflexivity.
    - destruct (N.ltb_spec o (e_msize E)); [|discriminate]. destruct (N.ltb_spec (o + 1) (e_msize E)); [|discriminate]. intro H1. injection H1 as <-. cbn. unfold rd, upd.
      rewrite !N.eqb_refl, !(proj2 (N.ltb_lt _ _)) by assumption. rewrite (proj2 (N.eqb_neq o (o + 1))) by lia. reflexivity.
  Qed.
  Definition has_ty (v : value) (t : ty) : Prop := match v, t with VS _, TScalar | VP _ _, TPoint => True | _, _ => False end.
  Lemma store_fits s o t v : has_ty v t -> (o + to_length t <= e_msize E)%N -> exists s1, store E s (EMemory o t) v = Some s1.
  Proof.
    destruct v, t; try contradiction; intros _ H; cbn [store to_length] in *; unfold wr.
    - rewrite (proj2 (N.ltb_lt _ _)) by lia. eauto.
    - rewrite !(proj2 (N.ltb_lt _ _)) by lia. eauto.
  Qed.
  Lemma eval_mul_ty s l r t v : eval s (EMul l r t) = Some v -> has_ty v t.
  Proof.
    destruct t; cbn [SolIr.eval].
    - destruct (eval s l) as [v1|]; [|discriminate]. destruct (eval s r) as [v2|]; [|discriminate]. destruct (sc v1), (sc v2); try discriminate. intro H. now injection H as <-.
    - destruct (eval s r) as [v1|]; [|discriminate]. destruct (eval s l) as [v2|]; [|discriminate]. destruct (pt v1) as [[]|]; [|discriminate]. destruct (sc v2); [|discriminate].
      unfold vp. destruct (ecc_mul _ _ _ _) as [[]|]; [|discriminate]. intro H. now injection H as <-.
  Qed.
  (** the product, then the sum, against the fused expression *)
  Lemma fused s l r c t : eval s (EMulAdd r l c t) = 
    (do v <- eval s (EMul l r t); do w <- eval s c;
     match t with
     | TScalar => do x <- sc v; do y <- sc w; Some (VS (fr_add x y))
     | TPoint => do (ax, ay) <- pt v; do (bx, by_) <- pt w; vp (ecc_add b ax ay bx by_)
     end).
  Proof.
    destruct t; cbn [SolIr.eval].
    - destruct (eval s r) as [[]|], (eval s l) as [[]|], (eval s c) as [[]|]; cbn; try reflexivity. unfold fr_mul_add, fr_add, fr_mul, mulmod. now rewrite (Z.mul_comm z z0).
    - destruct (eval s r) as [[]|], (eval s l) as [[]|], (eval s c) as [[]|]; cbn; try reflexivity;
      unfold ecc_mul_add, ecc_mul_add_, ecc_mul, ecc_add, vp; cbn; destruct (ecMul b _ _ _) as [[]|]; cbn; try reflexivity. destruct (ecAdd b _ _ _ _) as [[]|]; reflexivity.
  Qed.
  Lemma add_sym s x y t : eval s (EAdd x y t) = eval s (EAdd y x t).
  Proof.
    destruct t; cbn [SolIr.eval]; destruct (eval s x) as [[]|], (eval s y) as [[]|]; cbn; try reflexivity.
    - unfold fr_add, addmod. now rewrite Z.add_comm.
    - unfold ecc_add. now rewrite ecAdd_comm.
  Qed.
  Lemma pair_ok L n s s' o t l r u t' x : agree L s s' -> below n L -> (n <= o)%N -> (o + to_length t <= u)%N -> (u + to_length t' <= e_msize E)%N ->
    reads_ok L l -> reads_ok L r -> reads_ok L x ->
    orel (agree ((u, t') :: L)) (do s <- exec s (Assign (EMemory o t) (EMul l r t)); exec s (Assign (EMemory u t') (EAdd (EMemory o t) x t)))
      (exec s' (Assign (EMemory u t') (EMulAdd r l x t))).
  Proof.
    intros A B Ho Hu Hm Rl Rr Rx.
    rewrite exec_assign, (exec_assign s'). cbv beta iota. rewrite fused.
    assert (Rm : reads_ok L (EMul l r t)) by (unfold reads_ok; cbn [leaves]; apply Forall_app; auto).
    rewrite (agree_eval L s s' _ A Rm). destruct (eval s' (EMul l r t)) as [v|] eqn:Ev; [|exact I]. cbv beta iota.
    destruct (store_fits s o t v (eval_mul_ty _ _ _ _ _ Ev)) as [s1 H1]; [lia|]. rewrite H1. cbv beta iota.
    (* the product only touches its own cell *)
    assert (A1 : agree L s1 s').
    { assert (H := store_agree L n s s o t v (mkAgree L s s eq_refl (fun _ _ _ => eq_refl)) B Ho). rewrite H1 in H.
      constructor.
      - rewrite <- (ag_abs _ _ _ A). destruct t, v; cbn [store] in H1; try discriminate.
        + destruct (wr _ _ _ _); [|discriminate]. now injection H1 as <-.
        + destruct (wr _ _ _ _) as [m|]; [|discriminate]. destruct (wr _ m _ _); [|discriminate]. now injection H1 as <-.
      - intros o' t1 Hin. rewrite <- (ag_mem _ _ _ A _ _ Hin). assert (H2 := B _ _ Hin).
        destruct t, v as [z|vx vy]; cbn [store] in H1; try discriminate; unfold wr in H1.
        + destruct (N.ltb_spec o (e_msize E)); [|discriminate]. injection H1 as <-.
          destruct t1; cbn [SolIr.eval mem to_length] in *; unfold rd, upd.
          * now rewrite !(proj2 (N.eqb_neq o' o)) by lia.
          * now rewrite !(proj2 (N.eqb_neq o' o)), !(proj2 (N.eqb_neq (o' + 1) o)) by lia.
        + destruct (N.ltb_spec o (e_msize E)); [|discriminate]. destruct (N.ltb_spec (o + 1) (e_msize E)); [|discriminate]. injection H1 as <-.
          destruct t1; cbn [SolIr.eval mem to_length] in *; unfold rd, upd.
          * now rewrite !(proj2 (N.eqb_neq o' (o + 1))), !(proj2 (N.eqb_neq o' o)) by lia.
          * now rewrite !(proj2 (N.eqb_neq o' (o + 1))), !(proj2 (N.eqb_neq o' o)), !(proj2 (N.eqb_neq (o' + 1) o)), !(proj2 (N.eqb_neq (o' + 1) (o + 1))) by lia. }
    rewrite exec_assign.
    assert (Ea : eval s1 (EAdd (EMemory o t) x t) = (do w <- eval s' x; match t with
       | TScalar => do x <- sc v; do y <- sc w; Some (VS (fr_add x y))
       | TPoint => do (ax, ay) <- pt v; do (bx, by_) <- pt w; vp (ecc_add b ax ay bx by_) end)).
    { assert (R1 := store_read _ _ _ _ _ H1). rewrite <- (agree_eval L s1 s' x A1 Rx). 
      destruct t; cbn [SolIr.eval] in *; rewrite R1; cbv beta iota; reflexivity. }
    rewrite Ea. destruct (match eval s' x with Some w => _ | None => None end) as [w|]; [|exact I]. cbv beta iota.
    eapply store_agree; eauto. destruct t; cbn in Hu; lia.
  Qed.

  Lemma agree_sub L L' s s' : (forall x, In x L' -> In x L) -> agree L s s' -> agree L' s s'.
  Proof. intros S [A B]. constructor; [exact A|]. intros o t H. apply B, S, H. Qed.
  Lemma orel_agree_sub L L' x y : (forall z, In z L' -> In z L) -> orel (agree L) x y -> orel (agree L') x y.
  Proof. intro S. destruct x, y; cbn; auto. now apply agree_sub. Qed.

  (** * The loop *)
  Section Loop.
    Variables (es : list expr).
    Definition good (n : N) (L : list (N * ty)) (orig q : list stmt) : Prop :=
      ssa n L q /\ top n q = top n orig /\ Forall (reads_ok (targets q ++ L)) es /\
      forall s s', agree L s s' -> orel (agree (targets q ++ L)) (run orig s) (run q s').
    Lemma in_added c q L x : In x (targets (c :: q) ++ L) <-> In x (targets q ++ added c L).
    Proof. destruct c as [[]| | |]; cbn [targets added]; cbn [app In]; rewrite !in_app_iff; cbn [In]; tauto. Qed.
    Lemma keep n L c rest q : ssa n L (c :: rest) -> below n L -> good (above c n) (added c L) rest q -> good n L (c :: rest) (c :: q).
    Proof.
      intros Hs B (G1 & G2 & G3 & G4). split; [|split; [|split]].
      - destruct c as [[]| | |]; cbn [ssa added above] in *; try contradiction; tauto.
      - destruct c as [[]| | |]; cbn [ssa top above] in *; try contradiction; assumption.
      - revert G3. apply Forall_impl. intro e. apply reads_sub. intro x. apply in_added.
      - intros s s' A. cbn [SolIr.run]. eapply orel_bind; [eapply exec_agree; eauto|]. cbv beta. intros s1 s1' A1.
        eapply orel_agree_sub; [|exact (G4 _ _ A1)]. intro x. apply in_added.
    Qed.
    Lemma no_msize n L p : ssa n L p -> forall o t, In (o, t) (targets p) -> (o + to_length t <= top n p)%N.
    Proof.
      revert n L. induction p as [|s p IH]; intros n L H o t Hin; [destruct Hin|].
      destruct s as [[o1 t1| | | | | | | | | | | | | | |] r| | |]; cbn [ssa targets top] in *; try contradiction.
      - destruct H as (_ & _ & H). destruct Hin as [X|X]; [injection X as <- <-; eapply top_ge; eauto|]. eapply IH; eauto.
      - destruct H as (_ & H). eapply IH; eauto.
    Qed.

    Lemma fuse n L o t l r u t' x p q (flip : bool) :
      let s2 := Assign (EMemory u t') (if flip then EAdd x (EMemory o t) t else EAdd (EMemory o t) x t) in
      ssa n L (Assign (EMemory o t) (EMul l r t) :: s2 :: p) -> below n L ->
      ~ In (EMemory o t) (leaves x) ->
      (top n (Assign (EMemory o t) (EMul l r t) :: s2 :: p) <= e_msize E)%N ->
      good (u + to_length t') ((u, t') :: L) p q ->
      good n L (Assign (EMemory o t) (EMul l r t) :: s2 :: p) (Assign (EMemory u t') (EMulAdd r l x t) :: q).
    Proof.
      intros s2 Hs B Nx Hm (G1 & G2 & G3 & G4).
      assert (Hs' := Hs). destruct Hs' as (Ho & (_ & Rm) & Hs'). cbn [reads_ok leaves] in Rm. apply Forall_app in Rm. destruct Rm as [Rl Rr].
      assert (X : (o + to_length t <= u)%N /\ t = t' /\ reads_ok ((o, t) :: L) x /\ ssa (u + to_length t') ((u, t') :: (o, t) :: L) p).
      { unfold s2 in Hs'. destruct flip; cbn [ssa get_type] in Hs'; destruct Hs' as (H1 & (H2 & H3) & H4); cbn [reads_ok leaves] in H3; apply Forall_app in H3; tauto. }
      destruct X as (Hu & <- & Rx & Hp).
      assert (Rx' : reads_ok L x). { eapply reads_drop; [exact Nx| |exact Rx]. cbn. intuition. }
      assert (Hu2 : (u + to_length t <= e_msize E)%N).
      { eapply N.le_trans; [|exact Hm]. unfold s2. cbn [top]. eapply top_ge; exact Hp. }
      split; [|split; [|split]].
      - cbn [ssa]. split; [destruct t; cbn in Hu; lia|]. split; [|exact G1]. split; [reflexivity|]. unfold reads_ok. cbn [leaves]. rewrite !Forall_app. auto.
      - unfold s2. cbn [top]. exact G2.
      - revert G3. apply Forall_impl. intro e. apply reads_sub. intros z. cbn [targets app In]. rewrite !in_app_iff. cbn [In]. tauto.
      - intros s s' A.
        assert (P := pair_ok L n s s' o t l r u t x A B Ho Hu Hu2 Rl Rr Rx').
        assert (Ee : run (Assign (EMemory o t) (EMul l r t) :: s2 :: p) s =
          do s1 <- (do s1 <- exec s (Assign (EMemory o t) (EMul l r t)); exec s1 (Assign (EMemory u t) (EAdd (EMemory o t) x t))); run p s1).
        { cbn [SolIr.run]. destruct (exec s (Assign (EMemory o t) (EMul l r t))) as [s1|]; [|reflexivity]. cbv beta iota.
          replace (exec s1 s2) with (exec s1 (Assign (EMemory u t) (EAdd (EMemory o t) x t))); [reflexivity|].
          unfold s2. destruct flip; [|reflexivity]. rewrite !exec_assign. now rewrite add_sym. }
        rewrite Ee. apply orel_agree_sub with (L := targets q ++ (u, t) :: L).
        + intros z. cbn [targets app In]. rewrite !in_app_iff. cbn [In]. tauto.
        + cbn [SolIr.run]. eapply orel_bind; [exact P|]. intros s1 s1' A1. exact (G4 _ _ A1).
    Qed.

    Variables (full : list stmt) (ivs : list interval) (tb : table) (n0 : N) (K0 : list (N * ty)).
    Hypothesis Hfull : ssa n0 K0 full.
    Hypothesis Hivs : intervals full es ivs tb.

    Definition last_use (i : nat) (c : stmt) : Prop := exists o t r, c = Assign (EMemory o t) r /\
      (forall j s, nth_error full j = Some s -> reads s o t -> (j <= S i)%nat) /\ forall e, In e es -> ~ In (EMemory o t) (leaves e).
    Lemma ssa_assign p : forall n K l r, ssa n K p -> In (Assign l r) p -> exists o t, l = EMemory o t /\ In (o, t) (targets p).
    Proof.
      induction p as [|s p IH]; intros n K l r H Hin; [destruct Hin|]. destruct Hin as [->|Hin].
      - destruct l; cbn [ssa] in H; try contradiction. cbn [targets In]. eauto.
      - destruct s as [[]| | |]; cbn [ssa targets] in *; try contradiction.
        + destruct H as (_ & _ & H). destruct (IH _ _ _ _ H Hin) as (o' & t' & E1 & E2). exists o', t'. cbn. auto.
        + destruct H as (_ & H). eapply IH; eauto.
    Qed.
    Lemma able_ok i s : nth_error full i = Some s -> exists a, able_to_be_optimized i ivs tb s = Some a /\ (a = true -> last_use i s).
    Proof.
      intro Hi. unfold able_to_be_optimized. destruct s as [l r|e k| |]; cbn [get_assignee]; try (exists false; split; [reflexivity|discriminate]).
      destruct (ssa_assign full _ _ l r Hfull (nth_error_In _ _ Hi)) as (o & t & -> & Hin).
      apply In_nth_error in Hin. destruct Hin as [k Hk].
      assert (Lk : lookup (EMemory o t) tb = Some k) by (apply (it_lookup _ _ _ _ Hivs); eauto). rewrite Lk.
      assert (Len := keys_length _ _ (it_keys _ _ _ _ Hivs)).
      destruct (nth_error ivs k) as [iv|] eqn:Ek.
      2:{ apply nth_error_None in Ek. assert (k < length (targets full))%nat by (apply nth_error_Some; congruence). lia. }
      assert (Kt := keys_targets _ _ _ _ (it_keys _ _ _ _ Hivs) Ek). rewrite Hk in Kt. injection Kt as -> ->.
      cbv beta iota. eexists. split; [reflexivity|]. intro Eq. apply Nat.eqb_eq in Eq.
      exists (iv_expr iv), (iv_t iv), r. split; [reflexivity|]. split.
      - intros j s Hj R. rewrite <- Eq. eapply (it_reads _ _ _ _ Hivs); eauto.
      - intros e He Hl. assert (X := it_result _ _ _ _ Hivs k iv e Ek He Hl). assert (i < length full)%nat by (apply nth_error_Some; congruence). lia.
    Qed.

    Definition ol (c : option stmt) : list stmt := match c with Some c => [c] | None => [] end.
    Lemma combine_loop_ok p : forall pre cand n L,
      full = pre ++ ol cand ++ p -> (forall c, cand = Some c -> last_use (length pre) c) ->
      ssa n L (ol cand ++ p) -> below n L -> Forall no_self_add p -> (top n (ol cand ++ p) <= e_msize E)%N ->
      Forall (reads_ok (targets (ol cand ++ p) ++ L)) es ->
      exists q, combine_loop (length (pre ++ ol cand)) ivs tb cand p = Some q /\ good n L (ol cand ++ p) q.
    Proof.
      assert (Nil : forall n L, Forall (reads_ok L) es -> good n L [] []).
      { intros n L H. split; [exact I|]. split; [reflexivity|]. split; [exact H|]. intros s s' A. exact A. }
      assert (Step : forall n L c rest, ssa n L (c :: rest) -> below n L -> (top n (c :: rest) <= e_msize E)%N -> Forall (reads_ok (targets (c :: rest) ++ L)) es ->
        ssa (above c n) (added c L) rest /\ below (above c n) (added c L) /\ (top (above c n) rest <= e_msize E)%N /\ Forall (reads_ok (targets rest ++ added c L)) es).
      { intros n L c rest H B Ht Hes. destruct (below_added n L c rest B H) as [H1 H2]. split; [exact H2|]. split; [exact H1|]. split; [now rewrite <- (top_above _ _ _ _ H)|].
        revert Hes. apply Forall_impl. intro e. apply reads_sub. intro x. apply in_added. }
      induction p as [|s p IH]; intros pre cand n L Hf Hc Hs B Nsa Ht Hes.
      - cbn [combine_loop]. exists (ol cand). split; [now destruct cand|]. rewrite app_nil_r in *. destruct cand as [c|]; cbn [ol] in *; [|now apply Nil].
        destruct (Step _ _ _ _ Hs B Ht Hes) as (_ & _ & _ & H4). apply keep; auto.
      - cbn [combine_loop]. apply Forall_cons_iff in Nsa. destruct Nsa as [Ns Nsa].
        destruct (able_ok (length (pre ++ ol cand)) s) as (a & -> & Ha).
        { rewrite Hf, app_assoc, nth_error_app2, Nat.sub_diag by lia. reflexivity. }
        cbv beta iota. destruct cand as [c|]; cbn [ol app] in *.
        + assert (Len : S (length (pre ++ [c])) = length ((pre ++ [c]) ++ [s])) by (rewrite !app_length; cbn; lia).
          assert (F1 : full = (pre ++ [c]) ++ s :: p) by (rewrite <- app_assoc; exact Hf).
          assert (F2 : full = ((pre ++ [c]) ++ [s]) ++ p) by (rewrite <- app_assoc; exact F1).
          destruct (combine_pair c s) as [s'|] eqn:Ec.
          * (* fused *)
            destruct (Hc c eq_refl) as (o & t & r0 & -> & U1 & U2).
            unfold combine_pair in Ec. destruct r0 as [| | | | | | | |l r t1| | | | | | |]; try discriminate.
            destruct s as [nl nr| | |]; try discriminate. destruct nr as [| | | | | |x y t2| | | | | | | | |]; try discriminate.
            assert (Hs' := Hs). cbn [ssa] in Hs'. destruct Hs' as (_ & (E1 & _) & Hs'). cbn [get_type] in E1. subst t1.
            destruct nl as [u t'| | | | | | | | | | | | | | |]; try contradiction. destruct Hs' as (Hu & (_ & Rxy) & Hp).
            assert (Later : forall s, In s p -> ~ reads s o t).
            { intros s0 Hin R. apply In_nth_error in Hin. destruct Hin as [j Hj]. specialize (U1 (length ((pre ++ [Assign (EMemory o t) (EMul l r t)]) ++ [Assign (EMemory u t') (EAdd x y t2)]) + j)%nat s0).
              rewrite F2 in U1. rewrite nth_error_app2 in U1 by lia. replace (_ + j - _)%nat with j in U1 by lia. specialize (U1 Hj R). rewrite !app_length in U1. cbn in U1. lia. }
            assert (Hp' : ssa (u + to_length t') ((u, t') :: L) p). { eapply ssa_drop; [exact Later| |exact Hp]. cbn. intuition. }
            assert (B' : below (u + to_length t') ((u, t') :: L)).
            { intros o1 t3 [H|H]; [injection H as <- <-; apply N.le_refl|]. apply B in H. cbn [ssa] in Hs. destruct t, t', t3; cbn in *; lia. }
            assert (Hes' : Forall (reads_ok (targets p ++ (u, t') :: L)) es).
            { rewrite Forall_forall in Hes |- *. intros e He. specialize (Hes e He). eapply reads_drop; [exact (U2 e He)| |exact Hes].
              intros z. cbn [targets app In]. rewrite !in_app_iff. cbn [In]. intuition. }
            destruct (IH ((pre ++ [Assign (EMemory o t) (EMul l r t)]) ++ [Assign (EMemory u t') (EAdd x y t2)]) None (u + to_length t')%N ((u, t') :: L)) as (q & Eq & G); auto; [discriminate|].
            cbn [ol app] in Eq, G. rewrite app_nil_r in Eq. rewrite Len, Eq. cbv beta iota.
            destruct (expr_eqb x (EMemory o t) && ty_eqb t t2) eqn:T1.
            -- apply andb_true_iff in T1. destruct T1 as [T1 T2]. apply expr_eqb_true in T1. apply ty_eqb_true in T2. subst x t2. injection Ec as <-. eexists. split; [reflexivity|].
               apply (fuse n L o t l r u t' y p q false); auto. exact (proj1 (Ns o t) eq_refl).
            -- destruct (expr_eqb y (EMemory o t) && ty_eqb t t2) eqn:T3; [|discriminate].
               apply andb_true_iff in T3. destruct T3 as [T3 T4]. apply expr_eqb_true in T3. apply ty_eqb_true in T4. subst y t2. injection Ec as <-. eexists. split; [reflexivity|].
               apply (fuse n L o t l r u t' x p q true); auto. exact (proj2 (Ns o t) eq_refl).
          * destruct (Step _ _ _ _ Hs B Ht Hes) as (S1 & S2 & S3 & S4).
            destruct a; cbv beta iota.
            -- destruct (IH (pre ++ [c]) (Some s) (above c n) (added c L)) as (q & Eq & G); auto.
               { intros c0 H. injection H as <-. auto. }
               cbn [ol app] in Eq, G. rewrite Len, Eq. eexists. split; [reflexivity|]. now apply keep.
            -- destruct (Step _ _ _ _ S1 S2 S3 S4) as (S5 & S6 & S7 & S8).
               destruct (IH ((pre ++ [c]) ++ [s]) None (above s (above c n)) (added s (added c L))) as (q & Eq & G); auto; [discriminate|].
               cbn [ol app] in Eq, G. rewrite app_nil_r in Eq. rewrite Len, Eq. eexists. split; [reflexivity|]. apply keep; auto. now apply keep.
        + rewrite app_nil_r in *. 
          assert (Len : S (length pre) = length (pre ++ [s])) by (rewrite !app_length; cbn; lia).
          assert (F1 : full = (pre ++ [s]) ++ p) by (rewrite <- app_assoc; exact Hf).
          destruct a; cbv beta iota.
          * destruct (IH pre (Some s) n L) as (q & Eq & G); auto.
            { intros c0 H. injection H as <-. auto. }
            cbn [ol app] in Eq, G. rewrite Len, Eq. eauto.
          * destruct (Step _ _ _ _ Hs B Ht Hes) as (S1 & S2 & S3 & S4).
            destruct (IH (pre ++ [s]) None (above s n) (added s L)) as (q & Eq & G); auto; [discriminate|].
            cbn [ol app] in Eq, G. rewrite app_nil_r in Eq. rewrite Len, Eq. eexists. split; [reflexivity|]. now apply keep.
    Qed.
  End Loop.

  (** the pass as a whole *)
  Lemma combine_ok p es ivs tb : ssa 0 [] p -> Forall no_self_add p -> (top 0 p <= e_msize E)%N -> Forall (reads_ok (targets p)) es ->
    build_intervals p es = Some (ivs, tb) ->
    exists q, combine_mul_add p ivs tb = Some q /\ good es 0 [] p q.
  Proof.
    intros Hs Ns Ht Hes Hb. destruct (build_intervals_ok p es 0 [] Hs) as (ivs' & tb' & Eb & Hi). rewrite Hb in Eb. injection Eb as <- <-.
    unfold combine_mul_add. apply (combine_loop_ok es p ivs tb 0%N [] Hs Hi p [] None 0%N []); auto.
    - discriminate.
    - intros o t [].
    - cbn [ol app]. now rewrite app_nil_r.
  Qed.
End Sem.
