(** The memory pool: at every moment the free words and the words of the live blocks
    partition the words below the capacity. *)
From Coq Require Import ZArith NArith List Bool Lia Permutation Sorted.
From Verif Require Import Util SolIr SolScan.
Import ListNotations.
Local Open Scope N_scope.

Lemma some_inj {A} (x y : A) : Some x = Some y -> x = y. Proof. congruence. Qed.

(** the words of a block *)
Definition cells (bl : block) : list N :=
  match b_t bl with TScalar => [b_pos bl] | TPoint => [b_pos bl; b_pos bl + 1] end.
(** the numbers below [n] *)
Definition upto (n : N) : list N := map N.of_nat (seq 0 (N.to_nat n)).

Lemma in_upto n x : In x (upto n) <-> x < n.
Proof.
  unfold upto. rewrite in_map_iff. split.
  - intros (k & <- & H). apply in_seq in H. lia.
  - intro H. exists (N.to_nat x). rewrite N2Nat.id. split; [reflexivity|]. apply in_seq. lia.
Qed.
Lemma nodup_upto n : NoDup (upto n).
Proof. unfold upto. apply FinFun.Injective_map_NoDup; [intros a c H; now apply Nat2N.inj|apply seq_NoDup]. Qed.
Lemma upto_2 n : Permutation (upto (n + 2)) (n + 1 :: n :: upto n).
Proof.
  unfold upto. replace (N.to_nat (n + 2)) with (N.to_nat n + 2)%nat by lia. rewrite seq_app, map_app. cbn [seq map Nat.add].
  rewrite N2Nat.id. replace (N.of_nat (S (N.to_nat n))) with (n + 1) by lia.
  rewrite Permutation_app_comm. cbn [app]. apply perm_swap.
Qed.

Lemma sins_in x y s : In y (sins x s) <-> y = x \/ In y s.
Proof.
  induction s as [|z s IH]; cbn [sins]; [cbn; intuition|].
  destruct (x <? z); [cbn; intuition|]. destruct (N.eqb_spec x z) as [->|]; cbn [In]; [intuition; subst; auto|].
  rewrite IH. intuition.
Qed.
Lemma sins_perm x s : ~ In x s -> Permutation (sins x s) (x :: s).
Proof.
  induction s as [|z s IH]; intro H; cbn [sins]; [reflexivity|].
  destruct (x <? z); [reflexivity|]. destruct (N.eqb_spec x z) as [->|]; [exfalso; apply H; now left|].
  rewrite IH by (intro; apply H; now right). apply perm_swap.
Qed.
Lemma srem_in x y s : In y (srem x s) <-> In y s /\ y <> x.
Proof.
  unfold srem. rewrite filter_In. destruct (N.eqb_spec y x); cbn [negb]; intuition; discriminate.
Qed.
Lemma srem_notin x s : ~ In x s -> srem x s = s.
Proof.
  unfold srem. induction s as [|z s IH]; intro H; cbn [filter]; [reflexivity|].
  destruct (N.eqb_spec z x) as [->|]; cbn [negb]; [exfalso; apply H; now left|]. rewrite IH; [reflexivity|intro; apply H; now right].
Qed.
Lemma srem_perm x s : NoDup s -> In x s -> Permutation s (x :: srem x s).
Proof.
  induction s as [|z s IH]; intros D H; [destruct H|]. inversion D as [|? ? Nz Ds]; subst. cbn [srem filter].
  destruct (N.eqb_spec z x) as [->|N]; cbn [negb]; [fold (srem x s); now rewrite srem_notin|].
  destruct H as [H|H]; [congruence|]. fold (srem x s). rewrite perm_swap. apply perm_skip. now apply IH.
Qed.
Lemma smem_in x s : smem x s = true <-> In x s.
Proof.
  unfold smem. rewrite existsb_exists. split; [intros (y & H & E); apply N.eqb_eq in E; now subst|intro H; exists x; now rewrite N.eqb_refl].
Qed.

(** * The invariant *)
Record inv (p : pool) (live : list block) : Prop := mkInv {
  inv_perm : Permutation (free256 p ++ flat_map cells live) (upto (capability p));
  inv_512 : forall x, In x (free512 p) <-> N.even x = true /\ In x (free256 p) /\ In (x + 1) (free256 p);
  inv_cap : N.even (capability p) = true;
  inv_pt : forall bl, In bl live -> b_t bl = TPoint -> N.even (b_pos bl) = true
}.

Lemma inv_nodup p live : inv p live -> NoDup (free256 p ++ flat_map cells live).
Proof. intro I. eapply Permutation_NoDup; [symmetry; apply (inv_perm _ _ I)|apply nodup_upto]. Qed.
Lemma inv_nodup256 p live : inv p live -> NoDup (free256 p).
Proof.
  intro I. pose proof (inv_nodup _ _ I) as D. revert D. generalize (flat_map cells live). intros l D.
  induction (free256 p) as [|x s IH]; [constructor|]. cbn in D. inversion D; subst. constructor; [|now apply IH].
  intro C. apply H1. apply in_or_app. now left.
Qed.
Lemma inv0 : inv pool0 [].
Proof. constructor; [apply Permutation_refl|intro x; cbn; intuition|reflexivity|intros bl []]. Qed.
Lemma inv_live_perm p l l' : Permutation l l' -> inv p l -> inv p l'.
Proof.
  intros P [A B C D]. constructor; [|exact B|exact C|].
  - rewrite <- A. apply Permutation_app_head. symmetry. now apply Permutation_flat_map.
  - intros bl H. apply D. eapply Permutation_in; [symmetry; exact P|exact H].
Qed.
Lemma even_base x : N.even (x - x mod 2) = true.
Proof.
  pose proof (N.div_mod' x 2) as H. assert (E : x - x mod 2 = 2 * (x / 2)) by (revert H; generalize (x mod 2), (x / 2); lia).
  now rewrite E, N.even_mul.
Qed.
Lemma base_cases x : (x - x mod 2 = x /\ N.even x = true) \/ (x - x mod 2 + 1 = x /\ N.even x = false).
Proof.
  pose proof (N.div_mod' x 2) as H. pose proof (N.mod_lt x 2 ltac:(lia)) as L.
  revert H L. generalize (x mod 2), (x / 2). intros r k H L.
  assert (E : r = 0 \/ r = 1) by lia. destruct E as [-> | ->]; [left|right]; (split; [lia|]); rewrite H.
  - now rewrite N.add_0_r, N.even_mul.
  - now rewrite N.even_add, N.even_mul.
Qed.
Lemma even_succ_1 x : N.even x = true -> N.even (x + 1) = false.
Proof. intro H. now rewrite N.even_add, H. Qed.

Lemma expand_inv p live : inv p live -> inv (expand p) live.
Proof.
  intros [A B C D]. set (c := capability p) in *.
  assert (Lt : forall x, In x (free256 p) -> x < c).
  { intros x H. apply in_upto. eapply Permutation_in; [exact A|]. apply in_or_app. now left. }
  assert (N0 : ~ In c (free256 p)) by (intro H; apply Lt in H; lia).
  assert (N1 : ~ In (c + 1) (sins c (free256 p))) by (rewrite sins_in; intros [H|H]; [lia|apply Lt in H; lia]).
  constructor; cbn [free256 free512 capability expand]; fold c.
  - rewrite (sins_perm _ _ N1), (sins_perm _ _ N0), upto_2. cbn [app]. now rewrite A.
  - intro x. rewrite !sins_in, B. split.
    + intros [->|(E & H0 & H1)]; [repeat split; auto|auto 6].
    + intros (E & [->|[->|H0]] & H1); auto.
      * exfalso. now rewrite (even_succ_1 c C) in E.
      * destruct H1 as [H1|[H1|H1]]; [assert (x = c) by lia; auto| |auto].
        exfalso. rewrite <- H1, (even_succ_1 x E) in C. discriminate.
  - now rewrite N.even_add, C.
  - exact D.
Qed.

Lemma alloc_scalar_inv p live bl p' : inv p live -> alloc_scalar p = Some (bl, p') ->
  inv p' (bl :: live) /\ b_t bl = TScalar /\ capability p' = capability p.
Proof.
  intros I E. pose proof (inv_nodup256 _ _ I) as D2. destruct I as [A B C D]. unfold alloc_scalar in E.
  destruct (free256 p) as [|pos s] eqn:F; [discriminate|]. apply some_inj, pair_equal_spec in E. destruct E as [<- <-]. split; [|split; reflexivity].
  assert (Hin : In pos (pos :: s)) by now left. rewrite <- F in *. set (f := free256 p) in *.
  constructor; cbn [free256 free512 capability flat_map cells b_t b_pos app].
  - rewrite <- A. transitivity ((pos :: srem pos f) ++ flat_map cells live); [cbn [app]; symmetry; apply Permutation_middle|].
    apply Permutation_app_tail. symmetry. now apply srem_perm.
  - intro x. rewrite !srem_in, B. pose proof (base_cases pos) as BC. split.
    + intros ((E & H0 & H1) & NB). repeat split; auto.
      * intros ->. apply NB. destruct BC as [[-> _]|[_ BC]]; [reflexivity|congruence].
      * intro H. destruct BC as [[_ BC]|[BC _]]; [rewrite <- H, (even_succ_1 x E) in BC; discriminate|]. apply NB. lia.
    + intros (E & [H0 N0] & [H1 N1]). repeat split; auto. intros ->. destruct BC as [[BC _]|[BC _]]; congruence.
  - exact C.
  - intros b' [<-|H]; [discriminate|now apply D].
Qed.

Lemma alloc_point_inv p live bl p' : inv p live -> alloc_point p = Some (bl, p') ->
  inv p' (bl :: live) /\ b_t bl = TPoint /\ capability p' = capability p.
Proof.
  intros I E. pose proof (inv_nodup256 _ _ I) as D2. destruct I as [A B C D]. unfold alloc_point in E.
  destruct (free512 p) as [|pos s] eqn:F; [discriminate|]. apply some_inj, pair_equal_spec in E. destruct E as [<- <-]. split; [|split; reflexivity].
  assert (Hin : In pos (pos :: s)) by now left. apply B in Hin. destruct Hin as (Ev & H0 & H1). rewrite <- F in *. 
  assert (H1' : In (pos + 1) (srem pos (free256 p))) by (apply srem_in; split; [exact H1|lia]).
  assert (D3 : NoDup (srem pos (free256 p))) by now apply NoDup_filter.
  constructor; cbn [free256 free512 capability flat_map cells b_t b_pos app].
  - rewrite <- A. transitivity ((pos :: pos + 1 :: srem (pos + 1) (srem pos (free256 p))) ++ flat_map cells live).
    + cbn [app]. rewrite <- Permutation_middle. apply perm_skip. symmetry. apply Permutation_middle.
    + apply Permutation_app_tail. symmetry. etransitivity; [now apply (srem_perm pos)|]. apply perm_skip. now apply srem_perm.
  - intro x. rewrite !srem_in, B. split.
    + intros ((E & G0 & G1) & NB). repeat split; auto; try lia. 
      * intros ->. rewrite (even_succ_1 pos Ev) in E. discriminate.
      * intro H. rewrite <- H in Ev. rewrite (even_succ_1 x E) in Ev. discriminate.
    + intros (E & [[G0 N0] N0'] & [[G1 N1] N1']). repeat split; auto.
  - exact C.
  - intros b' [<-|H]; [auto|now apply D].
Qed.

Lemma free_inv p bl live : inv p (bl :: live) -> inv (pfree p bl) live /\ capability (pfree p bl) = capability p.
Proof.
  intro I. pose proof (inv_nodup _ _ I) as ND. destruct I as [A B C D].
  assert (Nf : forall x, In x (cells bl) -> ~ In x (free256 p)).
  { intros x H1 H2. cbn [flat_map] in ND. revert ND H2. generalize (free256 p). intros l ND H2.
    induction l as [|z l IH]; [destruct H2|]. cbn in ND. inversion ND; subst. destruct H2 as [->|H2]; [|now apply IH].
    apply H3. apply in_or_app. right. apply in_or_app. now left. }
  split; [|unfold pfree; destruct (b_t bl); reflexivity].
  destruct bl as [pos t]; destruct t; cbn [cells b_t b_pos flat_map app] in *; unfold pfree; cbn [b_t b_pos].
  - assert (N0 : ~ In pos (free256 p)) by (apply Nf; now left).
    constructor; cbn [free256 free512 capability].
    + rewrite (sins_perm _ _ N0), <- A. cbn [app]. apply Permutation_middle.
    + intro x. pose proof (base_cases pos) as BC. pose proof (even_base pos) as EB. set (base := pos - pos mod 2) in *.
      assert (Chk : smem base (sins pos (free256 p)) && smem (base + 1) (sins pos (free256 p)) = true <->
                    In base (sins pos (free256 p)) /\ In (base + 1) (sins pos (free256 p))) by (rewrite andb_true_iff, !smem_in; reflexivity).
      destruct (smem base (sins pos (free256 p)) && smem (base + 1) (sins pos (free256 p))).
      * destruct Chk as [Chk _]. specialize (Chk eq_refl). rewrite sins_in, B. split.
        -- intros [->|(E & G0 & G1)]; [tauto|]. rewrite !sins_in. auto.
        -- intros (E & G0 & G1). rewrite sins_in in G0, G1. destruct (N.eq_dec x base) as [|Nx]; [auto|]. right. repeat split; auto.
           ++ destruct G0 as [->|G0]; [|exact G0]. exfalso. destruct BC as [[BC _]|[_ BC]]; congruence.
           ++ destruct G1 as [G1|G1]; [|exact G1]. exfalso. destruct BC as [[_ BC]|[BC _]]; [rewrite <- G1, (even_succ_1 x E) in BC; discriminate|]. apply Nx. lia.
      * rewrite B. split.
        -- intros (E & G0 & G1). rewrite !sins_in. auto.
        -- intros (E & G0 & G1). destruct (N.eq_dec x base) as [->|Nx]; [exfalso; assert (F : false = true) by (apply Chk; split; [exact G0|exact G1]); discriminate|].
           rewrite sins_in in G0, G1. repeat split; auto.
           ++ destruct G0 as [->|G0]; [|exact G0]. exfalso. destruct BC as [[BC _]|[_ BC]]; congruence.
           ++ destruct G1 as [G1|G1]; [|exact G1]. exfalso. destruct BC as [[_ BC]|[BC _]]; [rewrite <- G1, (even_succ_1 x E) in BC; discriminate|]. apply Nx. lia.
    + exact C.
    + intros b' H. apply D. now right.
  - assert (Ev : N.even pos = true) by (apply (D (mkBlock pos TPoint)); [now left|reflexivity]).
    assert (N0 : ~ In pos (free256 p)) by (apply Nf; now left).
    assert (N1 : ~ In (pos + 1) (sins pos (free256 p))) by (rewrite sins_in; intros [H|H]; [lia|exact (Nf (pos + 1) ltac:(right; now left) H)]).
    constructor; cbn [free256 free512 capability].
    + rewrite (sins_perm _ _ N1), (sins_perm _ _ N0), <- A. cbn [app].
      rewrite <- Permutation_middle. rewrite perm_swap. apply perm_skip. apply Permutation_middle.
    + intro x. rewrite !sins_in, B. split.
      * intros [->|(E & G0 & G1)]; auto 6.
      * intros (E & G0 & G1). destruct (N.eq_dec x pos) as [|Nx]; [auto|]. right. repeat split; auto.
        -- destruct G0 as [->|[G0|G0]]; [rewrite (even_succ_1 pos Ev) in E; discriminate|contradiction|exact G0].
        -- destruct G1 as [G1|[G1|G1]]; [exfalso; apply Nx; lia| |exact G1]. rewrite <- G1, (even_succ_1 x E) in Ev. discriminate.
    + exact C.
    + intros b' H. apply D. now right.
Qed.

(** * The block handed out for an interval (mod.rs:30-43) *)
Definition take (t : ty) (p : pool) : option (block * pool) :=
  match t with
  | TScalar => alloc_scalar (match free256 p with [] => expand p | _ => p end)
  | TPoint => alloc_point (match free512 p with [] => expand p | _ => p end)
  end.
Lemma take_inv t p live : inv p live -> exists bl p', take t p = Some (bl, p') /\ inv p' (bl :: live) /\ b_t bl = t /\
  capability p <= capability p' /\
  (capability p' <> capability p -> capability p' = capability p + 2 /\ match t with TScalar => free256 p = [] | TPoint => free512 p = [] end).
Proof.
  intro I. unfold take. destruct t.
  - destruct (free256 p) as [|x s] eqn:F.
    + pose proof (expand_inv p live I) as I'. destruct (alloc_scalar (expand p)) as [[bl p']|] eqn:E.
      * destruct (alloc_scalar_inv _ _ _ _ I' E) as (I2 & T & Cc). exists bl, p'. cbn [expand capability] in Cc.
        split; [reflexivity|]. split; [exact I2|]. split; [exact T|]. split; [lia|]. intros _. split; [exact Cc|reflexivity].
      * exfalso. unfold alloc_scalar, expand in E. cbn [free256] in E. rewrite F in E. cbn [sins] in E.
        destruct (capability p + 1 <? capability p), (capability p + 1 =? capability p); discriminate.
    + destruct (alloc_scalar p) as [[bl p']|] eqn:E.
      * destruct (alloc_scalar_inv _ _ _ _ I E) as (I2 & T & Cc). exists bl, p'. split; [reflexivity|]. split; [exact I2|]. split; [exact T|]. split; [lia|]. congruence.
      * exfalso. unfold alloc_scalar in E. rewrite F in E. discriminate.
  - destruct (free512 p) as [|x s] eqn:F.
    + pose proof (expand_inv p live I) as I'. destruct (alloc_point (expand p)) as [[bl p']|] eqn:E.
      * destruct (alloc_point_inv _ _ _ _ I' E) as (I2 & T & Cc). exists bl, p'. cbn [expand capability] in Cc.
        split; [reflexivity|]. split; [exact I2|]. split; [exact T|]. split; [lia|]. intros _. split; [exact Cc|reflexivity].
      * exfalso. unfold alloc_point, expand in E. cbn [free512] in E. rewrite F in E. cbn [sins] in E. discriminate.
    + destruct (alloc_point p) as [[bl p']|] eqn:E.
      * destruct (alloc_point_inv _ _ _ _ I E) as (I2 & T & Cc). exists bl, p'. split; [reflexivity|]. split; [exact I2|]. split; [exact T|]. split; [lia|]. congruence.
      * exfalso. unfold alloc_point in E. rewrite F in E. discriminate.
Qed.

(** * The order of frees does not matter *)
Definition sorted (p : pool) : Prop := StronglySorted N.lt (free256 p) /\ StronglySorted N.lt (free512 p).
Lemma sins_sorted x s : StronglySorted N.lt s -> StronglySorted N.lt (sins x s).
Proof.
  induction 1 as [|z s S IH F]; cbn [sins]; [repeat constructor|].
  destruct (N.ltb_spec x z); [constructor; [now constructor|]; constructor; [exact H|]; eapply Forall_impl; [|exact F]; intros; lia|].
  destruct (N.eqb_spec x z) as [->|]; [now constructor|]. constructor; [exact IH|]. apply Forall_forall. intros y Hy. apply sins_in in Hy.
  destruct Hy as [->|Hy]; [lia|]. rewrite Forall_forall in F. now apply F.
Qed.
Lemma srem_sorted x s : StronglySorted N.lt s -> StronglySorted N.lt (srem x s).
Proof.
  unfold srem. induction 1 as [|z s S IH F]; cbn [filter]; [constructor|].
  destruct (negb (z =? x)); [|exact IH]. constructor; [exact IH|]. apply Forall_forall. intros y Hy. apply filter_In in Hy.
  rewrite Forall_forall in F. now apply F.
Qed.
Lemma sorted_ext s : forall s', StronglySorted N.lt s -> StronglySorted N.lt s' -> (forall x, In x s <-> In x s') -> s = s'.
Proof.
  induction s as [|z s IH]; intros [|z' s'] S S' E.
  - reflexivity.
  - exfalso. apply (E z'). now left.
  - exfalso. apply (E z). now left.
  - inversion S as [|? ? S1 F1]; subst. inversion S' as [|? ? S2 F2]; subst. rewrite Forall_forall in F1, F2.
    assert (Hz : z = z').
    { destruct (proj1 (E z) (or_introl eq_refl)) as [|H1]; [auto|]. destruct (proj2 (E z') (or_introl eq_refl)) as [|H2]; [auto|].
      apply F2 in H1. apply F1 in H2. lia. }
    subst z'. f_equal. apply IH; auto. intro x. split; intro H.
    + destruct (proj1 (E x) (or_intror H)) as [<-|]; [|auto]. apply F1 in H. lia.
    + destruct (proj2 (E x) (or_intror H)) as [<-|]; [|auto]. apply F2 in H. lia.
Qed.
Lemma free_sorted p bl : sorted p -> sorted (pfree p bl).
Proof.
  intros [A B]. unfold pfree. destruct (b_t bl); split; cbn [free256 free512]; auto using sins_sorted.
  destruct (_ && _); auto using sins_sorted.
Qed.
Lemma take_sorted t p bl p' : sorted p -> take t p = Some (bl, p') -> sorted p'.
Proof.
  intros S E. assert (SE : sorted (expand p)) by (destruct S; split; cbn [expand free256 free512]; auto using sins_sorted).
  unfold take, alloc_scalar, alloc_point in E.
  assert (G : forall q, sorted q -> take t p = take t p -> sorted q) by auto. clear G.
  destruct t.
  - set (q := match free256 p with [] => expand p | _ => p end) in E. assert (Sq : sorted q) by (unfold q; destruct (free256 p); auto).
    destruct (free256 q) as [|pos s] eqn:F; [discriminate|]. apply some_inj, pair_equal_spec in E. destruct E as [_ <-]. rewrite <- F.
    destruct Sq. split; cbn [free256 free512]; now apply srem_sorted.
  - set (q := match free512 p with [] => expand p | _ => p end) in E. assert (Sq : sorted q) by (unfold q; destruct (free512 p); auto).
    destruct (free512 q) as [|pos s] eqn:F; [discriminate|]. apply some_inj, pair_equal_spec in E. destruct E as [_ <-]. rewrite <- F.
    destruct Sq. split; cbn [free256 free512]; repeat apply srem_sorted; auto.
Qed.
Lemma frees_inv dead : forall p live, inv p (dead ++ live) -> sorted p -> inv (fold_left pfree dead p) live /\ sorted (fold_left pfree dead p) /\
  capability (fold_left pfree dead p) = capability p.
Proof.
  induction dead as [|d dead IH]; intros p live I S; cbn [fold_left]; [auto|]. cbn [app] in I.
  destruct (free_inv p d (dead ++ live) I) as [I' C']. destruct (IH (pfree p d) live I' (free_sorted p d S)) as (A & B & C). split; [exact A|]. split; [exact B|]. congruence.
Qed.
Lemma inv_unique p p' live : inv p live -> inv p' live -> sorted p -> sorted p' -> capability p = capability p' -> p = p'.
Proof.
  intros I I' [S1 S2] [S1' S2'] E.
  assert (H256 : forall x, In x (free256 p) <-> In x (free256 p')).
  { assert (G : forall q q', inv q live -> inv q' live -> capability q = capability q' -> forall x, In x (free256 q) -> In x (free256 q')).
    { intros q q' Q Q' Eq x H. pose proof (inv_nodup _ _ Q) as ND.
      assert (Hn : ~ In x (flat_map cells live)).
      { revert ND H. generalize (flat_map cells live). generalize (free256 q). intros l l' ND H C.
        induction l as [|z l IH]; [destruct H|]. cbn in ND. inversion ND; subst. destruct H as [->|H]; [|now apply IH].
        apply H2. apply in_or_app. now right. }
      assert (U : In x (upto (capability q'))).
      { rewrite <- Eq. eapply Permutation_in; [apply (inv_perm _ _ Q)|]. apply in_or_app. now left. }
      eapply Permutation_in in U; [|symmetry; apply (inv_perm _ _ Q')]. apply in_app_or in U. tauto. }
    intro x. split; apply G; auto. }
  destruct p as [a1 b1 c1], p' as [a2 b2 c2]. cbn [capability free256 free512] in *. subst c2.
  assert (a1 = a2) by (apply sorted_ext; auto). subst a2. f_equal. apply sorted_ext; auto. intro x.
  pose proof (inv_512 _ _ I x) as A. pose proof (inv_512 _ _ I' x) as B. cbn [free256 free512] in A, B. now rewrite A, B.
Qed.
Theorem free_comm p live dead dead' : inv p (dead ++ live) -> sorted p -> Permutation dead dead' ->
  fold_left pfree dead p = fold_left pfree dead' p.
Proof.
  intros I S P. assert (I' : inv p (dead' ++ live)) by (eapply inv_live_perm; [|exact I]; now apply Permutation_app_tail).
  destruct (frees_inv dead p live I S) as (A & B & C). destruct (frees_inv dead' p live I' S) as (A' & B' & C').
  apply (inv_unique _ _ live); auto. congruence.
Qed.

(** * Traces of requests *)
Inductive req := RTake (t : ty) | RFree (i : nat).
(** [RFree i] frees the [i]-th live block, the latest first. *)
Fixpoint remove_nth {A} (i : nat) (l : list A) : list A :=
  match l, i with [], _ => [] | _ :: l, O => l | x :: l, S i => x :: remove_nth i l end.
Definition serve (r : req) (p : pool) (live : list block) : option (pool * list block) :=
  match r with
  | RTake t => do (bl, p) <- take t p; Some (p, bl :: live)
  | RFree i => do bl <- nth_error live i; Some (pfree p bl, remove_nth i live)
  end.
Fixpoint serve_all (rs : list req) (p : pool) (live : list block) : option (pool * list block) :=
  match rs with
  | [] => Some (p, live)
  | r :: rs => do (p, live) <- serve r p live; serve_all rs p live
  end.
Lemma remove_nth_perm {A} (l : list A) : forall i x, nth_error l i = Some x -> Permutation l (x :: remove_nth i l).
Proof.
  induction l as [|y l IH]; intros [|i] x E; cbn in *; try discriminate; [injection E as ->; reflexivity|].
  rewrite perm_swap. apply perm_skip. now apply IH.
Qed.
Lemma serve_inv r p live p' live' : inv p live -> serve r p live = Some (p', live') -> inv p' live'.
Proof.
  intros I E. destruct r as [t|i]; cbn [serve] in E.
  - destruct (take_inv t p live I) as (bl & q & T & I' & _). rewrite T in E. now injection E as <- <-.
  - destruct (nth_error live i) as [bl|] eqn:Nx; [|discriminate]. apply some_inj, pair_equal_spec in E. destruct E as [<- <-].
    apply free_inv. eapply inv_live_perm; [|exact I]. now apply remove_nth_perm.
Qed.
Lemma serve_all_sorted rs : forall p live p' live', sorted p -> serve_all rs p live = Some (p', live') -> sorted p'.
Proof.
  induction rs as [|r rs IH]; intros p live p' live' I E; cbn [serve_all] in E; [now injection E as <- <-|].
  destruct (serve r p live) as [[p1 l1]|] eqn:S1; [|discriminate]. eapply IH; [|exact E]. destruct r as [t|i]; cbn [serve] in S1.
  - destruct (take t p) as [[bl p2]|] eqn:T; [|discriminate]. injection S1 as <- <-. eapply take_sorted; eauto.
  - destruct (nth_error live i); [|discriminate]. apply some_inj, pair_equal_spec in S1. destruct S1 as [<- <-]. now apply free_sorted.
Qed.
Lemma serve_all_inv rs : forall p live p' live', inv p live -> serve_all rs p live = Some (p', live') -> inv p' live'.
Proof.
  induction rs as [|r rs IH]; intros p live p' live' I E; cbn [serve_all] in E; [now injection E as <- <-|].
  destruct (serve r p live) as [[p1 l1]|] eqn:S1; [|discriminate]. eapply IH; [|exact E]. eapply serve_inv; eauto.
Qed.
