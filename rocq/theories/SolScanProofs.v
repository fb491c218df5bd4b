(** The linear scan keeps the values of the returned expressions and the cells it uses fit
    into the memory it asks for. *)
From Coq Require Import ZArith NArith List Bool Lia Permutation Sorted.
From Verif Require Import Util Algebra PField Curve Evm EvmProofs SolIr SolScan SolPool SolSem SolIntervals SolMulAdd ListFacts.
Import ListNotations.

(** * The position taken from the pool *)
Definition words (l : list block) : N := N.of_nat (length (flat_map cells l)).
Lemma words_cons bl l : words (bl :: l) = (to_length (b_t bl) + words l)%N.
Proof. unfold words. cbn [flat_map]. rewrite app_length, Nat2N.inj_add. f_equal. unfold cells. now destruct (b_t bl). Qed.
Lemma words_perm l l' : Permutation l l' -> words l = words l'.
Proof. intro P. unfold words. f_equal. apply Permutation_length. induction P; cbn; [constructor|now apply Permutation_app_head| |eapply Permutation_trans; eauto]. rewrite !app_assoc. apply Permutation_app_tail, Permutation_app_comm. Qed.
Lemma words_app l l' : words (l ++ l') = (words l + words l')%N.
Proof. induction l as [|x l IH]; [reflexivity|]. cbn [app]. rewrite !words_cons, IH. lia. Qed.

Lemma take_bounds t p live bl p' n : inv p live -> take t p = Some (bl, p') -> (words live <= n)%N -> (capability p <= n + 1)%N ->
  (b_pos bl < n + to_length t)%N /\ (capability p' <= n + to_length t + 1)%N.
Proof.
  intros I T Hw Hc. destruct (take_inv t p live I) as (bl' & p1 & T' & I' & Tt & C1 & C2). rewrite T in T'. injection T' as <- <-.
  assert (Pos : forall x, In x (cells bl) -> (x < capability p')%N).
  { intros x Hx. apply in_upto. eapply Permutation_in; [apply (inv_perm _ _ I')|]. apply in_or_app. right. cbn [flat_map]. apply in_or_app. now left. }
  assert (P0 := Pos (b_pos bl)). destruct t; unfold take in T; cbn [to_length].
  - destruct (free256 p) as [|x s] eqn:F.
    + (* expanded: every cell is live *)
      assert (Cap : (capability p <= n)%N).
      { assert (P := Permutation_length (inv_perm _ _ I)). rewrite F in P. cbn [app] in P. unfold upto in P. rewrite map_length, seq_length in P. unfold words in Hw. lia. }
      unfold alloc_scalar, expand in T. cbn [free256] in T. rewrite F in T. cbn [sins] in T.
      rewrite (proj2 (N.ltb_ge _ _)) in T by lia. rewrite (proj2 (N.eqb_neq _ _)) in T by lia.
      apply some_inj, pair_equal_spec in T. destruct T as [<- <-]. cbn [b_pos capability] in *. lia.
    + assert (Eq : capability p' = capability p). { destruct (N.eq_dec (capability p') (capability p)) as [X|X]; [exact X|]. destruct (C2 X) as [_ X']. discriminate. }
      unfold cells in P0. rewrite Tt in P0. specialize (P0 (or_introl eq_refl)). lia.
  - destruct (free512 p) as [|x s] eqn:F.
    + unfold alloc_point, expand in T. cbn [free512] in T. rewrite F in T. cbn [sins] in T.
      apply some_inj, pair_equal_spec in T. destruct T as [<- <-]. cbn [b_pos capability] in *. lia.
    + assert (Eq : capability p' = capability p). { destruct (N.eq_dec (capability p') (capability p)) as [X|X]; [exact X|]. destruct (C2 X) as [_ X']. discriminate. }
      assert (P1 := Pos (b_pos bl + 1)%N). unfold cells in P1. rewrite Tt in P1. specialize (P1 (or_intror (or_introl eq_refl))). lia.
Qed.

Lemma filter_perm {A} (f : A -> bool) l : Permutation (filter f l ++ filter (fun x => negb (f x)) l) l.
Proof.
  induction l as [|x l IH]; [constructor|]. cbn [filter]. destruct (f x); cbn [negb app].
  - now constructor.
  - rewrite <- Permutation_middle. now constructor.
Qed.

(** * Places *)
Definition place : Type := interval * N.
Definition in_mem (d : place) : bool := negb (snd d =? DEADBEAF)%N.
Definition blk (d : place) : block := mkBlock (snd d) (iv_t (fst d)).
Definition act (d : place) : interval := mkIv (iv_expr (fst d)) (iv_t (fst d)) (Some (blk d)) (iv_start (fst d)) (iv_end (fst d)).
Definition loc (to : N) (t : ty) : expr := if (to =? DEADBEAF)%N then ETemp t else EMemory to t.
Definition hit (o : N) (d : place) : bool := (iv_expr (fst d) =? o)%N.
Definition rho (D : list place) (e : expr) : expr :=
  match e with
  | EMemory o t => match find (hit o) D with Some d => loc (snd d) t | None => e end
  | _ => e
  end.
Definition smap (f : expr -> expr) (s : stmt) : stmt :=
  match s with
  | Assign l r => Assign (emap f l) (emap f r)
  | UpdateHash e k => UpdateHash (emap f e) k
  | s => s
  end.
Definition plain (s : stmt) : Prop := match s with Assign _ _ | UpdateHash _ _ => True | _ => False end.

Lemma rho_leaf D l : is_leaf l = true -> is_leaf (rho D l) = true.
Proof. destruct l as [o t| | | | | | | | | | | | | | |]; auto. cbn. match goal with |- context [find ?f D] => destruct (find f D) end; [|reflexivity]. unfold loc. now destruct (_ =? _)%N. Qed.
Lemma smap_smap f g s : (forall l, is_leaf l = true -> is_leaf (f l) = true) -> smap g (smap f s) = smap (fun l => g (f l)) s.
Proof.
  intro H. assert (X : forall e, emap g (emap f e) = emap (fun l => g (f l)) e).
  { intro e. apply emap_emap. intros l Hl. apply H. eapply leaves_leaf; eauto. }
  destruct s; cbn [smap]; now rewrite ?X.
Qed.
Lemma ssubst_smap from to s : plain s -> ssubst from to s = Some (smap (replace from to) s).
Proof. now destruct s. Qed.
Lemma subst_from_spec from to p : forall k, Forall plain p -> subst_from k from to p = Some (firstn k p ++ map (smap (replace from to)) (skipn k p)).
Proof.
  induction p as [|s p IH]; intros k H; [now destruct k|]. inversion H; subst. destruct k as [|k]; cbn [subst_from firstn skipn app map].
  - rewrite ssubst_smap by assumption. rewrite (IH O) by assumption. reflexivity.
  - now rewrite IH.
Qed.

(** the cells a statement mentions *)
Definition mentions (s : stmt) (o : N) : Prop := exists t, reads s o t \/ (exists r, s = Assign (EMemory o t) r).

(** consecutive targets *)
Fixpoint chain (n : N) (k : nat) (l : list (N * ty * nat)) : Prop :=
  match l with
  | [] => True
  | (o, t, i) :: l => (n <= o)%N /\ (k <= i)%nat /\ chain (o + to_length t) (S i) l
  end.
Lemma chain_weak l : forall n n' k k', (n' <= n)%N -> (k' <= k)%nat -> chain n k l -> chain n' k' l.
Proof. destruct l as [|[[o t] i] l]; intros n n' k k' A B; [auto|]. cbn. intros (H1 & H2 & H3). split; [lia|]. split; [lia|exact H3]. Qed.
Lemma defs_chain p : forall n K i, ssa n K p -> chain n i (defs i p).
Proof.
  induction p as [|s p IH]; intros n K i H; [exact I|]. destruct s as [[]| | |]; cbn [ssa defs chain] in *; try contradiction.
  - destruct H as (A & _ & H). split; [exact A|]. split; [lia|]. eapply IH; eauto.
  - destruct H as (_ & H). eapply chain_weak; [apply N.le_refl| |eapply IH; eauto]. lia.
Qed.
Lemma defs_ge p : forall i o t k, In (o, t, k) (defs i p) -> (i <= k)%nat.
Proof.
  induction p as [|s p IH]; intros i o t k H; [destruct H|]. destruct s as [[]| | |]; cbn [defs] in H;
  try (destruct H as [H|H]; [injection H as <- <- <-; lia|]); apply IH in H; lia.
Qed.
Lemma early p : forall n K i o t k, ssa n K p -> below n K -> In (o, t, (i + k)%nat) (defs i p) ->
  (n <= o)%N /\ forall s o', In s (firstn k p) -> mentions s o' -> (o' < o)%N.
Proof.
  induction p as [|s p IH]; intros n K i o t k Hs B H; [destruct H|].
  destruct (below_added n K s p B Hs) as [B' Hs'].
  assert (Rd : forall o', mentions s o' -> (o' < above s n)%N).
  { intros o' (t' & [R|[r ->]]).
    - destruct s as [[]| | |]; cbn [ssa] in Hs; try contradiction; unfold reads in R; cbn [rhs] in R.
      + destruct Hs as (Ho & (_ & Hr) & _). unfold reads_ok in Hr. rewrite Forall_forall in Hr. specialize (Hr _ R). cbn in Hr. apply B in Hr. cbn [above].
        destruct t', t0; cbn in *; lia.
      + destruct Hs as (Hr & _). unfold reads_ok in Hr. rewrite Forall_forall in Hr. specialize (Hr _ R). cbn in Hr. apply B in Hr. cbn [above]. destruct t'; cbn in *; lia.
    - cbn [above]. destruct t'; cbn; lia. }
  assert (Ab : (n <= above s n)%N).
  { destruct s as [[]| | |]; cbn [ssa above] in *; try contradiction; [destruct Hs as (X & _); lia|lia]. }
  assert (Rest : forall k', k = S k' -> In (o, t, (S i + k')%nat) (defs (S i) p) -> (n <= o)%N /\ forall s0 o', In s0 (firstn k (s :: p)) -> mentions s0 o' -> (o' < o)%N).
  { intros k' -> Hin. destruct (IH _ _ _ _ _ _ Hs' B' Hin) as [X Y]. split; [lia|]. cbn [firstn]. intros s0 o' [<-|Hs0] M; [|eapply Y; eauto]. apply Rd in M. lia. }
  destruct s as [[o1 t1| | | | | | | | | | | | | | |] r|e kk| |]; cbn [ssa] in Hs; try contradiction; cbn [defs] in H.
  - destruct H as [H|H].
    + injection H as <- <- Hk. assert (k = 0)%nat by lia. subst k. split; [tauto|]. intros s0 o' [].
    + assert (X := defs_ge _ _ _ _ _ H). destruct k as [|k']; [lia|]. apply (Rest k' eq_refl). now replace (S i + k')%nat with (i + S k')%nat by lia.
  - assert (X := defs_ge _ _ _ _ _ H). destruct k as [|k']; [lia|]. apply (Rest k' eq_refl). now replace (S i + k')%nat with (i + S k')%nat by lia.
Qed.
Lemma ssa_plain p : forall n K, ssa n K p -> Forall plain p.
Proof. induction p as [|s p IH]; intros n K H; [constructor|]. destruct s as [[]| | |]; cbn [ssa] in H; try contradiction; constructor; try exact I; (eapply IH; apply H). Qed.

(** the pairs of places *)
Definition apart (a c : place) : Prop :=
  (iv_start (fst a) < iv_start (fst c))%nat /\ (iv_expr (fst a) + to_length (iv_t (fst a)) <= iv_expr (fst c))%N /\
  (in_mem a = true -> in_mem c = true -> (iv_start (fst c) < iv_end (fst a))%nat -> forall x, In x (cells (blk a)) -> ~ In x (cells (blk c))).

Definition temp_iff (d : place) : Prop := in_mem d = false <-> iv_end (fst d) = S (iv_start (fst d)).
Lemma FOP_snoc {A} (R : A -> A -> Prop) l x : ForallOrdPairs R l -> Forall (fun y => R y x) l -> ForallOrdPairs R (l ++ [x]).
Proof.
  induction 1 as [|y l H1 H2 IH]; intro H; cbn; [repeat constructor|]. inversion H; subst. constructor; [|now apply IH].
  apply Forall_app. split; [exact H1|]. now constructor.
Qed.

Lemma NoDup_app_disjoint {A} (a c : list A) : NoDup (a ++ c) -> forall x, In x a -> ~ In x c.
Proof.
  induction a as [|y a IH]; intros H x Hx; [destruct Hx|]. cbn in H. inversion H; subst. destruct Hx as [->|Hx]; [|now apply IH].
  intro Hc. apply H2. apply in_or_app. now right.
Qed.

Lemma NoDup_tail {A} (a c : list A) : NoDup (a ++ c) -> NoDup c.
Proof. induction a as [|x a IH]; cbn; intro H; [exact H|]. inversion H; auto. Qed.

Section Scan.
  Variables (p : list stmt) (es : list expr).
  Hypothesis Hp : ssa 0 [] p.

  Record state (D : list place) (n : N) (k : nat) (A : list place) (po : pool) : Prop := mkState {
    ss_inv : inv po (map blk A);
    ss_sorted : sorted po;
    ss_words : (words (map blk A) <= n)%N;
    ss_cap : (capability po <= n + 1)%N;
    ss_incl : forall d, In d A -> In d D;
    ss_act : forall d, In d D -> in_mem d = true -> (k <= iv_end (fst d))%nat -> In d A;
    ss_low : Forall (fun d => (in_mem d = true -> snd d < n)%N /\ (iv_expr (fst d) + to_length (iv_t (fst d)) <= n)%N /\ (iv_start (fst d) < k)%nat) D;
    ss_cap2 : Forall (fun d => in_mem d = true -> (snd d + to_length (iv_t (fst d)) <= capability po)%N) D;
    ss_temp : Forall temp_iff D;
    ss_apart : ForallOrdPairs apart D
  }.

  Lemma expire_ok A i po live : inv po (map blk A) -> sorted po -> live = filter (fun d => negb (iv_end (fst d) <=? iv_start i)%nat) A ->
    exists po', expire (map act A) i po = Some (map act live, po') /\ inv po' (map blk live) /\ sorted po' /\ capability po' = capability po.
  Proof.
    intros I S ->. unfold expire.
    set (f := fun d : place => (iv_end (fst d) <=? iv_start i)%nat).
    assert (Fm : forall g : interval -> bool, filter g (map act A) = map act (filter (fun d => g (act d)) A)).
    { intro g. clear. induction A as [|d A IH]; [reflexivity|]. cbn [map filter]. destruct (g (act d)); cbn [map]; now rewrite IH. }
    rewrite !Fm. cbn [act iv_end]. fold f.
    assert (Fold : forall l q, foldM (fun p j => do bl <- iv_block j; Some (pfree p bl)) (map act l) q = Some (fold_left pfree (map blk l) q)).
    { induction l as [|d l IH]; intro q; [reflexivity|]. cbn [map foldM fold_left act iv_block]. apply IH. }
    change (fun x => negb (iv_end (fst x) <=? iv_start i)%nat) with (fun x => negb (f x)).
    change (fun d : place => (iv_end (fst d) <=? iv_start i)%nat) with f.
    rewrite Fold. cbv beta iota.
    destruct (frees_inv (map blk (filter f A)) po (map blk (filter (fun x => negb (f x)) A))) as (X1 & X2 & X3); [|exact S|].
    - rewrite <- map_app. eapply inv_live_perm; [|exact I]. apply Permutation_map. symmetry. apply filter_perm.
    - eexists. split; [reflexivity|]. auto.
  Qed.

  Lemma take_block_eq i q : take_block i q = if (iv_end i =? S (iv_start i))%nat then Some (mkBlock DEADBEAF TScalar, q) else take (iv_t i) q.
  Proof. unfold take_block, take. destruct (_ =? _)%nat; [reflexivity|]. now destruct (iv_t i). Qed.
  Lemma words_filter (f : place -> bool) A : (words (map blk (filter f A)) <= words (map blk A))%N.
  Proof. induction A as [|d A IH]; [apply N.le_refl|]. cbn [filter map]. destruct (f d); cbn [map]; rewrite !words_cons; lia. Qed.

  (** one interval *)
  Lemma scan_step D n k A po i : state D n k A po -> (n <= iv_expr i)%N -> (k <= iv_start i)%nat -> (iv_expr i + to_length (iv_t i) < DEADBEAF)%N ->
    exists A1 po1 bl po2, expire (map act A) i po = Some (map act A1, po1) /\ take_block i po1 = Some (bl, po2) /\
      let d := (i, b_pos bl) in
      (b_pos bl <> DEADBEAF -> b_t bl = iv_t i) /\
      state (D ++ [d]) (iv_expr i + to_length (iv_t i)) (S (iv_start i)) (if in_mem d then A1 ++ [d] else A1) po2.
  Proof.
    intros [SI SS SW SC SIn SA SL SC2 ST SP] Hn Hk Hd.
    destruct (expire_ok A i po _ SI SS eq_refl) as (po1 & E1 & I1 & S1 & C1). set (A1 := filter (fun d : interval * N => negb (iv_end (fst d) <=? iv_start i)%nat) A) in *.
    exists A1, po1. rewrite take_block_eq.
    assert (W1 : (words (map blk A1) <= n)%N) by (eapply N.le_trans; [apply words_filter|exact SW]).
    assert (Act1 : forall d, In d D -> in_mem d = true -> (iv_start i < iv_end (fst d))%nat -> In d A1).
    { intros d Hin Hm He. unfold A1. apply filter_In. split; [apply SA; auto; lia|]. apply negb_true_iff, Nat.leb_gt. exact He. }
    assert (In1 : forall d, In d A1 -> In d D) by (intros d Hin; apply filter_In in Hin; apply SIn, Hin).
    assert (Len : (1 <= to_length (iv_t i))%N) by (destruct (iv_t i); cbn; lia).
    assert (Low : forall x, (in_mem (i, x) = true -> x < iv_expr i + to_length (iv_t i))%N ->
      Forall (fun d => (in_mem d = true -> snd d < iv_expr i + to_length (iv_t i))%N /\ (iv_expr (fst d) + to_length (iv_t (fst d)) <= iv_expr i + to_length (iv_t i))%N /\ (iv_start (fst d) < S (iv_start i))%nat) (D ++ [(i, x)])).
    { intros x Hx. apply Forall_app. split; [|constructor; [|constructor]; cbn [fst snd]; split; [exact Hx|split; lia]].
      revert SL. apply Forall_impl. intros d (X1 & X2 & X3). split; [intro M; specialize (X1 M); lia|]. split; lia. }
    destruct (Nat.eqb_spec (iv_end i) (S (iv_start i))) as [Te|Te].
    - (* a temporary *)
      exists (mkBlock DEADBEAF TScalar), po1. split; [exact E1|]. split; [reflexivity|]. cbn [b_pos]. set (d := (i, DEADBEAF)).
      assert (Nm : in_mem d = false) by reflexivity. rewrite Nm. split; [intro X; congruence|].
      constructor; auto.
      + lia.
      + lia.
      + intros d' Hin. apply in_or_app. auto.
      + intros d' Hin Hm He. apply in_app_or in Hin. destruct Hin as [Hin|[<-|[]]]; [apply Act1; auto; lia|]. congruence.
      + apply Low. intro X. unfold d in Nm. congruence.
      + rewrite C1. apply Forall_app. split; [exact SC2|]. constructor; [|constructor]. congruence.
      + apply Forall_app. split; [exact ST|]. constructor; [|constructor]. unfold temp_iff. cbn [fst]. tauto.
      + apply FOP_snoc; [exact SP|]. revert SL. apply Forall_impl. intros d' (X1 & X2 & X3). split; [|split]; unfold d; cbn [fst]; [lia|lia|].
        intros _ M. fold d in M. congruence.
    - destruct (take_inv (iv_t i) po1 (map blk A1) I1) as (bl & po2 & T2 & I2 & Tt & Cm & Cc).
      destruct (take_bounds _ _ _ _ _ n I1 T2 W1) as [Bp Bc]; [lia|].
      exists bl, po2. split; [exact E1|]. split; [exact T2|]. intro d.
      assert (Nm : in_mem d = true). { unfold in_mem, d. cbn [snd]. apply negb_true_iff, N.eqb_neq. lia. }
      assert (Bd : blk d = bl). { unfold blk, d. cbn [fst snd]. rewrite <- Tt. now destruct bl. }
      rewrite Nm. split; [auto|].
      assert (Pos : (b_pos bl + to_length (iv_t i) <= capability po2)%N).
      { assert (Px : forall x, In x (cells bl) -> (x < capability po2)%N).
        { intros x Hx. apply in_upto. eapply Permutation_in; [apply (inv_perm _ _ I2)|]. apply in_or_app. right. cbn [flat_map]. apply in_or_app. now left. }
        unfold cells in Px. rewrite Tt in Px. destruct (iv_t i); cbn [to_length].
        - specialize (Px _ (or_introl eq_refl)). lia.
        - specialize (Px _ (or_intror (or_introl eq_refl))). lia. }
      constructor.
      + rewrite map_app. cbn [map]. rewrite Bd. eapply inv_live_perm; [|exact I2]. apply Permutation_cons_append.
      + eapply take_sorted; eauto.
      + rewrite map_app, words_app. cbn [map]. rewrite words_cons, Bd, Tt. cbn. lia.
      + lia.
      + intros d' Hin. apply in_app_or in Hin. apply in_or_app. destruct Hin as [Hin|Hin]; auto.
      + intros d' Hin Hm He. apply in_app_or in Hin. apply in_or_app. destruct Hin as [Hin|Hin]; [left|auto]. apply Act1; auto.
      + apply Low. intros _. lia.
      + apply Forall_app. split; [|constructor; [intros _; exact Pos|constructor]]. revert SC2. apply Forall_impl. intros d' X M. specialize (X M). lia.
      + apply Forall_app. split; [exact ST|]. constructor; [|constructor]. unfold temp_iff. cbn [fst]. rewrite Nm. split; [discriminate|]. intro. contradiction.
      + apply FOP_snoc; [exact SP|]. apply Forall_forall. intros d' Hin. rewrite Forall_forall in SL. destruct (SL d' Hin) as (X1 & X2 & X3).
        split; [|split]; unfold d; cbn [fst]; [lia|lia|]. intros M _ He x Hx Hx'. fold d in Hx'. rewrite Bd in Hx'.
        assert (Hin1 := Act1 d' Hin M He). assert (ND := inv_nodup _ _ I2). apply NoDup_tail in ND. cbn [flat_map] in ND.
        apply (NoDup_app_disjoint _ _ ND x Hx'). apply in_flat_map. exists (blk d'). split; [now apply in_map|exact Hx].
  Qed.

  (** the substitution performed so far *)
  Lemma find_snoc (D : list place) d o : find (hit o) (D ++ [d]) =
    match find (hit o) D with Some x => Some x | None => if (iv_expr (fst d) =? o)%N then Some d else None end.
  Proof. induction D as [|x D IH]; cbn [app find]; [reflexivity|]. destruct (hit o x); [reflexivity|exact IH]. Qed.
  Lemma rho_snoc D i to l : Forall (fun d => in_mem d = true -> snd d < iv_expr i)%N D ->
    replace (iv_expr i) to (rho D l) = rho (D ++ [(i, to)]) l.
  Proof.
    intro H. destruct l as [o t| | | | | | | | | | | | | | |]; try reflexivity. unfold rho. rewrite find_snoc. cbn [fst snd].
    destruct (find (hit o) D) as [d|] eqn:F.
    - apply find_some in F. rewrite Forall_forall in H. specialize (H d (proj1 F)). unfold loc. unfold in_mem in H.
      destruct (snd d =? DEADBEAF)%N; [reflexivity|]. cbn [replace]. rewrite (proj2 (N.eqb_neq _ _)); [reflexivity|]. specialize (H eq_refl). lia.
    - cbn [replace]. rewrite N.eqb_sym. destruct (iv_expr i =? o)%N; reflexivity.
  Qed.
  Lemma rho_early D i to o t : o <> iv_expr i -> rho (D ++ [(i, to)]) (EMemory o t) = rho D (EMemory o t).
  Proof.
    intro H. unfold rho. rewrite find_snoc. match goal with |- context [find ?f D] => destruct (find f D) end; [reflexivity|].
    cbn [fst]. now rewrite (proj2 (N.eqb_neq _ _)) by auto.
  Qed.
  Lemma smap_plain f q : Forall plain q -> Forall plain (map (smap f) q).
  Proof. intro H. apply Forall_map. revert H. apply Forall_impl. now intros []. Qed.
  Lemma smap_ext f g s : plain s -> (forall l, In l (leaves (rhs s)) -> f l = g l) -> (forall l r, s = Assign l r -> emap f l = emap g l) -> smap f s = smap g s.
  Proof.
    intros P H1 H2. destruct s; try contradiction; cbn [smap rhs] in *.
    - rewrite (H2 _ _ eq_refl). f_equal. now apply emap_ext.
    - f_equal. now apply emap_ext.
  Qed.
  Lemma subst_step D i to : Forall (fun d => in_mem d = true -> snd d < iv_expr i)%N D -> In (iv_key i) (defs 0 p) ->
    subst_from (iv_start i) (iv_expr i) to (map (smap (rho D)) p) = Some (map (smap (rho (D ++ [(i, to)]))) p) /\
    map (esubst (iv_expr i) to) (map (emap (rho D)) es) = map (emap (rho (D ++ [(i, to)]))) es.
  Proof.
    intros H Hin. split.
    - rewrite subst_from_spec by (apply smap_plain; eapply ssa_plain; eauto). f_equal.
      rewrite firstn_map, skipn_map, map_map.
      rewrite <- (firstn_skipn (iv_start i) p) at 3. rewrite map_app. f_equal.
      + destruct (early p 0%N [] 0%nat (iv_expr i) (iv_t i) (iv_start i) Hp) as [_ Er]; [intros o t []|exact Hin|].
        apply map_ext_in. intros s Hs. assert (Pl : plain s).
        { assert (X := ssa_plain p _ _ Hp). rewrite Forall_forall in X. apply X. rewrite <- (firstn_skipn (iv_start i) p). apply in_or_app. now left. }
        apply smap_ext; [exact Pl| |].
        * intros l Hl. destruct l as [o t| | | | | | | | | | | | | | |]; try reflexivity. symmetry. apply rho_early.
          assert (X := Er s o Hs (ex_intro _ t (or_introl Hl))). lia.
        * intros l r ->. assert (Hs' : In (Assign l r) p) by (rewrite <- (firstn_skipn (iv_start i) p); apply in_or_app; now left).
          destruct (ssa_assign p _ _ _ _ Hp Hs') as (o & t & -> & _). cbn [emap]. symmetry. apply rho_early.
          assert (X := Er _ o Hs (ex_intro _ t (or_intror (ex_intro _ r eq_refl)))). lia.
      + apply map_ext. intro s. rewrite smap_smap by (intros l Hl; now apply rho_leaf).
        assert (Ex : forall e, emap (fun l => replace (iv_expr i) to (rho D l)) e = emap (rho (D ++ [(i, to)])) e).
        { intro e. apply emap_ext. intros l _. now apply rho_snoc. }
        destruct s; cbn [smap]; now rewrite ?Ex.
    - rewrite map_map. apply map_ext. intro e. unfold esubst. rewrite emap_emap by (intros l Hl; apply rho_leaf; eapply leaves_leaf; eauto).
      apply emap_ext. intros l _. now apply rho_snoc.
  Qed.

  (** * The scan as a whole *)
  Lemma linear_scan_ok ivs : forall D n k A po,
    state D n k A po -> chain n k (map iv_key ivs) -> (forall i, In i ivs -> In (iv_key i) (defs 0 p)) ->
    (forall i, In i ivs -> (iv_expr i + to_length (iv_t i) < DEADBEAF)%N) ->
    exists D' n' k' A' po', linear_scan ivs (map act A) (map (smap (rho D)) p) (map (emap (rho D)) es) po =
      Some (map (smap (rho D')) p, map (emap (rho D')) es, capability po') /\
      state D' n' k' A' po' /\ map fst D' = map fst D ++ ivs /\ (n' = n \/ exists i, In i ivs /\ n' = (iv_expr i + to_length (iv_t i))%N).
  Proof.
    induction ivs as [|i ivs IH]; intros D n k A po Hst Hc Hk Hd.
    - exists D, n, k, A, po. rewrite app_nil_r. auto 6.
    - cbn [map chain] in Hc. destruct (iv_key i) as [[o t] si] eqn:Ek. assert (Ek' := Ek). unfold iv_key in Ek'. injection Ek' as <- <- <-.
      destruct Hc as (Hn & Hk' & Hc).
      destruct (scan_step D n k A po i Hst Hn Hk' (Hd i (or_introl eq_refl))) as (A1 & po1 & bl & po2 & E1 & E2 & Tb & Hst'). cbv zeta in Hst'.
      cbn [linear_scan]. rewrite E1. cbv beta iota. rewrite E2. cbv beta iota.
      assert (Low : Forall (fun d => in_mem d = true -> snd d < iv_expr i)%N D).
      { assert (X := ss_low _ _ _ _ _ Hst). revert X. apply Forall_impl. intros d (X & _) M. specialize (X M). lia. }
      destruct (subst_step D i (b_pos bl) Low) as [S1 S2]; [apply Hk; now left|]. rewrite S1. cbv beta iota zeta. rewrite S2.
      set (d := (i, b_pos bl)) in *.
      replace (if (b_pos bl =? DEADBEAF)%N then map act A1 else map act A1 ++ [mkIv (iv_expr i) (iv_t i) (Some bl) (iv_start i) (iv_end i)])
        with (map act (if in_mem d then A1 ++ [d] else A1)).
      2:{ unfold in_mem, d. cbn [snd]. destruct (N.eqb_spec (b_pos bl) DEADBEAF) as [|Nb]; cbn [negb]; [reflexivity|].
          rewrite map_app. cbn [map]. unfold act, blk. cbn [fst snd]. rewrite <- (Tb Nb). now destruct bl. }
      destruct (IH _ _ _ _ _ Hst' Hc) as (D' & n' & k' & A' & po' & E3 & Hst2 & M & Nn); [intros j Hj; apply Hk; now right|intros j Hj; apply Hd; now right|].
      exists D', n', k', A', po'. split; [exact E3|]. split; [exact Hst2|]. split; [rewrite M, map_app; cbn [map]; unfold d; cbn [fst]; now rewrite <- app_assoc|].
      right. destruct Nn as [->|(j & Hj & ->)]; [exists i; split; [now left|reflexivity]|exists j; split; [now right|reflexivity]].
  Qed.
End Scan.

Section Sem.
  Variable W : PF.
  Variable b : W.
  Variable checked : bool.
  Variable sha256 : list Z -> list Z.
  Variables E E' : env.
  Hypothesis Ep : e_proof E' = e_proof E.
  Hypothesis Ei : e_instances E' = e_instances E.
  Hypothesis Ea : e_asize E' = e_asize E.
  Variables (p : list stmt) (es : list expr) (ivs : list interval) (tb : table) (D : list place).
  Hypothesis Hp : ssa 0 [] p.
  Hypothesis Hes : Forall (reads_ok (targets p)) es.
  Hypothesis Hivs : intervals p es ivs tb.
  Hypothesis HD : map fst D = ivs.
  Hypothesis Htop : (top 0 p <= e_msize E)%N.
  Hypothesis Hfit : Forall (fun d => in_mem d = true -> (snd d + to_length (iv_t (fst d)) <= e_msize E')%N) D.
  Hypothesis Htemp : Forall temp_iff D.
  Hypothesis Hapart : ForallOrdPairs apart D.
  Notation eval := (eval b checked). Notation exec := (exec b checked sha256). Notation run := (run b checked sha256).
  Notation d_o d := (iv_expr (fst d)). Notation d_t d := (iv_t (fst d)). Notation d_s d := (iv_start (fst d)). Notation d_e d := (iv_end (fst d)).

  Record sim (i : nat) (s s' : st) : Prop := mkSim {
    sm_abs : absorbing s = absorbing s';
    sm_mem : forall d, In d D -> (d_s d < i <= d_e d)%nat -> eval E s (EMemory (d_o d) (d_t d)) = eval E' s' (loc (snd d) (d_t d))
  }.

  Lemma apart_in a c : In a D -> In c D -> a = c \/ apart a c \/ apart c a.
  Proof. intros. eapply ForallOrdPairs_In; eauto. Qed.
  Lemma by_key o t i : In (o, t, i) (defs 0 p) -> exists d, In d D /\ d_o d = o /\ d_t d = t /\ d_s d = i.
  Proof.
    intro H. rewrite <- (it_keys _ _ _ _ Hivs), <- HD, map_map in H. apply in_map_iff in H. destruct H as (d & Ek & Hin).
    exists d. unfold iv_key in Ek. injection Ek as <- <- <-. auto.
  Qed.
  Lemma rho_at d t : In d D -> rho D (EMemory (d_o d) t) = loc (snd d) t.
  Proof. clear - Hapart.
    intro Hin. unfold rho. match goal with |- context [find ?f D] => destruct (find f D) as [d'|] eqn:F end.
    - apply find_some in F. destruct F as [Hin' Eq]. apply N.eqb_eq in Eq.
      destruct (apart_in d d' Hin Hin') as [->|[A|A]]; [reflexivity| |]; destruct A as (_ & A & _); destruct (d_t d), (d_t d'); cbn in A; lia.
    - exfalso. apply (find_none _ _ F) in Hin. unfold hit in Hin. rewrite N.eqb_refl in Hin. discriminate.
  Qed.
  Lemma defs_index q : forall i o t k, In (o, t, k) (defs i q) -> (i <= k < i + length q)%nat.
  Proof. clear.
    induction q as [|s q IH]; intros i o t k H; [destruct H|]. destruct s as [[]| | |]; cbn [defs length] in *;
    try (destruct H as [H|H]; [injection H as <- <- <-; lia|]); apply IH in H; lia.
  Qed.
  Lemma known_defs q : forall i o t, In (o, t) (targets q) -> exists k, In (o, t, k) (defs i q).
  Proof. intros i o t H. rewrite <- (defs_targets q i) in H. apply in_map_iff in H. destruct H as ([[o' t'] k] & Ek & Hin). cbn in Ek. injection Ek as <- <-. eauto. Qed.

  (** evaluation at statement [i] of an expression whose cells are live *)
  Lemma sim_eval i s s' e : sim i s s' ->
    (forall l, In l (leaves e) -> match l with
      | EMemory o t => exists d, In d D /\ d_o d = o /\ d_t d = t /\ (d_s d < i <= d_e d)%nat
      | ETemp _ | EMulAddPM _ _ _ | EMulAddMT _ _ => False | _ => True end) ->
    eval E' s' (emap (rho D) e) = eval E s e.
  Proof.
    intros S H. apply eval_emap. intros l Hl. specialize (H l Hl). assert (Lf := leaves_leaf _ _ Hl).
    destruct l as [o t|o t|o t|o t| | | | | | | | | | | |]; try contradiction; try discriminate; try reflexivity.
    - destruct H as (d & Hin & <- & <- & Hr). rewrite rho_at by exact Hin. symmetry. now apply (sm_mem _ _ _ S).
    - destruct t; cbn [rho SolIr.eval]; now rewrite Ep.
    - destruct t; cbn [rho SolIr.eval]; now rewrite Ei.
  Qed.

  Lemma sim_store i d s s' v : sim i s s' -> In d D -> d_s d = i -> (d_o d + to_length (d_t d) <= e_msize E)%N ->
    orel (sim (S i)) (store E s (EMemory (d_o d) (d_t d)) v) (store E' s' (loc (snd d) (d_t d)) v).
  Proof.
    intros S Hin Hi Ho.
    (* other live cells *)
    assert (Others : forall d', In d' D -> (d_s d' < Datatypes.S i <= d_e d')%nat -> d' = d \/
      ((d_s d' < i <= d_e d')%nat /\ (d_o d' + to_length (d_t d') <= d_o d)%N /\ 
       (in_mem d' = true -> in_mem d = true -> forall x, In x (cells (blk d')) -> ~ In x (cells (blk d))) /\ (in_mem d' = false -> in_mem d = false -> False))).
    { intros d' Hin' Hr. destruct (apart_in d' d Hin' Hin) as [->|[A|A]]; [now left| |].
      - right. destruct A as (A1 & A2 & A3). split; [lia|]. split; [exact A2|]. split; [intros M M'; apply A3; auto; lia|].
        intros M M'. rewrite Forall_forall in Htemp. apply (Htemp d' Hin') in M. lia.
      - exfalso. destruct A as (A1 & _). lia. }
    assert (Fit := proj1 (Forall_forall _ _) Hfit d Hin). cbv beta in Fit.
    destruct v as [z|x y]; destruct (d_t d) eqn:Et; cbn [to_length] in *; unfold loc; destruct (N.eqb_spec (snd d) DEADBEAF) as [Dd|Dd]; cbn [store]; try exact I.
    - (* scalar, temporary *)
      unfold wr. rewrite (proj2 (N.ltb_lt _ _)) by lia. constructor; [exact (sm_abs _ _ _ S)|]. intros d' Hin' Hr.
      destruct (Others d' Hin' Hr) as [->|(R1 & R2 & R3 & R4)].
      + rewrite Et. unfold loc. rewrite (proj2 (N.eqb_eq _ _)) by exact Dd. cbn. unfold rd, upd. rewrite N.eqb_refl, (proj2 (N.ltb_lt _ _)) by lia. reflexivity.
      + assert (M := sm_mem _ _ _ S d' Hin' R1). unfold loc, in_mem in *. rewrite Dd, N.eqb_refl in R4. destruct (N.eqb_spec (snd d') DEADBEAF) as [X|X]; [exfalso; now apply R4|].
        destruct (d_t d'); cbn [SolIr.eval mem to_length] in *; unfold rd, upd in *; rewrite ?(proj2 (N.eqb_neq (d_o d') (d_o d))), ?(proj2 (N.eqb_neq (d_o d' + 1) (d_o d))) by lia; exact M.
    - (* scalar, memory *)
      assert (Mm : in_mem d = true) by (unfold in_mem; now rewrite (proj2 (N.eqb_neq _ _))). specialize (Fit Mm).
      unfold wr. rewrite !(proj2 (N.ltb_lt _ _)) by lia. constructor; [exact (sm_abs _ _ _ S)|]. intros d' Hin' Hr.
      destruct (Others d' Hin' Hr) as [->|(R1 & R2 & R3 & R4)].
      + rewrite Et. unfold loc. rewrite (proj2 (N.eqb_neq _ _)) by exact Dd. cbn. unfold rd, upd. rewrite !N.eqb_refl, !(proj2 (N.ltb_lt _ _)) by lia. reflexivity.
      + assert (M := sm_mem _ _ _ S d' Hin' R1). unfold loc in *. unfold in_mem at 1 in R3. destruct (N.eqb_spec (snd d') DEADBEAF) as [X|X].
        * destruct (d_t d'); cbn [SolIr.eval mem t0 t1 to_length] in *; unfold rd, upd in *; rewrite ?(proj2 (N.eqb_neq (d_o d') (d_o d))), ?(proj2 (N.eqb_neq (d_o d' + 1) (d_o d))) by lia; exact M.
        * specialize (R3 eq_refl Mm). unfold cells, blk in R3. cbn [b_t b_pos] in R3. rewrite Et in R3.
          destruct (d_t d'); cbn [SolIr.eval mem t0 t1 to_length] in *; unfold rd, upd in *; rewrite ?(proj2 (N.eqb_neq (d_o d') (d_o d))), ?(proj2 (N.eqb_neq (d_o d' + 1) (d_o d))) by lia.
          -- rewrite (proj2 (N.eqb_neq (snd d') (snd d))); [exact M|]. intro Eq. apply (R3 (snd d')); cbn; auto.
          -- rewrite (proj2 (N.eqb_neq (snd d') (snd d))), (proj2 (N.eqb_neq (snd d' + 1) (snd d))); [exact M| |]; intro Eq; [apply (R3 (snd d' + 1)%N)|apply (R3 (snd d'))]; cbn; auto.
    - (* point, temporary *)
      unfold wr. rewrite !(proj2 (N.ltb_lt _ _)) by lia. constructor; [exact (sm_abs _ _ _ S)|]. intros d' Hin' Hr.
      destruct (Others d' Hin' Hr) as [->|(R1 & R2 & R3 & R4)].
      + rewrite Et. unfold loc. rewrite (proj2 (N.eqb_eq _ _)) by exact Dd. cbn. unfold rd, upd. rewrite !N.eqb_refl, !(proj2 (N.ltb_lt _ _)) by lia.
        rewrite (proj2 (N.eqb_neq (d_o d) (d_o d + 1))) by lia. reflexivity.
      + assert (M := sm_mem _ _ _ S d' Hin' R1). unfold loc, in_mem in *. rewrite Dd, N.eqb_refl in R4. destruct (N.eqb_spec (snd d') DEADBEAF) as [X|X]; [exfalso; now apply R4|].
        destruct (d_t d'); cbn [SolIr.eval mem to_length] in *; unfold rd, upd in *;
        rewrite ?(proj2 (N.eqb_neq (d_o d') (d_o d))), ?(proj2 (N.eqb_neq (d_o d' + 1) (d_o d))), ?(proj2 (N.eqb_neq (d_o d') (d_o d + 1))), ?(proj2 (N.eqb_neq (d_o d' + 1) (d_o d + 1))) by lia; exact M.
    - (* point, memory *)
      assert (Mm : in_mem d = true) by (unfold in_mem; now rewrite (proj2 (N.eqb_neq _ _))). specialize (Fit Mm).
      unfold wr. rewrite !(proj2 (N.ltb_lt _ _)) by lia. constructor; [exact (sm_abs _ _ _ S)|]. intros d' Hin' Hr.
      destruct (Others d' Hin' Hr) as [->|(R1 & R2 & R3 & R4)].
      + rewrite Et. unfold loc. rewrite (proj2 (N.eqb_neq _ _)) by exact Dd. cbn. unfold rd, upd. rewrite !N.eqb_refl, !(proj2 (N.ltb_lt _ _)) by lia.
        rewrite (proj2 (N.eqb_neq (d_o d) (d_o d + 1))), (proj2 (N.eqb_neq (snd d) (snd d + 1))) by lia. reflexivity.
      + assert (M := sm_mem _ _ _ S d' Hin' R1). unfold loc in *. unfold in_mem at 1 in R3. destruct (N.eqb_spec (snd d') DEADBEAF) as [X|X].
        * destruct (d_t d'); cbn [SolIr.eval mem t0 t1 to_length] in *; unfold rd, upd in *;
          rewrite ?(proj2 (N.eqb_neq (d_o d') (d_o d))), ?(proj2 (N.eqb_neq (d_o d' + 1) (d_o d))), ?(proj2 (N.eqb_neq (d_o d') (d_o d + 1))), ?(proj2 (N.eqb_neq (d_o d' + 1) (d_o d + 1))) by lia; exact M.
        * specialize (R3 eq_refl Mm). unfold cells, blk in R3. cbn [b_t b_pos] in R3. rewrite Et in R3.
          destruct (d_t d'); cbn [SolIr.eval mem t0 t1 to_length] in *; unfold rd, upd in *;
          rewrite ?(proj2 (N.eqb_neq (d_o d') (d_o d))), ?(proj2 (N.eqb_neq (d_o d' + 1) (d_o d))), ?(proj2 (N.eqb_neq (d_o d') (d_o d + 1))), ?(proj2 (N.eqb_neq (d_o d' + 1) (d_o d + 1))) by lia.
          -- rewrite (proj2 (N.eqb_neq (snd d') (snd d))), (proj2 (N.eqb_neq (snd d') (snd d + 1))); [exact M| |]; intro Eq; apply (R3 (snd d')); cbn; auto.
          -- rewrite (proj2 (N.eqb_neq (snd d') (snd d))), (proj2 (N.eqb_neq (snd d' + 1) (snd d))), (proj2 (N.eqb_neq (snd d') (snd d + 1))), (proj2 (N.eqb_neq (snd d' + 1) (snd d + 1)));
             [exact M| | | |]; intro Eq; first [apply (R3 (snd d' + 1)%N); cbn; now auto|apply (R3 (snd d')); cbn; now auto].
  Qed.

  Lemma sim_set i s s' a : sim i s s' -> sim i (set_abs s a) (set_abs s' a).
  Proof.
    intros [A B]. constructor; [reflexivity|]. intros d H1 H2. specialize (B d H1 H2). unfold loc in *.
    destruct (snd d =? DEADBEAF)%N, (d_t d); exact B.
  Qed.
  Lemma sim_next i s s' : sim i s s' -> (forall d, In d D -> d_s d <> i) -> sim (S i) s s'.
  Proof. intros [A B] H. constructor; [exact A|]. intros d H1 H2. apply B; [exact H1|]. specialize (H d H1). lia. Qed.

  Lemma ssa_at pre : forall suf n K, ssa n K (pre ++ suf) -> exists n' , ssa n' (rev (targets pre) ++ K) suf.
  Proof.
    induction pre as [|s pre IH]; intros suf n K H; [exists n; exact H|]. destruct s as [[]| | |]; cbn [ssa app targets] in *; try contradiction.
    - destruct H as (_ & _ & H). apply IH in H. cbn [rev]. rewrite <- app_assoc. exact H.
    - destruct H as (_ & H). now apply IH in H.
  Qed.
  Lemma defs_inj o t o' t' i : In (o, t, i) (defs 0 p) -> In (o', t', i) (defs 0 p) -> (o, t) = (o', t').
  Proof.
    intros H H'. destruct (by_key _ _ _ H) as (d & Hd & <- & <- & Hs). destruct (by_key _ _ _ H') as (d' & Hd' & <- & <- & Hs').
    destruct (apart_in d d' Hd Hd') as [->|[A|A]]; [reflexivity| |]; destruct A as (A & _); lia.
  Qed.

  Lemma sim_run suf : forall pre s s', p = pre ++ suf -> sim (length pre) s s' ->
    orel (sim (length p)) (run E suf s) (run E' (map (smap (rho D)) suf) s').
  Proof.
    induction suf as [|c suf IH]; intros pre s s' Hpp S.
    - rewrite app_nil_r in Hpp. subst pre. exact S.
    - cbn [map SolIr.run]. 
      assert (F : p = (pre ++ [c]) ++ suf) by (rewrite <- app_assoc; exact Hpp).
      assert (Len : length (pre ++ [c]) = Datatypes.S (length pre)) by (rewrite app_length; cbn; lia).
      apply (orel_bind (sim (Datatypes.S (length pre)))).
      2:{ intros s1 s1' S1. apply (IH (pre ++ [c])); [exact F|]. now rewrite Len. }
      clear IH. destruct (ssa_at pre (c :: suf) 0%N []) as [n' Hs]; [rewrite <- Hpp; exact Hp|]. rewrite app_nil_r in Hs.
      assert (Nc : nth_error p (length pre) = Some c) by (rewrite Hpp, nth_error_app2, Nat.sub_diag by lia; reflexivity).
      assert (Live : forall o t, In (o, t) (targets pre) -> reads c o t -> exists d, In d D /\ d_o d = o /\ d_t d = t /\ (d_s d < length pre <= d_e d)%nat).
      { intros o t Hin R. destruct (known_defs pre 0 o t Hin) as [k Hk]. assert (Rk := defs_index _ _ _ _ _ Hk).
        destruct (by_key o t k) as (d & Hd & <- & <- & <-); [rewrite Hpp, defs_app; apply in_or_app; now left|].
        exists d. split; [exact Hd|]. split; [reflexivity|]. split; [reflexivity|]. split; [lia|].
        assert (Hv : In (fst d) ivs) by (rewrite <- HD; now apply in_map). apply In_nth_error in Hv. destruct Hv as [kk Hkk].
        eapply (it_reads _ _ _ _ Hivs); eauto. }
      assert (Ev : forall e, rhs c = e -> reads_ok (rev (targets pre)) e -> eval E' s' (emap (rho D) e) = eval E s e).
      { intros e Hc R. apply (sim_eval (length pre)); [exact S|]. intros l Hl. unfold reads_ok in R. rewrite Forall_forall in R. specialize (R l Hl).
        destruct l as [o t| | | | | | | | | | | | | | |]; try exact I; try contradiction. cbn in R. apply Live; [now apply in_rev|]. unfold reads. now rewrite Hc. }
      destruct c as [[o t| | | | | | | | | | | | | | |] r|e k| |]; cbn [ssa] in Hs; try contradiction.
      + destruct Hs as (Ho & (Ty & R) & _).
        assert (Hdef : In (o, t, length pre) (defs 0 p)).
        { rewrite Hpp, defs_app. apply in_or_app. right. cbn [defs]. now left. }
        destruct (by_key _ _ _ Hdef) as (d & Hd & <- & <- & Hsd).
        assert (Fit : (d_o d + to_length (d_t d) <= e_msize E)%N).
        { eapply N.le_trans; [|exact Htop]. eapply no_msize; [exact Hp|]. rewrite Hpp, targets_app. apply in_or_app. right. cbn [targets]. now left. }
        specialize (Ev r eq_refl R). cbn [smap]. change (emap (rho D) (EMemory (d_o d) (d_t d))) with (rho D (EMemory (d_o d) (d_t d))). rewrite rho_at by exact Hd. rewrite !exec_assign.
        assert (G : orel (sim (Datatypes.S (length pre))) (do v <- eval E s r; store E s (EMemory (d_o d) (d_t d)) v) (do v <- eval E' s' (emap (rho D) r); store E' s' (loc (snd d) (d_t d)) v)).
        { rewrite Ev. destruct (eval E s r) as [v|]; [|exact I]. apply sim_store; auto. }
        destruct r; try exact G; cbn [emap rho].
        * match goal with |- context [find ?f D] => destruct (find f D) as [d0|] eqn:Fd end; cbn [emap rho] in G; rewrite Fd in G; [|exact G].
          unfold loc in G |- *. destruct (snd d0 =? DEADBEAF)%N; exact G.
        * rewrite Ea, <- (sm_abs _ _ _ S). destruct (squeeze_challenge _ _ _ _) as [[v a]|]; [|exact I]. apply sim_store; auto. now apply sim_set.
      + destruct Hs as (R & _). specialize (Ev e eq_refl R). cbn [smap SolIr.exec]. rewrite Ev, Ea, <- (sm_abs _ _ _ S).
        replace (get_type (emap (rho D) e)) with (get_type e).
        2:{ symmetry. apply emap_type. intros l Hl. destruct l as [o t| | | | | | | | | | | | | | |]; try reflexivity. unfold rho.
            match goal with |- context [find ?f D] => destruct (find f D) end; [|reflexivity]. unfold loc. now destruct (_ =? _)%N. }
        assert (Nx : sim (Datatypes.S (length pre)) s s').
        { apply sim_next; [exact S|]. intros d Hd Hsd.
          assert (Hk : In (d_o d, d_t d, length pre) (defs 0 p)).
          { rewrite <- (it_keys _ _ _ _ Hivs), <- HD, map_map. apply in_map_iff. exists d. split; [|exact Hd]. unfold iv_key. now rewrite Hsd. }
          rewrite Hpp, defs_app in Hk. apply in_app_or in Hk. cbn [defs plus] in Hk. destruct Hk as [Hk|Hk]; apply defs_index in Hk; lia. }
        destruct (eval E s e) as [v|]; [|exact I]. destruct (get_type e).
        * destruct (sc v); [|exact I]. destruct (update_hash_scalar _ _ _ _); [|exact I]. now apply sim_set.
        * destruct (pt v) as [[]|]; [|exact I]. destruct (update_hash_point _ _ _ _ _); [|exact I]. now apply sim_set.
  Qed.

  Lemma sim_result s s' e : sim (length p) s s' -> In e es -> eval E' s' (emap (rho D) e) = eval E s e.
  Proof.
    intros S He. apply (sim_eval (length p)); [exact S|]. intros l Hl. rewrite Forall_forall in Hes. assert (R := Hes e He). unfold reads_ok in R. rewrite Forall_forall in R. specialize (R l Hl).
    destruct l as [o t| | | | | | | | | | | | | | |]; try exact I; try contradiction. cbn in R.
    destruct (known_defs p 0 o t R) as [k Hk]. assert (Rk := defs_index _ _ _ _ _ Hk). destruct (by_key _ _ _ Hk) as (d & Hd & <- & <- & <-).
    exists d. split; [exact Hd|]. split; [reflexivity|]. split; [reflexivity|].
    assert (Hv : In (fst d) ivs) by (rewrite <- HD; now apply in_map). apply In_nth_error in Hv. destruct Hv as [kk Hkk].
    rewrite (it_result _ _ _ _ Hivs kk (fst d) e Hkk He Hl). lia.
  Qed.
  Lemma sim0 : sim 0 st0 st0.
  Proof. constructor; [reflexivity|]. intros d _ H. lia. Qed.
End Sem.
