(** The statements emitted by the chips of the code generator compute what the calls
    yield natively. *)
From Coq Require Import ZArith NArith List Bool Lia Field.
From Verif Require Import Util Algebra PField Curve Bytes Evm EvmProofs ShaProofs Poseidon PoseidonProofs SolIr SolSem SolIntervals SolMulAdd SolAggDriver ListFacts ChipRun SolChip SolChipProofs.
From Verif Require ShaTranscript.
Import ListNotations.

(** * Appending to a program *)
Lemma top_app p : forall n q, top n (p ++ q) = top (top n p) q.
Proof. induction p as [|s p IH]; intros n q; [reflexivity|]. destruct s as [[]| | |]; cbn [app top]; apply IH. Qed.
Lemma ssa_app p : forall n K q, ssa n K p -> ssa (top n p) (targets p ++ K) q -> ssa n K (p ++ q).
Proof.
  induction p as [|s p IH]; intros n K q H Q; [exact Q|]. destruct s as [[]| | |]; cbn [app ssa top targets] in *; try contradiction.
  - destruct H as (A & B & C). split; [exact A|]. split; [exact B|]. apply IH; [exact C|]. eapply ssa_sub; [|exact Q].
    intros x Hx. destruct Hx as [<-|Hx]; [apply in_or_app; right; now left|]. apply in_app_or in Hx. apply in_or_app. destruct Hx; [now left|right; now right].
  - destruct H as [A B]. split; [exact A|]. now apply IH.
Qed.

(** * Words of memory as bytes *)
Lemma mem_bytes_ext m m' n : (forall i, (i < n)%N -> m i = m' i) -> mem_bytes m n = mem_bytes m' n.
Proof.
  intro H. unfold mem_bytes. assert (G : forall l, (forall i, In i l -> (i < N.to_nat n)%nat) -> flat_map (fun i => word_bytes (m (N.of_nat i))) l = flat_map (fun i => word_bytes (m' (N.of_nat i))) l).
  { induction l as [|i l IH]; intro Hl; [reflexivity|]. cbn [flat_map]. rewrite IH by (intros; apply Hl; now right). rewrite H; [reflexivity|]. pose proof (Hl i (or_introl eq_refl)). lia. }
  apply G. intros i Hi. apply in_seq in Hi. lia.
Qed.
Lemma mem_bytes_succ m n : mem_bytes m (n + 1) = mem_bytes m n ++ word_bytes (m n).
Proof.
  unfold mem_bytes. replace (N.to_nat (n + 1)) with (N.to_nat n + 1)%nat by lia. rewrite seq_app, flat_map_app. cbn [seq flat_map plus]. rewrite app_nil_r.
  now rewrite N2Nat.id.
Qed.
Lemma mem_bytes_upd m i z n : (n <= i)%N -> mem_bytes (upd m i z) n = mem_bytes m n.
Proof. intro H. apply mem_bytes_ext. intros j Hj. unfold upd. now rewrite (proj2 (N.eqb_neq j i)) by lia. Qed.
Lemma upd_same m i z : upd m i z i = z. Proof. unfold upd. now rewrite N.eqb_refl. Qed.
Lemma update_hash_scalar_ok size v a pos : (pos + 2 <= size)%N ->
  exists a', update_hash_scalar size v a pos = Some a' /\ mem_bytes a' (pos + 2) = mem_bytes a pos ++ word_bytes 2 ++ word_bytes v.
Proof.
  intro H. unfold update_hash_scalar, wr. rewrite !(proj2 (N.ltb_lt _ _)) by lia. eexists. split; [reflexivity|].
  replace (pos + 2)%N with (pos + 1 + 1)%N by lia. rewrite mem_bytes_succ, upd_same, mem_bytes_upd, mem_bytes_succ, upd_same, mem_bytes_upd by lia. now rewrite <- app_assoc.
Qed.
Lemma update_hash_point_ok size x y a pos : (pos + 3 <= size)%N ->
  exists a', update_hash_point size x y a pos = Some a' /\ mem_bytes a' (pos + 3) = mem_bytes a pos ++ word_bytes 1 ++ word_bytes x ++ word_bytes y.
Proof.
  intro H. unfold update_hash_point, wr. rewrite !(proj2 (N.ltb_lt _ _)) by lia. eexists. split; [reflexivity|].
  replace (pos + 3)%N with (pos + 2 + 1)%N by lia. rewrite mem_bytes_succ, upd_same, mem_bytes_upd by lia.
  replace (pos + 2)%N with (pos + 1 + 1)%N by lia. rewrite mem_bytes_succ, upd_same, mem_bytes_upd by lia.
  rewrite mem_bytes_succ, upd_same, mem_bytes_upd by lia. now rewrite <- !app_assoc.
Qed.
Lemma word_bytes_be r : Forall byte r -> length r = 32%nat -> word_bytes (be r) = r.
Proof.
  intros B L. unfold word_bytes, be. replace 32%nat with (length (rev r)) by now rewrite rev_length. rewrite le_leval by now apply Forall_rev. apply rev_involutive.
Qed.
Lemma squeeze_ok sha size a n : (forall l, Forall byte (sha l) /\ length (sha l) = 32%nat) -> (n + 1 <= size)%N -> exists a',
  let r := sha (mem_bytes a n ++ [0%Z]) in
  Evm.squeeze_challenge sha size a n = Some ((leval r mod q_mod)%Z, a') /\ mem_bytes a' 1 = r.
Proof.
  intros Hs H. cbv zeta. unfold Evm.squeeze_challenge, wr. rewrite (proj2 (N.ltb_lt n size)), (proj2 (N.ltb_lt 0 size)) by lia.
  unfold hash. rewrite mem_bytes_upd, upd_same by lia. change (firstn 1 (word_bytes 0)) with [0%Z].
  destruct (Hs (mem_bytes a n ++ [0%Z])) as [B L]. unfold to_scalar. rewrite fr_reverse_be by assumption. change 0x30644e72e131a029b85045b68181585d2833e84879b9709143e1f593f0000001%Z with q_mod.
  eexists. split; [reflexivity|]. rewrite (mem_bytes_succ _ 0), upd_same. change (mem_bytes _ 0) with (@nil Z) at 1. cbn [app]. now apply word_bytes_be.
Qed.

(** * The proof as an array of words: 32 bytes each, least significant first *)
Fixpoint words_ (n : nat) (l : list Z) : list Z := match n with O => [] | S n => leval (firstn 32 l) :: words_ n (skipn 32 l) end.
Definition words (l : list Z) : list Z := words_ (length l / 32) l.
Lemma words_read l d r : ShaTranscript.read_exact 32 l = Some (d, r) -> words l = leval d :: words r.
Proof.
  unfold ShaTranscript.read_exact. destruct (Nat.leb_spec 32 (length l)) as [H|H]; [|discriminate]. intros [= <- <-]. unfold words.
  replace (length l / 32)%nat with (S (length (skipn 32 l) / 32)); [reflexivity|]. rewrite skipn_length.
  replace (length l) with ((length l - 32) + 1 * 32)%nat at 2 by lia. rewrite Nat.div_add by lia. lia.
Qed.

Section Emit.
  Variables S W : PF.
  Hypothesis HS : pf_n S = q_mod.
  Hypothesis HW : pf_n W = p_mod.
  Variable b : W.
  Hypothesis b_nz : b <> f0.
  (** no point of the curve has order two *)
  Hypothesis no_order_two : forall x y, on_curve b (Aff x y) -> y <> f0.
  Variable ident_ok : bool.
  Variable checked : bool.
  Variable sha256 : list Z -> list Z.
  Variable E : env.
  Notation eval := (eval b checked E). Notation exec := (exec b checked sha256 E). Notation run := (run b checked sha256 E).

  (** * The program so far *)
  Record core (g : gctx) (s : st) : Prop := mkCore {
    c_run : run (g_stmts g) st0 = Some s;
    c_ssa : ssa 0 [] (g_stmts g);
    c_top : (top 0 (g_stmts g) <= g_mem g)%N;
    c_wt : Forall wt_stmt (g_stmts g);
    c_cache : forall e m, In (e, m) (g_cache g) ->
      exists o, m = EMemory o (get_type e) /\ In (o, get_type e) (targets (g_stmts g)) /\ reads_ok (targets (g_stmts g)) e /\ eval s m = eval s e;
    c_flags : g_mock g = false /\ g_in_tr g = false /\ g_in_inst g = false
  }.
  Definition keeps (g : gctx) (s : st) (g' : gctx) (s' : st) : Prop :=
    incl (targets (g_stmts g)) (targets (g_stmts g')) /\ forall e, reads_ok (targets (g_stmts g)) e -> eval s' e = eval s e.
  Lemma keeps_refl g s : keeps g s g s. Proof. split; [apply incl_refl|reflexivity]. Qed.
  Lemma keeps_trans g s g1 s1 g2 s2 : keeps g s g1 s1 -> keeps g1 s1 g2 s2 -> keeps g s g2 s2.
  Proof.
    intros [I1 K1] [I2 K2]. split; [eapply incl_tran; eauto|]. intros e He. rewrite K2; [now apply K1|]. eapply reads_sub; [apply I1|exact He].
  Qed.
  (** steps that touch no offset but the next memory cell *)
  Record astep (g : gctx) (s : st) (g' : gctx) (s' : st) : Prop := mkAstep {
    a_keeps : keeps g s g' s';
    a_abs : absorbing s' = absorbing s;
    a_off : g_abs g' = g_abs g /\ g_maxabs g' = g_maxabs g /\ g_tr g' = g_tr g /\ g_inst g' = g_inst g
  }.
  Lemma astep_refl g s : astep g s g s.
  Proof. constructor; [apply keeps_refl|reflexivity|repeat split]. Qed.
  Lemma astep_trans g s g1 s1 g2 s2 : astep g s g1 s1 -> astep g1 s1 g2 s2 -> astep g s g2 s2.
  Proof.
    intros [K1 A1 (B1 & C1 & D1 & E1)] [K2 A2 (B2 & C2 & D2 & E2)]. constructor; [eapply keeps_trans; eauto|congruence|repeat split; congruence].
  Qed.
  Notation K g := (targets (g_stmts g)).
  Definition arith {A} (m : G A) (Q : A -> list (N * ty) -> st -> Prop) (g : gctx) (s : st) : Prop :=
    forall x g', m g = Some (x, g') -> (g_mem g' <= e_msize E)%N -> exists s', core g' s' /\ astep g s g' s' /\ Q x (K g') s'.
  Lemma arith_ret A (a : A) (Q : A -> list (N * ty) -> st -> Prop) g s : core g s -> Q a (K g) s -> arith (gret a) Q g s.
  Proof. intros C H x g' [= <- <-] _. exists s. split; [exact C|]. split; [apply astep_refl|exact H]. Qed.
  Lemma arith_panic A (Q : A -> list (N * ty) -> st -> Prop) g s : arith (@gpanic A) Q g s.
  Proof. intros x g' H. discriminate. Qed.
  Lemma arith_bind A B (m : G A) (k : A -> G B) (P : A -> list (N * ty) -> st -> Prop) (Q : B -> list (N * ty) -> st -> Prop) g s : (forall a, gmono (k a)) -> arith m P g s ->
    (forall a g1 s1, core g1 s1 -> astep g s g1 s1 -> P a (K g1) s1 -> arith (k a) Q g1 s1) -> arith (gbind m k) Q g s.
  Proof.
    intros Mk Hm Hk x g' H L. unfold gbind in H. destruct (m g) as [[a g1]|] eqn:E1; [|discriminate].
    destruct (Hm a g1 E1) as (s1 & C1 & A1 & P1).
    { destruct (Mk a g1 x g' H) as [M _]. lia. }
    destruct (Hk a g1 s1 C1 A1 P1 x g' H L) as (s2 & C2 & A2 & P2). exists s2. split; [exact C2|]. split; [eapply astep_trans; eauto|exact P2].
  Qed.

  (** * Storing a value in a new cell *)
  Lemma store_keeps L n s o t v s' : below n L -> (n <= o)%N -> store E s (EMemory o t) v = Some s' ->
    absorbing s' = absorbing s /\ forall e, reads_ok L e -> eval s' e = eval s e.
  Proof.
    intros B Ho H.
    assert (A : absorbing s' = absorbing s /\ forall o' t', In (o', t') L -> eval s' (EMemory o' t') = eval s (EMemory o' t')).
    { destruct t, v as [z|x y]; cbn [store] in H; try discriminate; unfold wr in H.
      - destruct (N.ltb_spec o (e_msize E)) as [L1|L1]; [|discriminate]. injection H as <-. split; [reflexivity|]. intros o' t' H'. specialize (B _ _ H').
        destruct t'; cbn [SolIr.eval mem to_length] in *; unfold rd, upd in *.
        + now rewrite !(proj2 (N.eqb_neq o' o)) by lia.
        + now rewrite !(proj2 (N.eqb_neq o' o)), !(proj2 (N.eqb_neq (o' + 1) o)) by lia.
      - destruct (N.ltb_spec o (e_msize E)) as [L1|L1]; [|discriminate]. destruct (N.ltb_spec (o + 1) (e_msize E)) as [L2|L2]; [|discriminate].
        injection H as <-. split; [reflexivity|]. intros o' t' H'. specialize (B _ _ H').
        destruct t'; cbn [SolIr.eval mem to_length] in *; unfold rd, upd in *.
        + now rewrite !(proj2 (N.eqb_neq o' (o + 1))), !(proj2 (N.eqb_neq o' o)) by lia.
        + now rewrite !(proj2 (N.eqb_neq o' (o + 1))), !(proj2 (N.eqb_neq o' o)), !(proj2 (N.eqb_neq (o' + 1) o)), !(proj2 (N.eqb_neq (o' + 1) (o + 1))) by lia. }
    destruct A as [A1 A2]. split; [exact A1|]. intros e R. apply eval_ext. intros l Hl. unfold reads_ok in R. rewrite Forall_forall in R. specialize (R l Hl).
    destruct l as [o' t'|o' t'|o' t'|o' t'| | | | | | | | | | | |]; try contradiction; try reflexivity. now apply A2.
  Qed.
  Lemma core_below g s : core g s -> below (g_mem g) (K g).
  Proof. intros C o t H. pose proof (no_msize 0 [] _ (c_ssa _ _ C) o t H). pose proof (c_top _ _ C). lia. Qed.
  Lemma cache_get_in v c e : cache_get v c = Some e -> In (v, e) c.
  Proof.
    induction c as [|[k m] c IH]; cbn [cache_get]; [discriminate|]. destruct (expr_eqb v k) eqn:Ev; [|intro H; right; now apply IH].
    intros [= <-]. apply expr_eqb_true in Ev. subst k. now left.
  Qed.
  Definition no_hash (e : expr) : Prop := match e with EHash _ => False | _ => True end.

  Definition add_assign (g : gctx) (o : N) (t : ty) (r : expr) (mem : N) (cache : list (expr * expr)) (g' : gctx) : Prop :=
    g_stmts g' = g_stmts g ++ [Assign (EMemory o t) r] /\ g_cache g' = cache /\ g_mem g' = mem /\
    g_mock g' = false /\ g_in_tr g' = false /\ g_in_inst g' = false.

  Lemma assign_memory_ok g s v val : core g s -> reads_ok (K g) v -> wt v -> no_hash v -> eval s v = Some val -> has_ty val (get_type v) ->
    arith (assign_memory v) (fun l K s' => exists o, l = EMemory o (get_type v) /\ In (o, get_type v) K /\ eval s' l = Some val) g s.
  Proof.
    intros C R Wt Nh Ev Tv x g' H L. unfold assign_memory in H. destruct (cache_get v (g_cache g)) as [m|] eqn:Ec.
    - injection H as <- <-. exists s. split; [exact C|]. split; [apply astep_refl|]. apply cache_get_in in Ec.
      destruct (c_cache _ _ C _ _ Ec) as (o & -> & Hi & _ & He). exists o. split; [reflexivity|]. split; [exact Hi|congruence].
    - destruct (c_flags _ _ C) as (Fm & Ft & Fi). unfold gbind, allocate in H. cbn in H. rewrite Fm in H. cbn in H. injection H as <- <-. cbn [g_mem] in L.
      destruct (store_fits E s (g_mem g) (get_type v) val Tv ltac:(cbn in L; lia)) as [s' Hs'].
      destruct (store_keeps (K g) (g_mem g) s _ _ _ _ (core_below _ _ C) (N.le_refl _) Hs') as [Ka Ke].
      assert (Rd := store_read _ _ checked _ _ _ _ _ _ Hs' : eval s' _ = _).
      assert (Hex : exec s (Assign (EMemory (g_mem g) (get_type v)) v) = Some s').
      { rewrite exec_assign. destruct v; try contradiction Nh; rewrite Ev; exact Hs'. }
      exists s'. split; [|split].
      + constructor; cbn.
        * rewrite run_app, (c_run _ _ C). cbn [SolIr.run]. rewrite Hex. reflexivity.
        * apply ssa_app; [apply (c_ssa _ _ C)|]. cbn [ssa]. split; [apply (c_top _ _ C)|]. rewrite app_nil_r. auto.
        * rewrite top_app. cbn [top]. lia.
        * apply Forall_app. split; [apply (c_wt _ _ C)|]. constructor; [|constructor]. cbn. auto.
        * rewrite targets_app. cbn [targets]. intros e m [H|H].
          -- injection H as <- <-. exists (g_mem g). split; [reflexivity|]. split; [apply in_or_app; right; now left|].
             split; [eapply reads_sub; [|exact R]; intros; apply in_or_app; now left|]. rewrite Rd, Ke by exact R. now rewrite Ev.
          -- destruct (c_cache _ _ C _ _ H) as (o & -> & Hi & Hr & He). exists o. split; [reflexivity|]. split; [apply in_or_app; now left|].
             split; [eapply reads_sub; [|exact Hr]; intros; apply in_or_app; now left|]. rewrite !Ke; [exact He|exact Hr|]. constructor; [exact Hi|constructor].
        * auto.
      + constructor; [split|exact Ka|repeat split]; cbn [g_stmts].
        * rewrite targets_app. intros y Hy. apply in_or_app. now left.
        * exact Ke.
      + exists (g_mem g). cbn [g_stmts]. split; [reflexivity|]. rewrite targets_app. split; [apply in_or_app; right; now left|exact Rd].
  Qed.

  (** * Values *)
  Record sgood (K : list (N * ty)) (s : st) (x : sval S) (a : S) : Prop := mkSgood {
    sg_op : operand (s_expr _ x) TScalar;
    sg_reads : reads_ok K (s_expr _ x);
    sg_eval : eval s (s_expr _ x) = Some (VS (toZ a));
    sg_const : s_const _ x = true -> s_v _ x = a
  }.
  Definition pv (a : point W) : value := VP (fst (encode a)) (snd (encode a)).
  Record pgood (K : list (N * ty)) (s : st) (x : pval W) (a : point W) : Prop := mkPgood {
    pg_op : operand (p_expr _ x) TPoint;
    pg_reads : reads_ok K (p_expr _ x);
    pg_on : on_curve b a;
    pg_eval : eval s (p_expr _ x) = Some (pv a);
    pg_const : p_const _ x = true -> p_v _ x = a
  }.
  Lemma sgood_keeps g s g' s' x a : keeps g s g' s' -> sgood (K g) s x a -> sgood (K g') s' x a.
  Proof. intros [I Ke] [O R Ev Cs]. constructor; auto; [eapply reads_sub; [apply I|exact R]|rewrite Ke; auto]. Qed.
  Lemma pgood_keeps g s g' s' x a : keeps g s g' s' -> pgood (K g) s x a -> pgood (K g') s' x a.
  Proof. intros [I Ke] [O R On Ev Cs]. constructor; auto; [eapply reads_sub; [apply I|exact R]|rewrite Ke; auto]. Qed.
  Lemma literal_ok z : (0 <= z < 2 ^ 256)%Z -> literal z = Some z.
  Proof. intro H. unfold literal. rewrite (proj2 (Z.leb_le _ _)), (proj2 (Z.ltb_lt _ _)) by lia. reflexivity. Qed.
  Lemma q_small : (q_mod < 2 ^ 256)%Z. Proof. reflexivity. Qed.
  Lemma p_small : (p_mod < 2 ^ 256)%Z. Proof. reflexivity. Qed.
  Lemma literal_s (a : S) : literal (toZ a) = Some (toZ a).
  Proof. apply literal_ok. pose proof (toZ_range S a) as R. rewrite HS in R. pose proof q_small. lia. Qed.
  Lemma literal_w (a : W) : literal (toZ a) = Some (toZ a).
  Proof. apply literal_ok. pose proof (toZ_range W a) as R. rewrite HW in R. pose proof p_small. lia. Qed.
  Lemma encode_literal (a : point W) : literal (fst (encode a)) = Some (fst (encode a)) /\ literal (snd (encode a)) = Some (snd (encode a)).
  Proof. destruct a as [|x y]; [split; reflexivity|]. cbn [encode fst snd]. split; apply literal_w. Qed.
  Lemma const_good K s c : sgood K s (mkS S (EScalar (toZ c)) c true) c.
  Proof. constructor; cbn; [split; exact I || reflexivity|constructor; [exact I|constructor]|now rewrite literal_s|reflexivity]. Qed.
  Lemma pconst_good K s a : on_curve b a -> pgood K s (mkPV W (EPoint (fst (encode a)) (snd (encode a))) a true) a.
  Proof.
    intro On. destruct (encode_literal a) as [E1 E2].
    constructor; cbn [p_expr p_v p_const]; [split; exact I || reflexivity|constructor; [exact I|constructor]|exact On| |reflexivity].
    cbn [SolIr.eval]. now rewrite E1, E2.
  Qed.
  Definition srel a := fun (x : sval S) K s => sgood K s x a.
  Definition prel a := fun (x : pval W) K s => pgood K s x a.
  Lemma assign_const_ok g s c : core g s -> arith (assign_const S c) (srel c) g s.
  Proof. intro C. apply arith_ret; [exact C|]. apply const_good. Qed.
  Lemma p_assign_const_ok g s a : core g s -> on_curve b a -> arith (p_assign_const W a) (prel a) g s.
  Proof.
    intros C On. unfold p_assign_const. destruct (encode a) as [x y] eqn:Ea. apply arith_ret; [exact C|]. pose proof (pconst_good (K g) s a On) as P. now rewrite Ea in P.
  Qed.
  (** emitted results; the sample is a constant only if the value is *)
  Lemma emit_ok g s r v c a : core g s -> reads_ok (K g) r -> wt r -> no_hash r -> get_type r = TScalar -> eval s r = Some (VS (toZ a)) -> c = false ->
    arith (emit S r v c) (srel a) g s.
  Proof.
    intros C R Wt Nh Ty Ev ->. unfold emit. eapply arith_bind; [intro; apply gmono_ret| |].
    - apply (assign_memory_ok g s r _ C R Wt Nh Ev). now rewrite Ty.
    - intros l g1 s1 C1 A1 (o & -> & Hi & He). apply arith_ret; [exact C1|]. rewrite Ty in *. constructor; cbn; try discriminate.
      + split; [exact I|reflexivity].
      + constructor; [exact Hi|constructor].
      + exact He.
  Qed.
  Lemma p_emit_ok g s r v c a : core g s -> reads_ok (K g) r -> wt r -> no_hash r -> get_type r = TPoint -> on_curve b a -> eval s r = Some (pv a) -> c = false ->
    arith (p_emit W ident_ok r v c) (prel a) g s.
  Proof.
    intros C R Wt Nh Ty On Ev ->. unfold p_emit. destruct (ShaTranscript.coordinates ident_ok v); [|apply arith_panic].
    eapply arith_bind; [intro; apply gmono_ret| |].
    - apply (assign_memory_ok g s r _ C R Wt Nh Ev). now rewrite Ty.
    - intros l g1 s1 C1 A1 (o & -> & Hi & He). apply arith_ret; [exact C1|]. rewrite Ty in *. constructor; cbn; try discriminate.
      + split; [exact I|reflexivity].
      + constructor; [exact Hi|constructor].
      + exact On.
      + exact He.
  Qed.
  Lemma is_val_true x y : is_val S x y = true -> x = y.
  Proof. unfold is_val. destruct (feq_dec x y); [auto|discriminate]. Qed.
  Lemma reads_two K l r : reads_ok K l -> reads_ok K r -> Forall (leaf_ok K) (leaves l ++ leaves r).
  Proof. intros. now apply Forall_app. Qed.
  Add Field SF : (f_th S).
  Lemma fr_add_toZ (a c : S) : fr_add (toZ a) (toZ c) = toZ (fadd a c).
  Proof.
    assert (H := fr_add_ok S HS (toZ a) (toZ c)). rewrite !ofZ_toZ in H. rewrite <- H. symmetry. apply toZ_small. rewrite HS. unfold fr_add, addmod.
    apply Z.mod_pos_bound. reflexivity.
  Qed.
  Lemma fr_mul_toZ (a c : S) : fr_mul (toZ a) (toZ c) = toZ (fmul a c).
  Proof.
    assert (H := fr_mul_ok S HS (toZ a) (toZ c)). rewrite !ofZ_toZ in H. rewrite <- H. symmetry. apply toZ_small. rewrite HS. unfold fr_mul, mulmod.
    apply Z.mod_pos_bound. reflexivity.
  Qed.
  Lemma fr_sub_toZ (a c : S) : fr_sub checked (toZ a) (toZ c) = Some (toZ (fsub a c)).
  Proof.
    destruct (fr_sub_ok S HS checked (toZ a) (toZ c)) as (z & -> & Hz & Ho).
    { pose proof (toZ_range S c). rewrite HS in *. lia. }
    rewrite !ofZ_toZ in Ho. rewrite <- Ho. f_equal. symmetry. apply toZ_small. now rewrite HS.
  Qed.
  Lemma fr_div_toZ (a c : S) : c <> f0 -> fr_div (toZ a) (toZ c) = Some (toZ (fmul a (finv c))).
  Proof.
    intro Hc. destruct (fr_div_ok S HS (toZ a) (toZ c)) as (z & -> & Hz & Ho).
    { now rewrite ofZ_toZ. }
    rewrite !ofZ_toZ in Ho. replace (fmul a (finv c)) with (fdiv a c) by now field. rewrite <- Ho. f_equal. symmetry. apply toZ_small. now rewrite HS.
  Qed.

  Lemma s_add_ok g s x y a c : core g s -> sgood (K g) s x a -> sgood (K g) s y c -> arith (s_add S x y) (srel (fadd a c)) g s.
  Proof.
    intros C X Y. unfold s_add. destruct (s_const _ x && s_const _ y) eqn:Cc.
    { apply andb_true_iff in Cc. rewrite (sg_const _ _ _ _ X), (sg_const _ _ _ _ Y) by apply Cc. now apply assign_const_ok. }
    destruct (s_const _ x && is_val S (s_v _ x) f0) eqn:Cx.
    { apply andb_true_iff in Cx. destruct Cx as [Cx Vx]. apply is_val_true in Vx. rewrite (sg_const _ _ _ _ X Cx) in Vx. subst a.
      apply arith_ret; [exact C|]. unfold srel. now replace (fadd f0 c) with c by ring. }
    destruct (s_const _ y && is_val S (s_v _ y) f0) eqn:Cy.
    { apply andb_true_iff in Cy. destruct Cy as [Cy Vy]. apply is_val_true in Vy. rewrite (sg_const _ _ _ _ Y Cy) in Vy. subst c.
      apply arith_ret; [exact C|]. unfold srel. now replace (fadd a f0) with a by ring. }
    apply emit_ok; auto.
    - apply reads_two; [apply X|apply Y].
    - split; [apply X|apply Y].
    - exact I.
    - cbn [SolIr.eval]. rewrite (sg_eval _ _ _ _ X), (sg_eval _ _ _ _ Y). cbn [sc]. now rewrite fr_add_toZ.
  Qed.
  Lemma s_sub_ok g s x y a c : core g s -> sgood (K g) s x a -> sgood (K g) s y c -> arith (s_sub S x y) (srel (fsub a c)) g s.
  Proof.
    intros C X Y. unfold s_sub. destruct (s_const _ x && s_const _ y) eqn:Cc.
    { apply andb_true_iff in Cc. rewrite (sg_const _ _ _ _ X), (sg_const _ _ _ _ Y) by apply Cc. now apply assign_const_ok. }
    destruct (s_const _ y && is_val S (s_v _ y) f0) eqn:Cy.
    { apply andb_true_iff in Cy. destruct Cy as [Cy Vy]. apply is_val_true in Vy. rewrite (sg_const _ _ _ _ Y Cy) in Vy. subst c.
      apply arith_ret; [exact C|]. unfold srel. now replace (fsub a f0) with a by ring. }
    apply emit_ok; auto.
    - apply reads_two; [apply X|apply Y].
    - split; [apply X|apply Y].
    - exact I.
    - cbn [SolIr.eval]. rewrite (sg_eval _ _ _ _ X), (sg_eval _ _ _ _ Y). cbn [sc]. now rewrite fr_sub_toZ.
  Qed.
  Lemma s_mul_ok g s x y a c : core g s -> sgood (K g) s x a -> sgood (K g) s y c -> arith (s_mul S x y) (srel (fmul a c)) g s.
  Proof.
    intros C X Y. unfold s_mul. destruct (s_const _ x && s_const _ y) eqn:Cc.
    { apply andb_true_iff in Cc. rewrite (sg_const _ _ _ _ X), (sg_const _ _ _ _ Y) by apply Cc. now apply assign_const_ok. }
    destruct (s_const _ x && is_val S (s_v _ x) f1) eqn:Cx.
    { apply andb_true_iff in Cx. destruct Cx as [Cx Vx]. apply is_val_true in Vx. rewrite (sg_const _ _ _ _ X Cx) in Vx. subst a.
      apply arith_ret; [exact C|]. unfold srel. now replace (fmul f1 c) with c by ring. }
    destruct (s_const _ y && is_val S (s_v _ y) f1) eqn:Cy.
    { apply andb_true_iff in Cy. destruct Cy as [Cy Vy]. apply is_val_true in Vy. rewrite (sg_const _ _ _ _ Y Cy) in Vy. subst c.
      apply arith_ret; [exact C|]. unfold srel. now replace (fmul a f1) with a by ring. }
    apply emit_ok; auto.
    - apply reads_two; [apply X|apply Y].
    - split; [apply X|apply Y].
    - exact I.
    - cbn [SolIr.eval]. rewrite (sg_eval _ _ _ _ X), (sg_eval _ _ _ _ Y). cbn [sc]. now rewrite fr_mul_toZ.
  Qed.
  Lemma s_div_ok g s x y a c : core g s -> sgood (K g) s x a -> sgood (K g) s y c -> c <> f0 -> arith (s_div S x y) (srel (fmul a (finv c))) g s.
  Proof.
    intros C X Y Hc. unfold s_div. destruct (is_val S (s_v _ y) f0); [apply arith_panic|]. destruct (s_const _ x && s_const _ y) eqn:Cc.
    { apply andb_true_iff in Cc. rewrite (sg_const _ _ _ _ X), (sg_const _ _ _ _ Y) by apply Cc. now apply assign_const_ok. }
    destruct (s_const _ y && is_val S (s_v _ y) f1) eqn:Cy.
    { apply andb_true_iff in Cy. destruct Cy as [Cy Vy]. apply is_val_true in Vy. rewrite (sg_const _ _ _ _ Y Cy) in Vy. subst c.
      apply arith_ret; [exact C|]. unfold srel. now replace (fmul a (finv f1)) with a by now field. }
    apply emit_ok; auto.
    - apply reads_two; [apply X|apply Y].
    - split; [apply X|apply Y].
    - exact I.
    - cbn [SolIr.eval]. rewrite (sg_eval _ _ _ _ X), (sg_eval _ _ _ _ Y). cbn [sc]. now rewrite fr_div_toZ.
  Qed.
  Lemma s_square_ok g s x a : core g s -> sgood (K g) s x a -> arith (s_square S x) (srel (fmul a a)) g s.
  Proof.
    intros C X. unfold s_square. destruct (s_const _ x) eqn:Cc.
    { rewrite (sg_const _ _ _ _ X) by apply Cc. now apply assign_const_ok. }
    apply emit_ok; auto.
    - apply reads_two; apply X.
    - split; apply X.
    - exact I.
    - cbn [SolIr.eval]. rewrite (sg_eval _ _ _ _ X). cbn [sc]. now rewrite fr_mul_toZ.
  Qed.
  Fixpoint sum_of (l : list (S * S)) (acc : S) : S := match l with [] => acc | (x, c) :: l => sum_of l (fadd acc (fmul x c)) end.
  Lemma s_sum_loop_ok l l' : forall g s acc a, core g s -> Forall2 (fun t t' => sgood (K g) s (fst t) (fst t') /\ snd t = snd t') l l' -> sgood (K g) s acc a ->
    arith (s_sum_loop S l acc) (srel (sum_of l' a)) g s.
  Proof.
    revert l'. induction l as [|[x k] l IH]; intros l' g s acc a C Hl Ha; inversion Hl as [|? [x' k'] ? l2 [Hx Hk] Hl2]; subst; cbn [s_sum_loop sum_of].
    { apply arith_ret; assumption. }
    cbn [fst snd] in *. subst k'. unfold assign_const. eapply (arith_bind _ _ _ _ (srel k)).
    { intro. apply gmono_bind; [apply mono_mul|]. intro. apply gmono_bind; [apply mono_add|]. intro. apply mono_sum_loop. }
    { apply arith_ret; [exact C|apply const_good]. }
    intros ck g0 s0 C0 A0 Hck. eapply arith_bind.
    { intro. apply gmono_bind; [apply mono_add|]. intro. apply mono_sum_loop. }
    { apply (s_mul_ok _ _ _ _ x' k C0); [eapply sgood_keeps; [apply A0|exact Hx]|exact Hck]. }
    intros m g1 s1 C1 A1 Hm. assert (A01 := astep_trans _ _ _ _ _ _ A0 A1). eapply arith_bind.
    { intro. apply mono_sum_loop. }
    { apply (s_add_ok _ _ _ _ a (fmul x' k) C1); [eapply sgood_keeps; [apply A01|exact Ha]|exact Hm]. }
    intros acc2 g2 s2 C2 A2 Hacc. assert (A02 := astep_trans _ _ _ _ _ _ A01 A2). apply IH; [exact C2| |exact Hacc].
    eapply Forall2_weaken; [|exact Hl2]. intros [u ku] [u' ku'] [H1 H2]. split; [|exact H2]. cbn [fst] in *. eapply sgood_keeps; [apply A02|exact H1].
  Qed.
  Lemma s_sum_ok l l' g s c : core g s -> Forall2 (fun t t' => sgood (K g) s (fst t) (fst t') /\ snd t = snd t') l l' ->
    arith (s_sum S l c) (srel (sum_of l' c)) g s.
  Proof.
    intros C Hl. unfold s_sum, assign_const. eapply (arith_bind _ _ _ _ (srel c)); [intro; apply mono_sum_loop|apply arith_ret; [exact C|apply const_good]|].
    intros acc g0 s0 C0 A0 Ha. apply s_sum_loop_ok; [exact C0| |exact Ha].
    eapply Forall2_weaken; [|exact Hl]. intros [u ku] [u' ku'] [H1 H2]. split; [|exact H2]. cbn [fst] in *. eapply sgood_keeps; [apply A0|exact H1].
  Qed.

  Lemma p_add_ok g s x y a c : core g s -> pgood (K g) s x a -> pgood (K g) s y c -> arith (p_add W ident_ok x y) (prel (padd a c)) g s.
  Proof.
    intros C X Y. assert (On : on_curve b (padd a c)) by (apply padd_on; [apply X|apply Y]). unfold p_add. destruct (p_const _ x && p_const _ y) eqn:Cc.
    { apply andb_true_iff in Cc. rewrite (pg_const _ _ _ _ X), (pg_const _ _ _ _ Y) by apply Cc. now apply p_assign_const_ok. }
    apply p_emit_ok; auto.
    - apply reads_two; [apply X|apply Y].
    - split; [apply X|apply Y].
    - exact I.
    - cbn [SolIr.eval]. rewrite (pg_eval _ _ _ _ X), (pg_eval _ _ _ _ Y). cbn [pt pv]. unfold ecc_add. rewrite (ecAdd_ok W b b_nz) by (apply X || apply Y).
      unfold vp, pv. now destruct (encode (padd a c)).
  Qed.
  Lemma p_sub_ok g s x y a c : core g s -> pgood (K g) s x a -> pgood (K g) s y c -> c <> Inf -> arith (p_sub W ident_ok x y) (prel (padd a (pneg c))) g s.
  Proof.
    intros C X Y Hc. assert (On : on_curve b (padd a (pneg c))) by (apply padd_on; [apply X|apply pneg_on, Y]). unfold p_sub. destruct (p_const _ x && p_const _ y) eqn:Cc.
    { apply andb_true_iff in Cc. rewrite (pg_const _ _ _ _ X), (pg_const _ _ _ _ Y) by apply Cc. now apply p_assign_const_ok. }
    apply p_emit_ok; auto.
    - apply reads_two; [apply X|apply Y].
    - split; [apply X|apply Y].
    - exact I.
    - cbn [SolIr.eval]. rewrite (pg_eval _ _ _ _ X), (pg_eval _ _ _ _ Y). cbn [pt pv]. destruct c as [|cx cy]; [congruence|]. cbn [encode fst snd].
      rewrite (ecc_sub_ok W HW b b_nz checked a cx cy) by (apply X || apply Y || exact (no_order_two _ _ (pg_on _ _ _ _ Y))).
      unfold vp, pv. now destruct (encode (padd a (pneg (Aff cx cy)))).
  Qed.
  Lemma p_mul_ok g s x y a c : core g s -> sgood (K g) s x a -> pgood (K g) s y c -> arith (p_mul S W ident_ok x y) (prel (smul (Z.to_N (toZ a)) c)) g s.
  Proof.
    intros C X Y. assert (On : on_curve b (smul (Z.to_N (toZ a)) c)) by (apply smul_on; apply Y). unfold p_mul. destruct (s_const _ x && p_const _ y) eqn:Cc.
    { apply andb_true_iff in Cc. rewrite (sg_const _ _ _ _ X), (pg_const _ _ _ _ Y) by apply Cc. now apply p_assign_const_ok. }
    apply p_emit_ok; auto.
    - apply reads_two; [apply X|apply Y].
    - split; [apply X|apply Y].
    - exact I.
    - cbn [SolIr.eval]. rewrite (sg_eval _ _ _ _ X), (pg_eval _ _ _ _ Y). cbn [pt pv sc]. unfold ecc_mul. rewrite (ecMul_ok W b b_nz) by apply Y.
      unfold vp, pv. now destruct (encode (smul _ c)).
  Qed.
  Lemma p_mul_constant_ok g s x a c : core g s -> sgood (K g) s x a -> on_curve b c -> arith (p_mul_constant S W ident_ok x c) (prel (smul (Z.to_N (toZ a)) c)) g s.
  Proof.
    intros C X Oc. assert (On : on_curve b (smul (Z.to_N (toZ a)) c)) by now apply smul_on. unfold p_mul_constant. destruct (s_const _ x) eqn:Cc.
    { rewrite (sg_const _ _ _ _ X) by apply Cc. now apply p_assign_const_ok. }
    assert (Y := pconst_good (K g) s c Oc). destruct (encode c) as [cx cy] eqn:Ec. cbn [fst snd] in Y.
    apply p_emit_ok; auto.
    - apply (reads_two (K g) _ (EPoint cx cy)); [apply X|apply Y].
    - split; [apply X|apply Y].
    - exact I.
    - cbn [SolIr.eval]. pose proof (pg_eval _ _ _ _ Y) as Ye. cbn [p_expr SolIr.eval] in Ye. rewrite Ye, (sg_eval _ _ _ _ X). cbn [pt pv sc]. unfold ecc_mul. rewrite (ecMul_ok W b b_nz) by exact Oc.
      unfold vp, pv. now destruct (encode (smul _ c)).
  Qed.

  (** * Absorbing and squeezing *)
  Hypothesis sha_ok : forall l, Forall byte (sha256 l) /\ length (sha256 l) = 32%nat.
  Lemma eval_set_abs K s a e : reads_ok K e -> eval (set_abs s a) e = eval s e.
  Proof.
    intro R. apply eval_ext. intros l Hl. unfold reads_ok in R. rewrite Forall_forall in R. specialize (R l Hl).
    destruct l as [o t|o t|o t|o t| | | | | | | | | | | |]; try contradiction; reflexivity.
  Qed.
  Lemma core_hash g s e o a g' : core g s -> simple e -> reads_ok (K g) e -> exec s (UpdateHash e o) = Some (set_abs s a) ->
    g_stmts g' = g_stmts g ++ [UpdateHash e o] -> g_cache g' = g_cache g -> g_mem g' = g_mem g ->
    g_mock g' = false /\ g_in_tr g' = false /\ g_in_inst g' = false ->
    core g' (set_abs s a) /\ keeps g s g' (set_abs s a).
  Proof.
    intros C Si R Ex Es Ec Em Fl. assert (T : K g' = K g) by (rewrite Es, targets_app; cbn [targets]; apply app_nil_r).
    split; [constructor|split].
    - rewrite Es, run_app, (c_run _ _ C). cbn [SolIr.run]. now rewrite Ex.
    - rewrite Es. apply ssa_app; [apply (c_ssa _ _ C)|]. cbn [ssa]. rewrite app_nil_r. auto.
    - rewrite Es, top_app, Em. cbn [top]. apply (c_top _ _ C).
    - rewrite Es. apply Forall_app. split; [apply (c_wt _ _ C)|]. constructor; [exact Si|constructor].
    - rewrite Ec, T. intros e' m H. destruct (c_cache _ _ C _ _ H) as (o' & -> & Hi & Hr & He). exists o'. split; [reflexivity|]. split; [exact Hi|]. split; [exact Hr|].
      rewrite !(eval_set_abs (K g)); [exact He|exact Hr|]. constructor; [exact Hi|constructor].
    - exact Fl.
    - rewrite T. apply incl_refl.
    - intros e' He. eapply eval_set_abs; eauto.
  Qed.
  (** [push] and the new offset *)
  Definition hashed (e : expr) (k : N) : G unit := fun g => (_ <-g push (UpdateHash e (g_abs g)) ;; set_abs_offset (g_abs g + k) (g_maxabs g)) g.
  Lemma hashed_inv e k g u g' : hashed e k g = Some (u, g') ->
    g' = mkG (g_abs g + k) (g_maxabs g) (g_mem g) (g_tr g) (g_inst g) (g_tmp g) (g_stmts g ++ [UpdateHash e (g_abs g)]) (g_cache g) (g_mock g) (g_in_tr g) (g_in_inst g).
  Proof. unfold hashed, gbind, push, set_abs_offset. now intros [= <-]. Qed.
  Lemma absorb_scalar g s x a u g' : core g s -> sgood (K g) s x a -> hashed (s_expr _ x) 2 g = Some (u, g') -> (g_abs g' <= e_asize E)%N -> exists s',
    core g' s' /\ keeps g s g' s' /\ mem_bytes (absorbing s') (g_abs g') = ShaTranscript.common_scalar (mem_bytes (absorbing s) (g_abs g)) a.
  Proof.
    intros C X H L. apply hashed_inv in H. assert (L' : (g_abs g + 2 <= e_asize E)%N) by (rewrite H in L; exact L).
    destruct (update_hash_scalar_ok (e_asize E) (toZ a) (absorbing s) (g_abs g) L') as (a' & Ha & Hb).
    destruct (core_hash g s (s_expr _ x) (g_abs g) a' g' C) as [C' K']; try (rewrite H; reflexivity).
    - apply X.
    - apply X.
    - cbn [SolIr.exec]. rewrite (sg_eval _ _ _ _ X). destruct (sg_op _ _ _ _ X) as [_ ->]. cbn [sc]. now rewrite Ha.
    - rewrite H. apply (c_flags _ _ C).
    - exists (set_abs s a'). split; [exact C'|]. split; [exact K'|]. rewrite H. cbn [g_abs set_abs absorbing]. exact Hb.
  Qed.
  Lemma encode_coords (P : point W) x y : ShaTranscript.coordinates ident_ok P = Some (x, y) -> encode P = (toZ x, toZ y).
  Proof. destruct P as [|px py]; cbn; [destruct ident_ok; [|discriminate]; intros [= <- <-]; now rewrite toZ_0|now intros [= <- <-]]. Qed.
  Lemma absorb_point g s x a u g' st : core g s -> pgood (K g) s x a -> hashed (p_expr _ x) 3 g = Some (u, g') -> (g_abs g' <= e_asize E)%N ->
    ShaTranscript.common_point ident_ok (mem_bytes (absorbing s) (g_abs g)) a = Some st -> exists s',
    core g' s' /\ keeps g s g' s' /\ mem_bytes (absorbing s') (g_abs g') = st.
  Proof.
    intros C X H L Hst. apply hashed_inv in H. assert (L' : (g_abs g + 3 <= e_asize E)%N) by (rewrite H in L; exact L).
    unfold ShaTranscript.common_point in Hst. destruct (ShaTranscript.coordinates ident_ok a) as [[ax ay]|] eqn:Ec; [|discriminate]. apply encode_coords in Ec.
    destruct (update_hash_point_ok (e_asize E) (toZ ax) (toZ ay) (absorbing s) (g_abs g) L') as (a' & Ha & Hb).
    destruct (core_hash g s (p_expr _ x) (g_abs g) a' g' C) as [C' K']; try (rewrite H; reflexivity).
    - apply X.
    - apply X.
    - cbn [SolIr.exec]. rewrite (pg_eval _ _ _ _ X). destruct (pg_op _ _ _ _ X) as [_ ->]. unfold pv. rewrite Ec. cbn [pt fst snd]. now rewrite Ha.
    - rewrite H. apply (c_flags _ _ C).
    - exists (set_abs s a'). split; [exact C'|]. split; [exact K'|]. rewrite H. cbn [g_abs set_abs absorbing]. rewrite Hb. now injection Hst as <-.
  Qed.
  (** [ctx_squeeze] in a context that is hashing *)
  Lemma squeeze_core g s m e g' : core g s -> (g_mem g <= m)%N ->
    ctx_squeeze (g_abs g) (mkG (g_abs g) (g_maxabs g) m (g_tr g) (g_inst g) (g_tmp g) (g_stmts g) (g_cache g) true (g_in_tr g) (g_in_inst g)) = Some (e, g') ->
    (g_mem g' <= e_msize E)%N -> (g_abs g + 1 <= e_asize E)%N -> exists s',
    core g' s' /\ keeps g s g' s' /\ g_tr g' = g_tr g /\ g_inst g' = g_inst g /\
    let '(c, st) := @ShaTranscript.squeeze_challenge S sha256 (mem_bytes (absorbing s) (g_abs g)) in
    mem_bytes (absorbing s') 1 = st /\ sgood (K g') s' (mkS S e c false) c.
  Proof.
    intros C Hm H L La. unfold ctx_squeeze, allocate, push, gbind, gret in H. cbn in H. injection H as <- <-. cbn [g_mem] in L.
    destruct (squeeze_ok sha256 (e_asize E) (absorbing s) (g_abs g) sha_ok La) as (a' & Ha & Hb). cbv zeta in Ha, Hb.
    unfold ShaTranscript.squeeze_challenge. set (r := sha256 _) in *. change (sha256 (mem_bytes (absorbing s) (g_abs g) ++ [ShaTranscript.SHA_PREFIX_CHALLENGE])) with r.
    set (c := ofZ (leval (r ++ _))).
    assert (Hc : toZ c = (leval r mod q_mod)%Z).
    { unfold c. rewrite leval_app, leval_zeros, Z.mul_0_r, Z.add_0_r, toZ_ofZ, HS. reflexivity. }
    rewrite <- Hc in Ha.
    destruct (store_fits E (set_abs s a') m TScalar (VS (toZ c)) I ltac:(cbn; lia)) as [s' Hs'].
    assert (B : below m (K g)) by (intros o t Ho; pose proof (core_below _ _ C o t Ho); lia).
    destruct (store_keeps (K g) m (set_abs s a') _ _ _ _ B (N.le_refl _) Hs') as [Ka Ke]. cbn [set_abs absorbing] in Ka.
    assert (Rd := store_read _ _ checked _ _ _ _ _ _ Hs' : eval s' _ = _).
    assert (Kp : forall e, reads_ok (K g) e -> eval s' e = eval s e) by (intros e He; rewrite Ke by exact He; eapply eval_set_abs; eauto).
    assert (Hex : exec s (Assign (EMemory m TScalar) (EHash (g_abs g))) = Some s').
    { cbn [SolIr.exec]. rewrite Ha. exact Hs'. }
    exists s'. split; [constructor; cbn [g_stmts g_mem g_cache g_mock g_in_tr g_in_inst]|split; [split; cbn [g_stmts]|]].
    - rewrite run_app, (c_run _ _ C). cbn [SolIr.run]. now rewrite Hex.
    - apply ssa_app; [apply (c_ssa _ _ C)|]. cbn [ssa]. split; [pose proof (c_top _ _ C); lia|]. split; [|exact I]. split; [reflexivity|]. constructor; [exact I|constructor].
    - rewrite top_app. cbn [top to_length]. lia.
    - apply Forall_app. split; [apply (c_wt _ _ C)|]. constructor; [|constructor]. cbn. auto.
    - rewrite targets_app. cbn [targets]. intros e' m' H'. destruct (c_cache _ _ C _ _ H') as (o & -> & Hi & Hr & He). exists o. split; [reflexivity|]. split; [apply in_or_app; now left|].
      split; [eapply reads_sub; [|exact Hr]; intros; apply in_or_app; now left|]. rewrite !Kp; [exact He|exact Hr|]. constructor; [exact Hi|constructor].
    - split; [reflexivity|]. apply (c_flags _ _ C).
    - rewrite targets_app. intros y Hy. apply in_or_app. now left.
    - exact Kp.
    - split; [reflexivity|]. split; [reflexivity|]. split; [rewrite Ka; exact Hb|]. cbn [g_stmts].
      constructor; cbn [s_expr s_const s_v]; [split; [exact I|reflexivity]| |exact Rd|discriminate].
      constructor; [|constructor]. cbn [leaf_ok]. rewrite targets_app. apply in_or_app. right. now left.
  Qed.

  (** * Every call *)
  Variable H : list Z -> list Z.
  Variable sp : pspec S.
  Variables T RATE : nat.
  Variable init : list S.
  Hypothesis shape : sponge_shape S sp T.
  Notation gst := (gst S W). Notation rv := (rv S W).

  Definition good (K : list (N * ty)) (s : st) (x : rv) (v : nval S W) : Prop :=
    match x, v with RS _ _ x, NS a => sgood K s x a | RP _ _ x, NP a => pgood K s x a | _, _ => False end.
  Record inv (gs : gst) (g : gctx) (n : nst S W) (s : st) : Prop := mkInv {
    i_core : core g s;
    i_vals : Forall2 (good (K g) s) (gs_vals _ _ gs) (n_vals n);
    i_abs : mem_bytes (absorbing s) (g_abs g) = n_st n;
    i_tr : skipn (N.to_nat (g_tr g)) (e_proof E) = words (n_rest n);
    i_bytes : Forall byte (n_rest n);
    i_inst : skipn (N.to_nat (g_inst g)) (e_instances E) = map toZ (n_inst n)
  }.
  Lemma good_keeps g s g' s' x v : keeps g s g' s' -> good (K g) s x v -> good (K g') s' x v.
  Proof. destruct x, v; cbn; auto; [apply sgood_keeps|apply pgood_keeps]. Qed.
  Lemma vals_keeps g s g' s' l m : keeps g s g' s' -> Forall2 (good (K g) s) l m -> Forall2 (good (K g') s') l m.
  Proof. intro Ke. apply Forall2_weaken. intros x v. now apply good_keeps. Qed.
  Lemma vals_push g s g' s' l m x v : keeps g s g' s' -> Forall2 (good (K g) s) l m -> good (K g') s' x v -> Forall2 (good (K g') s') (l ++ [x]) (m ++ [v]).
  Proof. intros Ke F X. apply Forall2_app; [eapply vals_keeps; eauto|]. constructor; [exact X|constructor]. Qed.
  Lemma F2_nth {A B} (P : A -> B -> Prop) l m i x y : Forall2 P l m -> nth_error l i = Some x -> nth_error m i = Some y -> P x y.
  Proof. intro F. revert i. induction F; intros [|i] A1 B1; cbn in *; try discriminate; [congruence|eauto]. Qed.
  Lemma r_s_inv gs g n s i x g' a : inv gs g n s -> r_s S W (gs_vals _ _ gs) i g = Some (x, g') -> n_s (n_vals n) i = Some a -> g' = g /\ sgood (K g) s x a.
  Proof.
    intros I Hr Hn. unfold r_s in Hr. unfold n_s in Hn. destruct (nth_error (gs_vals _ _ gs) i) as [[y|y]|] eqn:E1; try discriminate. injection Hr as <- <-.
    destruct (nth_error (n_vals n) i) as [[c|c]|] eqn:E2; try discriminate. injection Hn as <-. split; [reflexivity|].
    exact (F2_nth _ _ _ _ _ _ (i_vals _ _ _ _ I) E1 E2).
  Qed.
  Lemma r_p_inv gs g n s i x g' a : inv gs g n s -> r_p S W (gs_vals _ _ gs) i g = Some (x, g') -> n_p (n_vals n) i = Some a -> g' = g /\ pgood (K g) s x a.
  Proof.
    intros I Hr Hn. unfold r_p in Hr. unfold n_p in Hn. destruct (nth_error (gs_vals _ _ gs) i) as [[y|y]|] eqn:E1; try discriminate. injection Hr as <- <-.
    destruct (nth_error (n_vals n) i) as [[c|c]|] eqn:E2; try discriminate. injection Hn as <-. split; [reflexivity|].
    exact (F2_nth _ _ _ _ _ _ (i_vals _ _ _ _ I) E1 E2).
  Qed.
  Lemma r_terms_inv gs g n s l : inv gs g n s -> forall xs g' acc r, r_terms S W (gs_vals _ _ gs) l g = Some (xs, g') -> n_sum (n_vals n) l acc = Some r ->
    g' = g /\ exists ys, Forall2 (fun t t' => sgood (K g) s (fst t) (fst t') /\ snd t = snd t') xs ys /\ r = sum_of ys acc.
  Proof.
    intro I. induction l as [|[i c] l IH]; intros xs g' acc r Hr Hn; cbn [r_terms n_sum] in *.
    - injection Hr as <- <-. injection Hn as <-. split; [reflexivity|]. exists []. split; [constructor|reflexivity].
    - destruct (n_s (n_vals n) i) as [a|] eqn:En; [|discriminate]. unfold gbind in Hr. destruct (r_s S W _ i g) as [[x g1]|] eqn:E1; [|discriminate].
      destruct (r_s_inv _ _ _ _ _ _ _ _ I E1 En) as [-> Gx]. destruct (r_terms S W _ l g) as [[xs' g2]|] eqn:E2; [|discriminate]. injection Hr as <- <-.
      destruct (IH _ _ _ _ eq_refl Hn) as [-> (ys & F & ->)]. split; [reflexivity|]. exists ((a, c) :: ys). split; [|reflexivity]. constructor; [split; [exact Gx|reflexivity]|exact F].
  Qed.
  Lemma gbind_inv {A B} (m : G A) (k : A -> G B) g x g' : gbind m k g = Some (x, g') -> exists a g1, m g = Some (a, g1) /\ k a g1 = Some (x, g').
  Proof. unfold gbind. destruct (m g) as [[a g1]|]; [eauto|discriminate]. Qed.
  (** a call of arithmetic *)
  Lemma call_s gs g n s (m : G (sval S)) a gs' g' n' : inv gs g n s -> arith m (srel a) g s -> (x <-g m ;; ret_s S W gs x) g = Some (gs', g') ->
    (g_mem g' <= e_msize E)%N -> n_ret (NS a) n = Some n' -> exists s', inv gs' g' n' s'.
  Proof.
    intros [C V A Tr By In] Ha Hm L [= <-]. apply gbind_inv in Hm. destruct Hm as (x & g1 & E1 & E2). injection E2 as <- <-.
    destruct (Ha x g1 E1 L) as (s' & C' & [Ke Ab (O1 & O2 & O3 & O4)] & X). exists s'. constructor; cbn; auto.
    - eapply vals_push; eauto.
    - now rewrite Ab, O1.
    - now rewrite O3.
    - now rewrite O4.
  Qed.
  Lemma call_p gs g n s (m : G (pval W)) a gs' g' n' : inv gs g n s -> arith m (prel a) g s -> (x <-g m ;; ret_p S W gs x) g = Some (gs', g') ->
    (g_mem g' <= e_msize E)%N -> n_ret (NP a) n = Some n' -> exists s', inv gs' g' n' s'.
  Proof.
    intros [C V A Tr By In] Ha Hm L [= <-]. apply gbind_inv in Hm. destruct Hm as (x & g1 & E1 & E2). injection E2 as <- <-.
    destruct (Ha x g1 E1 L) as (s' & C' & [Ke Ab (O1 & O2 & O3 & O4)] & X). exists s'. constructor; cbn; auto.
    - eapply vals_push; eauto.
    - now rewrite Ab, O1.
    - now rewrite O3.
    - now rewrite O4.
  Qed.
  Lemma skipn_next {A} n (l r : list A) x : skipn n l = x :: r -> nth_error l n = Some x /\ skipn (n + 1) l = r.
  Proof.
    revert l. induction n as [|n IH]; intros [|y l] Hl; cbn in *; try discriminate; [injection Hl as -> ->; auto|]. now apply IH.
  Qed.
  (** a core that only moved its offsets *)
  Lemma core_off g s a m tr inst tmp f1 f2 : core g s -> f1 = false -> f2 = false ->
    core (mkG a m (g_mem g) tr inst tmp (g_stmts g) (g_cache g) (g_mock g) f1 f2) s.
  Proof. intros [C1 C2 C3 C4 C5 C6] -> ->. constructor; cbn; auto. split; [apply C6|auto]. Qed.
  Lemma svar_inv v g x g' : g_in_tr g = false -> g_in_inst g = false -> s_assign_var S v g = Some (x, g') ->
    g' = mkG (g_abs g) (g_maxabs g) (g_mem g) (g_tr g) (g_inst g) (g_tmp g + 1) (g_stmts g) (g_cache g) (g_mock g) (g_in_tr g) (g_in_inst g).
  Proof. intros F1 F2 Hx. unfold s_assign_var in Hx. rewrite F1, F2 in Hx. unfold gbind, new_tmp_var, gret in Hx. now injection Hx as <- <-. Qed.
  Lemma encode_point_inv x g l g' : g_in_tr g = false -> g_in_inst g = false -> encode_point S W ident_ok x g = Some (l, g') ->
    exists tmp, g' = mkG (g_abs g) (g_maxabs g) (g_mem g) (g_tr g) (g_inst g) tmp (g_stmts g) (g_cache g) (g_mock g) (g_in_tr g) (g_in_inst g).
  Proof.
    intros F1 F2 Hx. unfold encode_point in Hx. destruct (match ShaTranscript.coordinates _ _ with Some _ => _ | None => _ end) as [cx cy].
    apply gbind_inv in Hx. destruct Hx as (px & g1 & E1 & Hx). apply gbind_inv in Hx. destruct Hx as (py & g2 & E2 & Hx). injection Hx as <- <-.
    apply svar_inv in E1; auto. subst g1. apply svar_inv in E2; auto. subst g2. eexists. reflexivity.
  Qed.
  Lemma common_point_ok g s t x t' g' a st : core g s -> pgood (K g) s x a -> _common_point S W ident_ok t x g = Some (t', g') -> (g_abs g' <= e_asize E)%N ->
    ShaTranscript.common_point ident_ok (mem_bytes (absorbing s) (g_abs g)) a = Some st -> exists s',
    core g' s' /\ keeps g s g' s' /\ mem_bytes (absorbing s') (g_abs g') = st /\ g_tr g' = g_tr g /\ g_inst g' = g_inst g.
  Proof.
    intros C X Hc L Hst. unfold _common_point in Hc. apply gbind_inv in Hc. destruct Hc as (l & g1 & E1 & Hc). apply gbind_inv in Hc. destruct Hc as (u & g2 & E2 & Hc). injection Hc as <- <-.
    destruct (c_flags _ _ C) as (F0 & F1 & F2). destruct (encode_point_inv _ _ _ _ F1 F2 E1) as (tmp & ->).
    change (hashed (p_expr _ x) 3 (mkG (g_abs g) (g_maxabs g) (g_mem g) (g_tr g) (g_inst g) tmp (g_stmts g) (g_cache g) (g_mock g) (g_in_tr g) (g_in_inst g)) = Some (u, g2)) in E2.
    destruct (absorb_point _ s x a u g2 st (core_off g s _ _ _ _ tmp _ _ C F1 F2) X E2 L Hst) as (s' & C' & K' & M').
    exists s'. split; [exact C'|]. split; [exact K'|]. split; [exact M'|]. apply hashed_inv in E2. subst g2. split; reflexivity.
  Qed.
  Lemma common_scalar_ok g s t x t' g' a : core g s -> sgood (K g) s x a -> _common_scalar S t x g = Some (t', g') -> (g_abs g' <= e_asize E)%N -> exists s',
    core g' s' /\ keeps g s g' s' /\ mem_bytes (absorbing s') (g_abs g') = ShaTranscript.common_scalar (mem_bytes (absorbing s) (g_abs g)) a /\ g_tr g' = g_tr g /\ g_inst g' = g_inst g.
  Proof.
    intros C X Hc L. unfold _common_scalar in Hc. apply gbind_inv in Hc. destruct Hc as (u & g2 & E2 & Hc). injection Hc as <- <-.
    change (hashed (s_expr _ x) 2 g = Some (u, g2)) in E2.
    destruct (absorb_scalar _ s x a u g2 C X E2 L) as (s' & C' & K' & M').
    exists s'. split; [exact C'|]. split; [exact K'|]. split; [exact M'|]. apply hashed_inv in E2. subst g2. split; reflexivity.
  Qed.
  Lemma from_repr_inv {F : PF} (d : list Z) (x : F) : Forall byte d -> ShaTranscript.from_repr d = Some x -> toZ x = leval d.
  Proof.
    intros B Hr. unfold ShaTranscript.from_repr in Hr. destruct (Z.ltb_spec (leval d) (pf_n F)) as [L|L]; [|discriminate]. injection Hr as <-.
    apply toZ_small. pose proof (leval_bounds d B). lia.
  Qed.
  Lemma read_exact_bytes n rest d r : Forall byte rest -> ShaTranscript.read_exact n rest = Some (d, r) -> Forall byte d /\ Forall byte r.
  Proof. intros B Hr. apply read_exact_inv in Hr. destruct Hr as [-> _]. now apply Forall_app in B. Qed.

  Lemma read_scalar_ok gs g n s x g' a st rest : inv gs g n s -> read_scalar S (gs_tr _ _ gs) g = Some (x, g') -> (absorbing_length g' + 1 <= e_asize E)%N ->
    @ShaTranscript.read_scalar S (n_st n) (n_rest n) = Some (a, st, rest) -> exists s',
    inv (mkGS S W (gs_vals _ _ gs ++ [RS _ _ (fst x)]) (gs_inst _ _ gs) (snd x)) g' (mkN (n_vals n ++ [NS a]) (n_inst n) st rest) s'.
  Proof.
    intros [C V A Tr By In] Hx L Hn. unfold ShaTranscript.read_scalar in Hn. destruct (ShaTranscript.read_exact 32 (n_rest n)) as [[d r]|] eqn:Er; [|discriminate].
    destruct (ShaTranscript.from_repr d) as [a0|] eqn:Ef; [|discriminate]. injection Hn as -> <- <-.
    destruct (read_exact_bytes _ _ _ _ By Er) as [Bd Br]. apply from_repr_inv in Ef; [|exact Bd]. rewrite (words_read _ _ _ Er) in Tr. apply skipn_next in Tr. destruct Tr as [Tn Ts].
    unfold read_scalar in Hx. destruct (ShaTranscript.read_scalar _ _) as [[[sc st0] rest0]|]; [|discriminate].
    destruct (c_flags _ _ C) as (F0 & F1 & F2).
    unfold gbind at 1 in Hx. unfold set_transcript, s_assign_var, gbind, new_transcript_var, gret in Hx. cbn [g_in_tr g_abs g_maxabs g_mem g_tr g_inst g_tmp g_stmts g_cache g_mock g_in_inst] in Hx.
    destruct (_common_scalar S _ _ _) as [[t' g2]|] eqn:E2; [|discriminate]. injection Hx as <- <-. cbn [fst snd].
    assert (Gd : forall K s0 v, sgood K s0 (mkS S (ETranscript (g_tr g) TScalar) v false) a).
    { intros K0 s0 v. constructor; cbn [s_expr s_const]; [split; [exact I|reflexivity]|constructor; [exact I|constructor]| |discriminate].
      cbn [SolIr.eval]. unfold calldata. rewrite Tn. cbn. now rewrite Ef. }
    destruct (common_scalar_ok (mkG (g_abs g) (g_maxabs g) (g_mem g) (g_tr g + 1) (g_inst g) (g_tmp g) (g_stmts g) (g_cache g) (g_mock g) false (g_in_inst g)) s _ _ _ _ a
      (core_off g s _ _ _ _ _ _ _ C eq_refl F2) (Gd _ _ _) E2) as (s' & C' & K' & M' & O1 & O2).
    - unfold absorbing_length in L. destruct (N.ltb_spec (g_maxabs g2) (g_abs g2)); lia.
    - exists s'. cbn [g_tr g_inst g_abs] in *. constructor; cbn.
      + exact C'.
      + apply (vals_push _ s _ s' _ _ _ _ K' V). cbn. apply Gd.
      + rewrite M'. f_equal. exact A.
      + rewrite O1, N2Nat.inj_add. exact Ts.
      + exact Br.
      + now rewrite O2.
  Qed.
  Lemma read_point_ok gs g n s x g' a st rest : inv gs g n s -> read_point S W b ident_ok (gs_tr _ _ gs) g = Some (x, g') -> (absorbing_length g' + 1 <= e_asize E)%N ->
    ShaTranscript.read_point b ident_ok (n_st n) (n_rest n) = Some (a, st, rest) -> exists s',
    inv (mkGS S W (gs_vals _ _ gs ++ [RP _ _ (fst x)]) (gs_inst _ _ gs) (snd x)) g' (mkN (n_vals n ++ [NP a]) (n_inst n) st rest) s'.
  Proof.
    intros [C V A Tr By In] Hx L Hn. unfold ShaTranscript.read_point, ShaTranscript.read_base in Hn.
    destruct (ShaTranscript.read_exact 32 (n_rest n)) as [[d r]|] eqn:Er; [|discriminate]. destruct (ShaTranscript.from_repr d) as [ax|] eqn:Ef; [|discriminate].
    destruct (ShaTranscript.read_exact 32 r) as [[d2 r2]|] eqn:Er2; [|discriminate]. destruct (ShaTranscript.from_repr d2) as [ay|] eqn:Ef2; [|discriminate].
    destruct (ShaTranscript.from_xy b ident_ok ax ay) as [a0|] eqn:Exy; [|discriminate]. destruct (ShaTranscript.common_point ident_ok (n_st n) a0) as [st1|] eqn:Est; [|discriminate].
    injection Hn as -> <- <-. apply from_xy_coords in Exy. destruct Exy as [On Co]. apply encode_coords in Co.
    destruct (read_exact_bytes _ _ _ _ By Er) as [Bd Br]. destruct (read_exact_bytes _ _ _ _ Br Er2) as [Bd2 Br2]. apply from_repr_inv in Ef; [|exact Bd]. apply from_repr_inv in Ef2; [|exact Bd2].
    rewrite (words_read _ _ _ Er), (words_read _ _ _ Er2) in Tr. apply skipn_next in Tr. destruct Tr as [Tn Ts]. apply skipn_next in Ts. destruct Ts as [Tn2 Ts].
    unfold read_point in Hx. destruct (ShaTranscript.read_point _ _ _ _) as [[[sc st0] rest0]|]; [|discriminate].
    destruct (c_flags _ _ C) as (F0 & F1 & F2).
    unfold gbind at 1 in Hx. unfold set_transcript, p_assign_var, gbind, new_transcript_var, gret in Hx. cbn [g_in_tr g_abs g_maxabs g_mem g_tr g_inst g_tmp g_stmts g_cache g_mock g_in_inst] in Hx.
    destruct (_common_point S W ident_ok _ _ _) as [[t' g2]|] eqn:E2; [|discriminate]. injection Hx as <- <-. cbn [fst snd].
    assert (Gd : forall K s0 v, pgood K s0 (mkPV W (ETranscript (g_tr g) TPoint) v false) a).
    { intros K0 s0 v. constructor; cbn [p_expr p_const]; [split; [exact I|reflexivity]|constructor; [exact I|constructor]|exact On| |discriminate].
      cbn [SolIr.eval]. unfold calldata. rewrite Tn, N2Nat.inj_add. change (N.to_nat 1) with 1%nat. rewrite Tn2. unfold pv. rewrite Co. cbn. now rewrite Ef, Ef2. }
    destruct (common_point_ok (mkG (g_abs g) (g_maxabs g) (g_mem g) (g_tr g + 2) (g_inst g) (g_tmp g) (g_stmts g) (g_cache g) (g_mock g) false (g_in_inst g)) s _ _ _ _ a st1
      (core_off g s _ _ _ _ _ _ _ C eq_refl F2) (Gd _ _ _) E2) as (s' & C' & K' & M' & O1 & O2).
    - unfold absorbing_length in L. destruct (N.ltb_spec (g_maxabs g2) (g_abs g2)); lia.
    - cbn [g_abs]. rewrite A. exact Est.
    - exists s'. cbn [g_tr g_inst g_abs] in *. constructor; cbn.
      + exact C'.
      + apply (vals_push _ s _ s' _ _ _ _ K' V). cbn. apply Gd.
      + exact M'.
      + rewrite O1. replace (N.to_nat (g_tr g + 2)) with (N.to_nat (g_tr g) + 1 + 1)%nat by lia. exact Ts.
      + exact Br2.
      + now rewrite O2.
  Qed.
  Lemma squeeze_op_ok gs g n s x g' : inv gs g n s -> squeeze_challenge_scalar S H sp T RATE (gs_tr _ _ gs) g = Some (x, g') ->
    (g_mem g' <= e_msize E)%N -> (absorbing_length g' + 1 <= e_asize E)%N -> exists s',
    let '(c, st) := @ShaTranscript.squeeze_challenge S sha256 (n_st n) in
    inv (mkGS S W (gs_vals _ _ gs ++ [RS _ _ (fst x)]) (gs_inst _ _ gs) (snd x)) g' (mkN (n_vals n ++ [NS c]) (n_inst n) st (n_rest n)) s'.
  Proof.
    intros [C V A Tr By In] Hx L La. unfold squeeze_challenge_scalar in Hx. destruct (ShaTranscript.squeeze_challenge H _) as [sample st0].
    apply gbind_inv in Hx. destruct Hx as (u & g1 & E1 & Hx). unfold enter_hash in E1. injection E1 as <- <-.
    apply gbind_inv in Hx. destruct Hx as ([v h] & g2 & E2 & Hx).
    assert (Q := quiet_sponge S sp T RATE _ _ _ _ E2 eq_refl). assert (M := mono_sponge S sp T RATE _ _ _ _ E2). destruct M as [M _]. cbn [g_mem] in M.
    assert (Vv := var_squeeze S sp T RATE _ shape _ _ _ E2). cbn [fst] in Vv. unfold var in Vv.
    set (m := g_mem g2) in *. unfold set_mem in Q. cbn [g_abs g_maxabs g_tr g_inst g_tmp g_stmts g_cache g_mock g_in_tr g_in_inst] in Q. clearbody m. subst g2.
    apply gbind_inv in Hx. destruct Hx as (e & g3 & E3 & Hx). cbn [g_abs g_maxabs] in E3, Hx. unfold set_abs_offset, gbind, gret in Hx. injection Hx as <- <-. cbn [g_mem] in L.
    destruct (squeeze_core g s m e g3 C M E3 L) as (s' & C' & K' & O1 & O2 & R).
    { unfold absorbing_length in La. cbn [g_maxabs g_abs] in La. revert La.
      assert (X : (g_abs g <= if (g_maxabs g <? g_abs g)%N then g_abs g else g_maxabs g)%N) by (destruct (N.ltb_spec (g_maxabs g) (g_abs g)); lia).
      revert X. generalize (if (g_maxabs g <? g_abs g)%N then g_abs g else g_maxabs g). intros k X. destruct (N.ltb_spec k 1); lia. }
    exists s'. rewrite A in R. destruct (@ShaTranscript.squeeze_challenge S sha256 (n_st n)) as [c st]. destruct R as [R1 R2].
    destruct (c_flags _ _ C') as (F0 & F1 & F2).
    assert (C3 : core (mkG 1 (if (g_maxabs g <? g_abs g)%N then g_abs g else g_maxabs g) (g_mem g3) (g_tr g3) (g_inst g3) (g_tmp g3) (g_stmts g3) (g_cache g3) (g_mock g3) (g_in_tr g3) (g_in_inst g3)) s') by (apply core_off; assumption).
    constructor; cbn.
    - exact C3.
    - eapply (vals_push g s g3 s'); [exact K'|exact V|]. cbn. destruct R2 as [P1 P2 P3 P4]. constructor; cbn in *; auto. rewrite Vv. discriminate.
    - exact R1.
    - now rewrite O1.
    - exact By.
    - now rewrite O2.
  Qed.

  Lemma op_ok o gs g n s gs' g' n' : inv gs g n s -> gen_op S W b ident_ok H sp T RATE o gs g = Some (gs', g') -> native_op b sha256 ident_ok o n = Some n' ->
    fine_op o n -> const_on b o -> (g_mem g' <= e_msize E)%N -> (absorbing_length g' + 1 <= e_asize E)%N -> exists s', inv gs' g' n' s'.
  Proof.
    intros I Hg Hn Hf Hc L La. assert (C := i_core _ _ _ _ I).
    destruct o as [c|i j|i j|i j|i j|i|l c|P|i j|i j|i j|i P| | | |i|i| ]; cbn [gen_op native_op] in *.
    - eapply call_s; [exact I|apply assign_const_ok, C|exact Hg|exact L|exact Hn].
    - destruct (n_s (n_vals n) i) as [a|] eqn:Ni; [|discriminate]. destruct (n_s (n_vals n) j) as [c|] eqn:Nj; [|discriminate].
      apply gbind_inv in Hg. destruct Hg as (x & g1 & E1 & Hg). destruct (r_s_inv _ _ _ _ _ _ _ _ I E1 Ni) as [-> X].
      apply gbind_inv in Hg. destruct Hg as (y & g1 & E2 & Hg). destruct (r_s_inv _ _ _ _ _ _ _ _ I E2 Nj) as [-> Y].
      eapply call_s; [exact I|apply (s_add_ok _ _ _ _ _ _ C X Y)|exact Hg|exact L|exact Hn].
    - destruct (n_s (n_vals n) i) as [a|] eqn:Ni; [|discriminate]. destruct (n_s (n_vals n) j) as [c|] eqn:Nj; [|discriminate].
      apply gbind_inv in Hg. destruct Hg as (x & g1 & E1 & Hg). destruct (r_s_inv _ _ _ _ _ _ _ _ I E1 Ni) as [-> X].
      apply gbind_inv in Hg. destruct Hg as (y & g1 & E2 & Hg). destruct (r_s_inv _ _ _ _ _ _ _ _ I E2 Nj) as [-> Y].
      eapply call_s; [exact I|apply (s_sub_ok _ _ _ _ _ _ C X Y)|exact Hg|exact L|exact Hn].
    - destruct (n_s (n_vals n) i) as [a|] eqn:Ni; [|discriminate]. destruct (n_s (n_vals n) j) as [c|] eqn:Nj; [|discriminate].
      apply gbind_inv in Hg. destruct Hg as (x & g1 & E1 & Hg). destruct (r_s_inv _ _ _ _ _ _ _ _ I E1 Ni) as [-> X].
      apply gbind_inv in Hg. destruct Hg as (y & g1 & E2 & Hg). destruct (r_s_inv _ _ _ _ _ _ _ _ I E2 Nj) as [-> Y].
      eapply call_s; [exact I|apply (s_mul_ok _ _ _ _ _ _ C X Y)|exact Hg|exact L|exact Hn].
    - destruct (n_s (n_vals n) i) as [a|] eqn:Ni; [|discriminate]. destruct (n_s (n_vals n) j) as [c|] eqn:Nj; [|discriminate].
      destruct (feq_dec c f0) as [|Nz]; [discriminate|].
      apply gbind_inv in Hg. destruct Hg as (x & g1 & E1 & Hg). destruct (r_s_inv _ _ _ _ _ _ _ _ I E1 Ni) as [-> X].
      apply gbind_inv in Hg. destruct Hg as (y & g1 & E2 & Hg). destruct (r_s_inv _ _ _ _ _ _ _ _ I E2 Nj) as [-> Y].
      eapply call_s; [exact I|apply (s_div_ok _ _ _ _ _ _ C X Y Nz)|exact Hg|exact L|exact Hn].
    - destruct (n_s (n_vals n) i) as [a|] eqn:Ni; [|discriminate].
      apply gbind_inv in Hg. destruct Hg as (x & g1 & E1 & Hg). destruct (r_s_inv _ _ _ _ _ _ _ _ I E1 Ni) as [-> X].
      eapply call_s; [exact I|apply (s_square_ok _ _ _ _ C X)|exact Hg|exact L|exact Hn].
    - destruct (n_sum (n_vals n) l c) as [r|] eqn:Ns; [|discriminate].
      apply gbind_inv in Hg. destruct Hg as (xs & g1 & E1 & Hg). destruct (r_terms_inv _ _ _ _ _ I _ _ _ _ E1 Ns) as [-> (ys & F & ->)].
      eapply call_s; [exact I|apply (s_sum_ok _ _ _ _ c C F)|exact Hg|exact L|exact Hn].
    - eapply call_p; [exact I|apply p_assign_const_ok; [exact C|exact Hc]|exact Hg|exact L|exact Hn].
    - destruct (n_p (n_vals n) i) as [a|] eqn:Ni; [|discriminate]. destruct (n_p (n_vals n) j) as [c|] eqn:Nj; [|discriminate].
      apply gbind_inv in Hg. destruct Hg as (x & g1 & E1 & Hg). destruct (r_p_inv _ _ _ _ _ _ _ _ I E1 Ni) as [-> X].
      apply gbind_inv in Hg. destruct Hg as (y & g1 & E2 & Hg). destruct (r_p_inv _ _ _ _ _ _ _ _ I E2 Nj) as [-> Y].
      eapply call_p; [exact I|apply (p_add_ok _ _ _ _ _ _ C X Y)|exact Hg|exact L|exact Hn].
    - destruct (n_p (n_vals n) i) as [a|] eqn:Ni; [|discriminate]. destruct (n_p (n_vals n) j) as [c|] eqn:Nj; [|discriminate].
      apply gbind_inv in Hg. destruct Hg as (x & g1 & E1 & Hg). destruct (r_p_inv _ _ _ _ _ _ _ _ I E1 Ni) as [-> X].
      apply gbind_inv in Hg. destruct Hg as (y & g1 & E2 & Hg). destruct (r_p_inv _ _ _ _ _ _ _ _ I E2 Nj) as [-> Y].
      eapply call_p; [exact I|apply (p_sub_ok _ _ _ _ _ _ C X Y)|exact Hg|exact L|exact Hn]. cbn in Hf. congruence.
    - destruct (n_s (n_vals n) i) as [a|] eqn:Ni; [|discriminate]. destruct (n_p (n_vals n) j) as [c|] eqn:Nj; [|discriminate].
      apply gbind_inv in Hg. destruct Hg as (x & g1 & E1 & Hg). destruct (r_s_inv _ _ _ _ _ _ _ _ I E1 Ni) as [-> X].
      apply gbind_inv in Hg. destruct Hg as (y & g1 & E2 & Hg). destruct (r_p_inv _ _ _ _ _ _ _ _ I E2 Nj) as [-> Y].
      eapply call_p; [exact I|apply (p_mul_ok _ _ _ _ _ _ C X Y)|exact Hg|exact L|exact Hn].
    - destruct (n_s (n_vals n) i) as [a|] eqn:Ni; [|discriminate].
      apply gbind_inv in Hg. destruct Hg as (x & g1 & E1 & Hg). destruct (r_s_inv _ _ _ _ _ _ _ _ I E1 Ni) as [-> X].
      eapply call_p; [exact I|apply (p_mul_constant_ok _ _ _ _ P C X Hc)|exact Hg|exact L|exact Hn].
    - destruct (n_inst n) as [|a r] eqn:Ei; [discriminate|]. injection Hn as <-. destruct (gs_inst _ _ gs) as [|v l] eqn:Eg; [discriminate|].
      destruct I as [_ V A Tr By In]. rewrite Ei in In. cbn [map] in In. apply skipn_next in In. destruct In as [Tn Ts]. destruct (c_flags _ _ C) as (F0 & F1 & F2).
      unfold set_instance, s_assign_var, gbind, new_instance_var, gret in Hg. cbn [g_in_tr g_in_inst] in Hg. rewrite F1 in Hg. cbn in Hg. injection Hg as <- <-.
      exists s. constructor; cbn.
      + now apply core_off.
      + apply Forall2_app; [exact V|]. constructor; [|constructor]. cbn. constructor; cbn [s_expr s_const]; [split; [exact Logic.I|reflexivity]|constructor; [exact Logic.I|constructor]| |discriminate].
        cbn [SolIr.eval]. unfold calldata. now rewrite Tn.
      + exact A.
      + exact Tr.
      + exact By.
      + replace (N.to_nat (g_inst g + 1)) with (N.to_nat (g_inst g) + 1)%nat by lia. exact Ts.
    - destruct (ShaTranscript.read_point b ident_ok (n_st n) (n_rest n)) as [[[a st] rest]|] eqn:Er; [|discriminate]. injection Hn as <-.
      apply gbind_inv in Hg. destruct Hg as (x & g1 & E1 & Hg). injection Hg as <- <-. eapply read_point_ok; eauto.
    - destruct (@ShaTranscript.read_scalar S (n_st n) (n_rest n)) as [[[a st] rest]|] eqn:Er; [|discriminate]. injection Hn as <-.
      apply gbind_inv in Hg. destruct Hg as (x & g1 & E1 & Hg). injection Hg as <- <-. eapply read_scalar_ok; eauto.
    - destruct (n_p (n_vals n) i) as [a|] eqn:Ni; [|discriminate]. destruct (ShaTranscript.common_point ident_ok (n_st n) a) as [st|] eqn:Est; [|discriminate]. injection Hn as <-.
      apply gbind_inv in Hg. destruct Hg as (x & g1 & E1 & Hg). destruct (r_p_inv _ _ _ _ _ _ _ _ I E1 Ni) as [-> X].
      apply gbind_inv in Hg. destruct Hg as (t & g1 & E2 & Hg). injection Hg as <- <-. unfold common_point in E2. apply gbind_inv in E2. destruct E2 as (t1 & g2 & E2 & E3).
      assert (g1 = g2) by (destruct (ShaTranscript.common_point _ _ _); [now injection E3|discriminate]). subst g2.
      destruct I as [_ V A Tr By In]. rewrite <- A in Est.
      destruct (common_point_ok g s _ _ _ _ a st C X E2) as (s' & C' & K' & M' & O1 & O2).
      { unfold absorbing_length in La. destruct (N.ltb_spec (g_maxabs g1) (g_abs g1)); lia. }
      { exact Est. }
      exists s'. constructor; cbn; auto; [eapply vals_keeps; eauto|now rewrite O1|now rewrite O2].
    - destruct (n_s (n_vals n) i) as [a|] eqn:Ni; [|discriminate]. injection Hn as <-.
      apply gbind_inv in Hg. destruct Hg as (x & g1 & E1 & Hg). destruct (r_s_inv _ _ _ _ _ _ _ _ I E1 Ni) as [-> X].
      apply gbind_inv in Hg. destruct Hg as (t & g1 & E2 & Hg). injection Hg as <- <-. unfold common_scalar in E2. apply gbind_inv in E2. destruct E2 as (t1 & g2 & E2 & E3).
      injection E3 as <- <-. destruct I as [_ V A Tr By In].
      destruct (common_scalar_ok g s _ _ _ _ a C X E2) as (s' & C' & K' & M' & O1 & O2).
      { unfold absorbing_length in La. destruct (N.ltb_spec (g_maxabs g2) (g_abs g2)); lia. }
      exists s'. constructor; cbn; auto; [eapply vals_keeps; eauto|now rewrite M', A|now rewrite O1|now rewrite O2].
    - apply gbind_inv in Hg. destruct Hg as (x & g1 & E1 & Hg). injection Hg as <- <-. destruct (squeeze_op_ok _ _ _ _ _ _ I E1 L La) as (s' & I').
      exists s'. destruct (@ShaTranscript.squeeze_challenge S sha256 (n_st n)) as [c st]. injection Hn as <-. exact I'.
  Qed.
  Lemma run_ok l : forall gs g n s gs' g' n', inv gs g n s -> gen_run S W b ident_ok H sp T RATE l gs g = Some (gs', g') -> native_run b sha256 ident_ok l n = Some n' ->
    fine_run b sha256 ident_ok l n -> Forall (const_on b) l -> (g_mem g' <= e_msize E)%N -> (absorbing_length g' + 1 <= e_asize E)%N -> exists s', inv gs' g' n' s'.
  Proof.
    induction l as [|o l IH]; intros gs g n s gs' g' n' I Hg Hn Hf Hc L La; cbn [gen_run native_run fine_run] in *.
    - injection Hg as <- <-. injection Hn as <-. eauto.
    - destruct (native_op b sha256 ident_ok o n) as [n1|] eqn:En; [|discriminate]. apply gbind_inv in Hg. destruct Hg as (gs1 & g1 & E1 & Hg).
      inversion Hc as [|? ? Hc1 Hc2]; subst. destruct Hf as [Hf1 Hf2]. destruct (mono_run S W b ident_ok H sp T RATE l gs1 _ _ _ Hg) as [M1 M2].
      destruct (op_ok o gs g n s gs1 g1 n1 I E1 En Hf1 Hc1) as [s1 I1]; [lia|lia|]. eapply IH; eauto.
  Qed.

  Definition value_of (v : nval S W) : value := match v with NS a => VS (toZ a) | NP a => pv a end.
  Lemma generate_ok l sample sample_inst gs g proof inst n :
    generate S W b ident_ok H sp T RATE init l sample sample_inst = Some (gs, g) ->
    native b sha256 ident_ok l proof inst = Some n -> fine b sha256 ident_ok l proof inst -> Forall (const_on b) l ->
    Forall byte proof -> e_proof E = words proof -> e_instances E = map toZ inst ->
    (g_mem g <= e_msize E)%N -> (absorbing_length g + 1 <= e_asize E)%N ->
    exists s, inv gs g n s.
  Proof.
    intros Hg Hn Hf Hc Hb Hp Hi L La. unfold generate in Hg. apply gbind_inv in Hg. destruct Hg as (t & g1 & E1 & Hg).
    assert (Hg1 : g1 = new_ctx).
    { unfold tr_new in E1. apply gbind_inv in E1. destruct E1 as (h & g2 & E1 & E2). injection E2 as _ <-. 
      revert E1. unfold poseidon_new. cbn [cbind cret c_const gen_chip].
      assert (Q : forall l0 (gg : gctx) x gg', (Poseidon.cmap S (gen_chip S) (c_const (gen_chip S)) l0 : G _) gg = Some (x, gg') -> gg' = gg).
      { induction l0 as [|c l0 IH]; intros gg x gg' Hx; cbn [Poseidon.cmap cbind cret c_const gen_chip] in Hx; [now injection Hx|].
        apply gbind_inv in Hx. destruct Hx as (y & gg1 & Hy & Hx). injection Hy as _ <-. apply gbind_inv in Hx. destruct Hx as (ys & gg2 & Hy & Hx). injection Hx as _ <-. eapply IH; eauto. }
      intro Hx. apply gbind_inv in Hx. destruct Hx as (y & gg & Hy & Hx). injection Hx as _ <-. eapply Q; eauto. }
    subst g1. eapply (run_ok l _ new_ctx _ st0); eauto. constructor; cbn.
    - constructor; cbn; auto; [lia|contradiction].
    - constructor.
    - reflexivity.
    - exact Hp.
    - exact Hb.
    - exact Hi.
  Qed.
End Emit.
