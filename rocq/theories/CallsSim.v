(** Simulation between generated calls (Calls.v) and functions on values. *)
From Coq Require Import ZArith Arith List Bool Lia.
From Verif Require Import Util Algebra Schema Plonk BuildParams Calls.
Import ListNotations.

Section Sim.
  Variable F : Fld.
  Variable M : Mod F.
  Variables (PT SC : nat).
  Variable pt_decode : list Z -> option M.
  Variable sc_decode : list Z -> option F.
  Variable St : Type.
  Variable upd_pt : St -> M -> St.
  Variable upd_sc : St -> F -> St.
  Variable sqz : St -> option (F * St).
  Variable generator : M.
  Notation cst := (cst F M St).
  Notation Q := (Q F M).
  Notation run1 := (run_call F M PT SC pt_decode sc_decode St upd_pt upd_sc sqz generator).
  Notation run := (run_calls F M PT SC pt_decode sc_decode St upd_pt upd_sc sqz generator).

  Lemma run_app cs cs' s : run (cs ++ cs') s = match run cs s with Some s' => run cs' s' | None => None end.
  Proof. revert s. induction cs as [|c cs IH]; intro s; cbn; [reflexivity|]. destruct (run1 c s); [apply IH|reflexivity]. Qed.

  (** a later state *)
  Definition ext (s s' : cst) : Prop := (exists l, c_vals s' = c_vals s ++ l) /\ length (c_trs s') = length (c_trs s).
  Lemma ext_refl s : ext s s.
  Proof. split; [exists []; now rewrite app_nil_r|reflexivity]. Qed.
  Lemma ext_trans s1 s2 s3 : ext s1 s2 -> ext s2 s3 -> ext s1 s3.
  Proof. intros [[l1 E1] L1] [[l2 E2] L2]. split; [exists (l1 ++ l2); now rewrite E2, E1, app_assoc|congruence]. Qed.

  (** functions on values, with the instance values left and the transcripts *)
  Definition env := (list F * list (tr St))%type.
  Definition X (B : Type) := env -> option (B * env).
  Definition env_of (s : cst) : env := (c_inst s, c_trs s).
  Definition xlift {B} (o : option B) : X B := fun e => match o with Some b => Some (b, e) | None => None end.
  Definition xbind {A B} (x : X A) (k : A -> X B) : X B := fun e => match x e with Some (a, e') => k a e' | None => None end.
  Definition xtr {B} (t : nat) (r : R St B) : X B := fun e =>
    match nth_error (snd e) t with
    | Some y => match r y with Some (b, y') => Some (b, (fst e, set_nth (snd e) t y')) | None => None end
    | None => None
    end.

  Definition rel (A B : Type) := cst -> A -> B -> Prop.
  (** the calls generated by [m] compute [x] *)
  Definition sim {A B} (s : cst) (m : Q A) (x : X B) (R : rel A B) : Prop :=
    match m (length (c_vals s)) with
    | None => x (env_of s) = None
    | Some (a, cs, n) =>
        match run cs s with
        | None => x (env_of s) = None
        | Some s' => ext s s' /\ n = length (c_vals s') /\ exists b, x (env_of s) = Some (b, env_of s') /\ R s' a b
        end
    end.
  Definition simL {A B} (s : cst) (m : Q A) (o : option B) (R : rel A B) : Prop := sim s m (xlift o) R.
  Definition simT {A B} (t : nat) (s : cst) (m : Q A) (r : BuildParams.R St B) (R : rel A B) : Prop :=
    t < length (c_trs s) -> sim s m (xtr t r) R.

  Lemma sim_eq {A B} s (m : Q A) (x x' : X B) R : x (env_of s) = x' (env_of s) -> sim s m x R -> sim s m x' R.
  Proof. intros E. unfold sim. rewrite E. auto. Qed.
  Lemma sim_conseq {A B} s (m : Q A) (x : X B) (R R' : rel A B) : sim s m x R -> (forall s' a b, R s' a b -> R' s' a b) -> sim s m x R'.
  Proof.
    unfold sim. intros H K. destruct (m _) as [[[a cs] n]|]; [|exact H]. destruct (run cs s); [|exact H].
    destruct H as (E & L & b & Eb & Hb). eauto 10.
  Qed.
  Lemma sim_bind {A B A' B'} s (m : Q A) (x : X B) (k : A -> Q A') (f : B -> X B') R1 R2 :
    sim s m x R1 -> (forall s' a b, ext s s' -> R1 s' a b -> sim s' (k a) (f b) R2) -> sim s (qbind m k) (xbind x f) R2.
  Proof.
    unfold sim, qbind, xbind. intros H K. destruct (m _) as [[[a cs] n]|] eqn:Em.
    2: { now rewrite H. }
    destruct (run cs s) as [s'|] eqn:Er.
    - destruct H as (E & L & b & Eb & Hb). subst n. specialize (K s' a b E Hb). rewrite Eb.
      destruct (k a (length (c_vals s'))) as [[[a' cs'] n']|]; [|exact K].
      rewrite run_app, Er. destruct (run cs' s') as [s''|]; [|exact K].
      destruct K as (E' & L' & K'). split; [eapply ext_trans; eauto|]. split; [exact L'|exact K'].
    - rewrite H. destruct (k a n) as [[[a' cs'] n']|]; [|reflexivity]. now rewrite run_app, Er.
  Qed.
  Lemma simL_bind {A B A' B'} s (m : Q A) (o : option B) (k : A -> Q A') (f : B -> option B') R1 R2 :
    simL s m o R1 -> (forall s' a b, ext s s' -> R1 s' a b -> simL s' (k a) (f b) R2) ->
    simL s (qbind m k) (do b <- o; f b) R2.
  Proof.
    intros H K. eapply sim_eq. 2: { apply (sim_bind s m (xlift o) k (fun b => xlift (f b)) R1 R2 H K). }
    unfold xbind, xlift. now destruct o.
  Qed.
  Lemma simL_pure {A B A' B'} s (m : Q A) (v : B) (k : A -> Q A') (o : option B') R1 R2 :
    simL s m (Some v) R1 -> (forall s' a, ext s s' -> R1 s' a v -> simL s' (k a) o R2) -> simL s (qbind m k) o R2.
  Proof.
    intros H K. apply (simL_bind s m (Some v) k (fun _ => o) (fun s a b => R1 s a b /\ b = v) R2).
    - unfold simL, sim in *. destruct (m _) as [[[a cs] n]|]; [|exact H]. destruct (run cs s); [|exact H].
      destruct H as (E & L & b & Eb & Hb). split; [exact E|]. split; [exact L|]. exists b. split; [exact Eb|]. split; [exact Hb|].
      cbn in Eb. congruence.
    - intros s' a b E [Hb ->]. now apply K.
  Qed.
  Lemma simL_ret {A B} s (a : A) (b : B) (R : rel A B) : R s a b -> simL s (qret a) (Some b) R.
  Proof. intro H. unfold simL, sim, qret. cbn. split; [apply ext_refl|]. split; [reflexivity|]. exists b. now split. Qed.
  Definition orel {A B} (R : rel A B) : rel (option A) (option B) := fun s x y =>
    match x, y with Some a, Some b => R s a b | None, None => True | _, _ => False end.
  Lemma simL_lift {A B} s (o : option A) (o' : option B) (R : rel A B) : orel R s o o' -> simL s (qlift o) o' R.
  Proof.
    unfold orel. destruct o as [a|], o' as [b|]; intro H; try contradiction.
    - now apply simL_ret.
    - unfold simL, sim. reflexivity.
  Qed.
  Lemma simL_fail {A B} s (R : rel A B) : simL s qfail None R.
  Proof. reflexivity. Qed.

  Lemma set_nth_same {A} (l : list A) i a : i < length l -> nth_error (set_nth l i a) i = Some a.
  Proof.
    intro H. unfold set_nth. rewrite nth_error_app2; rewrite firstn_length_le by lia; [|lia]. now rewrite Nat.sub_diag.
  Qed.
  Lemma set_nth_length {A} (l : list A) i a : i < length l -> length (set_nth l i a) = length l.
  Proof. intro H. unfold set_nth. rewrite app_length. cbn [length]. rewrite firstn_length_le, skipn_length by lia. lia. Qed.
  Lemma set_nth_other {A} (l : list A) i j a : i < length l -> j <> i -> nth_error (set_nth l i a) j = nth_error l j.
  Proof.
    intros H N. unfold set_nth. destruct (Nat.lt_ge_cases j i).
    - rewrite nth_error_app1 by (rewrite firstn_length_le; lia).
      rewrite <- (firstn_skipn i l) at 2. rewrite nth_error_app1 by (rewrite firstn_length_le; lia). reflexivity.
    - rewrite nth_error_app2 by (rewrite firstn_length_le; lia). rewrite firstn_length_le by lia.
      destruct (j - i) as [|d] eqn:E; [lia|]. cbn.
      rewrite <- (firstn_skipn (S i) l) at 2. rewrite nth_error_app2 by (rewrite firstn_length_le; lia).
      rewrite firstn_length_le by lia. f_equal. lia.
  Qed.
  Lemma nth_error_ext {A} (l l' : list A) : (forall i, nth_error l i = nth_error l' i) -> l = l'.
  Proof.
    revert l'. induction l as [|a l IH]; intros [|a' l'] H; [reflexivity|specialize (H 0); discriminate H|specialize (H 0); discriminate H|].
    pose proof (H 0) as H0. cbn in H0. injection H0 as ->. f_equal. apply IH. intro i. exact (H (S i)).
  Qed.
  Lemma set_nth_twice {A} (l : list A) i a b : i < length l -> set_nth (set_nth l i a) i b = set_nth l i b.
  Proof.
    intro H. apply nth_error_ext. intro j. destruct (Nat.eq_dec j i) as [->|N].
    - now rewrite !set_nth_same by (rewrite ?set_nth_length; lia).
    - rewrite !set_nth_other by (rewrite ?set_nth_length; lia). reflexivity.
  Qed.
  Lemma set_nth_id {A} (l : list A) i a : nth_error l i = Some a -> set_nth l i a = l.
  Proof.
    intro H. assert (L : i < length l) by (apply nth_error_Some; congruence). apply nth_error_ext. intro j.
    destruct (Nat.eq_dec j i) as [->|N]; [now rewrite set_nth_same|now rewrite set_nth_other].
  Qed.

  Lemma xtr_bind {A B} t (r : BuildParams.R St A) (k : A -> BuildParams.R St B) e :
    xtr t (rbind r k) e = xbind (xtr t r) (fun a => xtr t (k a)) e.
  Proof.
    unfold xtr, xbind, rbind. destruct (nth_error (snd e) t) as [y|] eqn:E; [|reflexivity].
    assert (L : t < length (snd e)) by (apply nth_error_Some; congruence).
    destruct (r y) as [[a y']|]; [|reflexivity]. cbn. rewrite set_nth_same by exact L.
    destruct (k a y') as [[b y'']|]; [|reflexivity]. now rewrite set_nth_twice.
  Qed.
  Lemma simT_bind {A B A' B'} t s (m : Q A) (r : BuildParams.R St B) (k : A -> Q A') (f : B -> BuildParams.R St B') R1 R2 :
    simT t s m r R1 -> (forall s' a b, ext s s' -> R1 s' a b -> simT t s' (k a) (f b) R2) ->
    simT t s (qbind m k) (rbind r f) R2.
  Proof.
    intros H K L. eapply sim_eq; [symmetry; apply xtr_bind|]. eapply sim_bind; [exact (H L)|].
    intros s' a b E Hb. apply (K s' a b E Hb). destruct E as [_ E]. lia.
  Qed.
  Lemma simT_lift {A B} t s (m : Q A) (o : option B) R : simL s m o R -> simT t s m (rlift o) R.
  Proof.
    intros H L. eapply sim_eq; [|exact H]. unfold xlift, xtr, rlift. unfold env_of at 2. cbn [snd].
    destruct (nth_error (c_trs s) t) as [y|] eqn:E.
    - destruct o; [|reflexivity]. cbn. f_equal. f_equal. unfold env_of. cbn. now rewrite (set_nth_id _ _ _ E).
    - apply nth_error_None in E. lia.
  Qed.
  Lemma simT_ret {A B} t s (a : A) (b : B) (R : rel A B) : R s a b -> simT t s (qret a) (rret b) R.
  Proof. intro H. change (rret b) with (@rlift St B (Some b)). apply simT_lift. now apply simL_ret. Qed.
  Lemma simT_fail {A B} t s (R : rel A B) : simT t s qfail (fun _ => @None (B * tr St)) R.
  Proof. intro L. unfold sim, qfail, xtr. cbn. now destruct (nth_error (c_trs s) t). Qed.
  Lemma simT_pure {A B A' B'} t s (m : Q A) (v : B) (k : A -> Q A') (r : BuildParams.R St B') R1 R2 :
    simL s m (Some v) R1 -> (forall s' a, ext s s' -> R1 s' a v -> simT t s' (k a) r R2) -> simT t s (qbind m k) r R2.
  Proof.
    intros H K L.
    apply (sim_eq s _ (xbind (xlift (Some v)) (fun _ => xtr t r))); [reflexivity|].
    eapply (sim_bind s m _ k _ (fun s a b => R1 s a b /\ b = v)).
    - unfold simL, sim in *. destruct (m _) as [[[a cs] n]|]; [|exact H]. destruct (run cs s); [|exact H].
      destruct H as (E & Ln & b & Eb & Hb). split; [exact E|]. split; [exact Ln|]. exists b. split; [exact Eb|]. split; [exact Hb|].
      cbn in Eb. congruence.
    - intros s' a b E [Hb ->]. apply (K s' a E Hb). destruct E as [_ E]. lia.
  Qed.

  (** ** Relations *)
  Class Mono {A B} (R : rel A B) : Prop := mono : forall s s' a b, ext s s' -> R s a b -> R s' a b.
  Definition rs : rel nat F := fun s i x => val_s s i = Some x.
  Definition rp : rel nat M := fun s i P => val_p s i = Some P.
  Definition req {A} : rel A A := fun _ a b => a = b.
  Definition rlist {A B} (R : rel A B) : rel (list A) (list B) := fun s => Forall2 (R s).
  Definition rpair {A B A' B'} (R : rel A B) (R' : rel A' B') : rel (A * A') (B * B') := fun s a b => R s (fst a) (fst b) /\ R' s (snd a) (snd b).

  Lemma ext_nth s s' i v : ext s s' -> nth_error (c_vals s) i = Some v -> nth_error (c_vals s') i = Some v.
  Proof. intros [[l E] _] H. rewrite E. rewrite nth_error_app1; [exact H|]. apply nth_error_Some. congruence. Qed.
  Global Instance Mono_rs : Mono rs.
  Proof. intros s s' i x E. unfold rs, val_s. destruct (nth_error (c_vals s) i) as [[y|y]|] eqn:H; intro K; try discriminate. now rewrite (ext_nth _ _ _ _ E H). Qed.
  Global Instance Mono_rp : Mono rp.
  Proof. intros s s' i x E. unfold rp, val_p. destruct (nth_error (c_vals s) i) as [[y|y]|] eqn:H; intro K; try discriminate. now rewrite (ext_nth _ _ _ _ E H). Qed.
  Global Instance Mono_req {A} : Mono (@req A).
  Proof. intros s s' a b _ H. exact H. Qed.
  Global Instance Mono_rlist {A B} (R : rel A B) : Mono R -> Mono (rlist R).
  Proof. intros HM s s' a b E H. unfold rlist in *. induction H; constructor; eauto. Qed.
  Global Instance Mono_rpair {A B A' B'} (R : rel A B) (R' : rel A' B') : Mono R -> Mono R' -> Mono (rpair R R').
  Proof. intros HM HM' s s' a b E [H H']. split; eauto. Qed.
  Global Instance Mono_orel {A B} (R : rel A B) : Mono R -> Mono (orel R).
  Proof. intros HM s s' [a|] [b|] E H; cbn in *; eauto. Qed.

  (** ** Emission *)
  Lemma push_ext v s : ext s (mkC (c_vals s ++ [v]) (c_inst s) (c_trs s)).
  Proof. split; [now exists [v]|reflexivity]. Qed.
  Lemma nth_last {A} (l : list A) a : nth_error (l ++ [a]) (length l) = Some a.
  Proof. rewrite nth_error_app2, Nat.sub_diag by lia. reflexivity. Qed.
  Lemma emit_s s c x : run1 c s = push (VS x) s -> simL s (emit c) (Some x) rs.
  Proof.
    intro H. unfold simL, sim, emit, run_calls. rewrite H. cbn -[nth_error]. split; [apply push_ext|]. split; [rewrite app_length; cbn; lia|].
    exists x. split; [reflexivity|]. unfold rs, val_s. cbn [c_vals]. now rewrite nth_last.
  Qed.
  Lemma emit_p s c x : run1 c s = push (VP x) s -> simL s (emit c) (Some x) rp.
  Proof.
    intro H. unfold simL, sim, emit, run_calls. rewrite H. cbn -[nth_error]. split; [apply push_ext|]. split; [rewrite app_length; cbn; lia|].
    exists x. split; [reflexivity|]. unfold rp, val_p. cbn [c_vals]. now rewrite nth_last.
  Qed.
  Lemma emit_const s x : simL s (emit (CConst x)) (Some x) rs.
  Proof. now apply emit_s. Qed.
  Lemma emit_add s i j x y : rs s i x -> rs s j y -> simL s (emit (CAdd i j)) (Some (fadd x y)) rs.
  Proof. intros H H'. apply emit_s. cbn. now rewrite H, H'. Qed.
  Lemma emit_sub s i j x y : rs s i x -> rs s j y -> simL s (emit (CSub i j)) (Some (fsub x y)) rs.
  Proof. intros H H'. apply emit_s. cbn. now rewrite H, H'. Qed.
  Lemma emit_mul s i j x y : rs s i x -> rs s j y -> simL s (emit (CMul i j)) (Some (fmul x y)) rs.
  Proof. intros H H'. apply emit_s. cbn. now rewrite H, H'. Qed.
  Lemma emit_square s i x : rs s i x -> simL s (emit (CSquare i)) (Some (fmul x x)) rs.
  Proof. intros H. apply emit_s. cbn. now rewrite H. Qed.
  Lemma emit_div s i j x y : rs s i x -> rs s j y -> simL s (emit (CDiv i j)) (chip_div x y) rs.
  Proof.
    intros H H'. destruct (chip_div x y) as [z|] eqn:E.
    - apply emit_s. cbn. now rewrite H, H', E.
    - unfold simL, sim, emit. cbn. now rewrite H, H', E.
  Qed.
  Lemma emit_sum s l l' c : rlist (rpair rs req) s l l' -> simL s (emit (CSum l c)) (Some (sum_with_coeff_and_constant l' c)) rs.
  Proof.
    intro H. apply emit_s. cbn. replace (mapM _ l) with (Some l'); [reflexivity|]. symmetry.
    induction H as [|[i a] [x b] l l' [H1 H2] _ IH]; [reflexivity|]. cbn in *. rewrite H1, IH. unfold req in H2. now subst.
  Qed.
  Lemma emit_pconst s P : simL s (emit (CPConst P)) (Some P) rp.
  Proof. now apply emit_p. Qed.
  Lemma emit_pone s : simL s (emit CPOne) (Some generator) rp.
  Proof. now apply emit_p. Qed.
  Lemma emit_padd s i j x y : rp s i x -> rp s j y -> simL s (emit (CPAdd i j)) (Some (madd x y)) rp.
  Proof. intros H H'. apply emit_p. cbn. now rewrite H, H'. Qed.
  Lemma emit_psub s i j x y : rp s i x -> rp s j y -> simL s (emit (CPSub i j)) (Some (msub x y)) rp.
  Proof. intros H H'. apply emit_p. cbn. now rewrite H, H'. Qed.
  Lemma emit_pmul s i j x y : rs s i x -> rp s j y -> simL s (emit (CPMul i j)) (Some (smul x y)) rp.
  Proof. intros H H'. apply emit_p. cbn. now rewrite H, H'. Qed.
  Lemma emit_pmulconst s i P x : rs s i x -> simL s (emit (CPMulConst i P)) (Some (smul x P)) rp.
  Proof. intros H. apply emit_p. cbn. now rewrite H. Qed.
  Lemma emit_normalize s i P : rp s i P -> simL s (emit (CNormalize i)) (Some P) rp.
  Proof. intros H. apply emit_p. cbn. now rewrite H. Qed.
  Lemma rlist_mapM {A B} (f : cst -> A -> option B) s l l' : rlist (fun s a b => f s a = Some b) s l l' -> mapM (f s) l = Some l'.
  Proof. intro H. now apply mapM_Forall2. Qed.
  Lemma emit_multiexp s ps ss ps' ss' : rlist rp s ps ps' -> rlist rs s ss ss' -> simL s (emit (CMultiExp ps ss)) (multi_exp ps' ss') rp.
  Proof.
    intros H H'. apply (rlist_mapM (fun s => val_p s)) in H. apply (rlist_mapM (fun s => val_s s)) in H'.
    destruct (multi_exp ps' ss') as [P|] eqn:E.
    - apply emit_p. cbn. now rewrite H, H', E.
    - unfold simL, sim, emit. cbn. now rewrite H, H', E.
  Qed.

  (** calls on a transcript *)
  Lemma emit_tr_s t s c (r : BuildParams.R St F) :
    run1 c s = (do (x, s) <- on_tr t r s; push (VS x) s) -> simT t s (emit c) r rs.
  Proof.
    intros H L. unfold sim, emit, run_calls. rewrite H. unfold on_tr, xtr. cbn [env_of snd fst].
    destruct (nth_error (c_trs s) t) as [y|] eqn:E; [|reflexivity]. destruct (r y) as [[x y']|]; [|reflexivity].
    unfold push. cbn -[nth_error set_nth]. split.
    { split; [cbn; now exists [VS x]|cbn -[set_nth]; now apply set_nth_length]. }
    split; [rewrite app_length; cbn; lia|].
    exists x. split; [reflexivity|]. unfold rs, val_s. cbn [c_vals]. now rewrite nth_last.
  Qed.
  Lemma emit_tr_p t s c (r : BuildParams.R St M) :
    run1 c s = (do (x, s) <- on_tr t r s; push (VP x) s) -> simT t s (emit c) r rp.
  Proof.
    intros H L. unfold sim, emit, run_calls. rewrite H. unfold on_tr, xtr. cbn [env_of snd fst].
    destruct (nth_error (c_trs s) t) as [y|] eqn:E; [|reflexivity]. destruct (r y) as [[x y']|]; [|reflexivity].
    unfold push. cbn -[nth_error set_nth]. split.
    { split; [cbn; now exists [VP x]|cbn -[set_nth]; now apply set_nth_length]. }
    split; [rewrite app_length; cbn; lia|].
    exists x. split; [reflexivity|]. unfold rp, val_p. cbn [c_vals]. now rewrite nth_last.
  Qed.
  Lemma emit_tr_u t s c (r : BuildParams.R St unit) :
    run1 c s = (do (_, s) <- on_tr t r s; Some s) -> simT t s (emit_ c) r req.
  Proof.
    intros H L. unfold sim, emit_, run_calls. rewrite H. unfold on_tr, xtr. cbn [env_of snd fst].
    destruct (nth_error (c_trs s) t) as [y|] eqn:E; [|reflexivity]. destruct (r y) as [[[] y']|]; [|reflexivity].
    cbn -[nth_error set_nth]. split.
    { split; [cbn; exists []; now rewrite app_nil_r|cbn -[set_nth]; now apply set_nth_length]. }
    split; [reflexivity|]. exists tt. split; reflexivity.
  Qed.
  Lemma emit_readpoint t s : simT t s (emit (CReadPoint t)) (read_point F M PT pt_decode St upd_pt) rp.
  Proof. now apply emit_tr_p. Qed.
  Lemma emit_readscalar t s : simT t s (emit (CReadScalar t)) (read_scalar F SC sc_decode St upd_sc) rs.
  Proof. now apply emit_tr_s. Qed.
  Lemma emit_squeeze t s : simT t s (emit (CSqueeze t)) (squeeze_scalar F St sqz) rs.
  Proof. now apply emit_tr_s. Qed.
  Lemma emit_commonpoint t s i P : rp s i P -> simT t s (emit_ (CCommonPoint t i)) (common_point F M St upd_pt P) req.
  Proof. intro H. apply emit_tr_u. cbn. now rewrite H. Qed.
  Lemma emit_commonscalar t s i x : rs s i x -> simT t s (emit_ (CCommonScalar t i)) (common_scalar F St upd_sc x) req.
  Proof. intro H. apply emit_tr_u. cbn. now rewrite H. Qed.

  (** ** Loops *)
  Lemma simL_map {A B A' B'} (R1 : rel A B) (R2 : rel A' B') (HM1 : Mono R1) (HM2 : Mono R2) (f : A -> Q A') (g : B -> option B') :
    forall l l' s, rlist R1 s l l' -> (forall s' a b, ext s s' -> R1 s' a b -> simL s' (f a) (g b) R2) ->
    simL s (qmap f l) (mapM g l') (rlist R2).
  Proof.
    induction l as [|a l IH]; intros l' s H K; inversion H as [|? b ? l'' Hab Hl]; subst.
    - apply simL_ret. constructor.
    - cbn. eapply simL_bind; [apply (K s a b); [apply ext_refl|exact Hab]|]. intros s1 a1 b1 E1 H1. cbn beta.
      eapply simL_bind.
      + apply (IH l'' s1).
        * exact (mono s s1 l l'' E1 Hl).
        * intros s' a0 b0 E0 H0. apply K; [eapply ext_trans; eauto|exact H0].
      + intros s2 a2 b2 E2 H2. apply simL_ret. constructor; [exact (mono s1 s2 _ _ E2 H1)|exact H2].
  Qed.
  Lemma simL_mapS {A B A' B'} (R1 : rel A B) (R2 : rel A' B') (HM1 : Mono R1) (HM2 : Mono R2) (f : A -> Q A') (g : B -> B') :
    forall l l' s, rlist R1 s l l' -> (forall s' a b, ext s s' -> R1 s' a b -> simL s' (f a) (Some (g b)) R2) ->
    simL s (qmap f l) (Some (map g l')) (rlist R2).
  Proof.
    intros l l' s H K. replace (Some (map g l')) with (mapM (fun b => Some (g b)) l'); [now apply (simL_map R1 R2 _ _)|].
    clear. induction l' as [|b l' IH]; [reflexivity|]. cbn. now rewrite IH.
  Qed.
  Lemma simL_fold {A B A' B'} (R1 : rel A B) (R2 : rel A' B') (HM1 : Mono R1) (f : A' -> A -> Q A') (g : B' -> B -> option B') :
    forall l l' s a b, rlist R1 s l l' -> R2 s a b ->
    (forall s' a0 b0 a b, ext s s' -> R2 s' a0 b0 -> R1 s' a b -> simL s' (f a0 a) (g b0 b) R2) ->
    simL s (qfold f l a) (foldM g l' b) R2.
  Proof.
    induction l as [|a0 l IH]; intros l' s a b H H0 K; inversion H as [|? b0 ? l'' Hab Hl]; subst.
    - now apply simL_ret.
    - cbn. eapply simL_bind; [apply (K s a b a0 b0); [apply ext_refl|exact H0|exact Hab]|]. intros s1 a1 b1 E1 H1. cbn beta.
      apply IH; [exact (mono s s1 l l'' E1 Hl)|exact H1|].
      intros s' ? ? ? ? E0 ? ?. apply K; [eapply ext_trans; eauto|assumption|assumption].
  Qed.
  Lemma simL_foldS {A B A' B'} (R1 : rel A B) (R2 : rel A' B') (HM1 : Mono R1) (f : A' -> A -> Q A') (g : B' -> B -> B') :
    forall l l' s a b, rlist R1 s l l' -> R2 s a b ->
    (forall s' a0 b0 a b, ext s s' -> R2 s' a0 b0 -> R1 s' a b -> simL s' (f a0 a) (Some (g b0 b)) R2) ->
    simL s (qfold f l a) (Some (fold_left g l' b)) R2.
  Proof.
    intros l l' s a b H H0 K. replace (Some (fold_left g l' b)) with (foldM (fun x y => Some (g x y)) l' b).
    - now apply (simL_fold R1 R2 _).
    - clear. revert b. induction l' as [|c l' IH]; intro b; [reflexivity|]. cbn. now rewrite IH.
  Qed.
  Lemma simT_map {A B A' B'} t (R1 : rel A B) (R2 : rel A' B') (HM1 : Mono R1) (HM2 : Mono R2) (f : A -> Q A') (g : B -> BuildParams.R St B') :
    forall l l' s, rlist R1 s l l' -> (forall s' a b, ext s s' -> R1 s' a b -> simT t s' (f a) (g b) R2) ->
    simT t s (qmap f l) (rmap g l') (rlist R2).
  Proof.
    induction l as [|a l IH]; intros l' s H K; inversion H as [|? b ? l'' Hab Hl]; subst.
    - apply simT_ret. constructor.
    - cbn. eapply simT_bind; [apply (K s a b); [apply ext_refl|exact Hab]|]. intros s1 a1 b1 E1 H1. cbn beta.
      eapply simT_bind.
      + apply (IH l'' s1).
        * exact (mono s s1 l l'' E1 Hl).
        * intros s' a0 b0 E0 H0. apply K; [eapply ext_trans; eauto|exact H0].
      + intros s2 a2 b2 E2 H2. apply simT_ret. constructor; [exact (mono s1 s2 _ _ E2 H1)|exact H2].
  Qed.
  Lemma simT_times {A' B'} t (R2 : rel A' B') (HM2 : Mono R2) (f : Q A') (g : BuildParams.R St B') n s :
    (forall s', ext s s' -> simT t s' f g R2) -> simT t s (qtimes n f) (rtimes n g) (rlist R2).
  Proof.
    intro K. unfold qtimes, rtimes. apply (simT_map t req R2 _ _).
    - induction n; constructor; [reflexivity|assumption].
    - intros s' a b E _. now apply K.
  Qed.

  (** programs with instance values *)
  Definition xpop : X F := fun e => match fst e with [] => None | x :: l => Some (x, (l, snd e)) end.
  Definition xret {B} (b : B) : X B := fun e => Some (b, e).
  Fixpoint xmap {A B} (f : A -> X B) (l : list A) : X (list B) :=
    match l with
    | [] => xret []
    | a :: l => xbind (f a) (fun b => xbind (xmap f l) (fun r => xret (b :: r)))
    end.
  Lemma sim_ret {A B} s (a : A) (b : B) (R : rel A B) : R s a b -> sim s (qret a) (xret b) R.
  Proof. apply simL_ret. Qed.
  Lemma emit_instance s : sim s (emit CInstance) xpop rs.
  Proof.
    unfold sim, emit. cbn -[nth_error]. unfold xpop, env_of. cbn [fst snd]. destruct (c_inst s) as [|x l]; [reflexivity|].
    cbn -[nth_error]. split; [split; [now exists [VS x]|reflexivity]|]. split; [rewrite app_length; cbn; lia|].
    exists x. split; [reflexivity|]. unfold rs, val_s. cbn [c_vals]. now rewrite nth_last.
  Qed.
  Lemma sim_map {A B A' B'} (R1 : rel A B) (R2 : rel A' B') (HM1 : Mono R1) (HM2 : Mono R2) (f : A -> Q A') (g : B -> X B') :
    forall l l' s, rlist R1 s l l' -> (forall s' a b, ext s s' -> R1 s' a b -> sim s' (f a) (g b) R2) ->
    sim s (qmap f l) (xmap g l') (rlist R2).
  Proof.
    induction l as [|a l IH]; intros l' s H K; inversion H as [|? b ? l'' Hab Hl]; subst.
    - apply sim_ret. constructor.
    - cbn. eapply sim_bind; [apply (K s a b); [apply ext_refl|exact Hab]|]. intros s1 a1 b1 E1 H1. cbn beta.
      eapply sim_bind.
      + apply (IH l'' s1).
        * exact (mono s s1 l l'' E1 Hl).
        * intros s' a0 b0 E0 H0. apply K; [eapply ext_trans; eauto|exact H0].
      + intros s2 a2 b2 E2 H2. apply sim_ret. constructor; [exact (mono s1 s2 _ _ E2 H1)|exact H2].
  Qed.

  (** ** Lists *)
  Lemma rl_nil {A B} (R : rel A B) s : rlist R s [] [].
  Proof. constructor. Qed.
  Lemma rl_cons {A B} (R : rel A B) s a b l l' : R s a b -> rlist R s l l' -> rlist R s (a :: l) (b :: l').
  Proof. now constructor. Qed.
  Lemma rl_length {A B} (R : rel A B) s l l' : rlist R s l l' -> length l = length l'.
  Proof. intro H. induction H; cbn; congruence. Qed.
  Lemma rl_nth {A B} (R : rel A B) s l l' i : rlist R s l l' -> orel R s (nth_error l i) (nth_error l' i).
  Proof. intro H. revert i. induction H as [|a b l l' Hab _ IH]; intros [|i]; cbn; auto. Qed.
  Lemma rl_app {A B} (R : rel A B) s l l' k k' : rlist R s l l' -> rlist R s k k' -> rlist R s (l ++ k) (l' ++ k').
  Proof. apply Forall2_app. Qed.
  Lemma rl_rev {A B} (R : rel A B) s l l' : rlist R s l l' -> rlist R s (rev l) (rev l').
  Proof. intro H. induction H; cbn; [constructor|]. apply rl_app; [assumption|]. constructor; [assumption|constructor]. Qed.
  Lemma rl_skipn {A B} (R : rel A B) s n l l' : rlist R s l l' -> rlist R s (skipn n l) (skipn n l').
  Proof. intro H. revert n. induction H; intros [|n]; cbn; try constructor; auto. Qed.
  Lemma rl_firstn {A B} (R : rel A B) s n l l' : rlist R s l l' -> rlist R s (firstn n l) (firstn n l').
  Proof. intro H. revert n. induction H; intros [|n]; cbn; try constructor; auto. now apply IHForall2. Qed.
  Lemma rl_concat {A B} (R : rel A B) s l l' : rlist (rlist R) s l l' -> rlist R s (concat l) (concat l').
  Proof. intro H. induction H; cbn; [constructor|]. now apply rl_app. Qed.
  Lemma rl_combine {A B A' B'} (R : rel A B) (R' : rel A' B') s l l' k k' : rlist R s l l' -> rlist R' s k k' -> rlist (rpair R R') s (combine l k) (combine l' k').
  Proof. intro H. revert k k'. induction H; intros k k' [|]; cbn; constructor; [now split|]. now apply IHForall2. Qed.
  Lemma rl_refl {A} s (l : list A) : rlist req s l l.
  Proof. induction l; constructor; [reflexivity|assumption]. Qed.
  Lemma rl_enumerate {A B} (R : rel A B) s l l' : rlist R s l l' -> rlist (rpair req R) s (enumerate l) (enumerate l').
  Proof. intro H. unfold enumerate. rewrite (rl_length _ _ _ _ H). apply rl_combine; [apply rl_refl|exact H]. Qed.
  Lemma rl_map {A B A' B'} (R : rel A B) (R' : rel A' B') s f g l l' : rlist R s l l' -> (forall a b, R s a b -> R' s (f a) (g b)) -> rlist R' s (map f l) (map g l').
  Proof. intros H K. induction H; cbn; constructor; auto. Qed.
  Lemma rl_flat_map {A B A' B'} (R : rel A B) (R' : rel A' B') s f g l l' : rlist R s l l' -> (forall a b, R s a b -> rlist R' s (f a) (g b)) -> rlist R' s (flat_map f l) (flat_map g l').
  Proof. intros H K. induction H; cbn; [constructor|]. apply rl_app; auto. Qed.
  Lemma rl_mapM {A B A' B'} (R : rel A B) (R' : rel A' B') s f g l l' : rlist R s l l' -> (forall a b, R s a b -> orel R' s (f a) (g b)) -> orel (rlist R') s (mapM f l) (mapM g l').
  Proof.
    intros H K. induction H as [|a b l l' Hab _ IH]; cbn; [constructor|]. specialize (K a b Hab).
    destruct (f a), (g b); cbn in K; try contradiction; [|exact I]. destruct (mapM f l), (mapM g l'); cbn in IH; try contradiction; [|exact I].
    cbn. now constructor.
  Qed.
  Lemma rl_repeat {A B} (R : rel A B) s a b n : R s a b -> rlist R s (repeat a n) (repeat b n).
  Proof. intro H. induction n; constructor; auto. Qed.
  Lemma rl_chunks {A B} (R : rel A B) s n l l' : rlist R s l l' -> rlist (rlist R) s (chunks n l) (chunks n l').
  Proof.
    intro H. unfold chunks. rewrite (rl_length _ _ _ _ H). generalize (length l') as fuel. intro fuel. revert l l' H.
    induction fuel as [|fuel IH]; intros l l' H; cbn; [constructor|]. inversion H; subst; [constructor|].
    constructor; [now apply rl_firstn|]. apply IH. now apply rl_skipn.
  Qed.
  Lemma rl_fold {A B A' B'} (R1 : rel A B) (R2 : rel A' B') s f g l l' : rlist R1 s l l' -> (forall a0 b0 a b, R2 s a0 b0 -> R1 s a b -> R2 s (f a0 a) (g b0 b)) ->
    forall a b, R2 s a b -> R2 s (fold_left f l a) (fold_left g l' b).
  Proof. intros H K. induction H as [|x y l l' Hxy _ IH]; intros a b Hab; cbn; auto. Qed.
  Lemma rl_reduce {A B} (R : rel A B) s f g l l' : rlist R s l l' -> (forall a0 b0 a b, R s a0 b0 -> R s a b -> R s (f a0 a) (g b0 b)) -> orel R s (reduce f l) (reduce g l').
  Proof. intros H K. destruct H as [|a b l l' Hab Hl]; cbn; [exact I|]. now apply (rl_fold R R). Qed.
  Lemma orel_bind {A B A' B'} (R : rel A B) (R' : rel A' B') s o o' f g : orel R s o o' -> (forall a b, R s a b -> orel R' s (f a) (g b)) -> orel R' s (do x <- o; f x) (do x <- o'; g x).
  Proof. intros H K. destruct o, o'; cbn in H; try contradiction; [|exact I]. now apply K. Qed.
End Sim.
Arguments ext {F M St} _ _. Arguments rs {F M St} _ _ _. Arguments rp {F M St} _ _ _. Arguments req {F M St A} _ _ _.
Arguments rlist {F M St A B} _ _ _ _. Arguments rpair {F M St A B A' B'} _ _ _ _ _. Arguments orel {F M St A B} _ _ _ _.
Arguments mono {F M St A B R Mono} s s' a b _ _.

(** carry the relations to the later state *)
Ltac lift :=
  match goal with
  | E : @ext _ _ _ ?s ?s' |- _ =>
      repeat match goal with
             | H : ?R s ?a ?b |- _ =>
                 let H' := fresh "H" in pose proof (mono (R := R) s s' a b E H) as H'; clear H; rename H' into H
             end; clear E; try clear s
  end.
