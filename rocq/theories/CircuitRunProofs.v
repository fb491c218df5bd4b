(** Every satisfying assignment of the circuit of a list of calls is a run of the list by the
    native chips. *)
From Coq Require Import String ZArith NArith Arith Lia List Bool Field.
From Verif Require Import Util Algebra PField ListFacts Gate GateProofs GateOps Integer Bn254 IntegerSound IntegerHistorySound IntegerHistory
  Curve CurveAssoc Bn254Curve Ecc EccSound EccScalar EccMul EccHistory CurveOrder CurveMod
  Schema Plonk Poseidon PoseidonSpec CircuitSponge BuildParams Calls VerifierCalls VerifierCallsTop VerifyCircuit CircuitRun CircuitRunSpec.
Import ListNotations.

Section Futures.
  (** transcripts from what is still to be read and absorbed, and the sponges *)
  Context {NN : PF} {St : Type}.
  Notation H := (pstate NN (mock_chip NN)).
  Variable st : list (NN * NN) -> H -> St.
  Definition fut : Type := nat -> list Z * list (NN * NN).
  Fixpoint mk_trs (f : fut) (k : nat) (hs : list H) : list (tr St) :=
    match hs with [] => [] | h :: hs => mkTr (fst (f k)) (st (snd (f k)) h) :: mk_trs f (S k) hs end.
  Definition fset (f : fut) (t : nat) (x : list Z * list (NN * NN)) : fut := fun i => if Nat.eqb i t then x else f i.
  Lemma mk_nth f hs : forall k t, nth_error (mk_trs f k hs) t = option_map (fun h => mkTr (fst (f (k + t))) (st (snd (f (k + t))) h)) (nth_error hs t).
  Proof. induction hs as [|h hs IH]; intros k [|t]; cbn; try reflexivity; [now rewrite Nat.add_0_r|]. rewrite IH. now rewrite Nat.add_succ_r. Qed.
  Lemma mk_ext f g hs : forall k, (forall i, k <= i -> f i = g i) -> mk_trs f k hs = mk_trs g k hs.
  Proof. induction hs as [|h hs IH]; intros k Hk; cbn; [reflexivity|]. rewrite (Hk k) by lia. f_equal. apply IH. intros. apply Hk. lia. Qed.
  Lemma mk_set f hs : forall k t h b o, nth_error hs t = Some h -> forall h',
    set_nth (mk_trs (fset f (k + t) (b, o)) k hs) t (mkTr (fst (f (k + t))) (st (snd (f (k + t))) h')) = mk_trs f k (set_nth hs t h').
  Proof.
    induction hs as [|h0 hs IH]; intros k [|t] h b o Eh h'; try discriminate; unfold set_nth; cbn [firstn skipn app mk_trs].
    - rewrite Nat.add_0_r. f_equal. apply mk_ext. intros i Hi. unfold fset. destruct (Nat.eqb_spec i k); [lia|reflexivity].
    - f_equal; [unfold fset; destruct (Nat.eqb_spec k (k + S t)); [lia|reflexivity]|]. rewrite <- Nat.add_succ_comm. apply (IH (S k) t h b o Eh h').
  Qed.
  Lemma set_same {A} (l : list A) t x y : nth_error l t = Some y -> nth_error (set_nth l t x) t = Some x.
  Proof. revert t. induction l as [|a l IH]; intros [|t] E0; try discriminate; [reflexivity|]. exact (IH t E0). Qed.
End Futures.

Section Sound.
  Variables NN W : PF.
  Hypothesis HN : pf_n NN = fr_mod.
  Hypothesis HW : pf_n W = fq_mod.
  Notation M := (G1 NN W HN HW).
  Notation aff := (g1_affine NN W HN HW).
  Variables (PT SC : nat).
  Variable pt_decode : list Z -> option M.
  Variable sc_decode : list Z -> option NN.
  (** every point and every scalar has an encoding *)
  Hypothesis pt_enc : forall P, exists bs, List.length bs = PT /\ pt_decode bs = Some P.
  Hypothesis sc_enc : forall s, exists bs, List.length bs = SC /\ sc_decode bs = Some s.
  Variable sp : pspec NN.
  Variable RATE : nat.
  Hypothesis wf : wf_spec sp RATE.
  Variable init : list NN.
  Hypothesis L0 : List.length init = S RATE.
  Variable generator : M.
  Variable allowed : NN * NN -> point W -> bool.
  Notation mchip := (mock_chip NN).
  Notation chip := (circuit_chip NN).
  Notation sponge_st := (pstate NN (mock_chip NN)).
  (** the state of a native transcript: what it will absorb for the points to come, and a sponge *)
  Variable St : Type.
  Variable st : list (NN * NN) -> sponge_st -> St.
  Variable upd_pt : St -> M -> St.
  Variable upd_sc : St -> NN -> St.
  Variable sqz : St -> option (NN * St).
  Hypothesis st_pt : forall e l h P, allowed e (aff P) = true -> upd_pt (st (e :: l) h) P = st l (update NN mchip h [fst e; snd e]).
  Hypothesis st_sc : forall l h s, upd_sc (st l h) s = st l (update NN mchip h [s]).
  Hypothesis st_sqz : forall l h c h', squeeze NN mchip sp (S RATE) RATE h = Some (c, h') -> sqz (st l h) = Some (c, st l h').
  Notation run_call := (run_call NN M PT SC pt_decode sc_decode St upd_pt upd_sc sqz generator).
  Notation run := (run_calls NN M PT SC pt_decode sc_decode St upd_pt upd_sc sqz generator).
  Notation x_call := (x_call NN W M aff PT SC pt_decode sc_decode sp RATE generator).
  Notation x_calls := (x_calls NN W M aff PT SC pt_decode sc_decode sp RATE generator).
  Notation rp := (EccMul.rp NN W).
  Notation cst := (cst NN M St).
  Notation xst := (xst NN).
  Implicit Types (w : asg NN).
  Add Field NF : (f_th NN).

  Lemma aff_on (P : M) : on_curve (ofZ 3) (aff P).
  Proof. exact (cpt_on W (ofZ 3) P). Qed.
  Lemma of_on (P : point W) : on_curve (ofZ 3) P -> exists m : M, aff m = P.
  Proof. intro H. exists (mk W (ofZ 3) P H). reflexivity. Qed.
  Lemma aff_group (P : M) : in_group (aff P).
  Proof. apply (on_curve_in_group W HW). apply aff_on. Qed.

  (** *** what corresponds to what *)
  Definition vrel w (x : xval NN) (v : cval NN M) : Prop :=
    match x, v with XS a, VS s => w (av_cell a) = s | XP p, VP P => rp w p (aff P) | _, _ => False end.
  Definition hrel w (h : pstate NN chip) (m : sponge_st) : Prop :=
    Forall2 (fun (a : aval NN) y => w (av_cell a) = y) (ps_s h) (ps_s m) /\
    Forall2 (fun (a : aval NN) y => w (av_cell a) = y) (ps_absorbing h) (ps_absorbing m) /\ List.length (ps_s m) = S RATE.
  Definition rel w (s : xst) (vals : list (cval NN M)) (hs : list sponge_st) : Prop :=
    Forall2 (vrel w) (x_vals s) vals /\ Forall2 (fun x h => hrel w (t_hash x) h) (x_trs s) hs.
  Definition note_ok w (n : note NN) : Prop :=
    match n with
    | NRead p => w (av_cell (pt_z p)) = f0 \/ w (av_cell (pt_z p)) = f1
    | NAbsorb p => forall P, rp w p P -> allowed (ofZ (iv w (pt_x p)), ofZ (iv w (pt_y p))) P = true
    | NDiv b => w (av_cell b) <> f0
    end.

  (** after a call: the native call, for whatever is to come, ends in corresponding values *)
  Definition post w (c : call NN M) (s : xst) (r : xst * list (note NN)) : Prop :=
    Forall (note_ok w) (snd r) -> forall vals hs, rel w s vals hs ->
    exists vals' hs', rel w (fst r) vals' hs' /\
      forall ins (f : @fut NN), exists ins0 f0, run_call c (mkC vals ins0 (mk_trs st f0 0 hs)) = Some (mkC vals' ins (mk_trs st f 0 hs')).

  Lemma snd_and w {A} (m : B NN A) (P Q : A -> Prop) : snd_ w m P -> snd_ w m Q -> snd_ w m (fun a => P a /\ Q a).
  Proof. intros H1 H2 c r c' E Hs. destruct (H1 c r c' E Hs). destruct (H2 c r c' E Hs). auto. Qed.

  Lemma vals_s w s i : snd_ w (x_s s i) (fun a => forall vals hs, rel w s vals hs -> forall ins trs, val_s (mkC vals ins trs : cst) i = Some (w (av_cell a))).
  Proof.
    unfold x_s. destruct (nth_error (x_vals s) i) as [[a|p]|] eqn:En; [|apply snd_panic|apply snd_panic]. apply snd_ret.
    intros vals hs [H _] ins trs. destruct (Forall2_nth_l _ _ _ _ _ H En) as ([x|P] & Ev & R); [|destruct R].
    unfold val_s. cbn [c_vals]. rewrite Ev. cbn in R. now rewrite R.
  Qed.
  Lemma vals_p w s i : snd_ w (x_p s i) (fun p => forall vals hs, rel w s vals hs -> exists P, rp w p (aff P) /\ forall ins trs, val_p (mkC vals ins trs : cst) i = Some P).
  Proof.
    unfold x_p. destruct (nth_error (x_vals s) i) as [[a|p]|] eqn:En; [apply snd_panic| |apply snd_panic]. apply snd_ret.
    intros vals hs [H _]. destruct (Forall2_nth_l _ _ _ _ _ H En) as ([x|P] & Ev & R); [destruct R|]. exists P. split; [exact R|]. intros ins trs.
    unfold val_p. cbn [c_vals]. rewrite Ev. reflexivity.
  Qed.
  Lemma trs_h w s t : snd_ w (at_ (x_trs s) t) (fun x => nth_error (x_trs s) t = Some x /\ forall vals hs, rel w s vals hs -> exists h, nth_error hs t = Some h /\ hrel w (t_hash x) h).
  Proof.
    apply snd_at. intros x E. split; [exact E|]. intros vals hs [_ H]. destruct (Forall2_nth_l _ _ _ _ _ H E) as (h & Eh & R). eauto.
  Qed.
  Lemma rel_push w s vals hs x v : rel w s vals hs -> vrel w x v -> rel w (x_push x s) (vals ++ [v]) hs.
  Proof. intros [H1 H2] H. split; [|exact H2]. apply Forall2_app; [exact H1|]. constructor; [exact H|constructor]. Qed.
  Lemma Forall2_set {A B} (R : A -> B -> Prop) l l' : Forall2 R l l' -> forall t a b, R a b -> Forall2 R (set_nth l t a) (set_nth l' t b).
  Proof.
    intros H. induction H as [|x y l l' H0 H IH]; intros t a b Hab; unfold set_nth.
    - destruct t; repeat constructor; assumption.
    - destruct t as [|t]; cbn [firstn skipn app]; constructor; try assumption. exact (IH t a b Hab).
  Qed.
  Lemma rel_set w s vals hs t x h : rel w s vals hs -> hrel w (t_hash x) h -> rel w (x_set t x s) vals (set_nth hs t h).
  Proof. intros [H1 H2] H. split; [exact H1|]. now apply (Forall2_set (fun x h => hrel w (t_hash x) h)). Qed.
  (** a call that only pushes a value *)
  Lemma post_push w c s x : (forall vals hs, rel w s vals hs -> exists v, vrel w x v /\
      forall ins trs, run_call c (mkC vals ins trs) = Some (mkC (vals ++ [v]) ins trs)) -> post w c s (x_push x s, []).
  Proof.
    intros H _ vals hs R. destruct (H vals hs R) as (v & Hv & E). exists (vals ++ [v]), hs. split; [now apply rel_push|].
    intros ins f. exists ins, f. apply E.
  Qed.

  Lemma lsum_sum w l k : sum_with_coeff_and_constant (map (fun ac : aval NN * NN => (w (av_cell (fst ac)), snd ac)) l) k = fadd k (lsum w l).
  Proof.
    unfold sum_with_coeff_and_constant. revert k. induction l as [|[a c] l IH]; intro k; cbn [map fold_left fst snd]; [cbn; ring|].
    rewrite IH. cbn [lsum]. ring.
  Qed.
  Lemma vals_sum w s l : snd_ w (bmap (fun ic => a <- x_s s (fst ic) ;; ret (a, snd ic)) l) (fun r => forall vals hs, rel w s vals hs -> forall ins trs,
    mapM (fun ic => do x <- val_s (mkC vals ins trs : cst) (fst ic); Some (x, snd ic)) l = Some (map (fun ac : aval NN * NN => (w (av_cell (fst ac)), snd ac)) r)).
  Proof.
    induction l as [|[i k] l IH]; cbn [bmap]; [apply snd_ret; reflexivity|].
    eapply snd_bind with (P := fun r => snd r = k /\ forall vals hs, rel w s vals hs -> forall ins trs, val_s (mkC vals ins trs : cst) i = Some (w (av_cell (fst r)))).
    - eapply snd_bind; [apply vals_s|]. intro a. apply snd_ret. cbn. auto.
    - intros [a k']. eapply snd_bind; [exact IH|]. intro r. apply snd_ret. intros Hr [<- Ha] vals hs R ins trs. cbn [mapM map fst snd].
      rewrite (Ha vals hs R). rewrite (Hr vals hs R). reflexivity.
  Qed.
  Lemma vals_ss w s l : snd_ w (bmap (x_s s) l) (fun r => forall vals hs, rel w s vals hs -> forall ins trs,
    mapM (val_s (mkC vals ins trs : cst)) l = Some (map (fun a : aval NN => w (av_cell a)) r)).
  Proof.
    induction l as [|i l IH]; cbn [bmap]; [apply snd_ret; reflexivity|]. eapply snd_bind; [apply vals_s|]. intro a.
    eapply snd_bind; [exact IH|]. intro r. apply snd_ret. intros Hr Ha vals hs R ins trs. cbn [mapM map]. rewrite (Ha vals hs R), (Hr vals hs R). reflexivity.
  Qed.
  Lemma vals_ps w s l : snd_ w (bmap (x_p s) l) (fun r => forall vals hs, rel w s vals hs -> exists Ps : list M, Forall2 (fun p P => rp w p (aff P)) r Ps /\
    forall ins trs, mapM (val_p (mkC vals ins trs : cst)) l = Some Ps).
  Proof.
    induction l as [|i l IH]; cbn [bmap]; [apply snd_ret; intros; exists []; split; [constructor|reflexivity]|]. eapply snd_bind; [apply vals_p|]. intro a.
    eapply snd_bind; [exact IH|]. intro r. apply snd_ret. intros Hr Ha vals hs R. destruct (Ha vals hs R) as (P & HP & EP). destruct (Hr vals hs R) as (Ps & HPs & EPs).
    exists (P :: Ps). split; [now constructor|]. intros ins trs. cbn [mapM]. rewrite EP, EPs. reflexivity.
  Qed.

  (** multi-exponentiation *)
  Definition term (c : M * NN) : M := Algebra.smul (snd c) (fst c).
  Lemma multi_exp_from l : forall (a : M), fold_left (fun acc c => match acc with None => Some (term c) | Some a => Some (madd a (term c)) end) l (Some a) =
    Some (fold_left madd (map term l) a).
  Proof. induction l as [|p l IH]; intro a; cbn [fold_left map]; [reflexivity|apply IH]. Qed.
  Lemma madd_fold l : forall a b : M, fold_left madd l (madd a b) = madd a (fold_left madd l b).
  Proof. induction l as [|x l IH]; intros a b; cbn [fold_left]; [reflexivity|]. rewrite <- IH, madd_assoc. reflexivity. Qed.
  Lemma fold_msm ps : forall ss p s0, aff (fold_left madd (map term (combine ps ss)) (term (p, s0))) =
    msm (combine (map (fun s => Z.to_N (toZ s)) (s0 :: ss)) (map aff (p :: ps))).
  Proof.
    induction ps as [|q ps IH]; intros ss p s0; cbn [combine fold_left map msm].
    - destruct ss; cbn [map combine msm fold_left]; symmetry; apply padd_inf_r.
    - destruct ss as [|s1 ss]; cbn [map combine msm fold_left]; [symmetry; apply padd_inf_r|].
      rewrite madd_fold. change (aff (madd (term (p, s0)) (fold_left madd (map term (combine ps ss)) (term (q, s1))))) with
        (padd (aff (term (p, s0))) (aff (fold_left madd (map term (combine ps ss)) (term (q, s1))))). rewrite IH. reflexivity.
  Qed.
  Lemma multi_exp_msm ps ss : ps <> [] -> ss <> [] -> exists P : M, multi_exp ps ss = Some P /\ aff P = msm (combine (map (fun s : NN => Z.to_N (toZ s)) ss) (map aff ps)).
  Proof.
    intros H1 H2. destruct ps as [|p ps]; [congruence|]. destruct ss as [|s0 ss]; [congruence|]. eexists. split; [|apply fold_msm].
    unfold multi_exp. cbn [combine fold_left]. exact (multi_exp_from (combine ps ss) (term (p, s0))).
  Qed.
  Lemma shamir_nonempty w ps ss : snd_ w (shamir W ps ss) (fun _ => ps <> [] /\ ss <> []).
  Proof.
    unfold shamir. eapply snd_bind with (P := fun _ => List.length ps = List.length ss); [apply snd_guard; apply Nat.eqb_eq|]. intro u.
    eapply snd_bind with (P := fun l => List.length l = List.length ss).
    { eapply snd_conseq; [apply (bmap_snd NN w _ (fun _ _ => True)); intro a|].
      - eapply snd_conseq; [apply (decompose_scalar_snd NN w CONFIG_WINDOW_SIZE a); rewrite (windows_4 NN HN); lia|auto].
      - intros l Hl. now rewrite (Forall2_length _ _ _ Hl). }
    intro l. eapply snd_bind; [apply (ident_rp NN W HN HW)|]. intro id.
    eapply snd_bind with (P := fun _ => True).
    { eapply snd_conseq; [apply (bmap_snd NN w _ (fun _ _ => True)); intro a; eapply snd_bind; [apply (build_curv_rp NN W HN HW)|]; intro; apply snd_ret; auto|auto]. }
    intro c. eapply snd_bind with (P := fun x => nth_error l 0 = Some x); [apply snd_at; auto|]. intro w0.
    eapply snd_conseq; [apply (loop_rp NN W HN HW)|]. intros r _ En _ _ E1 E2. destruct l; [discriminate En|]. destruct ss; [discriminate E1|]. destruct ps; [discriminate E2|].
    split; discriminate.
  Qed.

  (** *** transcripts *)
  Lemma hrel_update w h m l l' : hrel w h m -> Forall2 (fun (a : aval NN) y => w (av_cell a) = y) l l' -> hrel w (update NN chip h l) (update NN mchip m l').
  Proof. intros (H1 & H2 & H3) H. split; [exact H1|split; [|exact H3]]. cbn. apply Forall2_app; assumption. Qed.
  Lemma common_point_snd w p x : snd_ w (x_common_point p x) (fun x' => forall P m, rp w p P -> hrel w (t_hash x) m ->
    hrel w (t_hash x') (update NN mchip m [ofZ (iv w (pt_x p)); ofZ (iv w (pt_y p))])).
  Proof.
    unfold x_common_point, encode_point. eapply snd_bind with (P := fun e => forall P, rp w p P -> Forall2 (fun (a : aval NN) y => w (av_cell a) = y) e [ofZ (iv w (pt_x p)); ofZ (iv w (pt_y p))]).
    - eapply snd_bind; [apply (native_snd NN)|]. intro a. eapply snd_bind; [apply (native_snd NN)|]. intro b. apply snd_ret.
      intros Hb Ha P [(X & Y & z & (_ & [_ nx] & _) & (_ & [_ ny] & _) & _) _]. constructor; [apply (Ha nx)|]. constructor; [apply (Hb ny)|constructor].
    - intro e. apply snd_ret. intros He P m HP Hm. apply hrel_update; eauto.
  Qed.
  (** the native reader on transcript [t] *)
  Lemma on_tr_eq {A} (m : R St A) f hs t h b o a h' vals ins :
    nth_error hs t = Some h -> m (mkTr b (st o h)) = Some (a, mkTr (fst (f t)) (st (snd (f t)) h')) ->
    on_tr t m (mkC vals ins (mk_trs st (fset f t (b, o)) 0 hs) : cst) = Some (a, mkC vals ins (mk_trs st f 0 (set_nth hs t h'))).
  Proof.
    intros E Em. unfold on_tr. cbn [c_trs c_vals c_inst]. rewrite mk_nth, E. cbn [option_map Nat.add]. unfold fset at 1. rewrite Nat.eqb_refl.
    unfold fset at 1. rewrite Nat.eqb_refl. cbn [fst snd].
    rewrite Em. pose proof (mk_set st f hs 0 t h b o E h') as K. cbn [Nat.add] in K. rewrite K. reflexivity.
  Qed.
  Lemma read_decode_eq {A} size (decode : list Z -> option A) bs rest (st0 : St) v : List.length bs = size -> decode bs = Some v ->
    read_decode St size decode (mkTr (bs ++ rest) st0) = Some (v, mkTr rest st0).
  Proof.
    intros <- E. unfold read_decode. cbn [t_rest t_hash]. rewrite app_length. replace (Nat.leb _ _) with true by (symmetry; apply Nat.leb_le; lia).
    rewrite firstn_app, Nat.sub_diag, firstn_all, firstn_O, app_nil_r, E, skipn_app, Nat.sub_diag, skipn_all. reflexivity.
  Qed.

  Lemma div_value (x y z : NN) : y <> f0 -> fmul y z = x -> chip_div x y = Some z.
  Proof. intros Hy E. unfold chip_div. destruct (feq_dec y f0); [contradiction|]. f_equal. rewrite <- E. field. exact Hy. Qed.

  Ltac S1 := eapply snd_bind; [apply vals_s|]; let a := fresh "a" in intro a.
  Ltac P1 := eapply snd_bind; [apply vals_p|]; let a := fresh "p" in intro a.
  Ltac scalar := intros; apply post_push; let R := fresh "R" in intros vals hs R; eexists (VS _); split; [reflexivity|]; intros ins trs; cbn [Calls.run_call];
     repeat match goal with H : forall vals hs, rel _ _ vals hs -> forall ins trs, val_s _ _ = Some _ |- _ => rewrite (H vals hs R); clear H end; unfold push; cbn [c_vals c_inst c_trs]; try congruence.

  Lemma x_call_snd w c s : snd_ w (x_call c s) (post w c s).
  Proof.
    destruct c; cbn [CircuitRun.x_call].
    - eapply snd_bind; [apply assign_constant_snd|]. intro r. apply snd_ret. scalar.
    - S1. S1. eapply snd_bind; [apply add_snd|]. intro r. apply snd_ret. scalar.
    - S1. S1. eapply snd_bind; [apply sub_snd|]. intro r. apply snd_ret. scalar.
    - S1. S1. eapply snd_bind; [apply mul_snd|]. intro r. apply snd_ret. scalar.
    - S1. S1. eapply snd_bind; [apply div_unsafe_snd|]. intro r. apply snd_ret. intros Hr Hb Ha G. apply Forall_inv in G. cbn in G.
      refine (post_push w (CDiv i j) s (XS r) _ (Forall_nil _)). intros vals hs R. exists (VS (w (av_cell r))). split; [reflexivity|].
      intros ins trs. cbn [Calls.run_call]. rewrite (Ha _ _ R), (Hb _ _ R), (div_value _ _ _ G Hr). reflexivity.
    - S1. eapply snd_bind; [apply mul_snd|]. intro r. apply snd_ret. scalar.
    - eapply snd_bind; [apply vals_sum|]. intro l'. eapply snd_bind; [apply sum_with_constant_snd|]. intro r. apply snd_ret. intros Hr Hl. apply post_push. intros vals hs R.
      eexists (VS _). split; [reflexivity|]. intros ins trs. cbn [Calls.run_call]. rewrite (Hl vals hs R). rewrite lsum_sum, Hr. reflexivity.
    - eapply snd_bind; [apply (coords_const NN W HN HW); apply aff_on|]. intro r. apply snd_ret. intro Hr. apply post_push. intros vals hs R.
      exists (VP P). split; [exact Hr|]. reflexivity.
    - eapply snd_bind; [apply (coords_const NN W HN HW); apply (smul_on W), aff_on|]. intro r. apply snd_ret. intro Hr. apply post_push. intros vals hs R.
      exists (VP generator). split; [|reflexivity]. rewrite smul_1 in Hr. exact Hr.
    - P1. P1. eapply snd_bind; [apply (add_rp NN W HN HW)|]. intro r. apply snd_ret. intros Hr Hb Ha. apply post_push. intros vals hs R.
      destruct (Ha _ _ R) as (P & HP & EP). destruct (Hb _ _ R) as (Q & HQ & EQ). exists (VP (madd P Q)). split; [apply (Hr _ _ HP HQ)|].
      intros ins trs. cbn [Calls.run_call]. rewrite EP, EQ. reflexivity.
    - P1. P1. eapply snd_bind; [apply (ecc_sub_snd NN W HN HW)|]. intro r. apply snd_ret. intros Hr Hb Ha. apply post_push. intros vals hs R.
      destruct (Ha _ _ R) as (P & [HP CP] & EP). destruct (Hb _ _ R) as (Q & [HQ CQ] & EQ). exists (VP (msub P Q)).
      destruct (Hr _ _ HP HQ (fun _ => CP)) as (H1 & H2 & _). split; [split; [exact H1|now apply none_ok]|].
      intros ins trs. cbn [Calls.run_call]. rewrite EP, EQ. reflexivity.
    - S1. P1. eapply snd_bind; [apply (ecc_mul_snd NN W HN HW)|]. intro r. apply snd_ret. intros Hr Hb Ha. apply post_push. intros vals hs R.
      destruct (Hb _ _ R) as (P & HP & EP). destruct (Hr _ HP) as (k & _ & Ek & Hk). exists (VP (Algebra.smul (w (av_cell a)) P)).
      split; [|intros ins trs; cbn [Calls.run_call]; rewrite EP, (Ha _ _ R); reflexivity].
      rewrite (scal NN W HN HW w a k _ (aff_group P) Ek) in Hk. exact Hk.
    - S1. eapply snd_bind; [apply (constant_mul_snd NN W HN HW); apply aff_group|]. intro r. apply snd_ret. intros (k & _ & Ek & Hk) Ha. apply post_push. intros vals hs R.
      exists (VP (Algebra.smul (w (av_cell a)) P)). split; [|intros ins trs; cbn [Calls.run_call]; rewrite (Ha _ _ R); reflexivity].
      rewrite (scal NN W HN HW w a k _ (aff_group P) Ek) in Hk. exact Hk.
    - eapply snd_bind; [apply vals_ps|]. intro lp. eapply snd_bind; [apply vals_ss|]. intro ls.
      eapply snd_bind; [apply snd_and; [apply (shamir_snd NN W HN HW)|apply shamir_nonempty]|]. intro r. apply snd_ret. intros [Hr [N1 N2]] Hs Hp. apply post_push. intros vals hs R.
      destruct (Hp _ _ R) as (Ps & HPs & EP).
      assert (HPs' : Forall2 (rp w) lp (map aff Ps)) by (clear - HPs; induction HPs; constructor; auto).
      assert (HG : Forall in_group (map aff Ps)) by (apply Forall_map, Forall_forall; intros; apply aff_group).
      destruct (Hr _ HPs') as (ks & Hks & _ & Hk). destruct (msm_scal NN W HN HW w ls ks Hks _ HG) as [Em _]. rewrite Em in Hk.
      destruct (multi_exp_msm Ps (map (fun a : aval NN => w (av_cell a)) ls)) as (P & EM & AP).
      { intro Z0. subst Ps. inversion HPs; subst. now apply N1. }
      { intro Z0. apply map_eq_nil in Z0. now apply N2. }
      exists (VP P). split.
      + cbn [vrel]. rewrite AP, map_map. exact Hk.
      + intros ins trs. cbn [Calls.run_call]. rewrite EP, (Hs _ _ R), EM. reflexivity.
    - P1. eapply snd_bind; [apply (ecc_reduce_snd NN W HN HW)|]. intro r. apply snd_ret. intros Hr Ha. apply post_push. intros vals hs R.
      destruct (Ha _ _ R) as (P & [HP CP] & EP). exists (VP P). destruct (Hr _ HP) as (H1 & _ & _ & _ & _ & _ & H2).
      split; [split; [exact H1|now apply none_ok]|]. intros ins trs. cbn [Calls.run_call]. rewrite EP. reflexivity.
    - destruct (x_inst s) as [|v l]; [apply snd_panic|]. eapply snd_bind; [apply assign_snd|]. intro r. apply snd_ret. intros _ _ vals hs R.
      exists (vals ++ [VS (w (av_cell r))]), hs. split; [apply (rel_push w s vals hs (XS r) (VS (w (av_cell r))) R eq_refl)|].
      intros ins f. exists (w (av_cell r) :: ins), f. reflexivity.
    - eapply snd_bind; [apply trs_h|]. intro x.
      eapply snd_bind with (P := fun v => t_hash (snd v) = t_hash x).
      { unfold read_decode, lift_o. destruct (Nat.leb _ _); [|apply snd_panic]. destruct (pt_decode _); [|apply snd_panic]. apply snd_ret. reflexivity. }
      intro v. eapply snd_bind; [apply (assign_point_snd NN W HN HW)|]. intro p. eapply snd_bind; [apply common_point_snd|]. intro x'. apply snd_ret.
      intros Hx' (Hc & X & Y & HX & HY & Hz) Hv (Ex & Hx) G vals hs R. cbn [snd] in G. pose proof (Forall_inv G) as G1. apply Forall_inv_tail, Forall_inv in G. cbn in G, G1.
      destruct (Hx _ _ R) as (h & Eh & Hh).
      assert (HP : exists P : M, rp w p (aff P)).
      { assert (HP : exists P, rp w p P).
        { destruct G1 as [Z0|Z1].
          - exists (Aff X Y). split; [|now apply none_ok]. exists X, Y, false. repeat split; try assumption; try apply HX; try apply HY.
            + destruct Hz as [Hz|Hz]; [|exact Hz]. rewrite Z0 in Hz. now destruct (F_1_neq_0 (f_th NN)).
            + now rewrite Hc.
          - exists Inf. split; [|now apply none_ok]. exists X, Y, true. repeat split; try assumption; try apply HX; try apply HY. now rewrite Hc. }
        destruct HP as (P & HP). destruct (of_on P (rp_on NN W w p P HP)) as (m & Em). exists m. now rewrite Em. }
      destruct HP as (P & HP). specialize (G _ HP). destruct (pt_enc P) as (bs & Lb & Db).
      set (e := (ofZ (iv w (pt_x p)), ofZ (iv w (pt_y p))) : NN * NN) in *. set (h' := update NN mchip h [fst e; snd e]).
      exists (vals ++ [VP P]), (set_nth hs t h'). split.
      + apply rel_push; [|exact HP]. apply rel_set; [exact R|]. unfold h'. cbn. eapply Hx'; [exact HP|]. rewrite Hv. exact Hh.
      + intros ins f. exists ins, (fset f t (bs ++ fst (f t), e :: snd (f t))). cbn [Calls.run_call].
        rewrite (on_tr_eq _ f hs t h (bs ++ fst (f t)) (e :: snd (f t)) P h'); [reflexivity|exact Eh|].
        unfold read_point, rbind. rewrite (read_decode_eq _ _ _ _ _ _ Lb Db). unfold common_point, rret. cbn [t_hash t_rest]. rewrite (st_pt _ _ _ _ G). reflexivity.
    - eapply snd_bind; [apply trs_h|]. intro x.
      eapply snd_bind with (P := fun v => t_hash (snd v) = t_hash x).
      { unfold read_decode, lift_o. destruct (Nat.leb _ _); [|apply snd_panic]. destruct (sc_decode _); [|apply snd_panic]. apply snd_ret. reflexivity. }
      intro v. eapply snd_bind; [apply assign_snd|]. intro a. apply snd_ret. intros _ Hv (Ex & Hx) _ vals hs R.
      destruct (Hx _ _ R) as (h & Eh & Hh). destruct (sc_enc (w (av_cell a))) as (bs & Lb & Db). set (h' := update NN mchip h [w (av_cell a)]).
      exists (vals ++ [VS (w (av_cell a))]), (set_nth hs t h'). split.
      + apply rel_push; [|reflexivity]. apply rel_set; [exact R|]. apply hrel_update; [rewrite Hv; exact Hh|]. constructor; [reflexivity|constructor].
      + intros ins f. exists ins, (fset f t (bs ++ fst (f t), snd (f t))). cbn [Calls.run_call].
        rewrite (on_tr_eq _ f hs t h (bs ++ fst (f t)) (snd (f t)) (w (av_cell a)) h'); [reflexivity|exact Eh|].
        unfold read_scalar, rbind. rewrite (read_decode_eq _ _ _ _ _ _ Lb Db). unfold common_scalar, rret. cbn [t_hash t_rest]. rewrite st_sc. reflexivity.
    - P1. eapply snd_bind; [apply trs_h|]. intro x. eapply snd_bind; [apply common_point_snd|]. intro x'. apply snd_ret.
      intros Hx' (Ex & Hx) Hp G vals hs R. cbn [snd] in G. apply Forall_inv in G. cbn in G. destruct (Hx _ _ R) as (h & Eh & Hh). destruct (Hp _ _ R) as (P & HP & EP).
      specialize (G _ HP). set (e := (ofZ (iv w (pt_x p)), ofZ (iv w (pt_y p))) : NN * NN) in *. set (h' := update NN mchip h [fst e; snd e]).
      exists vals, (set_nth hs t h'). split.
      + apply rel_set; [exact R|]. eapply Hx'; [exact HP|exact Hh].
      + intros ins f. exists ins, (fset f t (fst (f t), e :: snd (f t))). cbn [Calls.run_call]. rewrite EP.
        rewrite (on_tr_eq _ f hs t h (fst (f t)) (e :: snd (f t)) tt h'); [reflexivity|exact Eh|].
        unfold common_point. cbn [t_hash t_rest]. rewrite (st_pt _ _ _ _ G). reflexivity.
    - S1. eapply snd_bind; [apply trs_h|]. intro x. apply snd_ret. intros (Ex & Hx) Ha _ vals hs R. destruct (Hx _ _ R) as (h & Eh & Hh).
      set (h' := update NN mchip h [w (av_cell a)]). exists vals, (set_nth hs t h'). split.
      + apply rel_set; [exact R|]. apply hrel_update; [exact Hh|]. constructor; [reflexivity|constructor].
      + intros ins f. exists ins, (fset f t (fst (f t), snd (f t))). cbn [Calls.run_call]. rewrite (Ha _ _ R).
        rewrite (on_tr_eq _ f hs t h (fst (f t)) (snd (f t)) tt h'); [reflexivity|exact Eh|]. unfold common_scalar. cbn [t_hash t_rest]. rewrite st_sc. reflexivity.
    - eapply snd_bind; [apply trs_h|]. intro x. 
      eapply snd_bind with (P := fun r : aval NN * pstate NN chip => forall xs ys, Forall2 (fun (a : aval NN) y => w (av_cell a) = y) (ps_s (t_hash x)) xs -> Forall2 (fun (a : aval NN) y => w (av_cell a) = y) (ps_absorbing (t_hash x)) ys ->
         List.length xs = S RATE -> w (av_cell (fst r)) = challenge (sponge sp RATE xs ys) /\
         Forall2 (fun (a : aval NN) y => w (av_cell a) = y) (ps_s (snd r)) (sponge sp RATE xs ys) /\ ps_absorbing (snd r) = [] /\ List.length (sponge sp RATE xs ys) = S RATE).
      { intros c r c' E Hs. split; [apply (squeeze_sat NN sp RATE w _ c r c' E Hs)|]. intros xs ys H1 H2 H3. apply (circuit_squeeze NN sp RATE wf w _ xs ys H1 H2 H3 c r c' E Hs). }
      intro r. apply snd_ret. intros Hr (Ex & Hx) _ vals hs R. destruct (Hx _ _ R) as (h & Eh & (Hs & Ha & Hl)).
      destruct (Hr _ _ Hs Ha Hl) as (R1 & R2 & R3 & R4). destruct (mock_squeeze NN sp RATE wf h Hl) as [Eq _].
      set (h' := mkP (A := mock_chip NN) (sponge sp RATE (ps_s h) (ps_absorbing h)) []) in *.
      exists (vals ++ [VS (challenge (sponge sp RATE (ps_s h) (ps_absorbing h)))]), (set_nth hs t h'). split.
      + apply rel_push; [|exact R1]. apply rel_set; [exact R|]. cbn [t_hash]. split; [exact R2|split; [|exact R4]]. pose proof R3 as R3'. cbn in R3' |- *. rewrite R3'. constructor.
      + intros ins f. exists ins, (fset f t (fst (f t), snd (f t))). cbn [Calls.run_call].
        rewrite (on_tr_eq _ f hs t h (fst (f t)) (snd (f t)) (challenge (sponge sp RATE (ps_s h) (ps_absorbing h))) h'); [reflexivity|exact Eh|].
        unfold squeeze_scalar. cbn [t_hash t_rest]. rewrite (st_sqz _ _ _ _ Eq). reflexivity.
  Qed.

  (** *** lists of calls *)
  Definition posts w (cs : list (call NN M)) (s : xst) (r : xst * list (note NN)) : Prop :=
    Forall (note_ok w) (snd r) -> forall vals hs, rel w s vals hs ->
    exists vals' hs', rel w (fst r) vals' hs' /\
      forall ins (f : @fut NN), exists ins0 f0, run cs (mkC vals ins0 (mk_trs st f0 0 hs)) = Some (mkC vals' ins (mk_trs st f 0 hs')).
  Lemma x_calls_snd w cs : forall s, snd_ w (x_calls cs s) (posts w cs s).
  Proof.
    induction cs as [|c cs IH]; intro s; cbn [CircuitRun.x_calls].
    - apply snd_ret. intros _ vals hs R. exists vals, hs. split; [exact R|]. intros ins f. exists ins, f. reflexivity.
    - eapply snd_bind; [apply x_call_snd|]. intro r. eapply snd_bind; [apply IH|]. intro r'. apply snd_ret. intros H2 H1 G vals hs R. cbn [fst snd] in *.
      apply Forall_app in G. destruct G as [G1 G2]. destruct (H1 G1 _ _ R) as (v1 & h1 & R1 & E1). destruct (H2 G2 _ _ R1) as (v2 & h2 & R2 & E2).
      exists v2, h2. split; [exact R2|]. intros ins f. destruct (E2 ins f) as (i1 & f1 & E2'). destruct (E1 i1 f1) as (i0 & f0 & E1').
      exists i0, f0. cbn [run_calls]. rewrite E1'. exact E2'.
  Qed.
End Sound.
