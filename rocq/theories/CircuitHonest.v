(** The honest prover's run of a list of calls: if the native verifier carries out the list
    and the slopes that the circuit needs can be computed, the circuit is laid out, its
    constraints hold for the prover's values, and these are the native ones. *)
From Coq Require Import String ZArith NArith Arith Lia List Bool Field.
From Verif Require Import Util Algebra PField ListFacts Gate GateProofs GateOps Integer Bn254 IntegerSound IntegerComplete IntegerHistorySound IntegerHistory IntegerHistoryComplete IntegerValue
  Curve CurveAssoc Bn254Curve Ecc EccSound EccScalar EccMul EccComplete EccHistory EccMulComplete EccHonest CurveOrder CurveMod
  Schema Plonk Poseidon PoseidonSpec PoseidonProofs PoseidonInst CircuitSponge BuildParams Calls VerifierCalls VerifierCallsTop VerifyCircuit CircuitRun CircuitRunSpec CircuitRunProofs CallOrder.
Import ListNotations.

Section Honest.
  Variables NN W : PF.
  Hypothesis HN : pf_n NN = fr_mod.
  Hypothesis HW : pf_n W = fq_mod.
  Notation M := (G1 NN W HN HW).
  Notation aff := (g1_affine NN W HN HW).
  Variables (PT SC : nat).
  Variable pt_decode : list Z -> option M.
  Variable sc_decode : list Z -> option NN.
  Variable sp : pspec NN.
  Variable RATE : nat.
  Hypothesis wf : wf_spec sp RATE.
  Variable init : list NN.
  Hypothesis L0 : List.length init = S RATE.
  Variable generator : M.
  Notation mchip := (mock_chip NN).
  Notation chip := (circuit_chip NN).
  Notation sponge_st := (pstate NN (mock_chip NN)).
  Notation npt := (native_pt NN W M aff).
  Notation nsc := (native_sc NN).
  Notation nsqz := (native_sqz NN sp RATE).
  Notation run_call := (run_call NN M PT SC pt_decode sc_decode sponge_st npt nsc nsqz generator).
  Notation run := (run_calls NN M PT SC pt_decode sc_decode sponge_st npt nsc nsqz generator).
  Notation x_call := (x_call NN W M aff PT SC pt_decode sc_decode sp RATE generator).
  Notation x_calls := (x_calls NN W M aff PT SC pt_decode sc_decode sp RATE generator).
  Notation cst := (cst NN M sponge_st).
  Notation xst := (xst NN).
  Notation has_pt := (has_pt NN W).
  Notation has_int := (has_int NN W).
  Notation hp := (EccHonest.hp NN W).
  Notation px := (px NN W).
  Notation py := (py NN W).
  Notation pz := (pz W).
  Notation onc := (on_curve (curve_b W)).
  Implicit Types (c : ctx NN).
  Add Field NF : (f_th NN).

  Lemma a_on (P : M) : onc (aff P).
  Proof. exact (cpt_on W (ofZ 3) P). Qed.

  (** *** luck: the slopes exist, no sum cancels *)
  Definition scN (x : NN) : N := Z.to_N (toZ x).
  Definition lucky_call (k : call NN M) (s : cst) : Prop :=
    match k with
    | CPAdd i j => forall P Q, val_p s i = Some P -> val_p s j = Some Q -> fine W (aff P) /\ nocancel W (aff P) (aff Q)
    | CPSub i j => forall P, val_p s i = Some P -> fine W (aff P)
    | CPMul i j => forall x P, val_s s i = Some x -> val_p s j = Some P -> lucky W (scN x) (aff P)
    | CMultiExp ps ss => forall Ps xs, mapM (val_p s) ps = Some Ps -> mapM (val_s s) ss = Some xs -> slucky W (combine (map scN xs) (map aff Ps))
    | _ => True
    end.
  Fixpoint lucky_calls (cs : list (call NN M)) (s : cst) : Prop :=
    match cs with [] => True | k :: cs => lucky_call k s /\ forall s', run_call k s = Some s' -> lucky_calls cs s' end.

  (** *** what corresponds to what *)
  Definition hs c (a : aval NN) (x : NN) : Prop := valid c a /\ av_val a = x.
  Definition shown c (a : apoint NN) (P : point W) : Prop := onc P /\ exists x y z i j, has_pt c a x y z i j /\ P = if z : bool then Inf else Aff x y.
  Definition hx c (a : apoint NN) (P : point W) : Prop := hp c a P /\ has_pt c a (px P) (py P) (pz P) 0 0.
  Definition vr c (k : kind) (x : xval NN) (v : cval NN M) : Prop :=
    match x, v, k with
    | XS a, VS s, KScalar => hs c a s
    | XP p, VP P, KExact => hx c p (aff P)
    | XP p, VP P, KEven => hp c p (aff P)
    | XP p, VP P, KAny => shown c p (aff P)
    | _, _, _ => False
    end.
  Definition vals_rel c (ks : list kind) (xs : list (xval NN)) (vs : list (cval NN M)) : Prop :=
    List.length xs = List.length vs /\ List.length ks = List.length vs /\
    forall i v, nth_error vs i = Some v -> exists k x, nth_error ks i = Some k /\ nth_error xs i = Some x /\ vr c k x v.
  Definition hr c (h : pstate NN chip) (m : sponge_st) : Prop :=
    Forall2 (hs c) (ps_s h) (ps_s m) /\ Forall2 (hs c) (ps_absorbing h) (ps_absorbing m) /\ List.length (ps_s m) = S RATE.
  Definition trr c (x : tr (pstate NN chip)) (m : tr sponge_st) : Prop := t_rest x = t_rest m /\ hr c (t_hash x) (t_hash m).
  Definition rel c ks (s : xst) (ns : cst) : Prop :=
    vals_rel c ks (x_vals s) (c_vals ns) /\ x_inst s = c_inst ns /\ Forall2 (trr c) (x_trs s) (c_trs ns).
  (** the noted places *)
  Definition note_fine c (n : note NN) : Prop :=
    match n with
    | NRead p => exists z, has_bit NN c (pt_z p) z
    | NAbsorb p => exists P, hx c p P
    | NDiv b => exists x, hs c b x /\ x <> f0
    end.

  (** *** monotonicity *)
  Lemma hs_le c c' a x : ctx_le c c' -> hs c a x -> hs c' a x.
  Proof. intros L [V E]. split; [exact (valid_le NN c c' a L V)|exact E]. Qed.
  Lemma hx_le c c' a P : ctx_le c c' -> hx c a P -> hx c' a P.
  Proof. intros L [H1 H2]. split; [exact (hp_le NN W c c' a P L H1)|exact (has_pt_le NN W c c' a _ _ _ _ _ L H2)]. Qed.
  Lemma shown_le c c' a P : ctx_le c c' -> shown c a P -> shown c' a P.
  Proof. intros L (O & x & y & z & i & j & H & E). split; [exact O|]. exists x, y, z, i, j. split; [exact (has_pt_le NN W c c' a _ _ _ _ _ L H)|exact E]. Qed.
  Lemma vr_le c c' k x v : ctx_le c c' -> vr c k x v -> vr c' k x v.
  Proof. intros L. destruct x, v, k; cbn; try tauto; [apply hs_le|apply hx_le|apply hp_le|apply shown_le]; exact L. Qed.
  Lemma vals_le c c' ks xs vs : ctx_le c c' -> vals_rel c ks xs vs -> vals_rel c' ks xs vs.
  Proof. intros L (H1 & H2 & H3). split; [exact H1|split; [exact H2|]]. intros i v E. destruct (H3 i v E) as (k & x & A & B & R). exists k, x. split; [exact A|split; [exact B|exact (vr_le c c' k x v L R)]]. Qed.
  Lemma hss_le c c' l l' : ctx_le c c' -> Forall2 (hs c) l l' -> Forall2 (hs c') l l'.
  Proof. intros L H. eapply Forall2_weaken; [|exact H]. intros a x. exact (hs_le c c' a x L). Qed.
  Lemma hr_le c c' h m : ctx_le c c' -> hr c h m -> hr c' h m.
  Proof. intros L (H1 & H2 & H3). split; [exact (hss_le c c' _ _ L H1)|split; [exact (hss_le c c' _ _ L H2)|exact H3]]. Qed.
  Lemma trs_le c c' l l' : ctx_le c c' -> Forall2 (trr c) l l' -> Forall2 (trr c') l l'.
  Proof. intros L H. eapply Forall2_weaken; [|exact H]. intros x m [E R]. split; [exact E|exact (hr_le c c' _ _ L R)]. Qed.
  Lemma rel_le c c' ks s ns : ctx_le c c' -> rel c ks s ns -> rel c' ks s ns.
  Proof. intros L (H1 & H2 & H3). split; [exact (vals_le c c' _ _ _ L H1)|split; [exact H2|exact (trs_le c c' _ _ L H3)]]. Qed.
  Lemma note_le c c' n : ctx_le c c' -> note_fine c n -> note_fine c' n.
  Proof.
    intros L. destruct n as [p|p|b]; cbn.
    - intros (z & H). exists z. exact (has_bit_le NN c c' _ _ L H).
    - intros (P & H). exists P. exact (hx_le c c' p P L H).
    - intros (x & H & E). exists x. split; [exact (hs_le c c' b x L H)|exact E].
  Qed.
  Lemma notes_le c c' l : ctx_le c c' -> Forall (note_fine c) l -> Forall (note_fine c') l.
  Proof. intros L H. eapply Forall_impl; [|exact H]. intros n. exact (note_le c c' n L). Qed.
  Lemma hx_shown c a P : hx c a P -> shown c a P.
  Proof. intros [H1 H2]. split; [exact (hp_on NN W c a P H1)|]. exists (px P), (py P), (pz P), 0%nat, 0%nat. split; [exact H2|]. now destruct P. Qed.
  Lemma hp_shown c a P : hp c a P -> shown c a P.
  Proof. intro H. pose proof H as (O & (i & j & Hp & _) & _). split; [exact O|]. exists (px P), (py P), (pz P), i, j. split; [exact Hp|]. now destruct P. Qed.

  (** *** looking up *)
  Lemma get_s c ks s ns i x : rel c ks s ns -> val_s ns i = Some x -> exists a, nth_error (x_vals s) i = Some (XS a) /\ hs c a x.
  Proof.
    intros ((_ & _ & H) & _) E. unfold val_s in E. destruct (nth_error (c_vals ns) i) as [[y|P]|] eqn:En; try discriminate. injection E as <-.
    destruct (H i _ En) as (k & [a|p] & Ek & Ex & R); [|now destruct k]. exists a. split; [exact Ex|]. now destruct k.
  Qed.
  Lemma cpl_s c ks s ns i x : rel c ks s ns -> val_s ns i = Some x -> cpl c (x_s s i) (fun a c' => c' = c /\ hs c a x).
  Proof. intros R E. destruct (get_s c ks s ns i x R E) as (a & Ea & H). unfold x_s. rewrite Ea. now apply cpl_ret. Qed.
  Lemma get_p c ks s ns i P : rel c ks s ns -> val_p ns i = Some P -> exists p k, nth_error (x_vals s) i = Some (XP p) /\ nth_error ks i = Some k /\
    match k with KScalar => False | KExact => hx c p (aff P) | KEven => hp c p (aff P) | KAny => shown c p (aff P) end.
  Proof.
    intros ((_ & _ & H) & _) E. unfold val_p in E. destruct (nth_error (c_vals ns) i) as [[y|Q]|] eqn:En; try discriminate. injection E as <-.
    destruct (H i _ En) as (k & [a|p] & Ek & Ex & R); [now destruct k|]. exists p, k. split; [exact Ex|]. split; [exact Ek|]. now destruct k.
  Qed.
  Lemma cpl_p c ks s ns i P : rel c ks s ns -> val_p ns i = Some P -> cpl c (x_p s i) (fun p c' => c' = c /\ shown c p (aff P)).
  Proof.
    intros R E. destruct (get_p c ks s ns i P R E) as (p & k & Ea & _ & H). unfold x_p. rewrite Ea. apply cpl_ret. split; [reflexivity|].
    destruct k; [destruct H|apply hx_shown, H|apply hp_shown, H|exact H].
  Qed.
  Lemma cpl_pe c ks s ns i P : rel c ks s ns -> val_p ns i = Some P -> evenb ks i = true -> cpl c (x_p s i) (fun p c' => c' = c /\ hp c p (aff P)).
  Proof.
    intros R E Ev. destruct (get_p c ks s ns i P R E) as (p & k & Ea & Ek & H). unfold evenb in Ev. rewrite Ek in Ev. unfold x_p. rewrite Ea. apply cpl_ret. split; [reflexivity|].
    destruct k; try discriminate; [apply H|exact H].
  Qed.
  Lemma cpl_px c ks s ns i P : rel c ks s ns -> val_p ns i = Some P -> exactb ks i = true -> cpl c (x_p s i) (fun p c' => c' = c /\ hx c p (aff P)).
  Proof.
    intros R E Ev. destruct (get_p c ks s ns i P R E) as (p & k & Ea & Ek & H). unfold exactb in Ev. rewrite Ek in Ev. unfold x_p. rewrite Ea. apply cpl_ret. split; [reflexivity|].
    destruct k; try discriminate. exact H.
  Qed.
  Lemma cpl_ss c ks s ns l xs : rel c ks s ns -> mapM (val_s ns) l = Some xs -> cpl c (bmap (x_s s) l) (fun r c' => c' = c /\ Forall2 (hs c) r xs).
  Proof.
    intro R. revert xs. induction l as [|i l IH]; intros xs E; cbn [mapM] in E; [injection E as <-; apply cpl_ret; split; [reflexivity|constructor]|].
    destruct (val_s ns i) as [x|] eqn:Ei; [|discriminate]. destruct (mapM (val_s ns) l) as [xs'|]; [|discriminate]. injection E as <-. cbn [bmap].
    eapply cpl_bind; [exact (cpl_s c ks s ns i x R Ei)|]. intros a c' _ _ _ [-> Ha]. eapply cpl_bind; [exact (IH xs' eq_refl)|]. intros r c' _ _ _ [-> Hr].
    apply cpl_ret. split; [reflexivity|]. constructor; assumption.
  Qed.
  Lemma cpl_ps c ks s ns l Ps : rel c ks s ns -> mapM (val_p ns) l = Some Ps -> forallb (evenb ks) l = true ->
    cpl c (bmap (x_p s) l) (fun r c' => c' = c /\ Forall2 (hp c) r (map aff Ps)).
  Proof.
    intro R. revert Ps. induction l as [|i l IH]; intros xs E Ev; cbn [mapM] in E; [injection E as <-; apply cpl_ret; split; [reflexivity|constructor]|].
    cbn [forallb] in Ev. apply andb_true_iff in Ev. destruct Ev as [Ev1 Ev2].
    destruct (val_p ns i) as [x|] eqn:Ei; [|discriminate]. destruct (mapM (val_p ns) l) as [xs'|]; [|discriminate]. injection E as <-. cbn [bmap].
    eapply cpl_bind; [exact (cpl_pe c ks s ns i x R Ei Ev1)|]. intros a c' _ _ _ [-> Ha]. eapply cpl_bind; [exact (IH xs' eq_refl Ev2)|]. intros r c' _ _ _ [-> Hr].
    apply cpl_ret. split; [reflexivity|]. constructor; assumption.
  Qed.
  Lemma cpl_sum c ks s ns l xs : rel c ks s ns -> mapM (fun ic => do x <- val_s ns (fst ic); Some (x, snd ic)) l = Some xs ->
    cpl c (bmap (fun ic => a <- x_s s (fst ic) ;; ret (a, snd ic)) l) (fun r c' => c' = c /\ Forall (fun vc => valid c (fst vc)) r /\ map (fun vc : aval NN * NN => (av_val (fst vc), snd vc)) r = xs).
  Proof.
    intro R. revert xs. induction l as [|[i k] l IH]; intros xs E; cbn [mapM fst snd] in E; [injection E as <-; apply cpl_ret; split; [reflexivity|split; [constructor|reflexivity]]|].
    destruct (val_s ns i) as [x|] eqn:Ei; [|discriminate]. destruct (mapM _ l) as [xs'|]; [|discriminate]. injection E as <-. cbn [bmap fst snd].
    eapply cpl_bind with (P := fun r c' => c' = c /\ hs c (fst r) x /\ snd r = k).
    { eapply cpl_bind; [exact (cpl_s c ks s ns i x R Ei)|]. intros a c' _ _ _ [-> Ha]. apply cpl_ret. auto. }
    intros [a k'] c' _ _ _ (-> & [Va Ea] & Ek). cbn [fst snd] in *. subst k'. eapply cpl_bind; [exact (IH xs' eq_refl)|]. intros r c' _ _ _ (-> & Hr & <-).
    apply cpl_ret. split; [reflexivity|]. split; [constructor; assumption|]. cbn [map fst snd]. now rewrite Ea.
  Qed.
  Lemma cpl_tr c ks s ns t x : rel c ks s ns -> nth_error (c_trs ns) t = Some x -> cpl c (at_ (x_trs s) t) (fun y c' => c' = c /\ trr c y x).
  Proof.
    intros (_ & _ & H) E. destruct (Forall2_nth_r _ _ _ _ _ H E) as (y & Ey & Ry). apply cpl_at with (a := y); [exact Ey|]. split; [reflexivity|exact Ry].
  Qed.

  (** *** pushing and setting *)
  Lemma rel_push c ks s ns k x v : rel c ks s ns -> vr c k x v -> rel c (ks ++ [k]) (x_push x s) (mkC (c_vals ns ++ [v]) (c_inst ns) (c_trs ns)).
  Proof.
    intros ((H1 & H2 & H3) & H4 & H5) R. split; [|split; [exact H4|exact H5]]. unfold vals_rel, x_push. cbn [x_vals c_vals]. rewrite !app_length, H1, H2. split; [reflexivity|split; [reflexivity|]].
    intros i w E. destruct (Nat.lt_ge_cases i (List.length (c_vals ns))) as [L|L].
    - rewrite nth_error_app1 in E by exact L. destruct (H3 i w E) as (k' & x' & A & B & R'). exists k', x'. rewrite !nth_error_app1 by lia. auto.
    - rewrite nth_error_app2 in E by exact L. destruct (i - List.length (c_vals ns)) as [|m] eqn:Em; [|now destruct m].
      injection E as <-. exists k, x. rewrite !nth_error_app2 by lia. rewrite H1, H2, Em. auto.
  Qed.
  Lemma rel_set c ks s ns t x m : rel c ks s ns -> trr c x m -> rel c ks (x_set t x s) (mkC (c_vals ns) (c_inst ns) (set_nth (c_trs ns) t m)).
  Proof. intros (H1 & H2 & H3) H. split; [exact H1|split; [exact H2|]]. cbn [x_set x_trs c_trs]. now apply (Forall2_set (trr c)). Qed.

  (** *** points *)
  Lemma const_hx c (P : point W) : onc P -> cpl c (assign_constant_point P) (fun r c' => hx c' r P).
  Proof.
    intro O. eapply cpl_conseq; [exact (assign_constant_point_cpl NN W HN HW c P)|]. intros r c' _ _ _ [H E]. split; [|exact H].
    split; [exact O|]. split; [exists 0%nat, 0%nat; auto|]. now rewrite E.
  Qed.
  Lemma assign_hx c (P : point W) : onc P -> cpl c (assign_point P) (fun r c' => hx c' r P).
  Proof.
    intro O. eapply cpl_conseq; [exact (assign_point_cpl NN W HN HW c P O)|]. intros r c' _ _ _ [H E]. split; [|exact H].
    split; [exact O|]. split; [exists 0%nat, 0%nat; auto|]. now rewrite E.
  Qed.
  Lemma reduce_hx c a (P : point W) : shown c a P -> cpl c (ecc_reduce W a) (fun r c' => hx c' (fst r) P).
  Proof.
    intros (O & x & y & z & i & j & H & EP). eapply cpl_conseq; [exact (ecc_reduce_cpl NN W HN HW c a x y z i j H)|]. intros r c' _ _ _ [[E H'] _].
    assert (K : has_pt c' (fst r) (px P) (py P) (pz P) 0 0) by (destruct z; subst P; exact H').
    split; [|exact K]. split; [exact O|]. split; [exists 0%nat, 0%nat; auto|]. now rewrite E.
  Qed.
  Lemma sub_shown c a b (P Q : point W) : hp c a P -> hp c b Q -> fine W P -> cpl c (ecc_sub W a b) (fun r c' => shown c' (fst r) (padd P (pneg Q))).
  Proof.
    intros Ha Hb Hf. pose proof Ha as (O & (i & j & Hp & Ei & Ej) & K). pose proof Hb as (Ob & (ib & jb & Hpb & Eib & Ejb) & Kb).
    pose proof (even_30 _ Ej (has_lt NN W _ _ _ _ (proj1 (proj2 Hp)))) as Lj. pose proof (even_30 _ Ejb (has_lt NN W _ _ _ _ (proj1 (proj2 Hpb)))) as Ljb.
    assert (Ljb' : (j + IntegerComplete3.lin (jb + 1) < 62)%nat) by (unfold IntegerComplete3.lin; destruct (32 <=? jb + 1)%nat; lia).
    eapply cpl_conseq; [refine (EccHonest.cpl_snd NN c _ _ _ (ecc_sub_cpl NN W HN HW c a b _ _ _ _ _ _ _ _ _ _ Hp Hpb Ei Eib Ljb' (ready_slope NN W a P j (or_intror Hf))) (fun w => ecc_sub_snd NN W HN HW w a b))|].
    intros r c' _ L _ (((Er & x & y & z & i' & j' & H1 & _) & _) & Hs).
    destruct (hp_rp NN W c' a P (hp_le NN W c c' a P L Ha)) as [RP CP]. destruct (hp_rp NN W c' b Q (hp_le NN W c c' b Q L Hb)) as [RQ _].
    destruct (Hs P Q RP RQ (fun _ => CP)) as ((x' & y' & z' & Vx & Vy & Vz & E & O' & _) & _).
    split; [exact O'|]. exists x, y, z, i', j'. split; [exact H1|]. rewrite E.
    destruct H1 as (Hx & Hy & Hz & _).
    rewrite (int_inj NN W _ _ _ _ (has_holds NN W _ _ _ _ Hx) Vx), (int_inj NN W _ _ _ _ (has_holds NN W _ _ _ _ Hy) Vy), (bit_inj NN _ _ _ _ (has_bit_holds NN _ _ _ Hz) Vz). reflexivity.
  Qed.

  (** *** scalars *)
  Lemma vsum_value l k : sum_with_coeff_and_constant (map (fun vc : aval NN * NN => (av_val (fst vc), snd vc)) l) k = fadd k (vsum NN l).
  Proof.
    unfold sum_with_coeff_and_constant. revert k. induction l as [|[a c] l IH]; intro k; cbn [map fold_left fst snd]; [cbn; ring|].
    rewrite IH. cbn [vsum]. ring.
  Qed.
  Lemma div_hs c a b x y z : hs c a x -> hs c b y -> chip_div x y = Some z -> cpl c (div_unsafe a b) (fun r c' => hs c' r z) /\ y <> f0.
  Proof.
    intros [Va <-] [Vb <-] E. unfold chip_div in E. destruct (feq_dec (av_val b) f0) as [|Hy]; [discriminate|]. injection E as <-. split; [|exact Hy].
    eapply cpl_conseq; [exact (div_unsafe_cpl NN c a b Va Vb Hy)|]. intros r c' _ _ _ [Vr Er]. split; [exact Vr|]. rewrite Er. field. exact Hy.
  Qed.

  (** *** transcripts *)
  Lemma hr_update c h m l l' : hr c h m -> Forall2 (hs c) l l' -> hr c (update NN chip h l) (update NN mchip m l').
  Proof. intros (H1 & H2 & H3) H. split; [exact H1|split; [|exact H3]]. cbn. apply Forall2_app; assumption. Qed.
  Lemma encode_hx c p (P : point W) : hx c p P -> cpl c (encode_point p) (fun e c' => Forall2 (hs c') e [fst (coordinates P); snd (coordinates P)]).
  Proof.
    intros [_ (Hx & Hy & _)]. destruct (has_toZ NN W HN HW _ _ _ _ Hx) as [_ Ex]. destruct (has_toZ NN W HN HW _ _ _ _ Hy) as [_ Ey]. specialize (Ex eq_refl). specialize (Ey eq_refl).
    pose proof Hx as ((Ox & _) & _). pose proof Hy as ((Oy & _) & _). unfold encode_point.
    eapply cpl_bind; [exact (native_cpl NN c _ Ox)|]. intros a c1 _ L1 _ (Va & Ea & _).
    eapply cpl_bind; [exact (native_cpl NN c1 _ (ok_le NN c c1 _ L1 Oy))|]. intros b c2 _ L2 _ (Vb & Eb & _). apply cpl_ret.
    assert (E : fst (coordinates P) = (ofZ (toZ (px P)) : NN) /\ snd (coordinates P) = (ofZ (toZ (py P)) : NN)).
    { destruct P as [|x y]; [|split; reflexivity]. cbn [coordinates fst snd]. unfold EccComplete.px, EccComplete.py. cbn. rewrite !toZ_0, ofZ_0. split; reflexivity. }
    destruct E as [E1 E2]. constructor; [|constructor; [|constructor]].
    - split; [exact (valid_le NN c1 c2 _ L2 Va)|]. now rewrite Ea, Ex, E1.
    - split; [exact Vb|]. now rewrite Eb, Ey, E2.
  Qed.
  Lemma common_hx c p P x m : hx c p (aff P) -> trr c x m ->
    cpl c (x_common_point p x) (fun x' c' => trr c' x' (mkTr (t_rest m) (npt (t_hash m) P))).
  Proof.
    intros Hp [Er Hm]. unfold x_common_point. eapply cpl_bind; [exact (encode_hx c p (aff P) Hp)|]. intros e c' _ L _ He. apply cpl_ret.
    split; [exact Er|]. cbn [t_hash]. apply hr_update; [exact (hr_le c c' _ _ L Hm)|exact He].
  Qed.
  Lemma squeeze_hr c h m v m' : hr c h m -> nsqz m = Some (v, m') -> cpl c (squeeze NN chip sp (S RATE) RATE h) (fun r c' => hs c' (fst r) v /\ hr c' (snd r) m').
  Proof.
    intros (H1 & H2 & H3) E. destruct (mock_squeeze NN sp RATE wf m H3) as [E' Hl]. unfold native_sqz in E. rewrite E' in E. injection E as <- <-.
    eapply cpl_conseq.
    { refine (squeeze_wp NN chip (ctx NN) ctx_le hs (fun X (m : B NN X) => True)
        (fun c X (m : B NN X) P => cpl c m P) _ _ _ _ _ _ _ _ _ _ _ _ _ sp RATE wf c h (ps_s m) (ps_absorbing m) H1 H2 H3); auto.
      - intros c0 c1 a f Hle Ha. exact (hs_le c0 c1 a f Hle Ha).
      - intros. now apply cpl_ret.
      - intros c0 X Y m0 k P Q Hm _ Hk. eapply cpl_bind; [exact Hm|]. intros a c' _ Hle _ HP. now apply Hk.
      - intros c0 X m0 P Q Hm H. eapply cpl_conseq; [exact Hm|]. intros a c' _ Hle _ HP. now apply H.
      - intros c0 a b x y [Va <-] [Vb <-]. now apply mul_cpl.
      - intros c0 a b k x y [Va <-] [Vb <-]. now apply mul_add_constant_cpl.
      - intros c0 l k xs E.
        assert (Hl' : Forall (fun vc => valid c0 (fst vc)) l /\ map (@av_val NN) (map fst l) = xs).
        { clear - E. revert xs E. induction l as [|[a b] l IH]; intros xs E; inversion E as [|? ? ? ? [V <-] E']; subst; [split; [constructor|reflexivity]|].
          destruct (IH _ E') as [K1 <-]. split; [constructor; assumption|reflexivity]. }
        destruct Hl' as [Hl' <-]. rewrite map_map. eapply cpl_conseq; [apply sum_with_constant_cpl; exact Hl'|]. intros a c' _ _ _ [V Ev]. split; [exact V|]. rewrite Ev. now rewrite vsum_dot. }
    intros r c' _ _ _ (R1 & R2 & R3 & _). split; [exact R1|]. split; [exact R2|]. split; [|exact Hl]. cbn [ps_absorbing]. pose proof R3 as R3'. cbn in R3' |- *. rewrite R3'. constructor.
  Qed.
  Lemma read_same {A St1 St2} size (decode : list Z -> option A) (x : tr St1) (m : tr St2) v m' : t_rest x = t_rest m -> read_decode St2 size decode m = Some (v, m') ->
    read_decode St1 size decode x = Some (v, mkTr (t_rest m') (t_hash x)) /\ t_hash m' = t_hash m.
  Proof.
    unfold read_decode. intros -> E. destruct (Nat.leb _ _); [|discriminate]. destruct (decode _) as [a|]; [|discriminate]. injection E as <- <-. split; reflexivity.
  Qed.

  (** *** one call *)
  Definition result (k : call NN M) ks ns' (r : xst * list (note NN)) c' : Prop := rel c' (ks ++ kind_of k) (fst r) ns' /\ Forall (note_fine c') (snd r).
  Lemma result_push k ks s ns c c' kd x v : rel c ks s ns -> ctx_le c c' -> kind_of k = [kd] -> vr c' kd x v -> result k ks (mkC (c_vals ns ++ [v]) (c_inst ns) (c_trs ns)) (x_push x s, []) c'.
  Proof. intros R L E Hv. split; [|constructor]. cbn [fst]. rewrite E. exact (rel_push c' ks s ns kd x v (rel_le c c' ks s ns L R) Hv). Qed.
  Notation le := (ctx_le_trans NN).

  Lemma x_call_cpl c ks k s ns ns' : rel c ks s ns -> usable ks k = true -> lucky_call k ns -> run_call k ns = Some ns' -> cpl c (x_call k s) (result k ks ns').
  Proof.
    intros R U Lk E. destruct k; cbn [CircuitRun.x_call]; cbn [Calls.run_call] in E; cbn [usable] in U; cbn [lucky_call] in Lk.
    - injection E as <-. eapply cpl_bind; [apply assign_constant_cpl|]. intros r c' _ L _ [Vr Er]. apply cpl_ret.
      eapply (result_push _ ks s ns c c' KScalar); [exact R|exact L|reflexivity|]. exact (conj Vr Er).
    - destruct (val_s ns i) as [x|] eqn:Ei; [|discriminate]. destruct (val_s ns j) as [y|] eqn:Ej; [|discriminate]. injection E as <-.
      eapply cpl_bind; [exact (cpl_s c ks s ns i x R Ei)|]. intros a c' _ _ _ [-> [Va Ea]]. eapply cpl_bind; [exact (cpl_s c ks s ns j y R Ej)|]. intros b c' _ _ _ [-> [Vb Eb]].
      eapply cpl_bind; [exact (add_cpl NN c a b Va Vb)|]. intros r c' _ L _ [Vr Er]. apply cpl_ret.
      eapply (result_push _ ks s ns c c' KScalar); [exact R|exact L|reflexivity|]. split; [exact Vr|]. now rewrite Er, Ea, Eb.
    - destruct (val_s ns i) as [x|] eqn:Ei; [|discriminate]. destruct (val_s ns j) as [y|] eqn:Ej; [|discriminate]. injection E as <-.
      eapply cpl_bind; [exact (cpl_s c ks s ns i x R Ei)|]. intros a c' _ _ _ [-> [Va Ea]]. eapply cpl_bind; [exact (cpl_s c ks s ns j y R Ej)|]. intros b c' _ _ _ [-> [Vb Eb]].
      eapply cpl_bind; [exact (sub_cpl NN c a b Va Vb)|]. intros r c' _ L _ [Vr Er]. apply cpl_ret.
      eapply (result_push _ ks s ns c c' KScalar); [exact R|exact L|reflexivity|]. split; [exact Vr|]. now rewrite Er, Ea, Eb.
    - destruct (val_s ns i) as [x|] eqn:Ei; [|discriminate]. destruct (val_s ns j) as [y|] eqn:Ej; [|discriminate]. injection E as <-.
      eapply cpl_bind; [exact (cpl_s c ks s ns i x R Ei)|]. intros a c' _ _ _ [-> [Va Ea]]. eapply cpl_bind; [exact (cpl_s c ks s ns j y R Ej)|]. intros b c' _ _ _ [-> [Vb Eb]].
      eapply cpl_bind; [exact (mul_cpl NN c a b Va Vb)|]. intros r c' _ L _ [Vr Er]. apply cpl_ret.
      eapply (result_push _ ks s ns c c' KScalar); [exact R|exact L|reflexivity|]. split; [exact Vr|]. now rewrite Er, Ea, Eb.
    - destruct (val_s ns i) as [x|] eqn:Ei; [|discriminate]. destruct (val_s ns j) as [y|] eqn:Ej; [|discriminate]. destruct (chip_div x y) as [z|] eqn:Ed; [|discriminate]. injection E as <-.
      eapply cpl_bind; [exact (cpl_s c ks s ns i x R Ei)|]. intros a c' _ _ _ [-> Ha]. eapply cpl_bind; [exact (cpl_s c ks s ns j y R Ej)|]. intros b c' _ _ _ [-> Hb].
      destruct (div_hs c a b x y z Ha Hb Ed) as [Hd Hy]. eapply cpl_bind; [exact Hd|]. intros r c' _ L _ Hr. apply cpl_ret.
      split; [exact (proj1 (result_push (CDiv i j) ks s ns c c' KScalar (XS r) (VS z) R L eq_refl Hr))|]. constructor; [|constructor]. exists y. split; [exact (hs_le c c' b y L Hb)|exact Hy].
    - destruct (val_s ns i) as [x|] eqn:Ei; [|discriminate]. injection E as <-.
      eapply cpl_bind; [exact (cpl_s c ks s ns i x R Ei)|]. intros a c' _ _ _ [-> [Va Ea]].
      eapply cpl_bind; [exact (mul_cpl NN c a a Va Va)|]. intros r c' _ L _ [Vr Er]. apply cpl_ret.
      eapply (result_push _ ks s ns c c' KScalar); [exact R|exact L|reflexivity|]. split; [exact Vr|]. now rewrite Er, Ea.
    - destruct (mapM _ l) as [xs|] eqn:El; [|discriminate]. injection E as <-.
      eapply cpl_bind; [exact (cpl_sum c ks s ns l xs R El)|]. intros vs c' _ _ _ (-> & Hv & <-).
      eapply cpl_bind; [apply sum_with_constant_cpl; exact Hv|]. intros r c' _ L _ [Vr Er]. apply cpl_ret.
      eapply (result_push _ ks s ns c c' KScalar); [exact R|exact L|reflexivity|]. split; [exact Vr|]. now rewrite Er, vsum_value.
    - injection E as <-. eapply cpl_bind; [exact (const_hx c (aff P) (a_on P))|]. intros r c' _ L _ Hr. apply cpl_ret.
      exact (result_push (CPConst P) ks s ns c c' KExact (XP r) (VP P) R L eq_refl Hr).
    - injection E as <-. rewrite smul_1. eapply cpl_bind; [exact (const_hx c (aff generator) (a_on generator))|]. intros r c' _ L _ Hr. apply cpl_ret.
      exact (result_push CPOne ks s ns c c' KExact (XP r) (VP generator) R L eq_refl Hr).
    - destruct (val_p ns i) as [P|] eqn:Ei; [|discriminate]. destruct (val_p ns j) as [Q|] eqn:Ej; [|discriminate]. injection E as <-. apply andb_true_iff in U. destruct U as [U1 U2].
      eapply cpl_bind; [exact (cpl_pe c ks s ns i P R Ei U1)|]. intros a c' _ _ _ [-> Ha]. eapply cpl_bind; [exact (cpl_pe c ks s ns j Q R Ej U2)|]. intros b c' _ _ _ [-> Hb].
      destruct (Lk P Q eq_refl eq_refl) as [Lf Ln].
      eapply cpl_bind; [exact (add_hp NN W HN HW c a b (aff P) (aff Q) Ha Hb (or_intror Lf) Ln)|]. intros r c' _ L _ Hr. apply cpl_ret.
      exact (result_push (CPAdd i j) ks s ns c c' KEven (XP (fst r)) (VP (madd P Q)) R L eq_refl (proj1 Hr)).
    - destruct (val_p ns i) as [P|] eqn:Ei; [|discriminate]. destruct (val_p ns j) as [Q|] eqn:Ej; [|discriminate]. injection E as <-. apply andb_true_iff in U. destruct U as [U1 U2].
      eapply cpl_bind; [exact (cpl_pe c ks s ns i P R Ei U1)|]. intros a c' _ _ _ [-> Ha]. eapply cpl_bind; [exact (cpl_pe c ks s ns j Q R Ej U2)|]. intros b c' _ _ _ [-> Hb].
      eapply cpl_bind; [exact (sub_shown c a b (aff P) (aff Q) Ha Hb (Lk P eq_refl))|]. intros r c' _ L _ Hr. apply cpl_ret.
      exact (result_push (CPSub i j) ks s ns c c' KAny (XP (fst r)) (VP (msub P Q)) R L eq_refl Hr).
    - destruct (val_s ns i) as [x|] eqn:Ei; [|discriminate]. destruct (val_p ns j) as [P|] eqn:Ej; [|discriminate]. injection E as <-.
      eapply cpl_bind; [exact (cpl_s c ks s ns i x R Ei)|]. intros a c' _ _ _ [-> [Va Ea]]. eapply cpl_bind; [exact (cpl_pe c ks s ns j P R Ej U)|]. intros b c' _ _ _ [-> Hb].
      specialize (Lk x P eq_refl eq_refl). unfold scN in Lk. rewrite <- Ea in Lk.
      eapply cpl_bind; [exact (ecc_mul_hp NN W HN HW c b a (aff P) Hb Va Lk)|]. intros r c' _ L _ Hr. apply cpl_ret. rewrite Ea in Hr.
      exact (result_push (CPMul i j) ks s ns c c' KEven (XP r) (VP (Algebra.smul x P)) R L eq_refl Hr).
    - destruct (val_s ns i) as [x|] eqn:Ei; [|discriminate]. injection E as <-.
      eapply cpl_bind; [exact (cpl_s c ks s ns i x R Ei)|]. intros a c' _ _ _ [-> [Va Ea]].
      eapply cpl_bind; [exact (constant_mul_hp NN W HN HW c (aff P) a (a_on P) Va)|]. intros r c' _ L _ [Hr _]. apply cpl_ret. unfold scalar_of_cell in Hr. rewrite Ea in Hr.
      exact (result_push (CPMulConst i P) ks s ns c c' KEven (XP r) (VP (Algebra.smul x P)) R L eq_refl Hr).
    - destruct (mapM (val_p ns) ps) as [Ps|] eqn:Ep; [|discriminate]. destruct (mapM (val_s ns) ss) as [xs|] eqn:Es; [|discriminate].
      apply andb_true_iff in U. destruct U as [U1 U2]. apply Nat.eqb_eq in U2.
      eapply cpl_bind; [exact (cpl_ps c ks s ns ps Ps R Ep U1)|]. intros pp c' _ _ _ [-> Hp]. eapply cpl_bind; [exact (cpl_ss c ks s ns ss xs R Es)|]. intros sc c' _ _ _ [-> Hs].
      specialize (Lk Ps xs eq_refl eq_refl).
      assert (Ks : map (scalar_of_cell NN) sc = map scN xs) by (clear - Hs; induction Hs as [|a x sc xs [_ Ea] _ IH]; cbn; [reflexivity|]; rewrite IH; unfold scalar_of_cell, scN; now rewrite Ea).
      assert (Vs : Forall (valid c) sc) by (clear - Hs; induction Hs as [|a x sc xs [Va _] _ IH]; constructor; auto).
      assert (Ll : List.length sc = List.length pp).
      { rewrite (Forall2_length _ _ _ Hs), (Forall2_length _ _ _ Hp), map_length, (mapM_length _ _ _ Ep), (mapM_length _ _ _ Es). now symmetry. }
      rewrite <- Ks in Lk.
      assert (Nn : Ps <> []). { intros ->. destruct Lk as [_ H]. destruct (H 0%nat ltac:(lia)) as [H' _]. unfold terms in H'. cbn [map] in H'. rewrite combine_nil in H'. exact H'. }
      assert (Nx : xs <> []). { intros ->. inversion Hs; subst. destruct Lk as [_ H]. destruct (H 0%nat ltac:(lia)) as [H' _]. exact H'. }
      destruct (multi_exp_msm NN W HN HW Ps xs Nn Nx) as (P & EM & AP). rewrite EM in E. injection E as <-.
      eapply cpl_bind; [exact (shamir_hp NN W HN HW c pp sc (map aff Ps) Hp Vs Ll Lk)|]. intros r c' _ L _ Hr. apply cpl_ret.
      apply (result_push (CMultiExp ps ss) ks s ns c c' KEven (XP r) (VP P) R L eq_refl). cbn [vr]. rewrite AP. rewrite Ks in Hr. change (fun s0 : NN => Z.to_N (toZ s0)) with scN.
      replace (msm (combine (map scN xs) (map aff Ps))) with (psum W (map (fun KP => Curve.smul (fst KP) (snd KP)) (combine (map scN xs) (map aff Ps)))); [exact Hr|].
      clear. generalize (combine (map scN xs) (map aff Ps)). induction l as [|[K P] l IH]; [reflexivity|]. cbn [map psum msm fst snd]. now rewrite IH.
    - destruct (val_p ns i) as [P|] eqn:Ei; [|discriminate]. injection E as <-.
      eapply cpl_bind; [exact (cpl_p c ks s ns i P R Ei)|]. intros a c' _ _ _ [-> Ha].
      eapply cpl_bind; [exact (reduce_hx c a (aff P) Ha)|]. intros r c' _ L _ Hr. apply cpl_ret.
      exact (result_push (CNormalize i) ks s ns c c' KExact (XP (fst r)) (VP P) R L eq_refl Hr).
    - destruct (c_inst ns) as [|v l] eqn:Ein; [discriminate|]. injection E as <-. pose proof R as (R1 & R2 & R3). rewrite R2, Ein.
      eapply cpl_bind; [apply assign_cpl|]. intros r c' _ L _ [Vr Er]. apply cpl_ret. split; [|constructor]. cbn [fst].
      pose proof (rel_push c' ks (mkX (x_vals s) l (x_trs s)) (mkC (c_vals ns) l (c_trs ns)) KScalar (XS r) (VS v)) as K. apply K; [|exact (conj Vr Er)].
      apply (rel_le c c' _ _ _ L). split; [exact R1|]. split; [reflexivity|exact R3].
    - unfold on_tr in E. destruct (nth_error (c_trs ns) t) as [m|] eqn:Et; [|discriminate].
      destruct (read_point _ _ _ _ _ _ m) as [[P m']|] eqn:Er; [|discriminate]. injection E as <-.
      unfold read_point, rbind in Er. destruct (read_decode sponge_st PT pt_decode m) as [[P' m1]|] eqn:Ed; [|discriminate]. unfold common_point, rret in Er. injection Er as <- <-.
      eapply cpl_bind; [exact (cpl_tr c ks s ns t m R Et)|]. intros x c' _ _ _ [-> [Ex Hm]].
      destruct (read_same PT pt_decode x m P' m1 Ex Ed) as [Ed' Eh]. unfold lift_o. rewrite Ed'.
      eapply cpl_bind with (P := fun v c' => c' = c /\ v = (P', mkTr (t_rest m1) (t_hash x))); [apply cpl_ret; split; reflexivity|]. intros v c' _ _ _ [-> ->]. cbn [fst snd].
      eapply cpl_bind; [exact (assign_hx c (aff P') (a_on P'))|]. intros p c1 _ L1 _ Hp.
      eapply cpl_bind; [refine (common_hx c1 p P' _ m1 Hp _); split; [reflexivity|]; cbn [t_hash]; rewrite Eh; exact (hr_le c c1 _ _ L1 Hm)|]. intros x' c2 _ L2 _ Hx'. apply cpl_ret.
      pose proof (hx_le c1 c2 p _ L2 Hp) as Hp2. split.
      + cbn [fst]. exact (rel_push c2 ks (x_set t x' s) (mkC (c_vals ns) (c_inst ns) (set_nth (c_trs ns) t _)) KExact (XP p) (VP P') (rel_set c2 ks s ns t x' _ (rel_le c c2 _ _ _ (le _ _ _ L1 L2) R) Hx') Hp2).
      + cbn [snd]. constructor; [|constructor; [|constructor]]; [exists (pz (aff P')); apply Hp2|exists (aff P'); exact Hp2].
    - unfold on_tr in E. destruct (nth_error (c_trs ns) t) as [m|] eqn:Et; [|discriminate].
      destruct (read_scalar _ _ _ _ _ m) as [[v m']|] eqn:Er; [|discriminate]. injection E as <-.
      unfold read_scalar, rbind in Er. destruct (read_decode sponge_st SC sc_decode m) as [[v' m1]|] eqn:Ed; [|discriminate]. unfold common_scalar, rret in Er. injection Er as <- <-.
      eapply cpl_bind; [exact (cpl_tr c ks s ns t m R Et)|]. intros x c' _ _ _ [-> [Ex Hm]].
      destruct (read_same SC sc_decode x m v' m1 Ex Ed) as [Ed' Eh]. unfold lift_o. rewrite Ed'.
      eapply cpl_bind with (P := fun v c' => c' = c /\ v = (v', mkTr (t_rest m1) (t_hash x))); [apply cpl_ret; split; reflexivity|]. intros vv c' _ _ _ [-> ->]. cbn [fst snd].
      eapply cpl_bind; [apply assign_cpl|]. intros a c1 _ L1 _ Ha. apply cpl_ret. split; [|constructor]. cbn [fst].
      refine (rel_push c1 ks (x_set t (x_common_scalar a (mkTr (t_rest m1) (t_hash x))) s) (mkC (c_vals ns) (c_inst ns) (set_nth (c_trs ns) t _)) KScalar (XS a) (VS v') (rel_set c1 ks s ns t _ _ (rel_le c c1 _ _ _ L1 R) _) Ha).
      split; [reflexivity|]. cbn [x_common_scalar t_hash t_rest]. rewrite Eh. apply hr_update; [exact (hr_le c c1 _ _ L1 Hm)|]. constructor; [exact Ha|constructor].
    - destruct (val_p ns i) as [P|] eqn:Ei; [|discriminate]. unfold on_tr in E. destruct (nth_error (c_trs ns) t) as [m|] eqn:Et; [|discriminate]. unfold common_point in E. injection E as <-.
      eapply cpl_bind; [exact (cpl_px c ks s ns i P R Ei U)|]. intros p c' _ _ _ [-> Hp].
      eapply cpl_bind; [exact (cpl_tr c ks s ns t m R Et)|]. intros x c' _ _ _ [-> Hx].
      eapply cpl_bind; [exact (common_hx c p P x m Hp Hx)|]. intros x' c1 _ L1 _ Hx'. apply cpl_ret. split.
      + cbn [fst kind_of]. rewrite app_nil_r. exact (rel_set c1 ks s ns t x' _ (rel_le c c1 _ _ _ L1 R) Hx').
      + constructor; [|constructor]. exists (aff P). exact (hx_le c c1 p _ L1 Hp).
    - destruct (val_s ns i) as [x|] eqn:Ei; [|discriminate]. unfold on_tr in E. destruct (nth_error (c_trs ns) t) as [m|] eqn:Et; [|discriminate]. unfold common_scalar in E. injection E as <-.
      eapply cpl_bind; [exact (cpl_s c ks s ns i x R Ei)|]. intros a c' _ _ _ [-> Ha].
      eapply cpl_bind; [exact (cpl_tr c ks s ns t m R Et)|]. intros y c' _ _ _ [-> [Ey Hy]]. apply cpl_ret. split; [|constructor].
      cbn [fst kind_of]. rewrite app_nil_r. refine (rel_set c ks s ns t _ _ R _). split; [exact Ey|]. cbn [x_common_scalar t_hash]. apply hr_update; [exact Hy|]. constructor; [exact Ha|constructor].
    - unfold on_tr in E. destruct (nth_error (c_trs ns) t) as [m|] eqn:Et; [|discriminate]. unfold squeeze_scalar in E.
      destruct (nsqz (t_hash m)) as [[v h']|] eqn:Eq; [|discriminate]. injection E as <-.
      eapply cpl_bind; [exact (cpl_tr c ks s ns t m R Et)|]. intros y c' _ _ _ [-> [Ey Hy]].
      eapply cpl_bind; [exact (squeeze_hr c _ _ v h' Hy Eq)|]. intros r c1 _ L1 _ [Hv Hh]. apply cpl_ret. split; [|constructor]. cbn [fst].
      refine (rel_push c1 ks (x_set t (mkTr (t_rest y) (snd r)) s) (mkC (c_vals ns) (c_inst ns) (set_nth (c_trs ns) t _)) KScalar (XS (fst r)) (VS v) (rel_set c1 ks s ns t _ _ (rel_le c c1 _ _ _ L1 R) _) Hv).
      split; [exact Ey|exact Hh].
  Qed.

  Lemma x_calls_cpl cs : forall c ks s ns ns', rel c ks s ns -> orderly ks cs = true -> lucky_calls cs ns -> run cs ns = Some ns' ->
    cpl c (x_calls cs s) (fun r c' => rel c' (kinds_after ks cs) (fst r) ns' /\ Forall (note_fine c') (snd r)).
  Proof.
    unfold kinds_after. induction cs as [|k cs IH]; intros c ks s ns ns' R U Lk E; cbn [CircuitRun.x_calls].
    - cbn in E. injection E as <-. apply cpl_ret. cbn [map concat fst snd]. rewrite app_nil_r. split; [exact R|constructor].
    - cbn [run_calls] in E. destruct (run_call k ns) as [ns1|] eqn:E1; [|discriminate]. cbn [orderly] in U. apply andb_true_iff in U. destruct U as [U1 U2].
      cbn [lucky_calls] in Lk. destruct Lk as [Lk1 Lk2].
      eapply cpl_bind; [exact (x_call_cpl c ks k s ns ns1 R U1 Lk1 E1)|]. intros r c1 _ L1 _ [R1 N1].
      eapply cpl_bind; [exact (IH c1 _ (fst r) ns1 ns' R1 U2 (Lk2 ns1 E1) E)|]. intros r' c2 _ L2 _ [R2 N2]. apply cpl_ret. cbn [fst snd map concat].
      rewrite app_assoc. split; [exact R2|]. apply Forall_app. split; [exact (notes_le c1 c2 _ L2 N1)|exact N2].
  Qed.
End Honest.
