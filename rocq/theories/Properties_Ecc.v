(** Properties C13-C17: the elliptic-curve chip of halo2-ecc-circuit-lib
    (chips/ecc_chip.rs, chips/native_ecc_chip.rs) for BN254 G1: native field [Fr]
    (scalars), emulated field [Fq] (coordinates), curve [y^2 = x^3 + 3].

    [point], [on_curve], [padd], [pneg], [smul] are the textbook chord-and-tangent
    definitions (Curve.v); that they form a commutative group is C13_group_laws. *)
From Coq Require Import ZArith NArith Arith Bool Lia List.
From Verif Require Import Util Algebra PField Gate GateProofs GateOps GateExtra Integer Bn254 Bn254Prime
  IntegerFacts IntegerSound IntegerOps IntegerComplete IntegerComplete2 IntegerComplete3
  IntegerHistory IntegerHistorySound IntegerHistoryComplete CircuitCheck Curve CurveAssoc Bn254Curve Ecc
  IntegerValue EccSound EccScalar EccMul EccComplete EccHistory EccMulComplete EccReady GeneratorOrder CurveOrder Properties_Integer.
Import ListNotations.
Local Open Scope Z_scope.
Local Notation fr_n := (eq_refl : pf_n Fr = fr_mod).
Local Notation fq_n := (eq_refl : pf_n Fq = fq_mod).

(** ** Reading a point under an assignment *)
Definition b3 : Fq := ofZ 3.
Definition good_int (w : asg Fr) (a : aint Fr) : Prop := in_bounds w a /\ (overflows a < 32)%nat.
(** The flag cell is 1 for the identity; then the coordinates are ignored. *)
Definition locates (w : asg Fr) (a : apoint Fr) (P : point Fq) : Prop :=
  good_int w (pt_x a) /\ good_int w (pt_y a) /\
  ((w (av_cell (pt_z a)) = f1 /\ P = Inf) \/
   (w (av_cell (pt_z a)) = f0 /\ P = Aff (element w (pt_x a)) (element w (pt_y a)) /\ on_curve b3 P)).
(** A cached curvature, if any, is the slope of the tangent. *)
Definition cache_ok (w : asg Fr) (a : apoint Fr) (P : point Fq) : Prop :=
  match pt_c a with
  | None => True
  | Some c => good_int w (cv_v c) /\ (w (av_cell (cv_z c)) = f0 \/ w (av_cell (cv_z c)) = f1) /\
      match P with
      | Inf => True
      | Aff x y => w (av_cell (cv_z c)) = f0 /\ fmul (element w (cv_v c)) (fmul (ofZ 2) y) = fmul (ofZ 3) (fmul x x)
      end
  end.
Definition represents (w : asg Fr) (a : apoint Fr) (P : point Fq) : Prop := locates w a P /\ cache_ok w a P.

Lemma f1_f0 : (f1 : Fr) <> f0. Proof. intro H. apply (f_equal toZ) in H. vm_compute in H. discriminate. Qed.
Lemma two : @ofZ Fq 2 = fadd f1 f1. Proof. change 2 with (1 + 1). now rewrite ofZ_add, ofZ_1. Qed.
Lemma three : @ofZ Fq 3 = fadd (fadd f1 f1) f1. Proof. change 3 with (1 + 1 + 1). now rewrite !ofZ_add, ofZ_1. Qed.

Add Field FqF : (f_th Fq).
Lemma mul_assoc3 (a x : Fq) : fmul a (fmul x x) = fmul (fmul a x) x.
Proof. ring. Qed.

Lemma represents_iff w a P : represents w a P <-> rp Fr Fq w a P.
Proof.
  split.
  - intros [(Hx & Hy & Hz) Hc].
    assert (Ix : holds_int Fr Fq w (pt_x a) (element w (pt_x a))) by (split; [reflexivity|exact Hx]).
    assert (Iy : holds_int Fr Fq w (pt_y a) (element w (pt_y a))) by (split; [reflexivity|exact Hy]).
    assert (OP : on_curve (curve_b Fq) P) by (destruct Hz as [[_ ->]|(_ & _ & H)]; [exact I|exact H]).
    assert (HP : exists z, holds_bit Fr w (pt_z a) z /\ P = if z then Inf else Aff (element w (pt_x a)) (element w (pt_y a))).
    { destruct Hz as [[Hz ->]|(Hz & E & _)]; [exists true|exists false]; split; assumption || reflexivity. }
    destruct HP as (z & Hz' & EP). unfold cache_ok in Hc. split.
    + exists (element w (pt_x a)), (element w (pt_y a)), z. repeat (split; [assumption|]).
      destruct (pt_c a) as [c|]; [|exact I]. destruct Hc as (Hv & Hb & _).
      destruct Hb as [Hb|Hb]; [exists (element w (cv_v c)), false|exists (element w (cv_v c)), true]; (split; [split; [reflexivity|exact Hv]|exact Hb]).
    + unfold cvok. destruct (pt_c a) as [c|]; [|exact I]. destruct Hc as (Hv & _ & Hs). destruct P as [|x y]; [exact I|].
      destruct Hs as [Hz0 Hs]. exists (element w (cv_v c)). split; [split; [reflexivity|exact Hv]|]. split; [exact Hz0|].
      rewrite <- three, <- two. rewrite Hs. apply mul_assoc3.
  - intros [(x & y & z & (Ex & Wx) & (Ey & Wy) & Hz & EP & OP & Hc) Hcv]. split.
    + split; [exact Wx|]. split; [exact Wy|]. destruct z; [left; split; [exact Hz|exact EP]|right].
      split; [exact Hz|]. split; [|exact OP]. change (element w (pt_x a)) with (fv Fq w (pt_x a)). change (element w (pt_y a)) with (fv Fq w (pt_y a)). now rewrite Ex, Ey.
    + unfold cache_ok, cvok in *. destruct (pt_c a) as [c|]; [|exact I]. destruct Hc as (v & cz & (_ & Wv) & Hb).
      split; [exact Wv|]. split; [destruct cz; [right|left]; exact Hb|]. destruct P as [|px py]; [exact I|].
      destruct Hcv as (v' & (Ev & _) & Hz0 & Hs). split; [exact Hz0|]. change (element w (cv_v c)) with (fv Fq w (cv_v c)).
      rewrite Ev, two, three, Hs. symmetry. apply mul_assoc3.
Qed.

(** ** C13: the group law *)

(** The specification: a commutative group on the points of the curve. *)
Theorem C13_group_laws (P Q R : point Fq) : on_curve b3 P -> on_curve b3 Q -> on_curve b3 R ->
  on_curve b3 (padd P Q) /\ on_curve b3 (pneg P) /\
  padd P (padd Q R) = padd (padd P Q) R /\ padd P Q = padd Q P /\ padd P Inf = P /\ padd P (pneg P) = Inf.
Proof.
  intros HP HQ HR. split; [exact (aon Fq P Q HP HQ)|]. split; [exact (pneg_on Fq b3 P HP)|].
  split; [symmetry; exact (assoc Fq fq_n P Q R HP HQ HR)|]. split; [exact (comm Fq P Q HP HQ)|].
  split; [apply padd_inf_r|exact (padd_neg Fq b3 P HP)].
Qed.
Print Assumptions C13_group_laws.

Theorem C13_add_sound (w : asg Fr) a b c r a' c' (P Q : point Fq) :
  ecc_add Fq a b c = Some ((r, a'), c') -> sat w c' -> represents w a P -> represents w b Q ->
  represents w r (padd P Q) /\ represents w a' P.
Proof.
  intros H Hs HP HQ. rewrite !represents_iff in *. destruct (add_rp Fr Fq fr_n fq_n w a b c _ c' H Hs) as [_ K]. exact (K P Q HP HQ).
Qed.
Print Assumptions C13_add_sound.
Theorem C13_double_sound (w : asg Fr) a c r a' c' (P : point Fq) :
  ecc_double Fq a c = Some ((r, a'), c') -> sat w c' -> represents w a P ->
  represents w r (padd P P) /\ represents w a' P.
Proof.
  intros H Hs HP. rewrite !represents_iff in *. destruct (double_rp Fr Fq fr_n fq_n w a c _ c' H Hs) as [_ K]. exact (K P HP).
Qed.
Print Assumptions C13_double_sound.
Theorem C13_neg_sound (w : asg Fr) a c r c' (P : point Fq) :
  ecc_neg Fq a c = Some (r, c') -> sat w c' -> represents w a P -> represents w r (pneg P).
Proof.
  intros H Hs HP. rewrite !represents_iff in *. destruct (ecc_neg_snd Fr Fq fr_n fq_n w a c _ c' H Hs) as [_ [K1 K2]].
  split; [exact (K2 P (proj1 HP))|now apply none_ok].
Qed.
Print Assumptions C13_neg_sound.
Theorem C13_sub_sound (w : asg Fr) a b c r a' c' (P Q : point Fq) :
  ecc_sub Fq a b c = Some ((r, a'), c') -> sat w c' -> represents w a P -> represents w b Q ->
  represents w r (padd P (pneg Q)) /\ represents w a' P.
Proof.
  intros H Hs HP HQ. rewrite !represents_iff in *. destruct (ecc_sub_snd Fr Fq fr_n fq_n w a b c _ c' H Hs) as [_ K].
  destruct HP as [HP CP]. destruct (K P Q HP (proj1 HQ) (fun _ => CP)) as (K1 & K2 & K3 & K4).
  split; split; [assumption|now apply none_ok|assumption|now apply K4].
Qed.
Print Assumptions C13_sub_sound.
(** [reduce] keeps the point, reduces the coordinates, and gives the identity the
    coordinates 0. *)
Theorem C13_reduce_sound (w : asg Fr) a c r a' c' (P : point Fq) :
  ecc_reduce Fq a c = Some ((r, a'), c') -> sat w c' -> represents w a P ->
  represents w r P /\ represents w a' P /\ overflows (pt_x r) = 0%nat /\ overflows (pt_y r) = 0%nat /\
  (P = Inf -> element w (pt_x r) = f0 /\ element w (pt_y r) = f0).
Proof.
  intros H Hs HP. rewrite !represents_iff in *. destruct (ecc_reduce_snd Fr Fq fr_n fq_n w a c _ c' H Hs) as [_ K].
  destruct (K P (proj1 HP)) as (K1 & K2 & K3 & K4 & K5 & K6 & K7). cbn [fst snd] in *.
  split; [split; [assumption|now apply none_ok]|]. split; [split; [assumption|apply K6, (proj2 HP)]|]. split; [assumption|]. split; [assumption|].
  intro E. destruct (K2 E) as [[Ex _] [Ey _]]. now split.
Qed.
Print Assumptions C13_reduce_sound.

(** Scalars act modulo [fr_mod]: every point of the curve is annihilated by it
    (the curve has prime order: counting in CurveOrder.v). *)
Theorem C13_curve_order (P : point Fq) : on_curve b3 P -> smul (Z.to_N fr_mod) P = Inf.
Proof. intro H. exact (proj2 (on_curve_in_group Fq fq_n P H)). Qed.
Print Assumptions C13_curve_order.
Lemma represents_on w a (P : point Fq) : represents w a P -> on_curve b3 P.
Proof. intro H. exact (rp_on Fr Fq w a P (proj1 (represents_iff w a P) H)). Qed.

(** Every sequence of chip operations whose constants are points of the curve: in
    every satisfying assignment the registers represent what the sequence computes
    in the group ([sem_ecc], EccHistory.v; the scalars are the values of the scalar
    cells). *)
Definition constants_on_curve (os : list (eop Fr Fq)) : Prop :=
  Forall (fun o => match o with EConst P | EConstMul P _ => on_curve b3 P | _ => True end) os.
Theorem C13_history (w : asg Fr) (os : list (eop Fr Fq)) ps Ps c ps' c' :
  run_ecc os ps c = Some (ps', c') -> sat w c' -> constants_on_curve os ->
  Forall2 (represents w) ps Ps ->
  Forall2 (represents w) ps' (sem_ecc (fun s => Z.to_N (toZ (w (av_cell s)))) os Ps).
Proof.
  intros H Hs Hc HP.
  assert (Ho : Forall consts_ok os).
  { clear - Hc. induction Hc as [|o os Ho Hc IH]; constructor; [|exact IH]. destruct o; try exact I; exact (on_curve_in_group Fq fq_n _ Ho). }
  destruct (run_ecc_snd Fr Fq fr_n fq_n w os ps Ho c ps' c' H Hs) as [_ K].
  assert (HG : Forall2 (gp Fr Fq w) ps Ps).
  { clear - HP. induction HP as [|a P ps Ps H HP IH]; constructor; [|exact IH].
    apply gp_of; [now apply represents_iff|exact (on_curve_in_group Fq fq_n P (represents_on w a P H))]. }
  specialize (K Ps HG). clear - K. unfold sc_of in K. induction K as [|a P qs Qs [H _] K IH]; constructor; [|exact IH]. now apply represents_iff.
Qed.
Print Assumptions C13_history.

(** A sequence of point operations whose first summands have a cached or computable
    tangent slope ([readys], EccReady.v) runs to the end and leaves a satisfied
    circuit.  Missing to "never aborts": sums and doubles of points whose slope is
    neither cached nor computable (refuted below), and two ordinates with 31
    recorded overflows each (the point-level case of C11). *)
Theorem C13_no_abort_partial (c : ctx Fr) (os : list (eop Fr Fq)) :
  good c -> readys Fr Fq c os [] -> exists ps c', run_ecc os [] c = Some (ps, c') /\ sat (adv c') c'.
Proof.
  intros Gc H. destruct (readys_cpl Fr Fq fr_n fq_n os c [] [] H (Forall2_nil _) Gc) as (ps & c' & E & _ & G' & _).
  exists ps, c'. split; [exact E|exact (good_sat Fr c' G')].
Qed.
Print Assumptions C13_no_abort_partial.

(** Meeting the hypotheses of both: 2G, 3G, -3G (also reduced), G - 2G, 5G
    (multiplication by an assigned scalar), G + 5G, the identity. *)
Definition ex_prog (s : aval Fr) : list (eop Fr Fq) :=
  [EConst (G Fq); EDouble 0; EAdd 0 1; ENeg 2; EReduce 3; ESub 0 1; EConstMul (G Fq) s; EAdd 0 6; EIdentity; EAssertEqual 8 8].
Lemma ex_slope : slope_ok Fq (ofZ 1) (ofZ 2) 0.
Proof.
  right. split; [intro H; apply (f_equal toZ) in H; vm_compute in H; discriminate|].
  assert (E : quotient Fq (slope_num Fq (ofZ 1)) (slope_den Fq (ofZ 2) 0) = 16416182153879456416684804308942956316522233367973367747016778420983919656438).
  { apply (quotient_eq Fq fq_n); [split; vm_compute; congruence|vm_compute; reflexivity|vm_compute; discriminate]. }
  unfold reaches, not_tiny. rewrite E. split; vm_compute; discriminate.
Qed.
Lemma ex_ready (c : ctx Fr) s : valid c s -> readys Fr Fq c (ex_prog s) [].
Proof.
  intro Hs. unfold ex_prog. econstructor; [apply RConstSlope; exact ex_slope|]. cbn [app].
  econstructor; [eapply RDouble; [reflexivity|discriminate]|]. cbn [app upd]. econstructor; [eapply RAdd; [reflexivity|reflexivity|discriminate|reflexivity]|]. cbn [app upd andb].
  econstructor; [eapply RNeg; reflexivity|]. cbn [app]. econstructor; [eapply RReduce; reflexivity|]. cbn [app upd].
  econstructor; [eapply RSub; [reflexivity|reflexivity|discriminate]|]. cbn [app upd]. econstructor; [apply RConstMul; exact Hs|]. cbn [app].
  econstructor; [eapply RAdd; [reflexivity|reflexivity|discriminate|reflexivity]|]. cbn [app upd andb]. econstructor; [apply RIdentity|]. cbn [app].
  econstructor; [eapply RAssertEqual; reflexivity|]. constructor.
Qed.
Lemma ex_consts s : constants_on_curve (ex_prog s).
Proof. repeat (apply Forall_cons; [first [exact I|exact (proj1 (generator_order Fq fq_n))]|]). apply Forall_nil. Qed.
Example C13_example : exists (w : asg Fr) s c ps c',
  good c /\ valid c s /\ w (av_cell s) = ofZ 5 /\ constants_on_curve (ex_prog s) /\ run_ecc (ex_prog s) [] c = Some (ps, c') /\ sat w c' /\
  Forall2 (represents w) ps
    (let g := G Fq in [g; smul 2 g; smul 3 g; pneg (smul 3 g); pneg (smul 3 g); padd g (pneg (smul 2 g)); smul 5 g; smul 6 g; Inf]).
Proof.
  destruct (assign_cpl Fr (ctx0 Fr) (ofZ 5) (good_ctx0 Fr)) as (s & c & E & _ & Gc & Hs & Vs).
  destruct (readys_cpl Fr Fq fr_n fq_n (ex_prog s) c [] [] (ex_ready c s Hs) (Forall2_nil _) Gc) as (ps & c' & E' & L & G' & _).
  assert (V5 : adv c' (av_cell s) = ofZ 5). { destruct (valid_le Fr c c' s L Hs) as [_ H]. now rewrite H, Vs. }
  exists (adv c'), s, c, ps, c'. split; [exact Gc|]. split; [exact Hs|]. split; [exact V5|]. split; [apply ex_consts|]. split; [exact E'|]. split; [exact (good_sat Fr c' G')|].
  pose proof (C13_history (adv c') (ex_prog s) [] [] c ps c' E' (good_sat Fr c' G') (ex_consts s) (Forall2_nil _)) as H.
  unfold ex_prog, sem_ecc in H. cbn [fold_left sem_eop app look nth] in H. rewrite V5 in H.
  replace (Z.to_N (toZ (@ofZ Fr 5))) with 5%N in H by (vm_compute; reflexivity).
  assert (OG : on_curve b3 (G Fq)) by exact (proj1 (generator_order Fq fq_n)).
  assert (E2 : padd (G Fq) (G Fq) = smul 2 (G Fq)) by (change 2%N with (1 + 1)%N; rewrite (sadd Fq fq_n), (smul_1 Fq) by exact OG; reflexivity).
  assert (Es : forall k, padd (G Fq) (smul k (G Fq)) = smul (N.succ k) (G Fq)) by (intro k; symmetry; exact (ssucc Fq k (G Fq))).
  rewrite !E2, !Es in H. exact H.
Qed.

(** The tangent slope of some valid points cannot be computed: the chip subtracts
    thrice the reduced square of the abscissa from a smaller number.  Doubling such
    a freshly assigned point aborts, and so does adding it to itself. *)
Definition bad_x : Z := 21534254016466854504094385929305809212662163520002991360192842812178193945719.
Definition bad_y : Z := 15256724590449853696874377407863793278681724764688774593568274676945842637.
Theorem C13_double_refuted : exists (P : point Fq) a c,
  on_curve b3 P /\ assign_point P (ctx0 Fr) = Some (a, c) /\ sat (adv c) c /\
  ecc_double Fq a c = None /\ ecc_add Fq a a c = None.
Proof.
  assert (OP : on_curve b3 (Aff (ofZ bad_x) (ofZ bad_y))) by (cbn [on_curve]; apply toZ_inj; vm_compute; reflexivity).
  destruct (assign_point_cpl Fr Fq fr_n fq_n (ctx0 Fr) _ OP (good_ctx0 Fr)) as (a & c & E & _ & Gc & (Ha & Ec)).
  cbn [px py pz coords fst snd] in Ha.
  assert (Hy : @ofZ Fq bad_y <> f0) by (intro H; apply (f_equal toZ) in H; vm_compute in H; discriminate).
  assert (Hr : ~ reaches Fq (slope_num Fq (ofZ bad_x)) (slope_den Fq (ofZ bad_y) 0)).
  { assert (Eq : quotient Fq (slope_num Fq (ofZ bad_x)) (slope_den Fq (ofZ bad_y) 0) = 1088).
    { apply (quotient_eq Fq fq_n); [split; vm_compute; congruence|vm_compute; reflexivity|vm_compute; discriminate]. }
    unfold reaches. rewrite Eq. intro H. vm_compute in H. now apply H. }
  exists (Aff (ofZ bad_x) (ofZ bad_y)), a, c. split; [exact OP|]. split; [exact E|]. split; [exact (good_sat Fr c Gc)|]. split.
  - exact (ecc_double_aborts Fr Fq fr_n fq_n c a _ _ _ _ _ Gc Ha Ec Hy Hr).
  - exact (ecc_add_aborts Fr Fq fr_n fq_n c a a _ _ _ _ _ _ _ _ _ _ Gc Ha Ha eq_refl eq_refl ltac:(lia) Ec Hy Hr).
Qed.
Print Assumptions C13_double_refuted.

(** ** C14: equality assertion *)

(** Missing to the full property: the flags are not compared, so an identity whose
    coordinates are those of an affine point is accepted as equal to it (below). *)
Theorem C14_assert_equal_partial (w : asg Fr) a b c u c' (P Q : point Fq) :
  ecc_assert_equal Fq a b c = Some (u, c') -> sat w c' -> represents w a P -> represents w b Q ->
  (P = Inf /\ Q = Inf) \/ (element w (pt_x a) = element w (pt_x b) /\ element w (pt_y a) = element w (pt_y b)).
Proof.
  intros H Hs HP HQ. rewrite !represents_iff in *. destruct (ecc_assert_equal_snd Fr Fq fr_n fq_n w a b c u c' H Hs) as [_ K].
  destruct HP as [(xa & ya & za & Hxa & Hya & Hza & EP & _) _]. destruct HQ as [(xb & yb & zb & Hxb & Hyb & Hzb & EQ & _) _].
  destruct (K _ _ _ _ _ _ Hxa Hya Hza Hxb Hyb Hzb) as [[-> ->]|[-> ->]]; [right|left; now split].
  destruct Hxa as [Xa _], Hya as [Ya _], Hxb as [Xb _], Hyb as [Yb _].
  split; [exact (eq_trans Xa (eq_sym Xb))|exact (eq_trans Ya (eq_sym Yb))].
Qed.
Print Assumptions C14_assert_equal_partial.
(** After [reduce] (whose identity has coordinates 0, not on the curve) the assertion
    does mean equality of points. *)
Theorem C14_reduced_sound (w : asg Fr) a b c ra a' c1 rb b' c2 u c' (P Q : point Fq) :
  ecc_reduce Fq a c = Some ((ra, a'), c1) -> ecc_reduce Fq b c1 = Some ((rb, b'), c2) ->
  ecc_assert_equal Fq ra rb c2 = Some (u, c') -> sat w c' -> represents w a P -> represents w b Q -> P = Q.
Proof.
  intros H1 H2 H3 Hs HP HQ.
  assert (Hs2 : sat w c2) by exact (proj1 (ecc_assert_equal_snd Fr Fq fr_n fq_n w ra rb c2 u c' H3 Hs)).
  assert (Hs1 : sat w c1) by exact (proj1 (ecc_reduce_snd Fr Fq fr_n fq_n w b c1 _ c2 H2 Hs2)).
  destruct (C13_reduce_sound w a c ra a' c1 P H1 Hs1 HP) as (Ra & _ & _ & _ & Za).
  destruct (C13_reduce_sound w b c1 rb b' c2 Q H2 Hs2 HQ) as (Rb & _ & _ & _ & Zb).
  destruct (C14_assert_equal_partial w ra rb c2 u c' P Q H3 Hs Ra Rb) as [[-> ->]|[Ex Ey]]; [reflexivity|].
  assert (N0 : ~ on_curve b3 (Aff f0 f0)).
  { cbn [on_curve]. intro F. apply (f_equal (@toZ Fq)) in F. vm_compute in F. discriminate. }
  destruct Ra as [(_ & _ & [[_ ->]|(_ & EP & OP)]) _], Rb as [(_ & _ & [[_ ->]|(_ & EQ & OQ)]) _]; [reflexivity| | |].
  - exfalso. destruct (Za eq_refl) as [Zx Zy]. apply N0. rewrite EQ, <- Ex, <- Ey, Zx, Zy in OQ. exact OQ.
  - exfalso. destruct (Zb eq_refl) as [Zx Zy]. apply N0. rewrite EP, Ex, Ey, Zx, Zy in OP. exact OP.
  - now rewrite EP, EQ, Ex, Ey.
Qed.
Print Assumptions C14_reduced_sound.
(** The prover can satisfy the assertion for equal points with equal coordinates.
    ([has_pt]: the prover's values of the coordinates, the flag, the two overflow
    counts.) *)
Theorem C14_assert_equal_complete (c : ctx Fr) a b (xa ya : Fq) za ia ja xb yb zb ib jb :
  good c -> has_pt Fr Fq c a xa ya za ia ja -> has_pt Fr Fq c b xb yb zb ib jb -> (ia + ib < 62)%nat -> (ja + jb < 62)%nat ->
  (za = true /\ zb = true) \/ (xa = xb /\ ya = yb) ->
  exists c', ecc_assert_equal Fq a b c = Some (tt, c') /\ sat (adv c') c'.
Proof.
  intros Gc Ha Hb Hi Hj HE. destruct (ecc_assert_equal_cpl Fr Fq fr_n fq_n c a b _ _ _ _ _ _ _ _ _ _ Ha Hb Hi Hj ltac:(tauto) Gc) as ([] & c' & E & _ & G' & _).
  exists c'. split; [exact E|exact (good_sat Fr c' G')].
Qed.
Print Assumptions C14_assert_equal_complete.

(** The identity with coordinates (1, 2) and the generator: different points, whose
    equality can be asserted. *)
Theorem C14_assert_equal_refuted : exists (w : asg Fr) a b c c' (P Q : point Fq),
  represents w a P /\ represents w b Q /\ P <> Q /\ ecc_assert_equal Fq a b c = Some (tt, c') /\ sat w c'.
Proof.
  destruct (assign_constant_point_cpl Fr Fq fr_n fq_n (ctx0 Fr) (G Fq) (good_ctx0 Fr)) as (b & c1 & E1 & _ & G1 & Hb & Cb).
  destruct (bconst Fr c1 true G1) as (one & c2 & E2 & L2 & G2 & H1).
  set (a := AP (pt_x b) (pt_y b) one None).
  pose proof (has_pt_le Fr Fq _ _ _ _ _ _ _ _ L2 Hb) as Hb2.
  assert (Ha : has_pt Fr Fq c2 a (px Fr Fq (G Fq)) (py Fr Fq (G Fq)) true 0 0).
  { destruct Hb2 as (X & Y & _). split; [exact X|]. split; [exact Y|]. split; [exact H1|exact I]. }
  destruct (ecc_assert_equal_cpl Fr Fq fr_n fq_n c2 a b _ _ _ _ _ _ _ _ _ _ Ha Hb2 ltac:(lia) ltac:(lia) ltac:(auto) G2) as ([] & c' & E & L & G' & _).
  pose proof (good_sat Fr c' G') as S'. pose proof (proj1 (ecc_assert_equal_snd Fr Fq fr_n fq_n (adv c') a b c2 tt c' E S')) as S2.
  destruct (assign_constant_snd Fr (adv c') f1 c1 one c2 E2 S2) as [S1 V1].
  destruct (coords_const Fr Fq fr_n fq_n (adv c') (G Fq) (proj1 (generator_order Fq fq_n)) (ctx0 Fr) b c1 E1 S1) as [_ Rb].
  exists (adv c'), a, b, c2, c', Inf, (G Fq). apply represents_iff in Rb. split; [|split; [exact Rb|split; [discriminate|split; [exact E|exact S']]]].
  destruct Rb as [(X & Y & _) _]. split; [|exact I]. split; [exact X|]. split; [exact Y|]. left. split; [exact V1|reflexivity].
Qed.
Print Assumptions C14_assert_equal_refuted.

(** ** C15: assigned points *)

(** Missing to the full property: the flag is not constrained to be 0 or 1 (below). *)
Theorem C15_assign_point_partial (w : asg Fr) (P : point Fq) c a c' :
  assign_point P c = Some (a, c') -> sat w c' ->
  good_int w (pt_x a) /\ good_int w (pt_y a) /\ pt_c a = None /\
  (w (av_cell (pt_z a)) = f1 \/ on_curve b3 (Aff (element w (pt_x a)) (element w (pt_y a)))) /\
  (w (av_cell (pt_z a)) = f0 \/ w (av_cell (pt_z a)) = f1 -> exists Q, represents w a Q /\ on_curve b3 Q).
Proof.
  intros H Hs. destruct (assign_point_snd Fr Fq fr_n fq_n w P c a c' H Hs) as [_ (Ec & x & y & [Ex Wx] & [Ey Wy] & K)].
  split; [exact Wx|]. split; [exact Wy|]. split; [exact Ec|].
  assert (K' : w (av_cell (pt_z a)) = f1 \/ on_curve b3 (Aff (element w (pt_x a)) (element w (pt_y a)))).
  { destruct K as [K|K]; [now left|right]. change (element w (pt_x a)) with (fv Fq w (pt_x a)). change (element w (pt_y a)) with (fv Fq w (pt_y a)). rewrite Ex, Ey. exact K. }
  split; [exact K'|]. intro Z. assert (C : forall Q, cache_ok w a Q) by (intro Q; unfold cache_ok; now rewrite Ec).
  destruct Z as [Z|Z].
  - destruct K' as [K'|K']; [exfalso; apply f1_f0; congruence|].
    exists (Aff (element w (pt_x a)) (element w (pt_y a))). split; [|exact K']. split; [|apply C]. split; [exact Wx|]. split; [exact Wy|]. right. auto.
  - exists Inf. split; [|exact I]. split; [|apply C]. split; [exact Wx|]. split; [exact Wy|]. left. auto.
Qed.
Print Assumptions C15_assign_point_partial.
(** Constants and the identity are what they say. *)
Theorem C15_constants_sound (w : asg Fr) (P : point Fq) c a c' : on_curve b3 P ->
  assign_constant_point P c = Some (a, c') -> sat w c' -> represents w a P.
Proof.
  intros OP H Hs. apply represents_iff. exact (proj2 (coords_const Fr Fq fr_n fq_n w P OP c a c' H Hs)).
Qed.
Print Assumptions C15_constants_sound.
Theorem C15_identity_sound (w : asg Fr) c a c' : assign_identity Fq c = Some (a, c') -> sat w c' -> represents w a Inf.
Proof. intros H Hs. apply represents_iff. exact (proj2 (ident_rp Fr Fq fr_n fq_n w c a c' H Hs)). Qed.
Print Assumptions C15_identity_sound.
(** Every point of the curve can be assigned. *)
Theorem C15_assign_point_complete (P : point Fq) (c : ctx Fr) : on_curve b3 P -> good c ->
  exists a c', assign_point P c = Some (a, c') /\ sat (adv c') c' /\ represents (adv c') a P.
Proof.
  intros OP Gc. destruct (assign_point_cpl Fr Fq fr_n fq_n c P OP Gc) as (a & c' & E & _ & G' & (Hx & Hy & Hz & _) & Ec).
  exists a, c'. split; [exact E|]. pose proof (good_sat Fr c' G') as S'. split; [exact S'|].
  destruct (C15_assign_point_partial (adv c') P c a c' E S') as (Gx & Gy & _ & _ & _). split; [|unfold cache_ok; now rewrite Ec].
  split; [exact Gx|]. split; [exact Gy|].
  assert (Vz : adv c' (av_cell (pt_z a)) = if pz Fq P then f1 else f0) by (destruct Hz as [[_ V] V']; now rewrite V, V').
  assert (El : forall i (v : Fq), has_int Fr Fq c' i (v, 0%nat) -> element (adv c') i = v).
  { intros i v ((O & _) & V & _). cbn [fst] in V. rewrite <- V. unfold element. f_equal. exact (ok_iv Fr c' i O). }
  destruct P as [|x y]; [left; now split|right]. cbn [pz px py coords fst snd] in *. split; [exact Vz|].
  rewrite (El _ _ Hx), (El _ _ Hy). split; [reflexivity|exact OP].
Qed.
Print Assumptions C15_assign_point_complete.
Example C15_example : on_curve b3 (G Fq) /\ on_curve b3 (Aff (ofZ bad_x) (ofZ bad_y)) /\ good (ctx0 Fr).
Proof. split; [exact (proj1 (generator_order Fq fq_n))|]. split; [cbn [on_curve]; apply toZ_inj; vm_compute; reflexivity|apply good_ctx0]. Qed.

(** A prover that writes 2 into the flag cell. *)
Definition assign_flag2 : B Fr (apoint Fr) :=
  x <- assign_w (ofZ 1 : Fq) ;;
  y <- assign_w (ofZ 2 : Fq) ;;
  z <- assign (ofZ 2 : Fr) ;;
  b <- int_assign_constant (curve_b Fq) ;;
  yy <- int_square Fq y ;;
  let '(y2, y) := yy in
  xx <- int_square Fq x ;;
  let '(x2, x) := xx in
  xxx <- int_mul Fq x2 x ;;
  let '(x3, _, x) := xxx in
  right <- int_add Fq x3 b ;;
  eq <- int_is_equal Fq y2 right ;;
  eq_or_identity <- or_ eq z ;;
  assert_true eq_or_identity ;;;
  ret (AP x y z None).
Theorem C15_assign_point_refuted : exists (P : point Fq) a c (w : asg Fr),
  assign_point P (ctx0 Fr) = Some (a, c) /\ sat w c /\ w (av_cell (pt_z a)) = ofZ 2.
Proof.
  assert (Hr : @fools Fr _ _ (@assign_point Fr Fq (G Fq)) assign_flag2 (fun w a => feqbN (w (av_cell (pt_z a))) (ofZ 2)) = true) by (vm_compute; reflexivity).
  destruct (fools_ok _ _ _ Hr) as (a & c & w & H1 & H2 & H3). exists (G Fq), a, c, w. split; [exact H1|]. split; [exact H2|]. now apply feqbN_ok.
Qed.
Print Assumptions C15_assign_point_refuted.

(** ** C17: scalar decomposition *)
(** [bits]: least significant bit first; [windows]: most significant window first. *)
Fixpoint bits_value (l : list bool) : Z := match l with [] => 0 | b :: l => Z.b2z b + 2 * bits_value l end.
Definition windows_value (ws : Z) (l : list (list bool)) : Z := fold_left (fun k bs => 2 ^ ws * k + bits_value bs) l 0.
Definition bit_cell (w : asg Fr) (a : aval Fr) (b : bool) : Prop := w (av_cell a) = if b then f1 else f0.
Lemma bits_value_eq l : bits_value l = Z.of_N (bitsN l).
Proof. induction l as [|[] l IH]; cbn [bits_value bitsN]; [reflexivity|rewrite IH; cbn [Z.b2z N.b2n]; lia..]. Qed.
Lemma windows_value_eq ws l : windows_value (Z.of_nat ws) l = Z.of_N (winsN ws l).
Proof.
  unfold windows_value, winsN. change 0 with (Z.of_N 0) at 1. generalize 0%N. induction l as [|bs l IH]; intro k; cbn [fold_left]; [reflexivity|].
  rewrite <- IH. f_equal. rewrite bits_value_eq, N2Z.inj_add, N2Z.inj_mul, N2Z.inj_pow, nat_N_Z. reflexivity.
Qed.
Theorem C17_decompose_sound (w : asg Fr) ws s c windows c' : ws = 2%nat \/ ws = 4%nat ->
  decompose_scalar ws s c = Some (windows, c') -> sat w c' ->
  exists bits, Forall2 (Forall2 (bit_cell w)) windows bits /\ length bits = (if (ws =? 2)%nat then 127 else 64)%nat /\
    Forall (fun l => length l = ws) bits /\ toZ (w (av_cell s)) = windows_value (Z.of_nat ws) bits mod fr_mod.
Proof.
  intros Hws H Hs. assert (Hn : num_windows Fr ws = (if (ws =? 2)%nat then 127 else 64)%nat).
  { destruct Hws as [-> | ->]; [exact (windows_2 Fr fr_n)|exact (windows_4 Fr fr_n)]. }
  destruct (decompose_scalar_snd Fr w ws s ltac:(rewrite Hn; destruct Hws; subst; cbn; lia) c windows c' H Hs) as [_ (bss & H1 & H2 & H3 & H4)].
  exists bss. split; [exact H1|]. split; [now rewrite H2|]. split; [exact H3|].
  rewrite H4, windows_value_eq. unfold ofN. rewrite toZ_ofZ. reflexivity.
Qed.
Print Assumptions C17_decompose_sound.
(** Every scalar can be decomposed. *)
Theorem C17_decompose_complete ws s (c : ctx Fr) : (1 <= ws <= 4)%nat -> good c -> valid c s ->
  exists windows c', decompose_scalar ws s c = Some (windows, c') /\ sat (adv c') c' /\ adv c' (av_cell s) = av_val s.
Proof.
  intros Hws Gc Hs. destruct (decompose_scalar_cpl Fr fr_n c ws s Hws Hs Gc) as (r & c' & E & L & G' & _).
  exists r, c'. split; [exact E|]. split; [exact (good_sat Fr c' G')|]. exact (proj2 (valid_le Fr c c' s L Hs)).
Qed.
Print Assumptions C17_decompose_complete.
Example C17_example : exists (w : asg Fr) s c windows c', decompose_scalar 4 s c = Some (windows, c') /\ sat w c' /\ toZ (w (av_cell s)) = fr_mod - 1.
Proof.
  destruct (assign_cpl Fr (ctx0 Fr) (ofZ (fr_mod - 1)) (good_ctx0 Fr)) as (s & c & E & _ & Gc & Hs & Vs).
  destruct (C17_decompose_complete 4 s c ltac:(lia) Gc Hs) as (r & c' & E' & S' & V). exists (adv c'), s, c, r, c'.
  split; [exact E'|]. split; [exact S'|]. rewrite V, Vs. vm_compute. reflexivity.
Qed.

(** ** C16: scalar multiplication *)
(** The scalar is the value of its cell. *)
Definition scalar (w : asg Fr) (s : aval Fr) : N := Z.to_N (toZ (w (av_cell s))).
Theorem C16_mul_sound (w : asg Fr) a s c r c' (P : point Fq) :
  ecc_mul Fq a s c = Some (r, c') -> sat w c' -> represents w a P -> represents w r (smul (scalar w s) P).
Proof.
  intros H Hs HP. pose proof (on_curve_in_group Fq fq_n P (represents_on w a P HP)) as GP. apply represents_iff. destruct (ecc_mul_snd Fr Fq fr_n fq_n w a s c r c' H Hs) as [_ K].
  destruct (K P (proj1 (represents_iff w a P) HP)) as (k & _ & Ek & Hk). now rewrite (scal Fr Fq fr_n fq_n w s k P GP Ek) in Hk.
Qed.
Print Assumptions C16_mul_sound.
(** The sum of the multiples; the lists have the same, non-zero length or the call panics. *)
Theorem C16_shamir_sound (w : asg Fr) points scalars c r c' (Ps : list (point Fq)) :
  shamir Fq points scalars c = Some (r, c') -> sat w c' -> Forall2 (represents w) points Ps ->
  length points = length scalars /\
  represents w r (fold_right padd Inf (map (fun sP => smul (scalar w (fst sP)) (snd sP)) (combine scalars Ps))).
Proof.
  intros H Hs HP.
  assert (GP : Forall in_group Ps) by (clear - HP; induction HP; constructor; [apply (on_curve_in_group Fq fq_n); eapply represents_on; eassumption|assumption]).
  destruct (shamir_snd Fr Fq fr_n fq_n w points scalars c r c' H Hs) as [_ K].
  assert (HP' : Forall2 (rp Fr Fq w) points Ps) by (clear - HP; induction HP; constructor; [now apply represents_iff|assumption]).
  destruct (K Ps HP') as (ks & Hks & Hl & Hk). split.
  { rewrite (Forall2_len _ _ _ HP), <- Hl. symmetry. exact (Forall2_len _ _ _ Hks). }
  apply represents_iff. destruct (msm_scal Fr Fq fr_n fq_n w scalars ks Hks Ps GP) as [E _]. rewrite E in Hk.
  replace (fold_right padd Inf (map (fun sP => smul (scalar w (fst sP)) (snd sP)) (combine scalars Ps)))
    with (msm (combine (map (sc_of Fr w) scalars) Ps)); [exact Hk|]. clear.
  revert Ps. induction scalars as [|s ss IH]; intros [|P Ps]; cbn [map combine msm fold_right fst snd]; try reflexivity. now rewrite IH.
Qed.
Print Assumptions C16_shamir_sound.
Theorem C16_constant_mul_sound (w : asg Fr) (P : point Fq) s c r c' :
  constant_mul P s c = Some (r, c') -> sat w c' -> on_curve b3 P -> represents w r (smul (scalar w s) P).
Proof.
  intros H Hs HP. pose proof (on_curve_in_group Fq fq_n P HP) as GP. apply represents_iff. destruct (constant_mul_snd Fr Fq fr_n fq_n w P s (proj1 GP) (proj2 GP) c r c' H Hs) as [_ (k & _ & Ek & Hk)].
  now rewrite (scal Fr Fq fr_n fq_n w s k P GP Ek) in Hk.
Qed.
Print Assumptions C16_constant_mul_sound.
(** Multiplying a constant never aborts, whatever the scalar. *)
Theorem C16_constant_mul_complete (P : point Fq) s (c : ctx Fr) : good c -> valid c s ->
  exists r c', constant_mul P s c = Some (r, c') /\ sat (adv c') c' /\ adv c' (av_cell s) = av_val s.
Proof.
  intros Gc Hs. destruct (constant_mul_cpl Fr Fq fr_n fq_n c P s Hs Gc) as (r & c' & E & L & G' & _).
  exists r, c'. split; [exact E|]. split; [exact (good_sat Fr c' G')|]. exact (proj2 (valid_le Fr c c' s L Hs)).
Qed.
Print Assumptions C16_constant_mul_complete.
Example C16_example : exists (w : asg Fr) s c r c', constant_mul (G Fq) s c = Some (r, c') /\ sat w c' /\ on_curve b3 (G Fq) /\
  represents w r (smul 1000 (G Fq)).
Proof.
  destruct (assign_cpl Fr (ctx0 Fr) (ofZ 1000) (good_ctx0 Fr)) as (s & c & E & _ & Gc & Hs & Vs).
  destruct (C16_constant_mul_complete (G Fq) s c Gc Hs) as (r & c' & E' & S' & V). pose proof (proj1 (generator_order Fq fq_n)) as GG.
  exists (adv c'), s, c, r, c'. split; [exact E'|]. split; [exact S'|]. split; [exact GG|].
  replace 1000%N with (scalar (adv c') s); [exact (C16_constant_mul_sound (adv c') (G Fq) s c r c' E' S' GG)|].
  unfold scalar. rewrite V, Vs. vm_compute. reflexivity.
Qed.
