(** The honest prover's values in the point operations: an operation that runs to the
    end leaves the coordinates of the right group element. Together with the slopes
    that can be computed this gives runs of [mul] and [shamir] that succeed. *)
From Coq Require Import ZArith Arith NArith Lia List Bool Ring Field Znumtheory.
From Verif Require Import Util Algebra PField Gate GateProofs GateOps GateExtra Integer Bn254
  IntegerFacts IntegerSound IntegerOps IntegerComplete IntegerComplete2 IntegerComplete3
  IntegerHistory IntegerHistorySound IntegerHistoryComplete IntegerValue Curve CurveAssoc Bn254Curve Bn254Prime Ecc EccSound EccScalar EccMul EccComplete
  EccHistory CurveOrder EccMulComplete.
Import ListNotations.

Section Honest.
  Variables NN W : PF.
  Hypothesis HN : pf_n NN = fr_mod.
  Hypothesis HW : pf_n W = fq_mod.
  Add Field WF : (f_th W).
  Implicit Types (c : ctx NN) (P Q : point W).
  Local Notation has_int := (has_int NN W).
  Local Notation has_bit := (has_bit NN).
  Local Notation has_pt := (has_pt NN W).
  Local Notation has_curv := (has_curv NN W).
  Local Notation zero_curv := (zero_curv NN W).
  Local Notation zero_cache := (zero_cache NN W).
  Local Notation bb := (curve_b W).
  Local Notation onc := (on_curve bb).
  Local Notation px := (px NN W).
  Local Notation py := (py NN W).
  Local Notation pz := (pz W).
  Local Notation slope_ok := (slope_ok W).
  Local Notation rp := (rp NN W).

  Lemma has_holds c a v i : has_int c a (v, i) -> holds_int NN W (adv c) a v.
  Proof.
    intros ((O & Hov & B & _) & V & Ov). cbn [fst snd] in *. split; [|split; [|assumption]].
    - unfold fv. now rewrite (ok_iv NN _ _ O).
    - split; [now apply (ok_bnd NN)|now apply (ok_natok NN)].
  Qed.
  Lemma has_bit_holds c f z : has_bit c f z -> holds_bit NN (adv c) f z.
  Proof. intros [[_ V] E]. unfold holds_bit. now rewrite V. Qed.
  Lemma cpl_snd c {A} (m : B NN A) (P : A -> ctx NN -> Prop) (Q : asg NN -> A -> Prop) : cpl c m P -> (forall w, snd_ w m (Q w)) ->
    cpl c m (fun r c' => P r c' /\ Q (adv c') r).
  Proof.
    intros H S G. destruct (H G) as (r & c' & E & L & G' & HP). exists r, c'. split; [assumption|]. split; [assumption|]. split; [assumption|].
    split; [assumption|]. exact (good_snd NN _ _ _ _ _ E G' (S (adv c'))).
  Qed.

  (** the cached slope, in the prover's values *)
  Definition has_slope c (k : acurv NN) P : Prop := exists v i z, has_int c (cv_v k) (v, i) /\ has_bit c (cv_z k) z /\
    match P with
    | Inf => v = f0
    | Aff x y => z = false /\ fmul v (fmul (fadd f1 f1) y) = fmul (fmul (fadd (fadd f1 f1) f1) x) x
    end.
  (** the prover's cells of [a] hold the point [P] (coordinates (0,0) for the identity),
      with even overflow counts *)
  Definition hp c (a : apoint NN) P : Prop := onc P /\
    (exists i j, has_pt c a (px P) (py P) (pz P) i j /\ Nat.even i = true /\ Nat.even j = true) /\
    match pt_c a with None => True | Some k => has_slope c k P end.
  Lemma hp_on c a P : hp c a P -> onc P.
  Proof. now intros [H _]. Qed.
  Lemma hp_le c c' a P : ctx_le c c' -> hp c a P -> hp c' a P.
  Proof.
    intros L (O & (i & j & H & Ei & Ej) & K). split; [assumption|]. split; [exists i, j; split; [now apply (has_pt_le NN W c)|auto]|].
    destruct (pt_c a) as [k|]; [|exact I]. destruct K as (v & i' & z & H1 & H2 & H3). exists v, i', z.
    split; [now apply (has_int_le NN W c)|]. split; [now apply (has_bit_le NN c)|assumption].
  Qed.
  Lemma hp_rp c a P : hp c a P -> rp (adv c) a P.
  Proof.
    intros (O & (i & j & (Hx & Hy & Hz & Hc) & _) & K). split.
    - exists (px P), (py P), (pz P). split; [exact (has_holds _ _ _ _ Hx)|]. split; [exact (has_holds _ _ _ _ Hy)|]. split; [exact (has_bit_holds _ _ _ Hz)|].
      split; [destruct P; reflexivity|]. split; [assumption|]. destruct (pt_c a) as [k|]; [|exact I].
      destruct Hc as (v & i' & z & H1 & H2). exists v, z. split; [exact (has_holds _ _ _ _ H1)|exact (has_bit_holds _ _ _ H2)].
    - unfold cvok. destruct (pt_c a) as [k|]; [|exact I]. destruct K as (v & i' & z & H1 & H2 & H3). destruct P as [|x y]; [exact I|].
      destruct H3 as [-> H3]. exists v. split; [exact (has_holds _ _ _ _ H1)|]. split; [exact (has_bit_holds _ _ _ H2)|exact H3].
  Qed.
  Lemma hp_of c a P x y z i j : has_pt c a x y z i j -> rp (adv c) a P -> Nat.even i = true -> Nat.even j = true ->
    (P = Inf -> x = f0 /\ y = f0 /\ zero_cache c a) -> hp c a P.
  Proof.
    intros (Hx & Hy & Hz & Hc) [(x' & y' & z' & Hx' & Hy' & Hz' & EP & O & _) K] Ei Ej H0.
    assert (Ex : x = x') by exact (int_inj NN W _ _ _ _ (has_holds _ _ _ _ Hx) Hx').
    assert (Ey : y = y') by exact (int_inj NN W _ _ _ _ (has_holds _ _ _ _ Hy) Hy').
    assert (Ez : z = z') by exact (bit_inj NN _ _ _ _ (has_bit_holds _ _ _ Hz) Hz'). subst x' y' z'.
    assert (E : px P = x /\ py P = y /\ pz P = z).
    { destruct z; subst P; [|auto]. destruct (H0 eq_refl) as (-> & -> & _). auto. }
    destruct E as (E1 & E2 & E3). split; [assumption|]. split; [exists i, j; rewrite E1, E2, E3; split; [repeat (split; [assumption|])|split]; assumption|].
    unfold EccSound.cvok in K. unfold EccComplete.zero_cache in H0. destruct (pt_c a) as [k|]; [|exact I].
    destruct Hc as (v & i' & zk & H1 & H2). exists v, i', zk. split; [assumption|]. split; [assumption|]. destruct P as [|u w].
    - destruct (H0 eq_refl) as (_ & _ & (i0 & Hv)). destruct H1 as (_ & H1 & _), Hv as (_ & Hv & _). cbn [fst] in *. congruence.
    - destruct K as (v' & Hv' & Hz0 & E). rewrite (int_inj NN W _ _ _ _ (has_holds _ _ _ _ H1) Hv'). split; [|exact E].
      exact (bit_inj NN _ _ _ _ (has_bit_holds _ _ _ H2) Hz0).
  Qed.
  Lemma hp_zero c a : hp c a Inf -> zero_cache c a.
  Proof.
    intros (_ & _ & K). unfold EccComplete.zero_cache. destruct (pt_c a); [|exact I]. destruct K as (v & i & z & H1 & _ & ->). now exists i.
  Qed.

  (** the tangent slope at [P] can be computed, whatever the overflow count *)
  Definition fine P : Prop := match P with Inf => True | Aff x y => slope_ok x y 0 /\ slope_ok x y 1 end.
  Lemma fine_slope P j : fine P -> slope_ok (px P) (py P) j.
  Proof.
    destruct P as [|x y]; [intros _; left; split; reflexivity|]. cbn [px py coords fst snd EccComplete.px EccComplete.py]. intros [H0 H1].
    destruct j as [|j]; [exact H0|]. exact H1.
  Qed.
  (** cached or computable *)
  Definition ready (a : apoint NN) P : Prop := pt_c a <> None \/ fine P.
  Lemma ready_slope a P j : ready a P -> pt_c a <> None \/ slope_ok (px P) (py P) j.
  Proof. intros [H|H]; [now left|right; now apply fine_slope]. Qed.

  (** ** Curvature, doubling, addition, selection *)
  Lemma curvature_hp c a P : hp c a P -> ready a P ->
    cpl c (curvature W a) (fun r c' => hp c' (snd r) P /\ pt_c (snd r) = Some (fst r)).
  Proof.
    intros Ha Hr. pose proof Ha as (O & (i & j & Hp & Ei & Ej) & K).
    eapply cpl_conseq; [exact (cpl_snd c _ _ _ (curvature_cpl NN W HN HW c a _ _ _ _ _ Hp (ready_slope _ _ j Hr)) (fun w => curv_rp NN W HN HW w a))|].
    intros [k a'] c' _ L _ ((H1 & H2 & H3 & _ & H4) & Hs). cbn [fst snd] in *. split; [|assumption].
    apply (hp_of c' a' P _ _ _ i j H1); auto.
    - apply Hs. apply hp_rp. now apply (hp_le c).
    - intros ->. split; [reflexivity|]. split; [reflexivity|]. unfold EccComplete.zero_cache. rewrite H2. apply H4; [reflexivity|]. exact (hp_zero _ _ Ha).
  Qed.

  Lemma padd_self P : onc P -> padd P P = Inf -> P = Inf.
  Proof.
    destruct P as [|x y]; [reflexivity|]. intros O. cbn [padd]. destruct (feq_dec x x) as [_|n]; [|congruence].
    destruct (feq_dec (fadd y y) f0) as [e|_]; [|discriminate]. exfalso.
    assert (E : fmul (fadd f1 f1) y = f0) by (rewrite <- e; ring). apply fmul_integral in E. destruct E as [E|E].
    - exact (two_neq0 W HW E).
    - exact (no_ordinate_0 W HW _ _ O E).
  Qed.
  Lemma double_hp c a P : hp c a P -> ready a P ->
    cpl c (ecc_double W a) (fun r c' => hp c' (fst r) (padd P P)).
  Proof.
    intros Ha Hr. pose proof Ha as (O & (i & j & Hp & Ei & Ej) & K).
    eapply cpl_conseq; [exact (cpl_snd c _ _ _ (ecc_double_cpl NN W HN HW c a _ _ _ _ _ Hp Ei (ready_slope _ _ j Hr)) (fun w => double_rp NN W HN HW w a))|].
    intros [r a'] c' _ L _ (((Er & x & y & z & i' & H1 & H2 & H3) & H4 & H5) & Hs). cbn [fst snd] in *.
    destruct (Hs _ (hp_rp _ _ _ (hp_le _ _ _ _ L Ha))) as [S1 S2].
    apply (hp_of c' r _ _ _ _ i' _ H1); auto; [apply lin_even; now rewrite even_plus2|].
    intro E. apply padd_self in E; [|assumption]. subst P. destruct (H3 eq_refl eq_refl (hp_zero _ _ Ha)) as [-> ->].
    split; [reflexivity|]. split; [reflexivity|]. unfold EccComplete.zero_cache. now rewrite Er.
  Qed.

  (** the sum is the identity only if both summands are *)
  Definition nocancel P Q : Prop := padd P Q = Inf -> P = Inf /\ Q = Inf.
  Lemma add_hp c a b P Q : hp c a P -> hp c b Q -> ready a P -> nocancel P Q ->
    cpl c (ecc_add W a b) (fun r c' => hp c' (fst r) (padd P Q) /\ hp c' (snd r) P /\ pt_c (snd r) <> None).
  Proof.
    intros Ha Hb Hr Hn. pose proof Ha as (O & (i & j & Hp & Ei & Ej) & K). pose proof Hb as (Ob & (ib & jb & Hpb & Eib & Ejb) & Kb).
    pose proof (even_30 _ Ej (has_lt NN W _ _ _ _ (proj1 (proj2 Hp)))) as Lj. pose proof (even_30 _ Ejb (has_lt NN W _ _ _ _ (proj1 (proj2 Hpb)))) as Ljb.
    eapply cpl_conseq; [refine (cpl_snd c _ _ _ (ecc_add_cpl NN W HN HW c a b _ _ _ _ _ _ _ _ _ _ Hp Hpb Ei Eib _ (ready_slope _ _ j Hr)) (fun w => add_rp NN W HN HW w a b)); lia|].
    intros [r a'] c' _ L _ (((Er & x & y & z & i' & j' & H1 & H2 & H3 & H4 & H5) & H6 & H7 & H8) & Hs). cbn [fst snd] in *.
    destruct (Hs _ _ (hp_rp _ _ _ (hp_le _ _ _ _ L Ha)) (hp_rp _ _ _ (hp_le _ _ _ _ L Hb))) as [S1 S2]. split; [|split; [|assumption]].
    - apply (hp_of c' r _ _ _ _ i' j' H1); auto.
      intro E. destruct (Hn E) as [-> ->]. destruct (H4 eq_refl) as (-> & -> & _).
      split; [reflexivity|]. split; [reflexivity|]. unfold EccComplete.zero_cache. now rewrite Er.
    - apply (hp_of c' a' _ _ _ _ i j H6); auto. intros ->. split; [reflexivity|]. split; [reflexivity|]. apply H8; [reflexivity|]. exact (hp_zero _ _ Ha).
  Qed.

  Lemma bisec_hp c s a b z P Q : has_bit c s z -> hp c a P -> hp c b Q -> ready a P -> ready b Q ->
    cpl c (bisec_point_with_curvature W s a b) (fun r c' => hp c' r (if z then P else Q) /\ pt_c r <> None).
  Proof.
    intros Hs Ha Hb Ra Rb. pose proof Ha as (Oa & (ia & ja & Pa & Eia & Eja) & Ka). pose proof Hb as (Ob & (ib & jb & Pb & Eib & Ejb) & Kb).
    pose proof Pa as (Hxa & Hya & Hza & Hca). pose proof Pb as (Hxb & Hyb & Hzb & Hcb).
    refine (cpl_conseq NN c _ _ _ (cpl_snd c _ (fun r c' => exists x y z' i j, has_pt c' r x y z' i j /\ Nat.even i = true /\ Nat.even j = true /\ pt_c r <> None /\
      ((if z then P else Q) = Inf -> x = f0 /\ y = f0 /\ zero_cache c' r)) _ _ (fun w => bpoint_rp NN W HN HW w s a b)) _); cycle 1.
    { intros r c' _ L _ ((x & y & z' & i & j & H1 & H2 & H3 & H4 & H5) & S1). split; [|assumption].
      apply (hp_of c' r _ _ _ _ i j H1); auto. apply S1; [|apply hp_rp; now apply (hp_le c)..].
      apply has_bit_holds. now apply (has_bit_le NN c). }
    unfold bisec_point_with_curvature.
    eapply cpl_bind; [exact (cbisec NN W c _ _ _ _ _ _ _ _ Hs Hxa Hxb)|]. intros x c1 _ L1 _ Hx.
    eapply cpl_bind; [exact (cbisec NN W c1 _ _ _ _ _ _ _ _ (has_bit_le NN _ _ _ _ L1 Hs) (has_int_le NN W _ _ _ _ L1 Hya) (has_int_le NN W _ _ _ _ L1 Hyb))|].
    intros y c2 _ L2 _ Hy. pose proof (ctx_le_trans NN _ _ _ L1 L2) as L02.
    eapply cpl_bind; [exact (bbisec NN c2 _ _ _ _ _ _ (has_bit_le NN _ _ _ _ L02 Hs) (has_bit_le NN _ _ _ _ L02 Hza) (has_bit_le NN _ _ _ _ L02 Hzb))|].
    intros z' c3 _ L3 _ Hz. pose proof (ctx_le_trans NN _ _ _ L02 L3) as L03.
    eapply cpl_bind; [exact (curvature_cpl NN W HN HW c3 a _ _ _ _ _ (has_pt_le NN W _ _ _ _ _ _ _ _ L03 Pa) (ready_slope _ _ ja Ra))|].
    intros [ca a'] c4 _ L4 _ (_ & _ & Hca' & _ & Za). pose proof (ctx_le_trans NN _ _ _ L03 L4) as L04.
    eapply cpl_bind; [exact (curvature_cpl NN W HN HW c4 b _ _ _ _ _ (has_pt_le NN W _ _ _ _ _ _ _ _ L04 Pb) (ready_slope _ _ jb Rb))|].
    intros [cb b'] c5 _ L5 _ (_ & _ & Hcb' & _ & Zb). cbn [fst snd] in *. pose proof (ctx_le_trans NN _ _ _ L04 L5) as L05.
    eapply cpl_bind; [exact (bisec_curvature_cpl NN W c5 _ _ _ _ (has_bit_le NN _ _ _ _ L05 Hs) (has_curv_le NN W _ _ _ L5 Hca') Hcb')|]. intros cc c6 _ L6 _ [Hcc Zc].
    apply cpl_ret. pose proof (ctx_le_trans NN _ _ _ L4 (ctx_le_trans NN _ _ _ L5 L6)) as L36. pose proof (ctx_le_trans NN _ _ _ L3 L36) as L26.
    eexists _, _, _, _, _. split.
    { split; [exact (has_int_le NN W _ _ _ _ (ctx_le_trans NN _ _ _ L2 L26) Hx)|]. split; [exact (has_int_le NN W _ _ _ _ L26 Hy)|].
      split; [exact (has_bit_le NN _ _ _ _ L36 Hz)|exact Hcc]. }
    split; [now apply max_even|]. split; [now apply max_even|]. split; [discriminate|].
    intro E. unfold EccComplete.zero_cache. cbn [pt_c]. destruct z; subst; (split; [reflexivity|]; split; [reflexivity|]); apply Zc.
    - apply (EccComplete.zero_curv_le NN W c4); [assumption|]. apply Za; [reflexivity|]. apply (zero_cache_le NN W c); [assumption|]. exact (hp_zero _ _ Ha).
    - apply Zb; [reflexivity|]. apply (zero_cache_le NN W c); [assumption|]. exact (hp_zero _ _ Hb).
  Qed.

  Lemma identity_hp c : cpl c (assign_identity W) (fun r c' => hp c' r Inf /\ pt_c r <> None).
  Proof.
    eapply cpl_conseq; [exact (cpl_snd c _ _ _ (assign_identity_cpl NN W HN HW c) (fun w => ident_rp NN W HN HW w))|].
    intros r c' _ L _ ((H1 & H2 & H3) & Hs). split; [|assumption]. apply (hp_of c' r Inf _ _ _ _ _ H1); auto.
  Qed.
  Lemma assign_point_hp c P : onc P -> cpl c (assign_point P) (fun r c' => hp c' r P).
  Proof.
    intro O. eapply cpl_conseq; [exact (assign_point_cpl NN W HN HW c P O)|]. intros r c' _ _ _ [H E].
    split; [assumption|]. split; [exists 0%nat, 0%nat; auto|]. now rewrite E.
  Qed.

  (** ** Candidates *)
  Definition hq c a P : Prop := hp c a P /\ ready a P.
  Lemma hq_le c c' a P : ctx_le c c' -> hq c a P -> hq c' a P.
  Proof. intros L [H1 H2]. split; [now apply (hp_le c)|assumption]. Qed.
  Fixpoint hcl c (l : list (apoint NN)) (f : N -> point W) {struct l} : Prop :=
    match l with [] => True | a :: l => hq c a (f 0%N) /\ hcl c l (fun i => f (N.succ i)) end.
  Lemma hcl_ext c l : forall f g, (forall i, f i = g i) -> hcl c l f -> hcl c l g.
  Proof.
    induction l as [|a l IH]; intros f g E H; [exact I|]. destruct H as [H1 H2]. split; [now rewrite <- E|].
    eapply IH; [|exact H2]. intro i. apply E.
  Qed.
  Lemma hcl_le c c' l : ctx_le c c' -> forall f, hcl c l f -> hcl c' l f.
  Proof. intros L. induction l as [|a l IH]; intros f H; [exact I|]. destruct H as [H1 H2]. split; [now apply (hq_le c)|auto]. Qed.

  (** multiples below the order are not the identity *)
  Lemma nz k P : onc P -> (k < Z.to_N fr_mod)%N -> smul k P = Inf -> P = Inf \/ k = 0%N.
  Proof.
    intros O Hk E. destruct (point_eq_dec W P Inf) as [|n]; [now left|right].
    pose proof (on_curve_in_group W HW P O) as HG. unfold in_group in HG.
    apply (order_inj W HW (Z.to_N fr_mod) P); auto.
    - rewrite Z2N.id by (unfold fr_mod; lia). exact fr_prime.
    - exact (proj2 HG).
    - reflexivity.
  Qed.
  Lemma nocancel_mul j k P : onc P -> (j + k < Z.to_N fr_mod)%N -> nocancel (smul j P) (smul k P).
  Proof.
    intros O H E. rewrite <- (sadd W HW) in E by assumption. destruct (nz _ _ O H E) as [->|E0].
    - rewrite !(smul_inf W). auto.
    - assert (j = 0 /\ k = 0)%N as [-> ->] by lia. auto.
  Qed.
  Lemma fr_big : (1000 < Z.to_N fr_mod)%N.
  Proof. reflexivity. Qed.

  Lemma build_hp n : forall c j prev a P, hq c prev (smul j P) -> hp c a P -> (j + N.of_nat n < 1000)%N ->
    (forall i, j < i -> i <= j + N.of_nat n -> fine (smul i P))%N ->
    cpl c (build_candidates W n prev a) (fun l c' => length l = S n /\ hcl c' l (fun i => smul (j + i) P)).
  Proof.
    induction n as [|n IH]; intros c j prev a P Hprev Ha Hj Hf; cbn [build_candidates].
    - apply cpl_ret. split; [reflexivity|]. cbn [hcl]. now rewrite N.add_0_r.
    - pose proof (hp_on _ _ _ Ha) as O. destruct Hprev as [Hprev Rprev]. pose proof fr_big as Hbig.
      eapply cpl_bind; [apply (add_hp c prev a _ _ Hprev Ha Rprev)|].
      { pose proof (nocancel_mul j 1 P O ltac:(lia)) as H. now rewrite (smul_1 W) in H. }
      intros [ai prev'] c1 _ L1 _ (H1 & H2 & H3). cbn [fst snd] in *.
      assert (E1 : padd (smul j P) P = smul (j + 1) P) by (rewrite (sadd W HW), (smul_1 W) by assumption; reflexivity). rewrite E1 in H1.
      eapply cpl_bind; [apply (IH c1 (j + 1)%N ai a P)|].
      + split; [assumption|]. right. apply Hf; lia.
      + now apply (hp_le c).
      + lia.
      + intros i Hi1 Hi2. apply Hf; lia.
      + intros rest c2 _ L2 _ [Hl Hr]. apply cpl_ret. split; [cbn; lia|]. split.
        * rewrite N.add_0_r. apply (hq_le c1); [assumption|]. split; [assumption|now left].
        * eapply hcl_ext; [|exact Hr]. intro i. cbn beta. f_equal. lia.
  Qed.
  Lemma build_curv_hp n : forall c j prev a P, hq c prev (smul j P) -> hp c a P -> (j + N.of_nat n < 1000)%N ->
    (forall i, j < i -> i <= j + N.of_nat n -> fine (smul i P))%N ->
    cpl c (build_candidates_with_curvature W n prev a) (fun l c' => length l = S n /\ hcl c' l (fun i => smul (j + i) P)).
  Proof.
    induction n as [|n IH]; intros c j prev a P Hprev Ha Hj Hf; cbn [build_candidates_with_curvature].
    - apply cpl_ret. split; [reflexivity|]. cbn [hcl]. now rewrite N.add_0_r.
    - pose proof (hp_on _ _ _ Ha) as O. destruct Hprev as [Hprev Rprev]. pose proof fr_big as Hbig.
      eapply cpl_bind; [apply (add_hp c prev a _ _ Hprev Ha Rprev)|].
      { pose proof (nocancel_mul j 1 P O ltac:(lia)) as H. now rewrite (smul_1 W) in H. }
      intros [ai prev'] c1 _ L1 _ (H1 & H2 & H3). cbn [fst snd] in *.
      assert (E1 : padd (smul j P) P = smul (j + 1) P) by (rewrite (sadd W HW), (smul_1 W) by assumption; reflexivity). rewrite E1 in H1.
      eapply cpl_bind; [apply (curvature_hp c1 ai _ H1); right; apply Hf; lia|]. intros [k ai'] c2 _ L2 _ [H4 H5]. cbn [fst snd] in *.
      pose proof (ctx_le_trans NN _ _ _ L1 L2) as L02.
      eapply cpl_bind; [apply (IH c2 (j + 1)%N ai' a P)|].
      + split; [assumption|]. left. congruence.
      + now apply (hp_le c).
      + lia.
      + intros i Hi1 Hi2. apply Hf; lia.
      + intros rest c3 _ L3 _ [Hl Hr]. apply cpl_ret. split; [cbn; lia|]. split.
        * rewrite N.add_0_r. apply (hq_le c1); [now apply (ctx_le_trans NN _ c2)|]. split; [assumption|now left].
        * eapply hcl_ext; [|exact Hr]. intro i. cbn beta. f_equal. lia.
  Qed.

  Lemma halve_hp bit z : forall n l c f, length l = (2 * n)%nat -> has_bit c bit z -> hcl c l f ->
    cpl c (halve W bit l) (fun r c' => length r = n /\ hcl c' r (fun i => f (N.b2n z + 2 * i)%N)).
  Proof.
    induction n as [|n IH]; intros l c f Hl Hb Hc.
    - destruct l; [|discriminate]. cbn [halve]. apply cpl_ret. split; [reflexivity|exact I].
    - destruct l as [|a0 [|a1 l]]; cbn [length] in Hl; try lia. cbn [halve]. destruct Hc as ([H0 R0] & [H1 R1] & H2).
      eapply cpl_bind; [exact (bisec_hp c bit a1 a0 z _ _ Hb H1 H0 R1 R0)|]. intros p c1 _ L1 _ [Hp Cp].
      eapply cpl_bind; [apply (IH l c1 (fun i => f (N.succ (N.succ i)))); [lia|now apply (has_bit_le NN c)|now apply (hcl_le c)]|].
      intros cs c2 _ L2 _ [Hcl Hcs]. apply cpl_ret. split; [cbn; lia|]. split.
      + apply (hq_le c1); [assumption|]. split; [|now left]. destruct z; exact Hp.
      + eapply hcl_ext; [|exact Hcs]. intro i. cbn beta. f_equal. lia.
  Qed.
  Lemma bits_le c c' bits bs : ctx_le c c' -> Forall2 (has_bit c) bits bs -> Forall2 (has_bit c') bits bs.
  Proof. intros L. induction 1; constructor; [now apply (has_bit_le NN c)|assumption]. Qed.
  Lemma pick_hp : forall bits bs c cands f, Forall2 (has_bit c) bits bs -> length cands = (2 ^ length bits)%nat -> hcl c cands f ->
    cpl c (pick_candidate W cands bits) (fun r c' => hq c' r (f (bitsN bs))).
  Proof.
    induction bits as [|bit bits IH]; intros bs c cands f Hb Hl Hc; cbn [pick_candidate].
    - destruct cands as [|a cands]; [discriminate|]. inversion Hb; subst. apply (cpl_at NN c _ 0 a); [reflexivity|]. exact (proj1 Hc).
    - inversion Hb as [|? z ? bs' Hz Hbs E1 E2]; subst. cbn [length Nat.pow] in Hl.
      eapply cpl_bind; [apply (halve_hp bit z (2 ^ length bits) cands c f); [lia|assumption|assumption]|]. intros cs c1 _ L1 _ [Hcl Hcs].
      eapply cpl_conseq; [exact (IH bs' c1 cs _ (bits_le _ _ _ _ L1 Hbs) Hcl Hcs)|]. intros r c2 _ _ _ H. exact H.
  Qed.

  Lemma repeat_double_hp n : forall c acc P, hp c acc P -> (forall i, (i < n)%nat -> fine (smul (2 ^ N.of_nat i) P)) ->
    cpl c (repeat_double W n acc) (fun r c' => hp c' r (smul (2 ^ N.of_nat n) P)).
  Proof.
    induction n as [|n IH]; intros c acc P Ha Hf; cbn [repeat_double].
    - apply cpl_ret. change (2 ^ N.of_nat 0)%N with 1%N. now rewrite (smul_1 W).
    - pose proof (hp_on _ _ _ Ha) as O.
      assert (E2 : forall k, smul k (padd P P) = smul (2 * k) P).
      { intro k. rewrite N.mul_comm, (smulmul W HW) by assumption. f_equal. change 2%N with (1 + 1)%N. now rewrite (sadd W HW), (smul_1 W). }
      eapply cpl_bind; [apply (double_hp c acc P Ha)|].
      { right. specialize (Hf 0%nat ltac:(lia)). change (2 ^ N.of_nat 0)%N with 1%N in Hf. now rewrite (smul_1 W) in Hf. }
      intros d c1 _ L1 _ Hd. eapply cpl_conseq; [apply (IH c1 (fst d) _ Hd)|].
      + intros i Hi. rewrite E2. specialize (Hf (S i) ltac:(lia)). now rewrite Nat2N.inj_succ, N.pow_succ_r' in Hf.
      + intros r c2 _ _ _ Hr. rewrite E2 in Hr. now rewrite Nat2N.inj_succ, N.pow_succ_r'.
  Qed.

  (** ** Scalar multiplication *)
  Local Open Scope N_scope.
  Definition val16 (bss : list (list bool)) (k : N) : N := fold_left (fun k bs => 16 * k + bitsN bs) bss k.
  Lemma val16_split bss : Forall (fun l => length l = 4%nat) bss -> forall k,
    exists v, val16 bss k = 16 ^ N.of_nat (length bss) * k + v /\ v < 16 ^ N.of_nat (length bss).
  Proof.
    induction 1 as [|bs bss Hb _ IH]; intro k; unfold val16 in *; cbn [fold_left length].
    - exists 0. change (16 ^ N.of_nat 0) with 1. lia.
    - destruct (IH (16 * k + bitsN bs)) as (v & -> & Hv). pose proof (bitsN_lt bs) as Hlt. rewrite Hb in Hlt. change (2 ^ N.of_nat 4) with 16 in Hlt.
      exists (16 ^ N.of_nat (length bss) * bitsN bs + v). rewrite Nat2N.inj_succ, N.pow_succ_r'. split; [ring|nia].
  Qed.
  Lemma val16_div bss k : Forall (fun l => length l = 4%nat) bss -> k = val16 bss k / 16 ^ N.of_nat (length bss).
  Proof.
    intro H. destruct (val16_split bss H k) as (v & E & Hv). rewrite E. apply N.div_unique with v; [assumption|reflexivity].
  Qed.
  Lemma val16_ge bss k : Forall (fun l => length l = 4%nat) bss -> k <= val16 bss k.
  Proof.
    intro H. destruct (val16_split bss H k) as (v & -> & _). assert (1 <= 16 ^ N.of_nat (length bss)) by (apply N.lt_pred_le; apply N.neq_0_lt_0; now apply N.pow_nonzero). nia.
  Qed.

  (** the slopes met while multiplying [P] by [K]: multiples of [P] up to 15 for the
      table, and the leading windows of [K], each doubled up to three times *)
  Definition lucky (K : N) P : Prop :=
    (forall i, 1 <= i -> i <= 15 -> fine (smul i P)) /\
    (forall m i, 1 <= m -> i < 4 -> fine (smul (2 ^ i * (K / 16 ^ m)) P)).

  Lemma mul_loop_hp cands P K : onc P -> K < Z.to_N fr_mod -> (forall m i, 1 <= m -> i < 4 -> fine (smul (2 ^ i * (K / 16 ^ m)) P)) ->
    length cands = 16%nat -> forall bss windows c acc k, hcl c cands (fun i => smul i P) ->
    Forall2 (Forall2 (has_bit c)) windows bss -> Forall (fun l => length l = 4%nat) bss -> hp c acc (smul k P) -> val16 bss k = K ->
    cpl c (mul_loop W cands windows acc) (fun r c' => hp c' r (smul K P)).
  Proof.
    intros O HK HL Hlen. induction bss as [|bs bss IH]; intros windows c acc k Hc Hw Hf Hacc EK.
    - inversion Hw; subst. cbn [mul_loop]. now apply cpl_ret.
    - inversion Hw as [|bits ? windows' ? Hb Hw' E1 E2]; subst windows. cbn [mul_loop].
      apply Forall_cons_iff in Hf. destruct Hf as [Hl4 Hf]. assert (Hbl : length bits = 4%nat) by (rewrite <- Hl4; exact (Forall2_len _ _ _ Hb)).
      pose proof (val16_div (bs :: bss) k (Forall_cons _ Hl4 Hf)) as Ek. rewrite EK in Ek.
      eapply cpl_bind; [apply (repeat_double_hp CONFIG_WINDOW_SIZE c acc _ Hacc)|].
      { intros i Hi. rewrite <- (smulmul W HW) by assumption. rewrite Ek. apply HL; [cbn [length]; lia|]. unfold CONFIG_WINDOW_SIZE in Hi. lia. }
      intros acc' c1 _ L1 _ Hacc'. rewrite <- (smulmul W HW) in Hacc' by assumption. change (2 ^ N.of_nat CONFIG_WINDOW_SIZE) with 16 in Hacc'.
      eapply cpl_bind; [apply (pick_hp bits bs c1 cands (fun i => smul i P) (bits_le _ _ _ _ L1 Hb)); [now rewrite Hbl|exact (hcl_le _ _ _ L1 _ Hc)]|].
      intros curr c2 _ L2 _ [Hcurr Rcurr]. pose proof (ctx_le_trans NN _ _ _ L1 L2) as L02.
      unfold val16 in EK. cbn [fold_left] in EK. pose proof (val16_ge bss (16 * k + bitsN bs) Hf) as Hge. unfold val16 in Hge. rewrite EK in Hge.
      eapply cpl_bind; [apply (add_hp c2 curr acc' _ _ Hcurr (hp_le _ _ _ _ L2 Hacc') Rcurr); apply nocancel_mul; [assumption|lia]|].
      intros s c3 _ L3 _ (Hs & _). rewrite <- (sadd W HW) in Hs by assumption. pose proof (ctx_le_trans NN _ _ _ L02 L3) as L03.
      apply (IH windows' c3 (fst s) (16 * k + bitsN bs)); auto.
      + exact (hcl_le _ _ _ L03 _ Hc).
      + clear - Hw' L03. induction Hw'; constructor; [now apply (bits_le c)|assumption].
      + now rewrite N.add_comm.
  Qed.

  Lemma ecc_mul_hp c a s P : hp c a P -> valid c s -> lucky (Z.to_N (toZ (av_val s))) P ->
    cpl c (ecc_mul W a s) (fun r c' => hp c' r (smul (Z.to_N (toZ (av_val s))) P)).
  Proof.
    intros Ha Hv [HT HL]. pose proof (hp_on _ _ _ Ha) as O. set (K := Z.to_N (toZ (av_val s))) in *.
    assert (HK : K < Z.to_N fr_mod). { unfold K. pose proof (toZ_range NN (av_val s)) as R. rewrite HN in R. lia. }
    unfold ecc_mul. eapply cpl_bind; [apply (decompose_scalar_digits NN HN c CONFIG_WINDOW_SIZE s); [unfold CONFIG_WINDOW_SIZE; lia|assumption]|].
    intros windows c1 _ L1 _ (bss & Hb & Hl & Hf & Hs). change (Forall2 (Forall2 (has_bit c1)) windows bss) in Hb.
    eapply cpl_bind; [apply identity_hp|]. intros id c2 _ L2 _ [Hid Cid]. pose proof (ctx_le_trans NN _ _ _ L1 L2) as L02.
    eapply cpl_bind; [apply (build_hp 14 c2 1 a a P)|].
    { rewrite (smul_1 W). split; [now apply (hp_le c)|]. right. rewrite <- (smul_1 W P). apply HT; lia. }
    { now apply (hp_le c). } { reflexivity. } { intros i Hi1 Hi2. apply HT; lia. }
    intros rest c3 _ L3 _ [Hrl Hr]. cbv zeta. rewrite (windows_4 NN HN) in Hl.
    destruct bss as [|bs bss]; [discriminate|]. inversion Hb as [|first ? pend ? Hb1 Hb2 E1 E2]; subst windows.
    apply Forall_cons_iff in Hf. destruct Hf as [Hf1 Hf2]. change CONFIG_WINDOW_SIZE with 4%nat in Hf1, Hf2.
    assert (Hc : hcl c3 (id :: rest) (fun i => smul i P)).
    { split; [apply (hq_le c2); [assumption|]; split; [assumption|now left]|]. eapply hcl_ext; [|exact Hr]. intro i. cbn beta. f_equal. lia. }
    assert (EK : val16 bss (bitsN bs) = K).
    { unfold K. rewrite <- Hs, N2Z.id. unfold winsN, val16. cbn [fold_left]. change (2 ^ N.of_nat CONFIG_WINDOW_SIZE) with 16. now rewrite N.mul_0_r, N.add_0_l. }
    pose proof (ctx_le_trans NN _ _ _ L2 L3) as L13.
    eapply cpl_bind; [apply (pick_hp first bs c3 (id :: rest) (fun i => smul i P) (bits_le _ _ _ _ L13 Hb1)); [cbn [length]; rewrite Hrl, (Forall2_len _ _ _ Hb1), Hf1; reflexivity|exact Hc]|].
    intros acc c4 _ L4 _ [Hacc _]. apply (mul_loop_hp (id :: rest) P K O HK HL) with (bss := bss) (k := bitsN bs); auto.
    - cbn [length]. now rewrite Hrl.
    - exact (hcl_le _ _ _ L4 _ Hc).
    - pose proof (ctx_le_trans NN _ _ _ L13 L4) as L14. clear - Hb2 L14. induction Hb2; constructor; [now apply (bits_le c1)|assumption].
  Qed.

  (** ** Several points *)
  Local Notation data := (list (N * point W)).
  (** digit and leading digits, base 16, of a 64-digit number (most significant first) *)
  Definition lead (j : nat) (K : N) : N := K / 16 ^ N.of_nat (64 - j).
  Definition dig (j : nat) (K : N) : N := lead (S j) K mod 16.
  Definition wsum (f : N -> N) (D : data) : point W := psum W (map (fun KP => smul (f (fst KP)) (snd KP)) D).
  Definition ond (D : data) : Prop := Forall (fun KP => onc (snd KP)) D.
  Lemma wsum_on f D : ond D -> onc (wsum f D).
  Proof. intro H. apply (psum_on W). induction H; cbn [map]; constructor; [now apply (son W)|assumption]. Qed.
  Lemma wsum_lin (n : N) f g D : ond D -> wsum (fun K => g K + n * f K) D = padd (wsum g D) (smul n (wsum f D)).
  Proof.
    induction 1 as [|[K P] D H1 H2 IH]; unfold wsum in *; cbn [map psum fst snd] in *.
    - symmetry. apply (smul_inf W).
    - rewrite IH, (sadd W HW), (smulmul W HW), (spadd W HW) by (auto using (son W); exact (wsum_on f D H2)).
      apply (swap4 W HW); auto using (son W); [exact (wsum_on g D H2)|]. apply (son W). exact (wsum_on f D H2).
  Qed.
  Lemma wsum_ext f g D : (forall KP, In KP D -> f (fst KP) = g (fst KP)) -> wsum f D = wsum g D.
  Proof. intro H. unfold wsum. f_equal. apply map_ext_in. intros KP HI. now rewrite H. Qed.

  (** the partial sums met when adding the terms [ts] to [A] one after the other *)
  Fixpoint inner_lucky (ts : list (point W)) (A : point W) {struct ts} : Prop :=
    match ts with [] => True | T :: ts => nocancel T A /\ inner_lucky ts (padd T A) end.
  Definition terms (j : nat) (D : data) : list (point W) := map (fun KP => smul (dig j (fst KP)) (snd KP)) D.
  (** the slopes met by [shamir]: the tables, the sum of every window, and the running
      result doubled up to three times; and no sum cancels *)
  Definition slucky (D : data) : Prop :=
    (forall K P, In (K, P) D -> forall i, 1 <= i -> i <= 15 -> fine (smul i P)) /\
    (forall j, (j < 64)%nat -> match terms j D with [] => False | T :: ts => inner_lucky ts T end /\
       ((1 <= j)%nat -> fine (wsum (dig j) D) /\ (forall i, i < 4 -> fine (smul (2 ^ i) (wsum (lead j) D))) /\
          nocancel (wsum (dig j) D) (smul 16 (wsum (lead j) D)))).

  Definition hwin c (windows : list (list (aval NN))) (K : N) : Prop := exists bss, Forall2 (Forall2 (has_bit c)) windows bss /\
    length bss = 64%nat /\ Forall (fun l => length l = 4%nat) bss /\ val16 bss 0 = K.
  Lemma hwin_le c c' windows K : ctx_le c c' -> hwin c windows K -> hwin c' windows K.
  Proof.
    intros L (bss & H1 & H2). exists bss. split; [|assumption]. clear H2. induction H1; constructor; [now apply (bits_le c)|assumption].
  Qed.
  Definition htab c (cands : list (apoint NN)) P : Prop := onc P /\ length cands = 16%nat /\ hcl c cands (fun i => smul i P).
  Lemma htab_le c c' cands P : ctx_le c c' -> htab c cands P -> htab c' cands P.
  Proof. intros L (H1 & H2 & H3). split; [assumption|]. split; [assumption|exact (hcl_le _ _ _ L _ H3)]. Qed.
  Definition hdata c (ps : list (list (apoint NN) * list (list (aval NN)))) (D : data) : Prop :=
    Forall2 (fun cw KP => htab c (fst cw) (snd KP) /\ hwin c (snd cw) (fst KP)) ps D.
  Lemma hdata_le c c' ps D : ctx_le c c' -> hdata c ps D -> hdata c' ps D.
  Proof. intros L. induction 1 as [|cw KP ps D [H1 H2] _ IH]; constructor; [|assumption]. split; [now apply (htab_le c)|now apply (hwin_le c)]. Qed.
  Lemma hdata_on c ps D : hdata c ps D -> ond D.
  Proof. induction 1 as [|cw KP ps D [(H & _) _] _ IH]; constructor; auto. Qed.

  Lemma val16_app l1 l2 k : val16 (l1 ++ l2) k = val16 l2 (val16 l1 k).
  Proof. unfold val16. apply fold_left_app. Qed.
  Lemma lead_val bss K j : length bss = 64%nat -> Forall (fun l => length l = 4%nat) bss -> val16 bss 0 = K -> (j <= 64)%nat ->
    lead j K = val16 (firstn j bss) 0.
  Proof.
    intros Hl Hf E Hj. assert (Hs : length (skipn j bss) = (64 - j)%nat) by (rewrite skipn_length; lia).
    unfold lead. rewrite <- Hs, <- E, <- (firstn_skipn j bss) at 1. rewrite val16_app.
    rewrite <- (val16_div (skipn j bss)); [reflexivity|]. rewrite <- (firstn_skipn j bss) in Hf. apply Forall_app in Hf. apply Hf.
  Qed.
  Lemma dig_val bss K j bs : length bss = 64%nat -> Forall (fun l => length l = 4%nat) bss -> val16 bss 0 = K -> nth_error bss j = Some bs ->
    dig j K = bitsN bs /\ lead (S j) K = dig j K + 16 * lead j K.
  Proof.
    intros Hl Hf E Ej. assert (Hj : (j < 64)%nat) by (rewrite <- Hl; apply nth_error_Some; congruence).
    assert (Hb : bitsN bs < 16).
    { pose proof (bitsN_lt bs) as H. rewrite (proj1 (Forall_forall _ _) Hf bs (nth_error_In _ _ Ej)) in H. exact H. }
    assert (EL : lead (S j) K = bitsN bs + 16 * lead j K).
    { rewrite (lead_val bss K (S j)), (lead_val bss K j) by (auto; lia).
      assert (Ef : firstn (S j) bss = firstn j bss ++ [bs]).
      { clear - Ej. revert j Ej. induction bss as [|x l IH]; intros [|j] E; cbn in *; try discriminate; [injection E as <-; reflexivity|]. f_equal. now apply IH. }
      rewrite Ef, val16_app. unfold val16 at 1. cbn [fold_left]. apply N.add_comm. }
    assert (ED : dig j K = bitsN bs).
    { unfold dig. rewrite EL, N.mul_comm, N.mod_add by discriminate. now apply N.mod_small. }
    split; [assumption|]. now rewrite ED.
  Qed.

  Lemma pick_term c cands windows j P K : htab c cands P -> hwin c windows K -> (j < 64)%nat -> exists bits,
    nth_error windows j = Some bits /\
    (forall c', ctx_le c c' -> cpl c' (pick_candidate W cands bits) (fun r c'' => hq c'' r (smul (dig j K) P))).
  Proof.
    intros (O & Hl & Hc) (bss & Hb & Hlen & Hf & E) Hj. destruct (nth_error bss j) as [bs|] eqn:Ej; [|apply nth_error_None in Ej; lia].
    assert (Hx : exists bits, nth_error windows j = Some bits /\ Forall2 (has_bit c) bits bs).
    { clear - Hb Ej. revert j Ej. induction Hb as [|b bs0 bits bss0 H Hb IH]; intros [|j] Ej; try discriminate; cbn in *; [injection Ej as <-; eauto|auto]. }
    destruct Hx as (bits & Eb & Hbits). exists bits. split; [assumption|]. intros c' L.
    rewrite (proj1 (dig_val bss K j bs Hlen Hf E Ej)). apply (pick_hp bits bs c' cands (fun i => smul i P)).
    - now apply (bits_le c).
    - rewrite (Forall2_len _ _ _ Hbits), (proj1 (Forall_forall _ _) Hf bs (nth_error_In _ _ Ej)). exact Hl.
    - exact (hcl_le _ _ _ L _ Hc).
  Qed.
  Lemma inner_hp j : (j < 64)%nat -> forall D ps c acc A, hdata c ps D -> hp c acc A -> inner_lucky (terms j D) A ->
    cpl c (shamir_inner W ps j (Some acc)) (fun r c' => hp c' r (padd (wsum (dig j) D) A)).
  Proof.
    intro Hj. induction D as [|[K P] D IH]; intros ps c acc A HD HA HL.
    - inversion HD; subst. cbn [shamir_inner]. apply cpl_ret. exact HA.
    - inversion HD as [|[cands windows] ? ps' ? [Ht Hw] HD' E1 E2]; subst ps. cbn [fst snd] in *. cbn [shamir_inner].
      destruct (pick_term c cands windows j P K Ht Hw Hj) as (bits & Eb & Hpick).
      destruct HL as [HL1 HL2]. cbn [fst snd] in *.
      eapply cpl_bind; [apply (cpl_at NN c _ j bits (fun b c' => b = bits /\ c' = c)); auto|]. intros ? ? _ _ _ [-> ->].
      eapply cpl_bind; [apply Hpick, ctx_le_refl|]. intros ci c1 _ L1 _ [Hci Rci].
      eapply cpl_bind; [exact (add_hp c1 ci acc _ _ Hci (hp_le _ _ _ _ L1 HA) Rci HL1)|]. intros s c2 _ L2 _ (Hs & _).
      pose proof (ctx_le_trans NN _ _ _ L1 L2) as L02.
      eapply cpl_conseq; [exact (IH ps' c2 (fst s) _ (hdata_le _ _ _ _ L02 HD') Hs HL2)|]. intros r c3 _ _ _ Hr.
      unfold wsum in *. cbn [map psum fst snd]. pose proof (hp_on _ _ _ HA) as OA. destruct Ht as (OP & _).
      pose proof (wsum_on (dig j) D (hdata_on _ _ _ HD')) as OD. unfold wsum in OD.
      rewrite <- (assoc W HW), (comm W _ (smul (dig j K) P)) in Hr by auto using (son W). exact Hr.
  Qed.
  Lemma window_hp j c ps D : (j < 64)%nat -> hdata c ps D -> match terms j D with [] => False | T :: ts => inner_lucky ts T end ->
    cpl c (shamir_inner W ps j None) (fun r c' => hp c' r (wsum (dig j) D)).
  Proof.
    intros Hj HD HL. destruct D as [|[K P] D]; [destruct HL|]. cbn [terms map fst snd] in HL.
    inversion HD as [|[cands windows] ? ps' ? [Ht Hw] HD' E1 E2]; subst ps. cbn [fst snd] in *. cbn [shamir_inner].
    destruct (pick_term c cands windows j P K Ht Hw Hj) as (bits & Eb & Hpick).
    eapply cpl_bind; [apply (cpl_at NN c _ j bits (fun b c' => b = bits /\ c' = c)); auto|]. intros ? ? _ _ _ [-> ->].
    eapply cpl_bind; [apply Hpick, ctx_le_refl|]. intros ci c1 _ L1 _ [Hci Rci].
    eapply cpl_conseq; [exact (inner_hp j Hj D ps' c1 ci _ (hdata_le _ _ _ _ L1 HD') Hci HL)|]. intros r c2 _ _ _ Hr.
    unfold wsum in *. cbn [map psum fst snd]. destruct Ht as (OP & _). pose proof (wsum_on (dig j) D (hdata_on _ _ _ HD')) as OD. unfold wsum in OD.
    rewrite (comm W) by auto using (son W). exact Hr.
  Qed.

  Lemma lead_step c ps D j : hdata c ps D -> (j < 64)%nat -> wsum (lead (S j)) D = padd (wsum (dig j) D) (smul 16 (wsum (lead j) D)).
  Proof.
    intros HD Hj. rewrite <- wsum_lin by exact (hdata_on _ _ _ HD). apply wsum_ext. intros [K P] HI. cbn [fst].
    assert (Hw : exists windows, hwin c windows K).
    { clear - HD HI. induction HD as [|cw KP ps D [_ H] _ IH]; [destruct HI|]. destruct HI as [->|HI]; [now exists (snd cw)|auto]. }
    destruct Hw as (windows & bss & _ & Hlen & Hf & E). destruct (nth_error bss j) as [bs|] eqn:Ej; [|apply nth_error_None in Ej; lia].
    exact (proj2 (dig_val bss K j bs Hlen Hf E Ej)).
  Qed.
  Lemma shamir_loop_hp ps D : (forall j, (j < 64)%nat -> match terms j D with [] => False | T :: ts => inner_lucky ts T end /\
       ((1 <= j)%nat -> fine (wsum (dig j) D) /\ (forall i, i < 4 -> fine (smul (2 ^ i) (wsum (lead j) D))) /\
          nocancel (wsum (dig j) D) (smul 16 (wsum (lead j) D)))) ->
    forall n j c acc, (1 <= j)%nat -> (j + n = 64)%nat -> hdata c ps D -> hp c acc (wsum (lead j) D) ->
    cpl c (shamir_loop W ps (seq j n) (Some acc)) (fun r c' => hp c' r (wsum (lead 64) D)).
  Proof.
    intro HL. induction n as [|n IH]; intros j c acc Hj Hn HD HA; cbn [seq shamir_loop].
    - apply cpl_ret. replace 64%nat with j by lia. exact HA.
    - destruct (HL j ltac:(lia)) as [HL1 HL2]. destruct (HL2 Hj) as (F1 & F2 & F3).
      eapply cpl_bind; [exact (window_hp j c ps D ltac:(lia) HD HL1)|]. intros inner c1 _ L1 _ Hi.
      eapply cpl_bind; [apply (repeat_double_hp CONFIG_WINDOW_SIZE c1 acc _ (hp_le _ _ _ _ L1 HA))|].
      { intros i Hi'. apply F2. unfold CONFIG_WINDOW_SIZE in Hi'. lia. }
      intros p c2 _ L2 _ Hp. change (2 ^ N.of_nat CONFIG_WINDOW_SIZE) with 16 in Hp.
      eapply cpl_bind; [exact (add_hp c2 inner p _ _ (hp_le _ _ _ _ L2 Hi) Hp (or_intror F1) F3)|]. intros s c3 _ L3 _ (Hs & _).
      rewrite <- (lead_step c ps D j HD) in Hs by lia.
      apply (IH (S j)); [lia|lia| |assumption]. apply (hdata_le c); [|assumption]. apply (ctx_le_trans NN _ c1); [assumption|]. now apply (ctx_le_trans NN _ c2).
  Qed.

  Lemma bmap_cpl2 {A A' X} (f : A -> B NN A') (R : ctx NN -> A -> X -> Prop) (S : ctx NN -> A' -> X -> Prop) :
    (forall c c' a x, ctx_le c c' -> R c a x -> R c' a x) -> (forall c c' a x, ctx_le c c' -> S c a x -> S c' a x) ->
    (forall c a x, R c a x -> cpl c (f a) (fun r c' => S c' r x)) ->
    forall l xs c, Forall2 (R c) l xs -> cpl c (bmap f l) (fun rs c' => Forall2 (S c') rs xs).
  Proof.
    intros HR HS Hf. induction l as [|a l IH]; intros xs c H; inversion H as [|? x ? xs' H1 H2]; subst; cbn [bmap].
    - apply cpl_ret. constructor.
    - eapply cpl_bind; [exact (Hf c a x H1)|]. intros r c1 _ L1 _ Hr.
      eapply cpl_bind; [apply (IH xs' c1)|].
      + clear - HR H2 L1. induction H2; constructor; eauto.
      + intros rs c2 _ L2 _ Hrs. apply cpl_ret. constructor; [now apply (HS c1)|assumption].
  Qed.

  Lemma lead_0 K : K < 2 ^ 256 -> lead 0 K = 0.
  Proof. intro H. unfold lead. apply N.div_small. exact H. Qed.
  Lemma lead_64 K : lead 64 K = K.
  Proof. unfold lead. rewrite Nat.sub_diag. change (16 ^ N.of_nat 0) with 1. apply N.div_1_r. Qed.

  Definition scalar_of_cell (s : aval NN) : N := Z.to_N (toZ (av_val s)).
  Lemma shamir_hp c points scalars Ps : Forall2 (hp c) points Ps -> Forall (valid c) scalars -> length scalars = length points ->
    slucky (combine (map scalar_of_cell scalars) Ps) ->
    cpl c (shamir W points scalars) (fun r c' => hp c' r (psum W (map (fun KP => smul (fst KP) (snd KP)) (combine (map scalar_of_cell scalars) Ps)))).
  Proof.
    intros HP HV Hlen [HT HL]. set (Ks := map scalar_of_cell scalars) in *. set (D := combine Ks Ps) in *.
    assert (LP : length points = length Ps) by exact (Forall2_len _ _ _ HP).
    unfold shamir. eapply cpl_bind; [apply cpl_guard with (P := fun _ c' => c' = c); [now rewrite Hlen, Nat.eqb_refl|reflexivity]|]. intros [] ? _ _ _ ->.
    eapply cpl_bind.
    { apply (bmap_cpl2 _ (fun c s K => valid c s /\ K = scalar_of_cell s) (fun c w K => hwin c w K)) with (xs := Ks).
      - intros c0 c1 a x L [H1 H2]. split; [now apply (valid_le NN c0)|assumption].
      - intros c0 c1 a x L H. now apply (hwin_le c0).
      - intros c0 s K [Hv ->]. eapply cpl_conseq; [apply (decompose_scalar_digits NN HN c0 CONFIG_WINDOW_SIZE s); [unfold CONFIG_WINDOW_SIZE; lia|assumption]|].
        intros windows c1 _ L1 _ (bss & Hb & Hl & Hf & Hs). exists bss. rewrite (windows_4 NN HN) in Hl. split; [exact Hb|]. split; [assumption|].
        split; [assumption|]. unfold scalar_of_cell. rewrite <- Hs, N2Z.id. reflexivity.
      - unfold Ks. clear - HV. induction HV; cbn [map]; constructor; auto. }
    intros windows c1 _ L1 _ Hwin. eapply cpl_bind; [apply identity_hp|]. intros id c2 _ L2 _ [Hid Cid]. pose proof (ctx_le_trans NN _ _ _ L1 L2) as L02.
    eapply cpl_bind.
    { apply (bmap_cpl2 _ (fun c a P => (hp c a P /\ hp c id Inf) /\ forall i, 1 <= i -> i <= 15 -> fine (smul i P)) (fun c l P => htab c l P)) with (xs := Ps).
      - intros c0 c' a P L [[H1 H2] H3]. split; [split; now apply (hp_le c0)|assumption].
      - intros c0 c' a P L H. now apply (htab_le c0).
      - intros c0 a P [[Ha Hi] Hf]. eapply cpl_bind; [apply (build_curv_hp 14 c0 1 a a P)|].
        { rewrite (smul_1 W). split; [assumption|]. right. rewrite <- (smul_1 W P). apply Hf; lia. }
        { assumption. } { reflexivity. } { intros i Hi1 Hi2. apply Hf; lia. }
        intros rest c3 _ L3 _ [Hrl Hr]. apply cpl_ret. split; [exact (hp_on _ _ _ Ha)|]. split; [cbn [length]; now rewrite Hrl|].
        split; [split; [now apply (hp_le c0)|now left]|]. eapply hcl_ext; [|exact Hr]. intro i. cbn beta. f_equal. lia.
      - assert (HT' : Forall (fun P => forall i, 1 <= i -> i <= 15 -> fine (smul i P)) Ps).
        { apply Forall_forall. intros P HI. destruct (In_nth_error _ _ HI) as (n & En).
          assert (EK : exists K, nth_error Ks n = Some K).
          { destruct (nth_error Ks n) eqn:E; [eauto|]. apply nth_error_None in E. unfold Ks in E. rewrite map_length in E.
            assert (n < length Ps)%nat by (apply nth_error_Some; congruence). lia. }
          destruct EK as (K & EK). apply (HT K P). unfold D. clear - EK En. revert Ps n EK En.
          induction Ks as [|k Ks IH]; intros [|p Ps] [|n] EK En; cbn in *; try discriminate.
          - injection EK as ->. injection En as ->. now left.
          - right. eauto. }
        clear - HP HT' Hid L02. revert HT'. induction HP as [|a P points Ps H _ IH]; intro HT'; constructor.
        + apply Forall_cons_iff in HT'. split; [split; [now apply (hp_le c)|assumption]|apply HT'].
        + apply IH. apply Forall_cons_iff in HT'. apply HT'. }
    intros cands c3 _ L3 _ Hcands.
    assert (HD : hdata c3 (combine cands windows) D).
    { pose proof (ctx_le_trans NN _ _ _ L2 L3) as L13. unfold D. clear - Hwin Hcands L13. revert cands Ps Hcands.
      induction Hwin as [|w K windows Ks H _ IH]; intros cands Ps Hcands.
      - destruct cands; constructor.
      - inversion Hcands as [|cs P cands' Ps' H1 H2]; subst; [constructor|]. cbn [combine]. constructor; [|apply IH; assumption].
        cbn [fst snd]. split; [assumption|now apply (hwin_le c1)]. }
    assert (Hne : D <> []). { intro E. destruct (HL 0%nat ltac:(lia)) as [F _]. rewrite E in F. exact F. }
    destruct windows as [|w0 windows]; [exfalso; apply Hne; unfold D; inversion Hwin; reflexivity|].
    assert (Hw0 : length w0 = 64%nat).
    { inversion Hwin as [|? K ? Ks' (bss & Hb & Hl & _) _]; subst. rewrite <- Hl. exact (Forall2_len _ _ _ Hb). }
    eapply cpl_bind; [apply (cpl_at NN c3 (w0 :: windows) 0 w0 (fun w c' => w = w0 /\ c' = c3)); auto|]. intros ? ? _ _ _ [-> ->]. rewrite Hw0.
    change (seq 0 64) with (0%nat :: seq 1 63). cbn [shamir_loop].
    destruct (HL 0%nat ltac:(lia)) as [HL0 _]. eapply cpl_bind; [exact (window_hp 0 c3 _ D ltac:(lia) HD HL0)|]. intros inner c4 _ L4 _ Hi.
    eapply cpl_conseq; [apply (shamir_loop_hp _ D HL 63 1 c4 inner); [lia|lia|exact (hdata_le _ _ _ _ L4 HD)|]|].
    - rewrite (lead_step c3 _ D 0 HD) by lia.
      assert (E0 : wsum (lead 0) D = Inf).
      { assert (HK : Forall (fun KP => lead 0 (fst KP) = 0) D).
        { unfold D, Ks. clear - HN. revert Ps. induction scalars as [|s scalars IH]; intros [|P Ps]; cbn [map combine]; constructor; [|apply IH].
          cbn [fst]. apply lead_0. unfold scalar_of_cell. pose proof (toZ_range NN (av_val s)) as R. rewrite HN in R.
          apply N.lt_trans with (Z.to_N fr_mod); [lia|reflexivity]. }
        clear - HK. unfold wsum. induction HK as [|KP D H _ IH]; [reflexivity|]. cbn [map psum]. rewrite IH, H. reflexivity. }
      rewrite E0, (smul_inf W), (padd_inf_r W). exact Hi.
    - intros r c5 _ _ _ Hr. assert (E : wsum (lead 64) D = wsum (fun K => K) D) by (apply wsum_ext; intros; apply lead_64). rewrite E in Hr. exact Hr.
  Qed.

  (** ** A constant point *)
  Lemma constant_mul_hp c P s : onc P -> valid c s -> cpl c (constant_mul P s) (fun r c' => hp c' r (smul (scalar_of_cell s) P) /\ pt_c r = None).
  Proof.
    intros O Hv. pose proof (on_curve_in_group W HW P O) as GP.
    eapply cpl_conseq; [exact (cpl_snd c _ _ _ (constant_mul_cplz NN W HN HW c P s Hv) (fun w => constant_mul_snd NN W HN HW w P s O (proj2 GP)))|].
    intros r c' _ L _ (((x & y & z & i & j & Hp & Ei & Ej & Hz) & Er) & (k & _ & Ek & Hk)). split; [|assumption].
    assert (Es : sc_of NN (adv c') s = scalar_of_cell s).
    { unfold sc_of, scalar_of_cell. now rewrite (proj2 (valid_le NN c c' s L Hv)). }
    rewrite (scal NN W HN HW (adv c') s k P GP Ek), Es in Hk.
    apply (hp_of c' r _ _ _ _ i j Hp); auto. intro E. unfold EccComplete.zero_cache. rewrite Er.
    assert (R : scalar_of_cell s < Z.to_N fr_mod).
    { unfold scalar_of_cell. pose proof (toZ_range NN (av_val s)) as R. rewrite HN in R. clear - R. apply Z2N.inj_lt; lia. }
    destruct (nz _ _ O R E) as [E'|E'].
    - destruct Hz as (-> & -> & _); [now left|auto].
    - destruct Hz as (-> & -> & _); [right|auto]. unfold scalar_of_cell in E'. pose proof (toZ_range NN (av_val s)) as R'. clear - E' R'. lia.
  Qed.

  (** ** A point whose slope cannot be computed cannot be multiplied *)
  Lemma ecc_mul_aborts c a s x y : good c -> has_pt c a x y false 0 0 -> pt_c a = None -> valid c s -> y <> f0 ->
    ~ reaches W (slope_num W x) (slope_den W y 0) -> ecc_mul W a s c = None.
  Proof.
    intros G Ha Ec Hv Hy Hr. revert G. change (out c (ecc_mul W a s) (fun o => o = None)). unfold ecc_mul.
    eapply out_bind; [apply (decompose_scalar_digits NN HN c CONFIG_WINDOW_SIZE s); [unfold CONFIG_WINDOW_SIZE; lia|assumption]|]. intros windows c1 L1 _.
    eapply out_bind; [apply identity_hp|]. intros id c2 L2 _. intro G2. unfold bind at 1. cbn [build_candidates]. unfold bind at 1.
    pose proof (has_pt_le NN W _ _ _ _ _ _ _ _ (ctx_le_trans NN _ _ _ L1 L2) Ha) as Ha2.
    rewrite (ecc_add_aborts NN W HN HW c2 a a x y false 0 0 x y false 0 0 G2 Ha2 Ha2 eq_refl eq_refl ltac:(lia) Ec Hy Hr). reflexivity.
  Qed.
End Honest.
