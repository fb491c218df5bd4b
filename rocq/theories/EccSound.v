(** Soundness of the point operations: in every assignment satisfying the emitted
    constraints the results represent the right group elements. *)
From Coq Require Import ZArith Arith NArith Lia List Bool Ring Field.
From Verif Require Import Util Algebra PField Gate GateProofs GateOps RangeProofs Integer Bn254 IntegerFacts IntegerSound IntegerOps IntegerHistorySound IntegerValue Curve CurveAssoc Bn254Curve Ecc.
Import ListNotations.
Local Open Scope Z_scope.

Section Sound.
  Variables N W : PF.
  Hypothesis HN : pf_n N = fr_mod.
  Hypothesis HW : pf_n W = fq_mod.
  Add Field NF : (f_th N).
  Add Field WF : (f_th W).
  Local Notation holds_int := (holds_int N W).
  Local Notation holds_bit := (holds_bit N).
  Local Notation bb := (curve_b W).
  Local Notation apoint := (apoint N).
  Local Notation acurv := (acurv N).
  Local Notation point := (point W).
  Local Open Scope fld_scope.

  (** ** Representation *)
  (** curvature [c] consists of a valid integer and a bit *)
  Definition cwf (w : asg N) (c : acurv) : Prop := exists v cz, holds_int w (cv_v c) v /\ holds_bit w (cv_z c) cz.
  (** [a] represents point [P] *)
  Definition pt (w : asg N) (a : apoint) (P : point) : Prop :=
    exists x y z, holds_int w (pt_x a) x /\ holds_int w (pt_y a) y /\ holds_bit w (pt_z a) z /\
      P = (if z then Inf else Aff x y) /\ on_curve bb P /\
      match pt_c a with None => True | Some c => cwf w c end.
  (** [c] is the slope of the tangent at [P] *)
  Definition slope_of (w : asg N) (c : acurv) (P : point) : Prop :=
    match P with
    | Inf => True
    | Aff x y => exists v, holds_int w (cv_v c) v /\ holds_bit w (cv_z c) false /\ v * ((1 + 1) * y) = (1 + 1 + 1) * x * x
    end.
  (** the cached curvature, if any, is right *)
  Definition cvok (w : asg N) (a : apoint) (P : point) : Prop :=
    match pt_c a with None => True | Some c => slope_of w c P end.

  Lemma pt_inj w a P Q : pt w a P -> pt w a Q -> P = Q.
  Proof.
    intros (x & y & z & Hx & Hy & Hz & -> & _) (x' & y' & z' & Hx' & Hy' & Hz' & -> & _).
    rewrite (bit_inj N w _ _ _ Hz Hz'), (int_inj N W w _ _ _ Hx Hx'), (int_inj N W w _ _ _ Hy Hy'). reflexivity.
  Qed.
  Lemma pt_on w a P : pt w a P -> on_curve bb P.
  Proof. intros (x & y & z & _ & _ & _ & _ & H & _). exact H. Qed.

  Lemma zform_em w a : zform N w a \/ ~ zform N w a.
  Proof.
    unfold zform. destruct (Z.eq_dec (iv w a) 0), (Z.eq_dec (iv w a) fq_mod), (Z.eq_dec (zv N w (l0 a)) (bn_limb 0 fq_mod)); tauto.
  Qed.

  Lemma bcurv w s a b : snd_ w (bisec_curvature s a b) (fun c => forall z, holds_bit w s z -> cwf w a -> cwf w b ->
    cwf w c /\ (forall v cz, holds_int w (cv_v (if z then a else b)) v -> holds_bit w (cv_z (if z then a else b)) cz ->
      holds_int w (cv_v c) v /\ holds_bit w (cv_z c) cz)).
  Proof.
    unfold bisec_curvature. eapply snd_bind; [apply (vbisec N W)|]. intro v. eapply snd_bind; [apply (bit_bisec N)|]. intro z'.
    apply snd_ret. intros Hz [_ Hv] z Hs (va & za & Hva & Hza) (vb & zb & Hvb & Hzb).
    specialize (Hv _ _ _ Hs Hva Hvb). specialize (Hz _ _ _ Hs Hza Hzb). unfold cwf. cbn [cv_v cv_z].
    split; [now exists (if z then va else vb), (if z then za else zb)|].
    intros v0 z0 H0 Hz0. destruct z.
    - rewrite (int_inj N W w _ _ _ H0 Hva), (bit_inj N w _ _ _ Hz0 Hza). now split.
    - rewrite (int_inj N W w _ _ _ H0 Hvb), (bit_inj N w _ _ _ Hz0 Hzb). now split.
  Qed.

  (** valid integers and a bit; the flag may hide anything *)
  Definition pwf (w : asg N) (a : apoint) : Prop :=
    exists x y z, holds_int w (pt_x a) x /\ holds_int w (pt_y a) y /\ holds_bit w (pt_z a) z.
  Lemma pt_pwf w a P : pt w a P -> pwf w a.
  Proof. intros (x & y & z & H). exists x, y, z. tauto. Qed.
  Lemma bpoint w s a b : snd_ w (bisec_point s a b) (fun p => (pt_c p = None /\
      overflows (pt_x p) = Nat.max (overflows (pt_x a)) (overflows (pt_x b)) /\ overflows (pt_y p) = Nat.max (overflows (pt_y a)) (overflows (pt_y b))) /\
    forall z, holds_bit w s z -> pwf w a -> pwf w b ->
    pwf w p /\ (forall x y, holds_int w (pt_x (if z then a else b)) x -> holds_int w (pt_y (if z then a else b)) y ->
      holds_int w (pt_x p) x /\ holds_int w (pt_y p) y) /\ (forall P, pt w (if z then a else b) P -> pt w p P)).
  Proof.
    unfold bisec_point. eapply snd_bind; [apply (vbisec N W)|]. intro x. eapply snd_bind; [apply (vbisec N W)|]. intro y.
    eapply snd_bind; [apply (bit_bisec N)|]. intro z'.
    apply snd_ret. intros Hz [Oy Hy] [Ox Hx]. split; [auto|].
    intros z Hs (xa & ya & za & Hxa & Hya & Hza) (xb & yb & zb & Hxb & Hyb & Hzb).
    specialize (Hx _ _ _ Hs Hxa Hxb). specialize (Hy _ _ _ Hs Hya Hyb). specialize (Hz _ _ _ Hs Hza Hzb).
    unfold pwf, pt. cbn [pt_x pt_y pt_z pt_c].
    split; [now exists (if z then xa else xb), (if z then ya else yb), (if z then za else zb)|].
    split.
    { intros x0 y0 Hx0 Hy0. destruct z.
      - now rewrite (int_inj N W w _ _ _ Hx0 Hxa), (int_inj N W w _ _ _ Hy0 Hya).
      - now rewrite (int_inj N W w _ _ _ Hx0 Hxb), (int_inj N W w _ _ _ Hy0 Hyb). }
    intros P (x0 & y0 & z0 & Hx0 & Hy0 & Hz0 & EP & OP & _). exists x0, y0, z0. destruct z.
    - rewrite (int_inj N W w _ _ _ Hx0 Hxa), (int_inj N W w _ _ _ Hy0 Hya), (bit_inj N w _ _ _ Hz0 Hza) in *. auto 10.
    - rewrite (int_inj N W w _ _ _ Hx0 Hxb), (int_inj N W w _ _ _ Hy0 Hyb), (bit_inj N w _ _ _ Hz0 Hzb) in *. auto 10.
  Qed.

  (** ** Curvature *)

  Lemma three : (ofZ (Z.of_nat 3) : W) = 1 + 1 + 1.
  Proof. change (Z.of_nat 3) with (1 + 1 + 1)%Z. now rewrite !ofZ_add, ofZ_1. Qed.
  Lemma two_is : (ofZ (Z.of_nat 2) : W) = 1 + 1.
  Proof. change (Z.of_nat 2) with (1 + 1)%Z. now rewrite !ofZ_add, ofZ_1. Qed.

  Lemma curvature_snd w a : snd_ w (curvature W a) (fun r => forall P, pt w a P ->
    pt w (snd r) P /\ pt_c (snd r) = Some (fst r) /\ cwf w (fst r) /\ pt_z (snd r) = pt_z a /\
    (cvok w a P -> slope_of w (fst r) P)).
  Proof.
    unfold curvature. destruct (pt_c a) as [c|] eqn:Ec.
    { apply snd_ret. cbn [fst snd]. intros P HP. split; [assumption|]. split; [assumption|].
      split; [|split; [reflexivity|]].
      - destruct HP as (x & y & z & _ & _ & _ & _ & _ & Hc). now rewrite Ec in Hc.
      - unfold cvok. now rewrite Ec. }
    eapply snd_bind; [apply (vsquare N W HN HW)|]. intros [x2 x].
    eapply snd_bind; [apply (mul_small_constant_snd N W HN HW) with (K := 1%Z)|]. intros [num x2']. cbn [fst snd].
    eapply snd_bind; [apply (mul_small_constant_snd N W HN HW) with (K := (Z.of_nat (overflows (pt_y a)) + 1)%Z)|]. intros [den y']. cbn [fst snd].
    eapply snd_bind; [apply (int_div_snd N W HN HW) with (Ka := 3%Z) (Kb := 64%Z)|]. intros [[[z v] n'] d'].
    apply snd_ret. cbn [fst snd]. cbv zeta. intros Hd Hden Hnum Hx P (xv & yv & zb & Vx & Vy & Vz & EP & OP & _).
    destruct (Hx _ Vx) as (Vx2 & Bx2 & Ox2 & Vx'). clear Hx.
    destruct (holds_K N W _ _ _ Vy) as (Ky & By & ny & Fy).
    assert (Hl : (64 <=? overflows (pt_y a) * 2)%nat = false) by (apply Nat.leb_gt; destruct Vy as (_ & _ & Vy); lia).
    rewrite Hl in Hden. cbv zeta in Hden. destruct (Hden ltac:(lia) ltac:(lia) By ny) as [Rden ->]. clear Hden.
    rewrite Ox2 in Hnum. change (64 <=? 0 * 3)%nat with false in Hnum. cbv zeta in Hnum.
    destruct Vx2 as (Fx2 & [_ nx2] & _).
    destruct (Hnum ltac:(lia) ltac:(lia) Bx2 nx2) as [(Fn & nn & Bn) Ex2]. clear Hnum. rewrite Ex2, Ox2 in Bn.
    assert (Bn3 : bnd w num 3) by (destruct Bn as [(_ & _ & H)|(_ & H & _)]; [exact H|lia]). clear Bn.
    rewrite three, Fx2 in Fn. destruct Rden as (Fd & nd & Bd). rewrite two_is, Fy in Fd.
    assert (Bd64 : bnd w den 64).
    { destruct Bd as [(_ & _ & H)|(_ & _ & H)]; (eapply bnd_le; [|exact H]); lia. }
    destruct (Hd ltac:(lia) ltac:(lia) Bn3 Bd64 nn nd) as (Fz & _ & (Fd' & _) & Bv & Ov & nv & Hv). clear Hd.
    assert (Hc : cwf w (AC v z)).
    { destruct (flag_bit N w z _ (zform_em w d') Fz) as (cz & Hcz & _). exists (fv W w v), cz. cbn [cv_v cv_z].
      split; [now apply canon_holds|assumption]. }
    split. { exists xv, yv, zb. cbn [pt_x pt_y pt_z pt_c]. tauto. }
    split; [reflexivity|]. split; [assumption|]. split; [reflexivity|]. intros _.
    destruct zb; subst P; [exact I|]. cbn [slope_of cv_v cv_z].
    assert (Hnz : ~ zform N w d').
    { intro H. apply (zform_0 N W HW) in H. rewrite Fd', Fd in H.
      apply fmul_integral in H. destruct H as [H|H]; [exact (two_neq0 W HW H)|].
      exact (no_ordinate_0 W HW xv yv OP H). }
    exists (fv W w v). split; [now apply canon_holds|]. split; [exact (proj2 Fz Hnz)|].
    rewrite <- Fd, (Hv Hnz), Fn. ring.
  Qed.

  (** ** Addition and doubling *)
  Lemma lambda_snd w l a b : snd_ w (lambda_to_point W l a b) (fun p => pt_z p = cv_z l /\ pt_c p = None /\
    (forall lv xa ya xb, holds_int w (cv_v l) lv -> holds_int w (pt_x a) xa -> holds_int w (pt_y a) ya -> holds_int w (pt_x b) xb ->
      let cx := lv * lv - xa - xb in holds_int w (pt_x p) cx /\ holds_int w (pt_y p) (lv * (xa - cx) - ya))).
  Proof.
    unfold lambda_to_point. eapply snd_bind; [apply (vsquare N W HN HW)|]. intros [l2 l'].
    eapply snd_bind; [apply (vsub N W HN HW)|]. intro t0. eapply snd_bind; [apply (vsub N W HN HW)|]. intro cx.
    eapply snd_bind; [apply (vsub N W HN HW)|]. intro t1. eapply snd_bind; [apply (vmul N W HN HW)|]. intros [[t2 t1'] l''].
    eapply snd_bind; [apply (vsub N W HN HW)|]. intro cy. apply snd_ret. cbn [pt_z pt_c pt_x pt_y].
    intros Hcy Ht2 Ht1 Hcx Ht0 Hl. split; [reflexivity|]. split; [reflexivity|]. intros lv xa ya xb Vl Vxa Vya Vxb. cbv zeta.
    destruct (Hl _ Vl) as (Vl2 & _ & _ & Vl'). specialize (Ht0 _ _ Vl2 Vxa). specialize (Hcx _ _ Ht0 Vxb). specialize (Ht1 _ _ Vxa Hcx).
    destruct (Ht2 _ _ Ht1 Vl') as (Vt2 & _). specialize (Hcy _ _ Vt2 Vya). split; [assumption|].
    match goal with H : holds_int w cy ?u |- holds_int w cy ?v => replace v with u by ring end. assumption.
  Qed.

  Lemma ecc_add_snd w a b : snd_ w (ecc_add W a b) (fun r => forall P Q, pt w a P -> pt w b Q ->
    (P = Q -> cvok w a P) ->
    pt w (fst r) (padd P Q) /\ pt_c (fst r) = None /\ pt w (snd r) P /\ (cvok w a P -> cvok w (snd r) P)).
  Proof.
    unfold ecc_add. eapply snd_bind; [apply (vsub N W HN HW)|]. intro dx. eapply snd_bind; [apply (vsub N W HN HW)|]. intro dy.
    eapply snd_bind; [apply (vdiv N W HN HW)|]. intros [[[xe t] dy'] dx'].
    eapply snd_bind; [apply (vis_zero N W HN HW)|]. intros [ye dy'']. cbn [fst].
    eapply snd_bind; [apply (bit_and N)|]. intro eq.
    eapply snd_bind; [apply curvature_snd|]. intros [c a']. cbn [fst snd].
    eapply snd_bind; [apply bcurv|]. intro l.
    eapply snd_bind; [apply lambda_snd|]. intro p0.
    eapply snd_bind; [apply bpoint|]. intro p1. eapply snd_bind; [apply bpoint|]. intro p2. apply snd_ret. cbn [fst snd].
    intros Hp2 Hp1 (Hp0z & Hp0c & Hp0) Hl Hc Heq Hye Hdiv Hdy Hdx P Q HP HQ Hcv.
    destruct (Hc P HP) as (HP' & Ec' & Wc & Ez & Hsl). clear Hc.
    assert (Hcvok : cvok w a P -> cvok w a' P) by (unfold cvok at 2; now rewrite Ec').
    assert (HPe : exists x y z, holds_int w (pt_x a) x /\ holds_int w (pt_y a) y /\ holds_bit w (pt_z a) z /\ P = (if z then Inf else Aff x y)).
    { destruct HP as (x & y & z & H). exists x, y, z. tauto. }
    destruct HPe as (xa & ya & za & Vxa & Vya & Vza & EP).
    pose proof HQ as (xb & yb & zb & Vxb & Vyb & Vzb & EQ & OQ & _).
    pose proof HP' as (xa' & ya' & za' & Vxa' & Vya' & Vza' & EP' & OP & _).
    specialize (Hdx _ _ Vxa Vxb). specialize (Hdy _ _ Vya Vyb).
    destruct (Hdiv _ _ Hdy Hdx) as (tv & xz & Vt & Vxe & Hxz & Htq & Vdy' & _). clear Hdiv.
    destruct (Hye _ Vdy') as (yz & Vye & Hyz & _). specialize (Heq _ _ Vxe Vye).
    assert (Wt : cwf w (AC t xe)) by (exists tv, xz; cbn; auto).
    destruct (Hl _ Heq Wc Wt) as (Wl & Hlv). pose proof Wl as (lv & lz & Vl & Vlz).
    destruct (Hp0 _ _ _ _ Vl Vxa' Vya' Vxb) as [Vpx Vpy].
    (* the point through [p0] is only looked at when both are affine *)
    assert (G : za' = false -> zb = false -> pt w p0 (padd P Q)).
    { intros -> ->. rewrite Ez in Vza'. assert (za = false) by (eapply bit_inj; eassumption). subst za. subst P Q. injection EP' as <- <-.
      assert (Exz : xz = true <-> xa = xb).
      { rewrite Hxz. split; [apply fsub_eq0|intros ->; ring]. }
      assert (Eyz : yz = true <-> ya = yb).
      { rewrite Hyz. split; [apply fsub_eq0|intros ->; ring]. }
      exists (lv * lv - xa - xb), (lv * (xa - (lv * lv - xa - xb)) - ya), lz. rewrite Hp0c, Hp0z.
      split; [exact Vpx|]. split; [exact Vpy|]. split; [exact Vlz|].
      assert (Hpadd : padd (Aff xa ya) (Aff xb yb) = (if lz then Inf else Aff (lv * lv - xa - xb) (lv * (xa - (lv * lv - xa - xb)) - ya))).
      { unfold padd. destruct (feq_dec xa xb) as [Ex|Ex].
        - assert (xz = true) by (now apply Exz). subst xz xb. cbn [andb] in Hlv. destruct (feq_dec (ya + yb) 0) as [Ey|Ey].
          + assert (ya <> yb). { intros <-. apply (double_nz W (two_neq0 W HW) ya (no_ordinate_0 W HW xa ya OP)). rewrite <- Ey. ring. }
            destruct yz; [exfalso; now apply H, Eyz|]. cbn in Hlv. destruct (Hlv _ _ Vt Vxe) as [_ Hz].
            rewrite (bit_inj N w _ _ _ Vlz Hz). reflexivity.
          + destruct (same_x W bb xa ya yb OP OQ) as [E|E]; [|contradiction]. subst yb.
            assert (yz = true) by (now apply Eyz). subst yz. cbn [andb] in Hlv.
            destruct (Hsl (Hcv eq_refl)) as (v & Vv & Vcz & Ev). destruct (Hlv _ _ Vv Vcz) as [Hv Hz].
            rewrite (bit_inj N w _ _ _ Vlz Hz), (int_inj N W w _ _ _ Vl Hv).
            rewrite <- (div_eq W _ _ v (double_nz W (two_neq0 W HW) ya (no_ordinate_0 W HW xa ya OP)) Ev). reflexivity.
        - assert (xz = false) by (destruct xz; [exfalso; now apply Ex, Exz|reflexivity]). subst xz. cbn [andb] in Hlv.
          destruct (Hlv _ _ Vt Vxe) as [Hv Hz]. rewrite (bit_inj N w _ _ _ Vlz Hz), (int_inj N W w _ _ _ Vl Hv).
          assert (Hne : xa - xb <> 0) by (intro H; apply Ex; now apply fsub_eq0).
          rewrite <- (div_eq W _ _ tv Hne (Htq Hne)). reflexivity. }
      split; [exact Hpadd|]. split; [|exact I]. apply (padd_on W bb); assumption. }
    destruct Hp1 as [_ Hp1]. destruct Hp2 as [(Hp2c & _) Hp2].
    assert (W0 : pwf w p0) by (eexists _, _, lz; rewrite Hp0z; eauto).
    destruct (Hp1 _ Vza' (pt_pwf _ _ _ HQ) W0) as (W1 & _ & Hp1'). destruct (Hp2 _ Vzb (pt_pwf _ _ _ HP') W1) as (_ & _ & Hp2').
    split; [|split; [assumption|split; assumption]].
    apply Hp2'. destruct zb.
    - rewrite EQ. now rewrite padd_inf_r.
    - apply Hp1'. destruct za'; [rewrite EP'; exact HQ|now apply G].
  Qed.

  Lemma ecc_double_snd w a : snd_ w (ecc_double W a) (fun r => forall P, pt w a P -> cvok w a P ->
    pt w (fst r) (padd P P) /\ pt_c (fst r) = None /\ pt w (snd r) P /\ cvok w (snd r) P).
  Proof.
    unfold ecc_double. eapply snd_bind; [apply curvature_snd|]. intros [c a']. cbn [fst snd].
    eapply snd_bind; [apply lambda_snd|]. intro p. eapply snd_bind; [apply (bit_bisec N)|]. intro z. apply snd_ret. cbn [fst snd].
    intros Hz (Ez & Ec & Hp) Hc P HP Hcv. destruct (Hc P HP) as (HP' & Ec' & Wc & _ & Hsl). specialize (Hsl Hcv).
    assert (Hcv' : cvok w a' P) by (unfold cvok; now rewrite Ec').
    pose proof HP' as (x & y & zb & Vx & Vy & Vz & EP & OP & _). pose proof Wc as (v & cz & Vv & Vcz).
    destruct (Hp _ _ _ _ Vv Vx Vy Vx) as [Vpx Vpy]. rewrite Ez in Hz. specialize (Hz _ _ _ Vz Vz Vcz). rewrite Ec.
    split; [|split; [reflexivity|split; assumption]].
    eexists _, _, _. cbn [pt_x pt_y pt_z pt_c]. split; [exact Vpx|]. split; [exact Vpy|]. split; [exact Hz|].
    assert (E : padd P P = (if (if zb then zb else cz) then Inf else Aff (v * v - x - x) (v * (x - (v * v - x - x)) - y))).
    { destruct zb; subst P; [reflexivity|]. destruct Hsl as (v' & Vv' & Vz' & Ev).
      rewrite (bit_inj N w _ _ _ Vcz Vz'), (int_inj N W w _ _ _ Vv Vv'). unfold padd.
      destruct (feq_dec x x); [|congruence]. pose proof (double_nz W (two_neq0 W HW) y (no_ordinate_0 W HW x y OP)) as Hd.
      destruct (feq_dec (y + y) 0) as [H|_]; [exfalso; apply Hd; rewrite <- H; ring|].
      rewrite <- (div_eq W _ _ v' Hd Ev). reflexivity. }
    split; [exact E|]. split; [|exact I]. now apply (padd_on W bb).
  Qed.

  (** ** Negation, subtraction, reduction, constants *)
  Lemma ecc_neg_snd w a : snd_ w (ecc_neg W a) (fun r => pt_c r = None /\ forall P, pt w a P -> pt w r (pneg P)).
  Proof.
    unfold ecc_neg. eapply snd_bind; [apply (vneg N W HN HW)|]. intro y'. apply snd_ret. intro Hy. split; [reflexivity|].
    intros P (x & y & z & Vx & Vy & Vz & EP & OP & _). exists x, (- y), z. cbn [pt_x pt_y pt_z pt_c].
    split; [assumption|]. split; [now apply Hy|]. split; [assumption|]. split; [destruct z; now subst P|]. split; [now apply pneg_on|exact I].
  Qed.
  Lemma ecc_sub_snd w a b : snd_ w (ecc_sub W a b) (fun r => forall P Q, pt w a P -> pt w b Q ->
    (P = pneg Q -> cvok w a P) ->
    pt w (fst r) (padd P (pneg Q)) /\ pt_c (fst r) = None /\ pt w (snd r) P /\ (cvok w a P -> cvok w (snd r) P)).
  Proof.
    unfold ecc_sub. eapply snd_bind; [apply ecc_neg_snd|]. intro nb. eapply snd_conseq; [apply ecc_add_snd|].
    intros r H [Hc Hn] P Q HP HQ Hcv. apply H; auto.
  Qed.
  Lemma assign_identity_snd' w : snd_ w (assign_identity W) (fun r => pt w r Inf /\ cvok w r Inf /\
    holds_int w (pt_x r) 0 /\ holds_int w (pt_y r) 0 /\ overflows (pt_x r) = 0%nat /\ overflows (pt_y r) = 0%nat).
  Proof.
    unfold assign_identity. eapply snd_bind; [apply (int_assign_constant_snd N W HN HW)|]. intro zero. eapply snd_bind; [apply (assign_constant_snd N)|]. intro one.
    apply snd_ret. intros H1 (Hw & Ho & Ev & _).
    assert (H0 : holds_int w zero 0) by (split; [assumption|split; [assumption|lia]]).
    split; [|split; [exact I|cbn; auto]]. exists 0, 0, true. cbn [pt_x pt_y pt_z pt_c].
    split; [assumption|]. split; [assumption|]. split; [assumption|]. split; [reflexivity|]. split; [exact I|]. exists 0, true. now split.
  Qed.
  Lemma ecc_reduce_snd w a : snd_ w (ecc_reduce W a) (fun r => forall P, pt w a P ->
    pt w (fst r) P /\ (P = Inf -> holds_int w (pt_x (fst r)) 0 /\ holds_int w (pt_y (fst r)) 0) /\
    overflows (pt_x (fst r)) = 0%nat /\ overflows (pt_y (fst r)) = 0%nat /\ pt w (snd r) P /\ (cvok w a P -> cvok w (snd r) P) /\ pt_c (fst r) = None).
  Proof.
    unfold ecc_reduce. eapply snd_bind; [apply (vreduce N W HN HW)|]. intro x'. eapply snd_bind; [apply (vreduce N W HN HW)|]. intro y'.
    eapply snd_bind; [apply assign_identity_snd'|]. intro id. eapply snd_bind; [apply bpoint|]. intro p. apply snd_ret. cbn [fst snd pt_x pt_y pt_z pt_c].
    intros [(Hc & Ox & Oy) Hp] (Hid & _ & Hix & Hiy & Oix & Oiy) Hy Hx P (x & y & z & Vx & Vy & Vz & EP & OP & Hcv).
    destruct (Hx _ Vx) as [Vx' Ox']. destruct (Hy _ Vy) as [Vy' Oy'].
    assert (HP : pt w (AP x' y' (pt_z a) (pt_c a)) P) by (exists x, y, z; cbn [pt_x pt_y pt_z pt_c]; auto 10).
    destruct (Hp _ Vz (pt_pwf _ _ _ Hid) (pt_pwf _ _ _ HP)) as (_ & Hxy & HpP).
    rewrite Ox' in Ox. rewrite Oy' in Oy. rewrite Oix in Ox. rewrite Oiy in Oy.
    split. { apply HpP. destruct z; [now subst P|assumption]. }
    split. { intro E. destruct z; [|subst P; discriminate]. apply Hxy; assumption. }
    split; [exact Ox|]. split; [exact Oy|]. split; [assumption|]. split; [unfold cvok; cbn; auto|exact Hc].
  Qed.

  Lemma coords_const w (P : point) : on_curve bb P ->
    snd_ w (assign_constant_point P) (fun r => pt w r P /\ cvok w r P).
  Proof.
    intro OP. unfold assign_constant_point. destruct (coords P) as [[x y] z] eqn:E.
    eapply snd_bind; [apply (vconst N W HN HW)|]. intro ax. eapply snd_bind; [apply (vconst N W HN HW)|]. intro ay.
    eapply snd_bind; [apply (assign_constant_snd N)|]. intro az. apply snd_ret. intros Hz Hy Hx. split; [|exact I].
    destruct P as [|px py]; cbn in E; injection E as <- <- <-.
    - exists 0, 0, true. cbn. auto 10.
    - exists px, py, false. cbn. auto 10.
  Qed.
  Lemma constant_curvature w (P : point) : on_curve bb P ->
    snd_ w (assign_constant_point_with_curvature P) (fun r => pt w r P).
  Proof.
    intro OP. unfold assign_constant_point_with_curvature. destruct (coords P) as [[x y] z] eqn:E.
    eapply snd_bind; [apply (vconst N W HN HW)|]. intro cv. eapply snd_bind; [apply (assign_constant_snd N)|]. intro cz.
    eapply snd_bind; [apply (vconst N W HN HW)|]. intro ax. eapply snd_bind; [apply (vconst N W HN HW)|]. intro ay.
    eapply snd_bind; [apply (assign_constant_snd N)|]. intro az. apply snd_ret. intros Hz Hy Hx Hcz Hcv.
    assert (Hc : cwf w (AC cv cz)).
    { eexists. exists (if feq_dec x 0 then true else false). cbn [cv_v cv_z]. split; [exact Hcv|]. red. rewrite Hcz.
      destruct (feq_dec x 0); reflexivity. }
    destruct P as [|px py]; cbn in E; injection E as <- <- <-.
    - exists 0, 0, true. cbn [pt_x pt_y pt_z pt_c]. auto 10.
    - exists px, py, false. cbn [pt_x pt_y pt_z pt_c]. auto 10.
  Qed.

  (** ** Assigned points *)
  Lemma assign_point_snd w (P : point) : snd_ w (assign_point P) (fun r => pt_c r = None /\
    exists x y, holds_int w (pt_x r) x /\ holds_int w (pt_y r) y /\ (w (av_cell (pt_z r)) = 1 \/ y * y = x * x * x + bb)).
  Proof.
    unfold assign_point. destruct (coords P) as [[x0 y0] z0].
    eapply snd_bind; [apply (vassign N W HN HW)|]. intro x. eapply snd_bind; [apply (vassign N W HN HW)|]. intro y.
    eapply snd_bind; [apply (assign_snd N)|]. intro z. eapply snd_bind; [apply (vconst N W HN HW)|]. intro b.
    eapply snd_bind; [apply (vsquare N W HN HW)|]. intros [y2 y']. eapply snd_bind; [apply (vsquare N W HN HW)|]. intros [x2 x'].
    eapply snd_bind; [apply (vmul N W HN HW)|]. intros [[x3 x2'] x'']. eapply snd_bind; [apply (vadd N W HN HW)|]. intro right.
    eapply snd_bind; [apply (vis_equal N W HN HW)|]. intro eq. eapply snd_bind; [apply (or_snd N)|]. intro eoi.
    eapply snd_bind; [apply (assert_constant_snd N)|]. intros []. apply snd_ret. cbn [pt_x pt_y pt_z pt_c].
    intros Hone Hor Heq Hr Hx3 Hx2 Hy2 Hb _ (yv & Vy) (xv & Vx). split; [reflexivity|].
    destruct (Hy2 _ Vy) as (Vy2 & _ & _ & Vy'). destruct (Hx2 _ Vx) as (Vx2 & _ & _ & Vx').
    destruct (Hx3 _ _ Vx2 Vx') as (Vx3 & _ & Vx''). specialize (Hr _ _ Vx3 Hb). destruct (Heq _ _ Vy2 Hr) as (e & Ve & He).
    exists xv, yv. split; [assumption|]. split; [assumption|]. destruct e.
    - right. now apply He.
    - left. unfold IntegerHistorySound.holds_bit in Ve. rewrite Hor, Ve in Hone. rewrite <- Hone. ring.
  Qed.

  (** ** Equality assertion *)
  Lemma ecc_assert_equal_snd w a b : snd_ w (ecc_assert_equal W a b) (fun _ => forall xa ya za xb yb zb,
    holds_int w (pt_x a) xa -> holds_int w (pt_y a) ya -> holds_bit w (pt_z a) za ->
    holds_int w (pt_x b) xb -> holds_int w (pt_y b) yb -> holds_bit w (pt_z b) zb ->
    (xa = xb /\ ya = yb) \/ (za = true /\ zb = true)).
  Proof.
    unfold ecc_assert_equal. eapply snd_bind; [apply (vis_equal N W HN HW)|]. intro ex. eapply snd_bind; [apply (vis_equal N W HN HW)|]. intro ey.
    eapply snd_bind; [apply (bit_xnor N)|]. intro ez. eapply snd_bind; [apply (bit_and N)|]. intro exy. eapply snd_bind; [apply (bit_and N)|]. intro exyz.
    eapply snd_bind; [apply (bit_and N)|]. intro both. eapply snd_bind; [apply (bit_or N)|]. intro eq.
    eapply snd_conseq; [apply (assert_constant_snd N)|]. intros [] H1 Hor Hb Hxyz Hxy Hz Hy Hx xa ya za xb yb zb Vxa Vya Vza Vxb Vyb Vzb.
    destruct (Hx _ _ Vxa Vxb) as (bx & Vbx & Ebx). destruct (Hy _ _ Vya Vyb) as (by_ & Vby & Eby).
    specialize (Hz _ _ Vbx Vby). specialize (Hxy _ _ Vbx Vby). specialize (Hxyz _ _ Hxy Hz). specialize (Hb _ _ Vza Vzb). specialize (Hor _ _ Hxyz Hb).
    assert (E : (bx && by_ && Bool.eqb bx by_ || za && zb)%bool = true) by (eapply bit_inj; [exact Hor|exact H1]).
    destruct bx, by_, za, zb; try discriminate; try (right; now split); left; split; (apply Ebx || apply Eby); reflexivity.
  Qed.

  (** ** Selection with curvature *)
  Lemma bpoint_curv w s a b : snd_ w (bisec_point_with_curvature W s a b) (fun p => forall z P Q, holds_bit w s z -> pt w a P -> pt w b Q ->
    pt w p (if z then P else Q) /\ (cvok w (if z then a else b) (if z then P else Q) -> cvok w p (if z then P else Q))).
  Proof.
    unfold bisec_point_with_curvature. eapply snd_bind; [apply (vbisec N W)|]. intro x. eapply snd_bind; [apply (vbisec N W)|]. intro y.
    eapply snd_bind; [apply (bit_bisec N)|]. intro z'. eapply snd_bind; [apply curvature_snd|]. intros [ca a']. eapply snd_bind; [apply curvature_snd|]. intros [cb b'].
    eapply snd_bind; [apply bcurv|]. intro c. apply snd_ret. cbn [fst snd]. intros Hc Hb Ha Hz [_ Hy] [_ Hx] z P Q Hs HP HQ.
    destruct (Ha _ HP) as (_ & _ & Wa & _ & Sa). destruct (Hb _ HQ) as (_ & _ & Wb & _ & Sb). destruct (Hc _ Hs Wa Wb) as [Wc Hcv].
    destruct HP as (xa & ya & za & Vxa & Vya & Vza & EP & OP & _). destruct HQ as (xb & yb & zb & Vxb & Vyb & Vzb & EQ & OQ & _).
    specialize (Hx _ _ _ Hs Vxa Vxb). specialize (Hy _ _ _ Hs Vya Vyb). specialize (Hz _ _ _ Hs Vza Vzb).
    split.
    - exists (if z then xa else xb), (if z then ya else yb), (if z then za else zb). cbn [pt_x pt_y pt_z pt_c]. destruct z; auto 10.
    - intro Hk. unfold cvok. cbn [pt_c].
      assert (S : slope_of w (if z then ca else cb) (if z then P else Q)) by (destruct z; auto).
      revert S. unfold slope_of. destruct (if z then P else Q) as [|px py]; [auto|]. intros (v & Vv & Vz & Ev). exists v.
      destruct (Hcv v false Vv Vz). auto.
  Qed.
End Sound.
