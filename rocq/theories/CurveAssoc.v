(** The chord-and-tangent law is associative on curves [y^2 = x^3 + b] without
    points of order two (no point has ordinate 0), and what follows for
    multiples of a point. *)
From Coq Require Import ZArith NArith Lia List Bool Ring Field.
From Verif Require Import Util Algebra Curve CurveIdent.
Local Open Scope fld_scope.

Section Assoc.
  Variable F : Fld.
  Variable b : F.
  Add Field FF : (f_th F).
  Hypothesis two : (1 + 1 : F) <> 0.
  (** no point has ordinate 0: the curve has no point of order two *)
  Hypothesis noy : forall x y, on_curve b (Aff x y) -> y <> 0.
  Implicit Types P Q R : point F.

  (** [l] is the slope of the line through two affine points (the tangent when
      they coincide) *)
  Definition line (l : F) (P Q : point F) : Prop :=
    match P, Q with Aff x1 y1, Aff x2 y2 => y1 - y2 = l * (x1 - x2) /\ slope l x1 y1 x2 | _, _ => False end.

  Lemma line_ex x1 y1 x2 y2 : on_curve b (Aff x1 y1) -> on_curve b (Aff x2 y2) -> ~ (x1 = x2 /\ y1 + y2 = 0) ->
    exists l, line l (Aff x1 y1) (Aff x2 y2) /\ padd (Aff x1 y1) (Aff x2 y2) = third l x1 y1 x2.
  Proof.
    intros H1 H2 Hn. unfold padd. destruct (feq_dec x1 x2) as [<-|Hx].
    - destruct (feq_dec (y1 + y2) 0) as [Hy|Hy]; [exfalso; auto|]. destruct (same_x F b _ _ _ H1 H2) as [<-|]; [|contradiction].
      eexists. split; [|reflexivity]. split; [ring|]. apply tangent_slope, div_mul. refine (fun H => Hy (eq_trans _ H)). ring.
    - assert (Hd : x1 - x2 <> 0) by (intro H; apply Hx; now apply fsub_eq0).
      eexists. split; [|reflexivity]. split; [field; exact Hd|]. apply (chord_slope F b _ _ _ _ y2); auto. now apply div_mul.
  Qed.
  Lemma line_padd l x1 y1 x2 y2 : on_curve b (Aff x1 y1) -> on_curve b (Aff x2 y2) -> ~ (x1 = x2 /\ y1 + y2 = 0) ->
    line l (Aff x1 y1) (Aff x2 y2) -> padd (Aff x1 y1) (Aff x2 y2) = third l x1 y1 x2.
  Proof.
    intros H1 H2 Hn [Hl Hs]. unfold slope in Hs. unfold padd. destruct (feq_dec x1 x2) as [<-|Hx].
    - destruct (feq_dec (y1 + y2) 0) as [Hy|Hy]; [exfalso; auto|]. f_equal.
      pose proof (noy _ _ H1) as Hy1. pose proof (double_nz F two _ Hy1) as H2y.
      symmetry. apply div_eq; [assumption|]. apply fsub_eq0. rewrite <- Hs at 1.
      transitivity (- (l * l * (x1 - x1) - (1 + 1) * y1 * l + (x1 * x1 + x1 * x1 + x1 * x1))); [ring|].
      rewrite Hs. ring.
    - f_equal. symmetry. apply div_eq; [|now rewrite Hl]. intro H; apply Hx; now apply fsub_eq0.
  Qed.
  Lemma line_sym l P Q : line l P Q -> line l Q P.
  Proof.
    destruct P as [|x1 y1], Q as [|x2 y2]; auto. intros [Hl Hs]. split.
    - transitivity (- (y1 - y2)); [ring|rewrite Hl; ring].
    - unfold slope in *. refine (eq_trans _ Hs). transitivity (l * (l * (x2 - x1)) - (1 + 1) * y2 * l + (x2 * x2 + x2 * x1 + x1 * x1)); [ring|].
      replace y1 with (y2 + l * (x1 - x2)); [ring|]. rewrite <- Hl. ring.
  Qed.
  Lemma line_neg l P Q : line l P Q -> line (- l) (pneg P) (pneg Q).
  Proof.
    destruct P as [|x1 y1], Q as [|x2 y2]; auto. intros [Hl Hs]. split; cbn.
    - transitivity (- (y1 - y2)); [ring|rewrite Hl; ring].
    - unfold slope in *. rewrite <- Hs. ring.
  Qed.
  (** the third point of the line *)
  Lemma line_third l x1 y1 x2 y2 : line l (Aff x1 y1) (Aff x2 y2) -> line l (Aff x1 y1) (pneg (third l x1 y1 x2)).
  Proof.
    intros [Hl Hs]. unfold slope in *. cbn. split; [ring|]. unfold slope. rewrite <- Hs. ring.
  Qed.
  Lemma pneg_pneg P : pneg (pneg P) = P.
  Proof. destruct P; [reflexivity|]. cbn. f_equal. ring. Qed.
  Lemma pneg_inj P Q : pneg P = pneg Q -> P = Q.
  Proof. intro H. rewrite <- (pneg_pneg P), H. apply pneg_pneg. Qed.
  Lemma aff_opp x1 y1 x2 y2 : (x1 = x2 /\ y1 + y2 = 0) <-> Aff x1 y1 = @pneg F (Aff x2 y2).
  Proof.
    cbn. split.
    - intros [-> H]. f_equal. transitivity (y1 + y2 - y2); [ring|rewrite H; ring].
    - intro H. injection H as -> ->. split; [reflexivity|ring].
  Qed.
  Lemma not_self_opp x y : on_curve b (Aff x y) -> Aff x y <> pneg (Aff x y).
  Proof.
    intros H E. apply aff_opp in E. destruct E as [_ E]. apply (noy _ _ H).
    assert (E' : (1 + 1) * y = 0) by (rewrite <- E; ring). apply fmul_integral in E'. tauto.
  Qed.
  Lemma padd_opp P Q : on_curve b P -> on_curve b Q -> padd P Q = Inf -> P = pneg Q.
  Proof.
    destruct P as [|x1 y1], Q as [|x2 y2]; cbn [padd pneg]; try congruence. intros H1 H2.
    destruct (feq_dec x1 x2) as [<-|]; [|discriminate]. destruct (feq_dec (y1 + y2) 0); [|discriminate].
    intros _. apply (aff_opp x1 y1 x1 y2). auto.
  Qed.

  Lemma pneg_padd P Q : on_curve b P -> on_curve b Q -> pneg (padd P Q) = padd (pneg P) (pneg Q).
  Proof.
    destruct P as [|x1 y1], Q as [|x2 y2]; try reflexivity. intros H1 H2.
    destruct (point_eq_dec F (Aff x1 y1) (pneg (Aff x2 y2))) as [E|Hn].
    - rewrite E, pneg_pneg. rewrite (padd_comm F b); [|now apply pneg_on|assumption]. rewrite (padd_neg F b) by assumption.
      reflexivity.
    - destruct (line_ex _ _ _ _ H1 H2) as [l [Hl ->]]; [rewrite aff_opp; assumption|].
      change (pneg (third l x1 y1 x2) = padd (Aff x1 (- y1)) (Aff x2 (- y2))).
      rewrite (line_padd (- l) x1 (- y1) x2 (- y2)).
      + unfold third. cbn [pneg]. f_equal; ring.
      + apply (pneg_on F b _ H1).
      + apply (pneg_on F b _ H2).
      + rewrite aff_opp. intro E. apply Hn. apply pneg_inj. exact E.
      + exact (line_neg _ _ _ Hl).
  Qed.

  (** ** Cancellation *)
  Lemma padd_cancel P Q : on_curve b P -> on_curve b Q -> padd (pneg P) (padd P Q) = Q.
  Proof.
    intros H1 H2. destruct P as [|x1 y1]; [reflexivity|]. destruct Q as [|x2 y2].
    { rewrite padd_inf_r, (padd_comm F b); [now apply (padd_neg F b)|now apply pneg_on|assumption]. }
    destruct (point_eq_dec F (Aff x1 y1) (pneg (Aff x2 y2))) as [E|Hn].
    { rewrite E, pneg_pneg. rewrite (padd_comm F b (pneg _)); [|now apply pneg_on|assumption]. rewrite (padd_neg F b) by assumption. reflexivity. }
    destruct (line_ex _ _ _ _ H1 H2) as [l [Hl E]]; [rewrite aff_opp; assumption|]. pose proof (padd_on F b _ _ H1 H2) as H3. rewrite E in H3 |- *.
    pose proof (line_neg _ _ _ (line_third _ _ _ _ _ Hl)) as Hl3. rewrite pneg_pneg in Hl3.
    unfold third in H3, Hl3 |- *. set (x3 := l * l - x1 - x2) in *. set (y3 := l * (x1 - x3) - y1) in *. cbn [pneg] in Hl3 |- *.
    rewrite (line_padd (- l) x1 (- y1) x3 y3).
    - destruct Hl as [Hl _]. unfold third, x3. f_equal; [ring|]. transitivity (y1 - l * (x1 - x2)); [ring|]. rewrite <- Hl. ring.
    - exact (pneg_on F b _ H1).
    - exact H3.
    - rewrite aff_opp. intro E'. change (pneg (Aff x1 y1) = pneg (Aff x3 y3)) in E'. apply pneg_inj in E'. injection E' as Ex Ey.
      destruct Hl3 as [Hl3 _]. rewrite <- Ex, <- Ey in Hl3. apply (not_self_opp _ _ H1). apply aff_opp. split; [reflexivity|].
      transitivity (- (- y1 - y1)); [ring|]. rewrite Hl3. ring.
    - exact Hl3.
  Qed.
  Lemma padd_cancel_l P Q R : on_curve b P -> on_curve b Q -> on_curve b R -> padd P Q = padd P R -> Q = R.
  Proof. intros H1 H2 H3 E. rewrite <- (padd_cancel P Q), <- (padd_cancel P R), E; auto. Qed.

  (** ** The two computations *)
  Lemma feq0 (x y : F) : x - y = 0 -> x = y.
  Proof. apply fsub_eq0. Qed.
  Lemma nz_mul (x y : F) : x <> 0 -> y <> 0 -> x * y <> 0.
  Proof. intros Hx Hy H. apply fmul_integral in H. tauto. Qed.

  Lemma generic (l m x1 x2 x3 y2 n k : F) :
    let x12 := l * l - x2 - x1 in let y12 := l * (x2 - x12) - y2 in
    let x23 := m * m - x2 - x3 in let y23 := m * (x2 - x23) - y2 in
    let y1 := y2 + l * (x1 - x2) in let y3 := y2 + m * (x3 - x2) in
    slope l x2 y2 x1 -> slope m x2 y2 x3 -> x12 <> x3 -> x1 <> x23 ->
    n * (x12 - x3) = y12 - y3 -> k * (x1 - x23) = y1 - y23 ->
    third n x12 y12 x3 = third k x1 y1 x23.
  Proof.
    intros x12 y12 x23 y23 y1 y3 K1 K2 HB HD Hn Hk. unfold slope in K1, K2.
    pose proof (generic_x F l m x1 x2 x3 y2) as GX. pose proof (generic_y F l m x1 x2 x3 y2) as GY.
    fold x12 in GX, GY. fold y12 in GX, GY. fold x23 in GX, GY. fold y23 in GX, GY. fold y1 in GX, GY. fold y3 in GX, GY.
    rewrite K1, K2 in GX, GY.
    assert (GX' : (y12 - y3) * (y12 - y3) * (x1 - x23) * (x1 - x23) - (y1 - y23) * (y1 - y23) * (x12 - x3) * (x12 - x3)
      - (l * l - m * m + (1 + 1) * x3 - (1 + 1) * x1) * (x12 - x3) * (x12 - x3) * (x1 - x23) * (x1 - x23) = 0) by (rewrite GX; ring).
    assert (GY' : (x1 - x23) * ((y12 - y3) * ((1 + 1) * x12 + x3) * (x12 - x3) * (x12 - x3) - (y12 - y3) * (y12 - y3) * (y12 - y3) - y12 * (x12 - x3) * (x12 - x3) * (x12 - x3))
      - (x12 - x3) * ((y1 - y23) * ((x1 + x12 + x3) * (x12 - x3) * (x12 - x3) - (y12 - y3) * (y12 - y3)) - y1 * (x12 - x3) * (x12 - x3) * (x1 - x23)) = 0) by (rewrite GY; ring).
    clear GX GY. assert (HB' : x12 - x3 <> 0) by (intro H; apply HB; now apply fsub_eq0).
    assert (HD' : x1 - x23 <> 0) by (intro H; apply HD; now apply fsub_eq0).
    assert (E12 : l * l - m * m + (1 + 1) * x3 - (1 + 1) * x1 = x12 + x3 - x1 - x23) by (unfold x12, x23; ring). rewrite E12 in GX'.
    rewrite <- Hn, <- Hk in GX', GY'.
    clearbody y1 y23 y12 y3 x12 x23. clear K1 K2 E12 Hn Hk.
    assert (EX : n * n - x12 - x3 = k * k - x1 - x23).
    { apply feq0. apply (fmul_cancel_l F ((x12 - x3) * (x12 - x3) * ((x1 - x23) * (x1 - x23)))); [auto using nz_mul|].
      etransitivity; [|transitivity (0:F); [exact GX'|ring]]. ring. }
    unfold third. rewrite <- EX. f_equal. apply feq0.
    apply (fmul_cancel_l F ((x12 - x3) * (x12 - x3) * ((x12 - x3) * (x1 - x23)))); [auto using nz_mul|].
    etransitivity; [|transitivity (0:F); [exact GY'|ring]]. ring.
  Qed.
  Lemma doubled (l m x1 x2 y2 n k : F) :
    let x12 := l * l - x2 - x1 in let y12 := l * (x2 - x12) - y2 in
    let x23 := m * m - x2 - x12 in let y23 := m * (x2 - x23) - y2 in
    let y1 := y2 + l * (x1 - x2) in
    slope l x2 y2 x1 -> slope m x2 y2 x12 -> y12 = y2 + m * (x12 - x2) -> y12 <> 0 -> x1 <> x23 ->
    n * ((1 + 1) * y12) = (1 + 1 + 1) * x12 * x12 -> k * (x1 - x23) = y1 - y23 ->
    third n x12 y12 x12 = third k x1 y1 x23.
  Proof.
    intros x12 y12 x23 y23 y1 K1 K2 E2 HU HD Hn Hk. unfold slope in K1, K2.
    pose proof (double_x F l m x1 x2 y2) as GX. pose proof (double_y F l m x1 x2 y2) as GY.
    fold x12 in GX, GY. fold y12 in GX, GY. fold x23 in GX, GY. fold y23 in GX, GY. fold y1 in GX, GY.
    assert (E2' : y2 + m * (x12 - x2) - y12 = 0) by (rewrite <- E2; ring).
    rewrite K1, K2, E2' in GX, GY.
    match type of GX with ?a = _ => assert (GX' : a = 0) by (rewrite GX; ring) end.
    match type of GY with ?a = _ => assert (GY' : a = 0) by (rewrite GY; ring) end.
    clear GX GY.
    assert (HU' : (1 + 1) * y12 <> 0) by now apply double_nz.
    assert (HD' : x1 - x23 <> 0) by (intro H; apply HD; now apply fsub_eq0).
    rewrite <- Hn, <- Hk in GX', GY'.
    clearbody y1 y23 y12 x12 x23. clear K1 K2 E2 E2' Hn Hk.
    assert (EX : n * n - x12 - x12 = k * k - x1 - x23).
    { apply feq0. apply (fmul_cancel_l F ((1 + 1) * y12 * ((1 + 1) * y12) * ((x1 - x23) * (x1 - x23)))); [auto using nz_mul|].
      etransitivity; [|transitivity (0:F); [exact GX'|ring]]. ring. }
    unfold third. rewrite <- EX. f_equal. apply feq0.
    apply (fmul_cancel_l F ((1 + 1) * y12 * ((1 + 1) * y12) * ((1 + 1) * y12 * (x1 - x23)))); [auto using nz_mul|].
    etransitivity; [|transitivity (0:F); [exact GY'|ring]]. ring.
  Qed.

  (** the same for points *)
  Lemma third_base l x1 y1 x2 y2 : line l (Aff x1 y1) (Aff x2 y2) -> third l x1 y1 x2 = third l x2 y2 x1.
  Proof.
    intros [Hl _]. unfold third. f_equal; [ring|].
    replace y1 with (y2 + l * (x1 - x2)); [ring|]. rewrite <- Hl. ring.
  Qed.
  Lemma line_y l x1 y1 x2 y2 : line l (Aff x1 y1) (Aff x2 y2) -> y1 = y2 + l * (x1 - x2).
  Proof. intros [Hl _]. rewrite <- Hl. ring. Qed.

  Lemma assoc_double P Q : on_curve b P -> on_curve b Q ->
    let S := padd P Q in S <> Inf -> P <> Inf -> Q <> Inf -> padd Q S <> Inf -> padd Q S <> P -> padd Q S <> pneg P ->
    padd S S = padd P (padd Q S).
  Proof.
    intros H1 H2 S. pose proof (padd_on F b _ _ H1 H2) as HS. fold S in HS. pose proof (padd_on F b _ _ H2 HS) as HT.
    destruct P as [|x1 y1]; [congruence|]. destruct Q as [|x2 y2]; [congruence|]. intros nS _ _ nT nTP nTN.
    assert (ES : exists l, line l (Aff x2 y2) (Aff x1 y1) /\ S = third l x2 y2 x1).
    { destruct (line_ex _ _ _ _ H1 H2) as [l [Hl E]].
      - rewrite aff_opp. intro E. apply nS. unfold S. rewrite E. rewrite (padd_comm F b); [now apply (padd_neg F b)|now apply pneg_on|assumption].
      - exists l. split; [now apply line_sym|]. unfold S. rewrite E. now apply third_base with (y2 := y2). }
    destruct ES as [l [Hl ES]]. clearbody S. subst S.
    unfold third in *. set (x12 := l * l - x2 - x1) in *. set (y12 := l * (x2 - x12) - y2) in *.
    destruct (line_ex _ _ _ _ H2 HS) as [m [Hm ET]].
    { rewrite aff_opp. intro E. apply nT. rewrite E. rewrite (padd_comm F b); [now apply (padd_neg F b)|now apply pneg_on|assumption]. }
    rewrite ET in *. unfold third in *. set (x23 := m * m - x2 - x12) in *. set (y23 := m * (x2 - x23) - y2) in *.
    assert (Hx : x1 <> x23).
    { intros E. clearbody x23 y23. subst x23. destruct (same_x F b _ _ _ H1 HT) as [E|E]; [subst; now apply nTP|].
      apply nTN. symmetry. rewrite <- (pneg_pneg (Aff x1 y23)). f_equal. now apply (aff_opp x1 y1 x1 y23). }
    destruct (line_ex _ _ _ _ HS HS) as [n [Hn ->]]; [rewrite aff_opp; now apply not_self_opp|].
    destruct (line_ex _ _ _ _ H1 HT) as [k [Hk ->]]; [tauto|].
    pose proof (line_y _ _ _ _ _ (line_sym _ _ _ Hl)) as Ey1. pose proof (line_y _ _ _ _ _ (line_sym _ _ _ Hm)) as Ey12.
    pose proof (noy _ _ HS) as Hy12. destruct Hn as [_ Hn]. destruct Hk as [Hk _]. destruct Hl as [_ Hl]. destruct Hm as [_ Hm].
    subst y1. apply doubled with (m := m); auto.
    fold x12 y12. unfold slope in Hn. apply feq0. transitivity (- (n * n * (x12 - x12) - (1 + 1) * y12 * n + (x12 * x12 + x12 * x12 + x12 * x12))); [ring|].
    rewrite Hn. ring.
  Qed.

  (** ** Associativity *)
  Theorem padd_assoc P Q R : on_curve b P -> on_curve b Q -> on_curve b R -> padd (padd P Q) R = padd P (padd Q R).
  Proof.
    intros H1 H2 H3. pose proof (padd_on F b _ _ H1 H2) as HS. pose proof (padd_on F b _ _ H2 H3) as HT.
    pose proof (pneg_on F b _ H1) as N1. pose proof (pneg_on F b _ H2) as N2. pose proof (pneg_on F b _ H3) as N3.
    destruct (point_eq_dec F P Inf) as [->|nP]; [reflexivity|].
    destruct (point_eq_dec F Q Inf) as [->|nQ]; [now rewrite padd_inf_r|].
    destruct (point_eq_dec F R Inf) as [->|nR]; [now rewrite !padd_inf_r|].
    destruct (point_eq_dec F (padd P Q) Inf) as [E|nS].
    { rewrite E. apply padd_opp in E; auto. subst P. cbn [padd]. rewrite padd_cancel; auto. }
    destruct (point_eq_dec F (padd Q R) Inf) as [E|nT].
    { rewrite E. rewrite padd_inf_r. apply padd_opp in E; auto. subst Q.
      rewrite (padd_comm F b P), (padd_comm F b _ R); auto; [|now apply padd_on]. rewrite <- (pneg_pneg R) at 1. now rewrite padd_cancel. }
    destruct (point_eq_dec F (padd P Q) (pneg R)) as [E|nSR].
    { rewrite E, (padd_comm F b), (padd_neg F b); auto. apply (f_equal (padd (pneg P))) in E. rewrite padd_cancel in E; auto.
      rewrite E, <- pneg_padd; auto. rewrite (padd_comm F b _ R); [|apply pneg_on; now apply padd_on|assumption].
      rewrite pneg_padd; auto. rewrite (padd_comm F b (pneg P)); auto. rewrite <- (pneg_pneg R) at 1. rewrite padd_cancel; auto.
      now rewrite (padd_neg F b). }
    destruct (point_eq_dec F (padd Q R) (pneg P)) as [E|nTP].
    { rewrite E, (padd_neg F b); auto. rewrite (padd_comm F b) in E; auto. apply (f_equal (padd (pneg R))) in E. rewrite padd_cancel in E; auto.
      rewrite E. rewrite (padd_comm F b (pneg R)); auto.
      rewrite <- (pneg_pneg P) at 1. rewrite padd_cancel; auto. rewrite (padd_comm F b), (padd_neg F b); auto. }
    destruct (point_eq_dec F (padd P Q) R) as [ER|nER], (point_eq_dec F (padd Q R) P) as [EP|nEP].
    - (* P + Q = R and Q + R = P *)
      exfalso. rewrite <- EP in ER at 1. rewrite (padd_comm F b) in ER; auto.
      assert (E : R = padd (pneg Q) P) by (rewrite <- EP; now rewrite padd_cancel).
      assert (E' : padd P Q = padd P (pneg Q)).
      { rewrite (padd_comm F b P (pneg Q)); auto. rewrite <- E, <- ER, EP. apply padd_comm with (b := b); auto. }
      apply padd_cancel_l in E'; auto. destruct Q as [|x2 y2]; [congruence|]. now apply not_self_opp in E'.
    - subst R. apply assoc_double; auto.
    - (* mirror image *)
      assert (E2 : padd R Q = P) by (rewrite (padd_comm F b); auto).
      pose proof (assoc_double R Q H3 H2) as A. cbv zeta in A. rewrite E2, (padd_comm F b Q P) in A; auto.
      rewrite EP, A, (padd_comm F b _ R); auto.
    - destruct P as [|x1 y1]; [congruence|]. destruct Q as [|x2 y2]; [congruence|]. destruct R as [|x3 y3]; [congruence|].
      destruct (line_ex _ _ _ _ H1 H2) as [l [Hl ES]].
      { rewrite aff_opp. intro E. apply nS. rewrite E. rewrite (padd_comm F b); auto. now apply (padd_neg F b). }
      destruct (line_ex _ _ _ _ H2 H3) as [m [Hm ET]].
      { rewrite aff_opp. intro E. apply nT. rewrite E. rewrite (padd_comm F b); auto. now apply (padd_neg F b). }
      rewrite ES, ET in *. rewrite (third_base _ _ _ _ _ Hl) in *. apply line_sym in Hl.
      unfold third in *. set (x12 := l * l - x2 - x1) in *. set (y12 := l * (x2 - x12) - y2) in *.
      set (x23 := m * m - x2 - x3) in *. set (y23 := m * (x2 - x23) - y2) in *.
      destruct (line_ex _ _ _ _ HS H3) as [n [Hn ->]]; [now rewrite aff_opp|].
      destruct (line_ex _ _ _ _ H1 HT) as [k [Hk ->]].
      { rewrite aff_opp. intro E. apply nTP. now rewrite E, pneg_pneg. }
      assert (Hx : x12 <> x3).
      { intros E. clearbody x12 y12. subst x12. destruct (same_x F b _ _ _ HS H3) as [E|E]; [subst; now apply nER|].
        apply nSR. now apply (aff_opp x3 y12 x3 y3). }
      assert (Hx' : x1 <> x23).
      { intros E. clearbody x23 y23. subst x23. destruct (same_x F b _ _ _ H1 HT) as [E|E]; [subst; now apply nEP|].
        apply nTP. apply (aff_opp x1 y23 x1 y1). split; [reflexivity|]. rewrite <- E. ring. }
      pose proof (line_y _ _ _ _ _ (line_sym _ _ _ Hl)) as Ey1. pose proof (line_y _ _ _ _ _ (line_sym _ _ _ Hm)) as Ey3.
      destruct Hn as [Hn _]. destruct Hk as [Hk _]. destruct Hl as [_ Hl]. destruct Hm as [_ Hm].
      subst y1 y3. apply generic with (m := m); auto.
  Qed.

  (** ** Multiples of a point *)
  Lemma smul_0 P : smul 0 P = Inf.
  Proof. reflexivity. Qed.
  Lemma smul_succ k P : smul (N.succ k) P = padd P (smul k P).
  Proof. unfold smul. apply N.iter_succ. Qed.
  Lemma smul_1 P : smul 1 P = P.
  Proof. apply padd_inf_r. Qed.
  Lemma smul_add j k P : on_curve b P -> smul (j + k) P = padd (smul j P) (smul k P).
  Proof.
    intro H. induction j as [|j IH] using N.peano_ind; [reflexivity|].
    rewrite N.add_succ_l, !smul_succ, IH, padd_assoc; auto using (smul_on F b).
  Qed.
  Lemma smul_inf k : smul k (@Inf F) = Inf.
  Proof. induction k as [|k IH] using N.peano_ind; [reflexivity|]. now rewrite smul_succ, IH. Qed.
  Lemma smul_mul j k P : on_curve b P -> smul (j * k) P = smul j (smul k P).
  Proof.
    intro H. induction j as [|j IH] using N.peano_ind; [reflexivity|].
    rewrite N.mul_succ_l, N.add_comm, smul_succ, smul_add, IH; auto.
  Qed.
  Lemma smul_double k P : on_curve b P -> padd (smul k P) (smul k P) = smul (2 * k) P.
  Proof. intro H. rewrite <- smul_add by assumption. f_equal. lia. Qed.
  (** multiples depend on the multiplier modulo the order only *)
  Lemma smul_mod k r P : on_curve b P -> smul r P = Inf -> r <> 0%N -> smul k P = smul (k mod r) P.
  Proof.
    intros H E Hr. rewrite (N.div_mod k r) at 1 by assumption. rewrite smul_add by assumption.
    rewrite (N.mul_comm r), smul_mul, E, smul_inf by assumption. reflexivity.
  Qed.
  Lemma smul_neg k P : on_curve b P -> smul k (pneg P) = pneg (smul k P).
  Proof.
    intro H. induction k as [|k IH] using N.peano_ind; [reflexivity|]. rewrite !smul_succ, IH, pneg_padd; auto using (smul_on F b).
  Qed.
End Assoc.
