(** The group of points of a short Weierstrass curve [y^2 = x^3 + b]: the
    specification of what the point operations should compute.  (External
    library: halo2curves' bn256 G1 affine points; [Aff]/[Inf] are its affine
    coordinates and its identity.) *)
From Coq Require Import ZArith NArith Lia List Bool Ring Field.
From Verif Require Import Util Algebra.
Local Open Scope fld_scope.

Section Curve.
  Variable F : Fld.
  Variable b : F.
  Add Field FF : (f_th F).

  Inductive point := Inf | Aff (x y : F).
  Definition on_curve (P : point) : Prop := match P with Inf => True | Aff x y => y * y = x * x * x + b end.
  (** the chord-and-tangent law *)
  Definition third (l x1 y1 x2 : F) : point :=
    let x3 := l * l - x1 - x2 in Aff x3 (l * (x1 - x3) - y1).
  Definition padd (P Q : point) : point :=
    match P, Q with
    | Inf, _ => Q
    | _, Inf => P
    | Aff x1 y1, Aff x2 y2 =>
        if feq_dec x1 x2 then
          if feq_dec (y1 + y2) 0 then Inf
          else third (((1 + 1 + 1) * x1 * x1) / ((1 + 1) * y1)) x1 y1 x2
        else third ((y1 - y2) / (x1 - x2)) x1 y1 x2
    end.
  Definition pneg (P : point) : point := match P with Inf => Inf | Aff x y => Aff x (- y) end.
  (** the [k]-fold sum of [P] *)
  Definition smul (k : N) (P : point) : point := N.iter k (padd P) Inf.

  Lemma point_eq_dec (P Q : point) : {P = Q} + {P <> Q}.
  Proof.
    destruct P as [|x y], Q as [|x' y']; [now left|now right|now right|].
    destruct (feq_dec x x') as [->|Hx]; [|right; congruence].
    destruct (feq_dec y y') as [->|Hy]; [now left|right; congruence].
  Defined.

  (** ** The law stays on the curve *)

  (** [l] is the slope of the chord through [(x1,y1)] and a point with abscissa
      [x2], or of the tangent when [x1 = x2] *)
  Definition slope (l x1 y1 x2 : F) : Prop := l * l * (x1 - x2) - (1 + 1) * y1 * l + (x1 * x1 + x1 * x2 + x2 * x2) = 0.
  Lemma chord_slope l x1 y1 x2 y2 : on_curve (Aff x1 y1) -> on_curve (Aff x2 y2) -> x1 <> x2 ->
    l * (x1 - x2) = y1 - y2 -> slope l x1 y1 x2.
  Proof.
    cbn [on_curve]. intros H1 H2 Hx Hl. unfold slope.
    assert (Hd : x1 - x2 <> 0) by (intro H; apply Hx; now apply fsub_eq0).
    assert (E : (l * l * (x1 - x2) - (1 + 1) * y1 * l + (x1 * x1 + x1 * x2 + x2 * x2)) * (x1 - x2) = 0).
    { transitivity (l * (x1 - x2) * (l * (x1 - x2)) - (1 + 1) * y1 * (l * (x1 - x2)) + (x1 * x1 * x1 + b) - (x2 * x2 * x2 + b)); [ring|].
      rewrite <- H1, <- H2, Hl. ring. }
    apply fmul_integral in E. tauto.
  Qed.
  Lemma tangent_slope l x y : l * ((1 + 1) * y) = (1 + 1 + 1) * x * x -> slope l x y x.
  Proof. intro H. unfold slope. transitivity ((1 + 1 + 1) * x * x - l * ((1 + 1) * y)); [ring|rewrite H; ring]. Qed.
  Lemma third_on l x1 y1 x2 : on_curve (Aff x1 y1) -> slope l x1 y1 x2 -> on_curve (third l x1 y1 x2).
  Proof.
    unfold slope. cbn [on_curve third]. intros H1 Hs. apply fsub_eq0.
    transitivity ((y1 * y1 - (x1 * x1 * x1 + b)) +
      (x1 - (l * l - x1 - x2)) * (l * l * (x1 - x2) - (1 + 1) * y1 * l + (x1 * x1 + x1 * x2 + x2 * x2))); [ring|].
    rewrite Hs, H1. ring.
  Qed.
  Lemma div_eq (x y z : F) : y <> 0 -> z * y = x -> z = x / y.
  Proof. intros Hy <-. field. assumption. Qed.
  Lemma div_mul (x y : F) : y <> 0 -> x / y * y = x.
  Proof. intro Hy. field. assumption. Qed.

  Hypothesis two : (1 + 1 : F) <> 0.
  Lemma double_nz (y : F) : y <> 0 -> (1 + 1) * y <> 0.
  Proof. intros Hy H. apply fmul_integral in H. tauto. Qed.
  (** equal abscissae: equal or opposite ordinates *)
  Lemma same_x x y y' : on_curve (Aff x y) -> on_curve (Aff x y') -> y = y' \/ y + y' = 0.
  Proof.
    cbn. intros H H'. assert (E : (y - y') * (y + y') = 0) by (transitivity (y * y - y' * y'); [ring|rewrite H, H'; ring]).
    apply fmul_integral in E. destruct E as [E|E]; [left; now apply fsub_eq0|now right].
  Qed.
  Lemma padd_on P Q : on_curve P -> on_curve Q -> on_curve (padd P Q).
  Proof.
    destruct P as [|x1 y1], Q as [|x2 y2]; auto. intros H1 H2. unfold padd.
    destruct (feq_dec x1 x2) as [<-|Hx].
    - destruct (feq_dec (y1 + y2) 0) as [|Hy]; [exact I|]. destruct (same_x _ _ _ H1 H2) as [<-|]; [|contradiction].
      apply third_on; [assumption|]. apply tangent_slope, div_mul. refine (fun H => Hy (eq_trans _ H)). ring.
    - apply third_on; [assumption|]. apply (chord_slope _ _ _ _ y2); auto. apply div_mul. intro H. apply Hx. now apply fsub_eq0.
  Qed.
  Lemma pneg_on P : on_curve P -> on_curve (pneg P).
  Proof. destruct P; cbn; [auto|]. intros <-. ring. Qed.
  Lemma smul_on k P : on_curve P -> on_curve (smul k P).
  Proof. intro H. unfold smul. apply N.iter_invariant; [intros Q HQ; now apply padd_on|exact I]. Qed.

  (** ** Laws that need no associativity *)
  Lemma padd_inf_r P : padd P Inf = P.
  Proof. now destruct P. Qed.
  Lemma padd_neg P : on_curve P -> padd P (pneg P) = Inf.
  Proof.
    destruct P as [|x y]; [reflexivity|]. intros _. cbn. destruct (feq_dec x x); [|congruence].
    destruct (feq_dec (y + - y) 0) as [|H]; [reflexivity|]. exfalso. apply H. ring.
  Qed.
  Lemma padd_comm P Q : on_curve P -> on_curve Q -> padd P Q = padd Q P.
  Proof.
    destruct P as [|x1 y1], Q as [|x2 y2]; auto. intros H1 H2. unfold padd.
    destruct (feq_dec x1 x2) as [<-|Hx].
    - destruct (feq_dec x1 x1); [|congruence]. destruct (feq_dec (y1 + y2) 0) as [Hy|Hy].
      + destruct (feq_dec (y2 + y1) 0) as [|H]; [reflexivity|]. exfalso. apply H. rewrite <- Hy. ring.
      + destruct (same_x _ _ _ H1 H2) as [<-|]; [|contradiction]. destruct (feq_dec (y1 + y1) 0); [contradiction|reflexivity].
    - destruct (feq_dec x2 x1) as [E|Hx']; [congruence|].
      assert (Hd : x1 - x2 <> 0) by (intro H; apply Hx; now apply fsub_eq0).
      assert (Hd' : x2 - x1 <> 0) by (intro H; apply Hx'; now apply fsub_eq0).
      unfold third. f_equal; field; auto.
  Qed.
End Curve.
Arguments Inf {F}. Arguments Aff {F} _ _. Arguments on_curve {F} _ _. Arguments third {F} _ _ _ _.
Arguments padd {F} _ _. Arguments pneg {F} _. Arguments smul {F} _ _. Arguments slope {F} _ _ _ _.
