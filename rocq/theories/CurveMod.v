(** The points of a curve of prime order as a vector space over the scalar field: the
    instance of the abstract commitments of the API part that the circuit and the
    contract work with; the BN254 curve. *)
From Coq Require Import ZArith NArith List Bool Lia Eqdep_dec Field.
From Verif Require Import Util Algebra PField Bn254 Curve CurveAssoc Bn254Curve EccHistory CurveOrder.
Import ListNotations.

Section CurveMod.
  Variables S W : PF.
  Variable b : W.
  Hypothesis two : fadd f1 f1 <> (f0 : W).
  Hypothesis noy : forall x y : W, on_curve b (Aff x y) -> y <> f0.
  Hypothesis order : forall P : point W, on_curve b P -> Curve.smul (Z.to_N (pf_n S)) P = Inf.
  Definition onb (P : point W) : bool := match P with Inf => true | Aff x y => if feq_dec (fmul y y) (fadd (fmul (fmul x x) x) b) then true else false end.
  Lemma onb_iff P : onb P = true <-> on_curve b P.
  Proof. destruct P as [|x y]; cbn; [tauto|]. destruct (feq_dec _ _); split; intro H; try easy. Qed.
  Definition cpt : Type := { P : point W | onb P = true }.
  Lemma cpt_eq (P Q : cpt) : proj1_sig P = proj1_sig Q -> P = Q.
  Proof. destruct P as [P HP], Q as [Q HQ]. cbn. intros <-. f_equal. apply UIP_dec, bool_dec. Qed.
  Lemma cpt_on (P : cpt) : on_curve b (proj1_sig P).
  Proof. apply onb_iff, (proj2_sig P). Qed.
  Definition mk (P : point W) (H : on_curve b P) : cpt := exist _ P (proj2 (onb_iff P) H).
  (** a point, if it lies on the curve *)
  Definition lift_pt (P : point W) : option cpt := match bool_dec (onb P) true with left H => Some (exist _ P H) | right _ => None end.
  Lemma lift_pt_iff P m : lift_pt P = Some m <-> proj1_sig m = P.
  Proof.
    unfold lift_pt. destruct (bool_dec (onb P) true) as [H|N]; split; intro E.
    - injection E as <-. reflexivity.
    - f_equal. apply cpt_eq. now symmetry.
    - discriminate E.
    - destruct N. rewrite <- E. apply (proj2_sig m).
  Qed.

  Definition cpt_0 : cpt := exist _ Inf eq_refl.
  Definition cpt_add (P Q : cpt) : cpt := mk (padd (proj1_sig P) (proj1_sig Q)) (padd_on W b _ _ (cpt_on P) (cpt_on Q)).
  Definition cpt_opp (P : cpt) : cpt := mk (pneg (proj1_sig P)) (pneg_on W b _ (cpt_on P)).
  Definition cpt_mul (s : S) (P : cpt) : cpt := mk (Curve.smul (Z.to_N (toZ s)) (proj1_sig P)) (smul_on W b _ _ (cpt_on P)).

  Lemma n_pos : (0 < pf_n S)%Z.
  Proof. pose proof (toZ_range S f0). lia. Qed.
  Lemma order_mod (k : N) P : on_curve b P -> Curve.smul (k mod Z.to_N (pf_n S)) P = Curve.smul k P.
  Proof.
    intro H. pose proof n_pos. rewrite (N.div_mod k (Z.to_N (pf_n S))) at 2 by lia.
    rewrite (CurveAssoc.smul_add W b two noy) by exact H.
    rewrite N.mul_comm, (CurveAssoc.smul_mul W b two noy) by exact H. rewrite (order P H), smul_inf. reflexivity.
  Qed.
  Lemma order_scalar (z : Z) P : (0 <= z)%Z -> on_curve b P -> Curve.smul (Z.to_N (toZ (ofZ z : S))) P = Curve.smul (Z.to_N z) P.
  Proof. intros Hz H. pose proof n_pos. rewrite toZ_ofZ, Z2N.inj_mod by lia. now apply order_mod. Qed.
  Lemma toZ_pos (x : S) : (0 <= toZ x)%Z.
  Proof. apply toZ_range. Qed.
  Lemma smul_padd k P Q : on_curve b P -> on_curve b Q -> Curve.smul k (padd P Q) = padd (Curve.smul k P) (Curve.smul k Q).
  Proof.
    intros HP HQ. assert (A := padd_assoc W b two noy). assert (C := padd_comm W b). assert (K := fun k P => smul_on W b k P). assert (D := padd_on W b).
    induction k as [|k IH] using N.peano_ind; [reflexivity|]. rewrite !smul_succ, IH.
    rewrite (A P Q), (A P (Curve.smul k P)) by auto. f_equal. rewrite <- (A Q), <- (A (Curve.smul k P)) by auto. f_equal. apply C; auto.
  Qed.

  Definition CM : Mod S.
  Proof.
    refine (mkMod S cpt cpt_0 cpt_add cpt_opp cpt_mul _ _ _ _ _ _ _ _).
    - intros P Q R. apply cpt_eq. cbn. symmetry. apply (padd_assoc W b two noy); apply cpt_on.
    - intros P Q. apply cpt_eq. cbn. apply (padd_comm W b); apply cpt_on.
    - intro P. apply cpt_eq. reflexivity.
    - intro P. apply cpt_eq. cbn. apply (padd_neg W b), cpt_on.
    - intro P. apply cpt_eq. cbn [cpt_mul mk proj1_sig]. rewrite toZ_1. apply smul_1.
    - intros s t P. apply cpt_eq. cbn [cpt_mul cpt_add mk proj1_sig]. pose proof (toZ_pos s). pose proof (toZ_pos t).
      replace (fadd s t) with (ofZ (toZ s + toZ t) : S) by (rewrite ofZ_add, !ofZ_toZ; reflexivity).
      rewrite order_scalar by (try lia; apply cpt_on). rewrite Z2N.inj_add by assumption.
      apply (CurveAssoc.smul_add W b two noy). apply cpt_on.
    - intros s P Q. apply cpt_eq. cbn [cpt_mul cpt_add mk proj1_sig]. apply smul_padd; apply cpt_on.
    - intros s t P. apply cpt_eq. cbn [cpt_mul mk proj1_sig]. pose proof (toZ_pos s). pose proof (toZ_pos t).
      replace (fmul s t) with (ofZ (toZ s * toZ t) : S) by (rewrite ofZ_mul, !ofZ_toZ; reflexivity).
      rewrite order_scalar by (try nia; apply cpt_on). rewrite Z2N.inj_mul by assumption.
      apply (CurveAssoc.smul_mul W b two noy). apply cpt_on.
  Defined.
End CurveMod.

(** ** BN254 *)
Section G1.
  Variables S W : PF.
  Hypothesis HS : pf_n S = fr_mod.
  Hypothesis HW : pf_n W = fq_mod.
  Lemma bn254_order (P : point W) : on_curve (ofZ 3) P -> Curve.smul (Z.to_N (pf_n S)) P = Inf.
  Proof. intro H. rewrite HS. apply (on_curve_in_group W HW P H). Qed.
  Definition G1 : Mod S := CM S W (ofZ 3) (two_neq0 W HW) (no_ordinate_0 W HW) bn254_order.
End G1.
