(** Soundness of the integer chip: what any satisfying assignment says about the
    foreign-field values. *)
From Coq Require Import ZArith Arith Lia List Bool Ring Field Znumtheory.
From Verif Require Import Util Algebra PField Gate GateProofs GateOps RangeProofs Integer Bn254 IntegerFacts.
Import ListNotations.
Local Open Scope Z_scope.

(** ** Values *)

(** The integer held by four limbs, in an assignment. *)
Definition lv4 {N : PF} (w : asg N) (x0 x1 x2 x3 : aval N) : Z :=
  zv N w x0 + zv N w x1 * 2 ^ 68 + zv N w x2 * 2 ^ 136 + zv N w x3 * 2 ^ 204.
Definition iv {N : PF} (w : asg N) (a : aint N) : Z := lv4 w (l0 a) (l1 a) (l2 a) (l3 a).
Definition dv {N : PF} (w : asg N) (d : alimbs N) : Z := lv4 w (d0 d) (d1 d) (d2 d) (d3 d).
(** The foreign-field element it stands for. *)
Definition fv {N : PF} (W : PF) (w : asg N) (a : aint N) : W := ofZ (iv w a).
(** The limbs are at most K times a full limb (K times 2^50 - 1 for the leading one). *)
Definition bnd {N : PF} (w : asg N) (a : aint N) (K : Z) : Prop :=
  zv N w (l0 a) <= K * (2 ^ 68 - 1) /\ zv N w (l1 a) <= K * (2 ^ 68 - 1) /\
  zv N w (l2 a) <= K * (2 ^ 68 - 1) /\ zv N w (l3 a) <= K * (2 ^ 50 - 1).
(** The cached native value, when present, is the integer mod n. *)
Definition natok {N : PF} (w : asg N) (a : aint N) : Prop :=
  match native_of a with Some n => w (av_cell n) = ofZ (iv w a) | None => True end.
(** The invariant documented by the chip: [overflows] bounds the limbs. *)
Definition wfi {N : PF} (w : asg N) (a : aint N) : Prop := bnd w a (Z.of_nat (overflows a) + 1) /\ natok w a.
(** same limbs and overflow (the native cache may have been filled) *)
Definition same {N : PF} (a a' : aint N) : Prop :=
  l0 a' = l0 a /\ l1 a' = l1 a /\ l2 a' = l2 a /\ l3 a' = l3 a /\ overflows a' = overflows a.

(** ** Integer arithmetic behind the multiplication check *)

Lemma prod_bnd x y X Y : 0 <= x <= X -> 0 <= y <= Y -> 0 <= x * y <= X * Y.
Proof. intros Hx Hy. split; [apply Z.mul_nonneg_nonneg; lia|apply Z.mul_le_mono_nonneg; lia]. Qed.

Lemma mul_low a0 a1 a2 a3 b0 b1 b2 b3 d0 d1 d2 d3 r0 r1 r2 r3 g0 g1 g2 g3 v0l v0h v1l v1h :
  a0 * b0 + d0 * g0 + 2 ^ 68 * (a0 * b1 + d0 * g1 + (a1 * b0 + d1 * g0)) - r0 - 2 ^ 68 * r1 + 2 ^ 136
    = v0l * 2 ^ 136 + v0h * 2 ^ 204 ->
  a0 * b2 + d0 * g2 + (a1 * b1 + d1 * g1) + (a2 * b0 + d2 * g0) +
  2 ^ 68 * (a0 * b3 + d0 * g3 + (a1 * b2 + d1 * g2) + (a2 * b1 + d2 * g1) + (a3 * b0 + d3 * g0)) - r2 - 2 ^ 68 * r3
    + v0l + v0h * 2 ^ 68 - 1 = v1l * 2 ^ 136 + v1h * 2 ^ 204 ->
  (2 ^ 272 | (a0 + a1 * 2 ^ 68 + a2 * 2 ^ 136 + a3 * 2 ^ 204) * (b0 + b1 * 2 ^ 68 + b2 * 2 ^ 136 + b3 * 2 ^ 204) +
             (d0 + d1 * 2 ^ 68 + d2 * 2 ^ 136 + d3 * 2 ^ 204) * (g0 + g1 * 2 ^ 68 + g2 * 2 ^ 136 + g3 * 2 ^ 204) -
             (r0 + r1 * 2 ^ 68 + r2 * 2 ^ 136 + r3 * 2 ^ 204)).
Proof.
  intros H0 H1.
  exists (v1l + v1h * 2 ^ 68 +
          (a1 * b3 + d1 * g3 + a2 * b2 + d2 * g2 + a3 * b1 + d3 * g1) +
          2 ^ 68 * (a2 * b3 + d2 * g3 + a3 * b2 + d3 * g2) + 2 ^ 136 * (a3 * b3 + d3 * g3)).
  lia.
Qed.

Lemma u0_small p1 p2 p3 p4 p5 p6 r0 r1 vl vh :
  0 <= p1 <= 2 ^ 150 -> 0 <= p2 <= 2 ^ 150 -> 0 <= p3 <= 2 ^ 150 -> 0 <= p4 <= 2 ^ 150 -> 0 <= p5 <= 2 ^ 150 ->
  0 <= p6 <= 2 ^ 150 -> 0 <= r0 <= 2 ^ 75 -> 0 <= r1 <= 2 ^ 75 -> 0 <= vl < 2 ^ 68 -> 0 <= vh < 2 ^ 49 ->
  - fr_mod < p1 + p2 + 2 ^ 68 * (p3 + p4 + (p5 + p6)) - r0 - 2 ^ 68 * r1 + 2 ^ 136 - (vl * 2 ^ 136 + vh * 2 ^ 204) < fr_mod.
Proof. unfold fr_mod. lia. Qed.
Lemma u1_small p1 p2 p3 p4 p5 p6 q1 q2 q3 q4 q5 q6 q7 q8 r0 r1 ul uh vl vh :
  0 <= p1 <= 2 ^ 150 -> 0 <= p2 <= 2 ^ 150 -> 0 <= p3 <= 2 ^ 150 -> 0 <= p4 <= 2 ^ 150 -> 0 <= p5 <= 2 ^ 150 ->
  0 <= p6 <= 2 ^ 150 -> 0 <= q1 <= 2 ^ 150 -> 0 <= q2 <= 2 ^ 150 -> 0 <= q3 <= 2 ^ 150 -> 0 <= q4 <= 2 ^ 150 ->
  0 <= q5 <= 2 ^ 150 -> 0 <= q6 <= 2 ^ 150 -> 0 <= q7 <= 2 ^ 150 -> 0 <= q8 <= 2 ^ 150 ->
  0 <= r0 <= 2 ^ 75 -> 0 <= r1 <= 2 ^ 75 -> 0 <= ul < 2 ^ 68 -> 0 <= uh < 2 ^ 49 -> 0 <= vl < 2 ^ 68 -> 0 <= vh < 2 ^ 49 ->
  - fr_mod < p1 + p2 + (p3 + p4) + (p5 + p6) + 2 ^ 68 * (q1 + q2 + (q3 + q4) + (q5 + q6) + (q7 + q8)) - r0 - 2 ^ 68 * r1
             + ul + uh * 2 ^ 68 - 1 - (vl * 2 ^ 136 + vh * 2 ^ 204) < fr_mod.
Proof. unfold fr_mod. lia. Qed.
Lemma neg_w_step X D R q m : X + D * (2 ^ 272 - m) - R = q * 2 ^ 272 -> X - D * m - R = (q - D) * 2 ^ 272.
Proof. intro H. rewrite Z.mul_sub_distr_r, <- H. ring. Qed.

(** move [ofZ] inwards *)
Ltac pushz := repeat first [rewrite ofZ_sub|rewrite ofZ_add|rewrite ofZ_mul|rewrite ofZ_opp].

Section Sound.
  Variables N W : PF.
  Hypothesis HN : pf_n N = fr_mod.
  Hypothesis HW : pf_n W = fq_mod.
  Add Field NF : (f_th N).
  Add Field WF : (f_th W).
  Implicit Types (w : asg N) (c : ctx N) (a b : aint N) (d : alimbs N).
  Local Notation zv := (zv N).

  Lemma zv_rng w x : 0 <= zv w x < fr_mod.
  Proof. apply (toZ_rng N HN). Qed.
  Lemma wcell w (x : aval N) : w (av_cell x) = ofZ (zv w x).
  Proof. symmetry. apply ofZ_toZ. Qed.

  Lemma iv_nonneg w a : 0 <= iv w a.
  Proof.
    unfold iv, lv4. pose proof (zv_rng w (l0 a)). pose proof (zv_rng w (l1 a)).
    pose proof (zv_rng w (l2 a)). pose proof (zv_rng w (l3 a)). lia.
  Qed.
  Lemma iv_bnd w a K : bnd w a K -> iv w a <= K * (2 ^ 254 - 1).
  Proof. intros (H0 & H1 & H2 & H3). unfold iv, lv4. lia. Qed.

  Lemma same_refl a : same a a.
  Proof. repeat split. Qed.
  Lemma same_iv w a a' : same a a' -> iv w a' = iv w a.
  Proof. intros (H0 & H1 & H2 & H3 & _). unfold iv. now rewrite H0, H1, H2, H3. Qed.
  Lemma same_bnd w a a' K : same a a' -> bnd w a K -> bnd w a' K.
  Proof. intros (H0 & H1 & H2 & H3 & _). unfold bnd. now rewrite H0, H1, H2, H3. Qed.
  Lemma same_fv w a a' : same a a' -> fv W w a' = fv W w a.
  Proof. intro H. unfold fv. now rewrite (same_iv _ _ _ H). Qed.
  Lemma bnd_le w a K K' : K <= K' -> bnd w a K -> bnd w a K'.
  Proof. intros HK (H0 & H1 & H2 & H3). unfold bnd. lia. Qed.

  (** equality of foreign values *)
  Lemma fv_eq w a b : (fq_mod | iv w a - iv w b) -> fv W w a = fv W w b.
  Proof.
    intros [q H]. unfold fv. replace (iv w a) with (iv w b + q * fq_mod) by lia.
    apply ofZ_eq. rewrite HW. apply Z_mod_plus_full.
  Qed.
  Lemma fv_0 w a : fv W w a = f0 <-> (fq_mod | iv w a).
  Proof.
    unfold fv. rewrite <- ofZ_0, ofZ_eq, HW, Zmod_0_l. split; intro H.
    - apply Z.mod_divide; [discriminate|assumption].
    - apply Z.mod_divide in H; [assumption|discriminate].
  Qed.

  (** *** native *)
  Lemma native_sum_snd w x0 x1 x2 x3 :
    snd_ w (sum_with_constant (with_exps x0 x1 x2 x3) f0) (fun r => w (av_cell r) = ofZ (lv4 w x0 x1 x2 x3)).
  Proof.
    eapply snd_conseq; [apply sum_with_constant_snd|]. intros r ->. cbn [lsum with_exps].
    rewrite !limb_exp_eq, !wcell. cbn [Z.of_nat Pos.of_succ_nat Pos.succ Z.mul Pos.mul Pos.add].
    unfold lv4. rewrite !ofZ_add, !ofZ_mul. change (2 ^ 0) with 1. rewrite ofZ_1.
    change (2 ^ 68) with (2 ^ 68). ring.
  Qed.
  Lemma native_snd w a :
    snd_ w (int_native a) (fun r => natok w a -> w (av_cell (fst r)) = ofZ (iv w a) /\ same a (snd r) /\ natok w (snd r)
                                                 /\ native_of (snd r) = Some (fst r)).
  Proof.
    unfold int_native. destruct (native_of a) as [n|] eqn:E.
    - apply snd_ret. unfold natok at 1. rewrite E. intro H. cbn [fst snd].
      repeat split; auto. unfold natok. now rewrite E.
    - eapply snd_bind; [apply native_sum_snd|]. intro n. apply snd_ret. cbn [fst snd].
      intros H _. repeat split; auto.
  Qed.

  (** *** assigned integers *)
  Lemma assign_w_snd w (v : W) :
    snd_ w (assign_w v) (fun r => bnd w r 1 /\ overflows r = 0%nat /\ native_of r = None).
  Proof.
    unfold assign_w. eapply snd_bind; [apply (w_leading_snd N W HN HW)|]. intro x3.
    eapply snd_bind; [apply (nonleading_snd N HN)|]. intro x2.
    eapply snd_bind; [apply (nonleading_snd N HN)|]. intro x1.
    eapply snd_bind; [apply (nonleading_snd N HN)|]. intro x0.
    apply snd_ret. intros H0 H1 H2 H3. unfold bnd. cbn [l0 l1 l2 l3 overflows native_of].
    repeat split; lia.
  Qed.
  Lemma assign_d_snd w v :
    snd_ w (assign_d W v) (fun d => zv w (d0 d) < 2 ^ 68 /\ zv w (d1 d) < 2 ^ 68 /\ zv w (d2 d) < 2 ^ 68 /\ zv w (d3 d) < 2 ^ 67).
  Proof.
    unfold assign_d. eapply snd_bind; [apply (d_leading_snd N W HN HW)|]. intro x3.
    eapply snd_bind; [apply (nonleading_snd N HN)|]. intro x2.
    eapply snd_bind; [apply (nonleading_snd N HN)|]. intro x1.
    eapply snd_bind; [apply (nonleading_snd N HN)|]. intro x0.
    apply snd_ret. intros H0 H1 H2 H3. cbn [d0 d1 d2 d3]. lia.
  Qed.
  Lemma dv_bnd w d : zv w (d0 d) < 2 ^ 68 /\ zv w (d1 d) < 2 ^ 68 /\ zv w (d2 d) < 2 ^ 68 /\ zv w (d3 d) < 2 ^ 67 ->
    0 <= dv w d < 2 ^ 271.
  Proof.
    intros (H0 & H1 & H2 & H3). unfold dv, lv4. pose proof (zv_rng w (d0 d)). pose proof (zv_rng w (d1 d)).
    pose proof (zv_rng w (d2 d)). pose proof (zv_rng w (d3 d)). lia.
  Qed.

  (** *** the product equation on the limbs *)
  Definition G (i : nat) : Z := bn_limb i (2 ^ 272 - fq_mod).
  Lemma neg_w_eq i : neg_w N W i = ofZ (G i).
  Proof. unfold neg_w, G, integer_modulus, w_modulus, LIMB_WIDTH. now rewrite HW. Qed.
  Lemma G_sum : G 0 + G 1 * 2 ^ 68 + G 2 * 2 ^ 136 + G 3 * 2 ^ 204 = 2 ^ 272 - fq_mod.
  Proof. reflexivity. Qed.
  Lemma G_bnd : 0 <= G 0 < 2 ^ 68 /\ 0 <= G 1 < 2 ^ 68 /\ 0 <= G 2 < 2 ^ 68 /\ 0 <= G 3 < 2 ^ 68.
  Proof. repeat split; vm_compute; congruence. Qed.

  Lemma mul_limbs_snd w a b d rem Ka Kb Kr :
    snd_ w (mul_limbs W a b d rem) (fun _ =>
      0 <= Ka <= 128 -> 0 <= Kb <= 128 -> 0 <= Kr <= 128 -> bnd w a Ka -> bnd w b Kb -> bnd w rem Kr ->
      zv w (d0 d) < 2 ^ 68 /\ zv w (d1 d) < 2 ^ 68 /\ zv w (d2 d) < 2 ^ 68 /\ zv w (d3 d) < 2 ^ 67 ->
      (2 ^ 272 | iv w a * iv w b - dv w d * fq_mod - iv w rem)).
  Proof.
    unfold mul_limbs.
    do 3 (eapply snd_bind; [apply snd_guard with (P := fun _ => True); trivial|]; intros []).
    eapply snd_bind; [apply mul_add_with_next_line_snd|]. intro m0.
    eapply snd_bind; [apply mul_add_with_next_line_snd|]. intro m1.
    eapply snd_bind; [apply mul_add_with_next_line_snd|]. intro m2.
    eapply snd_bind; [apply mul_add_with_next_line_snd|]. intro m3.
    cbv zeta.
    eapply snd_bind; [apply (n_leading_snd N HN)|]. intro v0h.
    eapply snd_bind; [apply (nonleading_snd N HN)|]. intro v0l.
    eapply snd_bind; [apply (n_leading_snd N HN)|]. intro v1h.
    eapply snd_bind; [apply (nonleading_snd N HN)|]. intro v1l.
    eapply snd_bind; [apply sum_with_constant_snd|]. intro u0.
    eapply snd_bind.
    { apply one_line_snd with (P := fun _ => w (av_cell u0) =
        fadd (fmul (w (av_cell v0l)) (ofZ (2 ^ 136))) (fmul (w (av_cell v0h)) (ofZ (2 ^ 204)))).
      intros r. rewrite !limb_exp_eq. cbn -[pf fadd fmul fopp f0 f1 fsub ofZ Z.pow].
      intros (H1 & H2 & H3 & _) He. rewrite H1, H2, H3 in He. apply (eq_by N (fopp f1) _ _ _ He).
      change (2 ^ (68 * 2)) with (2 ^ 136). change (2 ^ (68 * 3)) with (2 ^ 204). ring. }
    intro.
    eapply snd_bind; [apply sum_with_constant_snd|]. intro u1.
    eapply snd_bind.
    { apply one_line_snd with (P := fun _ => fadd (fadd (w (av_cell u1)) (fadd (w (av_cell v0l)) (fmul (w (av_cell v0h)) (ofZ (2 ^ 68))))) (fopp f1) =
        fadd (fmul (w (av_cell v1l)) (ofZ (2 ^ 136))) (fmul (w (av_cell v1h)) (ofZ (2 ^ 204)))).
      intros r. rewrite !limb_exp_eq. cbn -[pf fadd fmul fopp f0 f1 fsub ofZ Z.pow].
      intros (H1 & H2 & H3 & H4 & H5 & _) He. rewrite H1, H2, H3, H4, H5 in He. apply (eq_by N f1 _ _ _ He).
      change (2 ^ (68 * 2)) with (2 ^ 136). change (2 ^ (68 * 3)) with (2 ^ 204). change (2 ^ (68 * 1)) with (2 ^ 68).
      change (2 ^ (68 * 0)) with 1. rewrite ofZ_1. ring. }
    intro. apply snd_ret.
    intros E1 Eu1 E0 Eu0 B1l B1h B0l B0h Em3 Em2 Em1 Em0 _ _ _ HKa HKb HKr Ba Bb Br Bd.
    cbn [msum lsum] in *. rewrite !neg_w_eq in *.
    rewrite Em0, Em1 in Eu0. rewrite Em2, Em3 in Eu1. rewrite Eu0 in E0. rewrite Eu1 in E1.
    rewrite limb_exp_eq in E0. cbn [Z.of_nat Pos.of_succ_nat Pos.succ Z.mul Pos.mul Pos.add] in E0.
    unfold limb_modulus_on_n, limb_modulus, LIMB_WIDTH in E0, E1.
    rewrite !wcell in E0. rewrite !wcell in E1.
    unfold iv, dv, lv4. destruct Ba as (Ba0 & Ba1 & Ba2 & Ba3), Bb as (Bb0 & Bb1 & Bb2 & Bb3), Br as (Br0 & Br1 & Br2 & Br3),
      Bd as (Bd0 & Bd1 & Bd2 & Bd3).
    pose proof (zv_rng w (l0 a)). pose proof (zv_rng w (l1 a)). pose proof (zv_rng w (l2 a)). pose proof (zv_rng w (l3 a)).
    pose proof (zv_rng w (l0 b)). pose proof (zv_rng w (l1 b)). pose proof (zv_rng w (l2 b)). pose proof (zv_rng w (l3 b)).
    pose proof (zv_rng w (l0 rem)). pose proof (zv_rng w (l1 rem)). pose proof (zv_rng w (l2 rem)). pose proof (zv_rng w (l3 rem)).
    pose proof (zv_rng w (d0 d)). pose proof (zv_rng w (d1 d)). pose proof (zv_rng w (d2 d)). pose proof (zv_rng w (d3 d)).
    pose proof G_bnd as (BG0 & BG1 & BG2 & BG3).
    set (A0 := zv w (l0 a)) in *. set (A1 := zv w (l1 a)) in *. set (A2 := zv w (l2 a)) in *. set (A3 := zv w (l3 a)) in *.
    set (B0 := zv w (l0 b)) in *. set (B1 := zv w (l1 b)) in *. set (B2 := zv w (l2 b)) in *. set (B3 := zv w (l3 b)) in *.
    set (R0 := zv w (l0 rem)) in *. set (R1 := zv w (l1 rem)) in *. set (R2 := zv w (l2 rem)) in *. set (R3 := zv w (l3 rem)) in *.
    set (D0 := zv w (d0 d)) in *. set (D1 := zv w (d1 d)) in *. set (D2 := zv w (d2 d)) in *. set (D3 := zv w (d3 d)) in *.
    set (V0l := zv w v0l) in *. set (V0h := zv w v0h) in *. set (V1l := zv w v1l) in *. set (V1h := zv w v1h) in *.
    pose proof G_sum as HG.
    set (G0 := G 0) in *. set (G1 := G 1) in *. set (G2 := G 2) in *. set (G3 := G 3) in *.
    clearbody A0 A1 A2 A3 B0 B1 B2 B3 R0 R1 R2 R3 D0 D1 D2 D3 V0l V0h V1l V1h G0 G1 G2 G3.
    assert (Hp : forall x y, 0 <= x <= 2 ^ 75 -> 0 <= y <= 2 ^ 75 -> 0 <= x * y <= 2 ^ 150)
      by (intros x y Hx Hy; change (2 ^ 150) with (2 ^ 75 * 2 ^ 75); now apply prod_bnd).
    assert (0 <= A0 <= 2 ^ 75) by lia. assert (0 <= A1 <= 2 ^ 75) by lia. assert (0 <= A2 <= 2 ^ 75) by lia. assert (0 <= A3 <= 2 ^ 75) by lia.
    assert (0 <= B0 <= 2 ^ 75) by lia. assert (0 <= B1 <= 2 ^ 75) by lia. assert (0 <= B2 <= 2 ^ 75) by lia. assert (0 <= B3 <= 2 ^ 75) by lia.
    assert (0 <= D0 <= 2 ^ 75) by lia. assert (0 <= D1 <= 2 ^ 75) by lia. assert (0 <= D2 <= 2 ^ 75) by lia. assert (0 <= D3 <= 2 ^ 75) by lia.
    assert (0 <= R0 <= 2 ^ 75) by lia. assert (0 <= R1 <= 2 ^ 75) by lia. assert (0 <= R2 <= 2 ^ 75) by lia. assert (0 <= R3 <= 2 ^ 75) by lia.
    assert (0 <= G0 <= 2 ^ 75) by lia. assert (0 <= G1 <= 2 ^ 75) by lia. assert (0 <= G2 <= 2 ^ 75) by lia. assert (0 <= G3 <= 2 ^ 75) by lia.
    pose proof (Hp A0 B0 ltac:(assumption) ltac:(assumption)). pose proof (Hp A0 B1 ltac:(assumption) ltac:(assumption)).
    pose proof (Hp A0 B2 ltac:(assumption) ltac:(assumption)). pose proof (Hp A0 B3 ltac:(assumption) ltac:(assumption)).
    pose proof (Hp A1 B0 ltac:(assumption) ltac:(assumption)). pose proof (Hp A1 B1 ltac:(assumption) ltac:(assumption)).
    pose proof (Hp A1 B2 ltac:(assumption) ltac:(assumption)). pose proof (Hp A2 B0 ltac:(assumption) ltac:(assumption)).
    pose proof (Hp A2 B1 ltac:(assumption) ltac:(assumption)). pose proof (Hp A3 B0 ltac:(assumption) ltac:(assumption)).
    pose proof (Hp D0 G0 ltac:(assumption) ltac:(assumption)). pose proof (Hp D0 G1 ltac:(assumption) ltac:(assumption)).
    pose proof (Hp D0 G2 ltac:(assumption) ltac:(assumption)). pose proof (Hp D0 G3 ltac:(assumption) ltac:(assumption)).
    pose proof (Hp D1 G0 ltac:(assumption) ltac:(assumption)). pose proof (Hp D1 G1 ltac:(assumption) ltac:(assumption)).
    pose proof (Hp D1 G2 ltac:(assumption) ltac:(assumption)). pose proof (Hp D2 G0 ltac:(assumption) ltac:(assumption)).
    pose proof (Hp D2 G1 ltac:(assumption) ltac:(assumption)). pose proof (Hp D3 G0 ltac:(assumption) ltac:(assumption)).
    clear Hp.
    assert (F0 : A0 * B0 + D0 * G0 + 2 ^ 68 * (A0 * B1 + D0 * G1 + (A1 * B0 + D1 * G0)) - R0 - 2 ^ 68 * R1 + 2 ^ 136
                 - (V0l * 2 ^ 136 + V0h * 2 ^ 204) = 0).
    { apply (lift_small N HN).
      - pushz.
        apply (eq_by N f1 _ _ _ (proj2 (fsub_eq0 _ _ _) E0)). ring.
      - apply u0_small; try assumption; lia. }
    assert (F1 : A0 * B2 + D0 * G2 + (A1 * B1 + D1 * G1) + (A2 * B0 + D2 * G0) +
       2 ^ 68 * (A0 * B3 + D0 * G3 + (A1 * B2 + D1 * G2) + (A2 * B1 + D2 * G1) + (A3 * B0 + D3 * G0)) - R2 - 2 ^ 68 * R3
       + V0l + V0h * 2 ^ 68 - 1 - (V1l * 2 ^ 136 + V1h * 2 ^ 204) = 0).
    { apply (lift_small N HN).
      - pushz. rewrite ofZ_1.
        apply (eq_by N f1 _ _ _ (proj2 (fsub_eq0 _ _ _) E1)). ring.
      - apply u1_small; try assumption; lia. }
    apply Zminus_eq in F0. apply Zminus_eq in F1.
    pose proof (mul_low A0 A1 A2 A3 B0 B1 B2 B3 D0 D1 D2 D3 R0 R1 R2 R3 G0 G1 G2 G3 V0l V0h V1l V1h F0 F1) as [q Hq].
    rewrite HG in Hq. exists (q - (D0 + D1 * 2 ^ 68 + D2 * 2 ^ 136 + D3 * 2 ^ 204)). now apply neg_w_step.
  Qed.

  (** *** the product equation in the native field *)
  Lemma w_native_eq : w_native N W = ofZ fq_mod.
  Proof. unfold w_native, w_modulus, n_modulus. rewrite HW, HN. apply ofZ_eq. rewrite HN. apply Zmod_mod. Qed.

  Lemma mul_native_snd w a b d rem :
    snd_ w (mul_native W a b d rem) (fun r =>
      natok w a -> natok w b -> natok w rem ->
      let '(a', b', rem') := r in
      same a a' /\ natok w a' /\ same b b' /\ natok w b' /\ same rem rem' /\ natok w rem' /\
      (fr_mod | iv w a * iv w b - dv w d * fq_mod - iv w rem)).
  Proof.
    unfold mul_native. eapply snd_bind; [apply native_snd|]. intro an.
    eapply snd_bind; [apply native_snd|]. intro bn. eapply snd_bind; [apply native_sum_snd|]. intro dn.
    eapply snd_bind; [apply native_snd|]. intro rn. eapply snd_bind.
    { apply one_line_snd with (P := fun _ => fsub (fsub (fmul (w (av_cell (fst an))) (w (av_cell (fst bn)))) (fmul (w (av_cell dn)) (ofZ fq_mod)))
         (w (av_cell (fst rn))) = f0).
      intros r. rewrite w_native_eq. cbn -[pf fadd fmul fopp f0 f1 fsub ofZ Z.pow fq_mod].
      intros (H1 & H2 & H3 & H4 & _) He. rewrite H1, H2, H3, H4 in He. refine (eq_trans _ He). ring. }
    intro. apply snd_ret. intros He Hr Hd Hb Ha na nb nr.
    destruct (Hr nr) as (Er & Sr & Nr & _). destruct (Hb nb) as (Eb & Sb & Nb & _). destruct (Ha na) as (Ea & Sa & Na & _).
    repeat (split; [assumption|]). rewrite Ea, Eb, Er, Hd in He. apply (lift_eq0 N HN).
    rewrite !ofZ_sub, !ofZ_mul. exact He.
  Qed.
  Lemma square_native_snd w a d rem :
    snd_ w (square_native W a d rem) (fun r =>
      natok w a -> natok w rem ->
      let '(a', rem') := r in
      same a a' /\ natok w a' /\ same rem rem' /\ natok w rem' /\
      (fr_mod | iv w a * iv w a - dv w d * fq_mod - iv w rem)).
  Proof.
    unfold square_native. eapply snd_bind; [apply native_snd|]. intro an.
    eapply snd_bind; [apply native_sum_snd|]. intro dn.
    eapply snd_bind; [apply native_snd|]. intro rn. eapply snd_bind.
    { apply one_line_snd with (P := fun _ => fsub (fsub (fmul (w (av_cell (fst an))) (w (av_cell (fst an)))) (fmul (w (av_cell dn)) (ofZ fq_mod)))
         (w (av_cell (fst rn))) = f0).
      intros r. rewrite w_native_eq. cbn -[pf fadd fmul fopp f0 f1 fsub ofZ Z.pow fq_mod].
      intros (H1 & H2 & H3 & H4 & _) He. rewrite H1, H2, H3, H4 in He. refine (eq_trans _ He). ring. }
    intro. apply snd_ret. intros He Hr Hd Ha na nr.
    destruct (Hr nr) as (Er & Sr & Nr & _). destruct (Ha na) as (Ea & Sa & Na & _).
    repeat (split; [assumption|]). rewrite Ea, Er, Hd in He. apply (lift_eq0 N HN).
    rewrite !ofZ_sub, !ofZ_mul. exact He.
  Qed.

  (** the two moduli together exceed the equation *)
  Lemma crt_zero X : (2 ^ 272 | X) -> (fr_mod | X) -> - (fr_mod * 2 ^ 272) < X < fr_mod * 2 ^ 272 -> X = 0.
  Proof.
    intros [q ->] H HX. assert (Hq : (fr_mod | q)).
    { apply Gauss with (b := 2 ^ 272); [now rewrite Z.mul_comm|].
      apply Zgcd_1_rel_prime. vm_compute. reflexivity. }
    destruct Hq as [k ->]. assert (k = 0) as ->; [|reflexivity].
    assert (0 < fr_mod) by reflexivity. nia.
  Qed.
  Lemma mul_exact x y D R Ka Kb Kr :
    0 <= Ka <= 128 -> 0 <= Kb <= 128 -> 0 <= Kr <= 128 ->
    0 <= x <= Ka * (2 ^ 254 - 1) -> 0 <= y <= Kb * (2 ^ 254 - 1) -> 0 <= D < 2 ^ 271 -> 0 <= R <= Kr * (2 ^ 254 - 1) ->
    (2 ^ 272 | x * y - D * fq_mod - R) -> (fr_mod | x * y - D * fq_mod - R) -> x * y = D * fq_mod + R.
  Proof.
    intros HKa HKb HKr Hx Hy HD HR H1 H2.
    assert (Hxy : 0 <= x * y <= 2 ^ 261 * 2 ^ 261) by (apply prod_bnd; lia).
    assert (HDq : 0 <= D * fq_mod <= 2 ^ 271 * fq_mod) by (apply prod_bnd; [lia|unfold fq_mod; lia]).
    pose proof (crt_zero _ H1 H2) as HX.
    assert (x * y - D * fq_mod - R = 0); [|lia]. apply HX.
    revert Hxy HDq HR HKr. generalize (x * y) (D * fq_mod). unfold fr_mod, fq_mod. intros. lia.
  Qed.

  Lemma fv_mul w a b r D : iv w a * iv w b = D * fq_mod + iv w r -> fv W w r = fmul (fv W w a) (fv W w b).
  Proof.
    intro H. unfold fv. rewrite <- ofZ_mul, H. apply ofZ_eq. rewrite HW, Z.add_comm. symmetry. apply Z_mod_plus_full.
  Qed.

  (** *** mul, square *)
  Lemma int_mul_snd w a b Ka Kb :
    snd_ w (int_mul W a b) (fun r =>
      0 <= Ka <= 128 -> 0 <= Kb <= 128 -> bnd w a Ka -> bnd w b Kb -> natok w a -> natok w b ->
      let '(p, a', b') := r in
      bnd w p 1 /\ overflows p = 0%nat /\ natok w p /\ fv W w p = fmul (fv W w a) (fv W w b) /\
      same a a' /\ natok w a' /\ same b b' /\ natok w b').
  Proof.
    unfold int_mul. eapply snd_bind; [apply assign_w_snd|]. intro rem.
    eapply snd_bind; [apply assign_d_snd|]. intro d.
    eapply snd_bind; [apply mul_limbs_snd with (Ka := Ka) (Kb := Kb) (Kr := 1)|]. intros _u.
    eapply snd_bind; [apply mul_native_snd|]. intros [[a' b'] rem']. apply snd_ret.
    intros Hn Hl Hd (Br & Or & Nr) HKa HKb Ba Bb na nb.
    assert (nr : natok w rem) by (unfold natok; now rewrite Nr).
    destruct (Hn na nb nr) as (Sa & Na & Sb & Nb & Sr & Nr' & Hnat).
    specialize (Hl HKa HKb ltac:(lia) Ba Bb Br Hd).
    pose proof (mul_exact _ _ _ _ Ka Kb 1 HKa HKb ltac:(lia) (conj (iv_nonneg w a) (iv_bnd _ _ _ Ba))
      (conj (iv_nonneg w b) (iv_bnd _ _ _ Bb)) (dv_bnd _ _ Hd) (conj (iv_nonneg w rem) (iv_bnd _ _ _ Br)) Hl Hnat) as E.
    split; [eapply same_bnd; eauto|]. split; [now destruct Sr as (_ & _ & _ & _ & ->)|]. split; [assumption|].
    split; [rewrite (same_fv _ _ _ Sr); eapply fv_mul; eauto|]. auto.
  Qed.
  Lemma int_square_snd w a Ka :
    snd_ w (int_square W a) (fun r =>
      0 <= Ka <= 128 -> bnd w a Ka -> natok w a ->
      let '(p, a') := r in
      bnd w p 1 /\ overflows p = 0%nat /\ natok w p /\ fv W w p = fmul (fv W w a) (fv W w a) /\
      same a a' /\ natok w a').
  Proof.
    unfold int_square. eapply snd_bind; [apply assign_w_snd|]. intro rem.
    eapply snd_bind; [apply assign_d_snd|]. intro d.
    eapply snd_bind; [apply mul_limbs_snd with (Ka := Ka) (Kb := Ka) (Kr := 1)|]. intros _u.
    eapply snd_bind; [apply square_native_snd|]. intros [a' rem']. apply snd_ret. cbn [fst snd].
    intros Hn Hl Hd (Br & Or & Nr) HKa Ba na.
    assert (nr : natok w rem) by (unfold natok; now rewrite Nr).
    destruct (Hn na nr) as (Sa & Na & Sr & Nr' & Hnat).
    specialize (Hl HKa HKa ltac:(lia) Ba Ba Br Hd).
    pose proof (mul_exact _ _ _ _ Ka Ka 1 HKa HKa ltac:(lia) (conj (iv_nonneg w a) (iv_bnd _ _ _ Ba))
      (conj (iv_nonneg w a) (iv_bnd _ _ _ Ba)) (dv_bnd _ _ Hd) (conj (iv_nonneg w rem) (iv_bnd _ _ _ Br)) Hl Hnat) as E.
    split; [eapply same_bnd; eauto|]. split; [now destruct Sr as (_ & _ & _ & _ & ->)|]. split; [assumption|].
    split; [rewrite (same_fv _ _ _ Sr); eapply fv_mul; eauto|]. auto.
  Qed.

  (** *** reduce *)
  Lemma reduce_exact A R D V A0 R0 q :
    0 <= D < 2 ^ 17 -> 0 <= V < 2 ^ 17 -> 0 <= A <= 128 * (2 ^ 254 - 1) -> 0 <= R <= 2 ^ 254 - 1 ->
    0 <= A0 <= 128 * 2 ^ 68 -> 0 <= R0 < 2 ^ 68 ->
    (2 ^ 68 | A - A0) -> (2 ^ 68 | R - R0) -> fq_mod = q * 2 ^ 68 + bn_limb 0 fq_mod ->
    (fr_mod | D * fq_mod + R - A) ->
    D * bn_limb 0 fq_mod + R0 - A0 - V * 2 ^ 68 + 2 ^ 74 = 0 ->
    A = D * fq_mod + R.
  Proof.
    intros HD HV HA HR HA0 HR0 [x Hx] [y Hy] Hq [z Hz] E.
    assert (Hdiv : (2 ^ 68 | z)).
    { apply Gauss with (b := fr_mod).
      - exists (D * q + y - x + V - 64). rewrite Z.mul_comm, <- Hz. rewrite Hq at 1. lia.
      - apply Zgcd_1_rel_prime. vm_compute. reflexivity. }
    destruct Hdiv as [k ->].
    assert (HDq : 0 <= D * fq_mod <= 2 ^ 17 * fq_mod) by (apply prod_bnd; [lia|unfold fq_mod; lia]).
    assert (k = 0) as ->; [|lia]. revert HDq Hz. generalize (D * fq_mod). unfold fq_mod, fr_mod. intros. lia.
  Qed.

  Lemma reduce_snd w a K :
    snd_ w (int_reduce W a) (fun r =>
      0 <= K <= 128 -> bnd w a K -> natok w a ->
      fv W w r = fv W w a /\ natok w r /\ overflows r = 0%nat /\
      (overflows a = 0%nat -> r = a) /\ (overflows a <> 0%nat -> bnd w r 1)).
  Proof.
    unfold int_reduce. destruct (Nat.eqb_spec (overflows a) 0) as [E0|E0].
    { apply snd_ret. intros _ _ Hn. split; [reflexivity|]. split; [assumption|]. split; [assumption|].
      split; [reflexivity|]. intro H; contradiction. }
    eapply snd_bind; [apply snd_guard with (P := fun _ => True); trivial|]. intros [].
    eapply snd_bind; [apply snd_guard with (P := fun _ => True); trivial|]. intros [].
    eapply snd_bind; [apply assign_w_snd|]. intro rem.
    eapply snd_bind.
    { apply range_snd with (P := fun cells => forall i x, (i < 4)%nat -> nth_error cells i = Some x -> zv w x < 2 ^ 17).
      intros r. cbv zeta. intros _ _ Hr _ i x Hi Hx. apply cells_of_nth in Hx. destruct Hx as (s & kk & _ & ->).
      unfold IntegerFacts.zv. cbn [av_cell]. now apply Hr. }
    intro cells. eapply snd_bind; [apply snd_at; intros x Hx; exact Hx|]. intro d.
    eapply snd_bind; [apply snd_at; intros x Hx; exact Hx|]. intro v.
    eapply snd_bind; [apply native_snd|]. intro rn. eapply snd_bind; [apply native_snd|]. intro an.
    eapply snd_bind.
    { apply one_line_snd with (P := fun _ => fsub (fadd (fmul (w (av_cell d)) (ofZ fq_mod)) (w (av_cell (fst rn)))) (w (av_cell (fst an))) = f0).
      intros r. rewrite w_native_eq. cbn -[pf fadd fmul fopp f0 f1 fsub ofZ Z.pow fq_mod].
      intros (H1 & H2 & H3 & _) He. rewrite H1, H2, H3 in He. refine (eq_trans _ He). ring. }
    intros _u1.
    eapply snd_bind.
    { apply one_line_snd with (P := fun _ => fadd (fsub (fsub (fadd (fmul (w (av_cell d)) (ofZ (bn_limb 0 fq_mod))) (w (av_cell (l0 (snd rn))))) (w (av_cell (l0 (snd an))))) (fmul (w (av_cell v)) (ofZ (2 ^ 68)))) (ofZ (2 ^ 74)) = f0).
      intros r. unfold w_modulus. rewrite HW. unfold limb_modulus, LIMB_WIDTH.
      change (2 ^ 68 * Z.of_nat OVERFLOW_LIMIT) with (2 ^ 74). cbn -[pf fadd fmul fopp f0 f1 fsub ofZ Z.pow fq_mod bn_limb].
      intros (H1 & H2 & H3 & H4 & _) He. rewrite H1, H2, H3, H4 in He. refine (eq_trans _ He). ring. }
    intros _u2. apply snd_ret.
    intros E2 E1 Ha Hr Hv Hd Hc (Br & Or & Nr) _ _ HK Ba na.
    assert (nr : natok w rem) by (unfold natok; now rewrite Nr).
    destruct (Hr nr) as (Er & Sr & Nr' & _). destruct (Ha na) as (Ea & Sa & Na & _).
    assert (Hdb : zv w d < 2 ^ 17) by (apply (Hc 0%nat); [lia|assumption]).
    assert (Hvb : zv w v < 2 ^ 17) by (apply (Hc 1%nat); [lia|assumption]).
    pose proof (zv_rng w d) as Rd. pose proof (zv_rng w v) as Rv.
    rewrite Er, Ea, (wcell w d) in E1.
    destruct Sr as (Sr0 & Sr'). destruct Sa as (Sa0 & Sa'). rewrite Sr0, Sa0, (wcell w d), (wcell w v), !wcell in E2.
    assert (Ex : iv w a = zv w d * fq_mod + iv w rem).
    { pose proof (iv_bnd _ _ _ Ba) as BA. pose proof (iv_bnd _ _ _ Br) as BR.
      pose proof (iv_nonneg w a). pose proof (iv_nonneg w rem).
      destruct Ba as (Ba0 & _). destruct Br as (Br0 & _).
      pose proof (zv_rng w (l0 a)). pose proof (zv_rng w (l0 rem)).
      apply (reduce_exact _ _ _ (zv w v) (zv w (l0 a)) (zv w (l0 rem)) (fq_mod / 2 ^ 68)); try lia.
      - exists (zv w (l1 a) + zv w (l2 a) * 2 ^ 68 + zv w (l3 a) * 2 ^ 136). unfold iv, lv4. lia.
      - exists (zv w (l1 rem) + zv w (l2 rem) * 2 ^ 68 + zv w (l3 rem) * 2 ^ 136). unfold iv, lv4. lia.
      - reflexivity.
      - apply (lift_eq0 N HN). rewrite ofZ_sub, ofZ_add, ofZ_mul. exact E1.
      - assert (HB : 0 <= bn_limb 0 fq_mod < 2 ^ 68) by (apply bn_limb_lo; lia).
        apply (lift_small N HN).
        + rewrite ofZ_add, !ofZ_sub, ofZ_add, !ofZ_mul. exact E2.
        + pose proof (prod_bnd (zv w d) (bn_limb 0 fq_mod) (2 ^ 17) (2 ^ 68) ltac:(lia) ltac:(lia)) as Hp.
          revert Hp. generalize (zv w d * bn_limb 0 fq_mod). unfold fr_mod. intros. lia. }
    assert (Sr : same rem (snd rn)) by (split; [exact Sr0|exact Sr']).
    split; [|split; [assumption|split; [|split; [intro H; contradiction|intros _; eapply same_bnd; eauto]]]].
    - rewrite (same_fv _ _ _ Sr). symmetry. apply fv_eq. exists (zv w d). lia.
    - now rewrite (proj2 (proj2 (proj2 Sr'))).
  Qed.
End Sound.
