(** Completeness of the point operations: with honest advice they run to the end and
    leave a satisfied circuit, except that computing a tangent slope may abort. *)
From Coq Require Import ZArith Arith NArith Lia List Bool Ring Field.
From Verif Require Import Util Algebra PField Gate GateProofs GateOps RangeProofs Integer Bn254 IntegerFacts IntegerSound IntegerOps
  IntegerComplete IntegerComplete2 IntegerComplete3 IntegerHistory IntegerHistorySound IntegerHistoryComplete IntegerValue
  Curve CurveAssoc Bn254Curve Ecc EccSound.
Import ListNotations.
Local Open Scope Z_scope.

(** The run from [c] has outcome [R]. *)
Definition out {N : PF} (c : ctx N) {A} (m : B N A) (R : option (A * ctx N) -> Prop) : Prop := good c -> R (m c).
Lemma out_bind {N : PF} (c : ctx N) {A A'} (m : B N A) (k : A -> B N A') P R :
  cpl c m P -> (forall a c', ctx_le c c' -> P a c' -> out c' (k a) R) -> out c (bind m k) R.
Proof. intros Hm Hk G. destruct (Hm G) as (a & c' & E & L & G' & HP). unfold bind. rewrite E. now apply Hk. Qed.
Definition outcome {N : PF} (c : ctx N) {A} (ok : Prop) (P : A -> ctx N -> Prop) (o : option (A * ctx N)) : Prop :=
  (ok -> exists r c', o = Some (r, c') /\ ctx_le c c' /\ good c' /\ P r c') /\ (~ ok -> o = None).

Lemma cpl_lift {N : PF} (c0 c : ctx N) {A} (m : B N A) P : ctx_le c0 c -> good c -> cpl c m P ->
  exists r c', m c = Some (r, c') /\ ctx_le c0 c' /\ good c' /\ P r c'.
Proof. intros L G H. destruct (H G) as (r & c' & E & L' & G' & HP). exists r, c'. split; [assumption|]. split; [now apply (ctx_le_trans N _ c)|auto]. Qed.

Section Complete.
  Variables N W : PF.
  Hypothesis HN : pf_n N = fr_mod.
  Hypothesis HW : pf_n W = fq_mod.
  Add Field NF : (f_th N).
  Add Field WF : (f_th W).
  Implicit Types (c : ctx N).
  Local Notation canon := (canon N).
  Local Notation has_int := (has_int N W).
  Local Notation has_bit := (has_bit N).
  Local Notation bb := (curve_b W).

  (** ** The integer operations on values *)
  Lemma has_bit_le c c' f z : ctx_le c c' -> has_bit c f z -> has_bit c' f z.
  Proof. intros L [H1 H2]. split; [now apply (valid_le N c c')|assumption]. Qed.
  Lemma csub c a b u v i j : has_int c a (u, i) -> has_int c b (v, j) -> (i + j < 62)%nat ->
    cpl c (int_sub W a b) (fun r c' => has_int c' r (fsub u v, lin (i + j + 2))).
  Proof.
    intros (Wa & Va & Oa) (Wb & Vb & Ob) Hij. cbn [fst snd] in *. eapply cpl_conseq; [apply (int_sub_wf N W HN HW); auto; lia|].
    intros r c' _ _ _ (Wr & Er & Or). split; [assumption|]. cbn [fst snd].
    rewrite (ofZ_cong W HW _ _ Er), ofZ_sub, Va, Vb, Or, Oa, Ob. split; [reflexivity|].
    replace (i + (j + 1) + 1)%nat with (i + j + 2)%nat by lia. reflexivity.
  Qed.
  Lemma cadd c a b u v i j : has_int c a (u, i) -> has_int c b (v, j) ->
    cpl c (int_add W a b) (fun r c' => has_int c' r (fadd u v, lin (i + j + 1))).
  Proof.
    intros (Wa & Va & Oa) (Wb & Vb & Ob). cbn [fst snd] in *. eapply cpl_conseq; [apply (int_add_wf N W HN HW); auto|].
    intros r c' _ _ _ (Wr & Er & Or). split; [assumption|]. cbn [fst snd].
    rewrite (ofZ_cong W HW _ _ Er), ofZ_add, Va, Vb, Or, Oa, Ob. split; reflexivity.
  Qed.
  Lemma cneg c a u i : has_int c a (u, i) -> cpl c (int_neg W a) (fun r c' => has_int c' r (fopp u, lin (i + 1))).
  Proof.
    intros (Wa & Va & Oa). cbn [fst snd] in *. eapply cpl_conseq; [apply (int_neg_wf N W HN HW); auto|].
    intros r c' _ _ _ (Wr & Er & Or). split; [assumption|]. cbn [fst snd].
    rewrite (ofZ_cong W HW _ _ Er), ofZ_opp, Va, Or, Oa. split; reflexivity.
  Qed.
  Lemma has_same c a a' v : has_int c a v -> wfv c a' -> same a a' -> has_int c a' v.
  Proof.
    intros (Wa & Va & Oa) Wa' S. split; [assumption|]. rewrite (same_bn N _ _ S). split; [assumption|].
    transitivity (overflows a); [apply S|assumption].
  Qed.
  Lemma cmul c a b u v i j : has_int c a (u, i) -> has_int c b (v, j) ->
    cpl c (int_mul W a b) (fun r c' => let '(p, a', b') := r in
      has_int c' p (fmul u v, 0%nat) /\ has_int c' a' (u, i) /\ has_int c' b' (v, j)).
  Proof.
    intros Ha Hb. pose proof Ha as (Wa & Va & Oa). pose proof Hb as (Wb & Vb & Ob). cbn [fst snd] in *.
    eapply cpl_conseq; [now apply (int_mul_wf N W HN HW)|]. intros [[p a'] b'] c' _ L _ (C & (Wa' & Sa) & (Wb' & Sb)).
    split; [apply (canon_has N W HW _ _ _ _ C); now rewrite ofZ_mul, Va, Vb|].
    split; [apply (has_same c' a); auto|apply (has_same c' b); auto]; now apply (has_int_le N W c).
  Qed.
  Lemma csquare c a u i : has_int c a (u, i) ->
    cpl c (int_square W a) (fun r c' => has_int c' (fst r) (fmul u u, 0%nat) /\ has_int c' (snd r) (u, i)).
  Proof.
    intros Ha. pose proof Ha as (Wa & Va & Oa). cbn [fst snd] in *.
    eapply cpl_conseq; [now apply (int_square_wf N W HN HW)|]. intros [p a'] c' _ L _ (C & Wa' & Sa). cbn [fst snd] in *.
    split; [apply (canon_has N W HW _ _ _ _ C); now rewrite ofZ_mul, Va|].
    apply (has_same c' a); auto. now apply (has_int_le N W c).
  Qed.
  Lemma creduce c a u i : has_int c a (u, i) -> cpl c (int_reduce W a) (fun r c' => has_int c' r (u, 0%nat)).
  Proof.
    intros (Wa & Va & Oa). cbn [fst snd] in *. eapply cpl_conseq; [now apply (int_reduce_wf N W HN HW)|].
    intros r c' _ _ _ C. now apply (canon_has N W HW _ _ _ _ C).
  Qed.
  Lemma cconst c (v : W) : cpl c (int_assign_constant v) (fun r c' => has_int c' r (v, 0%nat)).
  Proof.
    eapply cpl_conseq; [apply (int_assign_constant_wf N W HN HW)|]. intros r c' _ _ _ C. apply (canon_has N W HW _ _ _ _ C). apply ofZ_toZ.
  Qed.
  Lemma cassign c (v : W) : cpl c (assign_w v) (fun r c' => has_int c' r (v, 0%nat)).
  Proof.
    eapply cpl_conseq; [apply (int_assign_wf N W HN HW)|]. intros r c' _ _ _ C. apply (canon_has N W HW _ _ _ _ C). apply ofZ_toZ.
  Qed.
  Lemma cis_zero c a u i : has_int c a (u, i) ->
    cpl c (int_is_zero W a) (fun r c' => has_bit c' (fst r) (feqb W u f0) /\ has_int c' (snd r) (u, 0%nat)).
  Proof.
    intros (Wa & Va & Oa). cbn [fst snd] in *. eapply cpl_conseq; [now apply (int_is_zero_wf N W HN HW)|].
    intros [z a'] c' _ _ _ (V & E & C). cbn [fst snd] in *. split; [|now apply (canon_has N W HW _ _ _ _ C)]. split; [assumption|].
    rewrite E, <- (Z.sub_0_r (bn_of a)), (isz_feqb N W HW), Va, ofZ_0. reflexivity.
  Qed.
  Lemma cis_equal c a b u v i j : has_int c a (u, i) -> has_int c b (v, j) -> (i + j < 62)%nat ->
    cpl c (int_is_equal W a b) (fun r c' => has_bit c' r (feqb W u v)).
  Proof.
    intros (Wa & Va & Oa) (Wb & Vb & Ob) Hij. cbn [fst snd] in *. eapply cpl_conseq; [apply (int_is_equal_wf N W HN HW); auto; lia|].
    intros r c' _ _ _ (V & E). split; [assumption|]. rewrite E, (isz_feqb N W HW), Va, Vb. reflexivity.
  Qed.
  Lemma cdiv c a b u v i j : has_int c a (u, i) -> has_int c b (v, j) ->
    cpl c (int_div W a b) (fun r c' => let '(z, q, a', b') := r in
      has_bit c' z (feqb W v f0) /\ (exists t, has_int c' q (t, 0%nat)) /\ has_int c' a' (u, 0%nat) /\ has_int c' b' (v, 0%nat)).
  Proof.
    intros (Wa & Va & Oa) (Wb & Vb & Ob). cbn [fst snd] in *. eapply cpl_conseq; [now apply (int_div_wf N W HN HW)|].
    intros [[[z q] a'] b'] c' _ _ _ (Vz & Ez & Cq & Ca & Cb).
    split. { split; [assumption|]. rewrite Ez, <- (Z.sub_0_r (bn_of b)), (isz_feqb N W HW), Vb, ofZ_0. reflexivity. }
    split; [eexists; apply (canon_has N W HW _ _ _ _ Cq); reflexivity|].
    split; [now apply (canon_has N W HW _ _ _ _ Ca)|now apply (canon_has N W HW _ _ _ _ Cb)].
  Qed.
  Lemma cdivz c a b u i : has_int c a (u, i) -> wfd N c b -> ofZ (bn_of b) = (f0 : W) ->
    cpl c (int_div W a b) (fun r c' => let '(z, q, _, _) := r in has_bit c' z true /\ has_int c' q (f0, 0%nat)).
  Proof.
    intros (Wa & Va & Oa) Wb Vb. cbn [fst snd] in *. eapply cpl_conseq; [now apply (int_div_wfd N W HN HW)|].
    intros [[[z q] a'] b'] c' _ _ _ (Vz & Ez & Cq & _).
    split. { split; [assumption|]. rewrite Ez, <- (Z.sub_0_r (bn_of b)), (isz_feqb N W HW), Vb, ofZ_0. unfold feqb. destruct feq_dec; congruence. }
    apply (canon_has N W HW _ _ _ _ Cq). unfold qv. rewrite ofZ_toZ. apply (wv_0 W HW) in Vb. rewrite Zmod_mod, Vb. cbn [Z.eqb].
    unfold wv. rewrite ofZ_0. ring.
  Qed.
  Lemma cbisec c s a b z u v i j : has_bit c s z -> has_int c a (u, i) -> has_int c b (v, j) ->
    cpl c (int_bisec s a b) (fun r c' => has_int c' r (if z then u else v, Nat.max i j)).
  Proof.
    intros (Vs & Es) (Wa & Va & Oa) (Wb & Vb & Ob). cbn [fst snd] in *.
    eapply cpl_conseq; [apply (int_bisec_wf N); auto; rewrite Es; destruct z; auto|]. intros r c' _ _ _ (Wr & Er & Or).
    split; [assumption|]. cbn [fst snd]. rewrite Or, Oa, Ob. split; [|reflexivity]. rewrite Er. clear Er.
    destruct (feq_dec (av_val s) f0) as [e|e]; rewrite Es in e; destruct z; auto.
    - exfalso. exact (F_1_neq_0 (f_th N) e).
    - now contradiction e.
  Qed.
  Lemma bbisec c s x y z u v : has_bit c s z -> has_bit c x u -> has_bit c y v ->
    cpl c (bisec s x y) (fun r c' => has_bit c' r (if z then u else v)).
  Proof.
    intros (Vs & Es) (Vx & Ex) (Vy & Ey). eapply cpl_conseq; [now apply bisec_cpl|]. intros r c' _ _ _ (V & E).
    split; [assumption|]. rewrite E, Es, Ex, Ey. destruct z; ring.
  Qed.
  Lemma band c x y u v : has_bit c x u -> has_bit c y v -> cpl c (and_ x y) (fun r c' => has_bit c' r (u && v)).
  Proof.
    intros (Vx & Ex) (Vy & Ey). eapply cpl_conseq; [now apply mul_cpl|]. intros r c' _ _ _ (V & E).
    split; [assumption|]. rewrite E, Ex, Ey. destruct u, v; cbn; ring.
  Qed.
  Lemma bor c x y u v : has_bit c x u -> has_bit c y v -> cpl c (or_ x y) (fun r c' => has_bit c' r (u || v)).
  Proof.
    intros (Vx & Ex) (Vy & Ey). eapply cpl_conseq; [now apply or_cpl|]. intros r c' _ _ _ (V & E).
    split; [assumption|]. rewrite E, Ex, Ey. destruct u, v; cbn; ring.
  Qed.
  Lemma bxnor c x y u v : has_bit c x u -> has_bit c y v -> cpl c (xnor_ x y) (fun r c' => has_bit c' r (Bool.eqb u v)).
  Proof.
    intros (Vx & Ex) (Vy & Ey). eapply cpl_conseq; [now apply xnor_cpl|]. intros r c' _ _ _ (V & E).
    split; [assumption|]. rewrite E, Ex, Ey. destruct u, v; cbn; ring.
  Qed.
  Lemma bconst c (z : bool) : cpl c (assign_constant (if z then f1 else f0)) (fun r c' => has_bit c' r z).
  Proof. exact (assign_constant_cpl N c _). Qed.

  (** ** The tangent slope *)
  (** the quotient the prover computes *)
  Definition quotient (A D : Z) : Z := @toZ W (fmul (finv (ofZ D)) (ofZ A)).
  (** the quotient times the divisor reaches the dividend (otherwise the subtraction
      of unsigned integers panics) *)
  Definition reaches (A D : Z) : Prop := A <= quotient A D * D.
  (** and the multiple of the modulus in between is not tiny (otherwise a carry is negative) *)
  Definition not_tiny (A D : Z) : Prop := 2 <= ((quotient A D * D - A) / fq_mod) mod 2 ^ 68.

  (** the divisor the chip uses: unreduced if its overflow count is 0 *)
  Definition divisor (b : aint N) : Z := if (overflows b =? 0)%nat then bn_of b else bn_of b mod fq_mod.

  Lemma quotient_ok A D : D mod fq_mod <> 0 -> 0 <= quotient A D < fq_mod /\ (quotient A D * D) mod fq_mod = A mod fq_mod.
  Proof.
    intro HD. unfold quotient. pose proof (toZ_range W (fmul (finv (ofZ D)) (ofZ A))) as R. rewrite HW in R. split; [assumption|].
    apply (zmod_eq_wv W HW). unfold wv. rewrite ofZ_mul, ofZ_toZ. field. intro H. apply HD. now apply (wv_0 W HW).
  Qed.

  Lemma div_out c a b : ok c a -> overflows a = 0%nat -> vbnd a 3 -> ok c b -> (overflows b < 64)%nat -> vbnd b 64 ->
    divisor b mod fq_mod <> 0 -> (reaches (bn_of a) (divisor b) -> not_tiny (bn_of a) (divisor b)) ->
    out c (int_div W a b) (outcome c (reaches (bn_of a) (divisor b)) (fun r c' => let '(z, q, _, _) := r in
      has_bit c' z false /\ has_int c' q (fmul (finv (ofZ (divisor b))) (ofZ (bn_of a)), 0%nat))).
  Proof.
    intros Oa Ova Ba Ob Ovb Bb Dn Ht. unfold int_div, w_modulus. rewrite HW. set (D := divisor b) in *.
    eapply out_bind with (P := fun r c' => valid c' (fst r) /\ av_val (fst r) = f0 /\ vred N c' b (snd r) /\ bn_of (snd r) = D).
    { eapply cpl_conseq; [apply (int_is_zero_cpl N W HN HW c b 64); auto; lia|].
      intros [z b0] c' E L G (V & R). cbn [fst snd] in *. pose proof (ok_le N _ _ _ L Ob) as Ob'.
      pose proof (good_snd N _ _ _ _ _ E G (int_is_zero_snd N W HN HW (adv c') b 64)) as F. cbn [fst snd] in F.
      destruct (F ltac:(lia) (ok_bnd N _ _ _ Ob' Bb) (ok_natok N _ _ Ob')) as ([_ F0] & _).
      assert (EB : bn_of b0 = D).
      { unfold D, divisor. destruct R as [_ R]. destruct (Nat.eqb_spec (overflows b) 0); [now rewrite (same_bn N _ _ R)|apply R]. }
      assert (Ez : av_val z = f0).
      { destruct V as [_ V]. rewrite <- V. apply F0. unfold zform. rewrite (ok_iv N _ _ (proj1 R)), EB.
        intros [H|[H _]]; apply Dn; rewrite H; reflexivity. }
      exact (conj V (conj Ez (conj R EB))). }
    intros [z b0] c1 L1 (Vz & Ez & Rb & EB). cbn [fst snd] in *.
    pose proof (vred_facts N _ _ _ Rb) as (Ob0 & Ovb0 & _).
    assert (Bb0 : vbnd b0 64).
    { destruct Rb as [_ R]. destruct (overflows b =? 0)%nat; [now apply (same_vbnd N b)|]. apply (vbnd_le N b0 1); [lia|apply R]. }
    eapply out_bind; [now apply not_cpl|]. intros co c2 L2 (Vco & Eco).
    eapply out_bind. { unfold int_reduce. rewrite Ova, Nat.eqb_refl. apply cpl_ret with (P := fun r c' => r = a /\ c' = c2). auto. }
    intros a' c3 L3 [-> ->]. pose proof (ok_le N _ _ _ (ctx_le_trans N _ _ _ L1 L2) Oa) as Oa2.
    pose proof Oa2 as (Va0 & Va1 & Va2 & Va3 & _). vle.
    eapply out_bind; [now apply mul_cpl|]. intros x0 c4 L4 [V0 E0]. vle.
    eapply out_bind; [now apply mul_cpl|]. intros x1 c5 L5 [V1 E1]. vle.
    eapply out_bind; [now apply mul_cpl|]. intros x2 c6 L6 [V2 E2]. vle.
    eapply out_bind; [now apply mul_cpl|]. intros x3 c7 L7 [V3 E3]. vle.
    assert (Ec : av_val co = f1) by (rewrite Eco, Ez; ring).
    apply scale_vz in E0. apply scale_vz in E1. apply scale_vz in E2. apply scale_vz in E3.
    apply proj2 in E0, E1, E2, E3. specialize (E0 Ec). specialize (E1 Ec). specialize (E2 Ec). specialize (E3 Ec).
    rewrite Ova. set (ra := AI x0 x1 x2 x3 None 0).
    assert (Er : bn_of ra = bn_of a) by (rewrite !(bn_of_eq N); cbn [l0 l1 l2 l3 ra]; now rewrite E0, E1, E2, E3).
    assert (Br : vbnd ra 3) by (unfold vbnd; cbn [l0 l1 l2 l3 ra]; now rewrite E0, E1, E2, E3).
    cbv zeta. set (A := bn_of a) in *.
    set (cq := fmul (if feq_dec (w_of W b0) f0 then f0 else finv (w_of W b0)) (w_of W ra)).
    assert (Ewb : w_of W b0 = ofZ D).
    { unfold w_of, w_modulus. rewrite HW, EB. apply (ofZ_cong W HW). apply Zmod_mod. }
    assert (Ewa : w_of W ra = ofZ A).
    { unfold w_of, w_modulus. rewrite HW, Er. apply (ofZ_cong W HW). apply Zmod_mod. }
    assert (Ecq : cq = fmul (finv (ofZ D)) (ofZ A)).
    { unfold cq. rewrite Ewb, Ewa. destruct (feq_dec (@ofZ W D) f0) as [e|e]; [|reflexivity]. exfalso. apply Dn. now apply (wv_0 W HW). }
    rewrite Ecq. fold (quotient A D). rewrite EB, Er. intro G7. unfold outcome.
    destruct (quotient_ok A D Dn) as [HQ HM]. unfold guard.
    destruct (Z.leb_spec A (quotient A D * D)) as [Hg|Hg]; cycle 1.
    { split; [intro Hr; unfold reaches in Hr; lia|]. intros _. reflexivity. }
    split; [|intro Hr; now contradiction Hr]. intros _. specialize (Ht Hg). unfold not_tiny in Ht.
    assert (L07 : ctx_le c c7).
    { apply (ctx_le_trans N _ c1); [assumption|]. apply (ctx_le_trans N _ c2); [assumption|]. apply (ctx_le_trans N _ c4); [assumption|].
      apply (ctx_le_trans N _ c5); [assumption|]. apply (ctx_le_trans N _ c6); assumption. }
    assert (HA : 0 <= A) by apply (bn_of_nonneg N HN).
    assert (HDb : 0 <= D <= 64 * (2 ^ 254 - 1)) by (rewrite <- EB; split; [apply (bn_of_nonneg N HN)|now apply (bn_of_bnd N)]).
    set (Q := quotient A D) in *. set (dd := (Q * D - A) / fq_mod) in *.
    assert (Hdd : Q * D = dd * fq_mod + A).
    { assert (E : (Q * D - A) mod fq_mod = 0) by (rewrite Zminus_mod, HM, Z.sub_diag; reflexivity).
      apply Z.mod_divide in E; [|discriminate]. destruct E as [t Et]. unfold dd. rewrite Et, Z.div_mul by discriminate. lia. }
    assert (Rdd : 0 <= dd < 2 ^ 271).
    { split; [apply Z.div_pos; [lia|reflexivity]|]. apply Z.div_lt_upper_bound; [reflexivity|].
      assert (Q * D <= fq_mod * (64 * (2 ^ 254 - 1))) by (apply Z.mul_le_mono_nonneg; lia). unfold fq_mod in *. lia. }
    assert (L17 : ctx_le c1 c7).
    { apply (ctx_le_trans N _ c2); [assumption|]. apply (ctx_le_trans N _ c4); [assumption|].
      apply (ctx_le_trans N _ c5); [assumption|]. apply (ctx_le_trans N _ c6); assumption. }
    assert (Or : ok c7 ra) by (unfold ok; cbn [l0 l1 l2 l3 native_of ra]; auto).
    pose proof (ok_le N _ _ _ L17 Ob0) as Ob7. clear Va0 Va1 Va2 Va3 E0 E1 E2 E3 V0 V1 V2 V3.
    refine (cpl_lift _ c7 _ _ L07 G7 _).
    eapply cpl_bind; [apply cpl_ret with (P := fun _ c' => c' = c7); reflexivity|]. intros [] ? _ _ _ ->.
    eapply cpl_bind; [apply (assign_w_cpl N W HN HW)|]. intros q c8 _ L8 _ (Oq & Eq & Bq & Ovq & _). fold Q in Eq.
    eapply cpl_bind; [apply (assign_d_cpl N W HN HW); exact Rdd|]. intros d c9 _ L9 _ (Vd & Ed & Bd).
    pose proof (ctx_le_trans N _ _ _ L8 L9) as L79.
    pose proof (ok_le N _ _ _ L79 Or) as Or9. pose proof (ok_le N _ _ _ L79 Ob7) as Ob9. pose proof (ok_le N _ _ _ L9 Oq) as Oq9.
    assert (HE : bn_of b0 * bn_of q = (vz (d0 d) + vz (d1 d) * 2 ^ 68 + vz (d2 d) * 2 ^ 136 + vz (d3 d) * 2 ^ 204) * fq_mod + bn_of ra).
    { rewrite Ed, EB, Eq, Er, (Z.mul_comm D). exact Hdd. }
    assert (Hd0 : 2 <= vz (d0 d)).
    { rewrite <- Ed in Ht. replace (vz (d0 d) + vz (d1 d) * 2 ^ 68 + vz (d2 d) * 2 ^ 136 + vz (d3 d) * 2 ^ 204)
        with (vz (d0 d) + (vz (d1 d) + vz (d2 d) * 2 ^ 68 + vz (d3 d) * 2 ^ 136) * 2 ^ 68) in Ht by ring.
      rewrite Z_mod_plus_full, Z.mod_small in Ht; [assumption|]. pose proof (vz_rng N HN (d0 d)). lia. }
    eapply cpl_bind; [apply (mul_limbs_cpl_gen N W HN HW c9 b0 q d ra 64 1); try assumption; try lia; [cbn [overflows ra]; lia|right; split; assumption]|].
    intros [] c10 _ L10 _ _.
    eapply cpl_bind; [apply (mul_native_cpl N W HN HW c10 b0 q d ra)|].
    - now apply (ok_le N c9 c10).
    - now apply (ok_le N c9 c10).
    - now apply (ok_le N c9 c10).
    - clear Ed. destruct Vd as (? & ? & ? & ?). vle. auto.
    - exact HE.
    - intros [[b1 q1] a1] c11 _ L11 _ ((Ob1 & Sb) & (Oq1 & Sq) & _ & _). apply cpl_ret.
      pose proof (ctx_le_trans N _ _ _ L79 (ctx_le_trans N _ _ _ L10 L11)) as L711.
      split. { split; [apply (valid_le N c7); [assumption|]; apply (valid_le N c1); assumption|exact Ez]. }
      assert (Cq : canon c11 q1 Q).
      { split; [assumption|]. rewrite (same_bn N _ _ Sq), Eq. split; [symmetry; now apply Z.mod_small|].
        split; [now apply (same_vbnd N q)|]. transitivity (overflows q); [apply Sq|assumption]. }
      apply (canon_has N W HW _ _ _ _ Cq). unfold Q, quotient. apply ofZ_toZ.
  Qed.

  (** ** Points *)

  Definition has_curv c (k : acurv N) : Prop := exists v i z, has_int c (cv_v k) (v, i) /\ has_bit c (cv_z k) z.
  (** the prover's view of a point: coordinates, flag, overflow counts *)
  Definition has_pt c (a : apoint N) (x y : W) (z : bool) (i j : nat) : Prop :=
    has_int c (pt_x a) (x, i) /\ has_int c (pt_y a) (y, j) /\ has_bit c (pt_z a) z /\
    match pt_c a with None => True | Some k => has_curv c k end.
  (** the slope is zero *)
  Definition zero_curv c (k : acurv N) : Prop := exists i, has_int c (cv_v k) (f0, i).
  Definition zero_cache c (a : apoint N) : Prop := match pt_c a with None => True | Some k => zero_curv c k end.
  Lemma zero_curv_le c c' k : ctx_le c c' -> zero_curv c k -> zero_curv c' k.
  Proof. intros L (i & H). exists i. now apply (has_int_le N W c). Qed.
  Lemma zero_cache_le c c' a : ctx_le c c' -> zero_cache c a -> zero_cache c' a.
  Proof. intros L. unfold zero_cache. destruct (pt_c a); [now apply zero_curv_le|trivial]. Qed.
  Lemma has_curv_le c c' k : ctx_le c c' -> has_curv c k -> has_curv c' k.
  Proof. intros L (v & i & z & H1 & H2). exists v, i, z. split; [now apply (has_int_le N W c)|now apply (has_bit_le c)]. Qed.
  Lemma has_pt_le c c' a x y z i j : ctx_le c c' -> has_pt c a x y z i j -> has_pt c' a x y z i j.
  Proof.
    intros L (H1 & H2 & H3 & H4). split; [now apply (has_int_le N W c)|]. split; [now apply (has_int_le N W c)|]. split; [now apply (has_bit_le c)|].
    destruct (pt_c a); [now apply (has_curv_le c)|exact I].
  Qed.
  Lemma has_lt c (a : aint N) v i : has_int c a (v, i) -> (i < 32)%nat.
  Proof. intros ((_ & H & _) & _ & E). cbn [snd] in E. now rewrite E in H. Qed.

  (** dividend and divisor of the tangent slope at a point with coordinates [x], [y]
      ([j]: overflow count of the ordinate) *)
  Definition slope_num (x : W) : Z := 3 * toZ (fmul x x).
  Definition slope_den (y : W) (j : nat) : Z := if (j =? 0)%nat then 2 * toZ y else (2 * toZ y) mod fq_mod.

  Lemma has_toZ c (a : aint N) v i : has_int c a (v, i) -> toZ v = bn_of a mod fq_mod /\ (i = 0%nat -> bn_of a = toZ v).
  Proof.
    intros ((O & _ & _ & C) & V & Ov). cbn [fst snd] in *. assert (E : toZ v = bn_of a mod fq_mod) by (rewrite <- V, toZ_ofZ, HW; reflexivity).
    split; [assumption|]. intros ->. rewrite E. symmetry. apply Z.mod_small. split; [apply (bn_of_nonneg N HN)|auto].
  Qed.
  Lemma slope_den_nz y j : y <> f0 -> slope_den y j mod fq_mod <> 0.
  Proof.
    intros Hy H. apply Hy.
    assert (E : ofZ (slope_den y j) = fmul (fadd f1 f1) y).
    { transitivity (@ofZ W (2 * toZ y)).
      - apply (ofZ_cong W HW). unfold slope_den. destruct (j =? 0)%nat; [reflexivity|apply Zmod_mod].
      - rewrite ofZ_mul, ofZ_toZ. change 2 with (1 + 1). now rewrite ofZ_add, ofZ_1. }
    apply (wv_0 W HW) in H. unfold wv in H. rewrite E in H. apply fmul_integral in H. destruct H as [H|H]; [|exact H].
    exfalso. exact (two_neq0 W HW H).
  Qed.

  Lemma curvature_out c a x y z i j : has_pt c a x y z i j -> pt_c a = None -> y <> f0 ->
    (reaches (slope_num x) (slope_den y j) -> not_tiny (slope_num x) (slope_den y j)) ->
    out c (curvature W a) (outcome c (reaches (slope_num x) (slope_den y j)) (fun r c' =>
      has_pt c' (snd r) x y z i j /\ pt_c (snd r) = Some (fst r) /\ has_curv c' (fst r) /\ pt_z (snd r) = pt_z a)).
  Proof.
    intros (Hx & Hy & Hz & _) Ec Hy0 Ht. unfold curvature. rewrite Ec.
    eapply out_bind; [now apply (csquare c _ x i)|]. intros [x2 xa] c1 L1 (Hx2 & Hxa). cbn [fst snd] in *.
    destruct (has_toZ _ _ _ _ Hx2) as [_ Ex2]. specialize (Ex2 eq_refl). pose proof Hx2 as ((Ox2 & _ & Bx2 & _) & _ & Ov2). cbn [fst snd] in Ov2. rewrite Ov2 in Bx2.
    eapply out_bind; [apply (mul_small_cpl N W HN HW c1 x2 3 1); auto; rewrite ?Ov2; lia|]. intros [num x2'] c2 L2 (_ & Rn). cbn [fst snd] in *.
    rewrite Ov2 in Rn. destruct Rn as (On & [(Ovn & _ & Bn & En)|(F & _)]); [|lia]. change (0 * 3)%nat with 0%nat in Ovn. rewrite Ex2 in En.
    change (Z.of_nat 3 * toZ (fmul x x)) with (slope_num x) in En. change (1 * Z.of_nat 3) with 3 in Bn.
    pose proof (has_int_le N W _ _ _ _ (ctx_le_trans N _ _ _ L1 L2) Hy) as Hy2. pose proof (has_lt _ _ _ _ Hy2) as Hj.
    pose proof Hy2 as ((Oy & _ & By & _) & _ & Ovy). cbn [fst snd] in Ovy. rewrite Ovy in By.
    eapply out_bind; [apply (mul_small_cpl N W HN HW c2 (pt_y a) 2 (Z.of_nat j + 1)); auto; rewrite ?Ovy; lia|]. intros [den y'] c3 L3 (Ey' & Rd). cbn [fst snd] in *.
    subst y'. rewrite Ovy in Rd. destruct (has_toZ _ _ _ _ Hy2) as [Ey Ey0].
    assert (Ed : divisor den = slope_den y j /\ (overflows den < 64)%nat /\ vbnd den 64).
    { destruct Rd as (_ & [(Ovd & Hj2 & Bd & Edn)|(Hj2 & (_ & Edn & Bd & Ovd))]).
      - split; [|split; [lia|apply (vbnd_le N _ ((Z.of_nat j + 1) * Z.of_nat 2)); [lia|assumption]]].
        unfold divisor, slope_den. rewrite Ovd, Edn. destruct (Nat.eqb_spec j 0) as [->|Hn]; [rewrite (Ey0 eq_refl); reflexivity|].
        destruct (Nat.eqb_spec (j * 2) 0); [lia|]. rewrite Ey. change (Z.of_nat 2) with 2. rewrite Z.mul_mod_idemp_r by discriminate. reflexivity.
      - split; [|split; [lia|apply (vbnd_le N _ 1); [lia|assumption]]].
        unfold divisor, slope_den. rewrite Ovd. cbn [Nat.eqb]. rewrite Edn. destruct (Nat.eqb_spec j 0) as [->|Hn]; [lia|].
        rewrite Ey. change (Z.of_nat 2) with 2. rewrite Z.mul_mod_idemp_r by discriminate. reflexivity. }
    destruct Ed as (Ed & Ovd & Bd). pose proof (ok_le N _ _ _ L3 On) as On3.
    assert (Dn : divisor den mod fq_mod <> 0) by (rewrite Ed; now apply slope_den_nz).
    assert (Ht' : reaches (bn_of num) (divisor den) -> not_tiny (bn_of num) (divisor den)) by (rewrite En, Ed; exact Ht).
    intro G3. destruct (div_out c3 num den On3 Ovn Bn (proj1 Rd) Ovd Bd Dn Ht' G3) as [H1 H2]. rewrite En, Ed in H1, H2.
    unfold bind. split; intro Hr.
    - destruct (H1 Hr) as ([[[zz q] u1] u2] & c4 & E4 & L4 & G4 & (Hzz & Hq)). rewrite E4. cbn [ret].
      eexists _, c4. split; [reflexivity|]. cbn [fst snd].
      pose proof (ctx_le_trans N _ _ _ L2 (ctx_le_trans N _ _ _ L3 L4)) as L14.
      split; [now apply (ctx_le_trans N _ c1)|]. split; [assumption|].
      assert (HC : has_curv c4 (AC q zz)) by (eexists _, _, _; split; [exact Hq|exact Hzz]).
      split; [|split; [reflexivity|split; [exact HC|reflexivity]]].
      split; [now apply (has_int_le N W c1)|]. split; [apply (has_int_le N W c2); [now apply (ctx_le_trans N _ c3)|assumption]|].
      split; [|exact HC]. apply (has_bit_le c); [now apply (ctx_le_trans N _ c1)|assumption].
    - rewrite (H2 Hr). reflexivity.
  Qed.

  (** the slope can be computed *)
  Definition slope_ok (x y : W) (j : nat) : Prop :=
    (x = f0 /\ y = f0) \/ (y <> f0 /\ reaches (slope_num x) (slope_den y j) /\ not_tiny (slope_num x) (slope_den y j)).

  Lemma scale_0 c (a : aint N) (k : nat) i : has_int c a (f0, 0%nat) -> (k < 64)%nat -> i = 0%nat ->
    cpl c (mul_small_constant W a k) (fun r c' => has_int c' (fst r) (f0, i) /\ snd r = a).
  Proof.
    intros Ha Hk ->. destruct (has_toZ _ _ _ _ Ha) as [_ Ea]. specialize (Ea eq_refl). rewrite toZ_0 in Ea.
    pose proof Ha as ((Oa & _ & Ba & _) & _ & Ova). cbn [fst snd] in Ova. rewrite Ova in Ba.
    eapply cpl_conseq; [apply (mul_small_cpl N W HN HW c a k 1); auto; rewrite ?Ova; lia|]. intros [r a'] c' _ L _ (E & R). cbn [fst snd] in *.
    split; [|assumption]. rewrite Ova, Ea, Z.mul_0_r in R. destruct R as (Or & [(Ovr & _ & Br & Er)|(F & _)]); [|lia].
    change (0 * k)%nat with 0%nat in Ovr. split; [|cbn [fst snd]; rewrite Er, ofZ_0; auto].
    split; [assumption|]. rewrite Ovr, Er. split; [lia|]. split; [|intros _; reflexivity].
    rewrite (bn_of_eq N) in Er. pose proof (vz_rng N HN (l0 r)). pose proof (vz_rng N HN (l1 r)). pose proof (vz_rng N HN (l2 r)). pose proof (vz_rng N HN (l3 r)).
    unfold vbnd. lia.
  Qed.

  Lemma curvature_cpl c a x y z i j : has_pt c a x y z i j -> pt_c a <> None \/ slope_ok x y j ->
    cpl c (curvature W a) (fun r c' =>
      has_pt c' (snd r) x y z i j /\ pt_c (snd r) = Some (fst r) /\ has_curv c' (fst r) /\ pt_z (snd r) = pt_z a /\
      (y = f0 -> zero_cache c a -> zero_curv c' (fst r))).
  Proof.
    intros H Hs. unfold zero_cache. destruct (pt_c a) as [k|] eqn:Ec.
    { unfold curvature. rewrite Ec. apply cpl_ret. cbn [fst snd]. split; [assumption|]. split; [assumption|]. split; [|split; [reflexivity|auto]].
      destruct H as (_ & _ & _ & H). now rewrite Ec in H. }
    destruct Hs as [Hs|[[-> ->]|(Hy & Hr & Ht)]]; [congruence| |].
    - destruct H as (Hx & Hy & Hz & _). unfold curvature. rewrite Ec.
      eapply cpl_bind; [now apply (csquare c _ f0 i)|]. intros [x2 xa] c1 _ L1 _ (Hx2 & Hxa). cbn [fst snd] in *.
      replace (fmul f0 f0 : W) with (f0 : W) in Hx2 by ring.
      eapply cpl_bind; [apply (scale_0 _ _ _ 0%nat Hx2); auto; lia|]. intros [num x2'] c2 _ L2 _ (Hn & _). cbn [fst snd] in *.
      pose proof (has_int_le N W _ _ _ _ (ctx_le_trans N _ _ _ L1 L2) Hy) as Hy2. pose proof (has_lt _ _ _ _ Hy2) as Hj.
      pose proof Hy2 as ((Oy & _ & By & _) & Vy & Ovy). cbn [fst snd] in Vy, Ovy. rewrite Ovy in By.
      eapply cpl_bind; [apply (mul_small_cpl N W HN HW c2 (pt_y a) 2 (Z.of_nat j + 1)); auto; rewrite ?Ovy; lia|].
      intros [den y'] c3 _ L3 _ (-> & Rd). cbn [fst snd] in *. destruct (has_toZ _ _ _ _ Hy2) as [Ey Ey0]. rewrite toZ_0 in Ey, Ey0.
      rewrite Ovy in Rd. assert (Wd : wfd N c3 den /\ ofZ (bn_of den) = (f0 : W)).
      { destruct Rd as (Od & [(Ovd & Hj2 & Bd & Edn)|(Hj2 & (_ & Edn & Bd & Ovd))]).
        - split; [|rewrite Edn, ofZ_mul, Vy; ring]. split; [assumption|]. split; [lia|].
          split; [apply (vbnd_le N _ ((Z.of_nat j + 1) * Z.of_nat 2)); [lia|assumption]|].
          intro E0. assert (E : j = 0%nat) by lia. specialize (Ey0 E). rewrite Ey0, Z.mul_0_r in Edn. split; [rewrite Edn; reflexivity|].
          rewrite (bn_of_eq N) in Edn. pose proof (vz_rng N HN (l0 den)). pose proof (vz_rng N HN (l1 den)). pose proof (vz_rng N HN (l2 den)). pose proof (vz_rng N HN (l3 den)).
          unfold vbnd. lia.
        - assert (Edn0 : bn_of den = 0). { rewrite Edn, Z.mul_mod, <- Ey, Z.mul_0_r by discriminate. reflexivity. }
          split; [|rewrite Edn0; apply ofZ_0]. split; [assumption|]. split; [lia|].
          split; [apply (vbnd_le N _ 1); [lia|assumption]|]. intros _. rewrite Edn0. split; [reflexivity|assumption]. }
      destruct Wd as [Wd Ed].
      eapply cpl_bind; [exact (cdivz c3 num den _ _ (has_int_le N W _ _ _ _ L3 Hn) Wd Ed)|].
      intros [[[zz q] u1] u2] c4 _ L4 _ (Hzz & Hq). apply cpl_ret. cbn [fst snd].
      pose proof (ctx_le_trans N _ _ _ L2 (ctx_le_trans N _ _ _ L3 L4)) as L14. pose proof (ctx_le_trans N _ _ _ L1 L14) as L04.
      assert (HC : has_curv c4 (AC q zz)) by (eexists _, _, _; split; [exact Hq|exact Hzz]).
      split; [|split; [reflexivity|split; [exact HC|split; [reflexivity|]]]].
      + split; [now apply (has_int_le N W c1)|]. split; [now apply (has_int_le N W c)|]. split; [|exact HC]. now apply (has_bit_le c).
      + intros _ _. eexists. exact Hq.
    - intro G. destruct (curvature_out c a x y z i j H Ec Hy (fun _ => Ht) G) as [H1 _]. destruct (H1 Hr) as (r & c' & E & L & G' & R1 & R2 & R3 & R4).
      exists r, c'. split; [assumption|]. split; [assumption|]. split; [assumption|]. split; [assumption|]. split; [assumption|]. split; [assumption|].
      split; [assumption|]. intro F. contradiction.
  Qed.

  Lemma bisec_point_cpl c s a b xa ya za ia ja xb yb zb ib jb z :
    has_bit c s z -> has_pt c a xa ya za ia ja -> has_pt c b xb yb zb ib jb ->
    cpl c (bisec_point s a b) (fun r c' => pt_c r = None /\
      has_pt c' r (if z then xa else xb) (if z then ya else yb) (if z then za else zb) (Nat.max ia ib) (Nat.max ja jb)).
  Proof.
    intros Hs (Hxa & Hya & Hza & _) (Hxb & Hyb & Hzb & _). unfold bisec_point.
    eapply cpl_bind; [apply (cbisec c _ _ _ _ _ _ _ _ Hs Hxa Hxb)|]. intros x c1 _ L1 _ Hx.
    eapply cpl_bind; [eapply (cbisec c1); [apply (has_bit_le c); eassumption|apply (has_int_le N W c); eassumption|apply (has_int_le N W c); eassumption]|].
    intros y c2 _ L2 _ Hy. pose proof (ctx_le_trans N _ _ _ L1 L2) as L02.
    eapply cpl_bind; [eapply (bbisec c2); apply (has_bit_le c); eassumption|]. intros z' c3 _ L3 _ Hz. apply cpl_ret.
    split; [reflexivity|]. split; [apply (has_int_le N W c1); [now apply (ctx_le_trans N _ c2)|assumption]|].
    split; [now apply (has_int_le N W c2)|]. split; [assumption|exact I].
  Qed.
  Lemma bisec_curvature_cpl c s (a b : acurv N) z : has_bit c s z -> has_curv c a -> has_curv c b ->
    cpl c (bisec_curvature s a b) (fun r c' => has_curv c' r /\ (zero_curv c (if z then a else b) -> zero_curv c' r)).
  Proof.
    intros Hs (va & ia & za & Hva & Hza) (vb & ib & zb & Hvb & Hzb). unfold bisec_curvature.
    eapply cpl_bind; [apply (cbisec c _ _ _ _ _ _ _ _ Hs Hva Hvb)|]. intros v c1 _ L1 _ Hv.
    eapply cpl_bind; [eapply (bbisec c1); apply (has_bit_le c); eassumption|]. intros z' c2 _ L2 _ Hz. apply cpl_ret.
    split; [eexists _, _, _; split; [exact (has_int_le N W _ _ _ _ L2 Hv)|exact Hz]|].
    intros (k & H0). eexists. cbn [cv_v]. assert (E : (if z then va else vb) = f0).
    { destruct z; [destruct Hva as (_ & E & _)|destruct Hvb as (_ & E & _)]; destruct H0 as (_ & E0 & _); cbn [fst] in *; congruence. }
    rewrite <- E. exact (has_int_le N W _ _ _ _ L2 Hv).
  Qed.

  Lemma lin_lt n : (lin n < 32)%nat.
  Proof. unfold lin. destruct (Nat.leb_spec 32 n); lia. Qed.
  Lemma lin_even n : Nat.even n = true -> Nat.even (lin n) = true.
  Proof. unfold lin. destruct (32 <=? n)%nat; auto. Qed.
  Lemma even_30 n : Nat.even n = true -> (n < 32)%nat -> (n <= 30)%nat.
  Proof. intros H L. destruct (Nat.eq_dec n 31) as [->|]; [discriminate|lia]. Qed.
  Lemma even_plus2 n : Nat.even (n + 2) = Nat.even n.
  Proof. rewrite Nat.add_comm. reflexivity. Qed.

  Lemma lambda_cpl c l a b xa ya za ia ja xb yb zb ib jb :
    has_curv c l -> has_pt c a xa ya za ia ja -> has_pt c b xb yb zb ib jb -> Nat.even ia = true -> Nat.even ib = true ->
    cpl c (lambda_to_point W l a b) (fun r c' => pt_c r = None /\ exists x y z i, has_pt c' r x y z i (lin (ja + 2)) /\ Nat.even i = true /\
      (zero_curv c l -> xa = f0 -> ya = f0 -> xb = f0 -> x = f0 /\ y = f0)).
  Proof.
    intros (v & k & z & Hv & Hz) (Hxa & Hya & _) (Hxb & _) Ea Eb. unfold lambda_to_point.
    pose proof (even_30 _ Ea (has_lt _ _ _ _ Hxa)) as La. pose proof (even_30 _ Eb (has_lt _ _ _ _ Hxb)) as Lb.
    pose proof (has_lt _ _ _ _ Hya) as Lj.
    eapply cpl_bind; [apply (csquare c _ _ _ Hv)|]. intros [l2 l'] c1 _ L1 _ (Hl2 & Hl'). cbn [fst snd] in *.
    eapply cpl_bind; [eapply (csub c1); [exact Hl2|apply (has_int_le N W c); eassumption|lia]|]. intros t0 c2 _ L2 _ Ht0.
    assert (E0 : Nat.even (lin (0 + ia + 2)) = true) by (apply lin_even; cbn [Nat.add]; now rewrite even_plus2).
    pose proof (even_30 _ E0 (lin_lt _)) as L0. pose proof (ctx_le_trans N _ _ _ L1 L2) as L02.
    eapply cpl_bind; [eapply (csub c2); [exact Ht0|apply (has_int_le N W c); eassumption|lia]|]. intros cx c3 _ L3 _ Hcx.
    assert (E1 : Nat.even (lin (lin (0 + ia + 2) + ib + 2)) = true) by (apply lin_even; rewrite even_plus2, Nat.even_add, E0, Eb; reflexivity).
    pose proof (even_30 _ E1 (lin_lt _)) as L1'. pose proof (ctx_le_trans N _ _ _ L02 L3) as L03.
    eapply cpl_bind; [eapply (csub c3); [apply (has_int_le N W c); eassumption|exact Hcx|lia]|]. intros t1 c4 _ L4 _ Ht1.
    eapply cpl_bind; [eapply (cmul c4); [exact Ht1|apply (has_int_le N W c1); [|eassumption]; apply (ctx_le_trans N _ c2); [assumption|]; now apply (ctx_le_trans N _ c3)]|].
    intros [[t2 t1'] l''] c5 _ L5 _ (Ht2 & _). pose proof (ctx_le_trans N _ _ _ L03 (ctx_le_trans N _ _ _ L4 L5)) as L05.
    eapply cpl_bind; [eapply (csub c5); [exact Ht2|apply (has_int_le N W c); eassumption|lia]|]. intros cy c6 _ L6 _ Hcy.
    apply cpl_ret. cbn [pt_c]. split; [reflexivity|]. eexists _, _, _, _. split; [|split; [exact E1|]].
    { split; [apply (has_int_le N W c3); [apply (ctx_le_trans N _ c4); [assumption|]; now apply (ctx_le_trans N _ c5)|exact Hcx]|].
    split; [exact Hcy|]. split; [|exact I]. apply (has_bit_le c); [now apply (ctx_le_trans N _ c5)|exact Hz]. }
    intros (k0 & H0) -> -> ->. destruct Hv as (_ & Ev & _), H0 as (_ & E0' & _). cbn [fst] in *. rewrite <- Ev, E0'. split; ring.
  Qed.

  Lemma max_even i j : Nat.even i = true -> Nat.even j = true -> Nat.even (Nat.max i j) = true.
  Proof. intros. destruct (Nat.max_spec i j) as [[_ ->]|[_ ->]]; assumption. Qed.

  Lemma ecc_add_cpl c a b xa ya za ia ja xb yb zb ib jb :
    has_pt c a xa ya za ia ja -> has_pt c b xb yb zb ib jb -> Nat.even ia = true -> Nat.even ib = true -> (ja + jb < 62)%nat ->
    (pt_c a <> None \/ slope_ok xa ya ja) ->
    cpl c (ecc_add W a b) (fun r c' =>
      (pt_c (fst r) = None /\ exists x y z i j, has_pt c' (fst r) x y z i j /\ Nat.even i = true /\
         (Nat.even ja = true -> Nat.even jb = true -> Nat.even j = true) /\
         (zb = true -> x = xa /\ y = ya /\ z = za) /\ (zb = false -> za = true -> x = xb /\ y = yb)) /\
      has_pt c' (snd r) xa ya za ia ja /\ pt_c (snd r) <> None /\ (ya = f0 -> zero_cache c a -> zero_cache c' (snd r))).
  Proof.
    intros Ha Hb Ea Eb Hj Hs. pose proof Ha as (Hxa & Hya & Hza & _). pose proof Hb as (Hxb & Hyb & Hzb & _).
    pose proof (even_30 _ Ea (has_lt _ _ _ _ Hxa)) as La. pose proof (even_30 _ Eb (has_lt _ _ _ _ Hxb)) as Lb. unfold ecc_add.
    eapply cpl_bind; [apply (csub c _ _ _ _ _ _ Hxa Hxb); lia|]. intros dx c1 _ L1 _ Hdx.
    eapply cpl_bind; [eapply (csub c1); [apply (has_int_le N W c); eassumption|apply (has_int_le N W c); eassumption|lia]|]. intros dy c2 _ L2 _ Hdy.
    eapply cpl_bind; [exact (cdiv c2 _ _ _ _ _ _ Hdy (has_int_le N W _ _ _ _ L2 Hdx))|].
    intros [[[xe t] dy'] dx'] c3 _ L3 _ (Hxe & (tv & Ht) & Hdy' & _).
    eapply cpl_bind; [apply (cis_zero c3 _ _ _ Hdy')|]. intros [ye dy''] c4 _ L4 _ (Hye & _). cbn [fst snd] in *.
    eapply cpl_bind; [eapply (band c4); [apply (has_bit_le c3); eassumption|exact Hye]|]. intros eq c5 _ L5 _ Heq.
    pose proof (ctx_le_trans N _ _ _ L1 (ctx_le_trans N _ _ _ L2 (ctx_le_trans N _ _ _ L3 (ctx_le_trans N _ _ _ L4 L5)))) as L05.
    eapply cpl_bind; [apply (curvature_cpl c5 a xa ya za ia ja); auto; now apply (has_pt_le c)|]. intros [cv a'] c6 _ L6 _ (Ha' & Ec' & Hcv & _ & Hzc). cbn [fst snd] in *.
    pose proof (ctx_le_trans N _ _ _ L4 (ctx_le_trans N _ _ _ L5 L6)) as L36.
    eapply cpl_bind; [eapply (bisec_curvature_cpl c6); [apply (has_bit_le c5); eassumption|exact Hcv|]|].
    { eexists _, _, _. cbn [cv_v cv_z]. split; [exact (has_int_le N W _ _ _ _ L36 Ht)|exact (has_bit_le _ _ _ _ L36 Hxe)]. }
    intros l c7 _ L7 _ [Hl _]. pose proof (ctx_le_trans N _ _ _ L05 (ctx_le_trans N _ _ _ L6 L7)) as L07.
    pose proof (has_pt_le _ _ _ _ _ _ _ _ L7 Ha') as Ha7. pose proof (has_pt_le _ _ _ _ _ _ _ _ L07 Hb) as Hb7.
    eapply cpl_bind; [apply (lambda_cpl c7 l a' b _ _ _ _ _ _ _ _ _ _ Hl Ha7 Hb7 Ea Eb)|]. intros p0 c8 _ L8 _ (_ & x0 & y0 & z0 & i0 & Hp0 & E0 & _).
    pose proof (has_pt_le _ _ _ _ _ _ _ _ L8 Ha7) as Ha8. pose proof (has_pt_le _ _ _ _ _ _ _ _ L8 Hb7) as Hb8.
    pose proof Ha8 as (_ & _ & Hza8 & _).
    eapply cpl_bind; [apply (bisec_point_cpl c8 _ _ _ _ _ _ _ _ _ _ _ _ _ _ Hza8 Hb8 Hp0)|]. intros p1 c9 _ L9 _ (_ & Hp1).
    pose proof (has_pt_le _ _ _ _ _ _ _ _ L9 Ha8) as Ha9. pose proof (has_pt_le _ _ _ _ _ _ _ _ L9 Hb8) as Hb9. pose proof Hb9 as (_ & _ & Hzb9 & _).
    eapply cpl_bind; [apply (bisec_point_cpl c9 _ _ _ _ _ _ _ _ _ _ _ _ _ _ Hzb9 Ha9 Hp1)|]. intros p2 c10 _ L10 _ (Ep2 & Hp2).
    apply cpl_ret. cbn [fst snd]. split; [split; [assumption|]|split; [now apply (has_pt_le c9)|split; [congruence|]]].
    2: { intros E0' Hz0. unfold zero_cache. rewrite Ec'. apply (zero_curv_le c6).
      - apply (ctx_le_trans N _ c7); [assumption|]. apply (ctx_le_trans N _ c8); [assumption|]. now apply (ctx_le_trans N _ c9).
      - apply Hzc; [assumption|]. now apply (zero_cache_le c). }
    eexists _, _, _, _, _. split; [exact Hp2|]. split; [|split; [|split]].
    - repeat apply max_even; assumption.
    - intros Eja Ejb. repeat apply max_even; try assumption. apply lin_even. now rewrite even_plus2.
    - intros ->. auto.
    - intros -> ->. auto.
  Qed.

  Lemma ecc_double_cpl c a x y z i j : has_pt c a x y z i j -> Nat.even i = true ->
    (pt_c a <> None \/ slope_ok x y j) ->
    cpl c (ecc_double W a) (fun r c' =>
      (pt_c (fst r) = None /\ exists x' y' z' i', has_pt c' (fst r) x' y' z' i' (lin (j + 2)) /\ Nat.even i' = true /\
         (x = f0 -> y = f0 -> zero_cache c a -> x' = f0 /\ y' = f0)) /\
      has_pt c' (snd r) x y z i j /\ pt_c (snd r) <> None).
  Proof.
    intros Ha Ei Hs. unfold ecc_double.
    eapply cpl_bind; [apply (curvature_cpl c a x y z i j); auto|]. intros [cv a'] c1 _ L1 _ (Ha' & Ec' & Hcv & _ & Hzc). cbn [fst snd] in *.
    eapply cpl_bind; [apply (lambda_cpl c1 cv a' a' _ _ _ _ _ _ _ _ _ _ Hcv Ha' Ha' Ei Ei)|]. intros p c2 _ L2 _ (Ep & x0 & y0 & z0 & i0 & Hp & E0 & Ez0).
    pose proof (has_pt_le _ _ _ _ _ _ _ _ L2 Ha') as Ha2. pose proof Ha2 as (_ & _ & Hz & _). pose proof Hp as (Hpx & Hpy & Hpz & _).
    eapply cpl_bind; [apply (bbisec c2 _ _ _ _ _ _ Hz Hz Hpz)|]. intros z1 c3 _ L3 _ Hz1. apply cpl_ret. cbn [fst snd pt_c].
    split; [split; [assumption|]|split; [now apply (has_pt_le c2)|congruence]].
    eexists _, _, _, _. split; [|split; [exact E0|intros; apply Ez0; auto]]. split; [exact (has_int_le N W _ _ _ _ L3 Hpx)|]. split; [exact (has_int_le N W _ _ _ _ L3 Hpy)|].
    split; [exact Hz1|]. cbn [pt_c]. rewrite Ep. exact I.
  Qed.

  Lemma ecc_neg_cpl c a x y z i j : has_pt c a x y z i j ->
    cpl c (ecc_neg W a) (fun r c' => pt_c r = None /\ has_pt c' r x (fopp y) z i (lin (j + 1))).
  Proof.
    intros (Hx & Hy & Hz & _). unfold ecc_neg. eapply cpl_bind; [apply (cneg c _ _ _ Hy)|]. intros y' c1 _ L1 _ Hy'. apply cpl_ret.
    split; [reflexivity|]. split; [now apply (has_int_le N W c)|]. split; [assumption|]. split; [now apply (has_bit_le c)|exact I].
  Qed.
  Lemma ecc_sub_cpl c a b xa ya za ia ja xb yb zb ib jb :
    has_pt c a xa ya za ia ja -> has_pt c b xb yb zb ib jb -> Nat.even ia = true -> Nat.even ib = true -> (ja + lin (jb + 1) < 62)%nat ->
    (pt_c a <> None \/ slope_ok xa ya ja) ->
    cpl c (ecc_sub W a b) (fun r c' =>
      (pt_c (fst r) = None /\ exists x y z i j, has_pt c' (fst r) x y z i j /\ Nat.even i = true) /\
      has_pt c' (snd r) xa ya za ia ja /\ pt_c (snd r) <> None).
  Proof.
    intros Ha Hb Ea Eb Hj Hs. unfold ecc_sub. eapply cpl_bind; [apply (ecc_neg_cpl c b _ _ _ _ _ Hb)|]. intros nb c1 _ L1 _ (_ & Hn).
    eapply cpl_conseq; [eapply (ecc_add_cpl c1); [apply (has_pt_le c); eassumption|exact Hn|assumption..]|].
    intros r c' _ _ _ ((E & x & y & z & i & j & H & Ei & _) & H2 & H3 & _). split; [split; [assumption|]|auto]. exists x, y, z, i, j. auto.
  Qed.
  Lemma assign_identity_cpl c : cpl c (assign_identity W) (fun r c' => has_pt c' r f0 f0 true 0 0 /\ pt_c r <> None /\ zero_cache c' r).
  Proof.
    unfold assign_identity. eapply cpl_bind; [apply cconst|]. intros zero c1 _ L1 _ H0.
    eapply cpl_bind; [apply (bconst c1 true)|]. intros one c2 _ L2 _ H1. apply cpl_ret. pose proof (has_int_le N W _ _ _ _ L2 H0) as H0'.
    split; [|split; [discriminate|eexists; exact H0']]. split; [assumption|]. split; [assumption|]. split; [assumption|]. eexists _, _, _. split; [exact H0'|exact H1].
  Qed.
  Lemma ecc_reduce_cpl c a x y z i j : has_pt c a x y z i j ->
    cpl c (ecc_reduce W a) (fun r c' =>
      (pt_c (fst r) = None /\ has_pt c' (fst r) (if z then f0 else x) (if z then f0 else y) (if z then true else z) 0 0) /\
      has_pt c' (snd r) x y z 0 0).
  Proof.
    intros Ha. pose proof Ha as (Hx & Hy & Hz & Hc). unfold ecc_reduce.
    eapply cpl_bind; [apply (creduce c _ _ _ Hx)|]. intros x' c1 _ L1 _ Hx'.
    eapply cpl_bind; [eapply (creduce c1), (has_int_le N W c); eassumption|]. intros y' c2 _ L2 _ Hy'.
    eapply cpl_bind; [apply assign_identity_cpl|]. intros id c3 _ L3 _ (Hid & _). pose proof (ctx_le_trans N _ _ _ L1 (ctx_le_trans N _ _ _ L2 L3)) as L03.
    assert (Hr : has_pt c3 (AP x' y' (pt_z a) (pt_c a)) x y z 0 0).
    { split; [apply (has_int_le N W c1); [now apply (ctx_le_trans N _ c2)|assumption]|]. split; [now apply (has_int_le N W c2)|].
      split; [now apply (has_bit_le c)|]. cbn [pt_c]. destruct (pt_c a); [now apply (has_curv_le c)|exact I]. }
    eapply cpl_bind; [apply (bisec_point_cpl c3 _ _ _ _ _ _ _ _ _ _ _ _ _ _ (proj1 (proj2 (proj2 Hr))) Hid Hr)|]. intros p c4 _ L4 _ (Ep & Hp).
    apply cpl_ret. cbn [fst snd]. split; [split; [assumption|exact Hp]|now apply (has_pt_le c3)].
  Qed.

  (** When the dividend of the tangent slope exceeds the product of quotient and
      divisor, doubling and adding abort. *)
  Lemma curvature_aborts c a x y z i j : good c -> has_pt c a x y z i j -> pt_c a = None -> y <> f0 ->
    ~ reaches (slope_num x) (slope_den y j) -> curvature W a c = None.
  Proof.
    intros G Ha Ec Hy Hr. destruct (curvature_out c a x y z i j Ha Ec Hy (fun H => False_ind _ (Hr H)) G) as [_ H]. exact (H Hr).
  Qed.
  Lemma ecc_double_aborts c a x y z i j : good c -> has_pt c a x y z i j -> pt_c a = None -> y <> f0 ->
    ~ reaches (slope_num x) (slope_den y j) -> ecc_double W a c = None.
  Proof. intros G Ha Ec Hy Hr. unfold ecc_double, bind at 1. now rewrite (curvature_aborts c a x y z i j G Ha Ec Hy Hr). Qed.
  Lemma ecc_add_aborts c a b xa ya za ia ja xb yb zb ib jb : good c ->
    has_pt c a xa ya za ia ja -> has_pt c b xb yb zb ib jb -> Nat.even ia = true -> Nat.even ib = true -> (ja + jb < 62)%nat ->
    pt_c a = None -> ya <> f0 -> ~ reaches (slope_num xa) (slope_den ya ja) -> ecc_add W a b c = None.
  Proof.
    intros G Ha Hb Ea Eb Hj Ec Hy Hr. pose proof Ha as (Hxa & Hya & Hza & _). pose proof Hb as (Hxb & Hyb & Hzb & _).
    pose proof (even_30 _ Ea (has_lt _ _ _ _ Hxa)) as La. pose proof (even_30 _ Eb (has_lt _ _ _ _ Hxb)) as Lb.
    revert G. change (out c (ecc_add W a b) (fun o => o = None)). unfold ecc_add.
    eapply out_bind; [apply (csub c _ _ _ _ _ _ Hxa Hxb); lia|]. intros dx c1 L1 Hdx.
    eapply out_bind; [refine (csub c1 _ _ _ _ _ _ (has_int_le N W _ _ _ _ L1 Hya) (has_int_le N W _ _ _ _ L1 Hyb) _); lia|]. intros dy c2 L2 Hdy.
    eapply out_bind; [exact (cdiv c2 _ _ _ _ _ _ Hdy (has_int_le N W _ _ _ _ L2 Hdx))|].
    intros [[[xe t] dy'] dx'] c3 L3 (Hxe & _ & Hdy' & _).
    eapply out_bind; [apply (cis_zero c3 _ _ _ Hdy')|]. intros [ye dy''] c4 L4 (Hye & _). cbn [fst snd] in *.
    eapply out_bind; [exact (band c4 _ _ _ _ (has_bit_le _ _ _ _ L4 Hxe) Hye)|]. intros eq c5 L5 Heq.
    pose proof (ctx_le_trans N _ _ _ L1 (ctx_le_trans N _ _ _ L2 (ctx_le_trans N _ _ _ L3 (ctx_le_trans N _ _ _ L4 L5)))) as L05.
    intro G5. unfold bind at 1. rewrite (curvature_aborts c5 a xa ya za ia ja G5 (has_pt_le _ _ _ _ _ _ _ _ L05 Ha) Ec Hy Hr). reflexivity.
  Qed.
  Lemma quotient_eq A D l : 0 <= l < fq_mod -> (l * D) mod fq_mod = A mod fq_mod -> D mod fq_mod <> 0 -> quotient A D = l.
  Proof.
    intros Hl E HD. unfold quotient. assert (EA : @ofZ W A = fmul (ofZ l) (ofZ D)).
    { rewrite <- ofZ_mul. apply ofZ_eq. rewrite HW. now symmetry. }
    assert (Hd : @ofZ W D <> f0). { rewrite <- ofZ_0. intro F. apply ofZ_eq in F. now rewrite HW, Zmod_0_l in F. }
    rewrite EA. replace (fmul (finv (@ofZ W D)) (fmul (ofZ l) (ofZ D))) with (@ofZ W l) by (field; exact Hd).
    rewrite toZ_ofZ, HW. now apply Z.mod_small.
  Qed.

  Definition px (P : point W) : W := fst (fst (@coords N W P)).
  Definition py (P : point W) : W := snd (fst (@coords N W P)).
  Definition pz (P : point W) : bool := match P with Inf => true | _ => false end.
  Lemma coords_eq P : @coords N W P = (px P, py P, if pz P then f1 else f0).
  Proof. destruct P; reflexivity. Qed.
  Lemma assign_constant_point_cpl c P :
    cpl c (assign_constant_point P) (fun r c' => has_pt c' r (px P) (py P) (pz P) 0 0 /\ pt_c r = None).
  Proof.
    unfold assign_constant_point. rewrite coords_eq. eapply cpl_bind; [apply cconst|]. intros x c1 _ L1 _ Hx.
    eapply cpl_bind; [apply cconst|]. intros y c2 _ L2 _ Hy. eapply cpl_bind; [apply (bconst c2)|]. intros z c3 _ L3 _ Hz. apply cpl_ret.
    split; [|reflexivity]. split; [apply (has_int_le N W c1); [now apply (ctx_le_trans N _ c2)|assumption]|]. split; [now apply (has_int_le N W c2)|]. split; [assumption|exact I].
  Qed.
  Lemma assign_point_cpl c P : on_curve bb P ->
    cpl c (assign_point P) (fun r c' => has_pt c' r (px P) (py P) (pz P) 0 0 /\ pt_c r = None).
  Proof.
    intro OP. unfold assign_point. rewrite coords_eq. eapply cpl_bind; [apply cassign|]. intros x c1 _ L1 _ Hx.
    eapply cpl_bind; [apply cassign|]. intros y c2 _ L2 _ Hy. eapply cpl_bind; [apply assign_cpl|]. intros z c3 _ L3 _ Hz.
    change (has_bit c3 z (pz P)) in Hz. eapply cpl_bind; [apply cconst|]. intros b c4 _ L4 _ Hb.
    eapply cpl_bind; [exact (csquare c4 _ _ _ (has_int_le N W _ _ _ _ (ctx_le_trans N _ _ _ L3 L4) Hy))|]. intros [y2 y'] c5 _ L5 _ (Hy2 & Hy'). cbn [fst snd] in *.
    pose proof (ctx_le_trans N _ _ _ L2 (ctx_le_trans N _ _ _ L3 (ctx_le_trans N _ _ _ L4 L5))) as L15.
    eapply cpl_bind; [exact (csquare c5 _ _ _ (has_int_le N W _ _ _ _ L15 Hx))|].
    intros [x2 x'] c6 _ L6 _ (Hx2 & Hx'). cbn [fst snd] in *.
    eapply cpl_bind; [apply (cmul c6 _ _ _ _ _ _ Hx2 Hx')|]. intros [[x3 ?] x''] c7 _ L7 _ (Hx3 & _ & Hx'').
    pose proof (ctx_le_trans N _ _ _ L6 L7) as L57.
    eapply cpl_bind; [exact (cadd c7 _ _ _ _ _ _ Hx3 (has_int_le N W _ _ _ _ (ctx_le_trans N _ _ _ L5 L57) Hb))|]. intros rt c8 _ L8 _ Hrt.
    eapply cpl_bind; [refine (cis_equal c8 _ _ _ _ _ _ (has_int_le N W _ _ _ _ (ctx_le_trans N _ _ _ L57 L8) Hy2) Hrt _); cbn; lia|].
    intros eq c9 _ L9 _ Heq. assert (L39 : ctx_le c3 c9).
    { apply (ctx_le_trans N _ c4); [assumption|]. apply (ctx_le_trans N _ c5); [assumption|]. apply (ctx_le_trans N _ c7); [assumption|]. now apply (ctx_le_trans N _ c8). }
    eapply cpl_bind; [exact (bor c9 _ _ _ _ Heq (has_bit_le _ _ _ _ L39 Hz))|]. intros e c10 _ L10 _ [Ve Ee].
    eapply cpl_bind; [apply assert_constant_cpl; [exact Ve|]|].
    { rewrite Ee. destruct P as [|u v]; cbn [pz px py coords fst snd].
      - now rewrite orb_true_r.
      - unfold on_curve in OP. cbn [px py coords fst snd]. unfold feqb. rewrite OP.
        destruct feq_dec as [e0|e0]; [reflexivity|]. exfalso. apply e0. reflexivity. }
    intros [] c11 _ L11 _ _. apply cpl_ret. split; [|reflexivity].
    pose proof (ctx_le_trans N _ _ _ L10 L11) as L911.
    split; [apply (has_int_le N W c7); [apply (ctx_le_trans N _ c8); [assumption|]; now apply (ctx_le_trans N _ c9)|exact Hx'']|].
    split; [apply (has_int_le N W c5); [|exact Hy']; apply (ctx_le_trans N _ c7); [assumption|]; apply (ctx_le_trans N _ c8); [assumption|]; now apply (ctx_le_trans N _ c9)|].
    split; [apply (has_bit_le c3); [now apply (ctx_le_trans N _ c9)|assumption]|exact I].
  Qed.
  Lemma ecc_assert_equal_cpl c a b xa ya za ia ja xb yb zb ib jb :
    has_pt c a xa ya za ia ja -> has_pt c b xb yb zb ib jb -> (ia + ib < 62)%nat -> (ja + jb < 62)%nat ->
    (xa = xb /\ ya = yb) \/ (za = true /\ zb = true) -> cpl c (ecc_assert_equal W a b) (fun _ _ => True).
  Proof.
    intros (Hxa & Hya & Hza & _) (Hxb & Hyb & Hzb & _) Hi Hj HE. unfold ecc_assert_equal.
    eapply cpl_bind; [apply (cis_equal c _ _ _ _ _ _ Hxa Hxb Hi)|]. intros ex c1 _ L1 _ Hex.
    eapply cpl_bind; [eapply (cis_equal c1); [apply (has_int_le N W c); eassumption|apply (has_int_le N W c); eassumption|lia]|]. intros ey c2 _ L2 _ Hey.
    pose proof (has_bit_le _ _ _ _ L2 Hex) as Hex2.
    eapply cpl_bind; [apply (bxnor c2 _ _ _ _ Hex2 Hey)|]. intros ez c3 _ L3 _ Hez.
    eapply cpl_bind; [exact (band c3 _ _ _ _ (has_bit_le _ _ _ _ L3 Hex2) (has_bit_le _ _ _ _ L3 Hey))|]. intros exy c4 _ L4 _ Hexy.
    eapply cpl_bind; [exact (band c4 _ _ _ _ Hexy (has_bit_le _ _ _ _ L4 Hez))|]. intros e3 c5 _ L5 _ He3.
    assert (L05 : ctx_le c c5).
    { apply (ctx_le_trans N _ c1); [assumption|]. apply (ctx_le_trans N _ c2); [assumption|]. apply (ctx_le_trans N _ c3); [assumption|]. now apply (ctx_le_trans N _ c4). }
    eapply cpl_bind; [exact (band c5 _ _ _ _ (has_bit_le _ _ _ _ L05 Hza) (has_bit_le _ _ _ _ L05 Hzb))|]. intros bi c6 _ L6 _ Hbi.
    eapply cpl_bind; [exact (bor c6 _ _ _ _ (has_bit_le _ _ _ _ L6 He3) Hbi)|]. intros e c7 _ L7 _ [Ve Ee].
    apply assert_constant_cpl; [exact Ve|]. rewrite Ee.
    destruct HE as [[-> ->]|[-> ->]]; [|now rewrite orb_true_r].
    unfold feqb. destruct (feq_dec xb xb); [|congruence]. destruct (feq_dec yb yb); [|congruence]. reflexivity.
  Qed.
End Complete.
