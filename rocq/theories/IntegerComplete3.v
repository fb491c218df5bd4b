(** Completeness of the integer chip at API level: the invariant kept by every
    integer the chip hands out, and success of every operation on such integers. *)
From Coq Require Import ZArith Arith Lia List Bool Ring Field Znumtheory.
From Verif Require Import Util Algebra PField Gate GateProofs GateOps RangeProofs Integer Bn254 IntegerFacts IntegerSound IntegerOps IntegerComplete IntegerComplete2.
Import ListNotations.
Local Open Scope Z_scope.

(** The prover's view of an integer handed out by the chip. *)
Definition wfv {N : PF} (c : ctx N) (a : aint N) : Prop :=
  ok c a /\ (overflows a < 32)%nat /\ vbnd a (Z.of_nat (overflows a) + 1) /\ (overflows a = 0%nat -> bn_of a < fq_mod).

(** the overflow count recorded after [conditionally_reduce] *)
Definition lin (ov : nat) : nat := if (32 <=? ov)%nat then 0%nat else ov.

Section Complete.
  Variables N W : PF.
  Hypothesis HN : pf_n N = fr_mod.
  Hypothesis HW : pf_n W = fq_mod.
  Add Field NF : (f_th N).
  Add Field WF : (f_th W).
  Implicit Types (c : ctx N) (a b : aint N) (d : alimbs N).
  Local Notation canon := (canon N).
  Local Notation vres := (vres N).
  Local Notation vred := (vred N).

  Lemma wfv_le c c' a : ctx_le c c' -> wfv c a -> wfv c' a.
  Proof. intros L (H1 & H2 & H3 & H4). split; [now apply (ok_le N c c')|auto]. Qed.
  Lemma wfv_same c a a' : wfv c a -> ok c a' -> same a a' -> wfv c a'.
  Proof.
    intros (H1 & H2 & H3 & H4) O S. split; [assumption|]. rewrite (same_bn N _ _ S).
    assert (E : overflows a' = overflows a) by apply S. rewrite E. split; [assumption|]. split; [now apply (same_vbnd N a)|assumption].
  Qed.
  Lemma canon_wfv c r v : canon c r v -> wfv c r.
  Proof.
    intros (H1 & H2 & H3 & H4). split; [assumption|]. rewrite H4. split; [lia|]. split; [assumption|].
    intros _. rewrite H2. apply Z.mod_pos_bound. reflexivity.
  Qed.
  Lemma vres_wfv c r ov v : vres c r (Z.of_nat ov + 1) ov v -> (0 < ov)%nat ->
    wfv c r /\ bn_of r mod fq_mod = v mod fq_mod /\ overflows r = lin ov.
  Proof.
    intros H Hov. destruct (vres_facts N _ _ _ _ _ H Hov eq_refl) as (O & H32 & B & Hc & E & _). split; [|split; [assumption|]].
    - split; [assumption|]. split; [assumption|]. split; assumption.
    - unfold lin. destruct H as (_ & [(Ho & H & _)|(H & _ & _ & _ & Ho)]); destruct (Nat.leb_spec 32 ov); lia.
  Qed.
  Lemma vred_canon c a a' : wfv c a -> vred c a a' -> canon c a' (bn_of a).
  Proof.
    intros (H1 & H2 & H3 & H4) [O R]. destruct (Nat.eqb_spec (overflows a) 0) as [E|E]; [|assumption].
    split; [assumption|]. rewrite (same_bn N _ _ R). split; [symmetry; apply Z.mod_small; split; [apply (bn_of_nonneg N HN)|auto]|].
    rewrite E in H3. split; [now apply (same_vbnd N a)|]. transitivity (overflows a); [apply R|assumption].
  Qed.
  Lemma wfv_64 c a : wfv c a -> vbnd a 64 /\ vbnd a 32 /\ (overflows a < 64)%nat.
  Proof. intros (H1 & H2 & H3 & H4). split; [|split; [|lia]]; eapply (vbnd_le N); [|exact H3| |exact H3]; lia. Qed.

  Lemma int_reduce_wf c a : wfv c a -> cpl c (int_reduce W a) (fun r c' => canon c' r (bn_of a)).
  Proof.
    intro Ha. pose proof (wfv_64 _ _ Ha) as (B & _ & Ov). eapply cpl_conseq; [apply (reduce_cpl' N W HN HW c a 64); try assumption; [apply Ha|lia]|].
    intros r c' _ L _ R. apply vred_canon; [now apply (wfv_le c c')|assumption].
  Qed.
  Lemma int_mul_wf c a b : wfv c a -> wfv c b ->
    cpl c (int_mul W a b) (fun r c' => let '(p, a', b') := r in
      canon c' p (bn_of a * bn_of b) /\ (wfv c' a' /\ same a a') /\ (wfv c' b' /\ same b b')).
  Proof.
    intros Ha Hb. pose proof (wfv_64 _ _ Ha) as (Ba & _ & Oa). pose proof (wfv_64 _ _ Hb) as (Bb & _ & Ob).
    eapply cpl_conseq; [apply (int_mul_cpl N W HN HW c a b 64 64); try assumption; [apply Ha|apply Hb|lia|lia]|].
    intros [[p a'] b'] c' _ L _ (H1 & (H2 & H3) & (H4 & H5)). split; [assumption|].
    split; (split; [|assumption]); eapply wfv_same; try eassumption; eapply wfv_le; eassumption.
  Qed.
  Lemma int_square_wf c a : wfv c a ->
    cpl c (int_square W a) (fun r c' => canon c' (fst r) (bn_of a * bn_of a) /\ (wfv c' (snd r) /\ same a (snd r))).
  Proof.
    intros Ha. pose proof (wfv_64 _ _ Ha) as (Ba & _ & Oa).
    eapply cpl_conseq; [apply (int_square_cpl N W HN HW c a 64); try assumption; [apply Ha|lia]|].
    intros [p a'] c' _ L _ (H1 & (H2 & H3)). cbn [fst snd] in *. split; [assumption|].
    split; [|assumption]; eapply wfv_same; try eassumption; eapply wfv_le; eassumption.
  Qed.
  Lemma int_add_wf c a b : wfv c a -> wfv c b ->
    cpl c (int_add W a b) (fun r c' => wfv c' r /\ bn_of r mod fq_mod = (bn_of a + bn_of b) mod fq_mod /\
      overflows r = lin (overflows a + overflows b + 1)).
  Proof.
    intros (Oa & Ha & Ba & _) (Ob & Hb & Bb & _).
    eapply cpl_conseq; [apply (int_add_cpl N W HN HW c a b (Z.of_nat (overflows a) + 1) (Z.of_nat (overflows b) + 1)); try assumption; lia|].
    intros r c' _ L _ R. apply (vres_wfv _ _ (overflows a + overflows b + 1)); [|lia].
    replace (Z.of_nat (overflows a + overflows b + 1) + 1) with (Z.of_nat (overflows a) + 1 + (Z.of_nat (overflows b) + 1)) by lia. exact R.
  Qed.
  Lemma mod_plus_mul x M : (fq_mod | M) -> (x + M) mod fq_mod = x mod fq_mod.
  Proof. intros [q ->]. apply Z_mod_plus_full. Qed.
  Lemma int_sub_wf c a b : wfv c a -> wfv c b -> (overflows a + overflows b < 62)%nat ->
    cpl c (int_sub W a b) (fun r c' => wfv c' r /\ bn_of r mod fq_mod = (bn_of a - bn_of b) mod fq_mod /\
      overflows r = lin (overflows a + (overflows b + 1) + 1)).
  Proof.
    intros (Oa & Ha & Ba & _) (Ob & Hb & Bb & _) Hov.
    eapply cpl_conseq; [apply (int_sub_cpl N W HN HW c a b (Z.of_nat (overflows a) + 1)); try assumption; lia|].
    intros r c' _ L _ (M & HM & R). rewrite <- (mod_plus_mul (bn_of a - bn_of b) M HM). apply (vres_wfv _ _ (overflows a + (overflows b + 1) + 1)); [|lia].
    replace (Z.of_nat (overflows a + (overflows b + 1) + 1) + 1) with (Z.of_nat (overflows a) + 1 + (Z.of_nat (overflows b) + 1) + 1) by lia. exact R.
  Qed.
  Lemma int_neg_wf c b : wfv c b ->
    cpl c (int_neg W b) (fun r c' => wfv c' r /\ bn_of r mod fq_mod = (- bn_of b) mod fq_mod /\
      overflows r = lin (overflows b + 1)).
  Proof.
    intros (Ob & Hb & Bb & _).
    eapply cpl_conseq; [apply (int_neg_cpl N W HN HW c b); try assumption; lia|].
    intros r c' _ L _ (M & HM & R). rewrite <- (mod_plus_mul (- bn_of b) M HM). apply (vres_wfv _ _ (overflows b + 1)); [|lia].
    replace (- bn_of b + M) with (M - bn_of b) by ring.
    replace (Z.of_nat (overflows b + 1) + 1) with (Z.of_nat (overflows b) + 1 + 1) by lia. exact R.
  Qed.
  Lemma int_assign_wf c (v : W) : cpl c (assign_w v) (fun r c' => canon c' r (toZ v)).
  Proof.
    eapply cpl_conseq; [apply (assign_w_cpl N W HN HW)|]. intros r c' _ _ _ (H1 & H2 & H3 & H4 & _).
    split; [assumption|]. split; [|auto]. rewrite H2. symmetry. apply Z.mod_small. pose proof (toZ_range W v) as H. now rewrite HW in H.
  Qed.
  Lemma int_assign_constant_wf c (v : W) : cpl c (int_assign_constant v) (fun r c' => canon c' r (toZ v)).
  Proof.
    unfold int_assign_constant. cbv zeta.
    eapply cpl_bind; [apply assign_constant_cpl|]. intros x0 c1 _ L1 _ [V0 E0].
    eapply cpl_bind; [apply assign_constant_cpl|]. intros x1 c2 _ L2 _ [V1 E1].
    eapply cpl_bind; [apply assign_constant_cpl|]. intros x2 c3 _ L3 _ [V2 E2].
    eapply cpl_bind; [apply assign_constant_cpl|]. intros x3 c4 _ L4 _ [V3 E3].
    apply cpl_ret. vle.
    pose proof (toZ_range W v) as Hv. rewrite HW in Hv.
    pose proof (bn_limb_lo (toZ v) 0 ltac:(lia)) as B0. pose proof (bn_limb_lo (toZ v) 1 ltac:(lia)) as B1.
    pose proof (bn_limb_lo (toZ v) 2 ltac:(lia)) as B2.
    pose proof (bn_limb_hi (toZ v) 50 ltac:(lia) ltac:(unfold fq_mod in Hv; lia)) as B3.
    apply (vz_eq N HN) in E0; [|unfold fr_mod; lia]. apply (vz_eq N HN) in E1; [|unfold fr_mod; lia].
    apply (vz_eq N HN) in E2; [|unfold fr_mod; lia]. apply (vz_eq N HN) in E3; [|unfold fr_mod; lia].
    unfold IntegerComplete.canon, ok, vbnd. rewrite (bn_of_eq N). cbn [l0 l1 l2 l3 native_of overflows]. rewrite E0, E1, E2, E3.
    split; [repeat (split; [assumption|]); exact I|]. split; [|split; [lia|reflexivity]].
    rewrite Z.mod_small by assumption. symmetry. apply bn_limb_sum. lia.
  Qed.

  (** *** the zero flag *)
  Definition isz (v : Z) : N := if v mod fq_mod =? 0 then f1 else f0.
  (** all that is needed of a divisor *)
  Definition wfd c (a : aint N) : Prop := ok c a /\ (overflows a < 64)%nat /\ vbnd a 64 /\ (overflows a = 0%nat -> bn_of a < fq_mod /\ vbnd a 1).
  Lemma wfv_wfd c a : wfv c a -> wfd c a.
  Proof.
    intro Ha. pose proof (wfv_64 _ _ Ha) as (B & _ & Ov). destruct Ha as (H1 & H2 & H3 & H4). split; [assumption|]. split; [assumption|].
    split; [assumption|]. intro E. split; [auto|]. rewrite E in H3. exact H3.
  Qed.
  Lemma wfd_le c c' a : ctx_le c c' -> wfd c a -> wfd c' a.
  Proof. intros L (H1 & H2). split; [now apply (ok_le N c c')|assumption]. Qed.
  Lemma vred_canon_d c a a' : wfd c a -> vred c a a' -> canon c a' (bn_of a).
  Proof.
    intros (H1 & H2 & H3 & H4) [O R]. destruct (Nat.eqb_spec (overflows a) 0) as [E|E]; [|assumption]. destruct (H4 E) as [H5 H6].
    split; [assumption|]. rewrite (same_bn N _ _ R). split; [symmetry; apply Z.mod_small; split; [apply (bn_of_nonneg N HN)|auto]|].
    split; [now apply (same_vbnd N a)|]. transitivity (overflows a); [apply R|assumption].
  Qed.
  Lemma int_is_zero_wfd c a : wfd c a ->
    cpl c (int_is_zero W a) (fun r c' => valid c' (fst r) /\ av_val (fst r) = isz (bn_of a) /\ canon c' (snd r) (bn_of a)).
  Proof.
    intro Ha. pose proof Ha as (_ & Ov & B & _).
    eapply cpl_conseq; [apply (int_is_zero_cpl N W HN HW c a 64); try assumption; [apply Ha|lia]|].
    intros [z a'] c' E L G [V R]. cbn [fst snd] in *. pose proof (wfd_le _ _ _ L Ha) as Ha'. pose proof (vred_canon_d _ _ _ Ha' R) as C.
    split; [assumption|]. split; [|assumption].
    pose proof (good_snd N _ _ _ _ _ E G (int_is_zero_snd N W HN HW (adv c') a 64)) as F. cbn [fst snd] in F.
    destruct (F ltac:(lia) (ok_bnd N _ _ _ (proj1 Ha') B) (ok_natok N _ _ (proj1 Ha'))) as ([F1 F0] & _).
    destruct V as [_ V]. rewrite V in F1, F0. destruct C as (C1 & C2 & C3 & C4).
    assert (Hz : zform N (adv c') a' <-> bn_of a mod fq_mod = 0).
    { unfold zform. rewrite (ok_iv N _ _ C1), C2. pose proof (Z.mod_pos_bound (bn_of a) fq_mod eq_refl). split; [intros [H'|[H' _]]; lia|auto]. }
    unfold isz. destruct (Z.eqb_spec (bn_of a mod fq_mod) 0) as [e|e]; [apply F1; tauto|apply F0; tauto].
  Qed.
  Lemma int_is_zero_wf c a : wfv c a ->
    cpl c (int_is_zero W a) (fun r c' => valid c' (fst r) /\ av_val (fst r) = isz (bn_of a) /\ canon c' (snd r) (bn_of a)).
  Proof. intro Ha. apply int_is_zero_wfd. now apply wfv_wfd. Qed.
  Lemma int_is_equal_wf c a b : wfv c a -> wfv c b -> (overflows a + overflows b < 62)%nat ->
    cpl c (int_is_equal W a b) (fun r c' => valid c' r /\ av_val r = isz (bn_of a - bn_of b)).
  Proof.
    intros Ha Hb Hov. unfold int_is_equal. eapply cpl_bind; [now apply int_sub_wf|]. intros df c1 _ L1 _ (Wd & Ed & _).
    eapply cpl_bind; [now apply int_is_zero_wf|]. intros r c2 _ L2 _ (V & E & _). apply cpl_ret. split; [assumption|].
    rewrite E. unfold isz. now rewrite Ed.
  Qed.
  Lemma int_assert_equal_wf c a b : wfv c a -> wfv c b -> (overflows a + overflows b < 62)%nat ->
    bn_of a mod fq_mod = bn_of b mod fq_mod -> cpl c (int_assert_equal W a b) (fun _ _ => True).
  Proof.
    intros (Oa & Ha & Ba & _) (Ob & Hb & Bb & _) Hov E. apply (int_assert_equal_cpl N W HN HW); try assumption. lia.
  Qed.

  (** *** division *)
  Definition wv (v : Z) : W := ofZ v.
  Lemma wv_0 v : wv v = f0 <-> v mod fq_mod = 0.
  Proof.
    unfold wv. split; intro H.
    - apply (f_equal (@toZ W)) in H. rewrite toZ_ofZ, toZ_0, HW in H. exact H.
    - rewrite <- (ofZ_0 W). apply ofZ_eq. rewrite HW, H. reflexivity.
  Qed.
  Lemma zmod_eq_wv u v : wv u = wv v <-> u mod fq_mod = v mod fq_mod.
  Proof. unfold wv. rewrite ofZ_eq, HW. reflexivity. Qed.

  Lemma div_wit A B C : 0 <= A < fq_mod -> 0 <= B < fq_mod -> 0 <= C < fq_mod -> (C * B) mod fq_mod = A ->
    (A <=? C * B) = true /\ 0 <= (C * B - A) / fq_mod < 2 ^ 271 /\ C * B = (C * B - A) / fq_mod * fq_mod + A.
  Proof.
    intros HA HB HC E. pose proof (Z.div_mod (C * B) fq_mod ltac:(discriminate)) as D. rewrite E in D.
    assert (HD : 0 <= C * B / fq_mod) by (apply Z.div_pos; [apply Z.mul_nonneg_nonneg; lia|reflexivity]).
    assert (HU : C * B / fq_mod < fq_mod).
    { apply Z.div_lt_upper_bound; [reflexivity|]. apply Z.mul_lt_mono_nonneg; lia. }
    assert (EQ : C * B - A = (C * B / fq_mod) * fq_mod) by lia. rewrite EQ, Z.div_mul by discriminate.
    split; [apply Z.leb_le; unfold fq_mod in *; lia|]. split; [unfold fq_mod in *; lia|lia].
  Qed.
  Lemma canon_le c c' r v : ctx_le c c' -> canon c r v -> canon c' r v.
  Proof. intros L (H1 & H2 & H3 & H4). split; [now apply (ok_le N c c')|auto]. Qed.
  Lemma canon_same c r r' v : canon c r v -> ok c r' -> same r r' -> canon c r' v.
  Proof.
    intros (H1 & H2 & H3 & H4) O S. split; [assumption|]. rewrite (same_bn N _ _ S). split; [assumption|].
    split; [now apply (same_vbnd N r)|]. transitivity (overflows r); [apply S|assumption].
  Qed.

  Lemma scale_vz x y (co : N) : av_val y = fmul (av_val x) co -> (co = f0 -> vz y = 0) /\ (co = f1 -> vz y = @vz N x).
  Proof.
    intros E. unfold vz. rewrite E. split; intros ->.
    - replace (fmul (av_val x) f0) with (@f0 N) by ring. apply toZ_0.
    - f_equal. ring.
  Qed.

  (** the value of the quotient *)
  Definition qv (x y : Z) : Z := @toZ W (fmul (if feq_dec (wv y) f0 then f0 else finv (wv y)) (wv (if y mod fq_mod =? 0 then 0 else x))).
  Lemma qv_spec x y : 0 <= x < fq_mod ->
    0 <= qv x y < fq_mod /\ (qv x y * y) mod fq_mod = (if y mod fq_mod =? 0 then 0 else x).
  Proof.
    intro Hx. split.
    - pose proof (toZ_range W (fmul (if feq_dec (wv y) f0 then f0 else finv (wv y)) (wv (if y mod fq_mod =? 0 then 0 else x)))) as H.
      now rewrite HW in H.
    - set (x' := if y mod fq_mod =? 0 then 0 else x).
      assert (Hx' : x' mod fq_mod = x').
      { unfold x'. destruct (_ =? _); [reflexivity|now apply Z.mod_small]. }
      refine (eq_trans _ Hx'). apply zmod_eq_wv. unfold qv. fold x'. unfold wv at 1. rewrite ofZ_mul, ofZ_toZ. fold (wv y).
      destruct (feq_dec (wv y) f0) as [e|e].
      + assert (Hx0 : x' = 0). { unfold x'. apply wv_0 in e. now rewrite e. }
        rewrite Hx0. change (wv 0) with (@ofZ W 0). rewrite ofZ_0. ring.
      + field. exact e.
  Qed.

  Lemma int_div_wfd c a b : wfv c a -> wfd c b ->
    cpl c (int_div W a b) (fun r c' => let '(z, q, a', b') := r in
      valid c' z /\ av_val z = isz (bn_of b) /\
      canon c' q (qv (bn_of a mod fq_mod) (bn_of b mod fq_mod)) /\ canon c' a' (bn_of a) /\ canon c' b' (bn_of b)).
  Proof.
    intros Ha Hb. unfold int_div, w_modulus. rewrite HW.
    eapply cpl_bind; [now apply int_is_zero_wfd|]. intros [z b0] c1 _ L1 _ (Vz & Ez & Cb). cbn [fst snd] in *.
    eapply cpl_bind; [now apply not_cpl|]. intros co c2 _ L2 _ (Vco & Eco).
    eapply cpl_bind; [apply int_reduce_wf; now apply (wfv_le c1 c2), (wfv_le c c1)|]. intros a' c3 _ L3 _ Ca.
    pose proof Ca as ((Va0 & Va1 & Va2 & Va3 & _) & _). vle.
    eapply cpl_bind; [now apply mul_cpl|]. intros x0 c4 _ L4 _ [V0 E0]. vle.
    eapply cpl_bind; [now apply mul_cpl|]. intros x1 c5 _ L5 _ [V1 E1]. vle.
    eapply cpl_bind; [now apply mul_cpl|]. intros x2 c6 _ L6 _ [V2 E2]. vle.
    eapply cpl_bind; [now apply mul_cpl|]. intros x3 c7 _ L7 _ [V3 E3]. vle.
    apply scale_vz in E0. apply scale_vz in E1. apply scale_vz in E2. apply scale_vz in E3.
    set (A := bn_of a mod fq_mod). set (Bv := bn_of b mod fq_mod).
    set (ra := AI x0 x1 x2 x3 None (overflows a')). cbv zeta.
    pose proof Ca as (_ & EA & BA & OA). pose proof Cb as (_ & EB & BB & OB). fold A in EA. fold Bv in EB.
    pose proof (Z.mod_pos_bound (bn_of a) fq_mod eq_refl) as HA. fold A in HA.
    pose proof (Z.mod_pos_bound (bn_of b) fq_mod eq_refl) as HB. fold Bv in HB.
    assert (Hra : bn_of ra = (if Bv mod fq_mod =? 0 then 0 else A) /\ vbnd ra 1).
    { unfold Bv. rewrite Zmod_mod. fold Bv. unfold isz in Ez. fold Bv in Ez. rewrite Ez in Eco. rewrite (bn_of_eq N). unfold vbnd. cbn [l0 l1 l2 l3 ra].
      destruct (Bv =? 0).
      - assert (Ec : av_val co = f0) by (rewrite Eco; ring).
        rewrite (proj1 E0 Ec), (proj1 E1 Ec), (proj1 E2 Ec), (proj1 E3 Ec). split; [reflexivity|lia].
      - assert (Ec : av_val co = f1) by (rewrite Eco; ring).
        rewrite (proj2 E0 Ec), (proj2 E1 Ec), (proj2 E2 Ec), (proj2 E3 Ec). split; [rewrite <- EA; symmetry; apply (bn_of_eq N)|exact BA]. }
    destruct Hra as [Er Br].
    destruct (qv_spec A Bv HA) as [HC HM]. rewrite <- Er in HM.
    assert (Hr : 0 <= bn_of ra < fq_mod) by (rewrite Er; destruct (_ =? _); [split; reflexivity || discriminate|assumption]).
    destruct (div_wit (bn_of ra) Bv (qv A Bv) Hr HB HC HM) as (Hg & Hd & Hid).
    set (cq := fmul (if feq_dec (w_of W b0) f0 then f0 else finv (w_of W b0)) (w_of W ra)).
    assert (Ec : toZ cq = qv A Bv).
    { unfold cq, qv, w_of, w_modulus. rewrite HW, EB, (Z.mod_small Bv) by assumption.
      rewrite (Z.mod_small (bn_of ra)) by assumption. rewrite Er. rewrite ?(Z.mod_small Bv) by assumption. reflexivity. }
    rewrite Ec, EB.
    eapply cpl_bind; [apply cpl_guard with (P := fun _ c' => c' = c7); [exact Hg|reflexivity]|]. intros [] ? _ _ _ ->.
    eapply cpl_bind; [apply (assign_w_cpl N W HN HW)|]. intros q c8 _ L8 _ (Oq & Eq & Bq & Ovq & _). rewrite Ec in Eq.
    eapply cpl_bind; [apply (assign_d_cpl N W HN HW); exact Hd|]. intros d c9 _ L9 _ (Vd & Ed & Bd).
    pose proof (ctx_le_trans N _ _ _ L2 (ctx_le_trans N _ _ _ L3 (ctx_le_trans N _ _ _ L4 (ctx_le_trans N _ _ _ L5 (ctx_le_trans N _ _ _ L6
        (ctx_le_trans N _ _ _ L7 (ctx_le_trans N _ _ _ L8 L9))))))) as L19.
    pose proof (ctx_le_trans N _ _ _ L4 (ctx_le_trans N _ _ _ L5 (ctx_le_trans N _ _ _ L6
        (ctx_le_trans N _ _ _ L7 (ctx_le_trans N _ _ _ L8 L9))))) as L39.
    assert (Or : ok c9 ra).
    { apply (ok_le N c7 c9); [now apply (ctx_le_trans N c7 c8 c9)|]. unfold ok, ra. cbn [l0 l1 l2 l3 native_of]. auto. }
    pose proof (canon_le _ _ _ _ L19 Cb) as Cb9. pose proof (canon_le _ _ _ _ L39 Ca) as Ca9.
    pose proof (ok_le N c8 c9 _ L9 Oq) as Oq9.
    assert (HE : bn_of b0 * bn_of q = (vz (d0 d) + vz (d1 d) * 2 ^ 68 + vz (d2 d) * 2 ^ 136 + vz (d3 d) * 2 ^ 204) * fq_mod + bn_of ra).
    { rewrite Ed, EB, Eq, (Z.mul_comm Bv). exact Hid. }
    eapply cpl_bind; [apply (mul_limbs_cpl N W HN HW c9 b0 q d ra 1 1); try assumption; try lia; [apply Cb9|]|].
    { cbn [overflows ra]. lia. }
    intros [] c10 _ L10 _ _.
    eapply cpl_bind; [apply (mul_native_cpl N W HN HW c10 b0 q d ra)|].
    - apply (ok_le N c9 c10); [assumption|apply Cb9].
    - now apply (ok_le N c9 c10).
    - now apply (ok_le N c9 c10).
    - destruct Vd as (? & ? & ? & ?). vle. auto.
    - exact HE.
    - intros [[b1 q1] a1] c11 _ L11 _ ((Ob1 & Sb) & (Oq1 & Sq) & _ & _). apply cpl_ret. clear Ed. vle.
      split; [assumption|]. split; [exact Ez|]. split; [|split].
      + apply (canon_same _ q); [|assumption|assumption]. split; [now apply (ok_le N c10 c11), (ok_le N c9 c10)|].
        split; [rewrite Eq; symmetry; now apply Z.mod_small|]. split; assumption.
      + now apply (canon_le c10 c11), (canon_le c9 c10).
      + apply (canon_same _ b0); [now apply (canon_le c10 c11), (canon_le c9 c10)|assumption|assumption].
  Qed.

  Lemma int_div_wf c a b : wfv c a -> wfv c b ->
    cpl c (int_div W a b) (fun r c' => let '(z, q, a', b') := r in
      valid c' z /\ av_val z = isz (bn_of b) /\
      canon c' q (qv (bn_of a mod fq_mod) (bn_of b mod fq_mod)) /\ canon c' a' (bn_of a) /\ canon c' b' (bn_of b)).
  Proof. intros Ha Hb. apply int_div_wfd; [assumption|]. now apply wfv_wfd. Qed.

  (** *** selection and parity *)
  Lemma mul0 (x y : N) : fadd (fmul f0 x) (fmul (fsub f1 f0) y) = y.
  Proof. ring. Qed.
  Lemma mul1 (x y : N) : fadd (fmul f1 x) (fmul (fsub f1 f1) y) = x.
  Proof. ring. Qed.
  Lemma int_bisec_wf c s a b : wfv c a -> wfv c b -> valid c s -> av_val s = f0 \/ av_val s = f1 ->
    cpl c (int_bisec s a b) (fun r c' => wfv c' r /\ bn_of r = (if feq_dec (av_val s) f0 then bn_of b else bn_of a) /\
      overflows r = Nat.max (overflows a) (overflows b)).
  Proof.
    intros (Oa & Ha & Ba & Ca) (Ob & Hb & Bb & Cb) Vs Hs. unfold int_bisec.
    destruct Oa as (? & ? & ? & ? & _), Ob as (? & ? & ? & ? & _).
    eapply cpl_bind; [now apply bisec_cpl|]. intros x0 c1 _ L1 _ [V0 E0]. vle.
    eapply cpl_bind; [now apply bisec_cpl|]. intros x1 c2 _ L2 _ [V1 E1]. vle.
    eapply cpl_bind; [now apply bisec_cpl|]. intros x2 c3 _ L3 _ [V2 E2]. vle.
    eapply cpl_bind; [now apply bisec_cpl|]. intros x3 c4 _ L4 _ [V3 E3]. vle.
    apply cpl_ret. set (m := (if (overflows b <? overflows a)%nat then overflows a else overflows b)).
    assert (Em : m = Nat.max (overflows a) (overflows b)) by (unfold m; destruct (Nat.ltb_spec (overflows b) (overflows a)); lia).
    rewrite Em. set (r := AI x0 x1 x2 x3 None (Nat.max (overflows a) (overflows b))).
    assert (Or : ok c4 r) by (unfold ok, r; cbn [l0 l1 l2 l3 native_of]; auto).
    assert (Hr : exists t, (t = a \/ t = b) /\ bn_of t = (if feq_dec (av_val s) f0 then bn_of b else bn_of a) /\ bn_of r = bn_of t /\ (forall K, vbnd t K -> vbnd r K)).
    { unfold vbnd. destruct (feq_dec (av_val s) f0) as [e|e].
      - exists b. split; [auto|]. split; [reflexivity|]. rewrite !(bn_of_eq N). unfold r, vz. cbn [l0 l1 l2 l3]. rewrite E0, E1, E2, E3, e.
        rewrite !mul0. auto.
      - exists a. split; [auto|]. split; [reflexivity|]. destruct Hs as [Hs|Hs]; [contradiction|].
        rewrite !(bn_of_eq N). unfold r, vz. cbn [l0 l1 l2 l3]. rewrite E0, E1, E2, E3, Hs.
        rewrite !mul1. auto. }
    destruct Hr as (t & Ht & Et & Er & Br). split; [|split; [congruence|reflexivity]].
    split; [assumption|]. cbn [overflows r]. split; [lia|]. split.
    - apply Br. destruct Ht as [-> | ->]; eapply (vbnd_le N); try eassumption; lia.
    - intro Z0. rewrite Er. destruct Ht as [-> | ->]; [apply Ca|apply Cb]; lia.
  Qed.

  Lemma get_last_bit_wf c a : ok c a -> vbnd a 1 ->
    cpl c (get_last_bit a) (fun r c' => valid c' r /\ av_val r = if Z.odd (bn_of a) then f1 else f0).
  Proof.
    intros (V0 & V1 & V2 & V3 & _) (B0 & _). unfold get_last_bit. cbv zeta. fold (vz (l0 a)).
    set (bit := if Z.odd (vz (l0 a)) then f1 else f0 : N). pose proof (vz_rng N HN (l0 a)) as R0.
    assert (Hd : 0 <= vz (l0 a) / 2 < 2 ^ 68) by (split; [apply Z.div_pos; lia|apply Z.div_lt_upper_bound; lia]).
    eapply cpl_bind; [apply (nonleading_cpl N HN); rewrite (ofZ_small N HN); unfold fr_mod; lia|]. intros d c1 _ L1 _ [Vd Ed]. vle.
    eapply cpl_bind; [apply row_cpl|].
    - cbn. unfold VAR_COLUMNS. lia.
    - cbn. unfold MUL_COLUMNS. lia.
    - valids.
    - unfold row_ok. cbn -[pf fadd fmul fopp f0 f1 fsub Z.pow ofZ]. rewrite Ed, (vof N (l0 a)).
      pose proof (Zdiv2_odd_eqn (vz (l0 a))) as E2. rewrite Z.div2_div in E2.
      rewrite E2 at 2. rewrite ofZ_add, ofZ_mul. unfold bit. destruct (Z.odd (vz (l0 a))); rewrite ?ofZ_0, ?ofZ_1; ring.
    - intros cells c2 _ L2 _ [Ec Vc]. eapply cpl_bind_at; [rewrite Ec; reflexivity|].
      assert (Vb : valid c2 {| av_cell := (offset c1, 1%nat); av_val := bit |}).
      { rewrite Forall_forall in Vc. apply Vc. rewrite Ec. cbn. auto. }
      eapply cpl_bind; [apply assert_bit_cpl; [exact Vb|cbn [av_val]; unfold bit; destruct Z.odd; auto]|].
      intros [] c3 _ L3 _ _. apply cpl_ret. vle. split; [assumption|]. cbn [av_val]. unfold bit. f_equal.
      rewrite (bn_of_eq N).
      replace (vz (l0 a) + vz (l1 a) * 2 ^ 68 + vz (l2 a) * 2 ^ 136 + vz (l3 a) * 2 ^ 204)
        with (vz (l0 a) + 2 * (vz (l1 a) * 2 ^ 67 + vz (l2 a) * 2 ^ 135 + vz (l3 a) * 2 ^ 203)) by ring.
      now rewrite Z.odd_add_mul_2.
  Qed.

  Lemma scale_limb_cpl c x (b : Z) : valid c x ->
    cpl c (sum_with_constant [(x, ofZ b)] f0) (fun r c' => valid c' r /\ (0 <= b * vz x < fr_mod -> vz r = b * vz x)).
  Proof.
    intros. eapply cpl_conseq; [apply sum_with_constant_cpl; repeat (apply Forall_cons; [assumption|]); apply Forall_nil|].
    intros r c' _ _ _ [V E]. split; [assumption|]. intro Hb.
    apply (vz_eq N HN); [|assumption]. rewrite E. cbn [vsum]. rewrite !(vof N), ofZ_mul. ring.
  Qed.
  Lemma scale_bnd x (b : nat) K : 0 <= x <= K * (2 ^ 68 - 1) -> 0 <= K -> K * Z.of_nat b <= 64 ->
    0 <= Z.of_nat b * x < fr_mod /\ Z.of_nat b * x <= K * Z.of_nat b * (2 ^ 68 - 1).
  Proof.
    intros Hx HK Hb. assert (Z.of_nat b * x <= Z.of_nat b * (K * (2 ^ 68 - 1))) by (apply Z.mul_le_mono_nonneg_l; lia).
    replace (Z.of_nat b * (K * (2 ^ 68 - 1))) with (K * Z.of_nat b * (2 ^ 68 - 1)) in * by ring.
    split; [split; [apply Z.mul_nonneg_nonneg; lia|unfold fr_mod; lia]|assumption].
  Qed.
  (** No reduction of the argument: the recorded count of the product is [ov * b]. *)
  Lemma mul_small_cpl c a (b : nat) K : ok c a -> (b < 64)%nat -> (overflows a * b < 64)%nat -> 0 <= K -> K * Z.of_nat b <= 64 -> vbnd a K ->
    cpl c (mul_small_constant W a b) (fun r c' => snd r = a /\
      vres c' (fst r) (K * Z.of_nat b) (overflows a * b) (Z.of_nat b * bn_of a)).
  Proof.
    intros Oa Hb Hov HK HKb Ba. unfold mul_small_constant. change OVERFLOW_LIMIT with 64%nat.
    eapply cpl_bind; [apply cpl_guard with (P := fun _ c' => c' = c); [now apply Nat.ltb_lt|reflexivity]|]. intros [] ? _ _ _ ->.
    rewrite (proj2 (Nat.leb_gt _ _) Hov).
    eapply cpl_bind; [apply cpl_ret with (P := fun x c' => c' = c /\ x = a); auto|]. intros ? ? _ _ _ [-> ->].
    destruct Oa as (? & ? & ? & ? & _). cbv zeta.
    eapply cpl_bind; [now apply scale_limb_cpl|]. intros x0 c1 _ L1 _ [V0 E0]. vle.
    eapply cpl_bind; [now apply scale_limb_cpl|]. intros x1 c2 _ L2 _ [V1 E1]. vle.
    eapply cpl_bind; [now apply scale_limb_cpl|]. intros x2 c3 _ L3 _ [V2 E2]. vle.
    eapply cpl_bind; [now apply scale_limb_cpl|]. intros x3 c4 _ L4 _ [V3 E3]. vle.
    destruct Ba as (B0 & B1 & B2 & B3).
    pose proof (vz_rng N HN (l0 a)). pose proof (vz_rng N HN (l1 a)). pose proof (vz_rng N HN (l2 a)). pose proof (vz_rng N HN (l3 a)).
    destruct (scale_bnd (vz (l0 a)) b K) as [S0 T0]; [lia..|]. destruct (scale_bnd (vz (l1 a)) b K) as [S1 T1]; [lia..|].
    destruct (scale_bnd (vz (l2 a)) b K) as [S2 T2]; [lia..|]. destruct (scale_bnd (vz (l3 a)) b K) as [S3 _]; [lia..|].
    assert (T3 : Z.of_nat b * vz (l3 a) <= K * Z.of_nat b * (2 ^ 50 - 1)).
    { replace (K * Z.of_nat b * (2 ^ 50 - 1)) with (Z.of_nat b * (K * (2 ^ 50 - 1))) by ring. apply Z.mul_le_mono_nonneg_l; lia. }
    specialize (E0 S0). specialize (E1 S1). specialize (E2 S2). specialize (E3 S3).
    eapply cpl_bind; [apply (cond_reduce_cpl N W HN HW) with (K := K * Z.of_nat b)|].
    - unfold ok. cbn [l0 l1 l2 l3 native_of]. auto.
    - exact Hov.
    - split; [apply Z.mul_nonneg_nonneg; lia|assumption].
    - unfold vbnd. cbn [l0 l1 l2 l3]. lia.
    - intros r c' _ _ _ Hr. cbn [overflows] in Hr. apply cpl_ret. cbn [fst snd]. split; [reflexivity|].
      assert (E : bn_of (AI x0 x1 x2 x3 None (overflows a * b)) = Z.of_nat b * bn_of a).
      { rewrite !(bn_of_eq N). cbn [l0 l1 l2 l3]. rewrite E0, E1, E2, E3. ring. }
      rewrite E in Hr. exact Hr.
  Qed.
End Complete.
