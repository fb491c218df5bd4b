(** Completeness of the integer chip, continued: linear operations, tests, division. *)
From Coq Require Import ZArith Arith Lia List Bool Ring Field Znumtheory.
From Verif Require Import Util Algebra PField Gate GateProofs GateOps RangeProofs Integer Bn254 IntegerFacts IntegerSound IntegerOps IntegerComplete.
Import ListNotations.
Local Open Scope Z_scope.

Section Complete.
  Variables N W : PF.
  Hypothesis HN : pf_n N = fr_mod.
  Hypothesis HW : pf_n W = fq_mod.
  Add Field NF : (f_th N).
  Add Field WF : (f_th W).
  Implicit Types (c : ctx N) (a b : aint N) (d : alimbs N).
  Local Notation canon := (canon N).
  Local Notation vres := (vres N).

  Ltac okd H := let H' := fresh in pose proof H as H'; destruct H' as (? & ? & ? & ? & _).

  Lemma add_limb_cpl c x y : valid c x -> valid c y ->
    cpl c (add x y) (fun r c' => valid c' r /\ (vz x + vz y < fr_mod -> vz r = vz x + vz y)).
  Proof.
    intros. eapply cpl_conseq; [now apply add_cpl|]. intros r c' _ _ _ [V E]. split; [assumption|]. intro Hb.
    apply (vz_eq N HN); [rewrite E, !(vof N), ofZ_add; ring|].
    pose proof (vz_rng N HN x). pose proof (vz_rng N HN y). lia.
  Qed.
  Lemma int_add_cpl c a b Ka Kb :
    ok c a -> ok c b -> (overflows a + overflows b + 1 < 64)%nat -> 0 <= Ka -> 0 <= Kb -> Ka + Kb <= 64 -> vbnd a Ka -> vbnd b Kb ->
    cpl c (int_add W a b) (fun r c' => vres c' r (Ka + Kb) (overflows a + overflows b + 1) (bn_of a + bn_of b)).
  Proof.
    intros Oa Ob Hov HKa HKb HK Ba Bb. unfold int_add. okd Oa. okd Ob. clear Oa Ob.
    eapply cpl_bind; [now apply add_limb_cpl|]. intros x0 c1 _ L1 _ [V0 E0]. vle.
    eapply cpl_bind; [now apply add_limb_cpl|]. intros x1 c2 _ L2 _ [V1 E1]. vle.
    eapply cpl_bind; [now apply add_limb_cpl|]. intros x2 c3 _ L3 _ [V2 E2]. vle.
    eapply cpl_bind; [now apply add_limb_cpl|]. intros x3 c4 _ L4 _ [V3 E3]. vle.
    destruct Ba as (Ba0 & Ba1 & Ba2 & Ba3), Bb as (Bb0 & Bb1 & Bb2 & Bb3).
    specialize (E0 ltac:(unfold fr_mod; lia)). specialize (E1 ltac:(unfold fr_mod; lia)).
    specialize (E2 ltac:(unfold fr_mod; lia)). specialize (E3 ltac:(unfold fr_mod; lia)).
    eapply cpl_conseq; [apply (cond_reduce_cpl N W HN HW) with (K := Ka + Kb)|].
    - unfold ok. cbn [l0 l1 l2 l3 native_of]. auto.
    - exact Hov.
    - lia.
    - unfold vbnd. cbn [l0 l1 l2 l3]. lia.
    - intros r c' _ _ _ Hr. cbn [overflows] in Hr.
      assert (E : bn_of (AI x0 x1 x2 x3 None (overflows a + overflows b + 1)) = bn_of a + bn_of b).
      { rewrite !(bn_of_eq N). cbn [l0 l1 l2 l3]. lia. }
      rewrite E in Hr. exact Hr.
  Qed.

  Lemma sub_limb_cpl c x y u : valid c x -> valid c y ->
    cpl c (sum_with_constant [(x, f1); (y, fopp f1)] (ofZ u)) (fun r c' => valid c' r /\
      (0 <= vz x - vz y + u < fr_mod -> vz r = vz x - vz y + u)).
  Proof.
    intros. eapply cpl_conseq; [apply sum_with_constant_cpl; repeat (apply Forall_cons; [assumption|]); apply Forall_nil|].
    intros r c' _ _ _ [V E]. split; [assumption|]. intro Hb.
    apply (vz_eq N HN); [|assumption]. rewrite E. cbn [vsum]. rewrite !(vof N), ofZ_add, ofZ_sub. ring.
  Qed.
  Lemma neg_limb_cpl c y u : valid c y ->
    cpl c (sum_with_constant [(y, fopp f1)] (ofZ u)) (fun r c' => valid c' r /\ (0 <= u - vz y < fr_mod -> vz r = u - vz y)).
  Proof.
    intros. eapply cpl_conseq; [apply sum_with_constant_cpl; repeat (apply Forall_cons; [assumption|]); apply Forall_nil|].
    intros r c' _ _ _ [V E]. split; [assumption|]. intro Hb.
    apply (vz_eq N HN); [|assumption]. rewrite E. cbn [vsum]. rewrite !(vof N), ofZ_sub. ring.
  Qed.

  (** [M] is the multiple of w added to keep the limbs non-negative. *)
  Lemma int_sub_cpl c a b Ka :
    let Kb := Z.of_nat (overflows b) + 1 in
    ok c a -> ok c b -> (overflows a + overflows b + 2 < 64)%nat -> 0 <= Ka -> Ka + Kb + 1 <= 64 -> vbnd a Ka -> vbnd b Kb ->
    cpl c (int_sub W a b) (fun r c' => exists M, (fq_mod | M) /\
      vres c' r (Ka + Kb + 1) (overflows a + (overflows b + 1) + 1) (bn_of a - bn_of b + M)).
  Proof.
    intros Kb Oa Ob Hov HKa HK Ba Bb. unfold int_sub. rewrite (find_fw W HW).
    destruct (fw_spec (overflows b) ltac:(lia)) as (u0 & u1 & u2 & u3 & -> & C0 & C1 & C2 & C3 & Hdiv). fold Kb in C0, C1, C2, C3.
    eapply cpl_bind; [apply cpl_ret with (P := fun u c' => c' = c /\ u = (u0, u1, u2, u3)); auto|].
    intros u ? _ _ _ [-> ->]. okd Oa. okd Ob. clear Oa Ob. assert (HKb : 0 <= Kb) by (unfold Kb; lia).
    pose proof (vz_rng N HN (l0 a)). pose proof (vz_rng N HN (l1 a)). pose proof (vz_rng N HN (l2 a)). pose proof (vz_rng N HN (l3 a)).
    pose proof (vz_rng N HN (l0 b)). pose proof (vz_rng N HN (l1 b)). pose proof (vz_rng N HN (l2 b)). pose proof (vz_rng N HN (l3 b)).
    eapply cpl_bind; [now apply sub_limb_cpl|]. intros x0 c1 _ L1 _ [V0 E0]. vle.
    eapply cpl_bind; [now apply sub_limb_cpl|]. intros x1 c2 _ L2 _ [V1 E1]. vle.
    eapply cpl_bind; [now apply sub_limb_cpl|]. intros x2 c3 _ L3 _ [V2 E2]. vle.
    eapply cpl_bind; [now apply sub_limb_cpl|]. intros x3 c4 _ L4 _ [V3 E3]. vle.
    destruct Ba as (Ba0 & Ba1 & Ba2 & Ba3), Bb as (Bb0 & Bb1 & Bb2 & Bb3).
    specialize (E0 ltac:(apply (small_fr _ (Ka + Kb + 1)); lia)). specialize (E1 ltac:(apply (small_fr _ (Ka + Kb + 1)); lia)).
    specialize (E2 ltac:(apply (small_fr _ (Ka + Kb + 1)); lia)). specialize (E3 ltac:(apply (small_fr _ (Ka + Kb + 1)); lia)).
    eapply cpl_conseq; [apply (cond_reduce_cpl N W HN HW) with (K := Ka + Kb + 1)|].
    - unfold ok. cbn [l0 l1 l2 l3 native_of]. auto.
    - cbn [overflows]. lia.
    - lia.
    - unfold vbnd. cbn [l0 l1 l2 l3]. lia.
    - intros r c' _ _ _ Hr. cbn [overflows] in Hr. exists (u0 + u1 * 2 ^ 68 + u2 * 2 ^ 136 + u3 * 2 ^ 204). split; [exact Hdiv|].
      assert (E : bn_of (AI x0 x1 x2 x3 None (overflows a + (overflows b + 1) + 1)) =
                  bn_of a - bn_of b + (u0 + u1 * 2 ^ 68 + u2 * 2 ^ 136 + u3 * 2 ^ 204)).
      { rewrite !(bn_of_eq N). cbn [l0 l1 l2 l3]. lia. }
      rewrite E in Hr. exact Hr.
  Qed.
  Lemma int_neg_cpl c b :
    let Kb := Z.of_nat (overflows b) + 1 in
    ok c b -> (overflows b + 1 < 64)%nat -> vbnd b Kb ->
    cpl c (int_neg W b) (fun r c' => exists M, (fq_mod | M) /\
      vres c' r (Kb + 1) (overflows b + 1) (M - bn_of b)).
  Proof.
    intros Kb Ob Hov Bb. unfold int_neg. rewrite (find_fw W HW).
    destruct (fw_spec (overflows b) ltac:(lia)) as (u0 & u1 & u2 & u3 & -> & C0 & C1 & C2 & C3 & Hdiv). fold Kb in C0, C1, C2, C3.
    eapply cpl_bind; [apply cpl_ret with (P := fun u c' => c' = c /\ u = (u0, u1, u2, u3)); auto|].
    intros u ? _ _ _ [-> ->]. okd Ob. clear Ob. assert (HKb : 0 <= Kb <= 63) by (unfold Kb; lia).
    pose proof (vz_rng N HN (l0 b)). pose proof (vz_rng N HN (l1 b)). pose proof (vz_rng N HN (l2 b)). pose proof (vz_rng N HN (l3 b)).
    eapply cpl_bind; [now apply neg_limb_cpl|]. intros x0 c1 _ L1 _ [V0 E0]. vle.
    eapply cpl_bind; [now apply neg_limb_cpl|]. intros x1 c2 _ L2 _ [V1 E1]. vle.
    eapply cpl_bind; [now apply neg_limb_cpl|]. intros x2 c3 _ L3 _ [V2 E2]. vle.
    eapply cpl_bind; [now apply neg_limb_cpl|]. intros x3 c4 _ L4 _ [V3 E3]. vle.
    destruct Bb as (Bb0 & Bb1 & Bb2 & Bb3).
    specialize (E0 ltac:(apply (small_fr _ (Kb + 1)); lia)). specialize (E1 ltac:(apply (small_fr _ (Kb + 1)); lia)).
    specialize (E2 ltac:(apply (small_fr _ (Kb + 1)); lia)). specialize (E3 ltac:(apply (small_fr _ (Kb + 1)); lia)).
    eapply cpl_conseq; [apply (cond_reduce_cpl N W HN HW) with (K := Kb + 1)|].
    - unfold ok. cbn [l0 l1 l2 l3 native_of]. auto.
    - cbn [overflows]. lia.
    - lia.
    - unfold vbnd. cbn [l0 l1 l2 l3]. lia.
    - intros r c' _ _ _ Hr. cbn [overflows] in Hr. exists (u0 + u1 * 2 ^ 68 + u2 * 2 ^ 136 + u3 * 2 ^ 204). split; [exact Hdiv|].
      assert (E : bn_of (AI x0 x1 x2 x3 None (overflows b + 1)) =
                  u0 + u1 * 2 ^ 68 + u2 * 2 ^ 136 + u3 * 2 ^ 204 - bn_of b).
      { rewrite !(bn_of_eq N). cbn [l0 l1 l2 l3]. lia. }
      rewrite E in Hr. exact Hr.
  Qed.

  (** *** tests *)
  Lemma is_pure_zero_cpl c a : ok c a -> cpl c (is_pure_zero a) (fun r c' => valid c' r).
  Proof.
    intro Oa. okd Oa. unfold is_pure_zero.
    eapply cpl_bind; [apply sum_with_constant_cpl; repeat (apply Forall_cons; [assumption|]); apply Forall_nil|].
    intros s c1 _ L1 _ [V _]. eapply cpl_conseq; [now apply is_zero_cpl|]. intros r c' _ _ _ [V' _]. exact V'.
  Qed.
  Lemma is_pure_w_cpl c a : ok c a -> cpl c (is_pure_w_modulus W a) (fun r c' => valid c' (fst r) /\ ok c' (snd r) /\ same a (snd r)).
  Proof.
    intro Oa. unfold is_pure_w_modulus.
    eapply cpl_bind; [now apply (native_cpl N)|]. intros an c1 _ L1 _ (Va & _ & Oa' & Sa).
    eapply cpl_bind; [apply sum_with_constant_cpl; repeat (apply Forall_cons; [assumption|]); apply Forall_nil|].
    intros nd c2 _ L2 _ [Vn _]. eapply cpl_bind; [now apply is_zero_cpl|]. intros z1 c3 _ L3 _ [Vz1 _].
    assert (O3 : ok c3 (snd an)) by now apply (ok_le N c2 c3), (ok_le N c1 c2).
    pose proof O3 as (V0 & _).
    eapply cpl_bind; [apply sum_with_constant_cpl; repeat (apply Forall_cons; [assumption|]); apply Forall_nil|].
    intros ld c4 _ L4 _ [Vl _]. eapply cpl_bind; [now apply is_zero_cpl|]. intros z2 c5 _ L5 _ [Vz2 _]. vle.
    eapply cpl_bind; [now apply mul_cpl|]. intros r c6 _ L6 _ [Vr _]. apply cpl_ret. cbn [fst snd].
    split; [assumption|]. split; [|assumption]. now apply (ok_le N c5 c6), (ok_le N c4 c5), (ok_le N c3 c4).
  Qed.
  (** the operand after an in-place reduction *)
  Definition vred c a (a' : aint N) : Prop :=
    ok c a' /\ if (overflows a =? 0)%nat then same a a' else canon c a' (bn_of a).
  Lemma reduce_cpl' c a K : ok c a -> (overflows a < 64)%nat -> 0 <= K <= 64 -> vbnd a K ->
    cpl c (int_reduce W a) (fun r c' => vred c' a r).
  Proof.
    intros Oa Ov HK Ba. eapply cpl_conseq; [now apply (reduce_cpl N W HN HW c a K)|]. intros r c' _ L _ Hr. unfold vred.
    destruct (overflows a =? 0)%nat; [subst r; split; [now apply (ok_le N c c')|repeat split]|split; [apply Hr|assumption]].
  Qed.
  Lemma vred_le c c' a a' : ctx_le c c' -> vred c a a' -> vred c' a a'.
  Proof.
    intros L [O H]. split; [now apply (ok_le N c c')|]. destruct (overflows a =? 0)%nat; [assumption|].
    destruct H as (H1 & H2 & H3 & H4). split; [now apply (ok_le N c c')|]. auto.
  Qed.
  Lemma vred_same c a a' a'' : vred c a a' -> ok c a'' -> same a' a'' -> vred c a a''.
  Proof.
    intros [O H] O' S. split; [assumption|]. destruct (overflows a =? 0)%nat.
    - destruct S as (? & ? & ? & ? & ?), H as (? & ? & ? & ? & ?). repeat split; congruence.
    - destruct H as (H1 & H2 & H3 & H4). split; [assumption|]. split; [now rewrite (same_bn N _ _ S)|].
      split; [now apply (same_vbnd N a')|]. transitivity (overflows a'); [apply S|assumption].
  Qed.
  Lemma vred_facts c a a' : vred c a a' -> ok c a' /\ overflows a' = 0%nat /\ bn_of a' mod fq_mod = bn_of a mod fq_mod /\
    (vbnd a 1 -> vbnd a' 1) /\ ((overflows a =? 0)%nat = false -> vbnd a' 1 /\ bn_of a' < fq_mod) /\
    ((overflows a =? 0)%nat = true -> same a a').
  Proof.
    intros [O H]. split; [assumption|]. destruct (Nat.eqb_spec (overflows a) 0) as [E|E].
    - split; [transitivity (overflows a); [apply H|assumption]|]. rewrite (same_bn N _ _ H). split; [reflexivity|].
      split; [intro Hb; now apply (same_vbnd N a)|]. split; [discriminate|auto].
    - destruct H as (H1 & H2 & H3 & H4). split; [assumption|]. rewrite H2, Zmod_mod. split; [reflexivity|]. split; [auto|].
      split; [|discriminate]. split; [assumption|]. apply Z.mod_pos_bound. reflexivity.
  Qed.

  Lemma int_is_zero_cpl c a K : ok c a -> (overflows a < 64)%nat -> 0 <= K <= 64 -> vbnd a K ->
    cpl c (int_is_zero W a) (fun r c' => valid c' (fst r) /\ vred c' a (snd r)).
  Proof.
    intros Oa Ov HK Ba. unfold int_is_zero.
    eapply cpl_bind; [now apply (reduce_cpl' c a K)|]. intros a1 c1 _ L1 _ R1. pose proof R1 as [O1 _].
    eapply cpl_bind; [now apply is_pure_zero_cpl|]. intros z c2 _ L2 _ Vz.
    eapply cpl_bind; [apply is_pure_w_cpl; now apply (ok_le N c1 c2)|]. intros wa c3 _ L3 _ (Vw & Ow & Sw).
    eapply cpl_bind; [apply or_cpl; [now apply (valid_le N c2 c3)|assumption]|]. intros r c4 _ L4 _ [Vr _]. apply cpl_ret. cbn [fst snd].
    split; [assumption|]. apply (vred_same _ _ a1); [now apply (vred_le c3 c4), (vred_le c2 c3), (vred_le c1 c2)|now apply (ok_le N c3 c4)|assumption].
  Qed.

  Lemma vres_facts c r K ov v : vres c r K ov v -> (0 < ov)%nat -> K = Z.of_nat ov + 1 ->
    ok c r /\ (overflows r < 32)%nat /\ vbnd r (Z.of_nat (overflows r) + 1) /\ (overflows r = 0%nat -> bn_of r < fq_mod) /\
    bn_of r mod fq_mod = v mod fq_mod /\ vbnd r 32.
  Proof.
    intros (O & H) Hov ->. split; [assumption|]. destruct H as [(Ho & H32 & Hb & Hv)|(H32 & _ & Hv & Hb & Ho)].
    - rewrite Ho. split; [assumption|]. split; [assumption|]. split; [lia|]. split; [congruence|].
      apply (vbnd_le N r (Z.of_nat ov + 1)); [lia|assumption].
    - rewrite Ho. split; [lia|]. split; [assumption|]. split; [intros _; rewrite Hv; apply Z.mod_pos_bound; reflexivity|].
      split; [rewrite Hv; apply Zmod_mod|]. apply (vbnd_le N r 1); [lia|assumption].
  Qed.

  Lemma int_is_equal_cpl c a b :
    let Ka := Z.of_nat (overflows a) + 1 in let Kb := Z.of_nat (overflows b) + 1 in
    ok c a -> ok c b -> (overflows a + overflows b + 2 < 64)%nat -> vbnd a Ka -> vbnd b Kb ->
    cpl c (int_is_equal W a b) (fun r c' => valid c' r).
  Proof.
    intros Ka Kb Oa Ob Hov Ba Bb. unfold int_is_equal.
    eapply cpl_bind; [apply (int_sub_cpl c a b Ka); auto; unfold Ka; lia|]. intros df c1 _ L1 _ (M & _ & Hd).
    destruct (vres_facts _ _ _ _ _ Hd ltac:(lia) ltac:(unfold Ka; lia)) as (Od & H32 & _ & _ & _ & Bd).
    eapply cpl_bind; [apply (int_is_zero_cpl c1 df 32); auto; lia|]. intros r c2 _ L2 _ [V _]. now apply cpl_ret.
  Qed.

  Lemma mod_sub_mul x y M : (fq_mod | M) -> x mod fq_mod = y mod fq_mod -> (x - y + M) mod fq_mod = 0.
  Proof.
    intros [q ->] H. rewrite Z_mod_plus_full, Zminus_mod, H, Z.sub_diag. apply Zmod_0_l.
  Qed.
  Lemma int_assert_equal_cpl c a b :
    let Ka := Z.of_nat (overflows a) + 1 in let Kb := Z.of_nat (overflows b) + 1 in
    ok c a -> ok c b -> (overflows a + overflows b + 2 < 64)%nat -> vbnd a Ka -> vbnd b Kb ->
    bn_of a mod fq_mod = bn_of b mod fq_mod ->
    cpl c (int_assert_equal W a b) (fun _ _ => True).
  Proof.
    intros Ka Kb Oa Ob Hov Ba Bb E. unfold int_assert_equal.
    eapply cpl_bind; [apply (int_sub_cpl c a b Ka); auto; unfold Ka; lia|]. intros df c1 _ L1 _ (M & HM & Hd).
    destruct (vres_facts _ _ _ _ _ Hd ltac:(lia) ltac:(unfold Ka; lia)) as (Od & H32 & _ & Hc & Ed & Bd).
    rewrite mod_sub_mul in Ed by assumption.
    eapply cpl_bind; [apply (reduce_cpl' c1 df 32); auto; lia|]. intros d' c2 _ L2 _ R.
    destruct (vred_facts _ _ _ R) as (O2 & _ & E2 & _ & Hf & Ht).
    assert (Ez : bn_of d' = 0).
    { rewrite Ed in E2. rewrite Z.mod_small in E2; [assumption|]. split; [apply (bn_of_nonneg N HN)|].
      destruct (overflows df =? 0)%nat eqn:Eo.
      - rewrite (same_bn N _ _ (Ht eq_refl)). apply Hc. now apply Nat.eqb_eq.
      - now apply Hf. }
    eapply cpl_bind; [now apply (native_cpl N)|]. intros dn c3 _ L3 _ (Vn & En & On & Sn).
    eapply cpl_bind; [apply assert_constant_cpl; [assumption|rewrite En, Ez; apply ofZ_0]|]. intros u c4 _ L4 _ _.
    assert (E0 : vz (l0 d') = 0).
    { rewrite (bn_of_eq N) in Ez. pose proof (vz_rng N HN (l0 d')). pose proof (vz_rng N HN (l1 d')).
      pose proof (vz_rng N HN (l2 d')). pose proof (vz_rng N HN (l3 d')). lia. }
    pose proof On as (V0 & _).
    eapply cpl_conseq; [apply assert_constant_cpl; [now apply (valid_le N c3 c4)|]|auto].
    destruct Sn as (-> & _). rewrite (vof N), E0. apply ofZ_0.
  Qed.
End Complete.
