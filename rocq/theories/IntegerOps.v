(** Soundness of the integer chip, continued: additions, tests, division. *)
From Coq Require Import ZArith Arith Lia List Bool Ring Field Znumtheory.
From Verif Require Import Util Algebra PField Gate GateProofs GateOps RangeProofs Integer Bn254 IntegerFacts IntegerSound.
Import ListNotations.
Local Open Scope Z_scope.

Lemma if_sumbool {A B : Prop} {T} (d : {A} + {B}) (x y : T) : A -> ~ B -> (if d then x else y) = x.
Proof. destruct d; tauto. Qed.

(** [find_w_modulus_ceil] with the modulus as an argument *)
Definition fw (m : Z) (ov : nat) : option (Z * Z * Z * Z) :=
  let k := (Z.of_nat ov + 1)%Z in
  let max_a := (k * 2 ^ nbits m)%Z in
  let n := (if (0 <? max_a mod m)%Z then max_a / m + 1 else max_a / m)%Z in
  let step (upper : Z) : option (Z * Z) :=
    let rem := (upper mod limb_modulus + k * limb_modulus)%Z in
    if (rem <=? upper)%Z then Some (rem, (upper - rem) / limb_modulus)%Z else None in
  do (x0, u1) <- step (n * m)%Z;
  do (x1, u2) <- step u1;
  do (x2, u3) <- step u2;
  Some (x0, x1, x2, u3).
Definition fw_ok (ov : nat) : bool :=
  match fw fq_mod ov with
  | Some (u0, u1, u2, u3) =>
      let k := Z.of_nat ov + 1 in
      let mid u := (k * (2 ^ 68 - 1) <=? u) && (u <=? (k + 1) * (2 ^ 68 - 1)) in
      mid u0 && mid u1 && mid u2 && (k * (2 ^ 50 - 1) <=? u3) && (u3 <=? (k + 1) * (2 ^ 50 - 1)) &&
      ((u0 + u1 * 2 ^ 68 + u2 * 2 ^ 136 + u3 * 2 ^ 204) mod fq_mod =? 0)
  | None => false
  end.
Lemma fw_all : forallb fw_ok (seq 0 64) = true.
Proof. vm_compute. reflexivity. Qed.
Lemma fw_spec ov : (ov < 64)%nat -> exists u0 u1 u2 u3, fw fq_mod ov = Some (u0, u1, u2, u3) /\
  let k := Z.of_nat ov + 1 in
  k * (2 ^ 68 - 1) <= u0 <= (k + 1) * (2 ^ 68 - 1) /\ k * (2 ^ 68 - 1) <= u1 <= (k + 1) * (2 ^ 68 - 1) /\
  k * (2 ^ 68 - 1) <= u2 <= (k + 1) * (2 ^ 68 - 1) /\ k * (2 ^ 50 - 1) <= u3 <= (k + 1) * (2 ^ 50 - 1) /\
  (fq_mod | u0 + u1 * 2 ^ 68 + u2 * 2 ^ 136 + u3 * 2 ^ 204).
Proof.
  intro H. assert (Hin : In ov (seq 0 64)) by (apply in_seq; lia).
  pose proof (proj1 (forallb_forall _ _) fw_all ov Hin) as E.
  unfold fw_ok in E. destruct (fw fq_mod ov) as [[[[u0 u1] u2] u3]|]; [|discriminate].
  exists u0, u1, u2, u3. split; [reflexivity|]. cbv zeta in *.
  rewrite !andb_true_iff, !Z.leb_le, Z.eqb_eq in E.
  destruct E as (((((E0 & E1) & E2) & E3) & E4) & E5). repeat split; try tauto.
  apply Z.mod_divide; [discriminate|exact E5].
Qed.

Section Ops.
  Variables N W : PF.
  Hypothesis HN : pf_n N = fr_mod.
  Hypothesis HW : pf_n W = fq_mod.
  Add Field NF : (f_th N).
  Add Field WF : (f_th W).
  Implicit Types (w : asg N) (c : ctx N) (a b : aint N) (d : alimbs N).
  Local Notation zv := (zv N).

  Lemma find_fw ov : find_w_modulus_ceil W ov = fw fq_mod ov.
  Proof. unfold find_w_modulus_ceil, w_ceil_bits, w_modulus. rewrite HW. reflexivity. Qed.

  (** the integer in a cell, from a field equation *)
  Lemma zv_eq w (x : aval N) z : w (av_cell x) = ofZ z -> 0 <= z < fr_mod -> zv w x = z.
  Proof. intros H Hz. unfold IntegerFacts.zv. rewrite H. apply toZ_small. now rewrite HN. Qed.

  Lemma fv_lin w r z : (fq_mod | iv w r - z) -> fv W w r = ofZ z.
  Proof.
    intros [q H]. unfold fv. replace (iv w r) with (z + q * fq_mod) by lia.
    apply ofZ_eq. rewrite HW. apply Z_mod_plus_full.
  Qed.

  (** *** result of an operation that may reduce *)
  Definition res w (r : aint N) (K : Z) (ov : nat) (v : W) : Prop :=
    fv W w r = v /\ natok w r /\
    ((overflows r = ov /\ (ov < 32)%nat /\ bnd w r K) \/ (overflows r = 0%nat /\ (32 <= ov)%nat /\ bnd w r 1)).
  Lemma cond_reduce_snd w a K :
    snd_ w (conditionally_reduce W a) (fun r =>
      0 <= K <= 128 -> bnd w a K -> natok w a -> res w r K (overflows a) (fv W w a)).
  Proof.
    unfold conditionally_reduce. destruct (Nat.leb_spec OVERFLOW_THRESHOLD (overflows a)) as [H|H]; unfold OVERFLOW_THRESHOLD in H.
    - eapply snd_conseq; [apply (reduce_snd N W HN HW) with (K := K)|]. intros r Hr HK Ba na.
      destruct (Hr HK Ba na) as (E & Hn & Ho & _ & Hb). repeat split; auto. right. repeat split; auto; apply Hb; lia.
    - apply snd_ret. intros HK Ba na. repeat split; auto.
  Qed.
  Lemma res_wfi w r K ov v : res w r K ov v -> K = Z.of_nat ov + 1 -> wfi w r /\ (overflows r < 32)%nat /\ fv W w r = v.
  Proof.
    intros (E & Hn & [(Ho & H32 & Hb)|(Ho & H32 & Hb)]) ->; unfold wfi; rewrite Ho; repeat split; auto; try lia; apply Hb.
  Qed.

  Lemma small_fr z K : 0 <= K <= 128 -> 0 <= z <= K * (2 ^ 68 - 1) -> 0 <= z < fr_mod.
  Proof. unfold fr_mod. lia. Qed.

  (** *** add *)
  Lemma int_add_snd w a b Ka Kb :
    snd_ w (int_add W a b) (fun r =>
      0 <= Ka -> 0 <= Kb -> Ka + Kb <= 128 -> bnd w a Ka -> bnd w b Kb ->
      res w r (Ka + Kb) (overflows a + overflows b + 1) (fadd (fv W w a) (fv W w b))).
  Proof.
    unfold int_add. do 4 (eapply snd_bind; [apply add_snd|]; intro).
    eapply snd_conseq; [apply cond_reduce_snd with (K := Ka + Kb)|]. intros r Hr E3 E2 E1 E0 HKa HKb HK Ba Bb.
    destruct Ba as (Ba0 & Ba1 & Ba2 & Ba3), Bb as (Bb0 & Bb1 & Bb2 & Bb3).
    rewrite !(wcell N w) in E0. rewrite !(wcell N w) in E1. rewrite !(wcell N w) in E2. rewrite !(wcell N w) in E3.
    rewrite <- !ofZ_add, <- !(wcell N w) in E0. rewrite <- !ofZ_add, <- !(wcell N w) in E1.
    rewrite <- !ofZ_add, <- !(wcell N w) in E2. rewrite <- !ofZ_add, <- !(wcell N w) in E3.
    pose proof (zv_rng N HN w (l0 a)). pose proof (zv_rng N HN w (l1 a)). pose proof (zv_rng N HN w (l2 a)). pose proof (zv_rng N HN w (l3 a)).
    pose proof (zv_rng N HN w (l0 b)). pose proof (zv_rng N HN w (l1 b)). pose proof (zv_rng N HN w (l2 b)). pose proof (zv_rng N HN w (l3 b)).
    apply zv_eq in E0, E1, E2, E3; try (apply (small_fr _ (Ka + Kb)); lia).
    cbn [overflows] in Hr. refine (_ (Hr ltac:(lia) _ I)).
    - assert (Ev : fv W w (AI a0 a1 a2 a3 None (overflows a + overflows b + 1)) = fadd (fv W w a) (fv W w b)).
      { unfold fv, iv, lv4. cbn [l0 l1 l2 l3]. rewrite E0, E1, E2, E3, <- ofZ_add. f_equal. ring. }
      rewrite Ev. trivial.
    - unfold bnd. cbn [l0 l1 l2 l3]. rewrite E0, E1, E2, E3. lia.
  Qed.

  (** *** sub, neg *)
  Lemma sub_limb_snd w x y u :
    snd_ w (sum_with_constant [(x, f1); (y, fopp f1)] (ofZ u)) (fun r =>
      0 <= zv w x - zv w y + u < fr_mod -> zv w r = zv w x - zv w y + u).
  Proof.
    eapply snd_conseq; [apply sum_with_constant_snd|]. intros r E H. apply zv_eq; [|assumption].
    rewrite E. cbn [lsum]. rewrite !(wcell N w), ofZ_add, ofZ_sub. ring.
  Qed.
  Lemma neg_limb_snd w y u :
    snd_ w (sum_with_constant [(y, fopp f1)] (ofZ u)) (fun r =>
      0 <= u - zv w y < fr_mod -> zv w r = u - zv w y).
  Proof.
    eapply snd_conseq; [apply sum_with_constant_snd|]. intros r E H. apply zv_eq; [|assumption].
    rewrite E. cbn [lsum]. rewrite !(wcell N w), ofZ_sub. ring.
  Qed.

  Lemma int_sub_snd w a b Ka :
    snd_ w (int_sub W a b) (fun r =>
      let Kb := Z.of_nat (overflows b) + 1 in
      0 <= Ka -> (overflows b < 64)%nat -> Ka + Kb + 1 <= 128 -> bnd w a Ka -> bnd w b Kb ->
      res w r (Ka + Kb + 1) (overflows a + (overflows b + 1) + 1) (fsub (fv W w a) (fv W w b))).
  Proof.
    unfold int_sub. rewrite find_fw.
    destruct (Nat.ltb_spec (overflows b) 64) as [Hov|Hov].
    2:{ intros c r c' H Hs. destruct (fw fq_mod (overflows b)) as [[[[u0 u1] u2] u3]|]; [|discriminate].
        assert (Hg : snd_ w (opt (Some (u0, u1, u2, u3)) : B N _) (fun _ => True)) by now apply snd_ret.
        revert c r c' H Hs. apply (snd_bind N w _ _ _ _ Hg). intros [[[v0 v1] v2] v3].
        do 4 (eapply snd_bind; [apply sum_with_constant_snd|]; intro).
        eapply snd_conseq; [apply cond_reduce_snd with (K := 0)|]. intros; lia. }
    destruct (fw_spec _ Hov) as (u0 & u1 & u2 & u3 & -> & B0 & B1 & B2 & B3 & Hdiv).
    eapply snd_bind; [apply snd_ret with (P := fun u => u = (u0, u1, u2, u3)); reflexivity|].
    intros [[[v0 v1] v2] v3].
    do 4 (eapply snd_bind; [apply sub_limb_snd|]; intro).
    cbv zeta. eapply snd_conseq; [apply cond_reduce_snd with (K := Ka + (Z.of_nat (overflows b) + 1) + 1)|].
    intros r Hr E3 E2 E1 E0 [= -> -> -> ->] HKa _ HK Ba Bb.
    destruct Ba as (Ba0 & Ba1 & Ba2 & Ba3), Bb as (Bb0 & Bb1 & Bb2 & Bb3).
    pose proof (zv_rng N HN w (l0 a)). pose proof (zv_rng N HN w (l1 a)). pose proof (zv_rng N HN w (l2 a)). pose proof (zv_rng N HN w (l3 a)).
    pose proof (zv_rng N HN w (l0 b)). pose proof (zv_rng N HN w (l1 b)). pose proof (zv_rng N HN w (l2 b)). pose proof (zv_rng N HN w (l3 b)).
    specialize (E0 ltac:(apply (small_fr _ (Ka + (Z.of_nat (overflows b) + 1) + 1)); lia)).
    specialize (E1 ltac:(apply (small_fr _ (Ka + (Z.of_nat (overflows b) + 1) + 1)); lia)).
    specialize (E2 ltac:(apply (small_fr _ (Ka + (Z.of_nat (overflows b) + 1) + 1)); lia)).
    specialize (E3 ltac:(apply (small_fr _ (Ka + (Z.of_nat (overflows b) + 1) + 1)); lia)).
    cbn [overflows] in Hr. refine (_ (Hr ltac:(lia) _ I)).
    - assert (Ev : fv W w (AI a0 a1 a2 a3 None (overflows a + (overflows b + 1) + 1)) = fsub (fv W w a) (fv W w b)).
      { transitivity (ofZ (iv w a - iv w b) : W); [|unfold fv; apply ofZ_sub].
        apply fv_lin. unfold iv, lv4. cbn [l0 l1 l2 l3]. rewrite E0, E1, E2, E3.
        destruct Hdiv as [q Hq]. exists q. lia. }
      rewrite Ev. trivial.
    - unfold bnd. cbn [l0 l1 l2 l3]. rewrite E0, E1, E2, E3. lia.
  Qed.

  Lemma int_neg_snd w a :
    snd_ w (int_neg W a) (fun r =>
      let K := Z.of_nat (overflows a) + 1 in
      (overflows a < 64)%nat -> bnd w a K ->
      res w r (K + 1) (overflows a + 1) (fopp (fv W w a))).
  Proof.
    unfold int_neg. rewrite find_fw.
    destruct (Nat.ltb_spec (overflows a) 64) as [Hov|Hov].
    2:{ intros c r c' H Hs. destruct (fw fq_mod (overflows a)) as [[[[u0 u1] u2] u3]|]; [|discriminate].
        assert (Hg : snd_ w (opt (Some (u0, u1, u2, u3)) : B N _) (fun _ => True)) by now apply snd_ret.
        revert c r c' H Hs. apply (snd_bind N w _ _ _ _ Hg). intros [[[v0 v1] v2] v3].
        do 4 (eapply snd_bind; [apply sum_with_constant_snd|]; intro).
        eapply snd_conseq; [apply cond_reduce_snd with (K := 0)|]. intros; lia. }
    destruct (fw_spec _ Hov) as (u0 & u1 & u2 & u3 & -> & B0 & B1 & B2 & B3 & Hdiv).
    eapply snd_bind; [apply snd_ret with (P := fun u => u = (u0, u1, u2, u3)); reflexivity|].
    intros [[[v0 v1] v2] v3].
    do 4 (eapply snd_bind; [apply neg_limb_snd|]; intro).
    cbv zeta. eapply snd_conseq; [apply cond_reduce_snd with (K := Z.of_nat (overflows a) + 1 + 1)|].
    intros r Hr E3 E2 E1 E0 [= -> -> -> ->] _ Ba.
    destruct Ba as (Ba0 & Ba1 & Ba2 & Ba3).
    pose proof (zv_rng N HN w (l0 a)). pose proof (zv_rng N HN w (l1 a)). pose proof (zv_rng N HN w (l2 a)). pose proof (zv_rng N HN w (l3 a)).
    specialize (E0 ltac:(apply (small_fr _ (Z.of_nat (overflows a) + 1 + 1)); lia)).
    specialize (E1 ltac:(apply (small_fr _ (Z.of_nat (overflows a) + 1 + 1)); lia)).
    specialize (E2 ltac:(apply (small_fr _ (Z.of_nat (overflows a) + 1 + 1)); lia)).
    specialize (E3 ltac:(apply (small_fr _ (Z.of_nat (overflows a) + 1 + 1)); lia)).
    cbn [overflows] in Hr. refine (_ (Hr ltac:(lia) _ I)).
    - assert (Ev : fv W w (AI a0 a1 a2 a3 None (overflows a + 1)) = fopp (fv W w a)).
      { transitivity (ofZ (- iv w a) : W); [|unfold fv; apply ofZ_opp].
        apply fv_lin. unfold iv, lv4. cbn [l0 l1 l2 l3]. rewrite E0, E1, E2, E3.
        destruct Hdiv as [q Hq]. exists q. lia. }
      rewrite Ev. trivial.
    - unfold bnd. cbn [l0 l1 l2 l3]. rewrite E0, E1, E2, E3. lia.
  Qed.

  (** *** zero tests *)
  (** a boolean cell deciding a proposition *)
  Definition flag w (x : aval N) (P : Prop) : Prop := (P -> w (av_cell x) = f1) /\ (~ P -> w (av_cell x) = f0).
  Lemma flag_iff w x P Q : (P <-> Q) -> flag w x P -> flag w x Q.
  Proof. intros H [H1 H2]. split; intro; [apply H1|apply H2]; tauto. Qed.

  Lemma flag_or w r x y P Q : P \/ ~ P -> Q \/ ~ Q -> flag w x P -> flag w y Q ->
    w (av_cell r) = fsub (fadd (w (av_cell x)) (w (av_cell y))) (fmul (w (av_cell x)) (w (av_cell y))) -> flag w r (P \/ Q).
  Proof.
    intros [p|p] [q|q] [P1 P2] [Q1 Q2] E; unfold flag; rewrite E; split; intro H; try tauto.
    - rewrite (P1 p). ring.
    - rewrite (P1 p). ring.
    - rewrite (Q1 q). ring.
    - rewrite (P2 p), (Q2 q). ring.
  Qed.
  Lemma Z_eq_em (x y : Z) : x = y \/ x <> y.
  Proof. destruct (Z.eq_dec x y); auto. Qed.
  Lemma is_pure_zero_snd w a K :
    snd_ w (is_pure_zero a) (fun r => 0 <= K <= 128 -> bnd w a K -> flag w r (iv w a = 0)).
  Proof.
    unfold is_pure_zero. eapply snd_bind; [apply sum_with_constant_snd|]. intro s.
    eapply snd_conseq; [apply is_zero_snd|]. intros r [H1 H2] E HK (B0 & B1 & B2 & B3).
    pose proof (zv_rng N HN w (l0 a)). pose proof (zv_rng N HN w (l1 a)). pose proof (zv_rng N HN w (l2 a)). pose proof (zv_rng N HN w (l3 a)).
    assert (Es : w (av_cell s) = ofZ (zv w (l0 a) + zv w (l1 a) + zv w (l2 a) + zv w (l3 a))).
    { rewrite E. cbn [lsum]. rewrite !(wcell N w), !ofZ_add. ring. }
    assert (Hs : w (av_cell s) = f0 <-> iv w a = 0).
    { rewrite Es. unfold iv, lv4. split; intro Hz.
      - rewrite <- ofZ_0 in Hz. apply ofZ_inj_small in Hz; rewrite ?HN; unfold fr_mod in *; lia.
      - replace (zv w (l0 a) + zv w (l1 a) + zv w (l2 a) + zv w (l3 a)) with 0 by lia. apply ofZ_0. }
    split; intro Hz; [apply H1|apply H2]; tauto.
  Qed.

  Lemma and_snd w (a b : aval N) : snd_ w (and_ a b) (fun r => w (av_cell r) = fmul (w (av_cell a)) (w (av_cell b))).
  Proof. apply mul_snd. Qed.

  (** a = w mod n and limb 0 agrees, with a below 128 * 2^254: then a = w *)
  Lemma pure_w_exact A A0 x : 0 <= A <= 128 * (2 ^ 254 - 1) -> A = A0 + x * 2 ^ 68 ->
    (fr_mod | A - fq_mod) -> A0 = bn_limb 0 fq_mod -> A = fq_mod.
  Proof.
    intros HA Hx [q Hq] H0.
    assert (Hd : (2 ^ 68 | q)).
    { apply Gauss with (b := fr_mod).
      - exists (x - fq_mod / 2 ^ 68). rewrite Z.mul_comm, <- Hq, Hx, H0.
        change fq_mod with (bn_limb 0 fq_mod + fq_mod / 2 ^ 68 * 2 ^ 68) at 2.
        ring.
      - apply Zgcd_1_rel_prime. vm_compute. reflexivity. }
    destruct Hd as [k ->]. unfold fr_mod, fq_mod in *. lia.
  Qed.


  Lemma is_pure_w_snd w a K :
    snd_ w (is_pure_w_modulus W a) (fun r => 0 <= K <= 128 -> bnd w a K -> natok w a ->
      flag w (fst r) (iv w a = fq_mod /\ zv w (l0 a) = bn_limb 0 fq_mod) /\ same a (snd r) /\ natok w (snd r)).
  Proof.
    unfold is_pure_w_modulus. eapply snd_bind; [apply (native_snd N)|]. intro an.
    eapply snd_bind; [apply sum_with_constant_snd|]. intro nd.
    eapply snd_bind; [apply is_zero_snd|]. intro f1'.
    eapply snd_bind; [apply sum_with_constant_snd|]. intro ld.
    eapply snd_bind; [apply is_zero_snd|]. intro f2.
    eapply snd_bind; [apply and_snd|]. intro r. apply snd_ret. cbn [fst snd].
    intros Er [F3 F4] El [F1 F2] En Hn HK Ba na. destruct (Hn na) as (Ea & Sa & Na & _).
    split; [|split; assumption].
    assert (E0 : l0 (snd an) = l0 a) by apply Sa. rewrite E0 in *.
    cbn [lsum] in En, El. rewrite Ea, (w_native_eq N W HN HW) in En. unfold w_modulus in El. rewrite HW in El.
    rewrite (wcell N w (l0 a)) in El.
    pose proof (iv_bnd _ _ _ _ Ba) as HB. pose proof (iv_nonneg N HN w a) as HB0.
    assert (Hnd : w (av_cell nd) = f0 <-> (fr_mod | iv w a - fq_mod)).
    { assert (E : w (av_cell nd) = ofZ (iv w a - fq_mod)) by (rewrite En, ofZ_sub; ring).
      rewrite E. split; [apply (lift_eq0 N HN)|]. intros [q ->]. rewrite <- ofZ_0. apply ofZ_eq.
      rewrite HN, Z_mod_mult. reflexivity. }
    assert (Hld : w (av_cell ld) = f0 <-> zv w (l0 a) = bn_limb 0 fq_mod).
    { assert (E : w (av_cell ld) = ofZ (zv w (l0 a) - bn_limb 0 fq_mod)) by (rewrite El, ofZ_sub; ring).
      pose proof (zv_rng N HN w (l0 a)).
      rewrite E. split; intro H1.
      - apply (lift_small N HN) in H1; [lia|]. destruct Ba as (Ba0 & _). change (bn_limb 0 fq_mod) with (fq_mod mod 2 ^ 68).
        pose proof (Z.mod_pos_bound fq_mod (2 ^ 68) ltac:(lia)). unfold fr_mod in *. lia.
      - rewrite H1, Z.sub_diag. apply ofZ_0. }
    assert (Hboth : (iv w a = fq_mod /\ zv w (l0 a) = bn_limb 0 fq_mod) <-> w (av_cell nd) = f0 /\ w (av_cell ld) = f0).
    { rewrite Hnd, Hld. split.
      - intros [H1 H2]. split; [|exact H2]. rewrite H1. exists 0. lia.
      - intros [H1 H2]. split; [|exact H2].
        apply (pure_w_exact _ (zv w (l0 a)) (zv w (l1 a) + zv w (l2 a) * 2 ^ 68 + zv w (l3 a) * 2 ^ 136)); auto; [lia|].
        unfold iv, lv4. ring. }
    split; intro H1.
    - apply Hboth in H1. destruct H1 as [H1 H2]. rewrite Er, (F1 H1), (F3 H2). ring.
    - rewrite Er. destruct (feq_dec (w (av_cell nd)) f0) as [Ha|Ha].
      + assert (Hb : w (av_cell ld) <> f0) by (intro; apply H1, Hboth; auto). rewrite (F4 Hb). ring.
      + rewrite (F2 Ha). ring.
  Qed.

  Definition zform w a : Prop := iv w a = 0 \/ (iv w a = fq_mod /\ zv w (l0 a) = bn_limb 0 fq_mod).
  Lemma zform_0 w a : zform w a -> fv W w a = f0.
  Proof. intro H. apply (fv_0 N W HW). destruct H as [->|[-> _]]; [exists 0|exists 1]; ring. Qed.
  Lemma zform_iff w a : bnd w a 1 -> (zform w a <-> fv W w a = f0).
  Proof.
    intro B. split; [apply zform_0|]. intro H. apply (fv_0 N W HW) in H. destruct H as [q Hq].
    pose proof (iv_bnd _ _ _ _ B) as HB. pose proof (iv_nonneg N HN w a) as HB0.
    assert (Hq' : q = 0 \/ q = 1) by (rewrite Hq in HB, HB0; unfold fq_mod in *; lia).
    destruct Hq' as [->| ->]; [left; lia|right]. rewrite Z.mul_1_l in Hq. split; [exact Hq|].
    destruct B as (B0 & _). pose proof (zv_rng N HN w (l0 a)).
    change (bn_limb 0 fq_mod) with (fq_mod mod 2 ^ 68). rewrite <- Hq. unfold iv, lv4.
    replace (zv w (l0 a) + zv w (l1 a) * 2 ^ 68 + zv w (l2 a) * 2 ^ 136 + zv w (l3 a) * 2 ^ 204)
      with (zv w (l0 a) + (zv w (l1 a) + zv w (l2 a) * 2 ^ 68 + zv w (l3 a) * 2 ^ 136) * 2 ^ 68) by ring.
    rewrite Z_mod_plus_full, Z.mod_small; lia.
  Qed.
  Lemma zform_same w a a' : same a a' -> zform w a' <-> zform w a.
  Proof. intro S. unfold zform. rewrite (same_iv N w a a' S). destruct S as (-> & _). reflexivity. Qed.

  (** what a reduced operand looks like *)
  Definition reduced w a a' K : Prop :=
    fv W w a' = fv W w a /\ natok w a' /\ overflows a' = 0%nat /\ bnd w a' K /\
    (overflows a = 0%nat -> same a a') /\ (overflows a <> 0%nat -> bnd w a' 1).
  Lemma reduce_snd' w a K :
    snd_ w (int_reduce W a) (fun r => 1 <= K <= 128 -> bnd w a K -> natok w a -> reduced w a r K).
  Proof.
    eapply snd_conseq; [apply (reduce_snd N W HN HW) with (K := K)|]. intros r H HK Ba na.
    destruct (H ltac:(lia) Ba na) as (E & Hn & Ho & H1 & H2). unfold reduced. repeat (split; [assumption|]).
    destruct (Nat.eq_dec (overflows a) 0) as [Z0|Z0].
    - rewrite (H1 Z0). repeat split; auto; try tauto; apply Ba.
    - split; [apply (bnd_le N w r 1); [lia|auto]|]. split; [tauto|auto].
  Qed.
  Lemma reduced_same w a a' a'' K : reduced w a a' K -> same a' a'' -> natok w a'' -> reduced w a a'' K.
  Proof.
    intros (E & Hn & Ho & Hb & Hs & H1) S n''. unfold reduced.
    split; [rewrite (same_fv N W w a' a'' S); exact E|]. split; [assumption|].
    split; [transitivity (overflows a'); [apply S|assumption]|].
    split; [apply (same_bnd N w a' a'' K S Hb)|]. split.
    - intro Z0. specialize (Hs Z0). destruct S as (? & ? & ? & ? & ?), Hs as (? & ? & ? & ? & ?).
      repeat split; congruence.
    - intro Z0. apply (same_bnd N w a' a'' 1 S); auto.
  Qed.

  Lemma int_is_zero_snd w a K :
    snd_ w (int_is_zero W a) (fun r => 1 <= K <= 128 -> bnd w a K -> natok w a ->
      flag w (fst r) (zform w (snd r)) /\ reduced w a (snd r) K).
  Proof.
    unfold int_is_zero. eapply snd_bind; [apply reduce_snd' with (K := K)|]. intro a'.
    eapply snd_bind; [apply is_pure_zero_snd with (K := K)|]. intro z.
    eapply snd_bind; [apply is_pure_w_snd with (K := K)|]. intro wa.
    eapply snd_bind; [apply or_snd|]. intro r. apply snd_ret. cbn [fst snd].
    intros Er Hw Hz Hr HK Ba na. specialize (Hr HK Ba na). pose proof Hr as (_ & Hn & _ & Hb & _).
    destruct (Hz ltac:(lia) Hb) as [Z1 Z2]. destruct (Hw ltac:(lia) Hb Hn) as ([W1 W2] & S & n'').
    split; [|apply (reduced_same _ _ _ _ _ Hr S n'')].
    apply (flag_iff w r (zform w a')); [symmetry; now apply zform_same|].
    apply (flag_or w r z (fst wa)); [apply Z_eq_em| |now split|now split|exact Er].
    destruct (Z.eq_dec (iv w a') fq_mod) as [e|e]; [|right; intros [e' _]; auto].
    destruct (Z.eq_dec (zv w (l0 a')) (bn_limb 0 fq_mod)) as [e1|e1]; [left; now split|right; intros [_ e']; auto].
  Qed.

  (** *** equality tests *)
  Lemma res_cases w r K ov v : res w r K ov v -> (0 < ov)%nat -> 1 <= K ->
    fv W w r = v /\ natok w r /\ bnd w r K /\ (overflows r = 0%nat -> bnd w r 1).
  Proof.
    intros (E & Hn & [(Ho & H32 & Hb)|(Ho & H32 & Hb)]) Hov HK;
      (split; [assumption|]); (split; [assumption|]); (split; [|intro Hz]); auto.
    - lia.
    - apply (bnd_le N w r 1); assumption.
  Qed.
  Lemma feq_sub (x y : W) : fsub x y = f0 <-> x = y.
  Proof. split; [intro H|intros ->; ring]. transitivity (fadd (fsub x y) y); [ring|rewrite H; ring]. Qed.

  Lemma int_is_equal_snd w a b Ka :
    snd_ w (int_is_equal W a b) (fun r =>
      let Kb := Z.of_nat (overflows b) + 1 in
      0 <= Ka -> (overflows b < 64)%nat -> Ka + Kb + 1 <= 128 -> bnd w a Ka -> bnd w b Kb ->
      flag w r (fv W w a = fv W w b)).
  Proof.
    unfold int_is_equal. eapply snd_bind; [apply int_sub_snd with (Ka := Ka)|]. intro df. cbv zeta.
    eapply snd_bind; [apply int_is_zero_snd with (K := Ka + (Z.of_nat (overflows b) + 1) + 1)|]. intro r.
    apply snd_ret. intros Hz Hd HKa Hob HK Ba Bb.
    destruct (res_cases _ _ _ _ _ (Hd HKa Hob HK Ba Bb) ltac:(lia) ltac:(lia)) as (E & Hn & Hb & H1).
    destruct (Hz ltac:(lia) Hb Hn) as (F & Ev & _ & Ho & Hb' & Hs & H1'). refine (flag_iff w (fst r) _ _ _ F).
    rewrite zform_iff.
    - rewrite Ev, E. apply feq_sub.
    - destruct (Nat.eq_dec (overflows df) 0) as [Z0|Z0]; [apply (same_bnd N w df); auto|auto].
  Qed.

  Lemma zero_exact A A0 x : 0 <= A <= 2 ^ 254 - 1 -> A = A0 + x * 2 ^ 68 -> (fr_mod | A) -> A0 = 0 -> A = 0.
  Proof.
    intros HA Hx [q Hq] ->.
    assert (Hd : (2 ^ 68 | q)).
    { apply Gauss with (b := fr_mod); [exists x; lia|]. apply Zgcd_1_rel_prime. vm_compute. reflexivity. }
    destruct Hd as [k ->]. unfold fr_mod in *. lia.
  Qed.
  Lemma int_assert_equal_snd w a b Ka :
    snd_ w (int_assert_equal W a b) (fun _ =>
      let Kb := Z.of_nat (overflows b) + 1 in
      0 <= Ka -> (overflows b < 64)%nat -> Ka + Kb + 1 <= 128 -> bnd w a Ka -> bnd w b Kb ->
      fv W w a = fv W w b).
  Proof.
    unfold int_assert_equal. eapply snd_bind; [apply int_sub_snd with (Ka := Ka)|]. intro df. cbv zeta.
    eapply snd_bind; [apply reduce_snd' with (K := Ka + (Z.of_nat (overflows b) + 1) + 1)|]. intro d'.
    eapply snd_bind; [apply (native_snd N)|]. intro dn.
    eapply snd_bind; [apply assert_constant_snd|]. intro u.
    eapply snd_conseq; [apply assert_constant_snd|]. intros u' E0 En Hn' Hr Hd HKa Hob HK Ba Bb.
    destruct (res_cases _ _ _ _ _ (Hd HKa Hob HK Ba Bb) ltac:(lia) ltac:(lia)) as (E & Hn & Hb & H1).
    destruct (Hr ltac:(lia) Hb Hn) as (Ev & n' & Ho & Hb' & Hs & H1').
    assert (B1 : bnd w d' 1).
    { destruct (Nat.eq_dec (overflows df) 0) as [Z0|Z0]; [apply (same_bnd N w df); auto|auto]. }
    destruct (Hn' n') as (Ed & S & _ & _). rewrite Ed in En. apply (lift_eq0 N HN) in En.
    destruct S as (El0 & _). rewrite El0, (wcell N w) in E0. apply (lift_small N HN) in E0;
      [|pose proof (zv_rng N HN w (l0 d')); lia].
    pose proof (iv_bnd _ _ _ _ B1) as HB. pose proof (iv_nonneg N HN w d') as HB0.
    apply feq_sub. rewrite <- E, <- Ev. apply zform_0. left.
    apply (zero_exact _ (zv w (l0 d')) (zv w (l1 d') + zv w (l2 d') * 2 ^ 68 + zv w (l3 d') * 2 ^ 136)); [lia| |exact En|exact E0].
    unfold iv, lv4. ring.
  Qed.

  (** *** division *)
  Lemma int_div_snd w a b Ka Kb :
    snd_ w (int_div W a b) (fun r =>
      let '(z, q, a', b') := r in
      1 <= Ka <= 128 -> 1 <= Kb <= 128 -> bnd w a Ka -> bnd w b Kb -> natok w a -> natok w b ->
      flag w z (zform w b') /\ reduced w a a' Ka /\ reduced w b b' Kb /\
      bnd w q 1 /\ overflows q = 0%nat /\ natok w q /\
      (~ zform w b' -> fmul (fv W w q) (fv W w b) = fv W w a)).
  Proof.
    unfold int_div. eapply snd_bind; [apply int_is_zero_snd with (K := Kb)|]. intros [z b0]. cbn [fst snd].
    eapply snd_bind; [apply not_snd|]. intro co.
    eapply snd_bind; [apply reduce_snd' with (K := Ka)|]. intro a'.
    eapply snd_bind; [apply mul_snd|]; intro y0. eapply snd_bind; [apply mul_snd|]; intro y1.
    eapply snd_bind; [apply mul_snd|]; intro y2. eapply snd_bind; [apply mul_snd|]; intro y3.
    cbv zeta.
    match goal with |- snd_ _ (bind (guard ?g) _) _ => destruct g end.
    2:{ intros c r c' H. discriminate H. }
    eapply snd_bind; [apply snd_ret with (P := fun _ : unit => True); exact I|]. intros [].
    eapply snd_bind; [apply (assign_w_snd N W HN HW)|]. intro q.
    eapply snd_bind; [apply (assign_d_snd N W HN HW)|]. intro d.
    eapply snd_bind; [apply (mul_limbs_snd N W HN HW) with (Ka := Kb) (Kb := 1) (Kr := Ka)|]. intro u.
    eapply snd_bind; [apply (mul_native_snd N W HN HW)|]. intros [[b1 q1] a1].
    apply snd_ret. intros Hmn Hml Hd (Hq & Hq0 & Hqn) _ E3 E2 E1 E0 Hr Hco Hz HKa HKb Ba Bb na nb.
    destruct (Hz HKb Bb nb) as (F & Rb). specialize (Hr HKa Ba na).
    pose proof Rb as (Eb & nb0 & Hob & Bb0 & _). pose proof Hr as (Ea & na' & Hoa & Ba' & _).
    assert (nq : natok w q) by (unfold natok; now rewrite Hqn).
    set (ra := AI y0 y1 y2 y3 None (overflows a')) in *.
    destruct (Hmn nb0 nq I) as (Sb & nb1 & Sq & nq1 & Sa & na1 & Hnat).
    assert (Fz : flag w z (zform w b1)) by (apply (flag_iff w z (zform w b0)); [symmetry; now apply zform_same|exact F]).
    split; [exact Fz|]. split; [exact Hr|]. split; [apply (reduced_same _ _ _ _ _ Rb Sb nb1)|].
    split; [apply (same_bnd N w q q1 1 Sq Hq)|]. split; [transitivity (overflows q); [apply Sq|assumption]|].
    split; [exact nq1|]. intro Hnz. destruct Fz as [_ Fz]. specialize (Fz Hnz).
    assert (Hone : w (av_cell co) = f1) by (rewrite Hco, Fz; ring).
    assert (L0 : zv w y0 = zv w (l0 a')) by (unfold IntegerFacts.zv; rewrite E0, Hone; f_equal; ring).
    assert (L1 : zv w y1 = zv w (l1 a')) by (unfold IntegerFacts.zv; rewrite E1, Hone; f_equal; ring).
    assert (L2 : zv w y2 = zv w (l2 a')) by (unfold IntegerFacts.zv; rewrite E2, Hone; f_equal; ring).
    assert (L3 : zv w y3 = zv w (l3 a')) by (unfold IntegerFacts.zv; rewrite E3, Hone; f_equal; ring).
    assert (Bra : bnd w ra Ka) by (unfold ra, bnd; cbn [l0 l1 l2 l3]; rewrite L0, L1, L2, L3; exact Ba').
    assert (Era : iv w ra = iv w a') by (unfold ra, iv, lv4; cbn [l0 l1 l2 l3]; rewrite L0, L1, L2, L3; reflexivity).
    specialize (Hml ltac:(lia) ltac:(lia) ltac:(lia) Bb0 Hq Bra Hd).
    assert (Hex : iv w b0 * iv w q = dv w d * fq_mod + iv w ra).
    { apply (mul_exact _ _ _ _ Kb 1 Ka); auto; try lia; [| | |].
      - split; [apply (iv_nonneg N HN)|now apply iv_bnd].
      - split; [apply (iv_nonneg N HN)|now apply iv_bnd].
      - now apply (dv_bnd N HN).
      - split; [apply (iv_nonneg N HN)|now apply iv_bnd]. }
    apply (fv_mul N W HW) in Hex. rewrite <- Ea, <- Eb. unfold fv at 3. rewrite <- Era. fold (fv W w ra). rewrite Hex.
    rewrite (same_fv N W w q q1 Sq). ring.
  Qed.

  (** *** constants, small multiples, selection, parity *)
  Lemma int_assign_constant_snd w (v : W) :
    snd_ w (int_assign_constant v) (fun r => wfi w r /\ overflows r = 0%nat /\ fv W w r = v /\ iv w r = toZ v).
  Proof.
    unfold int_assign_constant. do 4 (eapply snd_bind; [apply assign_constant_snd|]; intro).
    apply snd_ret. intros E3 E2 E1 E0.
    pose proof (toZ_range W v) as Hv. rewrite HW in Hv.
    pose proof (bn_limb_lo (toZ v) 0 ltac:(lia)) as B0. pose proof (bn_limb_lo (toZ v) 1 ltac:(lia)) as B1.
    pose proof (bn_limb_lo (toZ v) 2 ltac:(lia)) as B2.
    pose proof (bn_limb_hi (toZ v) 50 ltac:(lia) ltac:(unfold fq_mod in Hv; lia)) as B3.
    apply zv_eq in E0; [|unfold fr_mod; lia]. apply zv_eq in E1; [|unfold fr_mod; lia].
    apply zv_eq in E2; [|unfold fr_mod; lia]. apply zv_eq in E3; [|unfold fr_mod; lia].
    assert (Ei : iv w (AI a a0 a1 a2 None 0) = toZ v).
    { unfold iv, lv4. cbn [l0 l1 l2 l3]. rewrite E0, E1, E2, E3. symmetry. apply bn_limb_sum. lia. }
    split; [split; [|exact I]|].
    - unfold bnd. cbn [l0 l1 l2 l3 overflows]. rewrite E0, E1, E2, E3. lia.
    - split; [reflexivity|]. split; [|exact Ei]. unfold fv. rewrite Ei. apply ofZ_toZ.
  Qed.

  Lemma scale_limb_snd w x (b : Z) (K : Z) :
    snd_ w (sum_with_constant [(x, ofZ b)] f0) (fun r =>
      0 <= b -> zv w x <= K * (2 ^ 68 - 1) -> 0 <= K * b <= 128 -> zv w r = b * zv w x).
  Proof.
    eapply snd_conseq; [apply sum_with_constant_snd|]. intros r E Hb Hx HK.
    pose proof (zv_rng N HN w x) as H0. apply zv_eq.
    - rewrite E. cbn [lsum]. rewrite !(wcell N w), ofZ_mul. ring.
    - assert (b * zv w x <= b * (K * (2 ^ 68 - 1))) by (apply Z.mul_le_mono_nonneg_l; lia).
      split; [apply Z.mul_nonneg_nonneg; lia|].
      replace (b * (K * (2 ^ 68 - 1))) with ((K * b) * (2 ^ 68 - 1)) in * by ring. unfold fr_mod. lia.
  Qed.

  Lemma mul_small_constant_snd w a (b : nat) K :
    snd_ w (mul_small_constant W a b) (fun r =>
      let K' := if (64 <=? overflows a * b)%nat then 1 else K in
      1 <= K <= 128 -> K' * Z.of_nat b <= 128 -> bnd w a K -> natok w a ->
      res w (fst r) (K' * Z.of_nat b) (overflows (snd r) * b) (fmul (ofZ (Z.of_nat b)) (fv W w a)) /\
      (if (64 <=? overflows a * b)%nat then reduced w a (snd r) K else snd r = a)).
  Proof.
    unfold mul_small_constant. destruct (b <? OVERFLOW_LIMIT)%nat eqn:Hb64; [|intros c r c' H; discriminate H].
    eapply snd_bind; [apply snd_ret with (P := fun _ : unit => True); exact I|]. intros [].
    change OVERFLOW_LIMIT with 64%nat.
    apply (snd_bind N w _ _ (fun a' => 1 <= K <= 128 -> bnd w a K -> natok w a ->
      natok w a' /\ fv W w a' = fv W w a /\ bnd w a' (if (64 <=? overflows a * b)%nat then 1 else K) /\
      (if (64 <=? overflows a * b)%nat then reduced w a a' K else a' = a))).
    { destruct (64 <=? overflows a * b)%nat eqn:Hc.
      - eapply snd_conseq; [apply reduce_snd' with (K := K)|]. intros r H HK Ba na.
        pose proof (H HK Ba na) as R. destruct R as (E & Hn & Ho & _ & _ & H1).
        split; [assumption|]. split; [assumption|]. split; [|auto].
        apply H1. apply Nat.leb_le in Hc. intro Z0. rewrite Z0 in Hc. lia.
      - apply snd_ret. intros HK Ba na. auto. }
    intro a'. cbv zeta. set (K' := if (64 <=? overflows a * b)%nat then 1 else K).
    do 4 (eapply snd_bind; [apply scale_limb_snd with (K := K')|]; intro).
    eapply snd_bind; [apply cond_reduce_snd with (K := K' * Z.of_nat b)|]. intro r.
    apply snd_ret. cbn [fst snd]. intros Hr E3 E2 E1 E0 Ha' _ HK HKb Ba na.
    destruct (Ha' HK Ba na) as (na' & Ea' & Ba' & Hc). split; [|exact Hc].
    fold K' in Ba'. assert (HK0 : 0 <= K') by (unfold K'; destruct (64 <=? overflows a * b)%nat; lia).
    destruct Ba' as (B0 & B1 & B2 & B3).
    pose proof (zv_rng N HN w (l0 a')). pose proof (zv_rng N HN w (l1 a')).
    pose proof (zv_rng N HN w (l2 a')). pose proof (zv_rng N HN w (l3 a')).
    pose proof (Nat2Z.is_nonneg b) as Hb0.
    assert (Hkb : 0 <= K' * Z.of_nat b <= 128) by (split; [apply Z.mul_nonneg_nonneg; lia|exact HKb]).
    specialize (E0 Hb0 B0 Hkb). specialize (E1 Hb0 B1 Hkb). specialize (E2 Hb0 B2 Hkb).
    specialize (E3 Hb0 ltac:(lia) Hkb).
    cbn [overflows] in Hr. refine (_ (Hr ltac:(lia) _ I)).
    - assert (Ev : fv W w (AI a0 a1 a2 a3 None (overflows a' * b)) = fmul (ofZ (Z.of_nat b)) (fv W w a)).
      { rewrite <- Ea'. unfold fv, iv, lv4. cbn [l0 l1 l2 l3]. rewrite E0, E1, E2, E3, <- ofZ_mul. f_equal. ring. }
      rewrite Ev. trivial.
    - unfold bnd. cbn [l0 l1 l2 l3]. rewrite E0, E1, E2, E3.
      rewrite (Z.mul_comm K'), <- !Z.mul_assoc.
      repeat split; apply Z.mul_le_mono_nonneg_l; assumption.
  Qed.

  (** same limb values *)
  Definition lsame w (r a : aint N) : Prop :=
    zv w (l0 r) = zv w (l0 a) /\ zv w (l1 r) = zv w (l1 a) /\ zv w (l2 r) = zv w (l2 a) /\ zv w (l3 r) = zv w (l3 a).
  Lemma lsame_iv w r a : lsame w r a -> iv w r = iv w a.
  Proof. intros (H0 & H1 & H2 & H3). unfold iv, lv4. now rewrite H0, H1, H2, H3. Qed.
  Lemma lsame_fv w r a : lsame w r a -> fv W w r = fv W w a.
  Proof. intro H. unfold fv. now rewrite (lsame_iv _ _ _ H). Qed.
  Lemma lsame_bnd w r a K : lsame w r a -> bnd w a K -> bnd w r K.
  Proof. intros (H0 & H1 & H2 & H3). unfold bnd. now rewrite H0, H1, H2, H3. Qed.

  Lemma int_bisec_snd w s a b :
    snd_ w (int_bisec s a b) (fun r =>
      overflows r = Nat.max (overflows a) (overflows b) /\ natok w r /\
      (w (av_cell s) = f1 -> lsame w r a) /\ (w (av_cell s) = f0 -> lsame w r b)).
  Proof.
    unfold int_bisec. do 4 (eapply snd_bind; [apply bisec_snd|]; intro). apply snd_ret.
    intros E3 E2 E1 E0. unfold natok, lsame. cbn [overflows native_of l0 l1 l2 l3]. split.
    - destruct (Nat.ltb_spec (overflows b) (overflows a)); lia.
    - split; [exact I|]. unfold IntegerFacts.zv. rewrite E0, E1, E2, E3.
      split; intros ->; repeat split; f_equal; ring.
  Qed.

  Lemma snd_assoc {A B C} w (m : Gate.B N A) (f : A -> Gate.B N B) (k : B -> Gate.B N C) P :
    snd_ w (bind (bind m f) k) P -> snd_ w (bind m (fun x => bind (f x) k)) P.
  Proof.
    intros H c r c' E. apply (H c). unfold bind in *. destruct (m c) as [[x c1]|]; [|discriminate].
    exact E.
  Qed.

  (** the bit is the parity of the integer denoted by the limbs *)
  Lemma get_last_bit_snd w a K :
    snd_ w (get_last_bit a) (fun r => 0 <= K <= 128 -> bnd w a K -> zv w r = iv w a mod 2).
  Proof.
    unfold get_last_bit. eapply snd_bind; [apply (nonleading_snd N HN)|]. intro d. cbv zeta.
    set (bit := if Z.odd (toZ (av_val (l0 a))) then f1 else f0 : N).
    apply snd_assoc.
    apply (snd_bind N w _ _ (fun r => fadd (fmul (ofZ 2) (w (av_cell d))) (w (av_cell r)) = w (av_cell (l0 a)))).
    { row_snd. refine (eq_by N f1 _ _ _ Hrow _). ring. }
    intro r. eapply snd_bind; [apply assert_bit_snd|]. intros []. apply snd_ret.
    intros Hbit E Hd HK (B0 & _). pose proof (zv_rng N HN w d) as Rd. pose proof (zv_rng N HN w (l0 a)) as Ra.
    assert (Hr : zv w r = 0 \/ zv w r = 1).
    { unfold IntegerFacts.zv. destruct Hbit as [-> | ->]; [left|right]; [apply toZ_0|apply toZ_1]. }
    assert (E' : zv w (l0 a) = 2 * zv w d + zv w r).
    { apply zv_eq; [|unfold fr_mod; lia]. rewrite <- E, ofZ_add, ofZ_mul, <- !(wcell N w). reflexivity. }
    unfold iv, lv4. rewrite E'.
    replace (2 * zv w d + zv w r + zv w (l1 a) * 2 ^ 68 + zv w (l2 a) * 2 ^ 136 + zv w (l3 a) * 2 ^ 204)
      with (zv w r + (zv w d + zv w (l1 a) * 2 ^ 67 + zv w (l2 a) * 2 ^ 135 + zv w (l3 a) * 2 ^ 203) * 2) by ring.
    rewrite Z_mod_plus_full. rewrite Z.mod_small; lia.
  Qed.
End Ops.
