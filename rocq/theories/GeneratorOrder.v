(** The generator (1, 2) of BN254 G1 has order [fr_mod].  Models no code; it shows
    that the order hypothesis of the scalar multiplication theorems is met. *)
From Coq Require Import ZArith NArith Lia List Ring Field Bool.
From Verif Require Import Util Algebra PField Bn254 Curve CurveAssoc Bn254Curve EccHistory GeneratorCert.
Import ListNotations.
Local Open Scope Z_scope.

(** [(k, x, y)] stands for [k * (1, 2) = (x, y)]. *)
Fixpoint walk (p : Z) (l : list (bool * Z * Z * Z * Z)) (k x y : Z) : option (Z * Z * Z) :=
  match l with
  | [] => Some (k, x, y)
  | (add, s, q1, q2, q3) :: l =>
      let '(n, d, x2, k') := if add then (y - 2, x - 1, 1, k + 1) else (3 * x * x, 2 * y, x, 2 * k) in
      if (s * d =? n + q1 * p) && (negb add || ((2 <=? x) && (x <? p))) then
        let x' := s * s - x - x2 - q2 * p in
        let y' := s * (x - x') - y - q3 * p in
        walk p l k' x' y'
      else None
  end.

Section Order.
  Variable W : PF.
  Hypothesis HW : pf_n W = fq_mod.
  Add Field WF : (f_th W).
  Definition G : point W := Aff (ofZ 1) (ofZ 2).
  Local Notation bb := (ofZ 3 : W).

  Lemma G_on : on_curve bb G.
  Proof. cbn. rewrite <- !ofZ_mul, <- ofZ_add. reflexivity. Qed.
  Lemma p_0 : @ofZ W fq_mod = f0.
  Proof. rewrite <- ofZ_0. apply ofZ_eq. rewrite HW. reflexivity. Qed.
  Lemma drop_p a k : @ofZ W (a - k * fq_mod) = ofZ a.
  Proof. rewrite ofZ_sub, ofZ_mul, p_0. ring. Qed.
  Lemma drop_p' a k : @ofZ W (a + k * fq_mod) = ofZ a.
  Proof. rewrite ofZ_add, ofZ_mul, p_0. ring. Qed.
  Lemma two : @ofZ W 2 = fadd f1 f1. Proof. change 2 with (1 + 1). now rewrite ofZ_add, ofZ_1. Qed.
  Lemma three : @ofZ W 3 = fadd (fadd f1 f1) f1. Proof. change 3 with (1 + 1 + 1). now rewrite !ofZ_add, ofZ_1. Qed.

  Lemma third_ofZ s x y x2 q2 q3 : third (ofZ s) (ofZ x) (ofZ y) (@ofZ W x2) =
    let x' := s * s - x - x2 - q2 * fq_mod in Aff (ofZ x') (ofZ (s * (x - x') - y - q3 * fq_mod)).
  Proof.
    unfold third. cbv zeta. rewrite !drop_p. rewrite !ofZ_sub, !ofZ_mul, (ofZ_sub W x), drop_p, !ofZ_sub, !ofZ_mul. reflexivity.
  Qed.

  Lemma walk_ok l : forall k x y k' x' y', 0 <= k -> walk fq_mod l k x y = Some (k', x', y') ->
    smul (Z.to_N k) G = Aff (ofZ x) (ofZ y) -> 0 <= k' /\ smul (Z.to_N k') G = Aff (ofZ x') (ofZ y').
  Proof.
    induction l as [|[[[[add s] q1] q2] q3] l IH]; intros k x y k' x' y' Hk H E; cbn [walk] in H; [injection H as <- <- <-; auto|].
    assert (OP : on_curve bb (Aff (ofZ x) (ofZ y))) by (rewrite <- E; apply (smul_on W bb); exact G_on).
    destruct add; cbv zeta iota in H.
    - destruct (s * (x - 1) =? y - 2 + q1 * fq_mod) eqn:E1; [|discriminate]. destruct ((2 <=? x) && (x <? fq_mod)) eqn:E2; [|discriminate].
      apply Z.eqb_eq in E1. apply andb_prop in E2. destruct E2 as [E2 E3]. apply Z.leb_le in E2. apply Z.ltb_lt in E3.
      apply IH in H; [exact H|lia|]. assert (Hx : @ofZ W x <> ofZ 1).
      { intro F. apply ofZ_eq in F. rewrite HW, !Z.mod_small in F by (unfold fq_mod in *; lia). lia. }
      rewrite Z2N.inj_add by lia. rewrite (smul_add W bb (two_neq0 W HW) (no_ordinate_0 W HW)) by exact G_on. rewrite E, (smul_1 W).
      assert (El : fmul (ofZ s) (fsub (ofZ x) (ofZ 1)) = fsub (ofZ y) (@ofZ W 2)).
      { rewrite <- !ofZ_sub, <- ofZ_mul, E1. apply drop_p'. }
      unfold G. rewrite (line_padd W bb (two_neq0 W HW) (no_ordinate_0 W HW) (ofZ s)); [apply third_ofZ|exact OP|exact G_on|tauto|].
      split; [now rewrite El|]. apply (chord_slope W bb _ _ _ _ (ofZ 2)); auto. exact G_on.
    - destruct (s * (2 * y) =? 3 * x * x + q1 * fq_mod) eqn:E1; [|discriminate]. apply Z.eqb_eq in E1. cbn [negb orb andb] in H.
      apply IH in H; [exact H|lia|].
      rewrite Z2N.inj_mul by lia. rewrite <- (smul_double W bb (two_neq0 W HW) (no_ordinate_0 W HW)) by exact G_on. rewrite E.
      assert (El : fmul (ofZ s) (fmul (fadd f1 f1) (ofZ y)) = fmul (fmul (fadd (fadd f1 f1) f1) (ofZ x)) (@ofZ W x)).
      { rewrite <- three, <- two, <- !ofZ_mul, E1. apply drop_p'. }
      rewrite (line_padd W bb (two_neq0 W HW) (no_ordinate_0 W HW) (ofZ s)); [apply third_ofZ|exact OP|exact OP| |].
      + intros [_ F]. apply (double_nz W (two_neq0 W HW) _ (no_ordinate_0 W HW _ _ OP)). rewrite <- F. ring.
      + split; [ring|]. now apply tangent_slope.
  Qed.
End Order.

Lemma order_chain_ok : walk fq_mod order_chain 1 1 2 = Some (fr_mod - 1, 1, fq_mod - 2).
Proof. vm_compute. reflexivity. Qed.

Lemma generator_order (W : PF) : pf_n W = fq_mod -> in_group (G W).
Proof.
  intro HW. split; [apply G_on|].
  destruct (walk_ok W HW order_chain 1 1 2 _ _ _ ltac:(lia) order_chain_ok) as [_ H]; [apply (CurveAssoc.smul_1 W)|].
  replace (Z.to_N fr_mod) with (1 + Z.to_N (fr_mod - 1))%N by (unfold fr_mod; lia).
  rewrite (smul_add W (ofZ 3) (two_neq0 W HW) (no_ordinate_0 W HW)) by apply G_on. rewrite H, (CurveAssoc.smul_1 W).
  transitivity (padd (G W) (pneg (G W))); [f_equal|apply (padd_neg W (ofZ 3)); apply G_on].
  cbn [pneg G]. f_equal. rewrite ofZ_sub, (p_0 W HW). destruct (f_th W) as [R _ _ _]. destruct R. rewrite Rsub_def. apply Radd_0_l.
Qed.
