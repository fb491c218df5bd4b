(** The soundness of the integer operations restated on field elements: [holds_int
    w a v] says that integer [a] represents [v] within its recorded bounds. *)
From Coq Require Import ZArith Arith Lia List Bool Ring Field.
From Verif Require Import Util Algebra PField Gate GateProofs GateOps RangeProofs Integer Bn254 IntegerFacts IntegerSound IntegerOps IntegerHistorySound.
Import ListNotations.
Local Open Scope Z_scope.

Section Value.
  Variables N W : PF.
  Hypothesis HN : pf_n N = fr_mod.
  Hypothesis HW : pf_n W = fq_mod.
  Add Field NF : (f_th N).
  Add Field WF : (f_th W).
  Implicit Types (w : asg N) (a b : aint N).
  Local Notation holds_int := (holds_int N W).
  Local Notation holds_bit := (holds_bit N).
  Local Notation holds_K := (holds_K N W).

  Lemma vassign w (v : W) : snd_ w (assign_w v) (fun r => exists x, holds_int w r x).
  Proof.
    eapply snd_conseq; [apply (assign_w_snd N W HN HW)|]. intros r (Br & Or & Hn). exists (fv W w r).
    apply canon_holds; auto. unfold natok. now rewrite Hn.
  Qed.
  Lemma vconst w (v : W) : snd_ w (int_assign_constant v) (fun r => holds_int w r v).
  Proof.
    eapply snd_conseq; [apply (int_assign_constant_snd N W HN HW)|]. intros r ([Br Hn] & Or & Ev & _).
    split; [assumption|]. split; [split; assumption|lia].
  Qed.
  Lemma vadd w a b : snd_ w (int_add W a b) (fun r => forall x y, holds_int w a x -> holds_int w b y -> holds_int w r (fadd x y)).
  Proof.
    eapply snd_conseq; [apply (int_add_snd N W HN HW) with (Ka := Z.of_nat (overflows a) + 1) (Kb := Z.of_nat (overflows b) + 1)|].
    intros r Hr x y Hx Hy.
    destruct (holds_K _ _ _ Hx) as (Kx & Bx & nx & Fx). destruct (holds_K _ _ _ Hy) as (Ky & By & ny & Fy).
    specialize (Hr ltac:(lia) ltac:(lia) ltac:(lia) Bx By). rewrite Fx, Fy in Hr.
    apply (res_holds N W _ _ (overflows a + overflows b + 1)).
    replace (Z.of_nat (overflows a + overflows b + 1) + 1) with (Z.of_nat (overflows a) + 1 + (Z.of_nat (overflows b) + 1)) by lia. exact Hr.
  Qed.
  Lemma vsub w a b : snd_ w (int_sub W a b) (fun r => forall x y, holds_int w a x -> holds_int w b y -> holds_int w r (fsub x y)).
  Proof.
    eapply snd_conseq; [apply (int_sub_snd N W HN HW) with (Ka := Z.of_nat (overflows a) + 1)|]. cbv zeta.
    intros r Hr x y Hx Hy.
    destruct (holds_K _ _ _ Hx) as (Kx & Bx & nx & Fx). destruct (holds_K _ _ _ Hy) as (Ky & By & ny & Fy).
    specialize (Hr ltac:(lia) ltac:(lia) ltac:(lia) Bx By). rewrite Fx, Fy in Hr.
    apply (res_holds N W _ _ (overflows a + (overflows b + 1) + 1)).
    replace (Z.of_nat (overflows a + (overflows b + 1) + 1) + 1) with (Z.of_nat (overflows a) + 1 + (Z.of_nat (overflows b) + 1) + 1) by lia. exact Hr.
  Qed.
  Lemma vneg w a : snd_ w (int_neg W a) (fun r => forall x, holds_int w a x -> holds_int w r (fopp x)).
  Proof.
    eapply snd_conseq; [apply (int_neg_snd N W HN HW)|]. cbv zeta. intros r Hr x Hx.
    destruct (holds_K _ _ _ Hx) as (Kx & Bx & nx & Fx). specialize (Hr ltac:(lia) Bx). rewrite Fx in Hr.
    apply (res_holds N W _ _ (overflows a + 1)).
    replace (Z.of_nat (overflows a + 1) + 1) with (Z.of_nat (overflows a) + 1 + 1) by lia. exact Hr.
  Qed.
  Lemma vmul w a b : snd_ w (int_mul W a b) (fun r => forall x y, holds_int w a x -> holds_int w b y ->
    let '(p, a', b') := r in holds_int w p (fmul x y) /\ holds_int w a' x /\ holds_int w b' y).
  Proof.
    eapply snd_conseq; [apply (int_mul_snd N W HN HW) with (Ka := Z.of_nat (overflows a) + 1) (Kb := Z.of_nat (overflows b) + 1)|].
    intros [[p a'] b'] Hr x y Hx Hy.
    destruct (holds_K _ _ _ Hx) as (Kx & Bx & nx & Fx). destruct (holds_K _ _ _ Hy) as (Ky & By & ny & Fy).
    destruct (Hr ltac:(lia) ltac:(lia) Bx By nx ny) as (Bp & Op & np & Fp & Sa & na' & Sb & nb'). rewrite Fx, Fy in Fp.
    split; [now apply canon_holds|]. split; [now apply (same_holds N W w a)|now apply (same_holds N W w b)].
  Qed.
  Lemma vsquare w a : snd_ w (int_square W a) (fun r => forall x, holds_int w a x ->
    let '(p, a') := r in holds_int w p (fmul x x) /\ bnd w p 1 /\ overflows p = 0%nat /\ holds_int w a' x).
  Proof.
    eapply snd_conseq; [apply (int_square_snd N W HN HW) with (Ka := Z.of_nat (overflows a) + 1)|].
    intros [p a'] Hr x Hx. destruct (holds_K _ _ _ Hx) as (Kx & Bx & nx & Fx).
    destruct (Hr ltac:(lia) Bx nx) as (Bp & Op & np & Fp & Sa & na'). rewrite Fx in Fp.
    split; [now apply canon_holds|]. split; [assumption|]. split; [assumption|now apply (same_holds N W w a)].
  Qed.
  Lemma vdiv w a b : snd_ w (int_div W a b) (fun r => forall x y, holds_int w a x -> holds_int w b y ->
    let '(z, q, a', b') := r in exists v bz, holds_int w q v /\ holds_bit w z bz /\ (bz = true <-> y = f0) /\
      (y <> f0 -> fmul v y = x) /\ holds_int w a' x /\ holds_int w b' y).
  Proof.
    eapply snd_conseq; [apply (int_div_snd N W HN HW) with (Ka := Z.of_nat (overflows a) + 1) (Kb := Z.of_nat (overflows b) + 1)|].
    intros [[[z q] a'] b'] Hr x y Hx Hy.
    destruct (holds_K _ _ _ Hx) as (Kx & Bx & nx & Fx). destruct (holds_K _ _ _ Hy) as (Ky & By & ny & Fy).
    destruct (Hr ltac:(lia) ltac:(lia) Bx By nx ny) as (F & Ra & Rb & Bq & Oq & nq & Hq).
    destruct (reduced_holds N W _ _ _ _ _ Hx Ra) as [Hx' _]. destruct (reduced_holds N W _ _ _ _ _ Hy Rb) as [Hy' By1].
    pose proof (zform_iff N W HN HW w b' By1) as Zf. pose proof Hy' as (Ey' & _). rewrite Ey' in Zf. rewrite Fx, Fy in Hq.
    destruct (flag_bit N w z _ (W_em W y f0) (flag_iff N w z _ _ Zf F)) as (bz & Hz & Hzi).
    exists (fv W w q), bz. split; [now apply canon_holds|]. split; [assumption|]. split; [assumption|].
    split; [|now split]. intro Hne. apply Hq. intro H. apply Hne. now apply Zf.
  Qed.
  Lemma vis_zero w a : snd_ w (int_is_zero W a) (fun r => forall x, holds_int w a x ->
    exists bz, holds_bit w (fst r) bz /\ (bz = true <-> x = f0) /\ holds_int w (snd r) x).
  Proof.
    eapply snd_conseq; [apply (int_is_zero_snd N W HN HW) with (K := Z.of_nat (overflows a) + 1)|]. intros [z a'] Hr x Hx. cbn [fst snd] in *.
    destruct (holds_K _ _ _ Hx) as (Kx & Bx & nx & Fx).
    destruct (Hr ltac:(lia) Bx nx) as (F & Ra). destruct (reduced_holds N W _ _ _ _ _ Hx Ra) as [Hx' B1].
    pose proof (zform_iff N W HN HW w a' B1) as Zf. pose proof Hx' as (Ex' & _). rewrite Ex' in Zf.
    destruct (flag_bit N w z _ (W_em W x f0) (flag_iff N w z _ _ Zf F)) as (bz & Hz & Hzi).
    exists bz. auto.
  Qed.
  Lemma vis_equal w a b : snd_ w (int_is_equal W a b) (fun r => forall x y, holds_int w a x -> holds_int w b y ->
    exists bz, holds_bit w r bz /\ (bz = true <-> x = y)).
  Proof.
    eapply snd_conseq; [apply (int_is_equal_snd N W HN HW) with (Ka := Z.of_nat (overflows a) + 1)|]. cbv zeta. intros r Hr x y Hx Hy.
    destruct (holds_K _ _ _ Hx) as (Kx & Bx & nx & Fx). destruct (holds_K _ _ _ Hy) as (Ky & By & ny & Fy).
    specialize (Hr ltac:(lia) ltac:(lia) ltac:(lia) Bx By). rewrite Fx, Fy in Hr.
    exact (flag_bit N w r _ (W_em W x y) Hr).
  Qed.
  Lemma vreduce w a : snd_ w (int_reduce W a) (fun r => forall x, holds_int w a x -> holds_int w r x /\ overflows r = 0%nat).
  Proof.
    eapply snd_conseq; [apply (reduce_snd' N W HN HW) with (K := Z.of_nat (overflows a) + 1)|]. intros r Hr x Hx.
    destruct (holds_K _ _ _ Hx) as (Kx & Bx & nx & Fx). specialize (Hr ltac:(lia) Bx nx).
    split; [exact (proj1 (reduced_holds N W _ _ _ _ _ Hx Hr))|apply Hr].
  Qed.
  Lemma vbisec w s a b : snd_ w (int_bisec s a b) (fun r => overflows r = Nat.max (overflows a) (overflows b) /\ forall z x y, holds_bit w s z -> holds_int w a x -> holds_int w b y ->
    holds_int w r (if z then x else y)).
  Proof.
    eapply snd_conseq; [apply (int_bisec_snd N)|]. intros r (Or & nr & R1 & R0). split; [exact Or|]. intros z x y Hz (Fx & [Bx nx] & Ox) (Fy & [By ny] & Oy).
    unfold IntegerHistorySound.holds_int, wfi. rewrite Or. unfold IntegerHistorySound.holds_bit in Hz. destruct z.
    + specialize (R1 Hz). split; [now rewrite (lsame_fv N W w r a R1)|]. split; [|lia]. split; [|assumption].
      apply (lsame_bnd N w r a _ R1). apply (bnd_le N w a (Z.of_nat (overflows a) + 1)); [lia|assumption].
    + specialize (R0 Hz). split; [now rewrite (lsame_fv N W w r b R0)|]. split; [|lia]. split; [|assumption].
      apply (lsame_bnd N w r b _ R0). apply (bnd_le N w b (Z.of_nat (overflows b) + 1)); [lia|assumption].
  Qed.

  (** the conditions of the base gate *)
  Lemma bit_and w x y : snd_ w (and_ x y) (fun r => forall p q, holds_bit w x p -> holds_bit w y q -> holds_bit w r (p && q)).
  Proof.
    eapply snd_conseq; [apply (and_snd N)|]. unfold IntegerHistorySound.holds_bit. intros r E p q Hp Hq. rewrite E, Hp, Hq.
    destruct p, q; cbn; ring.
  Qed.
  Lemma bit_or w x y : snd_ w (or_ x y) (fun r => forall p q, holds_bit w x p -> holds_bit w y q -> holds_bit w r (p || q)).
  Proof.
    eapply snd_conseq; [apply (or_snd N)|]. unfold IntegerHistorySound.holds_bit. intros r E p q Hp Hq. rewrite E, Hp, Hq.
    destruct p, q; cbn; ring.
  Qed.
  Lemma bit_xnor w x y : snd_ w (xnor_ x y) (fun r => forall p q, holds_bit w x p -> holds_bit w y q -> holds_bit w r (Bool.eqb p q)).
  Proof.
    eapply snd_conseq; [apply (xnor_snd N)|]. unfold IntegerHistorySound.holds_bit. intros r E p q Hp Hq. rewrite E, Hp, Hq.
    destruct p, q; cbn; ring.
  Qed.
  Lemma bit_bisec w s x y : snd_ w (bisec s x y) (fun r => forall z p q, holds_bit w s z -> holds_bit w x p -> holds_bit w y q ->
    holds_bit w r (if z then p else q)).
  Proof.
    eapply snd_conseq; [apply (bisec_snd N)|]. unfold IntegerHistorySound.holds_bit. intros r E z p q Hz Hp Hq. rewrite E, Hz, Hp, Hq.
    destruct z, p, q; cbn; ring.
  Qed.
  Lemma bit_inj w x p q : holds_bit w x p -> holds_bit w x q -> p = q.
  Proof.
    unfold IntegerHistorySound.holds_bit. intros -> H. destruct p, q; auto; exfalso; [|symmetry in H]; now apply (f1_neq_0 N).
  Qed.
  Lemma int_inj w a x y : holds_int w a x -> holds_int w a y -> x = y.
  Proof. intros [<- _] [<- _]. reflexivity. Qed.
End Value.
