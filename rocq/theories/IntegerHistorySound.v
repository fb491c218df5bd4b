(** Soundness of every history of integer-chip operations. *)
From Coq Require Import ZArith Arith Lia List Bool Ring Field.
From Verif Require Import Util Algebra PField Gate GateProofs GateOps RangeProofs Integer Bn254 IntegerFacts IntegerSound IntegerOps IntegerHistory.
Import ListNotations.
Local Open Scope Z_scope.

Lemma upd_length {A} (l : list A) i x : length (upd l i x) = length l.
Proof. revert i. induction l; intros [|i]; cbn; auto. Qed.
Lemma Forall2_app1 {A B} (R : A -> B -> Prop) l m x y : Forall2 R l m -> R x y -> Forall2 R (l ++ [x]) (m ++ [y]).
Proof. intros. apply Forall2_app; auto. Qed.
Lemma Forall2_upd {A B} (R : A -> B -> Prop) l m i x y : Forall2 R l m -> nth_error m i = Some y -> R x y -> Forall2 R (upd l i x) m.
Proof.
  intros H. revert i. induction H as [|a b l m Hab H IH]; intros i E Hr; [constructor|].
  destruct i as [|i]; cbn in *; [injection E as ->; auto|auto].
Qed.
Lemma Forall2_nth_l {A B} (R : A -> B -> Prop) l m i x : Forall2 R l m -> nth_error l i = Some x -> exists y, nth_error m i = Some y /\ R x y.
Proof.
  intros H. revert i. induction H as [|a b l m Hab H IH]; intros [|i] E; try discriminate; cbn in *; [injection E as ->; eauto|auto].
Qed.
Lemma Forall2_nth_r {A B} (R : A -> B -> Prop) l m i y : Forall2 R l m -> nth_error m i = Some y -> exists x, nth_error l i = Some x /\ R x y.
Proof.
  intros H. revert i. induction H as [|a b l m Hab H IH]; intros [|i] E; try discriminate; cbn in *; [injection E as ->; eauto|auto].
Qed.

Section Sound.
  Variables N W : PF.
  Hypothesis HN : pf_n N = fr_mod.
  Hypothesis HW : pf_n W = fq_mod.
  Add Field NF : (f_th N).
  Add Field WF : (f_th W).
  Implicit Types (w : asg N) (a b : aint N).

  (** a register holds the field element [v], within the recorded bounds *)
  Definition holds_int w a (v : W) : Prop := fv W w a = v /\ wfi w a /\ (overflows a < 32)%nat.
  Definition holds_bit w (f : aval N) (z : bool) : Prop := w (av_cell f) = if z then f1 else f0.
  Definition matches w (e : @regs N) (s : fstate W) : Prop :=
    Forall2 (holds_int w) (fst e) (fst s) /\ Forall2 (holds_bit w) (snd e) (snd s).

  Lemma snd_at w {A} (l : list A) i (P : A -> Prop) : (forall x, nth_error l i = Some x -> P x) -> snd_ w (at_ l i) P.
  Proof. intros H c r c' E. unfold at_ in E. destruct (nth_error l i) as [x|]; [|discriminate]. injection E as <- <-. auto. Qed.
  Lemma flag_bit w x (P : Prop) : P \/ ~ P -> flag N w x P -> exists z, holds_bit w x z /\ (z = true <-> P).
  Proof.
    intros [p|p] [H1 H2]; [exists true|exists false]; (split; [unfold holds_bit; auto|]); split; intro H; try tauto; try discriminate.
  Qed.
  Lemma res_holds w r ov v : res N W w r (Z.of_nat ov + 1) ov v -> holds_int w r v.
  Proof. intro H. destruct (res_wfi N W w r _ _ _ H eq_refl) as (H1 & H2 & H3). split; auto. Qed.
  Lemma canon_holds w r v : fv W w r = v -> bnd w r 1 -> overflows r = 0%nat -> natok w r -> holds_int w r v.
  Proof. intros E Bd O Hn. split; [assumption|]. unfold wfi. rewrite O. split; [split; assumption|lia]. Qed.
  Lemma same_holds w a a' v : holds_int w a v -> same a a' -> natok w a' -> holds_int w a' v.
  Proof.
    intros (E & [Bd Hn] & O) S n'. split; [now rewrite (same_fv N W w a a' S)|]. assert (Eo : overflows a' = overflows a) by apply S.
    unfold wfi. rewrite Eo. split; [split; [now apply (same_bnd N w a)|assumption]|assumption].
  Qed.
  Lemma reduced_holds w a a' K v : holds_int w a v -> reduced N W w a a' K -> holds_int w a' v /\ bnd w a' 1.
  Proof.
    intros (E & [Bd Hn] & O) (E' & n' & O' & _ & HS & H1).
    assert (B1 : bnd w a' 1).
    { destruct (Nat.eq_dec (overflows a) 0) as [Z0|Z0]; [|auto]. rewrite Z0 in Bd. apply (same_bnd N w a a'); auto. }
    split; [|assumption]. apply canon_holds; auto. congruence.
  Qed.
  Lemma W_em (x y : W) : x = y \/ x <> y.
  Proof. destruct (feq_dec x y); auto. Qed.

  Lemma holds_K w a v : holds_int w a v -> 1 <= Z.of_nat (overflows a) + 1 <= 32 /\ bnd w a (Z.of_nat (overflows a) + 1) /\ natok w a /\ fv W w a = v.
  Proof. intros (E & [Bd Hn] & O). repeat (split; [first [assumption|lia]|]). assumption. Qed.

  Lemma run_op_snd w o e : small_ok o ->
    snd_ w (run_op W o e) (fun e' => forall s, matches w e s -> exists s', fstep o s s' /\ matches w e' s').
  Proof.
    destruct e as [is fs]. unfold matches. intro Ho. destruct o as [v|v|i j|i j|i|i j|i|i j|i|i|i|i j|i j|k i j|i|i b]; cbn [run_op].
    - (* assign *) eapply snd_bind; [apply (assign_w_snd N W HN HW)|]. intro r. apply snd_ret. intros (Br & Or & Hn) [vs bs] [Hi Hf]. cbn [fst snd] in *.
      exists (vs ++ [fv W w r], bs). split; [constructor|]. split; [|assumption]. apply Forall2_app1; [assumption|].
      apply canon_holds; auto. unfold natok. now rewrite Hn.
    - (* constant *) eapply snd_bind; [apply (int_assign_constant_snd N W HN HW)|]. intro r. apply snd_ret. intros ([Br Hn] & Or & Ev & _) [vs bs] [Hi Hf]. cbn [fst snd] in *.
      exists (vs ++ [v], bs). split; [constructor|]. split; [|assumption]. apply Forall2_app1; [assumption|].
      split; [assumption|]. split; [split; assumption|lia].
    - (* add *) eapply snd_bind; [apply snd_at with (P := fun a => nth_error is i = Some a); auto|]. intro a.
      eapply snd_bind; [apply snd_at with (P := fun a => nth_error is j = Some a); auto|]. intro b.
      eapply snd_bind; [apply (int_add_snd N W HN HW) with (Ka := Z.of_nat (overflows a) + 1) (Kb := Z.of_nat (overflows b) + 1)|]. intro r.
      apply snd_ret. intros Hr Ej Ei [vs bs] [Hi Hf]. cbn [fst snd] in *.
      destruct (Forall2_nth_l _ _ _ _ _ Hi Ei) as (x & Ex & Hx). destruct (Forall2_nth_l _ _ _ _ _ Hi Ej) as (y & Ey & Hy).
      destruct (holds_K _ _ _ Hx) as (Kx & Bx & nx & Fx). destruct (holds_K _ _ _ Hy) as (Ky & By & ny & Fy).
      exists (vs ++ [fadd x y], bs). split; [now apply FAdd|]. split; [|assumption]. apply Forall2_app1; [assumption|].
      specialize (Hr ltac:(lia) ltac:(lia) ltac:(lia) Bx By). rewrite Fx, Fy in Hr.
      apply (res_holds _ _ (overflows a + overflows b + 1)).
      replace (Z.of_nat (overflows a + overflows b + 1) + 1) with (Z.of_nat (overflows a) + 1 + (Z.of_nat (overflows b) + 1)) by lia. exact Hr.
    - (* sub *) eapply snd_bind; [apply snd_at with (P := fun a => nth_error is i = Some a); auto|]. intro a.
      eapply snd_bind; [apply snd_at with (P := fun a => nth_error is j = Some a); auto|]. intro b.
      eapply snd_bind; [apply (int_sub_snd N W HN HW) with (Ka := Z.of_nat (overflows a) + 1)|]. intro r.
      apply snd_ret. intros Hr Ej Ei [vs bs] [Hi Hf]. cbn [fst snd] in *.
      destruct (Forall2_nth_l _ _ _ _ _ Hi Ei) as (x & Ex & Hx). destruct (Forall2_nth_l _ _ _ _ _ Hi Ej) as (y & Ey & Hy).
      destruct (holds_K _ _ _ Hx) as (Kx & Bx & nx & Fx). destruct (holds_K _ _ _ Hy) as (Ky & By & ny & Fy).
      exists (vs ++ [fsub x y], bs). split; [now apply FSub|]. split; [|assumption]. apply Forall2_app1; [assumption|].
      specialize (Hr ltac:(lia) ltac:(lia) ltac:(lia) Bx By). rewrite Fx, Fy in Hr.
      apply (res_holds _ _ (overflows a + (overflows b + 1) + 1)).
      replace (Z.of_nat (overflows a + (overflows b + 1) + 1) + 1) with (Z.of_nat (overflows a) + 1 + (Z.of_nat (overflows b) + 1) + 1) by lia. exact Hr.
    - (* neg *) eapply snd_bind; [apply snd_at with (P := fun a => nth_error is i = Some a); auto|]. intro a.
      eapply snd_bind; [apply (int_neg_snd N W HN HW)|]. intro r.
      apply snd_ret. intros Hr Ei [vs bs] [Hi Hf]. cbn [fst snd] in *.
      destruct (Forall2_nth_l _ _ _ _ _ Hi Ei) as (x & Ex & Hx). destruct (holds_K _ _ _ Hx) as (Kx & Bx & nx & Fx).
      exists (vs ++ [fopp x], bs). split; [now apply FNeg|]. split; [|assumption]. apply Forall2_app1; [assumption|].
      specialize (Hr ltac:(lia) Bx). rewrite Fx in Hr. apply (res_holds _ _ (overflows a + 1)).
      replace (Z.of_nat (overflows a + 1) + 1) with (Z.of_nat (overflows a) + 1 + 1) by lia. exact Hr.
    - (* mul *) eapply snd_bind; [apply snd_at with (P := fun a => nth_error is i = Some a); auto|]. intro a.
      eapply snd_bind; [apply snd_at with (P := fun a => nth_error is j = Some a); auto|]. intro b.
      eapply snd_bind; [apply (int_mul_snd N W HN HW) with (Ka := Z.of_nat (overflows a) + 1) (Kb := Z.of_nat (overflows b) + 1)|]. intros [[p a'] b'].
      apply snd_ret. intros Hr Ej Ei [vs bs] [Hi Hf]. cbn [fst snd] in *.
      destruct (Forall2_nth_l _ _ _ _ _ Hi Ei) as (x & Ex & Hx). destruct (Forall2_nth_l _ _ _ _ _ Hi Ej) as (y & Ey & Hy).
      destruct (holds_K _ _ _ Hx) as (Kx & Bx & nx & Fx). destruct (holds_K _ _ _ Hy) as (Ky & By & ny & Fy).
      destruct (Hr ltac:(lia) ltac:(lia) Bx By nx ny) as (Bp & Op & np & Fp & Sa & na' & Sb & nb'). rewrite Fx, Fy in Fp.
      exists (vs ++ [fmul x y], bs). split; [now apply FMul|]. split; [|assumption]. apply Forall2_app1; [|now apply canon_holds].
      apply (Forall2_upd _ _ _ _ _ y); [|assumption|now apply (same_holds w b)].
      apply (Forall2_upd _ _ _ _ _ x); [assumption|assumption|now apply (same_holds w a)].
    - (* square *) eapply snd_bind; [apply snd_at with (P := fun a => nth_error is i = Some a); auto|]. intro a.
      eapply snd_bind; [apply (int_square_snd N W HN HW) with (Ka := Z.of_nat (overflows a) + 1)|]. intros [p a'].
      apply snd_ret. intros Hr Ei [vs bs] [Hi Hf]. cbn [fst snd] in *.
      destruct (Forall2_nth_l _ _ _ _ _ Hi Ei) as (x & Ex & Hx). destruct (holds_K _ _ _ Hx) as (Kx & Bx & nx & Fx).
      destruct (Hr ltac:(lia) Bx nx) as (Bp & Op & np & Fp & Sa & na'). rewrite Fx in Fp.
      exists (vs ++ [fmul x x], bs). split; [now apply FSquare|]. split; [|assumption]. apply Forall2_app1; [|now apply canon_holds].
      apply (Forall2_upd _ _ _ _ _ x); [assumption|assumption|now apply (same_holds w a)].
    - (* div *) eapply snd_bind; [apply snd_at with (P := fun a => nth_error is i = Some a); auto|]. intro a.
      eapply snd_bind; [apply snd_at with (P := fun a => nth_error is j = Some a); auto|]. intro b.
      eapply snd_bind; [apply (int_div_snd N W HN HW) with (Ka := Z.of_nat (overflows a) + 1) (Kb := Z.of_nat (overflows b) + 1)|]. intros [[[z q] a'] b'].
      apply snd_ret. intros Hr Ej Ei [vs bs] [Hi Hf]. cbn [fst snd] in *.
      destruct (Forall2_nth_l _ _ _ _ _ Hi Ei) as (x & Ex & Hx). destruct (Forall2_nth_l _ _ _ _ _ Hi Ej) as (y & Ey & Hy).
      destruct (holds_K _ _ _ Hx) as (Kx & Bx & nx & Fx). destruct (holds_K _ _ _ Hy) as (Ky & By & ny & Fy).
      destruct (Hr ltac:(lia) ltac:(lia) Bx By nx ny) as (F & Ra & Rb & Bq & Oq & nq & Hq).
      destruct (reduced_holds _ _ _ _ _ Hx Ra) as [Hx' _]. destruct (reduced_holds _ _ _ _ _ Hy Rb) as [Hy' By1].
      pose proof (zform_iff N W HN HW w b' By1) as Zf. destruct Hy' as (Ey' & Hy'). rewrite Ey' in Zf. rewrite Fx, Fy in Hq.
      destruct (flag_bit w z _ (W_em y f0) (flag_iff N w z _ _ Zf F)) as (bz & Hz & Hzi).
      exists (vs ++ [fv W w q], bs ++ [bz]). split.
      { apply FDiv with (x := x) (y := y); auto. intro Hne. apply Hq. intro H. apply Hne. now apply Zf. }
      split; [|now apply Forall2_app1]. apply Forall2_app1; [|now apply canon_holds].
      apply (Forall2_upd _ _ _ _ _ y); [|assumption|now split].
      apply (Forall2_upd _ _ _ _ _ x); assumption.
    - (* reduce *) eapply snd_bind; [apply snd_at with (P := fun a => nth_error is i = Some a); auto|]. intro a.
      eapply snd_bind; [apply (reduce_snd' N W HN HW) with (K := Z.of_nat (overflows a) + 1)|]. intros r.
      apply snd_ret. intros Hr Ei [vs bs] [Hi Hf]. cbn [fst snd] in *.
      destruct (Forall2_nth_l _ _ _ _ _ Hi Ei) as (x & Ex & Hx). destruct (holds_K _ _ _ Hx) as (Kx & Bx & nx & Fx).
      destruct (reduced_holds _ _ _ _ _ Hx (Hr ltac:(lia) Bx nx)) as [Hx' _].
      exists (vs, bs). split; [now apply (FReduce W i x)|]. split; [|assumption]. now apply (Forall2_upd _ _ _ _ _ x).
    - (* native *) eapply snd_bind; [apply snd_at with (P := fun a => nth_error is i = Some a); auto|]. intro a.
      eapply snd_bind; [apply (native_snd N)|]. intros r.
      apply snd_ret. intros Hr Ei [vs bs] [Hi Hf]. cbn [fst snd] in *.
      destruct (Forall2_nth_l _ _ _ _ _ Hi Ei) as (x & Ex & Hx). destruct (holds_K _ _ _ Hx) as (Kx & Bx & nx & Fx).
      destruct (Hr nx) as (H1 & H2 & H3).
      exists (vs, bs). split; [now apply (FNative W i x)|]. split; [|assumption]. apply (Forall2_upd _ _ _ _ _ x); [assumption|assumption|].
      now apply (same_holds w a).
    - (* is_zero *) eapply snd_bind; [apply snd_at with (P := fun a => nth_error is i = Some a); auto|]. intro a.
      eapply snd_bind; [apply (int_is_zero_snd N W HN HW) with (K := Z.of_nat (overflows a) + 1)|]. intros [z a'].
      apply snd_ret. intros Hr Ei [vs bs] [Hi Hf]. cbn [fst snd] in *.
      destruct (Forall2_nth_l _ _ _ _ _ Hi Ei) as (x & Ex & Hx). destruct (holds_K _ _ _ Hx) as (Kx & Bx & nx & Fx).
      destruct (Hr ltac:(lia) Bx nx) as (F & Ra). destruct (reduced_holds _ _ _ _ _ Hx Ra) as [Hx' B1].
      pose proof (zform_iff N W HN HW w a' B1) as Zf. pose proof Hx' as (Ex' & _). rewrite Ex' in Zf.
      destruct (flag_bit w z _ (W_em x f0) (flag_iff N w z _ _ Zf F)) as (bz & Hz & Hzi).
      exists (vs, bs ++ [bz]). split; [now apply (FIsZero W i x)|]. split; [|now apply Forall2_app1]. now apply (Forall2_upd _ _ _ _ _ x).
    - (* is_equal *) eapply snd_bind; [apply snd_at with (P := fun a => nth_error is i = Some a); auto|]. intro a.
      eapply snd_bind; [apply snd_at with (P := fun a => nth_error is j = Some a); auto|]. intro b.
      eapply snd_bind; [apply (int_is_equal_snd N W HN HW) with (Ka := Z.of_nat (overflows a) + 1)|]. intro r.
      apply snd_ret. intros Hr Ej Ei [vs bs] [Hi Hf]. cbn [fst snd] in *.
      destruct (Forall2_nth_l _ _ _ _ _ Hi Ei) as (x & Ex & Hx). destruct (Forall2_nth_l _ _ _ _ _ Hi Ej) as (y & Ey & Hy).
      destruct (holds_K _ _ _ Hx) as (Kx & Bx & nx & Fx). destruct (holds_K _ _ _ Hy) as (Ky & By & ny & Fy).
      specialize (Hr ltac:(lia) ltac:(lia) ltac:(lia) Bx By). rewrite Fx, Fy in Hr.
      destruct (flag_bit w r _ (W_em x y) Hr) as (bz & Hz & Hzi).
      exists (vs, bs ++ [bz]). split; [now apply (FIsEqual W i j x y)|]. split; [assumption|now apply Forall2_app1].
    - (* assert_equal *) eapply snd_bind; [apply snd_at with (P := fun a => nth_error is i = Some a); auto|]. intro a.
      eapply snd_bind; [apply snd_at with (P := fun a => nth_error is j = Some a); auto|]. intro b.
      eapply snd_bind; [apply (int_assert_equal_snd N W HN HW) with (Ka := Z.of_nat (overflows a) + 1)|]. intro r.
      apply snd_ret. intros Hr Ej Ei [vs bs] [Hi Hf]. cbn [fst snd] in *.
      destruct (Forall2_nth_l _ _ _ _ _ Hi Ei) as (x & Ex & Hx). destruct (Forall2_nth_l _ _ _ _ _ Hi Ej) as (y & Ey & Hy).
      destruct (holds_K _ _ _ Hx) as (Kx & Bx & nx & Fx). destruct (holds_K _ _ _ Hy) as (Ky & By & ny & Fy).
      specialize (Hr ltac:(lia) ltac:(lia) ltac:(lia) Bx By). rewrite Fx, Fy in Hr. subst y.
      exists (vs, bs). split; [now apply (FAssertEqual W i j x)|]. split; assumption.
    - (* bisec *) eapply snd_bind; [apply snd_at with (P := fun x : aval N => nth_error fs k = Some x); auto|]. intro c.
      eapply snd_bind; [apply snd_at with (P := fun a => nth_error is i = Some a); auto|]. intro a.
      eapply snd_bind; [apply snd_at with (P := fun a => nth_error is j = Some a); auto|]. intro b.
      eapply snd_bind; [apply (int_bisec_snd N)|]. intro r.
      apply snd_ret. intros (Or & nr & R1 & R0) Ej Ei Ec [vs bs] [Hi Hf]. cbn [fst snd] in *.
      destruct (Forall2_nth_l _ _ _ _ _ Hi Ei) as (x & Ex & Hx). destruct (Forall2_nth_l _ _ _ _ _ Hi Ej) as (y & Ey & Hy).
      destruct (Forall2_nth_l _ _ _ _ _ Hf Ec) as (z & Ez & Hz).
      exists (vs ++ [if z then x else y], bs). split; [now apply FBisec|]. split; [|assumption]. apply Forall2_app1; [assumption|].
      destruct Hx as (Fx & [Bx nx] & Ox), Hy as (Fy & [By ny] & Oy). unfold holds_int, wfi. rewrite Or.
      unfold holds_bit in Hz. destruct z.
      + specialize (R1 Hz). split; [now rewrite (lsame_fv N W w r a R1)|]. split; [|lia]. split; [|assumption].
        apply (lsame_bnd N w r a _ R1). apply (bnd_le N w a (Z.of_nat (overflows a) + 1)); [lia|assumption].
      + specialize (R0 Hz). split; [now rewrite (lsame_fv N W w r b R0)|]. split; [|lia]. split; [|assumption].
        apply (lsame_bnd N w r b _ R0). apply (bnd_le N w b (Z.of_nat (overflows b) + 1)); [lia|assumption].
    - (* last bit *) eapply snd_bind; [apply snd_at with (P := fun a => nth_error is i = Some a); auto|]. intro a.
      eapply snd_bind; [apply (get_last_bit_snd N HN) with (K := Z.of_nat (overflows a) + 1)|]. intros r.
      apply snd_ret. intros Hr Ei [vs bs] [Hi Hf]. cbn [fst snd] in *.
      destruct (Forall2_nth_l _ _ _ _ _ Hi Ei) as (x & Ex & Hx). destruct (holds_K _ _ _ Hx) as (Kx & Bx & nx & Fx).
      specialize (Hr ltac:(lia) Bx). pose proof (Z.mod_pos_bound (iv w a) 2 eq_refl) as Hm.
      exists (vs, bs ++ [iv w a mod 2 =? 1]). split; [now apply (FLastBit W i _ x)|]. split; [assumption|].
      apply Forall2_app1; [assumption|]. unfold holds_bit. rewrite (wcell N w r), Hr.
      destruct (Z.eqb_spec (iv w a mod 2) 1) as [e|e]; [rewrite e; apply ofZ_1|].
      replace (iv w a mod 2) with 0 by lia. apply ofZ_0.
    - (* small *) eapply snd_bind; [apply snd_at with (P := fun a => nth_error is i = Some a); auto|]. intro a.
      eapply snd_bind; [apply (mul_small_constant_snd N W HN HW) with (K := Z.of_nat (overflows a) + 1)|]. intros [p a'].
      apply snd_ret. cbv zeta. intros Hr Ei [vs bs] [Hi Hf]. cbn [fst snd] in *.
      destruct (Forall2_nth_l _ _ _ _ _ Hi Ei) as (x & Ex & Hx). destruct (holds_K _ _ _ Hx) as (Kx & Bx & nx & Fx). cbn in Ho.
      assert (Hb : (64 <=? overflows a * b)%nat = false). { apply Nat.leb_gt. destruct Hx as (_ & _ & Hx). nia. }
      rewrite Hb in Hr. specialize (Hr ltac:(lia)). rewrite Fx in Hr.
      destruct (Hr ltac:(nia) Bx nx) as (R & ->).
      exists (vs ++ [fmul (ofZ (Z.of_nat b)) x], bs). split; [now apply FMulSmall|]. split; [|assumption]. apply Forall2_app1.
      + now apply (Forall2_upd _ _ _ _ _ x).
      + apply (res_holds _ _ (overflows a * b)). destruct R as (R1 & R2 & R3). split; [assumption|]. split; [assumption|].
        destruct R3 as [(R3 & R4 & R5)|(R3 & R4 & R5)]; [left|right]; repeat (split; [assumption|]); [|assumption].
        apply (bnd_le N w p ((Z.of_nat (overflows a) + 1) * Z.of_nat b)); [|assumption]. nia.
  Qed.

  Lemma run_snd w os e : Forall small_ok os ->
    snd_ w (run W os e) (fun e' => forall s, matches w e s -> exists s', fsteps os s s' /\ matches w e' s').
  Proof.
    revert e. induction os as [|o os IH]; intros e Ho; cbn [run].
    - apply snd_ret. intros s Hm. exists s. split; [constructor|assumption].
    - inversion Ho as [|? ? Ho1 Ho2]; subst. eapply snd_bind; [now apply run_op_snd|]. intro e1.
      eapply snd_conseq; [now apply IH|]. intros e2 H2 H1 s Hm.
      destruct (H1 s Hm) as (s1 & St1 & M1). destruct (H2 s1 M1) as (s2 & St2 & M2). exists s2. split; [|assumption].
      now apply (FCons W o os s s1 s2).
  Qed.
End Sound.
