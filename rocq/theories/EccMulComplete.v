(** Fixed-base multiplication never aborts: every point it handles as a first
    summand has a cached curvature. *)
From Coq Require Import ZArith Arith NArith Lia List Bool.
From Verif Require Import Util Algebra PField Gate GateProofs GateOps GateExtra Integer Bn254
  IntegerFacts IntegerSound IntegerOps IntegerComplete IntegerComplete2 IntegerComplete3
  IntegerHistory IntegerHistorySound IntegerHistoryComplete IntegerValue Curve Ecc EccSound EccScalar EccMul EccComplete.
Import ListNotations.

Section Complete.
  Variables NN W : PF.
  Hypothesis HN : pf_n NN = fr_mod.
  Hypothesis HW : pf_n W = fq_mod.
  Local Notation has_bit := (has_bit NN).
  Local Notation has_pt := (has_pt NN W).
  Implicit Types (c : ctx NN).

  (** a point without overflows, with a cached curvature *)
  Definition frv c (a : apoint NN) (v : W * W * bool) : Prop := has_pt c a (fst (fst v)) (snd (fst v)) (snd v) 0 0 /\ pt_c a <> None.
  Definition pv (P : point W) : W * W * bool := (px NN W P, py NN W P, pz W P).
  Lemma frv_le c c' a v : ctx_le c c' -> frv c a v -> frv c' a v.
  Proof. intros L [H E]. split; [now apply (has_pt_le NN W c)|assumption]. Qed.

  Lemma constant_frv c (P : point W) : cpl c (assign_constant_point_with_curvature P) (fun r c' => frv c' r (pv P)).
  Proof.
    unfold assign_constant_point_with_curvature. rewrite (coords_eq NN W).
    eapply cpl_bind; [apply (cconst NN W HN HW)|]. intros v c1 _ L1 _ Hv.
    eapply cpl_bind; [apply (assign_constant_cpl NN)|]. intros z c2 _ L2 _ Hz.
    assert (Hz' : has_bit c2 z (if feq_dec (px NN W P) f0 then true else false)).
    { split; [apply Hz|]. destruct Hz as [_ ->]. destruct feq_dec; reflexivity. }
    eapply cpl_bind; [apply (cconst NN W HN HW)|]. intros x c3 _ L3 _ Hx.
    eapply cpl_bind; [apply (cconst NN W HN HW)|]. intros y c4 _ L4 _ Hy.
    eapply cpl_bind; [apply (bconst NN c4 (pz W P))|]. intros z' c5 _ L5 _ Hzz. apply cpl_ret.
    split; [|discriminate]. cbn [pv fst snd].
    pose proof (ctx_le_trans NN _ _ _ L3 (ctx_le_trans NN _ _ _ L4 L5)) as L25.
    split; [apply (has_int_le NN W c3); [now apply (ctx_le_trans NN _ c4)|assumption]|].
    split; [now apply (has_int_le NN W c4)|]. split; [assumption|]. cbn [pt_c].
    eexists _, _, _. cbn [cv_v cv_z]. split; [apply (has_int_le NN W c1); [now apply (ctx_le_trans NN _ c2)|exact Hv]|exact (has_bit_le NN _ _ _ _ L25 Hz')].
  Qed.

  Lemma bisec_frv c s a b z va vb : has_bit c s z -> frv c a va -> frv c b vb -> cpl c (bisec_point_with_curvature W s a b) (fun r c' => frv c' r (if z then va else vb)).
  Proof.
    destruct va as [[xa ya] za], vb as [[xb yb] zb]. intros Hs [Ha Ea] [Hb Eb]. cbn [fst snd] in Ha, Hb. unfold bisec_point_with_curvature.
    pose proof Ha as (Hxa & Hya & Hza & Hca). pose proof Hb as (Hxb & Hyb & Hzb & Hcb).
    eapply cpl_bind; [exact (cbisec NN W c _ _ _ _ _ _ _ _ Hs Hxa Hxb)|]. intros x c1 _ L1 _ Hx.
    eapply cpl_bind; [exact (cbisec NN W c1 _ _ _ _ _ _ _ _ (has_bit_le NN _ _ _ _ L1 Hs) (has_int_le NN W _ _ _ _ L1 Hya) (has_int_le NN W _ _ _ _ L1 Hyb))|].
    intros y c2 _ L2 _ Hy. pose proof (ctx_le_trans NN _ _ _ L1 L2) as L02.
    eapply cpl_bind; [exact (bbisec NN c2 _ _ _ _ _ _ (has_bit_le NN _ _ _ _ L02 Hs) (has_bit_le NN _ _ _ _ L02 Hza) (has_bit_le NN _ _ _ _ L02 Hzb))|].
    intros z' c3 _ L3 _ Hz. pose proof (ctx_le_trans NN _ _ _ L02 L3) as L03.
    eapply cpl_bind; [apply (curvature_cpl NN W HN HW c3 a xa ya za 0 0); [exact (has_pt_le NN W _ _ _ _ _ _ _ _ L03 Ha)|auto..]|]. intros [ca a'] c4 _ L4 _ (_ & _ & Hca' & _).
    pose proof (ctx_le_trans NN _ _ _ L03 L4) as L04.
    eapply cpl_bind; [apply (curvature_cpl NN W HN HW c4 b xb yb zb 0 0); [exact (has_pt_le NN W _ _ _ _ _ _ _ _ L04 Hb)|auto..]|]. intros [cb b'] c5 _ L5 _ (_ & _ & Hcb' & _).
    cbn [fst snd] in *. pose proof (ctx_le_trans NN _ _ _ L04 L5) as L05.
    eapply cpl_bind; [exact (bisec_curvature_cpl NN W c5 _ _ _ _ (has_bit_le NN _ _ _ _ L05 Hs) (has_curv_le NN W _ _ _ L5 Hca') Hcb')|]. intros cc c6 _ L6 _ [Hcc _].
    apply cpl_ret. split; [|discriminate].
    pose proof (ctx_le_trans NN _ _ _ L4 (ctx_le_trans NN _ _ _ L5 L6)) as L36. pose proof (ctx_le_trans NN _ _ _ L3 L36) as L26.
    apply (has_int_le NN W _ _ _ _ (ctx_le_trans NN _ _ _ L2 L26)) in Hx. apply (has_int_le NN W _ _ _ _ L26) in Hy. apply (has_bit_le NN _ _ _ _ L36) in Hz.
    destruct z; (split; [exact Hx|]; split; [exact Hy|]; split; [exact Hz|exact Hcc]).
  Qed.

  Definition even_pt c (a : apoint NN) : Prop := exists x y z i j, has_pt c a x y z i j /\ Nat.even i = true /\ Nat.even j = true.
  (** the same, with zero coordinates when [Q] *)
  Definition even_z (Q : Prop) c (a : apoint NN) : Prop := exists x y z i j, has_pt c a x y z i j /\ Nat.even i = true /\ Nat.even j = true /\
    (Q -> x = f0 /\ y = f0 /\ z = true).

  Lemma loop_cpl (Q : Prop) identity windows : forall bss c (base : point W) acc, frv c identity (pv Inf) ->
    Forall2 (Forall2 (has_bit c)) windows bss -> Forall (fun l => length l = 2%nat) bss ->
    (Q -> base = Inf \/ Forall (Forall (fun b => b = false)) bss) ->
    match acc with Some a => even_z Q c a | None => windows <> [] end ->
    cpl c (constant_mul_loop identity windows base acc) (fun r c' => even_z Q c' r).
  Proof.
    induction windows as [|bits windows IH]; intros bss c base acc Hid Hw Hf HQ Hacc; cbn [constant_mul_loop].
    - destruct acc; [now apply cpl_ret|congruence].
    - inversion Hw as [|? bs ? bss' Hb Hw' E1 E2]; subst bss. apply Forall_cons_iff in Hf. destruct Hf as [Hl Hf].
      destruct bs as [|z0 [|z1 [|]]]; try discriminate Hl. inversion Hb as [|b0 ? bits0 ? H0 Hb0]; subst. inversion Hb0 as [|b1 ? bits1 ? H1 Hb1]; subst. inversion Hb1; subst.
      eapply cpl_bind; [apply constant_frv|]. intros c01 c1 _ L1 _ F01.
      eapply cpl_bind; [apply constant_frv|]. intros c10 c2 _ L2 _ F10.
      eapply cpl_bind; [apply constant_frv|]. intros c11 c3 _ L3 _ F11.
      pose proof (ctx_le_trans NN _ _ _ L1 (ctx_le_trans NN _ _ _ L2 L3)) as L03.
      change (at_ [b0; b1] 0) with (@ret NN _ b0). eapply cpl_bind; [apply cpl_ret with (P := fun r _ => r = b0); reflexivity|]. intros ? c4 E4 _ _ ->. unfold ret in E4. injection E4 as <-.
      eapply cpl_bind; [exact (bisec_frv c3 _ _ _ _ _ _ (has_bit_le NN _ _ _ _ L03 H0) (frv_le _ _ _ _ L3 F10) (frv_le _ _ _ _ L03 Hid))|]. intros c0 c4 _ L4 _ F0.
      pose proof (ctx_le_trans NN _ _ _ L03 L4) as L04.
      eapply cpl_bind; [exact (bisec_frv c4 _ _ _ _ _ _ (has_bit_le NN _ _ _ _ L04 H0) (frv_le _ _ _ _ L4 F11) (frv_le _ _ _ _ (ctx_le_trans NN _ _ _ L2 (ctx_le_trans NN _ _ _ L3 L4)) F01))|].
      intros c1' c5 _ L5 _ F1. pose proof (ctx_le_trans NN _ _ _ L04 L5) as L05.
      change (at_ [b0; b1] 1) with (@ret NN _ b1). eapply cpl_bind; [apply cpl_ret with (P := fun r _ => r = b1); reflexivity|]. intros ? c6 E6 _ _ ->. unfold ret in E6. injection E6 as <-.
      eapply cpl_bind; [exact (bisec_frv c5 _ _ _ _ _ _ (has_bit_le NN _ _ _ _ L05 H1) F1 (frv_le _ _ _ _ L5 F0))|]. intros slot c6 _ L6 _ Fs.
      pose proof (ctx_le_trans NN _ _ _ L05 L6) as L06.
      assert (Hw6 : forall c7, ctx_le c c7 -> Forall2 (Forall2 (has_bit c7)) windows bss').
      { intros c7 L. clear - Hw' L. induction Hw' as [|l bs ls bss H _ IHH]; constructor; [|assumption]. clear - H L. induction H; constructor; [now apply (has_bit_le NN c)|assumption]. }
      set (sv := if z1 then if z0 then pv (padd (padd base base) base) else pv (padd base base) else if z0 then pv base else pv Inf) in Fs.
      assert (Hsv : Q -> sv = (f0, f0, true)).
      { intro q. destruct (HQ q) as [-> |Hz]; [unfold sv; destruct z0, z1; reflexivity|]. apply Forall_cons_iff in Hz. destruct Hz as [Hz _].
        apply Forall_cons_iff in Hz. destruct Hz as [-> Hz]. apply Forall_cons_iff in Hz. destruct Hz as [-> _]. reflexivity. }
      clearbody sv. destruct sv as [[xs ys] zs]. destruct Fs as [Hs Es]. cbn [fst snd] in Hs.
      assert (HQ' : Q -> padd (padd (padd base base) base) base = Inf \/ Forall (Forall (fun b => b = false)) bss').
      { intro q. destruct (HQ q) as [-> |Hz]; [now left|right]. now apply Forall_cons_iff in Hz. }
      cbv zeta. destruct acc as [p|].
      + destruct Hacc as (xp & yp & zp & ip & jp & Hp & Ei & Ej & Hpz).
        pose proof (even_30 _ Ej (has_lt NN W _ _ _ _ (proj1 (proj2 Hp)))) as Lj.
        eapply cpl_bind; [refine (ecc_add_cpl NN W HN HW c6 slot p _ _ _ _ _ _ _ _ _ _ Hs (has_pt_le NN W _ _ _ _ _ _ _ _ L06 Hp) eq_refl Ei _ (or_introl Es)); lia|].
        intros [s a'] c7 _ L7 _ ((_ & x & y & z & i & j & H & E1 & E2 & E3 & _) & _). cbn [fst snd] in *. pose proof (ctx_le_trans NN _ _ _ L06 L7) as L07.
        apply (IH bss'); [now apply (frv_le c)|now apply Hw6|assumption|assumption|]. exists x, y, z, i, j. split; [assumption|]. split; [assumption|]. split; [auto|].
        intro q. destruct (Hpz q) as (-> & -> & ->). specialize (Hsv q). injection Hsv as -> -> ->. 
        destruct E3 as (-> & -> & ->); [reflexivity|]. auto.
      + apply (IH bss'); [now apply (frv_le c)|now apply Hw6|assumption|assumption|]. exists xs, ys, zs, 0%nat, 0%nat. split; [assumption|]. split; [reflexivity|]. split; [reflexivity|].
        intro q. specialize (Hsv q). now injection Hsv.
  Qed.

  Lemma bits_zero bs : bitsN bs = 0%N -> Forall (fun b => b = false) bs.
  Proof. induction bs as [|b bs IH]; intro E; constructor; cbn [bitsN] in E; destruct b; cbn [N.b2n] in E; try reflexivity; try (exfalso; lia); apply IH; lia. Qed.
  Lemma wins_zero ws bss : winsN ws bss = 0%N -> Forall (Forall (fun b => b = false)) bss.
  Proof.
    induction bss as [|bs bss IH] using rev_ind; intro E; [constructor|]. rewrite <- (rev_involutive (bss ++ [bs])), winsN_rev, rev_app_distr in E. cbn [rev app winsN_le] in E. rewrite <- winsN_rev, rev_involutive in E. apply Forall_app.
    assert (H : bitsN bs = 0%N /\ winsN ws bss = 0%N) by (pose proof (N.pow_nonzero 2 (N.of_nat ws) ltac:(discriminate)); nia).
    split; [now apply IH|]. constructor; [|constructor]. now apply bits_zero.
  Qed.
  Lemma constant_mul_cplz c (P : point W) s : valid c s ->
    cpl c (constant_mul P s) (fun r c' => even_z (P = Inf \/ toZ (av_val s) = 0%Z) c' r /\ pt_c r = None).
  Proof.
    intros Hv. unfold constant_mul.
    eapply cpl_bind; [apply (decompose_scalar_digits NN HN c 2 s); [lia|assumption]|]. intros windows c1 E1 L1 G1 (bss & Hb & Hl & Hf & Hs).
    eapply cpl_bind; [apply constant_frv|]. intros id c2 _ L2 _ Hid.
    eapply cpl_conseq; [apply (loop_cpl (P = Inf \/ toZ (av_val s) = 0%Z) id (rev windows) (rev bss)); [assumption| | | |]|].
    - apply Forall2_rev. clear - Hb L2. induction Hb as [|l bs ls bss H _ IH]; constructor; [|assumption]. clear - H L2. induction H as [|b z bs zs H _ IH]; constructor; [exact (has_bit_le NN c1 c2 b z L2 H)|assumption].
    - now apply Forall_rev.
    - intros [-> |E]; [now left|right]. apply Forall_rev. apply (wins_zero 2). lia.
    - intro F. apply (f_equal (@length _)) in F. rewrite rev_length, (Forall2_len _ _ _ Hb), Hl, (windows_2 NN HN) in F. discriminate.
    - intros r c' E _ _ H. split; [assumption|]. refine (constant_loop_none NN W id (rev windows) _ None _ _ _ _ E).
      rewrite rev_length, (Forall2_len _ _ _ Hb), Hl, (windows_2 NN HN). lia.
  Qed.
  Lemma constant_mul_cpl c (P : point W) s : valid c s -> cpl c (constant_mul P s) (fun r c' => even_pt c' r).
  Proof.
    intro Hv. eapply cpl_conseq; [exact (constant_mul_cplz c P s Hv)|]. intros r c' _ _ _ ((x & y & z & i & j & H & Ei & Ej & _) & _). now exists x, y, z, i, j.
  Qed.
End Complete.
