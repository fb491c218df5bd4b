(** Every history within the overflow budget runs to the end and leaves a satisfied circuit. *)
From Coq Require Import ZArith Arith Lia List Bool Ring Field.
From Verif Require Import Util Algebra PField Gate GateProofs GateOps RangeProofs Integer Bn254 IntegerFacts IntegerSound IntegerOps
  IntegerComplete IntegerComplete2 IntegerComplete3 IntegerHistory IntegerHistorySound.
Import ListNotations.
Local Open Scope Z_scope.

Lemma Forall2_upd2 {A B} (R : A -> B -> Prop) l m i x y : Forall2 R l m -> R x y -> Forall2 R (upd l i x) (upd m i y).
Proof. intros H Hr. revert i. induction H; intros [|i]; cbn; constructor; auto. Qed.
Lemma upd_id {A} (l : list A) i x : nth_error l i = Some x -> upd l i x = l.
Proof. revert i. induction l as [|y l IH]; intros [|i] E; cbn in *; try discriminate; [congruence|f_equal; auto]. Qed.

Section Complete.
  Variables N W : PF.
  Hypothesis HN : pf_n N = fr_mod.
  Hypothesis HW : pf_n W = fq_mod.
  Add Field NF : (f_th N).
  Add Field WF : (f_th W).
  Implicit Types (c : ctx N) (a b : aint N).
  Local Notation canon := (canon N).

  Definition has_int c a (v : W * nat) : Prop := wfv c a /\ ofZ (bn_of a) = fst v /\ overflows a = snd v.
  Definition has_bit c (f : aval N) (z : bool) : Prop := valid c f /\ av_val f = if z then f1 else f0.
  Definition has c (e : @regs N) (s : hstate W) : Prop :=
    Forall2 (has_int c) (fst e) (fst s) /\ Forall2 (has_bit c) (snd e) (snd s).

  Lemma has_int_le c c' a v : ctx_le c c' -> has_int c a v -> has_int c' a v.
  Proof. intros L [H1 H2]. split; [now apply (wfv_le N c c')|assumption]. Qed.
  Lemma F2_le c c' is vs : ctx_le c c' -> Forall2 (has_int c) is vs -> Forall2 (has_int c') is vs.
  Proof. intros L H. induction H; constructor; [now apply (has_int_le c c')|assumption]. Qed.
  Lemma F2b_le c c' fs bs : ctx_le c c' -> Forall2 (has_bit c) fs bs -> Forall2 (has_bit c') fs bs.
  Proof. intros L H. induction H as [|f z fs bs [H1 H2] H IH]; constructor; [|assumption]. split; [now apply (valid_le N c c')|assumption]. Qed.
  Lemma canon_has c r v x : canon c r v -> ofZ v = x -> has_int c r (x, 0%nat).
  Proof.
    intros C <-. pose proof (canon_wfv N _ _ _ C) as Wf. destruct C as (_ & E & _ & O).
    split; [assumption|]. cbn [fst snd]. split; [|assumption]. rewrite E. apply ofZ_eq. rewrite HW. apply Zmod_mod.
  Qed.
  Lemma ofZ_cong u v : u mod fq_mod = v mod fq_mod -> @ofZ W u = ofZ v.
  Proof. intro H. apply ofZ_eq. now rewrite HW. Qed.
  Lemma isz_feqb u v : isz N (u - v) = if feqb W (ofZ u) (ofZ v) then f1 else f0.
  Proof.
    unfold isz, feqb. destruct (feq_dec (@ofZ W u) (ofZ v)) as [e|e].
    - apply ofZ_eq in e. rewrite HW in e. rewrite Zminus_mod, e, Z.sub_diag, Zmod_0_l. reflexivity.
    - destruct (Z.eqb_spec ((u - v) mod fq_mod) 0) as [H|H]; [|reflexivity]. exfalso. apply e. apply ofZ_cong.
      apply Z.mod_divide in H; [|discriminate]. destruct H as [q Hq]. replace u with (v + q * fq_mod) by lia. apply Z_mod_plus_full.
  Qed.
  Lemma qv_div u v : @ofZ W (qv W (u mod fq_mod) (v mod fq_mod)) = if feq_dec (@ofZ W v) f0 then f0 else fmul (ofZ u) (finv (ofZ v)).
  Proof.
    assert (Eu : @ofZ W (u mod fq_mod) = ofZ u) by (apply ofZ_cong; apply Zmod_mod).
    assert (Ev : @ofZ W (v mod fq_mod) = ofZ v) by (apply ofZ_cong; apply Zmod_mod).
    unfold qv. rewrite ofZ_toZ. unfold wv. rewrite Ev, Zmod_mod. destruct (feq_dec (@ofZ W v) f0) as [e|e]; [ring|].
    destruct (Z.eqb_spec (v mod fq_mod) 0) as [H|H]; [|rewrite Eu; ring].
    exfalso. apply e. now apply (wv_0 W HW).
  Qed.

  Lemma run_op_cpl c o e s s' : hstep o s = Some s' -> has c e s -> cpl c (run_op W o e) (fun e' c' => has c' e' s').
  Proof.
    destruct e as [is fs], s as [vs bs]. unfold has. cbn [fst snd].
    intros H [Hi Hf]. unfold hstep, get1 in H.
    destruct o as [v|v|i j|i j|i|i j|i|i j|i|i|i|i j|i j|k i j|i|i b]; cbn [run_op].
    - injection H as <-. eapply cpl_bind; [apply (int_assign_wf N W HN HW)|]. intros r c1 _ L1 _ C. apply cpl_ret. cbn [fst snd].
      split; [|now apply (F2b_le c)]. apply Forall2_app1; [now apply (F2_le c)|]. apply (canon_has _ _ _ _ C). apply ofZ_toZ.
    - injection H as <-. eapply cpl_bind; [apply (int_assign_constant_wf N W HN HW)|]. intros r c1 _ L1 _ C. apply cpl_ret. cbn [fst snd].
      split; [|now apply (F2b_le c)]. apply Forall2_app1; [now apply (F2_le c)|]. apply (canon_has _ _ _ _ C). apply ofZ_toZ.
    - destruct (nth_error vs i) as [[x ox]|] eqn:Ei; [|discriminate]. destruct (nth_error vs j) as [[y oy]|] eqn:Ej; [|discriminate].
      injection H as <-. destruct (Forall2_nth_r _ _ _ _ _ Hi Ei) as (a & Ea & Wa & Va & Oa). destruct (Forall2_nth_r _ _ _ _ _ Hi Ej) as (b & Eb & Wb & Vb & Ob).
      eapply cpl_bind_at; [exact Ea|]. eapply cpl_bind_at; [exact Eb|]. cbn [fst snd] in *.
      eapply cpl_bind; [now apply (int_add_wf N W HN HW)|]. intros r c1 _ L1 _ (Wr & Er & Or). apply cpl_ret. cbn [fst snd].
      split; [|now apply (F2b_le c)]. apply Forall2_app1; [now apply (F2_le c)|]. split; [assumption|]. cbn [fst snd].
      rewrite (ofZ_cong _ _ Er), ofZ_add, Va, Vb, Or, Oa, Ob. split; reflexivity.
    - destruct (nth_error vs i) as [[x ox]|] eqn:Ei; [|discriminate]. destruct (nth_error vs j) as [[y oy]|] eqn:Ej; [|discriminate].
      destruct (Nat.ltb_spec (ox + oy) 62) as [Ho|]; [|discriminate].
      injection H as <-. destruct (Forall2_nth_r _ _ _ _ _ Hi Ei) as (a & Ea & Wa & Va & Oa). destruct (Forall2_nth_r _ _ _ _ _ Hi Ej) as (b & Eb & Wb & Vb & Ob).
      eapply cpl_bind_at; [exact Ea|]. eapply cpl_bind_at; [exact Eb|]. cbn [fst snd] in *.
      eapply cpl_bind; [apply (int_sub_wf N W HN HW); auto; lia|]. intros r c1 _ L1 _ (Wr & Er & Or). apply cpl_ret. cbn [fst snd].
      split; [|now apply (F2b_le c)]. apply Forall2_app1; [now apply (F2_le c)|]. split; [assumption|]. cbn [fst snd].
      rewrite (ofZ_cong _ _ Er), ofZ_sub, Va, Vb, Or, Oa, Ob. split; [reflexivity|]. unfold keep, lin.
      replace (ox + (oy + 1) + 1)%nat with (ox + oy + 2)%nat by lia. reflexivity.
    - destruct (nth_error vs i) as [[x ox]|] eqn:Ei; [|discriminate].
      injection H as <-. destruct (Forall2_nth_r _ _ _ _ _ Hi Ei) as (a & Ea & Wa & Va & Oa).
      eapply cpl_bind_at; [exact Ea|]. cbn [fst snd] in *.
      eapply cpl_bind; [now apply (int_neg_wf N W HN HW)|]. intros r c1 _ L1 _ (Wr & Er & Or). apply cpl_ret. cbn [fst snd].
      split; [|now apply (F2b_le c)]. apply Forall2_app1; [now apply (F2_le c)|]. split; [assumption|]. cbn [fst snd].
      rewrite (ofZ_cong _ _ Er), ofZ_opp, Va, Or, Oa. split; reflexivity.
    - destruct (nth_error vs i) as [[x ox]|] eqn:Ei; [|discriminate]. destruct (nth_error vs j) as [[y oy]|] eqn:Ej; [|discriminate].
      injection H as <-. destruct (Forall2_nth_r _ _ _ _ _ Hi Ei) as (a & Ea & Wa & Va & Oa). destruct (Forall2_nth_r _ _ _ _ _ Hi Ej) as (b & Eb & Wb & Vb & Ob).
      eapply cpl_bind_at; [exact Ea|]. eapply cpl_bind_at; [exact Eb|]. cbn [fst snd] in *.
      eapply cpl_bind; [now apply (int_mul_wf N W HN HW)|]. intros [[p a'] b'] c1 _ L1 _ (C & (Wa' & Sa) & (Wb' & Sb)). apply cpl_ret. cbn [fst snd].
      split; [|now apply (F2b_le c)]. apply Forall2_app1.
      + rewrite <- (upd_id vs i _ Ei) at 1. assert (Ej' : nth_error (upd vs i (x, ox)) j = Some (y, oy)) by now rewrite upd_id.
        rewrite <- (upd_id _ j _ Ej').
        apply Forall2_upd2; [apply Forall2_upd2; [now apply (F2_le c)|]|].
        * split; [assumption|]. rewrite (same_bn N _ _ Sa). split; [assumption|]. transitivity (overflows a); [apply Sa|assumption].
        * split; [assumption|]. rewrite (same_bn N _ _ Sb). split; [assumption|]. transitivity (overflows b); [apply Sb|assumption].
      + apply (canon_has _ _ _ _ C). now rewrite ofZ_mul, Va, Vb.
    - destruct (nth_error vs i) as [[x ox]|] eqn:Ei; [|discriminate].
      injection H as <-. destruct (Forall2_nth_r _ _ _ _ _ Hi Ei) as (a & Ea & Wa & Va & Oa).
      eapply cpl_bind_at; [exact Ea|]. cbn [fst snd] in *.
      eapply cpl_bind; [now apply (int_square_wf N W HN HW)|]. intros [p a'] c1 _ L1 _ (C & (Wa' & Sa)). apply cpl_ret. cbn [fst snd] in *.
      split; [|now apply (F2b_le c)]. apply Forall2_app1.
      + rewrite <- (upd_id vs i _ Ei) at 1. apply Forall2_upd2; [now apply (F2_le c)|].
        split; [assumption|]. rewrite (same_bn N _ _ Sa). split; [assumption|]. transitivity (overflows a); [apply Sa|assumption].
      + apply (canon_has _ _ _ _ C). now rewrite ofZ_mul, Va.
    - destruct (nth_error vs i) as [[x ox]|] eqn:Ei; [|discriminate]. destruct (nth_error vs j) as [[y oy]|] eqn:Ej; [|discriminate].
      injection H as <-. destruct (Forall2_nth_r _ _ _ _ _ Hi Ei) as (a & Ea & Wa & Va & Oa). destruct (Forall2_nth_r _ _ _ _ _ Hi Ej) as (b & Eb & Wb & Vb & Ob).
      eapply cpl_bind_at; [exact Ea|]. eapply cpl_bind_at; [exact Eb|]. cbn [fst snd] in *.
      eapply cpl_bind; [now apply (int_div_wf N W HN HW)|]. intros [[[z q] a'] b'] c1 _ L1 _ (Vz & Ez & Cq & Ca & Cb). apply cpl_ret. cbn [fst snd].
      split.
      + apply Forall2_app1.
        * apply Forall2_upd2; [apply Forall2_upd2; [now apply (F2_le c)|]|]; [now apply (canon_has _ _ _ _ Ca)|now apply (canon_has _ _ _ _ Cb)].
        * apply (canon_has _ _ _ _ Cq). rewrite qv_div, Va, Vb. reflexivity.
      + apply Forall2_app1; [now apply (F2b_le c)|]. split; [assumption|]. rewrite Ez.
        rewrite <- (Z.sub_0_r (bn_of b)), isz_feqb, Vb, ofZ_0. reflexivity.
    - destruct (nth_error vs i) as [[x ox]|] eqn:Ei; [|discriminate].
      injection H as <-. destruct (Forall2_nth_r _ _ _ _ _ Hi Ei) as (a & Ea & Wa & Va & Oa).
      eapply cpl_bind_at; [exact Ea|]. cbn [fst snd] in *.
      eapply cpl_bind; [now apply (int_reduce_wf N W HN HW)|]. intros r c1 _ L1 _ C. apply cpl_ret. cbn [fst snd].
      split; [|now apply (F2b_le c)]. apply Forall2_upd2; [now apply (F2_le c)|]. now apply (canon_has _ _ _ _ C).
    - destruct (nth_error vs i) as [[x ox]|] eqn:Ei; [|discriminate].
      injection H as <-. destruct (Forall2_nth_r _ _ _ _ _ Hi Ei) as (a & Ea & Wa & Va & Oa).
      eapply cpl_bind_at; [exact Ea|]. cbn [fst snd] in *.
      eapply cpl_bind; [apply (native_cpl N); apply Wa|]. intros r c1 _ L1 _ (V & E & O & S). apply cpl_ret. cbn [fst snd].
      split; [|now apply (F2b_le c)]. rewrite <- (upd_id vs i _ Ei). apply Forall2_upd2; [now apply (F2_le c)|].
      split; [apply (wfv_same N _ a); [now apply (wfv_le N c)|assumption|assumption]|]. rewrite (same_bn N _ _ S). split; [assumption|].
      transitivity (overflows a); [apply S|assumption].
    - destruct (nth_error vs i) as [[x ox]|] eqn:Ei; [|discriminate].
      injection H as <-. destruct (Forall2_nth_r _ _ _ _ _ Hi Ei) as (a & Ea & Wa & Va & Oa).
      eapply cpl_bind_at; [exact Ea|]. cbn [fst snd] in *.
      eapply cpl_bind; [now apply (int_is_zero_wf N W HN HW)|]. intros [z a'] c1 _ L1 _ (V & E & C). apply cpl_ret. cbn [fst snd] in *.
      split; [apply Forall2_upd2; [now apply (F2_le c)|]; now apply (canon_has _ _ _ _ C)|].
      apply Forall2_app1; [now apply (F2b_le c)|]. split; [assumption|]. rewrite E.
      rewrite <- (Z.sub_0_r (bn_of a)), isz_feqb, Va, ofZ_0. reflexivity.
    - destruct (nth_error vs i) as [[x ox]|] eqn:Ei; [|discriminate]. destruct (nth_error vs j) as [[y oy]|] eqn:Ej; [|discriminate].
      destruct (Nat.ltb_spec (ox + oy) 62) as [Ho|]; [|discriminate].
      injection H as <-. destruct (Forall2_nth_r _ _ _ _ _ Hi Ei) as (a & Ea & Wa & Va & Oa). destruct (Forall2_nth_r _ _ _ _ _ Hi Ej) as (b & Eb & Wb & Vb & Ob).
      eapply cpl_bind_at; [exact Ea|]. eapply cpl_bind_at; [exact Eb|]. cbn [fst snd] in *.
      eapply cpl_bind; [apply (int_is_equal_wf N W HN HW); auto; lia|]. intros r c1 _ L1 _ (V & E). apply cpl_ret. cbn [fst snd].
      split; [now apply (F2_le c)|]. apply Forall2_app1; [now apply (F2b_le c)|]. split; [assumption|].
      rewrite E, isz_feqb, Va, Vb. reflexivity.
    - destruct (nth_error vs i) as [[x ox]|] eqn:Ei; [|discriminate]. destruct (nth_error vs j) as [[y oy]|] eqn:Ej; [|discriminate].
      destruct (Nat.ltb_spec (ox + oy) 62) as [Ho|]; [|discriminate]. unfold feqb in H. destruct (feq_dec x y) as [e|]; [|discriminate].
      injection H as <-. destruct (Forall2_nth_r _ _ _ _ _ Hi Ei) as (a & Ea & Wa & Va & Oa). destruct (Forall2_nth_r _ _ _ _ _ Hi Ej) as (b & Eb & Wb & Vb & Ob).
      eapply cpl_bind_at; [exact Ea|]. eapply cpl_bind_at; [exact Eb|]. cbn [fst snd] in *.
      eapply cpl_bind; [apply (int_assert_equal_wf N W HN HW); auto; [lia|]|].
      { assert (E : @ofZ W (bn_of a) = ofZ (bn_of b)) by congruence. apply ofZ_eq in E. now rewrite HW in E. }
      intros [] c1 _ L1 _ _. apply cpl_ret. cbn [fst snd]. split; [now apply (F2_le c)|now apply (F2b_le c)].
    - destruct (nth_error bs k) as [z|] eqn:Ek; [|discriminate].
      destruct (nth_error vs i) as [[x ox]|] eqn:Ei; [|discriminate]. destruct (nth_error vs j) as [[y oy]|] eqn:Ej; [|discriminate].
      injection H as <-. destruct (Forall2_nth_r _ _ _ _ _ Hi Ei) as (a & Ea & Wa & Va & Oa). destruct (Forall2_nth_r _ _ _ _ _ Hi Ej) as (b & Eb & Wb & Vb & Ob).
      destruct (Forall2_nth_r _ _ _ _ _ Hf Ek) as (f & Ef & Vf & Hz).
      eapply cpl_bind_at; [exact Ef|]. eapply cpl_bind_at; [exact Ea|]. eapply cpl_bind_at; [exact Eb|]. cbn [fst snd] in *.
      eapply cpl_bind; [apply (int_bisec_wf N); auto; rewrite Hz; destruct z; auto|]. intros r c1 _ L1 _ (Wr & Er & Or). apply cpl_ret. cbn [fst snd].
      split; [|now apply (F2b_le c)]. apply Forall2_app1; [now apply (F2_le c)|]. split; [assumption|]. cbn [fst snd].
      rewrite Or, Oa, Ob. split; [|reflexivity]. rewrite Er. destruct feq_dec as [e|e]; destruct z; rewrite Hz in e; auto.
      + exfalso. now apply (F_1_neq_0 (f_th N)).
      + contradiction.
    - destruct (nth_error vs i) as [[x ox]|] eqn:Ei; [|discriminate]. destruct (Nat.eqb_spec ox 0) as [Ho|]; [|discriminate].
      injection H as <-. destruct (Forall2_nth_r _ _ _ _ _ Hi Ei) as (a & Ea & Wa & Va & Oa).
      eapply cpl_bind_at; [exact Ea|]. cbn [fst snd] in *. rewrite Ho in Oa. pose proof Wa as (Ok & _ & Ba & Ca). rewrite Oa in Ba.
      eapply cpl_bind; [now apply (get_last_bit_wf N HN)|]. intros r c1 _ L1 _ (V & E). apply cpl_ret. cbn [fst snd].
      split; [now apply (F2_le c)|]. apply Forall2_app1; [now apply (F2b_le c)|]. split; [assumption|]. rewrite E, <- Va.
      rewrite toZ_small; [reflexivity|]. rewrite HW. split; [apply (bn_of_nonneg N HN)|auto].
    - destruct (nth_error vs i) as [[x ox]|] eqn:Ei; [|discriminate]. destruct (Nat.leb_spec b 1) as [Hb|]; [|discriminate].
      injection H as <-. destruct (Forall2_nth_r _ _ _ _ _ Hi Ei) as (a & Ea & Wa & Va & Oa).
      eapply cpl_bind_at; [exact Ea|]. cbn [fst snd] in *. pose proof Wa as (Ok & O32 & Ba & Ca).
      eapply cpl_bind; [apply (mul_small_cpl N W HN HW c a b (Z.of_nat (overflows a) + 1)); auto; nia|]. intros [p a'] c1 _ L1 _ (E & R). cbn [fst snd] in *. subst a'.
      apply cpl_ret. cbn [fst snd]. rewrite (upd_id is i _ Ea). split; [|now apply (F2b_le c)]. apply Forall2_app1; [now apply (F2_le c)|].
      destruct R as (Op & R). destruct R as [(R1 & R2 & R3 & R4)|(R1 & _)]; [|nia].
      assert (Hb' : b = 0%nat \/ b = 1%nat) by lia. split; [|cbn [fst snd]; split; [now rewrite R4, ofZ_mul, Va|now rewrite R1, Oa]].
      split; [assumption|]. rewrite R1. split; [assumption|]. split.
      + apply (vbnd_le N p ((Z.of_nat (overflows a) + 1) * Z.of_nat b)); [|assumption]. nia.
      + intro Z0. rewrite R4. destruct Hb' as [-> | ->]; [unfold fq_mod; lia|]. rewrite Z.mul_1_l. apply Ca. lia.
  Qed.

  Lemma run_cpl c os e s s' : hsteps os s = Some s' -> has c e s -> cpl c (run W os e) (fun e' c' => has c' e' s').
  Proof.
    revert c e s. induction os as [|o os IH]; intros c e s H He; cbn [run hsteps] in *.
    - injection H as <-. now apply cpl_ret.
    - destruct (hstep o s) as [s1|] eqn:E; [|discriminate]. eapply cpl_bind; [now apply (run_op_cpl c o e s s1)|].
      intros e1 c1 _ _ _ H1. now apply (IH c1 e1 s1).
  Qed.
End Complete.
