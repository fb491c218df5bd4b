(** Sequences of point operations that never abort: the first summand of every
    addition (and the argument of every doubling) has a cached curvature or a
    computable slope, and at least one of the two ordinates has an even overflow
    count. *)
From Coq Require Import ZArith Arith NArith Lia List Bool.
From Verif Require Import Util Algebra PField Gate GateProofs GateOps GateExtra Integer Bn254
  IntegerFacts IntegerSound IntegerOps IntegerComplete IntegerComplete2 IntegerComplete3
  IntegerHistory IntegerHistorySound IntegerHistoryComplete IntegerValue Curve Ecc EccSound EccScalar EccMul EccComplete
  EccHistory EccMulComplete.
Import ListNotations.

(** What is known of a register: whether its tangent slope is cached, computable
    from its coordinates, or unknown; whether the overflow count of the ordinate is
    known to be even. *)
Inductive slope_state := Cached | Computable | Unknown.
Definition shape : Type := slope_state * bool.

Section Ready.
  Variables NN W : PF.
  Hypothesis HN : pf_n NN = fr_mod.
  Hypothesis HW : pf_n W = fq_mod.
  Implicit Types (c : ctx NN).

  (** [ready c o st st']: operation [o] can be performed on registers of shapes [st] *)
  Inductive ready c : eop NN W -> list shape -> list shape -> Prop :=
  | RConst P st : ready c (EConst P) st (st ++ [(Unknown, true)])
  | RConstSlope P st : slope_ok W (px NN W P) (py NN W P) 0 -> ready c (EConst P) st (st ++ [(Computable, true)])
  | RIdentity st : ready c EIdentity st (st ++ [(Cached, true)])
  | RAdd i j ki ei kj ej st : nth_error st i = Some (ki, ei) -> nth_error st j = Some (kj, ej) -> ki <> Unknown -> ei || ej = true ->
      ready c (EAdd i j) st (upd st i (Cached, ei) ++ [(Unknown, ei && ej)])
  | RDouble i ki ei st : nth_error st i = Some (ki, ei) -> ki <> Unknown ->
      ready c (EDouble i) st (upd st i (Cached, ei) ++ [(Unknown, ei)])
  | RNeg i k e st : nth_error st i = Some (k, e) -> ready c (ENeg i) st (st ++ [(Unknown, false)])
  | RSub i j ki kj ej st : nth_error st i = Some (ki, true) -> nth_error st j = Some (kj, ej) -> ki <> Unknown ->
      ready c (ESub i j) st (upd st i (Cached, true) ++ [(Unknown, false)])
  | RReduce i k e st : nth_error st i = Some (k, e) -> ready c (EReduce i) st (upd st i (k, true) ++ [(Unknown, true)])
  | RAssertEqual i k st : nth_error st i = Some (k, true) -> ready c (EAssertEqual i i) st st
  | RConstMul P s st : valid c s -> ready c (EConstMul P s) st (st ++ [(Unknown, true)]).
  Inductive readys c : list (eop NN W) -> list shape -> Prop :=
  | RNil st : readys c [] st
  | RCons o os st st' : ready c o st st' -> readys c os st' -> readys c (o :: os) st.

  Definition shaped c (a : apoint NN) (s : shape) : Prop :=
    exists x y z i j, has_pt NN W c a x y z i j /\ Nat.even i = true /\ (snd s = true -> Nat.even j = true) /\
      match fst s with
      | Cached => pt_c a <> None
      | Computable => slope_ok W x y j /\ (slope_ok W x y 0) /\ (j = 0%nat \/ y <> f0)
      | Unknown => True
      end.
  Lemma shaped_le c c' a s : ctx_le c c' -> shaped c a s -> shaped c' a s.
  Proof. intros L (x & y & z & i & j & H & R). exists x, y, z, i, j. split; [now apply (has_pt_le NN W c)|assumption]. Qed.
  Lemma shapes_le c c' ps st : ctx_le c c' -> Forall2 (shaped c) ps st -> Forall2 (shaped c') ps st.
  Proof. intros L. induction 1; constructor; eauto using shaped_le. Qed.
  Lemma upd_shaped c ps st i a s : Forall2 (shaped c) ps st -> shaped c a s -> Forall2 (shaped c) (upd ps i a) (upd st i s).
  Proof. intros H Ha. revert i. induction H; intros [|i]; cbn [upd]; constructor; auto. Qed.
  Lemma at_shaped c ps st i s : Forall2 (shaped c) ps st -> nth_error st i = Some s -> cpl c (at_ ps i) (fun a c' => c' = c /\ shaped c a s /\ nth_error ps i = Some a).
  Proof.
    intros H E. destruct (Forall2_nth_r _ _ _ _ _ H E) as (a & Ea & Ha). unfold at_. rewrite Ea. apply cpl_ret. auto.
  Qed.
  Lemma y_le c a x y z i j e : has_pt NN W c a x y z i j -> (e = true -> Nat.even j = true) -> (j < 32)%nat /\ (e = true -> (j <= 30)%nat).
  Proof. intros (_ & H & _) He. pose proof (has_lt NN W _ _ _ _ H) as L. split; [assumption|]. intro E. apply even_30; auto. Qed.
  Lemma slopes (c : ctx NN) (a : apoint NN) ki x y j : match ki with Cached => pt_c a <> None | Computable => slope_ok W x y j /\ (slope_ok W x y 0) /\ (j = 0%nat \/ y <> f0) | Unknown => True end ->
    ki <> Unknown -> (pt_c a <> None \/ slope_ok W x y j) /\ (j = 0%nat \/ y <> f0 \/ pt_c a <> None).
  Proof. destruct ki; [tauto|tauto|congruence]. Qed.

  Lemma ready_cpl c o st st' ps : ready c o st st' -> Forall2 (shaped c) ps st ->
    cpl c (run_eop o ps) (fun ps' c' => Forall2 (shaped c') ps' st').
  Proof.
    intros HR HP. destruct HR as [P st|P st Hsl|st|i j ki ei kj ej st Ei Ej Hk He|i ki ei st Ei Hk|i k e st Ei|i j ki kj ej st Ei Ej Hk|i k e st Ei|i k st Ei|P s st Hv]; cbn [run_eop].
    - eapply cpl_bind; [apply (assign_constant_point_cpl NN W HN HW)|]. intros r c1 _ L1 _ [H _]. apply cpl_ret.
      apply Forall2_app1; [now apply (shapes_le c)|]. eexists _, _, _, _, _. split; [exact H|]. split; [reflexivity|]. split; [reflexivity|exact I].
    - eapply cpl_bind; [apply (assign_constant_point_cpl NN W HN HW)|]. intros r c1 _ L1 _ [H _]. apply cpl_ret.
      apply Forall2_app1; [now apply (shapes_le c)|]. eexists _, _, _, _, _. split; [exact H|]. split; [reflexivity|]. split; [reflexivity|]. cbn [fst]. auto.
    - eapply cpl_bind; [apply (assign_identity_cpl NN W HN HW)|]. intros r c1 _ L1 _ (H & Hc & _). apply cpl_ret.
      apply Forall2_app1; [now apply (shapes_le c)|]. eexists _, _, _, _, _. split; [exact H|]. split; [reflexivity|]. split; [reflexivity|exact Hc].
    - eapply cpl_bind; [exact (at_shaped c ps st i _ HP Ei)|]. intros a ? _ _ _ [-> [Ha Na]]. eapply cpl_bind; [exact (at_shaped c ps st j _ HP Ej)|]. intros b ? _ _ _ [-> [Hb Nb]].
      destruct Ha as (xa & ya & za & ia & ja & Ha & Eia & Eja & Ka). destruct Hb as (xb & yb & zb & ib & jb & Hb & Eib & Ejb & _). cbn [fst snd] in *.
      destruct (slopes c a ki xa ya ja Ka Hk) as [K1 K2].
      destruct (y_le _ _ _ _ _ _ _ _ Ha Eja) as [La1 La2]. destruct (y_le _ _ _ _ _ _ _ _ Hb Ejb) as [Lb1 Lb2].
      assert (Hj : (ja + jb < 62)%nat) by (destruct ei; [specialize (La2 eq_refl); lia|]; destruct ej; [specialize (Lb2 eq_refl); lia|discriminate]).
      eapply cpl_bind; [exact (ecc_add_cpl NN W HN HW c a b _ _ _ _ _ _ _ _ _ _ Ha Hb Eia Eib Hj K1)|].
      intros [r a'] c1 _ L1 _ ((Er & x & y & z & i' & j' & Hr & Ei' & Ej' & _) & Ha' & Ca' & _). cbn [fst snd] in *. apply cpl_ret. apply Forall2_app1.
      + apply upd_shaped; [now apply (shapes_le c)|]. exists xa, ya, za, ia, ja. cbn [fst snd]. auto.
      + exists x, y, z, i', j'. split; [assumption|]. split; [assumption|]. cbn [fst snd]. split; [|exact I]. intro E. apply andb_prop in E. destruct E. auto.
    - eapply cpl_bind; [exact (at_shaped c ps st i _ HP Ei)|]. intros a ? _ _ _ [-> [Ha Na]].
      destruct Ha as (xa & ya & za & ia & ja & Ha & Eia & Eja & Ka). cbn [fst snd] in *. destruct (slopes c a ki xa ya ja Ka Hk) as [K1 K2].
      eapply cpl_bind; [exact (ecc_double_cpl NN W HN HW c a _ _ _ _ _ Ha Eia K1)|].
      intros [r a'] c1 _ L1 _ ((Er & x & y & z & i' & Hr & Ei' & _) & Ha' & Ca'). cbn [fst snd] in *. apply cpl_ret. apply Forall2_app1.
      + apply upd_shaped; [now apply (shapes_le c)|]. exists xa, ya, za, ia, ja. cbn [fst snd]. auto.
      + exists x, y, z, i', (lin (ja + 2)). split; [assumption|]. split; [assumption|]. cbn [fst snd]. split; [|exact I]. intro E. apply lin_even. rewrite even_plus2. auto.
    - eapply cpl_bind; [exact (at_shaped c ps st i _ HP Ei)|]. intros a ? _ _ _ [-> [Ha Na]].
      destruct Ha as (xa & ya & za & ia & ja & Ha & Eia & Eja & Ka).
      eapply cpl_bind; [exact (ecc_neg_cpl NN W HN HW c a _ _ _ _ _ Ha)|]. intros r c1 _ L1 _ [_ Hr]. apply cpl_ret.
      apply Forall2_app1; [now apply (shapes_le c)|]. eexists _, _, _, _, _. split; [exact Hr|]. split; [assumption|]. split; [discriminate|exact I].
    - eapply cpl_bind; [exact (at_shaped c ps st i _ HP Ei)|]. intros a ? _ _ _ [-> [Ha Na]]. eapply cpl_bind; [exact (at_shaped c ps st j _ HP Ej)|]. intros b ? _ _ _ [-> [Hb Nb]].
      destruct Ha as (xa & ya & za & ia & ja & Ha & Eia & Eja & Ka). destruct Hb as (xb & yb & zb & ib & jb & Hb & Eib & Ejb & _). cbn [fst snd] in *.
      destruct (slopes c a ki xa ya ja Ka Hk) as [K1 K2].
      destruct (y_le _ _ _ _ _ _ _ _ Ha Eja) as [La1 La2]. specialize (La2 eq_refl). pose proof (lin_lt (jb + 1)) as Lb.
      assert (Hj : (ja + lin (jb + 1) < 62)%nat) by lia.
      eapply cpl_bind; [exact (ecc_sub_cpl NN W HN HW c a b _ _ _ _ _ _ _ _ _ _ Ha Hb Eia Eib Hj K1)|].
      intros [r a'] c1 _ L1 _ ((Er & x & y & z & i' & j' & Hr & Ei') & Ha' & Ca'). cbn [fst snd] in *. apply cpl_ret. apply Forall2_app1.
      + apply upd_shaped; [now apply (shapes_le c)|]. exists xa, ya, za, ia, ja. cbn [fst snd]. auto.
      + exists x, y, z, i', j'. split; [assumption|]. split; [assumption|]. cbn [fst snd]. split; [discriminate|exact I].
    - eapply cpl_bind; [exact (at_shaped c ps st i _ HP Ei)|]. intros a ? _ _ _ [-> [Ha Na]].
      destruct Ha as (xa & ya & za & ia & ja & Ha & Eia & Eja & Ka). cbn [fst snd] in *.
      eapply cpl_bind; [apply cpl_conseq with (P := fun r c' => ((pt_c (fst r) = None /\ has_pt NN W c' (fst r) (if za then f0 else xa) (if za then f0 else ya) (if za then true else za) 0 0) /\
          has_pt NN W c' (snd r) xa ya za 0 0) /\ pt_c (snd r) = pt_c a)|].
      { intro G. destruct (ecc_reduce_cpl NN W HN HW c a _ _ _ _ _ Ha G) as (r & c1 & E & L1 & G1 & H). exists r, c1.
        split; [assumption|]. split; [assumption|]. split; [assumption|]. split; [exact H|]. revert r c1 E L1 G1 H.
        assert (Hy : yields NN (ecc_reduce W a) (fun r => pt_c (snd r) = pt_c a)).
        { unfold ecc_reduce. do 4 (eapply yields_bind; [apply yields_any|intros ? _]). now apply yields_ret. }
        intros r c1 E _ _ _. exact (Hy c r c1 E). }
      { intros r c1 _ _ _ H. exact H. }
      intros [r a'] c1 _ L1 _ (((Er & Hr) & Ha') & Ec). cbn [fst snd] in *. apply cpl_ret. apply Forall2_app1.
      + apply upd_shaped; [now apply (shapes_le c)|]. exists xa, ya, za, 0%nat, 0%nat. split; [assumption|]. split; [reflexivity|]. split; [reflexivity|].
        cbn [fst]. destruct k; [now rewrite Ec|tauto|exact I].
      + eexists _, _, _, _, _. split; [exact Hr|]. split; [reflexivity|]. split; [reflexivity|exact I].
    - eapply cpl_bind; [exact (at_shaped c ps st i _ HP Ei)|]. intros a ? _ _ _ [-> [Ha Na]]. eapply cpl_bind; [exact (at_shaped c ps st i _ HP Ei)|]. intros b ? _ _ _ [-> [_ Nb]].
      rewrite Na in Nb. injection Nb as <-. destruct Ha as (xa & ya & za & ia & ja & Ha & Eia & Eja & Ka). cbn [fst snd] in *.
      pose proof (even_30 _ Eia (has_lt NN W _ _ _ _ (proj1 Ha))) as Li. destruct (y_le _ _ _ _ _ _ _ _ Ha Eja) as [_ Lj]. specialize (Lj eq_refl).
      eapply cpl_bind; [apply (ecc_assert_equal_cpl NN W HN HW c a a _ _ _ _ _ _ _ _ _ _ Ha Ha); [lia|lia|auto]|]. intros [] c1 _ L1 _ _. apply cpl_ret.
      now apply (shapes_le c).
    - eapply cpl_bind; [exact (constant_mul_cpl NN W HN HW c P s Hv)|]. intros r c1 _ L1 _ (x & y & z & i & j & Hr & Ei & Ej). apply cpl_ret.
      apply Forall2_app1; [now apply (shapes_le c)|]. exists x, y, z, i, j. cbn [fst snd]. auto.
  Qed.

  Lemma ready_le c c' o st st' : ctx_le c c' -> ready c o st st' -> ready c' o st st'.
  Proof. intros L H. destruct H; econstructor; eauto. now apply (valid_le NN c). Qed.
  Lemma readys_le c c' os st : ctx_le c c' -> readys c os st -> readys c' os st.
  Proof. intros L H. induction H; econstructor; eauto using ready_le. Qed.
  Lemma readys_cpl os : forall c st ps, readys c os st -> Forall2 (shaped c) ps st -> cpl c (run_ecc os ps) (fun _ _ => True).
  Proof.
    induction os as [|o os IH]; intros c st ps HR HP; cbn [run_ecc]; [now apply cpl_ret|]. inversion HR as [|? ? ? st' H1 H2]; subst.
    eapply cpl_bind; [exact (ready_cpl c o st st' ps H1 HP)|]. intros ps' c1 _ L1 _ HP'. apply (IH c1 st' ps'); [now apply (readys_le c)|assumption].
  Qed.
End Ready.
