(** The measuring pass (Measure.v) against the real one: rows. *)
From Coq Require Import String ZArith Arith NArith Lia List Bool.
From Verif Require Import Util Algebra ListFacts PField Gate GateProofs Integer Curve Ecc EccScalar Schema Plonk Poseidon BuildParams Calls CallOrder VerifierCalls VerifierCallsTop
  VerifyCircuit CircuitRun Shape ShapeRun Measure MeasureForms.
Import ListNotations.

(** ** Contexts related by their number of rows only *)
Section Rows.
  Variables N W : PF.
  Variable P : nat -> nat -> Prop.
  Hypothesis shift : forall a b n, P a b -> P (a + n) (b + n).
  Definition RP (c1 c2 : ctx N) : Prop := P (offset c1) (offset c2).
  Local Notation shp := (shp N RP).
  Local Notation ra := (fun _ _ : aval N => True).
  Local Notation RT := (RT N ra).
  Local Notation RI := (RI N ra).

  Lemma all_related (l1 l2 : list (aval N)) : length l1 = length l2 -> Forall2 ra l1 l2.
  Proof. revert l2. induction l1 as [|a l1 IH]; intros [|b l2] E; try discriminate; constructor; [exact I|]. apply IH. now injection E. Qed.
  Lemma line_any ps1 ps2 k1 k2 m1 m2 n1 n2 : shp (one_line ps1 k1 m1 n1) (one_line ps2 k2 m2 n2) (Forall2 ra).
  Proof.
    unfold one_line. eapply (shp_bind N RP); [apply shp_guard|intros _ _ _]. eapply (shp_bind N RP); [apply shp_guard|intros _ _ _].
    intros c1 c2 H r1 d1 r2 d2 F1 F2. injection F1 as <- <-. injection F2 as <- <-. split.
    - unfold RP. cbn [offset]. rewrite <- (Nat.add_1_r (offset c1)), <- (Nat.add_1_r (offset c2)). apply shift. exact H.
    - apply all_related. now rewrite !cells_of_length, !resize_length.
  Qed.
  Lemma rows_line (ps1 ps2 : list (vschema N * N)) k mc nx : Forall2 (both (RS N ra) eq) ps1 ps2 -> shp (one_line ps1 k mc nx) (one_line ps2 k mc nx) (Forall2 ra).
  Proof. intros _. apply line_any. Qed.
  Lemma rows_rline {V : PF} b l (ps1 ps2 : list (vschema N * N)) k mc nx : configured N V b l -> Forall2 (both (RS N ra) eq) ps1 ps2 ->
    shp (one_line_in_range b l ps1 k mc nx) (one_line_in_range b l ps2 k mc nx) (Forall2 ra).
  Proof.
    intros _ _ c1 c2 HC r1 d1 r2 d2. unfold one_line_in_range.
    destruct (one_line ps1 k mc nx c1) as [[x1 e1]|] eqn:F1; [|discriminate]. destruct (one_line ps2 k mc nx c2) as [[x2 e2]|] eqn:F2; [|discriminate].
    destruct (line_any _ _ _ _ _ _ _ _ c1 c2 HC _ _ _ _ F1 F2) as [A R]. intros G1 G2. injection G1 as <- <-. injection G2 as <- <-. split; assumption.
  Qed.
  (** the constants of a line do not matter *)
  Lemma swc_any l1 l2 k1 k2 : Forall2 (RE N ra) l1 l2 -> shp (Gate.sum_with_constant l1 k1) (Gate.sum_with_constant l2 k2) ra.
  Proof.
    intros H. unfold Gate.sum_with_constant. eapply (shp_bind N RP); [rewrite (F2_len _ _ _ H); apply (sum_loop_shp N RP ra rows_line); [exact H|exact I]|].
    intros [r1 a1] [r2 a2] [H1 H2]. cbn [fst snd] in *. cbv zeta.
    eapply (shp_bind N RP) with (R := Forall2 ra); [|intros x y Hx; apply (shp_at N RP); exact Hx].
    destruct a1, a2; cbn in H2; try contradiction; [|apply line_any]. unfold one_line_with_last_base. eapply (shp_bind N RP); [apply shp_guard|intros _ _ _]. apply line_any.
  Qed.
  Lemma shp_post {A1 A2} (m1 : B N A1) (m2 : B N A2) (R : A1 -> A2 -> Prop) Q1 Q2 : shp m1 m2 R -> post N m1 Q1 -> post N m2 Q2 -> shp m1 m2 (fun a b => R a b /\ Q1 a /\ Q2 b).
  Proof. intros H H1 H2 c1 c2 HC r1 d1 r2 d2 E1 E2. destruct (H c1 c2 HC _ _ _ _ E1 E2) as [A B0]. split; [exact A|]. split; [exact B0|]. split; [exact (H1 _ _ _ E1)|exact (H2 _ _ _ E2)]. Qed.
End Rows.
Arguments RP {N} _ _ _.

Lemma windows_post (N : PF) (s : aval N) : post N (decompose_scalar CONFIG_WINDOW_SIZE s) (Forall (fun w => length w = 4)).
Proof.
  assert (L : forall bits last next, post N (decompose_line CONFIG_WINDOW_SIZE bits last next) (fun w => length w = 4)).
  { intros. unfold decompose_line. cbv zeta. eapply post_bind with (Q := fun cells => length cells = 5).
    - unfold one_line_with_last_base, one_line. do 3 (eapply post_bind; [apply post_any|intros ? _]). intros c r c' E. injection E as <- _. now rewrite cells_of_length, resize_length.
    - intros cells E. apply post_ret. rewrite firstn_length, E. reflexivity. }
  assert (K : forall n z, post N (decompose_mid CONFIG_WINDOW_SIZE n z) (fun r => Forall (fun w => length w = 4) (fst r))).
  { induction n as [|n IH]; intro z; cbn [decompose_mid]; [apply post_ret; constructor|]. destruct (decompose_bits _ _) as [b t]. eapply post_bind; [apply L|intros x Hx].
    eapply post_bind; [apply IH|intros r Hr]. apply post_ret. constructor; assumption. }
  unfold decompose_scalar. destruct (decompose_bits _ _) as [b t]. eapply post_bind; [apply L|intros x Hx]. eapply post_bind; [apply K|intros [ls t'] Hr]. cbn [fst] in Hr.
  destruct (decompose_bits _ t') as [b' t'']. eapply post_bind; [apply L|intros y Hy]. cbv zeta. eapply post_bind; [apply post_any|intros ? _]. apply post_ret.
  apply Forall_rev. constructor; [exact Hx|]. apply Forall_app. auto.
Qed.

Section Compare.
  Variables N W : PF.
  Variable P : nat -> nat -> Prop.
  Hypothesis shift : forall a b n, P a b -> P (a + n) (b + n).
  Local Notation RC := (@RP N P).
  Local Notation shp := (shp N RC).
  Local Notation ra := (fun _ _ : aval N => True).
  Local Notation RT := (RT N ra).
  Local Notation RI := (RI N ra).
  Local Notation line := (rows_line N P shift).
  Local Notation rline := (rows_rline N P shift).
  Local Notation post := (post N).
  Local Ltac next := eapply (shp_bind N RC).

  (** ** The inner sum, in two different rounds *)
  Definition RQ := both (Forall2 RT) (fun w1 w2 : list (list (aval N)) => Forall (fun w => length w = 4) w1 /\ Forall (fun w => length w = 4) w2).
  Lemma inner_any ps1 ps2 : Forall2 RQ ps1 ps2 -> forall wi wj a1 a2, RO RT a1 a2 -> shp (shamir_inner W ps1 wi a1) (shamir_inner W ps2 wj a2) RT.
  Proof.
    induction 1 as [|[c1 w1] [c2 w2] ps1 ps2 [HC [HW1 HW2]] H IH]; intros wi wj a1 a2 HA; cbn [shamir_inner fst snd] in *.
    - destruct a1, a2; cbn in HA; try contradiction; [apply shp_ret; exact HA|apply shp_panic_l].
    - next; [apply (shp_post N P _ _ any (fun w => length w = 4) (fun w => length w = 4)); [|apply post_at; exact HW1|apply post_at; exact HW2]|].
      { unfold at_. destruct (nth_error w1 wi); [|apply shp_panic_l]. destruct (nth_error w2 wj); [|apply shp_panic_r]. apply shp_ret. exact I. }
      intros b1 b2 (_ & L1 & L2). next; [apply (pick_shp N W RC ra line rline); [apply all_related; congruence|exact HC]|intros ? ? ?].
      destruct a1, a2; cbn in HA; try contradiction; [|apply IH; assumption].
      next; [apply (ecc_add_shp N W RC ra line rline); assumption|intros ? ? [? ?]]. apply IH. assumption.
  Qed.
End Compare.

(** ** Forms of the inner sum *)
Section Inner.
  Variables N W : PF.
  Local Notation post := (post N).
  (** the table of a point without overflow, and its windows *)
  Definition tabled (p : list (apoint N) * list (list (aval N))) : Prop := Forall2 (has N) (fst p) table /\ Forall (fun w => length w = 4) (snd p).
  Lemma table_small : Forall small table.
  Proof. repeat constructor. Qed.
  Lemma one_pick p wi : tabled p -> post (bits <- at_ (snd p) wi ;; pick_candidate W (fst p) bits) (fun c => has N c (28, 28) /\ ready N c).
  Proof.
    intros [H1 H2]. eapply post_bind; [apply post_at; exact H2|intros b Hb]. cbn beta in Hb. eapply post_weaken; [apply (pick_post N W b (fst p) table H1 table_small); left; destruct b; discriminate|].
    intros c [A B0]. rewrite Hb in A. split; [exact A|exact B0].
  Qed.
  Lemma inner_more ps wi : Forall tabled ps -> forall a, has N a (28, 28) \/ bare N a (28, 30) -> ps <> [] \/ bare N a (28, 30) ->
    post (shamir_inner W ps wi (Some a)) (fun r => bare N r (28, 30)).
  Proof.
    induction 1 as [|[cs ws] ps Hp H IH]; intros a Ha Hb; cbn [shamir_inner].
    - destruct Hb as [Hb|Hb]; [destruct (Hb eq_refl)|]. apply post_ret. exact Hb.
    - destruct Hp as [H1 H2]. cbn [fst snd] in *. eapply post_bind; [apply post_at; exact H2|intros b Eb]. cbn beta in Eb.
      eapply post_bind; [apply (pick_post N W b cs table H1 table_small); left; destruct b; discriminate|]. rewrite Eb. intros c [Hc _]. change (fpick 4 table) with (28, 28) in Hc.
      assert (Ha' : exists g, has N a g /\ fadd (28, 28) g = (28, 30)) by (destruct Ha as [Ha|[Ha _]]; eexists; (split; [exact Ha|reflexivity])).
      destruct Ha' as (g & Hg & Eg). eapply post_bind; [apply (add_post N W c a (28, 28) g Hc Hg); cbn; lia|]. rewrite Eg. intros r [Hr _]. apply IH; right; exact Hr.
  Qed.
  Definition inner_form (one : bool) (p : apoint N) : Prop := if one then has N p (28, 28) /\ ready N p else bare N p (28, 30).
  Lemma inner_post ps wi : Forall tabled ps -> ps <> [] -> post (shamir_inner W ps wi None) (inner_form (length ps =? 1)).
  Proof.
    intros H Hne. destruct H as [|[cs ws] ps Hp H]; [destruct (Hne eq_refl)|]. cbn [shamir_inner]. destruct Hp as [H1 H2]. cbn [fst snd] in *.
    eapply post_bind; [apply post_at; exact H2|intros b Eb]. cbn beta in Eb.
    eapply post_bind; [apply (pick_post N W b cs table H1 table_small); left; destruct b; discriminate|]. rewrite Eb. intros c [Hc Hc']. change (fpick 4 table) with (28, 28) in Hc.
    destruct ps as [|p ps]; [cbn; apply post_ret; split; assumption|]. change (length ((cs, ws) :: p :: ps) =? 1) with false. cbn [inner_form]. apply inner_more; [exact H|left; exact Hc|left; discriminate].
  Qed.
  (** the sum so far, doubled *)
  Definition doubled (p : apoint N) : Prop := has N p (28, 6) \/ has N p (28, 4).
  Lemma double_acc one a : inner_form one a -> post (repeat_double W CONFIG_WINDOW_SIZE a) (if one then doubled else fun r => has N r (28, 6)).
  Proof.
    assert (S : forall f, has N a f -> snd f < 32 -> post (repeat_double W 4 a) (fun r => has N r (fdoubles 4 f))) by (intros f H1 H2; exact (doubles_post N W 4 a f H1 H2)).
    unfold inner_form. destruct one; intro H.
    - eapply post_weaken; [apply (S (28, 28)); [exact (proj1 H)|cbn; lia]|]. intros r Hr. right. exact Hr.
    - apply (S (28, 30)); [exact (proj1 H)|cbn; lia].
  Qed.
  Lemma round_acc one c a : inner_form one c -> doubled a -> post (ecc_add W c a) (fun r => bare N (fst r) (28, 30)).
  Proof.
    intros Hc Ha. assert (S : forall f g, has N c f -> has N a g -> snd f < 32 -> fadd f g = (28, 30) -> post (ecc_add W c a) (fun r => bare N (fst r) (28, 30))).
    { intros f g H1 Hg H2 <-. eapply post_weaken; [exact (add_post N W c a f g H1 Hg H2)|]. intros r [H _]. exact H. }
    unfold inner_form in Hc. destruct one, Ha as [Ha|Ha]; apply (S _ _ (proj1 Hc) Ha); try reflexivity; cbn; lia.
  Qed.
End Inner.

(** ** One point: the measuring pass adds the sum so far instead of what is picked *)
Section One.
  Variables N W : PF.
  Local Notation ra := (fun _ _ : aval N => True).
  Local Notation RT := (RT N ra).
  Local Notation RI := (RI N ra).
  Lemma ro_refl {A} (R : A -> A -> Prop) (o : option A) : (forall a, R a a) -> RO R o o.
  Proof. intro H. destruct o; cbn; auto. Qed.
  Lemma ri_refl (a : aint N) : RI a a.
  Proof. constructor; auto. now apply ro_refl. Qed.
  Lemma rt_refl (p : apoint N) : RT p p.
  Proof. constructor; auto using ri_refl. apply ro_refl. intro c. constructor; auto using ri_refl. Qed.
  (** rows are only ever added *)
  Definition grows {A} (m : B N A) : Prop := forall c a c', m c = Some (a, c') -> offset c <= offset c'.
  Lemma grows_of {A} (m : B N A) : (forall P : nat -> nat -> Prop, (forall a b n, P a b -> P (a + n) (b + n)) -> exists R : A -> A -> Prop, Shape.shp N (RP P) m m R) -> grows m.
  Proof.
    intros H c a c' E. destruct (H (fun x _ => offset c <= x)) as (R & S); [intros; lia|]. destruct (S c c (le_n _) _ _ _ _ E E) as [K _]. exact K.
  Qed.
  Lemma reduce_grows a : grows (int_reduce W a).
  Proof. apply grows_of. intros P HP. eexists. eapply (int_reduce_shp N W (RP P) ra (rows_line N P HP) (rows_rline N P HP)), ri_refl. Qed.
  Lemma curvature_grows a : grows (curvature W a).
  Proof. apply grows_of. intros P HP. eexists. eapply (curvature_shp N W (RP P) ra (rows_line N P HP) (rows_rline N P HP)), rt_refl. Qed.

  Variable P : nat -> nat -> Prop.
  Hypothesis shift : forall a b n, P a b -> P (a + n) (b + n).
  Hypothesis weak : forall a b n, P a b -> P a (b + n).
  Local Notation RC := (@RP N P).
  Local Notation shp := (shp N RC).
  Local Notation line := (rows_line N P shift).
  Local Notation rline := (rows_rline N P shift).
  Local Notation post := (post N).
  Local Ltac next := eapply (shp_bind N RC).
  Lemma more_rows {A1 A2} (a1 : A1) (m : B N A2) (R : A1 -> A2 -> Prop) : grows m -> post m (R a1) -> shp (ret a1) m R.
  Proof.
    intros G H c1 c2 HC r1 d1 r2 d2 E1 E2. injection E1 as <- <-. split; [|exact (H _ _ _ E2)]. unfold RP in *. pose proof (G _ _ _ E2) as L.
    replace (offset d2) with (offset c2 + (offset d2 - offset c2)) by lia. apply weak. exact HC.
  Qed.
  Lemma reduce_any a1 a2 : overflows a1 <> 0 -> overflows a2 <> 0 -> RO ra (native_of a1) (native_of a2) -> shp (int_reduce W a1) (int_reduce W a2) RI.
  Proof.
    intros H1 H2 HN. unfold int_reduce. apply Nat.eqb_neq in H1, H2. rewrite H1, H2. next; [apply shp_guard|intros _ _ _]. cbv zeta. next; [apply shp_guard|intros _ _ _].
    next; [apply (assign_w_shp N W RC ra rline)|intros r1 r2 Hr]. next; [apply (@rows_rline N P shift W); [split; [reflexivity|exact I]|repeat constructor]|intros ? ? H]. do 2 (next; [apply (shp_at N RC ra); exact H|intros ? ? _]).
    next; [apply (int_native_shp N RC ra line), Hr|intros n1 n2 [_ Hn]]. next.
    { unfold int_native. destruct (native_of a1), (native_of a2); cbn in HN; try contradiction; [apply (shp_ret N RC) with (R := any); exact I|].
      next; [apply (swc_any N P shift); repeat constructor|intros ? ? _]. apply shp_ret. exact I. }
    intros m1 m2 _. unfold one_line_add. do 2 (next; [apply line_any; exact shift|intros ? ? _]). apply shp_ret. exact Hn.
  Qed.
  (** an addition or subtraction that is followed by a reduction in the measuring pass at
      least when it is in the real one *)
  Lemma sub_le a1 b1 a2 b2 : (32 <= overflows a1 + (overflows b1 + 1) + 1 -> 32 <= overflows a2 + (overflows b2 + 1) + 1) ->
    shp (int_sub W a1 b1) (int_sub W a2 b2) (fun r1 r2 => 32 <= overflows a1 + (overflows b1 + 1) + 1 -> RI r1 r2).
  Proof.
    intros H. unfold int_sub. eapply (shp_bind N RC) with (R := any); [destruct (find_w_modulus_ceil _ (overflows b1)); [|apply shp_panic_l]; destruct (find_w_modulus_ceil _ (overflows b2)); [|apply shp_panic_r]; apply shp_ret; exact I|].
    intros [[[u0 u1] u2] u3] [[[v0 v1] v2] v3] _. do 4 (next; [apply (swc_any N P shift); repeat constructor|intros ? ? _]). unfold conditionally_reduce. cbn [overflows]. unfold OVERFLOW_THRESHOLD.
    destruct (Nat.leb_spec 32 (overflows a1 + (overflows b1 + 1) + 1)) as [L1|L1].
    - specialize (H L1). apply Nat.leb_le in H. rewrite H. apply Nat.leb_le in H. eapply shp_weaken; [apply reduce_any; [cbn; lia|cbn; lia|exact I]|auto].
    - destruct (32 <=? _); [|apply shp_ret; lia]. apply more_rows; [apply reduce_grows|]. eapply post_weaken; [apply post_any|]. intros; lia.
  Qed.
  (** the same overflows: the caches do not matter *)
  Lemma sub_same a1 b1 a2 b2 : overflows a1 = overflows a2 -> overflows b1 = overflows b2 -> shp (int_sub W a1 b1) (int_sub W a2 b2) RI.
  Proof.
    intros H K. unfold int_sub. rewrite H, K. next; [apply opt_shp|]. intros u ? <-. destruct u as [[[u0 u1] u2] u3].
    do 4 (next; [apply (swc_any N P shift); repeat constructor|intros ? ? _]). apply (cred_shp N W RC ra line rline). constructor; auto. reflexivity.
  Qed.
  Lemma bisec_same c1 c2 a1 a2 b1 b2 : Nat.max (overflows a1) (overflows b1) = Nat.max (overflows a2) (overflows b2) -> shp (int_bisec c1 a1 b1) (int_bisec c2 a2 b2) RI.
  Proof.
    intro H. eapply shp_weaken; [apply (shp_post N P _ _ any); [|apply bisec_post|apply bisec_post]|].
    - unfold int_bisec. do 4 (next; [apply (bisec_shp N RC ra line); exact I|intros ? ? _]). apply shp_ret. exact I.
    - intros r1 r2 (_ & [A1 A2] & [B1 B2]). constructor; auto; [rewrite A2, B2; exact I|congruence].
  Qed.
  Lemma bisec_rows c1 c2 (a1 a2 b1 b2 : aint N) : shp (int_bisec c1 a1 b1) (int_bisec c2 a2 b2) any.
  Proof. unfold int_bisec. do 4 (next; [apply (bisec_shp N RC ra line); exact I|intros ? ? _]). apply shp_ret. exact I. Qed.

  Lemma add_le a1 a2 b1 b2 : has N a1 (28, 28) -> ready N a1 -> bare N a2 (28, 30) -> has N b1 (28, 6) -> has N b2 (28, 6) ->
    shp (ecc_add W a1 b1) (ecc_add W a2 b2) (fun r1 r2 => RT (fst r1) (fst r2)).
  Proof.
    intros H1 R1 [H2 (N2 & M2 & C2)] HB1 HB2.
    pose proof H1 as [X1 Y1 S1]. pose proof H2 as [X2 Y2 _]. pose proof HB1 as [BX1 BY1 _]. pose proof HB2 as [BX2 BY2 _]. destruct R1 as (NX & NY & NC). cbn [fst snd] in *.
    unfold ecc_add. next; [apply sub_same; congruence|intros dx1 dx2 Hdx]. next; [apply sub_le; lia|intros dy1 dy2 Hdy]. specialize (Hdy ltac:(lia)).
    next; [apply (int_div_shp N W RC ra line rline); assumption|]. intros [[[z1 v1] p1] q1] [[[z2 v2] p2] q2] [[[Z V] PP] Q]. cbn [fst snd] in *.
    next; [apply (int_is_zero_shp N W RC ra line rline); exact PP|intros e1 e2 He]. next; [apply (and_shp N RC ra line); exact I|intros eq1 eq2 _].
    eapply (shp_bind N RC) with (R := fun r1 r2 => snd r1 = a1 /\ overflows (cv_v (fst r1)) = 0 /\ has N (snd r2) (28, 30) /\ overflows (cv_v (fst r2)) = 0).
    { unfold curvature at 1. destruct (pt_c a1) as [c|] eqn:EC; [|destruct NC]. cbn in S1. apply more_rows; [apply curvature_grows|]. eapply post_weaken; [apply (curv_post N W a2 (28, 30) H2); cbn; lia|].
      intros r [A B0]. cbn [fst snd]. split; [reflexivity|]. split; [exact S1|]. split; assumption. }
    intros [c1 a1'] [c2 a2'] (E & O1 & H2' & O2). cbn [fst snd] in *. subst a1'. pose proof H2' as [X2' Y2' _]. cbn [fst snd] in *. clear C2 NC.
    eapply (shp_bind N RC) with (R := RV N ra).
    { eapply shp_weaken; [apply (shp_post N P _ _ (fun r1 r2 => RI (cv_v r1) (cv_v r2)) (fun _ => True) (fun _ => True)); [|apply post_any|apply post_any]|].
      - unfold bisec_curvature. next; [apply bisec_same; cbn [cv_v]; rewrite O1, O2, (rio _ _ _ _ V); reflexivity|intros w1 w2 Hw]. next; [apply (bisec_shp N RC ra line); exact I|intros ? ? _]. apply shp_ret. exact Hw.
      - intros w1 w2 (A & _). constructor; [exact A|exact I]. }
    intros l1 l2 Hl.
    eapply (shp_bind N RC) with (R := fun r1 r2 => overflows (pt_x r1) = overflows (pt_x r2) /\ overflows (pt_y r1) = 30 /\ overflows (pt_y r2) = 0).
    { eapply shp_weaken; [apply (shp_post N P _ _ (fun r1 r2 => overflows (pt_x r1) = overflows (pt_x r2))); [|apply (line_post N W l1 a1 b1 _ _ H1 HB1)|apply (line_post N W l2 a2' b2 _ _ H2' HB2)]|].
      - unfold lambda_to_point. next; [apply (int_square_shp N W RC ra line rline), (rvv _ _ _ _ Hl)|]. intros [s1 t1] [s2 t2] [S T]. cbn [fst snd] in *.
        next; [apply sub_same; [exact (rio _ _ _ _ S)|congruence]|intros u1 u2 U]. next; [apply sub_same; [exact (rio _ _ _ _ U)|congruence]|intros x1 x2 X].
        next; [apply sub_same; [congruence|exact (rio _ _ _ _ X)]|intros w1 w2 Hw]. next; [apply (shp_post N P); [apply (int_mul_shp N W RC ra line rline); [exact Hw|exact T]|apply mul_post|apply mul_post]|].
        intros [[m1 ?] ?] [[m2 ?] ?] (_ & O3 & O4). cbn [fst snd] in *. next; [apply sub_le; lia|intros ? ? _]. apply shp_ret. cbn. exact (rio _ _ _ _ X).
      - intros r1 r2 (A & [[_ A2 _] _] & [[_ B2 _] _]). split; [exact A|]. split; [exact A2|exact B2]. }
    intros p1' p2' (PX & PY1 & PY2).
    eapply (shp_bind N RC) with (R := fun r1 r2 => overflows (pt_x r1) = overflows (pt_x r2) /\ overflows (pt_y r1) = 30 /\ overflows (pt_y r2) = 6).
    { unfold bisec_point. next; [apply bisec_same; rewrite PX, BX1, BX2; reflexivity|intros x1 x2 HX]. next; [apply (shp_post N P _ _ any); [apply bisec_rows|apply bisec_post|apply bisec_post]|].
      intros y1 y2 (_ & [A1 _] & [B1 _]). next; [apply (bisec_shp N RC ra line); exact I|intros ? ? _]. apply shp_ret. cbn. rewrite PY1, BY1 in A1. rewrite PY2, BY2 in B1. split; [exact (rio _ _ _ _ HX)|]. split; assumption. }
    intros r1 r2 (RX & RY1 & RY2). eapply (shp_bind N RC) with (R := RT).
    - unfold bisec_point. next; [apply bisec_same; congruence|intros x1 x2 HX]. next; [apply bisec_same; rewrite Y1, Y2', RY1, RY2; reflexivity|intros y1 y2 HY].
      next; [apply (bisec_shp N RC ra line); exact I|intros ? ? _]. apply shp_ret. constructor; cbn; auto.
    - intros s1 s2 Hs. apply shp_ret. exact Hs.
  Qed.
End One.

(** ** Rows of the inner sum: the same in every round *)
Lemma inner_rows (N W : PF) ps1 ps2 wi wj (c1 c2 d1 d2 : ctx N) r1 r2 : Forall2 (RQ N) ps1 ps2 ->
  shamir_inner W ps1 wi None c1 = Some (r1, d1) -> shamir_inner W ps2 wj None c2 = Some (r2, d2) -> offset d1 = offset c1 + (offset d2 - offset c2).
Proof.
  intros H E1 E2.
  destruct (inner_any N W (fun a b => a + offset c2 = b + offset c1) ltac:(cbn beta; intros; lia) ps1 ps2 H wi wj None None I c1 c2 ltac:(unfold RP; cbn beta; lia) _ _ _ _ E1 E2) as [K _].
  destruct (inner_any N W (fun a b => offset c2 <= b) ltac:(cbn beta; intros; lia) ps1 ps2 H wi wj None None I c1 c2 ltac:(unfold RP; cbn beta; lia) _ _ _ _ E1 E2) as [L _].
  unfold RP in *. cbn beta in *. lia.
Qed.
Lemma bmap_length {N : PF} {A A'} (f : A -> B N A') l : post N (bmap f l) (fun r => length r = length l).
Proof.
  induction l as [|a l IH]; cbn [bmap]; [apply post_ret; reflexivity|]. eapply post_bind; [apply post_any|intros x _]. eapply post_bind; [exact IH|intros r Hr]. apply post_ret. cbn. now rewrite Hr.
Qed.

Section Shamir.
  Variables N W : PF.
  Variable P : nat -> nat -> Prop.
  Hypothesis shift : forall a b n, P a b -> P (a + n) (b + n).
  (** [single]: sums of one point are considered *)
  Variable single : bool.
  Hypothesis weak : single = true -> forall a b n, P a b -> P a (b + n).
  Local Notation RC := (@RP N P).
  Local Notation shp := (shp N RC).
  Local Notation ra := (fun _ _ : aval N => True).
  Local Notation RT := (RT N ra).
  Local Notation line := (rows_line N P shift).
  Local Notation rline := (rows_rline N P shift).
  Local Notation post := (post N).
  Local Ltac next := eapply (shp_bind N RC).
  Lemma bare_rt a b f : bare N a f -> bare N b f -> RT a b.
  Proof.
    intros [[A1 A2 _] (A4 & A5 & A6)] [[B1 B2 _] (B4 & B5 & B6)]. constructor; auto; [constructor; auto; [rewrite A4, B4; exact I|congruence]|constructor; auto; [rewrite A5, B5; exact I|congruence]|].
    rewrite A6, B6. exact I.
  Qed.
  Local Notation tables := (list (list (apoint N) * list (list (aval N)))).
  (** two runs on the same points *)
  Record paired (ps1 ps2 : tables) : Prop := mkPaired {
    pr_rel : Forall2 (RQ N) ps1 ps2; pr_1 : Forall (tabled N) ps1; pr_2 : Forall (tabled N) ps2; pr_ne : ps1 <> []; pr_one : length ps1 = 1 -> single = true }.
  Lemma paired_length ps1 ps2 : paired ps1 ps2 -> length ps1 = length ps2.
  Proof. intros [H _ _ _ _]. exact (F2_len _ _ _ H). Qed.
  Lemma paired_ne ps1 ps2 : paired ps1 ps2 -> ps2 <> [].
  Proof. intros [H _ _ Hn _]. destruct H; [auto|discriminate]. Qed.

  (** an inner sum against the rows it takes *)
  Lemma inner_expand ps1 wi n (p : apoint N) : (forall c r c', shamir_inner W ps1 wi None c = Some (r, c') -> offset c' = offset c + n) ->
    Forall (tabled N) ps1 -> ps1 <> [] ->
    shp (shamir_inner W ps1 wi None) (expand n (pt_z p) ;;; ret (n, p)) (fun r1 r2 => inner_form N (length ps1 =? 1) r1 /\ r2 = (n, p)).
  Proof.
    intros Hn HT Hne c1 c2 HC r1 d1 r2 d2 E1 E2. unfold bind, expand, ret in E2. destruct (offset c2 + n =? 0); [discriminate|]. injection E2 as <- <-.
    split; [|split; [exact (inner_post N W ps1 wi HT Hne _ _ _ E1)|reflexivity]]. unfold RP in *. rewrite (Hn _ _ _ E1). cbn [offset]. apply shift. exact HC.
  Qed.
  Lemma later_rounds ps1 ps2 n : paired ps1 ps2 -> (forall wi c r c', shamir_inner W ps1 wi None c = Some (r, c') -> offset c' = offset c + n) ->
    forall wis a1 a2, bare N a1 (28, 30) -> bare N a2 (28, 30) -> shp (shamir_loop W ps1 wis (Some a1)) (shamir_loop_measured W ps2 wis (Some a2) (Some n)) RT.
  Proof.
    intros H Hn. induction wis as [|wi wis IH]; intros a1 a2 H1 H2; cbn [shamir_loop shamir_loop_measured]; [apply shp_ret; exact (bare_rt _ _ _ H1 H2)|].
    cbn [get_inner]. next; [apply inner_expand; [intros c r c'; apply Hn|exact (pr_1 _ _ H)|exact (pr_ne _ _ H)]|]. intros i1 [m i2] [Hi E]. injection E as -> ->.
    replace (if wi =? 0 then Some n else Some n) with (Some n) by (destruct (wi =? 0); reflexivity).
    next; [apply (shp_post N P); [apply (rdouble_shp N W RC ra line rline), (bare_rt _ _ _ H1 H2)|apply (double_acc N W false), H1|apply (double_acc N W false), H2]|]. intros b1 b2 (HB & HB1 & HB2). cbn beta in *.
    next; [apply (shp_post N P _ _ (fun _ _ => True)); [|apply (round_acc N W _ i1 b1 Hi); left; exact HB1|apply (round_acc N W false a2 b2 H2); left; exact HB2]|intros s1 s2 (_ & S1 & S2); apply IH; assumption].
    destruct (length ps1 =? 1) eqn:E.
    - destruct Hi as [Hi1 Hi2]. eapply shp_weaken; [apply (add_le N W P shift); try eassumption; apply weak; exact (pr_one _ _ H (proj1 (Nat.eqb_eq _ _) E))|auto].
    - eapply shp_weaken; [apply (ecc_add_shp N W RC ra line rline); [exact (bare_rt _ _ _ Hi H2)|exact HB]|auto].
  Qed.
  Lemma measured_inner ps1 ps2 wi acc : paired ps1 ps2 -> shp (shamir_inner W ps1 wi None) (get_inner W ps2 wi acc None) (fun r1 r2 =>
    RT r1 (snd r2) /\ inner_form N (length ps1 =? 1) r1 /\ inner_form N (length ps1 =? 1) (snd r2) /\
    (forall wj c r c', shamir_inner W ps1 wj None c = Some (r, c') -> offset c' = offset c + fst r2)).
  Proof.
    intros H c1 c2 HC r1 d1 r2 d2 E1 E2. unfold get_inner, bind, rows, ret in E2. destruct (shamir_inner W ps2 wi None c2) as [[i e]|] eqn:E3; [|discriminate]. injection E2 as <- <-.
    destruct (inner_any N W P shift ps1 ps2 (pr_rel _ _ H) wi wi None None I c1 c2 HC _ _ _ _ E1 E3) as [A B0]. split; [exact A|]. cbn [fst snd]. split; [exact B0|].
    split; [exact (inner_post N W ps1 wi (pr_1 _ _ H) (pr_ne _ _ H) _ _ _ E1)|]. split.
    - rewrite (paired_length _ _ H). exact (inner_post N W ps2 wi (pr_2 _ _ H) (paired_ne _ _ H) _ _ _ E3).
    - intros wj c r c' E. exact (inner_rows N W ps1 ps2 wj wi c c2 c' e r i (pr_rel _ _ H) E E3).
  Qed.
  Lemma all_rounds ps1 ps2 n : paired ps1 ps2 -> shp (shamir_loop W ps1 (seq 0 n) None) (shamir_loop_measured W ps2 (seq 0 n) None None) RT.
  Proof.
    intros H. destruct n as [|n]; [apply shp_panic_l|]. cbn [seq shamir_loop shamir_loop_measured]. next; [apply measured_inner; exact H|]. intros a1 [m a2] (A & F1 & F2 & _). cbn [fst snd Nat.eqb] in *.
    destruct n as [|n]; [apply shp_ret; exact A|]. cbn [seq shamir_loop shamir_loop_measured]. next; [apply measured_inner; exact H|]. intros i1 [k i2] (A' & G1 & G2 & Hk). cbn [fst snd Nat.eqb] in *.
    assert (D : forall a, inner_form N (length ps1 =? 1) a -> post (repeat_double W CONFIG_WINDOW_SIZE a) (doubled N)).
    { intros a Ha. eapply post_weaken; [apply (double_acc N W _ a Ha)|]. destruct (length ps1 =? 1); [auto|]. intros r Hr. left. exact Hr. }
    next; [apply (shp_post N P); [apply (rdouble_shp N W RC ra line rline), A|apply D, F1|apply D, F2]|]. intros b1 b2 (HB & HB1 & HB2). cbn beta in *.
    next; [apply (shp_post N P); [apply (ecc_add_shp N W RC ra line rline); [exact A'|exact HB]|apply (round_acc N W _ i1 b1 G1 HB1)|apply (round_acc N W _ i2 b2 G2 HB2)]|].
    intros s1 s2 (_ & S1 & S2). apply (later_rounds ps1 ps2 k H Hk); assumption.
  Qed.
  Definition plain (p : apoint N) : Prop := has N p (0, 0).
  Lemma shamir_rows p1 p2 s1 s2 : Forall2 RT p1 p2 -> Forall plain p1 -> Forall plain p2 -> Forall2 ra s1 s2 -> (length p1 = 1 -> single = true) ->
    shp (shamir W p1 s1) (shamir_measured W p2 s2) RT.
  Proof.
    intros HP P1 P2 HS Hone. unfold shamir, shamir_measured. next; [apply (shp_post N P _ _ any); [apply shp_guard|apply post_guard|apply post_any]|intros _ _ (_ & L & _)]. apply Nat.eqb_eq in L.
    next; [apply (shp_post N P); [apply (shp_bmap N RC ra (fun w1 w2 => RW N ra w1 w2 /\ Forall (fun w => length w = 4) w1 /\ Forall (fun w => length w = 4) w2)); [exact HS|intros x y _; apply (shp_post N P); [apply (decompose_shp N RC ra line); exact I|apply windows_post|apply windows_post]]|apply bmap_length|apply post_any]|].
    intros w1 w2 (HW & LW & _). cbn beta in *. next; [apply (shp_post N P); [apply (identity_shp N W RC ra line)|apply identity_post|apply identity_post]|intros i1 i2 (HI & HI1 & HI2)].
    assert (K : forall i a, plain i -> plain a -> post (rest <- build_candidates_with_curvature W 14 a a ;; ret (i :: rest)) (fun l => Forall2 (has N) l table)).
    { intros i a Hi Ha. eapply post_bind; [apply (cands_post N W 14 a a _ _ Ha Ha); unfold small; cbn; lia|]. intros l Hl. apply post_ret. constructor; assumption. }
    eapply (shp_bind N RC) with (R := fun c1 c2 => Forall2 (fun l1 l2 => Forall2 RT l1 l2 /\ Forall2 (has N) l1 table /\ Forall2 (has N) l2 table) c1 c2 /\ length c1 = length p1 /\ True).
    { apply (shp_post N P); [|apply bmap_length|apply post_any]. apply (shp_bmap N RC (fun a b => RT a b /\ plain a /\ plain b)).
      - clear - HP P1 P2. induction HP as [|a b l l' Hab H IH]; constructor; [split; [exact Hab|split; [exact (Forall_inv P1)|exact (Forall_inv P2)]]|].
        exact (IH (Forall_inv_tail P1) (Forall_inv_tail P2)).
      - intros a b (Hab & Ha & Hb). apply (shp_post N P); [|apply K; assumption|apply K; assumption]. next; [apply (candsc_shp N W RC ra line rline); exact Hab|intros ? ? Hr]. apply shp_ret. constructor; assumption. }
    intros c1 c2 (HC & LC & _). next; [apply (shp_at N RC) with (R := fun w1 w2 => length w1 = length w2)|].
    { clear - HW. induction HW as [|a b l l' [H _] _ IH]; constructor; [exact (F2_len _ _ _ H)|exact IH]. }
    intros x y Hx. rewrite Hx. destruct (length y) as [|n] eqn:Ey; [apply shp_panic_l|].
    assert (C : combine c1 w1 = [] \/ combine c1 w1 <> []) by (destruct (combine c1 w1); [left; reflexivity|right; discriminate]). destruct C as [C|C].
    { rewrite C. cbn [seq shamir_loop shamir_inner]. intros d1 d2 _ r1 e1 r2 e2 E. discriminate E. }
    apply all_rounds. constructor; [| | |exact C|].
    - clear - HC HW. revert w1 w2 HW. induction HC as [|a b l l' (H & _) _ IH]; intros w1 w2 HW; [constructor|]. destruct HW as [|u v w1 w2 (_ & K1 & K2) HW]; [constructor|].
      cbn [combine]. constructor; [|apply IH; exact HW]. split; [exact H|split; assumption].
    - clear - HC HW. revert w1 w2 HW. induction HC as [|a b l l' (_ & H & _) _ IH]; intros w1 w2 HW; [constructor|]. destruct HW as [|u v w1 w2 (_ & K1 & _) HW]; [constructor|].
      cbn [combine]. constructor; [split; assumption|]. exact (IH _ _ HW).
    - clear - HC HW. revert w1 w2 HW. induction HC as [|a b l l' (_ & _ & H) _ IH]; intros w1 w2 HW; [constructor|]. destruct HW as [|u v w1 w2 (_ & _ & K1) HW]; [constructor|].
      cbn [combine]. constructor; [split; assumption|]. exact (IH _ _ HW).
    - rewrite combine_length, LC, LW, L, Nat.min_id. intro E1. apply Hone. congruence.
  Qed.
End Shamir.

(** ** Points without overflow *)
Section Plain.
  Variables N W : PF.
  Local Notation post := (post N).
  Local Ltac skip := eapply post_bind; [apply post_any|intros ? _].
  Lemma plain_const (Q : point W) : post (assign_constant_point Q) (plain N).
  Proof.
    unfold assign_constant_point. destruct (coords Q) as [[x y] z]. eapply post_bind; [apply const_post|intros x' Hx]. eapply post_bind; [apply const_post|intros y' Hy]. skip. apply post_ret. constructor; [exact Hx|exact Hy|exact I].
  Qed.
  Lemma plain_assign (Q : point W) : post (assign_point Q) (plain N).
  Proof.
    unfold assign_point. destruct (coords Q) as [[x y] z]. eapply post_bind; [apply assign_w_post|intros x' Hx]. eapply post_bind; [apply assign_w_post|intros y' Hy]. skip. skip.
    eapply post_bind; [apply square_post|intros [y2 y''] [_ Hy']]. cbn [fst snd] in *. eapply post_bind; [apply square_post|intros [x2 x''] [_ Hx']]. cbn [fst snd] in *.
    eapply post_bind with (Q := fun r => overflows (snd r) = overflows x'').
    { unfold int_mul. cbv zeta. do 3 skip. eapply post_bind with (Q := fun r => overflows (snd (fst r)) = overflows x''); [|intros [[u v] r] H; apply post_ret; exact H].
      unfold mul_native. skip. eapply post_bind; [apply native_post|intros bn Hb]. do 3 skip. apply post_ret. exact Hb. }
    intros [[x3 u] x4] H4. cbn [snd] in H4. do 4 skip. apply post_ret. constructor; cbn; [congruence|congruence|exact I].
  Qed.
  Lemma plain_reduce (p : apoint N) : post (ecc_reduce W p) (fun r => plain N (fst r)).
  Proof.
    unfold ecc_reduce. eapply post_bind; [apply reduce_post|intros x Hx]. eapply post_bind; [apply reduce_post|intros y Hy]. cbv zeta. eapply post_bind; [apply identity_post|intros i [I1 I2 _]].
    cbn [fst snd] in *. unfold bisec_point. eapply post_bind with (Q := plain N); [|intros q Hq; apply post_ret; exact Hq].
    eapply post_bind; [apply bisec_post|intros x' [X _]]. eapply post_bind; [apply bisec_post|intros y' [Y _]]. skip. apply post_ret. cbn in *. constructor; cbn; [rewrite X, Hx, I1|rewrite Y, Hy, I2|exact I]; reflexivity.
  Qed.
End Plain.

(** ** The calls *)
Section Calls.
  Variables N W : PF.
  Variable M : Mod N.
  Variable affine : M -> point W.
  Variables (PT SC : nat).
  Variable pt_decode : list Z -> option M.
  Variable sc_decode : list Z -> option N.
  Variable sp : pspec N.
  Variable RATE : nat.
  Variable init : list N.
  Variable generator : M.
  Local Notation x_call := (x_call N W M affine PT SC pt_decode sc_decode sp RATE generator).
  Local Notation x_calls := (x_calls N W M affine PT SC pt_decode sc_decode sp RATE generator).
  Local Notation m_call := (m_call N W M affine PT SC pt_decode sc_decode sp RATE generator).
  Local Notation m_calls := (m_calls N W M affine PT SC pt_decode sc_decode sp RATE generator).
  Local Notation post := (post N).
  (** the points of the sums have no overflow, and there are at least two of them unless [single] *)
  Fixpoint sums_exact (single : bool) (ks : list kind) (cs : list (call N M)) : bool :=
    match cs with
    | [] => true
    | c :: cs => match c with CMultiExp ps _ => forallb (exactb ks) ps && (single || negb (List.length ps =? 1)) | _ => true end && sums_exact single (ks ++ kind_of c) cs
    end.
  Definition kinded1 (k : kind) (x : xval N) : Prop := match k, x with KExact, XP p => plain N p | _, _ => True end.
  Definition kinded (ks : list kind) (s : xst N) : Prop := Forall2 kinded1 ks (x_vals s).
  Lemma kinded_push ks s k x : kinded ks s -> kinded1 k x -> kinded (ks ++ [k]) (x_push x s).
  Proof. intros H K. unfold kinded. cbn. apply Forall2_app; [exact H|]. constructor; [exact K|constructor]. Qed.
  Lemma kinded_set ks s t x : kinded ks s -> kinded (ks ++ []) (x_set t x s).
  Proof. intros H. rewrite app_nil_r. exact H. Qed.
  Local Ltac skip := eapply post_bind; [apply post_any|intros ? _].
  Local Ltac fin := apply post_ret; cbn [fst]; apply kinded_push; [assumption|exact I].
  Lemma call_kinded c ks s : kinded ks s -> post (x_call c s) (fun r => kinded (ks ++ kind_of c) (fst r)).
  Proof.
    intro H. destruct c; cbn [CircuitRun.x_call kind_of]; try solve [repeat skip; fin].
    - eapply post_bind; [apply plain_const|intros p Hp]. apply post_ret. apply kinded_push; assumption.
    - eapply post_bind; [apply plain_const|intros p Hp]. apply post_ret. apply kinded_push; assumption.
    - skip. eapply post_bind; [apply plain_reduce|intros p Hp]. apply post_ret. apply kinded_push; assumption.
    - destruct (x_inst s); [apply post_panic|]. skip. apply post_ret. unfold kinded. cbn. apply Forall2_app; [exact H|]. constructor; [exact I|constructor].
    - skip. skip. eapply post_bind; [apply plain_assign|intros p Hp]. skip. apply post_ret. cbn [fst]. apply kinded_push; [exact H|exact Hp].
    - skip. skip. skip. apply post_ret. cbn [fst]. apply kinded_set. exact H.
    - skip. skip. apply post_ret. cbn [fst]. apply kinded_set. exact H.
  Qed.
  Lemma m_call_kinded c ks s : kinded ks s -> post (m_call c s) (fun r => kinded (ks ++ kind_of c) (fst r)).
  Proof. intro H. destruct c; try apply (call_kinded _ ks s H). cbn [Measure.m_call kind_of]. do 3 skip. fin. Qed.
  Lemma kinded_get ks s i : kinded ks s -> exactb ks i = true -> post (x_p s i) (plain N).
  Proof.
    intros H E. unfold exactb in E. destruct (nth_error ks i) as [k|] eqn:Ek; [|discriminate]. destruct k; try discriminate. unfold x_p.
    pose proof (Forall2_nth_opt _ _ _ H i) as K. rewrite Ek in K. destruct (nth_error (x_vals s) i) as [[a|p]|]; cbn in K; try apply post_panic. apply post_ret. exact K.
  Qed.

  Variable P : nat -> nat -> Prop.
  Hypothesis shift : forall a b n, P a b -> P (a + n) (b + n).
  Variable single : bool.
  Hypothesis weak : single = true -> forall a b n, P a b -> P a (b + n).
  Local Notation RC := (@RP N P).
  Local Notation shp := (shp N RC).
  Local Notation ra := (fun _ _ : aval N => True).
  Local Notation RT := (RT N ra).
  Local Notation RSt := (RSt N ra).
  Local Notation line := (rows_line N P shift).
  Local Notation rline := (rows_rline N P shift).
  Local Ltac next := eapply (shp_bind N RC).
  Lemma m_call_shp c ks s t : RSt s t -> kinded ks s -> kinded ks t -> match c with CMultiExp ps _ => forallb (exactb ks) ps && (single || negb (List.length ps =? 1)) | _ => true end = true ->
    shp (x_call c s) (m_call c t) (fun r r' => RSt (fst r) (fst r')).
  Proof.
    intros H K1 K2 E. destruct c; try (apply (x_call_shp N W M affine PT SC pt_decode sc_decode sp RATE generator RC ra line rline); exact H).
    cbn [CircuitRun.x_call Measure.m_call]. apply andb_true_iff in E. destruct E as [E1 E2]. rewrite forallb_forall in E1.
    assert (G : forall u, kinded ks u -> post (bmap (x_p u) ps) (fun l => Forall (plain N) l /\ List.length l = List.length ps)).
    { intros u Ku c0 l c' E. split; [|exact (bmap_length _ _ _ _ _ E)]. refine (post_bmap N (fun i => exactb ks i = true) (plain N) (x_p u) ps _ _ _ _ _ E).
      - apply Forall_forall. exact E1.
      - intros i Hi. apply (kinded_get ks u i Ku Hi). }
    next; [apply (shp_post N P); [apply (shp_bmap N RC eq RT); [apply F2_same|]; intros i ? <-; apply (x_p_shp N RC ra); exact H|apply G; exact K1|apply G; exact K2]|].
    intros p1 p2 (HP & [P1 L1] & [P2 _]). next; [apply (shp_bmap N RC eq ra); [apply F2_same|]; intros i ? <-; apply (x_s_shp N RC ra); exact H|intros s1 s2 HS].
    next; [apply (shamir_rows N W P shift single weak); try eassumption|].
    - rewrite L1. intro E3. rewrite E3 in E2. destruct single; [reflexivity|discriminate E2].
    - intros r1 r2 Hr. apply (shp_ret N RC). apply push_rel; [exact Hr|exact H].
  Qed.
  Lemma m_calls_shp cs : forall ks s t, RSt s t -> kinded ks s -> kinded ks t -> sums_exact single ks cs = true -> shp (x_calls cs s) (m_calls cs t) (fun r r' => RSt (fst r) (fst r')).
  Proof.
    induction cs as [|c cs IH]; intros ks s t H K1 K2 E; cbn [CircuitRun.x_calls Measure.m_calls]; [apply (shp_ret N RC); exact H|]. cbn [sums_exact] in E. apply andb_true_iff in E. destruct E as [E1 E2].
    next; [apply (shp_post N P); [apply (m_call_shp c ks s t H K1 K2 E1)|apply (call_kinded c ks s K1)|apply (m_call_kinded c ks t K2)]|]. intros r r' (Hr & R1 & R2).
    next; [apply (IH _ _ _ Hr R1 R2 E2)|]. intros q q' Hq. apply (shp_ret N RC). exact Hq.
  Qed.

  Local Notation gvn := (given N (kzg N M) (key N M)).
  Local Notation calls_for := (fun nw (gs : list gvn) => c_verify_aggregation_proofs_in_chip N M 0 (hcircuits_of N M unit nw 1 (given_circuits N M gs)) 0).
  Lemma m_verify_shp nw (gs gs' : list gvn) coherent : calls_for nw gs = calls_for nw gs' -> List.length (given_bytes N M gs) = List.length (given_bytes N M gs') ->
    (forall r cs n, calls_for nw gs = Some (r, cs, n) -> sums_exact single [] cs = true) ->
    shp (x_verify N W M affine PT SC pt_decode sc_decode sp RATE init generator nw gs coherent)
        (m_verify N W M affine PT SC pt_decode sc_decode sp RATE init generator nw gs' coherent)
        (fun r r' => (RT (fst (fst (fst r))) (fst (fst (fst r'))) /\ RT (snd (fst (fst r))) (snd (fst (fst r')))) /\ Forall2 ra (snd (fst r)) (snd (fst r'))).
  Proof.
    intros E L Hs. unfold x_verify, m_verify. rewrite <- E.
    next; [apply (shp_bmap N RC any (RTr N ra))|intros ts ts' Hts].
    { revert L. generalize (given_bytes N M gs) (given_bytes N M gs'). induction l; intros [|b l'] Hl; try discriminate; constructor; [exact I|]. apply IHl. injection Hl as Hl. exact Hl. }
    { intros a b _. apply (x_transcript_shp N init RC ra line). }
    next; [apply (x_transcript_shp N init RC ra line)|intros m m' Hm]. next; [apply lift_shp|]. intros g g' [E1 E2]. rewrite E1 in E2. injection E2 as <-.
    destruct g as [[[[[a b] is_] ads] calls] k]. next; [apply (m_calls_shp calls []); [split; [constructor|constructor; assumption]|constructor|constructor|exact (Hs _ _ _ E1)]|].
    intros [s ns] [t ns'] H. cbn [fst snd] in *.
    next; [apply (x_p_shp N RC ra); exact H|intros ? ? ?]. next; [apply (x_p_shp N RC ra); exact H|intros ? ? ?].
    next; [apply (shp_bmap N RC eq ra); [apply F2_same|]; intros i ? <-; apply (x_s_shp N RC ra); exact H|intros ? ? ?].
    next; [apply (shp_bmap N RC eq (Forall2 RT)); [apply F2_same|]; intros i ? <-; apply (shp_bmap N RC eq RT); [apply F2_same|]; intros j ? <-; apply (x_p_shp N RC ra); exact H|intros ? ? ?].
    next; [apply (x_coherent_shp N W RC ra line rline); eassumption|intros ? ? ?]. apply (shp_ret N RC). cbn. split; [split; assumption|assumption].
  Qed.
End Calls.
