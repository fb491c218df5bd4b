(** The measuring pass counts more rows for a sum of a single point: in every round but the
    first two the accumulator stands in for the picked point, and its slope has to be
    computed, which the picked point brings along. *)
From Coq Require Import ZArith NArith Arith Lia List Bool.
From Verif Require Import Util Algebra PField ListFacts Gate Integer Curve Ecc Shape Measure MeasureForms MeasureProofs MeasureHonest.
Import ListNotations.

Section Single.
  Variables N W : PF.
  Definition Pk (k a b : nat) : Prop := a + k <= b.
  Lemma shiftk k a b n : Pk k a b -> Pk k (a + n) (b + n).
  Proof. unfold Pk. lia. Qed.
  Lemma weakk k a b n : Pk k a b -> Pk k a (b + n).
  Proof. unfold Pk. lia. Qed.
  (** [k] rows ahead before, [k'] after *)
  Definition shp2 (k k' : nat) {A1 A2} (m1 : B N A1) (m2 : B N A2) (R : A1 -> A2 -> Prop) : Prop :=
    forall c1 c2, offset c1 + k <= offset c2 -> forall r1 d1 r2 d2, m1 c1 = Some (r1, d1) -> m2 c2 = Some (r2, d2) -> offset d1 + k' <= offset d2 /\ R r1 r2.
  Lemma bind2 k k' k'' {A1 A2 B1 B2} (m1 : B N A1) (m2 : B N A2) (f1 : A1 -> B N B1) (f2 : A2 -> B N B2) R S :
    shp2 k k' m1 m2 R -> (forall a1 a2, R a1 a2 -> shp2 k' k'' (f1 a1) (f2 a2) S) -> shp2 k k'' (bind m1 f1) (bind m2 f2) S.
  Proof.
    intros H1 H2 c1 c2 HC r1 d1 r2 d2 E1 E2. destruct (bind_some N _ _ _ _ E1) as (a1 & e1 & F1 & F1'). destruct (bind_some N _ _ _ _ E2) as (a2 & e2 & F2 & F2').
    destruct (H1 c1 c2 HC _ _ _ _ F1 F2) as [A B0]. exact (H2 a1 a2 B0 e1 e2 A _ _ _ _ F1' F2').
  Qed.
  Local Notation any := (fun _ _ => True).
  Local Notation ra := (fun _ _ : aval N => True).
  Local Notation RI := (RI N ra).
  Local Notation RT := (RT N ra).
  Local Notation post := (post N).
  Local Notation RC k := (@RP N (Pk k)).
  Local Notation line k := (rows_line N (Pk k) (shiftk k)).
  Local Notation rline k := (rows_rline N (Pk k) (shiftk k)).
  Lemma one_more k {A1 A2} (a1 : A1) (m : B N A2) (R : A1 -> A2 -> Prop) : strict N m -> post m (R a1) -> shp2 k (S k) (ret a1) m R.
  Proof. intros G H c1 c2 HC r1 d1 r2 d2 E1 E2. injection E1 as <- <-. split; [|exact (H _ _ _ E2)]. pose proof (G _ _ _ E2). lia. Qed.
  Lemma native_grows (a : aint N) : grows N (int_native a).
  Proof. apply (grows_of N). intros P HP. eexists. apply (int_native_shp N (RP P) ra (rows_line N P HP)), ri_refl. Qed.
  Lemma square_strict (a : aint N) : strict N (int_square W a).
  Proof.
    unfold int_square. cbv zeta. apply strict_r; [|intro rem; apply strict_r; [|intro d; apply strict_r; [|intros []; apply strict_l; [|intro; apply grows_ret]]]].
    - apply (grows_of N). intros P HP. eexists. apply (assign_w_shp N W (RP P) ra (rows_rline N P HP)).
    - apply (grows_of N). intros P HP. eexists. apply (assign_d_shp N W (RP P) ra (rows_rline N P HP)).
    - apply (grows_of N). intros P HP. eexists. apply (mul_limbs_shp N W (RP P) ra (rows_line N P HP) (rows_rline N P HP)); try apply ri_refl. constructor; exact I.
    - unfold square_native. apply strict_r; [apply native_grows|intro]. apply strict_r; [|intro; apply strict_r; [apply native_grows|intro; apply strict_l; [apply one_line_strict|intro; apply grows_ret]]].
      apply (grows_of N). intros P HP. eexists. apply (swc_any N P HP). repeat constructor.
  Qed.
  Lemma mul_small_grows (a : aint N) k : grows N (mul_small_constant W a k).
  Proof. apply (grows_of N). intros P HP. eexists. apply (mul_small_shp N W (RP P) ra (rows_line N P HP) (rows_rline N P HP)), ri_refl. Qed.
  Lemma curvature_strict (a : apoint N) : pt_c a = None -> strict N (curvature W a).
  Proof.
    intro E. unfold curvature. rewrite E. apply strict_l; [apply square_strict|intros [x2 x]]. apply grows_bind; [apply mul_small_grows|intro]. apply grows_bind; [apply mul_small_grows|intro].
    apply grows_bind; [|intros [[[z v] ?] ?]; apply grows_ret]. apply (grows_of N). intros P HP. eexists. apply (int_div_shp N W (RP P) ra (rows_line N P HP) (rows_rline N P HP)); apply ri_refl.
  Qed.
  Lemma add_lt k a1 a2 b1 b2 : has N a1 (28, 28) -> ready N a1 -> bare N a2 (28, 30) -> has N b1 (28, 6) -> has N b2 (28, 6) ->
    shp2 k (S k) (ecc_add W a1 b1) (ecc_add W a2 b2) any.
  Proof.
    intros H1 R1 [H2 (N2 & M2 & C2)] HB1 HB2.
    pose proof H1 as [X1 Y1 S1]. pose proof H2 as [X2 Y2 _]. pose proof HB1 as [BX1 BY1 _]. pose proof HB2 as [BX2 BY2 _]. destruct R1 as (NX & NY & NC). cbn [fst snd] in *.
    unfold ecc_add. eapply (bind2 k k); [apply (sub_same N W (Pk k) (shiftk k)); congruence|intros dx1 dx2 Hdx]. eapply (bind2 k k); [apply (sub_le N W (Pk k) (shiftk k) (weakk k)); lia|intros dy1 dy2 Hdy]. specialize (Hdy ltac:(lia)).
    eapply (bind2 k k); [apply (int_div_shp N W (RC k) ra (line k) (rline k)); assumption|]. intros [[[z1 v1] p1] q1] [[[z2 v2] p2] q2] [[[Z V] PP] Q]. cbn [fst snd] in *.
    eapply (bind2 k k); [apply (int_is_zero_shp N W (RC k) ra (line k) (rline k)); exact PP|intros e1 e2 He]. eapply (bind2 k k); [apply (and_shp N (RC k) ra (line k)); exact I|intros eq1 eq2 _].
    eapply (bind2 k (S k)) with (R := fun r1 r2 => snd r1 = a1 /\ overflows (cv_v (fst r1)) = 0 /\ has N (snd r2) (28, 30) /\ overflows (cv_v (fst r2)) = 0).
    { unfold curvature at 1. destruct (pt_c a1) as [c|] eqn:EC; [|destruct NC]. cbn in S1. apply one_more; [apply curvature_strict; exact C2|]. eapply post_weaken; [apply (curv_post N W a2 (28, 30) H2); cbn; lia|].
      intros r [A B0]. cbn [fst snd]. split; [reflexivity|]. split; [exact S1|]. split; assumption. }
    intros [c1 a1'] [c2 a2'] (E & O1 & H2' & O2). cbn [fst snd] in *. subst a1'. pose proof H2' as [X2' Y2' _]. cbn [fst snd] in *. clear C2 NC.
    match goal with |- shp2 _ _ ?m1 ?m2 ?R => change (Shape.shp N (RC (S k)) m1 m2 R) end.
    eapply (shp_bind N (RC (S k))) with (R := RV N ra).
    { eapply shp_weaken; [apply (shp_post N (Pk (S k)) _ _ (fun r1 r2 => RI (cv_v r1) (cv_v r2)) (fun _ => True) (fun _ => True)); [|apply post_any|apply post_any]|].
      - unfold bisec_curvature. eapply (shp_bind N (RC (S k))); [apply (bisec_same N (Pk (S k)) (shiftk (S k))); cbn [cv_v]; rewrite O1, O2, (rio _ _ _ _ V); reflexivity|intros w1 w2 Hw]. eapply (shp_bind N (RC (S k))); [apply (bisec_shp N (RC (S k)) ra (line (S k))); exact I|intros ? ? _]. apply shp_ret. exact Hw.
      - intros w1 w2 (A & _). constructor; [exact A|exact I]. }
    intros l1 l2 Hl.
    eapply (shp_bind N (RC (S k))) with (R := fun r1 r2 => overflows (pt_x r1) = overflows (pt_x r2) /\ overflows (pt_y r1) = 30 /\ overflows (pt_y r2) = 0).
    { eapply shp_weaken; [apply (shp_post N (Pk (S k)) _ _ (fun r1 r2 => overflows (pt_x r1) = overflows (pt_x r2))); [|apply (line_post N W l1 a1 b1 _ _ H1 HB1)|apply (line_post N W l2 a2' b2 _ _ H2' HB2)]|].
      - unfold lambda_to_point. eapply (shp_bind N (RC (S k))); [apply (int_square_shp N W (RC (S k)) ra (line (S k)) (rline (S k))), (rvv _ _ _ _ Hl)|]. intros [s1 t1] [s2 t2] [HS T]. cbn [fst snd] in *.
        eapply (shp_bind N (RC (S k))); [apply (sub_same N W (Pk (S k)) (shiftk (S k))); [exact (rio _ _ _ _ HS)|congruence]|intros u1 u2 U]. eapply (shp_bind N (RC (S k))); [apply (sub_same N W (Pk (S k)) (shiftk (S k))); [exact (rio _ _ _ _ U)|congruence]|intros x1 x2 X].
        eapply (shp_bind N (RC (S k))); [apply (sub_same N W (Pk (S k)) (shiftk (S k))); [congruence|exact (rio _ _ _ _ X)]|intros w1 w2 Hw]. eapply (shp_bind N (RC (S k))); [apply (shp_post N (Pk (S k))); [apply (int_mul_shp N W (RC (S k)) ra (line (S k)) (rline (S k))); [exact Hw|exact T]|apply mul_post|apply mul_post]|].
        intros [[m1 ?] ?] [[m2 ?] ?] (_ & O3 & O4). cbn [fst snd] in *. eapply (shp_bind N (RC (S k))); [apply (sub_le N W (Pk (S k)) (shiftk (S k)) (weakk (S k))); lia|intros ? ? _]. apply shp_ret. cbn. exact (rio _ _ _ _ X).
      - intros r1 r2 (A & [[_ A2 _] _] & [[_ B2 _] _]). split; [exact A|]. split; [exact A2|exact B2]. }
    intros p1' p2' (PX & PY1 & PY2).
    eapply (shp_bind N (RC (S k))) with (R := fun r1 r2 => overflows (pt_x r1) = overflows (pt_x r2) /\ overflows (pt_y r1) = 30 /\ overflows (pt_y r2) = 6).
    { unfold bisec_point. eapply (shp_bind N (RC (S k))); [apply (bisec_same N (Pk (S k)) (shiftk (S k))); rewrite PX, BX1, BX2; reflexivity|intros x1 x2 HX]. eapply (shp_bind N (RC (S k))); [apply (shp_post N (Pk (S k)) _ _ any); [apply (bisec_rows N (Pk (S k)) (shiftk (S k)))|apply bisec_post|apply bisec_post]|].
      intros y1 y2 (_ & [A1 _] & [B1 _]). eapply (shp_bind N (RC (S k))); [apply (bisec_shp N (RC (S k)) ra (line (S k))); exact I|intros ? ? _]. apply shp_ret. cbn. rewrite PY1, BY1 in A1. rewrite PY2, BY2 in B1. split; [exact (rio _ _ _ _ HX)|]. split; assumption. }
    intros r1 r2 (RX & RY1 & RY2). eapply (shp_bind N (RC (S k))) with (R := RT).
    - unfold bisec_point. eapply (shp_bind N (RC (S k))); [apply (bisec_same N (Pk (S k)) (shiftk (S k))); congruence|intros x1 x2 HX]. eapply (shp_bind N (RC (S k))); [apply (bisec_same N (Pk (S k)) (shiftk (S k))); rewrite Y1, Y2', RY1, RY2; reflexivity|intros y1 y2 HY].
      eapply (shp_bind N (RC (S k))); [apply (bisec_shp N (RC (S k)) ra (line (S k))); exact I|intros ? ? _]. apply shp_ret. constructor; cbn; auto.
    - intros s1 s2 _. apply shp_ret. exact I.
  Qed.

  Lemma post2 k k' {A1 A2} (m1 : B N A1) (m2 : B N A2) R (Q1 : A1 -> Prop) (Q2 : A2 -> Prop) : shp2 k k' m1 m2 R -> post m1 Q1 -> post m2 Q2 -> shp2 k k' m1 m2 (fun a b => R a b /\ Q1 a /\ Q2 b).
  Proof. intros H H1 H2 c1 c2 HC r1 d1 r2 d2 E1 E2. destruct (H c1 c2 HC _ _ _ _ E1 E2) as [A B0]. split; [exact A|]. split; [exact B0|]. split; [exact (H1 _ _ _ E1)|exact (H2 _ _ _ E2)]. Qed.
  Lemma post_both {A} (m : B N A) (Q1 Q2 : A -> Prop) : post m Q1 -> post m Q2 -> post m (fun a => Q1 a /\ Q2 a).
  Proof. intros H1 H2 c a c' E. split; [exact (H1 _ _ _ E)|exact (H2 _ _ _ E)]. Qed.
  Local Notation paired := (paired N true).
  Lemma later_single ps1 ps2 n : paired ps1 ps2 -> length ps1 = 1 -> (forall wi c r c', shamir_inner W ps1 wi None c = Some (r, c') -> offset c' = offset c + n) ->
    forall wis k a1 a2, bare N a1 (28, 30) -> bare N a2 (28, 30) -> shp2 k (k + length wis) (shamir_loop W ps1 wis (Some a1)) (shamir_loop_measured W ps2 wis (Some a2) (Some n)) any.
  Proof.
    intros H Hone Hn. induction wis as [|wi wis IH]; intros k a1 a2 H1 H2; cbn [shamir_loop shamir_loop_measured length].
    { intros c1 c2 HC r1 d1 r2 d2 E1 E2. injection E1 as <- <-. injection E2 as <- <-. split; [lia|exact I]. }
    cbn [get_inner]. eapply (bind2 k k); [apply (inner_expand N W (Pk k) (shiftk k)); [intros c r c'; apply Hn|exact (pr_1 _ _ _ _ H)|exact (pr_ne _ _ _ _ H)]|]. intros i1 [m i2] [Hi E]. injection E as -> ->.
    replace (if wi =? 0 then Some n else Some n) with (Some n) by (destruct (wi =? 0); reflexivity). rewrite Hone in Hi. cbn [Nat.eqb] in Hi. destruct Hi as [Hi1 Hi2].
    eapply (bind2 k k); [apply (shp_post N (Pk k)); [apply (rdouble_shp N W (RC k) ra (line k) (rline k)), (bare_rt N _ _ _ H1 H2)|apply (double_acc N W false), H1|apply (double_acc N W false), H2]|]. intros b1 b2 (HB & HB1 & HB2). cbn beta in *.
    replace (k + S (length wis)) with (S k + length wis) by lia.
    eapply (bind2 k (S k)); [apply post2; [apply add_lt; eassumption|apply (round_acc N W true i1 b1); [split; assumption|left; exact HB1]|apply (round_acc N W false a2 b2 H2); left; exact HB2]|].
    intros s1 s2 (_ & S1 & S2). apply IH; assumption.
  Qed.
  Lemma all_single ps1 ps2 n : paired ps1 ps2 -> length ps1 = 1 -> shp2 0 n (shamir_loop W ps1 (seq 0 (S (S n))) None) (shamir_loop_measured W ps2 (seq 0 (S (S n))) None None) any.
  Proof.
    intros H Hone. cbn [seq shamir_loop shamir_loop_measured]. eapply (bind2 0 0); [apply (measured_inner N W (Pk 0) (shiftk 0) true); exact H|]. intros a1 [m a2] (A & F1 & F2 & _). cbn [fst snd Nat.eqb] in *.
    eapply (bind2 0 0); [apply (measured_inner N W (Pk 0) (shiftk 0) true); exact H|]. intros i1 [k i2] (A' & G1 & G2 & Hk). cbn [fst snd Nat.eqb] in *.
    rewrite Hone in *. cbn [Nat.eqb] in *.
    eapply (bind2 0 0); [apply (shp_post N (Pk 0)); [apply (rdouble_shp N W (RC 0) ra (line 0) (rline 0)), A|apply (double_acc N W true _ F1)|apply (double_acc N W true _ F2)]|]. intros b1 b2 (HB & HB1 & HB2). cbn beta iota in *.
    eapply (bind2 0 0); [apply (shp_post N (Pk 0)); [apply (ecc_add_shp N W (RC 0) ra (line 0) (rline 0)); [exact A'|exact HB]|apply (round_acc N W _ i1 b1 G1 HB1)|apply (round_acc N W _ i2 b2 G2 HB2)]|].
    intros s1 s2 (_ & S1 & S2). pose proof (later_single ps1 ps2 k H Hone Hk (seq 2 n) 0 _ _ S1 S2) as K. rewrite seq_length in K. exact K.
  Qed.

  Lemma windows_count (s : aval N) : post (decompose_scalar CONFIG_WINDOW_SIZE s) (fun w => length w = S (S (num_windows N CONFIG_WINDOW_SIZE - 2))).
  Proof.
    assert (K : forall n z, post (decompose_mid CONFIG_WINDOW_SIZE n z) (fun r => length (fst r) = n)).
    { induction n as [|n IH]; intro z; cbn [decompose_mid]; [apply post_ret; reflexivity|]. destruct (decompose_bits _ _) as [b t]. eapply post_bind; [apply post_any|intros x _].
      eapply post_bind; [apply IH|intros r Hr]. apply post_ret. cbn. now rewrite Hr. }
    unfold decompose_scalar. destruct (decompose_bits _ _) as [b t]. eapply post_bind; [apply post_any|intros x _]. eapply post_bind; [apply K|intros [ls t'] Hr]. cbn [fst] in Hr.
    destruct (decompose_bits _ t') as [b' t'']. eapply post_bind; [apply post_any|intros y _]. cbv zeta. eapply post_bind; [apply post_any|intros ? _]. apply post_ret.
    rewrite rev_length. cbn [length]. rewrite app_length. cbn [length]. lia.
  Qed.
  Lemma bmap_one k {A1 A2 B1 B2} (f1 : A1 -> B N B1) (f2 : A2 -> B N B2) x1 x2 R : shp2 k k (f1 x1) (f2 x2) R ->
    shp2 k k (bmap f1 [x1]) (bmap f2 [x2]) (fun l1 l2 => exists y1 y2, l1 = [y1] /\ l2 = [y2] /\ R y1 y2).
  Proof.
    intro H. cbn [bmap]. eapply (bind2 k k); [exact H|]. intros y1 y2 Hy c1 c2 HC r1 d1 r2 d2 E1 E2. injection E1 as <- <-. injection E2 as <- <-. split; [exact HC|]. exists y1, y2. auto.
  Qed.
  Lemma shamir_single a1 a2 s1 s2 : RT a1 a2 -> plain N a1 -> plain N a2 ->
    shp2 0 (num_windows N CONFIG_WINDOW_SIZE - 2) (shamir W [a1] [s1]) (shamir_measured W [a2] [s2]) any.
  Proof.
    intros HP P1 P2. unfold shamir, shamir_measured. cbn [length Nat.eqb]. eapply (bind2 0 0) with (R := any); [apply (shp_ret N (RC 0)); exact I|intros _ _ _].
    eapply (bind2 0 0).
    { apply bmap_one. apply (shp_post N (Pk 0)); [apply (decompose_shp N (RC 0) ra (line 0)); exact I|apply post_both; [apply windows_post|apply windows_count]|apply post_both; [apply windows_post|apply windows_count]]. }
    intros l1 l2 (w1 & w2 & -> & -> & HW & (W1 & C1) & (W2 & C2)).
    eapply (bind2 0 0); [apply (shp_post N (Pk 0)); [apply (identity_shp N W (RC 0) ra (line 0))|apply identity_post|apply identity_post]|intros i1 i2 (HI & HI1 & HI2)].
    assert (K : forall i a, plain N i -> plain N a -> post (rest <- build_candidates_with_curvature W 14 a a ;; ret (i :: rest)) (fun l => Forall2 (has N) l table)).
    { intros i a Hi Ha. eapply post_bind; [apply (cands_post N W 14 a a _ _ Ha Ha); unfold small; cbn; lia|]. intros l Hl. apply post_ret. constructor; assumption. }
    eapply (bind2 0 0).
    { apply bmap_one. apply (shp_post N (Pk 0) _ _ (Forall2 RT)); [|apply K; assumption|apply K; assumption]. eapply (shp_bind N (RC 0)); [apply (candsc_shp N W (RC 0) ra (line 0) (rline 0)); exact HP|intros ? ? Hr]. apply shp_ret. constructor; assumption. }
    intros l1 l2 (c1 & c2 & -> & -> & HC & T1 & T2).
    eapply (bind2 0 0) with (R := fun x y => x = w1 /\ y = w2); [apply (shp_ret N (RC 0)); split; reflexivity|]. intros x y [-> ->]. rewrite C1, C2. cbn [combine].
    apply all_single; [|reflexivity]. constructor; [| | |discriminate|reflexivity].
    - constructor; [|constructor]. split; [exact HC|split; [exact W1|exact W2]].
    - constructor; [|constructor]. split; [exact T1|exact W1].
    - constructor; [|constructor]. split; [exact T2|exact W2].
  Qed.
End Single.
