(** The measuring pass (Measure.v) comes to its end: like EccHonest.v and CircuitHonest.v, for
    [shamir_measured] in place of [shamir]. *)
From Coq Require Import String ZArith NArith Arith Lia List Bool Field.
From Verif Require Import Util Algebra PField ListFacts Gate GateProofs GateOps Integer Bn254 IntegerSound IntegerComplete IntegerHistorySound IntegerHistory IntegerHistoryComplete IntegerValue
  Curve CurveAssoc Bn254Curve Ecc EccSound EccScalar EccMul EccComplete EccHistory EccMulComplete EccHonest CurveOrder CurveMod
  Schema Plonk Poseidon PoseidonSpec PoseidonProofs PoseidonInst CircuitSponge BuildParams Calls VerifierCalls VerifierCallsTop VerifyCircuit CircuitRun CircuitRunSpec CircuitRunProofs CallOrder CircuitHonest
  Shape Measure MeasureProofs CircuitHonestTop GeneratorOrder EccLucky ExponentRun.
Import ListNotations.

(** ** A round takes a row at least *)
Section Strict.
  Variables N W : PF.
  Notation grows := (grows N).
  Definition strict {A} (m : B N A) : Prop := forall c a c', m c = Some (a, c') -> offset c < offset c'.
  Lemma bind_some {A B0} (m : B N A) (k : A -> B N B0) c r : bind m k c = Some r -> exists a c1, m c = Some (a, c1) /\ k a c1 = Some r.
  Proof. unfold bind. destruct (m c) as [[a c1]|]; [|discriminate]. eauto. Qed.
  Lemma strict_grows {A} (m : B N A) : strict m -> grows m.
  Proof. intros H c a c' E. specialize (H _ _ _ E). lia. Qed.
  Lemma grows_bind {A B0} (m : B N A) (k : A -> B N B0) : grows m -> (forall a, grows (k a)) -> grows (bind m k).
  Proof. intros H1 H2 c b c' E. destruct (bind_some _ _ _ _ E) as (a & c1 & E1 & E2). specialize (H1 _ _ _ E1). specialize (H2 _ _ _ _ E2). lia. Qed.
  Lemma strict_l {A B0} (m : B N A) (k : A -> B N B0) : strict m -> (forall a, grows (k a)) -> strict (bind m k).
  Proof. intros H1 H2 c b c' E. destruct (bind_some _ _ _ _ E) as (a & c1 & E1 & E2). specialize (H1 _ _ _ E1). specialize (H2 _ _ _ _ E2). lia. Qed.
  Lemma strict_r {A B0} (m : B N A) (k : A -> B N B0) : grows m -> (forall a, strict (k a)) -> strict (bind m k).
  Proof. intros H1 H2 c b c' E. destruct (bind_some _ _ _ _ E) as (a & c1 & E1 & E2). specialize (H1 _ _ _ E1). specialize (H2 _ _ _ _ E2). lia. Qed.
  Lemma grows_ret {A} (a : A) : grows (ret a).
  Proof. intros c x c' E. injection E as _ <-. lia. Qed.
  Lemma grows_at {A} (l : list A) i : grows (at_ l i).
  Proof. intros c x c' E. unfold at_ in E. destruct (nth_error l i); [injection E as _ <-; lia|discriminate E]. Qed.
  Lemma one_line_strict ps k ms nx : strict (one_line ps k ms nx).
  Proof.
    unfold one_line. apply strict_r; [|intro; apply strict_r; [|intro]].
    1,2: intros c x c' E; unfold guard in E; destruct (_ <=? _); [injection E as _ <-; lia|discriminate E].
    intros c x c' E. injection E as _ <-. cbn. lia.
  Qed.
  Lemma bisec_strict (b x y : aval N) : strict (bisec b x y).
  Proof. unfold bisec. apply strict_l; [apply one_line_strict|intro; apply grows_at]. Qed.
  Lemma int_bisec_strict (b : aval N) x y : strict (int_bisec b x y).
  Proof. unfold int_bisec. apply strict_l; [apply bisec_strict|intro]. do 3 (apply grows_bind; [apply strict_grows, bisec_strict|intro]). apply grows_ret. Qed.
  Lemma bpc_strict (b : aval N) x y : strict (bisec_point_with_curvature W b x y).
  Proof.
    unfold bisec_point_with_curvature. apply strict_l; [apply int_bisec_strict|intro]. apply grows_bind; [apply strict_grows, int_bisec_strict|intro].
    apply grows_bind; [apply strict_grows, bisec_strict|intro]. do 2 (apply grows_bind; [apply curvature_grows|intro]). apply grows_bind; [|intro; apply grows_ret].
    unfold bisec_curvature. apply grows_bind; [apply strict_grows, int_bisec_strict|intro]. apply grows_bind; [apply strict_grows, bisec_strict|intro]. apply grows_ret.
  Qed.
  Lemma halve_grows b : forall n l, length l <= n -> grows (halve W b l).
  Proof.
    induction n as [|n IH]; intros [|x [|y l]] H; cbn in H; try (apply grows_ret); [lia|]. cbn [halve]. apply grows_bind; [apply strict_grows, bpc_strict|intro].
    apply grows_bind; [apply IH; lia|intro; apply grows_ret].
  Qed.
  Lemma pick_grows bits : forall l, grows (pick_candidate W l bits).
  Proof. induction bits as [|b bits IH]; intro l; cbn [pick_candidate]; [apply grows_at|]. apply grows_bind; [exact (halve_grows b _ l (le_n _))|intro; apply IH]. Qed.
  Lemma pick_strict x y l b bits : strict (pick_candidate W (x :: y :: l) (b :: bits)).
  Proof.
    cbn [pick_candidate halve]. apply strict_l; [|intro; apply pick_grows]. apply strict_l; [apply bpc_strict|intro]. apply grows_bind; [exact (halve_grows b _ l (le_n _))|intro; apply grows_ret].
  Qed.
  Lemma add_grows (a b : apoint N) : grows (ecc_add W a b).
  Proof. apply grows_of. intros P HP. eexists. apply (ecc_add_shp N W (RP P) (fun _ _ => True) (rows_line N P HP) (rows_rline N P HP)); apply rt_refl. Qed.
  Lemma inner_grows ps : forall wi acc, grows (shamir_inner W ps wi acc).
  Proof.
    induction ps as [|[cs ws] ps IH]; intros wi acc; cbn [shamir_inner].
    - destruct acc; [apply grows_ret|]. intros c a c' E. discriminate E.
    - apply grows_bind; [apply grows_at|intro bits]. apply grows_bind; [apply pick_grows|intro ci]. destruct acc; [|apply IH]. apply grows_bind; [apply add_grows|intro; apply IH].
  Qed.
  (** the tables have candidates, the windows bits *)
  Lemma inner_strict x y cs ws ps wi acc : Forall (fun b => b <> []) ws -> strict (shamir_inner W ((x :: y :: cs, ws) :: ps) wi acc).
  Proof.
    intros H c a c' E. cbn [shamir_inner] in E. destruct (bind_some _ _ _ _ E) as (bits & c1 & E1 & E2). unfold at_ in E1. destruct (nth_error ws wi) as [bs|] eqn:En; [|discriminate E1]. injection E1 as -> ->.
    pose proof (proj1 (Forall_forall _ _) H bits (nth_error_In _ _ En)) as Nb. destruct bits as [|b bits]; [congruence|]. revert E2.
    match goal with |- ?m ?c1 = _ -> _ => enough (S : strict m) by (intro E2; exact (S _ _ _ E2)) end.
    apply strict_l; [apply pick_strict|intro ci]. destruct acc; [|apply inner_grows]. apply grows_bind; [apply add_grows|intro; apply inner_grows].
  Qed.
End Strict.

(** ** [multi_exp] *)
Section Chip.
  Variables NN W : PF.
  Hypothesis HN : pf_n NN = fr_mod.
  Hypothesis HW : pf_n W = fq_mod.
  Implicit Types (c : ctx NN) (P Q : point W).
  Local Notation hp := (EccHonest.hp NN W).
  Local Notation onc := (on_curve (curve_b W)).
  Local Notation fine := (fine W).
  Local Notation smul := Curve.smul.
  Local Notation data := (list (N * point W)).
  Local Notation wsum := (wsum W).
  Local Open Scope N_scope.

  Lemma expand_cpl c n (a : aval NN) : (1 <= n)%nat -> cpl c (expand n a) (fun _ _ => True).
  Proof.
    intros Hn G. unfold expand. destruct (Nat.eqb_spec (offset c + n) 0) as [E|_]; [lia|].
    assert (A : forall r i, (r < offset c)%nat -> (if (fst (r, i) =? offset c + n - 1)%nat && (snd (r, i) =? snd (av_cell a))%nat then av_val a else adv c (r, i)) = adv c (r, i)).
    { intros r i Hr. cbn [fst snd]. destruct (Nat.eqb_spec r (offset c + n - 1)) as [E|_]; [lia|reflexivity]. }
    eexists tt, _. split; [reflexivity|]. split; [split; cbn; [lia|exact A]|]. split; [|exact I].
    intros w Hw. apply (G w). intros r i Hr. rewrite (Hw r i) by (cbn; lia). cbn [adv]. exact (A r i Hr).
  Qed.

  (** skipping a round replaces the sum so far by 17 times itself *)
  Lemma skipped_hp ps n (Hn : (1 <= n)%nat) wis : Forall (fun wi => wi <> 0%nat) wis -> forall c acc A, hp c acc A ->
    (forall k i, (k < length wis)%nat -> i < 4 -> fine (smul (2 ^ i * 17 ^ N.of_nat k) A)) ->
    cpl c (shamir_loop_measured W ps wis (Some acc) (Some n)) (fun r c' => hp c' r (smul (17 ^ N.of_nat (length wis)) A)).
  Proof.
    induction 1 as [|wi wis H0 _ IH]; intros c acc A HA HF; cbn [shamir_loop_measured].
    - apply cpl_ret. cbn [length N.of_nat]. rewrite N.pow_0_r, (smul_1 W). exact HA.
    - pose proof (hp_on NN W c acc A HA) as O. cbn [get_inner]. eapply cpl_bind with (P := fun r c' => r = (n, acc)).
      { eapply cpl_bind; [apply expand_cpl; exact Hn|]. intros [] c1 _ _ _ _. apply cpl_ret. reflexivity. }
      intros r c1 _ L1 _ ->. destruct (Nat.eqb_spec wi 0) as [E|_]; [contradiction|].
      assert (F0 : forall i, i < 4 -> fine (smul (2 ^ i) A)).
      { intros i Hi. specialize (HF 0%nat i ltac:(cbn; lia) Hi). change (17 ^ N.of_nat 0) with 1 in HF. now rewrite N.mul_1_r in HF. }
      eapply cpl_bind; [apply (repeat_double_hp NN W HN HW CONFIG_WINDOW_SIZE c1 acc A (hp_le NN W _ _ _ _ L1 HA))|].
      { intros i Hi. apply F0. unfold CONFIG_WINDOW_SIZE in Hi. lia. }
      intros p c2 _ L2 _ Hp. change (2 ^ N.of_nat CONFIG_WINDOW_SIZE) with 16 in Hp. pose proof (ctx_le_trans NN _ _ _ L1 L2) as L02.
      assert (NC : nocancel W A (smul 16 A)) by (rewrite <- (smul_1 W A) at 1; apply (nocancel_mul W HW); [exact O|reflexivity]).
      assert (FA : fine A) by (rewrite <- (smul_1 W A); exact (F0 0 ltac:(reflexivity))).
      eapply cpl_bind; [exact (add_hp NN W HN HW c2 acc p A _ (hp_le NN W _ _ _ _ L02 HA) Hp (or_intror FA) NC)|].
      intros s c3 _ _ _ (Hs & _). replace (padd A (smul 16 A)) with (smul 17 A) in Hs.
      2: { change 17 with (1 + 16). rewrite (sadd W HW) by exact O. now rewrite (smul_1 W). }
      eapply cpl_conseq; [apply (IH c3 (fst s) (smul 17 A) Hs)|].
      + intros k i Hk Hi. rewrite <- (smulmul W HW) by exact O. specialize (HF (S k) i ltac:(cbn; lia) Hi). rewrite Nat2N.inj_succ, N.pow_succ_r' in HF.
        replace (2 ^ i * 17 ^ N.of_nat k * 17) with (2 ^ i * (17 * 17 ^ N.of_nat k)) by ring. exact HF.
      + intros r c4 _ _ _ Hr. rewrite <- (smulmul W HW) in Hr by exact O. cbn [length]. rewrite Nat2N.inj_succ, N.pow_succ_r', N.mul_comm. exact Hr.
  Qed.

  (** the slopes met while measuring: those of the real pass, and those of the stand-ins *)
  Definition mlucky (D : data) : Prop := slucky W D /\
    forall k i, (k < 62)%nat -> i < 4 -> fine (smul (2 ^ i * 17 ^ N.of_nat k) (wsum (lead 2) D)).
  Definition mvalue (D : data) : point W := smul (17 ^ 62) (wsum (lead 2) D).
  Lemma mvalue_eq D : mvalue D = smul (17 ^ 62) (wsum (lead 2) D).
  Proof. reflexivity. Qed.
  Lemma round_size_pos c ps D j r c' : hdata NN W c ps D -> D <> [] -> shamir_inner W ps j None c = Some (r, c') -> (1 <= offset c' - offset c)%nat.
  Proof.
    intros HD Hne E. destruct HD as [|[cands windows] [K P] ps D [(O & Hl & _) (bss & Hb & _ & Hf & _)] _]; [congruence|]. cbn [fst snd] in *.
    destruct cands as [|x [|y cands]]; try discriminate Hl.
    assert (Hw : Forall (fun b => b <> []) windows).
    { clear - Hb Hf. revert Hf. induction Hb as [|b bs w bss H _ IH]; intro Hf; constructor.
      - apply Forall_inv in Hf. intros ->. inversion H; subst. discriminate Hf.
      - apply IH. exact (Forall_inv_tail Hf). }
    pose proof (inner_strict NN W x y cands windows ps j None Hw _ _ _ E) as L. lia.
  Qed.
  Lemma shamir_measured_hp c points scalars Ps : Forall2 (hp c) points Ps -> Forall (valid c) scalars -> length scalars = length points ->
    mlucky (combine (map (scalar_of_cell NN) scalars) Ps) ->
    cpl c (shamir_measured W points scalars) (fun r c' => hp c' r (mvalue (combine (map (scalar_of_cell NN) scalars) Ps))).
  Proof.
    intros HP HV Hlen [[HT HL] HS]. set (Ks := map (scalar_of_cell NN) scalars) in *. set (D := combine Ks Ps) in *.
    assert (LP : length points = length Ps) by exact (Forall2_len _ _ _ HP).
    unfold shamir_measured. eapply cpl_bind; [apply cpl_guard with (P := fun _ c' => c' = c); [now rewrite Hlen, Nat.eqb_refl|reflexivity]|]. intros [] ? _ _ _ ->.
    eapply cpl_bind.
    { apply (bmap_cpl2 NN _ (fun c s K => valid c s /\ K = scalar_of_cell NN s) (fun c w K => hwin NN c w K)) with (xs := Ks).
      - intros c0 c1 a x L [H1 H2]. split; [now apply (valid_le NN c0)|assumption].
      - intros c0 c1 a x L H. now apply (hwin_le NN c0).
      - intros c0 s K [Hv ->]. eapply cpl_conseq; [apply (decompose_scalar_digits NN HN c0 CONFIG_WINDOW_SIZE s); [unfold CONFIG_WINDOW_SIZE; lia|assumption]|].
        intros windows c1 _ L1 _ (bss & Hb & Hl & Hf & Hs). exists bss. rewrite (windows_4 NN HN) in Hl. split; [exact Hb|]. split; [assumption|].
        split; [assumption|]. unfold scalar_of_cell. rewrite <- Hs, N2Z.id. reflexivity.
      - unfold Ks. clear - HV. induction HV; cbn [map]; constructor; auto. }
    intros windows c1 _ L1 _ Hwin. eapply cpl_bind; [apply (identity_hp NN W HN HW)|]. intros id c2 _ L2 _ [Hid Cid]. pose proof (ctx_le_trans NN _ _ _ L1 L2) as L02.
    eapply cpl_bind.
    { apply (bmap_cpl2 NN _ (fun c a P => (hp c a P /\ hp c id Inf) /\ forall i, 1 <= i -> i <= 15 -> fine (smul i P)) (fun c l P => htab NN W c l P)) with (xs := Ps).
      - intros c0 c' a P L [[H1 H2] H3]. split; [split; now apply (hp_le NN W c0)|assumption].
      - intros c0 c' a P L H. now apply (htab_le NN W c0).
      - intros c0 a P [[Ha Hi] Hf]. eapply cpl_bind; [apply (build_curv_hp NN W HN HW 14 c0 1 a a P)|].
        { rewrite (smul_1 W). split; [assumption|]. right. rewrite <- (smul_1 W P). apply Hf; lia. }
        { assumption. } { reflexivity. } { intros i Hi1 Hi2. apply Hf; lia. }
        intros rest c3 _ L3 _ [Hrl Hr]. apply cpl_ret. split; [exact (hp_on NN W _ _ _ Ha)|]. split; [cbn [length]; now rewrite Hrl|].
        split; [split; [now apply (hp_le NN W c0)|now left]|]. eapply (hcl_ext NN W); [|exact Hr]. intro i. cbn beta. f_equal. lia.
      - assert (HT' : Forall (fun P => forall i, 1 <= i -> i <= 15 -> fine (smul i P)) Ps).
        { apply Forall_forall. intros P HI. destruct (In_nth_error _ _ HI) as (n & En).
          assert (EK : exists K, nth_error Ks n = Some K).
          { destruct (nth_error Ks n) eqn:E; [eauto|]. apply nth_error_None in E. unfold Ks in E. rewrite map_length in E.
            assert (n < length Ps)%nat by (apply nth_error_Some; congruence). lia. }
          destruct EK as (K & EK). apply (HT K P). unfold D. clear - EK En. revert Ps n EK En.
          induction Ks as [|k Ks IH]; intros [|p Ps] [|n] EK En; cbn in *; try discriminate.
          - injection EK as ->. injection En as ->. now left.
          - right. eauto. }
        clear - HP HT' Hid L02. revert HT'. induction HP as [|a P points Ps H _ IH]; intro HT'; constructor.
        + apply Forall_cons_iff in HT'. split; [split; [now apply (hp_le NN W c)|assumption]|apply HT'].
        + apply IH. apply Forall_cons_iff in HT'. apply HT'. }
    intros cands c3 _ L3 _ Hcands.
    assert (HD : hdata NN W c3 (combine cands windows) D).
    { pose proof (ctx_le_trans NN _ _ _ L2 L3) as L13. unfold D. clear - Hwin Hcands L13. revert cands Ps Hcands.
      induction Hwin as [|w K windows Ks H _ IH]; intros cands Ps Hcands.
      - destruct cands; constructor.
      - inversion Hcands as [|cs P cands' Ps' H1 H2]; subst; [constructor|]. cbn [combine]. constructor; [|apply IH; assumption].
        cbn [fst snd]. split; [assumption|now apply (hwin_le NN c1)]. }
    assert (Hne : D <> []). { intro E. destruct (HL 0%nat ltac:(lia)) as [F _]. rewrite E in F. exact F. }
    destruct windows as [|w0 windows]; [exfalso; apply Hne; unfold D; inversion Hwin; reflexivity|].
    assert (Hw0 : length w0 = 64%nat).
    { inversion Hwin as [|? K ? Ks' (bss & Hb & Hl & _) _]; subst. rewrite <- Hl. exact (Forall2_len _ _ _ Hb). }
    eapply cpl_bind; [apply (cpl_at NN c3 (w0 :: windows) 0 w0 (fun w c' => w = w0 /\ c' = c3)); auto|]. intros ? ? _ _ _ [-> ->]. rewrite Hw0.
    set (ps := combine cands (w0 :: windows)) in *. clearbody ps.
    (* rounds 0 and 1 *)
    assert (E1 : wsum (lead 1) D = wsum (dig 0) D).
    { rewrite (lead_step NN W HW c3 ps D 0 HD) by lia.
      assert (E0 : wsum (lead 0) D = Inf).
      { assert (HK : Forall (fun KP => lead 0 (fst KP) = 0) D).
        { unfold D, Ks. clear - HN. revert Ps. induction scalars as [|s scalars IH]; intros [|P Ps]; cbn [map combine]; constructor; [|apply IH].
          cbn [fst]. apply lead_0. unfold scalar_of_cell. pose proof (toZ_range NN (av_val s)) as R. rewrite HN in R.
          apply N.lt_trans with (Z.to_N fr_mod); [lia|reflexivity]. }
        clear - HK. unfold EccHonest.wsum. induction HK as [|KP D H _ IH]; [reflexivity|]. cbn [map psum]. rewrite IH, H. reflexivity. }
      rewrite E0, (smul_inf W), (padd_inf_r W). reflexivity. }
    change (seq 0 64) with (0%nat :: 1%nat :: seq 2 62). cbn [shamir_loop_measured].
    destruct (HL 0%nat ltac:(lia)) as [HL0 _]. destruct (HL 1%nat ltac:(lia)) as [HL1 HL2]. destruct (HL2 (le_n _)) as (F1 & F2 & F3).
    eapply cpl_bind with (P := fun r c' => hp c' (snd r) (wsum (lead 1) D)).
    { cbn [get_inner]. eapply cpl_bind; [apply cpl_conseq with (P := fun _ c' => c' = c3); [intro G; exists (offset c3), c3; split; [reflexivity|]; split; [apply ctx_le_refl|]; split; [exact G|reflexivity]|intros ? ? _ _ _ H; exact H]|].
      intros n0 ? _ _ _ ->. eapply cpl_bind; [exact (window_hp NN W HN HW 0 c3 _ D ltac:(lia) HD HL0)|]. intros inner c4 _ L4 _ Hi.
      eapply cpl_bind; [apply cpl_conseq with (P := fun _ c' => c' = c4); [intro G; exists (offset c4), c4; split; [reflexivity|]; split; [apply ctx_le_refl|]; split; [exact G|reflexivity]|intros ? ? _ _ _ H; exact H]|].
      intros n1 ? _ _ _ ->. apply cpl_ret. cbn [snd]. rewrite E1. exact Hi. }
    intros [n0 acc] c4 _ L4 _ Ha. cbn [snd] in Ha. change (0 =? 0)%nat with true. cbv iota.
    eapply cpl_bind with (P := fun r c' => (1 <= fst r)%nat /\ hp c' (snd r) (wsum (dig 1) D)).
    { cbn [get_inner]. eapply cpl_bind; [apply cpl_conseq with (P := fun n c' => n = offset c4 /\ c' = c4); [intro G; exists (offset c4), c4; split; [reflexivity|]; split; [apply ctx_le_refl|]; split; [exact G|split; reflexivity]|intros ? ? _ _ _ H; exact H]|].
      intros n1 ? _ _ _ [-> ->]. eapply cpl_bind; [exact (window_hp NN W HN HW 1 c4 _ D ltac:(lia) (hdata_le NN W _ _ _ _ L4 HD) HL1)|]. intros inner c5 E5 L5 _ Hi.
      eapply cpl_bind; [apply cpl_conseq with (P := fun n c' => n = offset c5 /\ c' = c5); [intro G; exists (offset c5), c5; split; [reflexivity|]; split; [apply ctx_le_refl|]; split; [exact G|split; reflexivity]|intros ? ? _ _ _ H; exact H]|].
      intros n2 ? _ _ _ [-> ->]. apply cpl_ret. cbn [fst snd]. split; [|exact Hi]. exact (round_size_pos c4 ps D 1 inner c5 (hdata_le NN W _ _ _ _ L4 HD) Hne E5). }
    intros [n inner] c5 _ L5 _ [Hn Hi]. cbn [fst snd] in Hn, Hi. change (1 =? 0)%nat with false. cbv iota.
    eapply cpl_bind; [apply (repeat_double_hp NN W HN HW CONFIG_WINDOW_SIZE c5 acc _ (hp_le NN W _ _ _ _ L5 Ha))|].
    { intros i Hi'. apply F2. unfold CONFIG_WINDOW_SIZE in Hi'. lia. }
    intros p c6 _ L6 _ Hp. change (2 ^ N.of_nat CONFIG_WINDOW_SIZE) with 16 in Hp.
    eapply cpl_bind; [exact (add_hp NN W HN HW c6 inner p _ _ (hp_le NN W _ _ _ _ L6 Hi) Hp (or_intror F1) F3)|]. intros s c7 _ L7 _ (Hs & _).
    rewrite <- (lead_step NN W HW c3 ps D 1 HD) in Hs by lia.
    eapply cpl_conseq; [apply (skipped_hp ps n Hn (seq 2 62)) with (A := wsum (lead 2) D); [|exact Hs|]|].
    - apply Forall_forall. intros x Hx. apply in_seq in Hx. lia.
    - intros k i Hk Hi'. rewrite seq_length in Hk. apply HS; assumption.
    - intros r c8 _ _ _ Hr. rewrite seq_length in Hr. exact Hr.
  Qed.
End Chip.

(** ** The native values while measuring

    A run of calls (Calls.v) in which a multi-scalar multiplication gives what the measuring
    pass makes of it: of the scalars the two leading digits (base 16), taken 17^62 times. *)
Section Native.
  Variable NN : PF.
  Variable M : Mod NN.
  Definition leading (x : NN) : NN := ofZ (toZ x / 16 ^ 62).
  Definition measured_exp (Ps : list M) (xs : list NN) : option M :=
    do P <- multi_exp Ps (map leading xs); Some (Algebra.smul (ofZ (17 ^ 62) : NN) P).
  Variables (PT SC : nat).
  Variable pt_decode : list Z -> option M.
  Variable sc_decode : list Z -> option NN.
  Variable St : Type.
  Variable upd_pt : St -> M -> St.
  Variable upd_sc : St -> NN -> St.
  Variable sqz : St -> option (NN * St).
  Variable generator : M.
  Notation run_call := (run_call NN M PT SC pt_decode sc_decode St upd_pt upd_sc sqz generator).
  Definition mrun_call (k : call NN M) (s : cst NN M St) : option (cst NN M St) :=
    match k with
    | CMultiExp ps ss => do Ps <- mapM (val_p s) ps; do xs <- mapM (val_s s) ss; do P <- measured_exp Ps xs; push (VP P) s
    | _ => run_call k s
    end.
  Fixpoint mrun (cs : list (call NN M)) (s : cst NN M St) : option (cst NN M St) :=
    match cs with [] => Some s | k :: cs => do s <- mrun_call k s; mrun cs s end.

  Lemma mrun_typed ks k s s' : typed NN M St ks s -> mrun_call k s = Some s' -> typed NN M St (ks ++ kind_of k) s'.
  Proof.
    intros H E. assert (D : run_call k s = Some s' \/ exists ps ss, k = CMultiExp ps ss) by (destruct k; eauto). destruct D as [E'|(ps & ss & ->)].
    - exact (run_typed NN M PT SC pt_decode sc_decode St upd_pt upd_sc sqz generator ks k s s' H E').
    - cbn [mrun_call] in E. destruct (mapM _ ps); [|discriminate]. destruct (mapM _ ss); [|discriminate]. destruct (measured_exp _ _); [|discriminate]. injection E as <-.
      unfold typed. cbn [c_vals kind_of]. apply Forall2_app; [exact H|]. constructor; [exact I|constructor].
  Qed.
  Lemma fits_morderly cs : forall ks s s', typed NN M St ks s -> fits NN M ks cs = true -> mrun cs s = Some s' -> orderly ks cs = true.
  Proof.
    induction cs as [|c cs IH]; intros ks s s' H Hf E; cbn [orderly]; [reflexivity|].
    cbn [mrun] in E. destruct (mrun_call c s) as [s1|] eqn:E1; [|discriminate]. cbn [fits] in Hf. apply andb_true_iff in Hf. destruct Hf as [Hf Hf2]. apply andb_true_iff in Hf. destruct Hf as [Hk Hf].
    rewrite (IH _ _ _ (mrun_typed ks c s s1 H E1) Hf2 E), andb_true_r.
    destruct c; try reflexivity; cbn [usable fit] in *; cbn [mrun_call Calls.run_call] in E1.
    - destruct (val_p s i) eqn:Ei; [|discriminate]. destruct (val_p s j) eqn:Ej; [|discriminate]. rewrite (typed_even NN M St ks s i _ Hk H Ei), (typed_even NN M St ks s j _ Hk H Ej). reflexivity.
    - destruct (val_p s i) eqn:Ei; [|discriminate]. destruct (val_p s j) eqn:Ej; [|discriminate]. rewrite (typed_even NN M St ks s i _ Hk H Ei), (typed_even NN M St ks s j _ Hk H Ej). reflexivity.
    - destruct (val_s s i); [|discriminate]. destruct (val_p s j) eqn:Ej; [|discriminate]. exact (typed_even NN M St ks s j _ Hk H Ej).
    - destruct (mapM (val_p s) ps) eqn:Ep; [|discriminate]. rewrite (typed_evens NN M St ks s ps _ Hk H Ep), Hf. reflexivity.
    - exact Hf.
  Qed.
End Native.

Section Calls.
  Variables NN W : PF.
  Hypothesis HN : pf_n NN = fr_mod.
  Hypothesis HW : pf_n W = fq_mod.
  Notation M := (G1 NN W HN HW).
  Notation aff := (g1_affine NN W HN HW).
  Variables (PT SC : nat).
  Variable pt_decode : list Z -> option M.
  Variable sc_decode : list Z -> option NN.
  Variable sp : pspec NN.
  Variable RATE : nat.
  Hypothesis wf : wf_spec sp RATE.
  Variable init : list NN.
  Hypothesis L0 : List.length init = S RATE.
  Variable generator : M.
  Notation St := (pstate NN (mock_chip NN)).
  Notation npt := (native_pt NN W M aff).
  Notation nsc := (native_sc NN).
  Notation nsqz := (native_sqz NN sp RATE).
  Notation mrun_call := (mrun_call NN M PT SC pt_decode sc_decode St npt nsc nsqz generator).
  Notation mrun := (mrun NN M PT SC pt_decode sc_decode St npt nsc nsqz generator).
  Notation m_call := (m_call NN W M aff PT SC pt_decode sc_decode sp RATE generator).
  Notation m_calls := (m_calls NN W M aff PT SC pt_decode sc_decode sp RATE generator).
  Notation m_verify := (m_verify NN W M aff PT SC pt_decode sc_decode sp RATE init generator).
  Notation cst := (cst NN M St).
  Notation rel := (rel NN W HN HW RATE).
  Notation result := (result NN W HN HW RATE).
  Notation scN := (scN NN).
  Notation h0 := (mkP (A := mock_chip NN) init []).
  Notation given := (given NN (kzg NN M) (key NN M)).
  Implicit Types (c : ctx NN).

  Definition mlucky_call (k : call NN M) (s : cst) : Prop :=
    match k with
    | CMultiExp ps ss => forall Ps xs, mapM (val_p s) ps = Some Ps -> mapM (val_s s) ss = Some xs -> mlucky W (combine (map scN xs) (map aff Ps))
    | _ => lucky_call NN W HN HW k s
    end.
  Fixpoint mlucky_calls (cs : list (call NN M)) (s : cst) : Prop :=
    match cs with [] => True | k :: cs => mlucky_call k s /\ forall s', mrun_call k s = Some s' -> mlucky_calls cs s' end.

  Lemma scN_ofZ z : (0 <= z < fr_mod)%Z -> scN (ofZ z) = Z.to_N z.
  Proof. clear - HN. intro H. unfold CircuitHonest.scN. rewrite toZ_ofZ, HN. now rewrite Z.mod_small. Qed.
  Lemma scN_leading x : scN (leading NN x) = lead 2 (scN x).
  Proof.
    clear - HN. pose proof (toZ_range NN x) as R. rewrite HN in R. unfold leading, lead. change (16 ^ N.of_nat (64 - 2))%N with (Z.to_N (16 ^ 62)). unfold CircuitHonest.scN at 2.
    assert (D : (0 < 16 ^ 62)%Z) by reflexivity. rewrite scN_ofZ.
    - rewrite Z2N.inj_div; [reflexivity|lia|lia].
    - split; [apply Z.div_pos; lia|]. apply Z.le_lt_trans with (toZ x); [|lia]. apply Z.div_le_upper_bound; [lia|]. nia.
  Qed.
  Lemma measured_value Ps xs : Ps <> [] -> xs <> [] -> exists P, measured_exp NN M Ps xs = Some P /\ aff P = mvalue W (combine (map scN xs) (map aff Ps)).
  Proof.
    intros Nn Nx. destruct (multi_exp_msm NN W HN HW Ps (map (leading NN) xs) Nn ltac:(now destruct xs)) as (Q & EQ & AQ).
    exists (Algebra.smul (ofZ (17 ^ 62) : NN) Q). unfold measured_exp. rewrite EQ. split; [reflexivity|].
    change (aff (Algebra.smul (ofZ (17 ^ 62) : NN) Q)) with (Curve.smul (scN (ofZ (17 ^ 62))) (aff Q)). rewrite scN_ofZ by (split; [discriminate|reflexivity]).
    unfold mvalue. change (17 ^ 62)%N with (Z.to_N (17 ^ 62)). f_equal. rewrite AQ. clear - HN. unfold wsum. revert Ps. induction xs as [|x xs IH]; intros [|P Ps]; try reflexivity.
    cbn [map combine psum msm fst snd]. rewrite IH. f_equal. f_equal. exact (scN_leading x).
  Qed.

  Lemma m_call_cpl c ks k s ns ns' : rel c ks s ns -> usable ks k = true -> mlucky_call k ns -> mrun_call k ns = Some ns' -> cpl c (m_call k s) (result k ks ns').
  Proof.
    intros R U Lk E. assert (D : (mrun_call k ns = run_call NN M PT SC pt_decode sc_decode St npt nsc nsqz generator k ns /\ m_call k s = x_call NN W M aff PT SC pt_decode sc_decode sp RATE generator k s /\
      lucky_call NN W HN HW k ns) \/ exists ps ss, k = CMultiExp ps ss) by (destruct k; eauto). destruct D as [(D1 & D2 & D3)|(ps & ss & ->)].
    - rewrite D2. rewrite D1 in E. exact (x_call_cpl NN W HN HW PT SC pt_decode sc_decode sp RATE wf init L0 generator c ks k s ns ns' R U D3 E).
    - cbn [Measure.m_call]. cbn [MeasureHonest.mrun_call] in E. cbn [usable] in U. cbn [mlucky_call] in Lk.
      destruct (mapM (val_p ns) ps) as [Ps|] eqn:Ep; [|discriminate]. destruct (mapM (val_s ns) ss) as [xs|] eqn:Es; [|discriminate].
      apply andb_true_iff in U. destruct U as [U1 U2]. apply Nat.eqb_eq in U2.
      eapply cpl_bind; [exact (cpl_ps NN W HN HW RATE c ks s ns ps Ps R Ep U1)|]. intros pp c' _ _ _ [-> Hp]. eapply cpl_bind; [exact (cpl_ss NN W HN HW RATE c ks s ns ss xs R Es)|]. intros sc c' _ _ _ [-> Hs].
      specialize (Lk Ps xs eq_refl eq_refl).
      assert (Ks : map (scalar_of_cell NN) sc = map scN xs) by (clear - Hs; induction Hs as [|a x sc xs [_ Ea] _ IH]; cbn; [reflexivity|]; rewrite IH; unfold scalar_of_cell, CircuitHonest.scN; now rewrite Ea).
      assert (Vs : Forall (valid c) sc) by (clear - Hs; induction Hs as [|a x sc xs [Va _] _ IH]; constructor; auto).
      assert (Ll : List.length sc = List.length pp).
      { rewrite (Forall2_length _ _ _ Hs), (Forall2_length _ _ _ Hp), map_length, (mapM_length _ _ _ Ep), (mapM_length _ _ _ Es). now symmetry. }
      assert (Nn : Ps <> []). { intros ->. destruct Lk as [[_ H] _]. destruct (H 0%nat ltac:(lia)) as [H' _]. unfold terms in H'. cbn [map] in H'. rewrite combine_nil in H'. exact H'. }
      assert (Nx : xs <> []). { intros ->. destruct Lk as [[_ H] _]. destruct (H 0%nat ltac:(lia)) as [H' _]. exact H'. }
      rewrite <- Ks in Lk. destruct (measured_value Ps xs Nn Nx) as (P & EM & AP). rewrite EM in E. injection E as <-.
      eapply cpl_bind; [exact (shamir_measured_hp NN W HN HW c pp sc (map aff Ps) Hp Vs Ll Lk)|]. intros r c' _ L _ Hr. apply cpl_ret.
      eapply result_push with (c := c) (kd := KEven) (x := XP r) (v := VP P); [exact L0|exact R|exact L|reflexivity|]. cbn [vr]. rewrite AP. rewrite Ks in Hr. exact Hr.
  Qed.
  Lemma m_calls_cpl cs : forall c ks s ns ns', rel c ks s ns -> orderly ks cs = true -> mlucky_calls cs ns -> mrun cs ns = Some ns' ->
    cpl c (m_calls cs s) (fun r c' => rel c' (kinds_after ks cs) (fst r) ns' /\ Forall (note_fine NN W c') (snd r)).
  Proof.
    unfold kinds_after. induction cs as [|k cs IH]; intros c ks s ns ns' R U Lk E; cbn [Measure.m_calls].
    - cbn in E. injection E as <-. apply cpl_ret. cbn [map concat fst snd]. rewrite app_nil_r. split; [exact R|constructor].
    - cbn [MeasureHonest.mrun] in E. destruct (mrun_call k ns) as [ns1|] eqn:E1; [|discriminate]. cbn [orderly] in U. apply andb_true_iff in U. destruct U as [U1 U2].
      cbn [mlucky_calls] in Lk. destruct Lk as [Lk1 Lk2].
      eapply cpl_bind; [exact (m_call_cpl c ks k s ns ns1 R U1 Lk1 E1)|]. intros r c1 _ L1 _ [R1 N1].
      eapply cpl_bind; [exact (IH c1 _ (fst r) ns1 ns' R1 U2 (Lk2 ns1 E1) E)|]. intros r' c2 _ L2 _ [R2 N2]. apply cpl_ret. cbn [fst snd map concat].
      rewrite app_assoc. split; [exact R2|]. apply Forall_app. split; [exact (notes_le NN W c1 c2 _ L2 N1)|exact N2].
  Qed.

  (** *** the first region *)
  Lemma m_verify_cpl c nw (gs : list given) coherent a b is_ ads calls n s' wx wg ins advices :
    c_verify_aggregation_proofs_in_chip NN M 0 (hcircuits_of NN M unit nw 1 (given_circuits NN M gs)) 0 = Some (a, b, is_, ads, calls, n) ->
    mrun calls (mkC [] (all_instances NN M unit (given_circuits NN M gs)) (map (fun b => mkTr b h0) ([] :: given_bytes NN M gs))) = Some s' ->
    val_p s' a = Some wx -> val_p s' b = Some wg -> mapM (val_s s') is_ = Some ins -> mapM (mapM (val_p s')) ads = Some advices ->
    mlucky_calls calls (mkC [] (all_instances NN M unit (given_circuits NN M gs)) (map (fun b => mkTr b h0) ([] :: given_bytes NN M gs))) ->
    Forall (equal_commits NN W HN HW advices) coherent ->
    cpl c (m_verify nw gs coherent) (fun _ _ => True).
  Proof.
    intros E1 E2 E3 E4 E5 E6 Lk Hco.
    destruct (o_top NN M 0 (hcircuits_of NN M unit nw 1 (given_circuits NN M gs)) _ _ _ E1) as (Hfit & _ & _ & Hex). cbn [snd app] in Hex.
    pose proof (fits_morderly NN M PT SC pt_decode sc_decode St npt nsc nsqz generator calls [] (mkC [] (all_instances NN M unit (given_circuits NN M gs)) (map (fun b => mkTr b h0) ([] :: given_bytes NN M gs))) s' (Forall2_nil _) Hfit E2) as Ho.
    unfold Measure.m_verify. eapply cpl_bind; [apply (transcripts_cpl NN RATE init L0)|]. intros ts c1 _ _ _ Hts. eapply cpl_bind; [apply (transcript_cpl NN RATE init L0)|]. intros main c2 _ L2 _ Hm.
    rewrite E1. cbn [lift_o]. eapply cpl_bind; [apply cpl_ret with (P := fun g c' => g = (a, b, is_, ads, calls, n) /\ c' = c2); auto|]. intros g c3 _ _ _ [-> ->].
    assert (R0 : rel c2 [] (mkX [] (all_instances NN M unit (given_circuits NN M gs)) (main :: ts))
      (mkC [] (all_instances NN M unit (given_circuits NN M gs)) (map (fun b => mkTr b h0) ([] :: given_bytes NN M gs)))).
    { apply start_rel. cbn [map]. constructor; [exact Hm|exact (trs_le NN RATE c1 c2 _ _ L2 Hts)]. }
    eapply cpl_bind; [exact (m_calls_cpl calls c2 [] _ _ s' R0 Ho Lk E2)|].
    intros [s notes] c3 _ _ _ [R Hn]. cbn [fst snd] in R, Hn. unfold kinds_after in R. cbn [app] in R.
    eapply cpl_bind; [exact (cpl_p NN W HN HW RATE c3 _ s s' a wx R E3)|]. intros p1 c4 _ _ _ [-> H1].
    eapply cpl_bind; [exact (cpl_p NN W HN HW RATE c3 _ s s' b wg R E4)|]. intros p2 c4 _ _ _ [-> H2].
    eapply cpl_bind; [exact (cpl_ss NN W HN HW RATE c3 _ s s' is_ ins R E5)|]. intros cells c4 _ _ _ [-> H3].
    eapply cpl_bind; [exact (exact_pointss NN W HN HW RATE c3 _ s s' ads R Hex advices E6)|]. intros commits c4 _ _ _ [-> H4].
    eapply cpl_bind; [exact (coherent_cpl NN W HN HW 1 (le_n 1) RATE init L0 advices coherent Hco c3 commits H4)|]. intros us c4 _ L4 _ _. apply cpl_ret. exact I.
  Qed.
End Calls.

(** ** Measuring runs on multiples of the generator, checked on the exponents (ExponentRun.v) *)
Section Exponents.
  Variables NN W : PF.
  Hypothesis HN : pf_n NN = fr_mod.
  Hypothesis HW : pf_n W = fq_mod.
  Notation M := (G1 NN W HN HW).
  Notation aff := (g1_affine NN W HN HW).
  Notation E1 := (self_mod NN).
  Variable g : M.
  Hypothesis g_G : aff g = G W.
  Variables (PT SC : nat).
  Variable dec1 : list Z -> option E1.
  Variable dec2 : list Z -> option M.
  Hypothesis dec : forall bs e, dec1 bs = Some e -> dec2 bs = Some (times g e).
  Variable sc_decode : list Z -> option NN.
  Variable generator : E1.
  Notation nm := (scN NN).
  Notation run1 := (run_call NN E1 PT SC dec1 sc_decode unit (fun s _ => s) (fun s _ => s) (fun s => Some (num2 NN, s)) generator).
  Notation run2 := (run_call NN M PT SC dec2 sc_decode (pstate NN (mock_chip NN)) (native_pt NN W M aff) (native_sc NN) (native_sqz NN (two_spec NN) 1) (times g generator)).
  Notation call1 := (mrun_call NN E1 PT SC dec1 sc_decode unit (fun s _ => s) (fun s _ => s) (fun s => Some (num2 NN, s)) generator).
  Notation call2 := (mrun_call NN M PT SC dec2 sc_decode (pstate NN (mock_chip NN)) (native_pt NN W M aff) (native_sc NN) (native_sqz NN (two_spec NN) 1) (times g generator)).
  Notation calls2 := (mrun NN M PT SC dec2 sc_decode (pstate NN (mock_chip NN)) (native_pt NN W M aff) (native_sc NN) (native_sqz NN (two_spec NN) 1) (times g generator)).
  Notation follows2 := (follows g (two_ready NN)).
  Notation luck := (mlucky_calls NN W HN HW PT SC dec2 sc_decode (two_spec NN) 1 (times g generator)).

  (** checked for scalars below 16^62 only, so that the stand-in is the identity *)
  Definition mcall_luckyb (ks : list N) (k : call NN E1) (s : cst NN E1 unit) : bool :=
    match k with
    | CMultiExp ps ss => match mapM (val_p s) ps, mapM (val_s s) ss with
                         | Some es, Some xs => sluckyb ks (combine (map nm xs) (map nm es)) && forallb (fun x => (nm x <? 16 ^ 62)%N) xs | _, _ => true end
    | _ => call_luckyb NN ks k s
    end.
  Fixpoint mlrun (ks : list N) (cs : list (call NN E1)) (s : cst NN E1 unit) : option (cst NN E1 unit) :=
    match cs with [] => Some s | k :: cs => if mcall_luckyb ks k s then match call1 k s with Some s => mlrun ks cs s | None => None end else None end.
  Lemma mf_call k a b a' : follows2 a b -> call1 k a = Some a' -> exists b', call2 (on_call g k) b = Some b' /\ follows2 a' b'.
  Proof.
    intros R E. assert (D : (call1 k a = run1 k a /\ call2 (on_call g k) b = run2 (on_call g k) b) \/ exists ps ss, k = CMultiExp ps ss) by (destruct k; eauto). destruct D as [(D1 & D2)|(ps & ss & ->)].
    - rewrite D2. rewrite D1 in E. exact (f_call NN M g PT SC dec1 dec2 dec sc_decode _ (native_pt NN W M aff) (native_sc NN) (native_sqz NN (two_spec NN) 1) (two_ready NN) (num2 NN)
        (fun h P H => H) (fun h s H => H) (two_sqz NN) generator k a b a' R E).
    - cbn [mrun_call on_call] in *. destruct (mapM (val_p a) ps) as [es|] eqn:E1; [|discriminate]. destruct (mapM (val_s a) ss) as [xs|] eqn:E2; [|discriminate].
      rewrite (f_mapM_p NN M g _ _ a b _ _ R E1), (f_mapM_s NN M g _ _ a b _ _ R E2). unfold measured_exp in *. destruct (multi_exp es (map (leading NN) xs)) as [e|] eqn:E3; [|discriminate].
      rewrite (times_multi_exp NN M g _ _ _ E3), <- (times_smul NN M g). exact (f_push NN M g _ _ (VP _) _ _ _ R E).
  Qed.
  Lemma mcall_luckyb_ok ks k a b : Forall (fun m => fine W (Curve.smul m (G W))) ks -> follows2 a b -> mcall_luckyb ks k a = true -> mlucky_call NN W HN HW (on_call g k) b.
  Proof.
    intros Hk R H. assert (D : (mcall_luckyb ks k a = call_luckyb NN ks k a /\ mlucky_call NN W HN HW (on_call g k) b = lucky_call NN W HN HW (on_call g k) b) \/ exists ps ss, k = CMultiExp ps ss)
      by (destruct k; eauto). destruct D as [(D1 & D2)|(ps & ss & ->)].
    - rewrite D2. rewrite D1 in H. exact (call_luckyb_ok NN W HN HW g g_G SC dec1 dec2 dec generator ks k a b Hk R H).
    - cbn [mlucky_call on_call mcall_luckyb] in *. intros Ps xs EP Ex. destruct (f_mapM_p' NN W HN HW g a b ps Ps R EP) as (es & E1 & ->). pose proof (f_mapM_s' NN W HN HW g a b ss xs R Ex) as E2.
      rewrite E1, E2 in H. apply andb_true_iff in H. destruct H as [H1 H2]. split.
      + pose proof (call_luckyb_ok NN W HN HW g g_G SC dec1 dec2 dec generator ks (CMultiExp ps ss) a b Hk R) as K. cbn [call_luckyb lucky_call on_call] in K. rewrite E1, E2 in K. exact (K H1 _ _ EP Ex).
      + assert (Z : wsum W (lead 2) (combine (map nm xs) (map aff (map (times g) es))) = Inf).
        { clear - H2. rewrite forallb_forall in H2. unfold wsum. revert es. induction xs as [|x xs IH]; intros [|e es]; try reflexivity. cbn [map combine psum fst snd].
          rewrite IH by (intros y Hy; apply H2; now right). assert (L : (lead 2 (nm x) = 0)%N) by (apply N.div_small; specialize (H2 x (or_introl eq_refl)); apply N.ltb_lt in H2; exact H2).
          rewrite L. reflexivity. }
        rewrite Z. intros k i _ _. rewrite (smul_inf W). exact I.
  Qed.
  Lemma mlrun_ok ks cs : Forall (fun m => fine W (Curve.smul m (G W))) ks -> forall a b a', follows2 a b -> mlrun ks cs a = Some a' ->
    luck (map (on_call g) cs) b /\ exists b', calls2 (map (on_call g) cs) b = Some b' /\ follows2 a' b'.
  Proof.
    intros Hk. induction cs as [|k cs IH]; intros a b a' R E; [injection E as <-; split; [exact I|]; exists b; now split|]. cbn [mlrun map mlucky_calls mrun] in *.
    destruct (mcall_luckyb ks k a) eqn:El; [|discriminate]. destruct (call1 k a) as [a1|] eqn:Ek; [|discriminate].
    destruct (mf_call k a b a1 R Ek) as (b1 & Eb & R1). rewrite Eb. destruct (IH a1 b1 a' R1 E) as [K1 K2]. split; [|exact K2].
    split; [exact (mcall_luckyb_ok ks k a b Hk R El)|]. intros b' Eb'. injection Eb' as <-. exact K1.
  Qed.
End Exponents.
