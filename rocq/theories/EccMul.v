(** Soundness of scalar multiplication: [mul], [shamir], [constant_mul]. *)
From Coq Require Import ZArith Arith NArith Lia List Bool Ring Field Znumtheory.
From Verif Require Import Util Algebra PField Gate GateProofs GateOps Integer Bn254 IntegerFacts IntegerHistorySound IntegerValue Curve CurveAssoc Bn254Curve Ecc EccSound EccScalar.
Import ListNotations.
Local Open Scope N_scope.

Section Mul.
  Variables NN W : PF.
  Hypothesis HN : pf_n NN = fr_mod.
  Hypothesis HW : pf_n W = fq_mod.
  Local Notation holds_bit := (holds_bit NN).
  Local Notation bb := (curve_b W).
  Local Notation apoint := (apoint NN).
  Local Notation point := (point W).
  Local Notation pt := (pt NN W).
  Local Notation cvok := (cvok NN W).
  Local Notation onc := (on_curve bb).
  Local Notation smul := (@Curve.smul W).

  Lemma assoc (P Q R : point) : onc P -> onc Q -> onc R -> padd (padd P Q) R = padd P (padd Q R).
  Proof. exact (padd_assoc W bb (two_neq0 W HW) (no_ordinate_0 W HW) P Q R). Qed.
  Lemma comm (P Q : point) : onc P -> onc Q -> padd P Q = padd Q P.
  Proof. exact (padd_comm W bb P Q). Qed.
  Lemma son k P : onc P -> onc (smul k P).
  Proof. exact (smul_on W bb k P). Qed.
  Lemma aon P Q : onc P -> onc Q -> onc (padd P Q).
  Proof. exact (padd_on W bb P Q). Qed.
  Lemma sadd j k P : onc P -> smul (j + k) P = padd (smul j P) (smul k P).
  Proof. exact (smul_add W bb (two_neq0 W HW) (no_ordinate_0 W HW) j k P). Qed.
  Lemma smulmul j k P : onc P -> smul (j * k) P = smul j (smul k P).
  Proof. exact (smul_mul W bb (two_neq0 W HW) (no_ordinate_0 W HW) j k P). Qed.
  Lemma ssucc k P : smul (N.succ k) P = padd P (smul k P).
  Proof. exact (smul_succ W k P). Qed.
  Lemma swap4 (A C D E : point) : onc A -> onc C -> onc D -> onc E -> padd (padd A C) (padd D E) = padd (padd A D) (padd C E).
  Proof.
    intros. rewrite !assoc by auto using aon. f_equal. rewrite <- !assoc by auto. f_equal. now apply comm.
  Qed.
  Lemma spadd k P Q : onc P -> onc Q -> smul k (padd P Q) = padd (smul k P) (smul k Q).
  Proof.
    intros HP HQ. induction k as [|k IH] using N.peano_ind; [reflexivity|]. rewrite !ssucc, IH. apply swap4; auto using son.
  Qed.

  (** [a] represents [P], and its cached curvature is right *)
  Definition rp (w : asg NN) (a : apoint) (P : point) : Prop := pt w a P /\ cvok w a P.
  Lemma rp_on w a P : rp w a P -> onc P.
  Proof. intros [H _]. exact (pt_on NN W w a P H). Qed.
  Lemma none_ok w a P : pt_c a = None -> cvok w a P.
  Proof. unfold EccSound.cvok. now intros ->. Qed.

  Lemma add_rp w a b : snd_ w (ecc_add W a b) (fun r => forall P Q, rp w a P -> rp w b Q -> rp w (fst r) (padd P Q) /\ rp w (snd r) P).
  Proof.
    eapply snd_conseq; [apply (ecc_add_snd NN W HN HW)|]. intros r H P Q [HP CP] [HQ CQ].
    destruct (H P Q HP HQ (fun _ => CP)) as (H1 & H2 & H3 & H4). split; split; auto using none_ok.
  Qed.
  Lemma double_rp w a : snd_ w (ecc_double W a) (fun r => forall P, rp w a P -> rp w (fst r) (padd P P) /\ rp w (snd r) P).
  Proof.
    eapply snd_conseq; [apply (ecc_double_snd NN W HN HW)|]. intros r H P [HP CP].
    destruct (H P HP CP) as (H1 & H2 & H3 & H4). split; split; auto using none_ok.
  Qed.
  Lemma curv_rp w a : snd_ w (curvature W a) (fun r => forall P, rp w a P -> rp w (snd r) P).
  Proof.
    eapply snd_conseq; [apply (curvature_snd NN W HN HW)|]. intros r H P [HP CP]. destruct (H P HP) as (H1 & H2 & _ & _ & H3).
    split; [assumption|]. unfold EccSound.cvok. rewrite H2. auto.
  Qed.
  Lemma bpoint_rp w s a b : snd_ w (bisec_point_with_curvature W s a b) (fun p => forall z P Q,
    holds_bit w s z -> rp w a P -> rp w b Q -> rp w p (if z then P else Q)).
  Proof.
    eapply snd_conseq; [apply (bpoint_curv NN W HN HW)|]. intros p H z P Q Hz [HP CP] [HQ CQ]. destruct (H z P Q Hz HP HQ) as [H1 H2].
    split; [assumption|]. apply H2. destruct z; assumption.
  Qed.

  (** ** Candidates *)
  Fixpoint cl w (l : list apoint) (f : N -> point) {struct l} : Prop :=
    match l with [] => True | a :: l => rp w a (f 0) /\ cl w l (fun i => f (N.succ i)) end.
  Lemma cl_ext w l : forall f g, (forall i, f i = g i) -> cl w l f -> cl w l g.
  Proof.
    induction l as [|a l IH]; intros f g E H; [exact I|]. destruct H as [H1 H2]. split; [now rewrite <- E|].
    eapply IH; [|exact H2]. intro i. apply E.
  Qed.

  Lemma build_rp w n : forall prev a, snd_ w (build_candidates W n prev a) (fun l => length l = S n /\ forall j P,
    rp w prev (smul j P) -> rp w a P -> cl w l (fun i => smul (j + i) P)).
  Proof.
    induction n as [|n IH]; intros prev a; cbn [build_candidates].
    - apply snd_ret. split; [reflexivity|]. intros j P HP _. cbn [cl]. now rewrite N.add_0_r.
    - eapply snd_bind; [apply add_rp|]. intros [ai prev']. eapply snd_bind; [apply IH|]. intro rest. apply snd_ret.
      cbn [fst snd]. intros [Hl Hr] Ha. split; [cbn; lia|]. intros j P HP HQ. destruct (Ha _ _ HP HQ) as [H1 H2].
      split; [now rewrite N.add_0_r|]. eapply cl_ext; [|apply (Hr (j + 1) P); [|assumption]].
      + intro i. cbn beta. f_equal. lia.
      + rewrite N.add_1_r, ssucc, comm by eauto using rp_on, son. assumption.
  Qed.
  Lemma build_curv_rp w n : forall prev a, snd_ w (build_candidates_with_curvature W n prev a) (fun l => length l = S n /\ forall j P,
    rp w prev (smul j P) -> rp w a P -> cl w l (fun i => smul (j + i) P)).
  Proof.
    induction n as [|n IH]; intros prev a; cbn [build_candidates_with_curvature].
    - apply snd_ret. split; [reflexivity|]. intros j P HP _. cbn [cl]. now rewrite N.add_0_r.
    - eapply snd_bind; [apply add_rp|]. intros [ai prev']. eapply snd_bind; [apply curv_rp|]. intros [cv ai']. eapply snd_bind; [apply IH|]. intro rest. apply snd_ret.
      cbn [fst snd]. intros [Hl Hr] Hc Ha. split; [cbn; lia|]. intros j P HP HQ. destruct (Ha _ _ HP HQ) as [H1 H2]. apply Hc in H1.
      split; [now rewrite N.add_0_r|]. eapply cl_ext; [|apply (Hr (j + 1) P); [|assumption]].
      + intro i. cbn beta. f_equal. lia.
      + rewrite N.add_1_r, ssucc, comm by eauto using rp_on, son. assumption.
  Qed.
  Lemma table_rp w id rest P : rp w id Inf -> cl w rest (fun i => smul (1 + i) P) -> cl w (id :: rest) (fun i => smul i P).
  Proof.
    intros H1 H2. split; [exact H1|]. eapply cl_ext; [|exact H2]. intro i. cbn beta. f_equal. lia.
  Qed.

  Lemma halve_rp w bit l : snd_ w (halve W bit l) (fun r => forall b f,
    holds_bit w bit b -> cl w l f -> cl w r (fun i => f (N.b2n b + 2 * i))).
  Proof.
    remember (length l) as n eqn:En. assert (Hn : (length l <= n)%nat) by lia. clear En. revert l Hn.
    induction n as [|n IH]; intros [|a0 [|a1 l]] Hn; cbn [length] in Hn; try lia; cbn [halve]; try (apply snd_ret; intros; exact I).
    eapply snd_bind; [apply bpoint_rp|]. intro c. eapply snd_bind; [apply (IH l); lia|]. intro cs. apply snd_ret.
    intros Hr Hc b f Hb (H0 & H1 & H2). specialize (Hc b _ _ Hb H1 H0). specialize (Hr b _ Hb H2). split.
    - destruct b; exact Hc.
    - eapply cl_ext; [|exact Hr]. intro i. cbn beta. f_equal. lia.
  Qed.
  Lemma pick_rp w : forall bits cands, snd_ w (pick_candidate W cands bits) (fun p => forall bs f,
    Forall2 (holds_bit w) bits bs -> cl w cands f -> rp w p (f (bitsN bs))).
  Proof.
    induction bits as [|bit bits IH]; intros cands; cbn [pick_candidate].
    - apply snd_at. intros x Hx bs f Hbs Hc. destruct cands as [|a cands]; [discriminate|]. injection Hx as <-.
      inversion Hbs; subst. exact (proj1 Hc).
    - eapply snd_bind; [apply halve_rp|]. intro cs. eapply snd_conseq; [apply IH|]. intros p Hp Hh bs f Hbs Hc.
      inversion Hbs as [|? b ? bs' Hb Hbs' E1 E2]; subst. exact (Hp _ _ Hbs' (Hh _ _ Hb Hc)).
  Qed.

  Lemma repeat_double_rp w n : forall acc, snd_ w (repeat_double W n acc) (fun r => forall P, rp w acc P -> rp w r (smul (2 ^ N.of_nat n) P)).
  Proof.
    induction n as [|n IH]; intros acc; cbn [repeat_double].
    - apply snd_ret. intros P HP. change (2 ^ N.of_nat 0) with 1. now rewrite smul_1.
    - eapply snd_bind; [apply double_rp|]. intro d. eapply snd_conseq; [apply IH|]. intros r Hr Hd P HP.
      pose proof (rp_on _ _ _ HP) as OP. destruct (Hd _ HP) as [H1 _]. specialize (Hr _ H1).
      replace (smul (2 ^ N.of_nat (S n)) P) with (smul (2 ^ N.of_nat n) (padd P P)); [assumption|].
      rewrite Nat2N.inj_succ, N.pow_succ_r', N.mul_comm, smulmul by assumption. f_equal.
      change 2 with (1 + 1). now rewrite sadd, smul_1 by assumption.
  Qed.

  Lemma mul_loop_rp w cands : forall windows acc, snd_ w (mul_loop W cands windows acc) (fun r => forall bss k P, onc P ->
    Forall2 (Forall2 (holds_bit w)) windows bss -> cl w cands (fun i => smul i P) -> rp w acc (smul k P) ->
    rp w r (smul (fold_left (fun k bs => 16 * k + bitsN bs) bss k) P)).
  Proof.
    induction windows as [|bits windows IH]; intros acc; cbn [mul_loop].
    - apply snd_ret. intros bss k P OP H _ Hacc. inversion H; subst. exact Hacc.
    - eapply snd_bind; [apply repeat_double_rp|]. intro acc'. eapply snd_bind; [apply pick_rp|]. intro curr.
      eapply snd_bind; [apply add_rp|]. intro s. eapply snd_conseq; [apply IH|].
      intros r Hr Hs Hp Hd bss k P OP H Hc Hacc. inversion H as [|? bs ? bss' Hb Hbs E1 E2]; subst. cbn [fold_left].
      apply (Hr bss' _ P OP Hbs Hc). specialize (Hd _ Hacc). specialize (Hp _ _ Hb Hc). destruct (Hs _ _ Hp Hd) as [H1 _].
      rewrite <- smulmul, <- sadd in H1 by assumption.
      replace (16 * k + bitsN bs) with (bitsN bs + 2 ^ N.of_nat CONFIG_WINDOW_SIZE * k); [assumption|].
      change (2 ^ N.of_nat CONFIG_WINDOW_SIZE) with 16. lia.
  Qed.

  Lemma ident_rp w : snd_ w (assign_identity W) (fun r => rp w r Inf).
  Proof. eapply snd_conseq; [apply (assign_identity_snd' NN W HN HW)|]. intros r (H1 & H2 & _). now split. Qed.

  Lemma windows_4 : num_windows NN CONFIG_WINDOW_SIZE = 64%nat.
  Proof. unfold num_windows. rewrite HN. vm_compute. reflexivity. Qed.
  Lemma windows_2 : num_windows NN 2 = 127%nat.
  Proof. unfold num_windows. rewrite HN. vm_compute. reflexivity. Qed.

  (** [mul] computes the [k]-fold sum for some [k] congruent to the scalar. *)
  Lemma ecc_mul_snd w a s : snd_ w (ecc_mul W a s) (fun r => forall P, rp w a P ->
    exists k, k < 2 ^ 256 /\ w (av_cell s) = ofN NN k /\ rp w r (smul k P)).
  Proof.
    unfold ecc_mul. eapply snd_bind; [apply (decompose_scalar_snd NN w CONFIG_WINDOW_SIZE s); rewrite windows_4; lia|]. intro windows.
    eapply snd_bind; [apply ident_rp|]. intro id. eapply snd_bind; [apply build_rp|]. intro rest. cbv zeta.
    destruct windows as [|first pend]; [apply snd_panic|].
    eapply snd_bind; [apply pick_rp|]. intro acc. eapply snd_conseq; [apply mul_loop_rp|].
    intros r Hr Hp [_ Hc] Hid (bss & Hb & Hl & Hw & Hs) P HP.
    pose proof (rp_on _ _ _ HP) as OP.
    assert (Hcl : cl w (id :: rest) (fun i => smul i P)).
    { apply table_rp; [assumption|]. apply Hc; [now rewrite smul_1|assumption]. }
    inversion Hb as [|? bs ? bss' H1 H2 E1 E2]; subst.
    exists (winsN 4 (bs :: bss')). split; [|split; [exact Hs|]].
    - rewrite windows_4 in Hl. pose proof (winsN_lt _ _ Hw) as Hlt. rewrite Hl in Hlt. exact Hlt.
    - unfold winsN. cbn [fold_left]. change (2 ^ N.of_nat 4) with 16. rewrite N.mul_0_r, N.add_0_l.
      apply Hr; auto. exact (Hp _ _ H1 Hcl).
  Qed.

  (** ** Several points *)
  Fixpoint psum (l : list point) : point := match l with [] => Inf | P :: l => padd P (psum l) end.
  Lemma psum_on l : Forall onc l -> onc (psum l).
  Proof. induction 1; cbn [psum]; [exact I|now apply aon]. Qed.

  (** the points with the windows of their scalars *)
  Local Notation data := (list (point * list (list bool))).
  Definition drep w (ps : list (list apoint * list (list (aval NN)))) (D : data) : Prop :=
    Forall2 (fun cw Pb => onc (fst Pb) /\ cl w (fst cw) (fun i => smul i (fst Pb)) /\ Forall2 (Forall2 (holds_bit w)) (snd cw) (snd Pb)) ps D.
  Lemma drep_on w ps D : drep w ps D -> Forall onc (map fst D).
  Proof. induction 1 as [|cw Pb ps D H _ IH]; constructor; tauto. Qed.
  Definition weigh (f : list (list bool) -> N) (D : data) : point := psum (map (fun Pb => smul (f (snd Pb)) (fst Pb)) D).
  Lemma weigh_on f D : Forall onc (map fst D) -> onc (weigh f D).
  Proof.
    intro H. apply psum_on. induction D as [|[P b] D IH]; cbn in *; constructor; inversion H; subst; [now apply son|auto].
  Qed.
  Lemma weigh_ext f g D : (forall b, f b = g b) -> weigh f D = weigh g D.
  Proof. intro H. unfold weigh. f_equal. apply map_ext. intro. now rewrite H. Qed.
  Lemma weigh_lin (c : N) f g D : Forall onc (map fst D) -> weigh (fun b => g b + c * f b) D = padd (weigh g D) (smul c (weigh f D)).
  Proof.
    induction D as [|[P b] D IH]; intro H; unfold weigh in *; cbn [map psum fst snd] in *.
    - symmetry. apply (smul_inf W).
    - inversion H as [|? ? H1 H2]; subst. rewrite IH by assumption. rewrite sadd, smulmul by assumption.
      rewrite spadd by (auto using son; exact (weigh_on f D H2)).
      apply swap4; auto using son; [exact (weigh_on g D H2)|]. apply son. exact (weigh_on f D H2).
  Qed.

  Lemma Forall2_nth_some {A A'} (R : A -> A' -> Prop) l l' i x : Forall2 R l l' -> nth_error l i = Some x ->
    exists y, nth_error l' i = Some y /\ R x y.
  Proof.
    intro H. revert i. induction H as [|a b l l' Hab _ IH]; intros [|i] E; cbn in *; try discriminate; [|auto].
    injection E as <-. eauto.
  Qed.

  Definition accrep w (acc : option apoint) (A : point) : Prop := match acc with None => A = Inf | Some p => rp w p A end.
  Definition digit (wi : nat) (b : list (list bool)) : N := bitsN (nth wi b []).
  Lemma inner_rp w wi : forall ps acc, snd_ w (shamir_inner W ps wi acc) (fun r =>
    (forall D A, drep w ps D -> onc A -> accrep w acc A -> rp w r (padd (weigh (digit wi) D) A))).
  Proof.
    induction ps as [|[cands windows] ps IH]; intros acc; cbn [shamir_inner].
    - destruct acc as [p|]; [|apply snd_panic]. apply snd_ret. intros D A HD OA HA. inversion HD; subst. exact HA.
    - eapply snd_bind; [apply snd_at; intros x Hx; exact Hx|]. intro bits. eapply snd_bind; [apply pick_rp|]. intro ci. destruct acc as [p|].
      + eapply snd_bind; [apply add_rp|]. intro s. eapply snd_conseq; [apply IH|]. intros r Hr Hs Hp Hbits D A HD OA HA.
        inversion HD as [|? [P b] ? D' (OP & Hc & Hw) HD' E1 E2]; subst. cbn [fst snd] in *.
        destruct (Forall2_nth_some _ _ _ _ _ Hw Hbits) as (bs & Eb & Hbs).
        specialize (Hp _ _ Hbs Hc). destruct (Hs _ _ Hp HA) as [H1 _].
        specialize (Hr D' _ HD' (rp_on _ _ _ H1) H1). unfold weigh in *. cbn [map psum fst snd].
        assert (Ed : digit wi b = bitsN bs) by (unfold digit; now rewrite (nth_error_nth _ _ _ Eb)). rewrite Ed.
        pose proof (weigh_on (digit wi) D' (drep_on _ _ _ HD')) as OD. unfold weigh in OD.
        rewrite <- assoc, (comm _ (smul (bitsN bs) P)) in Hr by auto using son. exact Hr.
      + eapply snd_conseq; [apply IH|]. intros r Hr Hp Hbits D A HD OA HA. cbn in HA. subst A.
        inversion HD as [|? [P b] ? D' (OP & Hc & Hw) HD' E1 E2]; subst. cbn [fst snd] in *.
        destruct (Forall2_nth_some _ _ _ _ _ Hw Hbits) as (bs & Eb & Hbs).
        specialize (Hp _ _ Hbs Hc). specialize (Hr D' _ HD' (son _ _ OP) Hp).
        assert (Ed : digit wi b = bitsN bs) by (unfold digit; now rewrite (nth_error_nth _ _ _ Eb)).
        unfold weigh in *. cbn [map psum fst snd]. rewrite Ed, padd_inf_r.
        pose proof (weigh_on (digit wi) D' (drep_on _ _ _ HD')) as OD. unfold weigh in OD.
        rewrite comm by auto using son. exact Hr.
  Qed.

  Lemma winsN_S ws l j bs : nth_error l j = Some bs -> winsN ws (firstn (S j) l) = (bitsN bs + 2 ^ N.of_nat ws * winsN ws (firstn j l)).
  Proof.
    intro E. assert (Ef : firstn (S j) l = firstn j l ++ [bs]).
    { revert j E. induction l as [|x l IH]; intros [|j] E; cbn in *; try discriminate; [injection E as <-; reflexivity|]. f_equal. now apply IH. }
    rewrite Ef. unfold winsN. rewrite fold_left_app. cbn [fold_left]. apply N.add_comm.
  Qed.
  Lemma weigh_ext' w ps f g D : drep w ps D -> (forall Pb, In Pb D -> f (snd Pb) = g (snd Pb)) -> weigh f D = weigh g D.
  Proof. intros _ H. unfold weigh. f_equal. apply map_ext_in. intros Pb HP. now rewrite H. Qed.

  (** every point has at least [n] windows *)
  Definition enough (n : nat) (D : data) : Prop := forall Pb, In Pb D -> (n <= length (snd Pb))%nat.
  Lemma loop_rp w ps : forall n j acc, snd_ w (shamir_loop W ps (seq j n) acc) (fun r =>
    (forall D, drep w ps D -> enough (j + n) D -> accrep w acc (weigh (fun b => winsN 4 (firstn j b)) D) ->
      rp w r (weigh (fun b => winsN 4 (firstn (j + n) b)) D))).
  Proof.
    induction n as [|n IH]; intros j acc; cbn [seq shamir_loop].
    - destruct acc as [p|]; [|apply snd_panic]. apply snd_ret. intros D HD _ HA. now rewrite Nat.add_0_r.
    - eapply snd_bind; [apply inner_rp|]. intro inner.
      assert (Hstep : forall D, drep w ps D -> enough (j + S n) D ->
         weigh (fun b => winsN 4 (firstn (S j) b)) D = padd (weigh (digit j) D) (smul 16 (weigh (fun b => winsN 4 (firstn j b)) D))).
      { intros D HD He. rewrite <- weigh_lin by exact (drep_on _ _ _ HD). apply (weigh_ext' w ps); [assumption|]. intros Pb HPb.
        specialize (He Pb HPb). destruct (nth_error (snd Pb) j) as [bs|] eqn:E; [|apply nth_error_None in E; lia].
        rewrite (winsN_S 4 _ _ _ E). unfold digit. now rewrite (nth_error_nth _ _ _ E). }
      destruct acc as [p|].
      + eapply snd_bind; [apply repeat_double_rp|]. intro p'. eapply snd_bind; [apply add_rp|]. intro s. eapply snd_conseq; [apply IH|].
        intros r Hr Hs Hd Hi D HD He HA. replace (j + S n)%nat with (S j + n)%nat in * by lia. apply Hr; [assumption|assumption|].
        cbn [accrep] in *. specialize (Hd _ HA). rewrite Hstep by (try assumption; now replace (j + S n)%nat with (S j + n)%nat by lia).
        assert (H0 : rp w inner (weigh (digit j) D)).
        { rewrite <- (padd_inf_r W (weigh (digit j) D)). apply Hi; [assumption|exact I|reflexivity]. }
        destruct (Hs _ _ H0 Hd) as [H1 _]. exact H1.
      + eapply snd_conseq; [apply IH|]. intros r Hr Hi D HD He HA. replace (j + S n)%nat with (S j + n)%nat in * by lia. apply Hr; [assumption|assumption|].
        cbn [accrep] in *. rewrite Hstep by (try assumption; now replace (j + S n)%nat with (S j + n)%nat by lia).
        rewrite HA, (smul_inf W). apply Hi; [assumption|exact I|reflexivity].
  Qed.

  (** [shamir] computes the sum of the [k]-fold points, each [k] congruent to its
      scalar. *)
  Lemma shamir_snd w points scalars : snd_ w (shamir W points scalars) (fun r => forall Ps, Forall2 (rp w) points Ps ->
    exists ks, Forall2 (fun s k => k < 2 ^ 256 /\ w (av_cell s) = ofN NN k) scalars ks /\
      length ks = length Ps /\ rp w r (psum (map (fun kP => smul (fst kP) (snd kP)) (combine ks Ps)))).
  Proof.
    unfold shamir. apply snd_bind with (P := fun _ => length points = length scalars).
    { apply snd_guard. apply Nat.eqb_eq. }
    intros []. eapply snd_bind; [apply bmap_snd; intro s; apply (decompose_scalar_snd NN w CONFIG_WINDOW_SIZE s); rewrite windows_4; lia|]. intro windows.
    eapply snd_bind; [apply ident_rp|]. intro id.
    eapply snd_bind.
    { apply (bmap_snd NN w _ (fun a cands => rp w id Inf -> forall P, rp w a P -> cl w cands (fun i => smul i P))). intro a.
      eapply snd_bind; [apply build_curv_rp|]. intro rest. apply snd_ret. intros [_ Hc] Hid P HP.
      apply table_rp; [assumption|]. apply Hc; [now rewrite smul_1|assumption]. }
    intro cands. eapply snd_bind; [apply snd_at; intros x Hx; exact Hx|]. intro w0.
    eapply snd_conseq; [apply loop_rp|]. intros r Hr Hw0 Hcands Hid Hwin Hlen Ps HPs.
    assert (HD : exists D, drep w (combine cands windows) D /\ map fst D = Ps /\ Forall (fun Pb => length (snd Pb) = 64%nat) D /\
      Forall2 (fun s Pb => winsN 4 (snd Pb) < 2 ^ 256 /\ w (av_cell s) = ofN NN (winsN 4 (snd Pb))) scalars D).
    { clear Hr Hw0 w0 r. revert windows Hwin cands Hcands Ps HPs Hlen. revert points.
      induction scalars as [|s scalars IH]; intros points windows Hwin cands Hcands Ps HPs Hlen.
      - destruct points; [|discriminate]. inversion HPs; subst. inversion Hcands; subst. exists []. repeat constructor.
      - destruct points as [|a points]; [discriminate|]. inversion HPs as [|? P ? Ps' HP HPs']; subst.
        inversion Hcands as [|? cs ? cands' Hcs Hcands']; subst. inversion Hwin as [|? ws ? windows' (bss & Hb & Hl & Hf & Hs) Hwin']; subst.
        destruct (IH points windows' Hwin' cands' Hcands' Ps' HPs' ltac:(cbn in Hlen; lia)) as (D & H1 & H2 & H3 & H4).
        exists ((P, bss) :: D). rewrite windows_4 in Hl. cbn [combine map fst]. split; [|split; [|split]].
        + constructor; [|assumption]. cbn [fst snd]. split; [exact (rp_on _ _ _ HP)|]. split; [now apply Hcs|assumption].
        + now rewrite H2.
        + constructor; assumption.
        + constructor; [|assumption]. cbn [snd]. split; [|exact Hs]. pose proof (winsN_lt _ _ Hf) as Hlt. rewrite Hl in Hlt. exact Hlt. }
    destruct HD as (D & H1 & H2 & H3 & H4).
    assert (Hw0l : length w0 = 64%nat).
    { destruct windows as [|ws windows]; [discriminate|]. injection Hw0 as ->.
      inversion Hwin as [|s ? ? ? (bss & Hb & Hl & _)]; subst. rewrite windows_4 in Hl. rewrite <- Hl. exact (Forall2_len _ _ _ Hb). }
    exists (map (fun Pb => winsN 4 (snd Pb)) D). split; [|split].
    - clear -H4. induction H4; constructor; auto.
    - subst Ps. now rewrite !map_length.
    - specialize (Hr D H1). rewrite Hw0l in Hr. cbn [Nat.add] in Hr.
      assert (E : psum (map (fun kP => smul (fst kP) (snd kP)) (combine (map (fun Pb => winsN 4 (snd Pb)) D) Ps)) = weigh (fun b => winsN 4 (firstn 64 b)) D).
      { subst Ps. unfold weigh. clear -H3. induction D as [|[P b] D IH]; [reflexivity|]. inversion H3; subst. cbn [map combine psum fst snd] in *.
        rewrite IH by assumption. rewrite (firstn_all2 b) by lia. reflexivity. }
      rewrite E. apply Hr.
      + intros Pb HPb. rewrite (proj1 (Forall_forall _ _) H3 Pb HPb). lia.
      + cbn [accrep firstn]. change (winsN 4 []) with 0. clear. unfold weigh. induction D as [|Pb D IH]; [reflexivity|]. cbn [map psum]. rewrite IH. reflexivity.
  Qed.

  (** ** Fixed-base multiplication *)
  Lemma order_inj (r : N) (P : point) : prime (Z.of_N r) -> onc P -> P <> Inf -> smul r P = Inf ->
    forall a b, a < r -> b < r -> smul a P = smul b P -> a = b.
  Proof.
    intros Hp OP HP Hr. assert (Hr1 : 1 < r) by (destruct Hp as [H _]; lia).
    assert (G : forall a b, a < b -> b < r -> smul a P = smul b P -> False).
    { intros a b Hab Hb E. replace b with ((b - a) + a) in E by lia. rewrite sadd in E by assumption.
      assert (E' : smul (b - a) P = Inf).
      { apply (padd_cancel_l W bb (two_neq0 W HW) (no_ordinate_0 W HW) (smul a P)); auto using son; [exact I|].
        rewrite padd_inf_r, comm by auto using son. now symmetry. }
      assert (Hrel : rel_prime (Z.of_N (b - a)) (Z.of_N r)).
      { apply rel_prime_sym, prime_rel_prime; [assumption|]. intro Hd. apply Z.divide_pos_le in Hd; lia. }
      apply rel_prime_bezout in Hrel. destruct Hrel as [u v Huv].
      set (u' := Z.to_N (u mod Z.of_N r)).
      assert (Hu : Z.of_N u' = (u mod Z.of_N r)%Z) by (unfold u'; apply Z2N.id; apply Z.mod_pos_bound; lia).
      assert (Hm : (u' * (b - a)) mod r = 1).
      { apply N2Z.inj. rewrite N2Z.inj_mod, N2Z.inj_mul, Hu, Z.mul_mod_idemp_l by lia.
        replace (u * Z.of_N (b - a))%Z with (1 + (- v) * Z.of_N r)%Z by lia. rewrite Z.mod_add, Z.mod_1_l by lia. reflexivity. }
      apply HP. rewrite <- (smul_1 W P), <- Hm.
      rewrite <- (smul_mod W bb (two_neq0 W HW) (no_ordinate_0 W HW)) by (try assumption; lia).
      rewrite smulmul, E' by assumption. apply (smul_inf W). }
    intros a b Ha Hb E. destruct (N.lt_trichotomy a b) as [H|[H|H]]; [|assumption|]; exfalso; [eapply G|eapply (G b a)]; eauto.
  Qed.

  Lemma slot_snd w identity bits base {A} (k : apoint -> B NN A) (Q : A -> Prop) : onc base ->
    (forall slot, snd_ w (k slot) (fun r => (forall bs, length bs = 2%nat -> Forall2 (holds_bit w) bits bs -> pt w identity Inf ->
       pt w slot (smul (bitsN bs) base)) -> Q r)) -> snd_ w
    (c01 <- assign_constant_point_with_curvature (padd base base) ;;
     c10 <- assign_constant_point_with_curvature base ;;
     c11 <- assign_constant_point_with_curvature (padd (padd base base) base) ;;
     b0 <- at_ bits 0 ;;
     c0 <- bisec_point_with_curvature W b0 c10 identity ;;
     c1 <- bisec_point_with_curvature W b0 c11 c01 ;;
     b1 <- at_ bits 1 ;;
     slot <- bisec_point_with_curvature W b1 c1 c0 ;; k slot) Q.
  Proof.
    intros OB Hk. eapply snd_bind; [apply (constant_curvature NN W HN HW); auto using aon|]. intro c01.
    eapply snd_bind; [apply (constant_curvature NN W HN HW); auto using aon|]. intro c10.
    eapply snd_bind; [apply (constant_curvature NN W HN HW); auto using aon|]. intro c11.
    eapply snd_bind; [apply snd_at; intros x Hx; exact Hx|]. intro b0.
    eapply snd_bind; [apply (bpoint_curv NN W HN HW)|]. intro c0. eapply snd_bind; [apply (bpoint_curv NN W HN HW)|]. intro c1.
    eapply snd_bind; [apply snd_at; intros x Hx; exact Hx|]. intro b1. eapply snd_bind; [apply (bpoint_curv NN W HN HW)|].
    intro slot. eapply snd_conseq; [apply (Hk slot)|]. intros r Hr Hs Hb1 Hc1 Hc0 Hb0 H11 H10 H01. apply Hr. intros bs Hl Hbs Hid.
    destruct bs as [|x [|y [|]]]; try discriminate Hl. inversion Hbs as [|? ? ? ? Hx Hbs1]; subst. inversion Hbs1 as [|? ? ? ? Hy Hbs2]; subst.
    inversion Hbs2; subst. injection Hb0 as <-. injection Hb1 as <-.
    destruct (Hc0 _ _ _ Hx H10 Hid) as [Hc0' _]. destruct (Hc1 _ _ _ Hx H11 H01) as [Hc1' _].
    destruct (Hs _ _ _ Hy Hc1' Hc0') as [Hs' _].
    replace (smul (bitsN [x; y]) base) with (if y then if x then padd (padd base base) base else padd base base else if x then base else Inf); [exact Hs'|].
    destruct x, y; cbn [bitsN N.b2n]; symmetry.
    - change (1 + 2 * (1 + 2 * 0)) with (1 + 1 + 1). now rewrite !sadd, !smul_1 by assumption.
    - change (1 + 2 * (0 + 2 * 0)) with 1. apply smul_1.
    - change (0 + 2 * (1 + 2 * 0)) with (1 + 1). now rewrite !sadd, !smul_1 by assumption.
    - reflexivity.
  Qed.

  Lemma four base : onc base -> padd (padd (padd base base) base) base = smul 4 base.
  Proof. intro H. change 4 with (1 + 1 + 1 + 1). now rewrite !sadd, !smul_1 by assumption. Qed.

  (** The cached curvature of the constants is wrong (ecc_chip.rs:451-460 assigns
      [y/x]), but it is selected only when the window's point equals the accumulated
      one, which does not happen for a point of prime order above [3 * 4^126]. *)
  Lemma constant_loop_snd w (r : N) (P : point) identity : prime (Z.of_N r) -> onc P -> smul r P = Inf ->
    forall windows i acc,
    snd_ w (constant_mul_loop identity windows (smul (4 ^ N.of_nat i) P) acc) (fun p => forall bss k,
      4 ^ N.of_nat (i + length windows) < r + 4 ^ (N.of_nat (i + length windows) - 1) -> pt w identity Inf ->
      Forall2 (Forall2 (holds_bit w)) windows bss -> Forall (fun l => length l = 2%nat) bss ->
      k < 4 ^ N.of_nat i -> match acc with None => k = 0 | Some a => pt w a (smul k P) end ->
      pt w p (smul (k + 4 ^ N.of_nat i * winsN_le 2 bss) P)).
  Proof.
    intros Hp OP Hr. induction windows as [|bits windows IH]; intros i acc; cbn [constant_mul_loop].
    - destruct acc as [a|]; [|apply snd_panic]. apply snd_ret. intros bss k _ _ H _ _ Ha. inversion H; subst. cbn [winsN_le].
      now rewrite N.mul_0_r, N.add_0_r.
    - apply slot_snd; [now apply son|]. intro slot.
      assert (Hbase : padd (padd (padd (smul (4 ^ N.of_nat i) P) (smul (4 ^ N.of_nat i) P)) (smul (4 ^ N.of_nat i) P)) (smul (4 ^ N.of_nat i) P) = smul (4 ^ N.of_nat (S i)) P).
      { rewrite four, <- smulmul by auto using son. f_equal. rewrite Nat2N.inj_succ, N.pow_succ_r'. reflexivity. }
      rewrite Hbase. cbn [length]. replace (i + S (length windows))%nat with (S i + length windows)%nat by lia.
      destruct acc as [a|].
      + eapply snd_bind; [apply (ecc_add_snd NN W HN HW)|]. intro s. eapply snd_conseq; [apply (IH (S i))|].
        intros p Hpp Hs Hslot bss k Hi Hid Hb Hl Hk Ha. inversion Hb as [|? bs ? bss' Hbs Hb' E1 E2]; subst.
        apply Forall_cons_iff in Hl. destruct Hl as [Hl1 Hl2]. specialize (Hslot bs Hl1 Hbs Hid).
        pose proof (bitsN_lt bs) as Hlt. rewrite Hl1 in Hlt. change (2 ^ N.of_nat 2) with 4 in Hlt.
        assert (E4 : 4 ^ N.of_nat (S i) = 4 * 4 ^ N.of_nat i) by now rewrite Nat2N.inj_succ, N.pow_succ_r'.
        destruct (Hs _ _ Hslot Ha) as (H1 & _).
        { intro E. destruct (N.eq_dec (bitsN bs) 0) as [E0|E0].
          - rewrite E0. unfold EccSound.cvok. destruct (pt_c slot); exact I.
          - destruct (point_eq_dec W P Inf) as [->|HP].
            + rewrite !(smul_inf W). unfold EccSound.cvok. destruct (pt_c slot); exact I.
            + exfalso. rewrite <- smulmul in E by assumption.
              apply (order_inj r P Hp OP HP Hr) in E; [nia| |].
              * assert (Hm : 4 ^ (N.of_nat (S i + length windows)) = 4 * 4 ^ (N.of_nat (S i + length windows) - 1)).
                { rewrite <- N.pow_succ_r'. f_equal. lia. }
                assert (Hge : 4 ^ N.of_nat i <= 4 ^ (N.of_nat (S i + length windows) - 1)) by (apply N.pow_le_mono_r; lia).
                nia.
              * assert (Hm : 4 ^ (N.of_nat (S i + length windows)) = 4 * 4 ^ (N.of_nat (S i + length windows) - 1)).
                { rewrite <- N.pow_succ_r'. f_equal. lia. }
                assert (Hge : 4 ^ N.of_nat i <= 4 ^ (N.of_nat (S i + length windows) - 1)) by (apply N.pow_le_mono_r; lia).
                nia. }
        rewrite <- smulmul, <- sadd in H1 by assumption.
        replace (k + 4 ^ N.of_nat i * winsN_le 2 (bs :: bss')) with ((bitsN bs * 4 ^ N.of_nat i + k) + 4 ^ N.of_nat (S i) * winsN_le 2 bss')
          by (cbn [winsN_le]; change (2 ^ N.of_nat 2) with 4; rewrite E4; ring).
        apply Hpp; auto. rewrite E4. nia.
      + eapply snd_conseq; [apply (IH (S i))|].
        intros p Hpp Hslot bss k Hi Hid Hb Hl Hk ->. inversion Hb as [|? bs ? bss' Hbs Hb' E1 E2]; subst.
        apply Forall_cons_iff in Hl. destruct Hl as [Hl1 Hl2]. specialize (Hslot bs Hl1 Hbs Hid).
        pose proof (bitsN_lt bs) as Hlt. rewrite Hl1 in Hlt. change (2 ^ N.of_nat 2) with 4 in Hlt.
        assert (E4 : 4 ^ N.of_nat (S i) = 4 * 4 ^ N.of_nat i) by now rewrite Nat2N.inj_succ, N.pow_succ_r'.
        rewrite <- smulmul in Hslot by assumption.
        replace (0 + 4 ^ N.of_nat i * winsN_le 2 (bs :: bss')) with ((bitsN bs * 4 ^ N.of_nat i) + 4 ^ N.of_nat (S i) * winsN_le 2 bss')
          by (cbn [winsN_le]; change (2 ^ N.of_nat 2) with 4; rewrite E4; ring).
        apply Hpp; auto. rewrite E4. nia.
  Qed.

  Lemma Forall2_rev {A A'} (R : A -> A' -> Prop) l l' : Forall2 R l l' -> Forall2 R (rev l) (rev l').
  Proof. induction 1; cbn [rev]; [constructor|]. apply Forall2_app; [assumption|]. now repeat constructor. Qed.

  (** A sum has no cached curvature. *)
  Definition yields {A} (m : B NN A) (P : A -> Prop) : Prop := forall c r c', m c = Some (r, c') -> P r.
  Lemma yields_ret {A} (x : A) (P : A -> Prop) : P x -> yields (ret x) P.
  Proof. intros H c r c' E. unfold ret in E. now injection E as <- _. Qed.
  Lemma yields_bind {A A'} (m : B NN A) (k : A -> B NN A') Q P : yields m Q -> (forall x, Q x -> yields (k x) P) -> yields (bind m k) P.
  Proof.
    intros Hm H c r c'. unfold bind. destruct (m c) as [[x c1]|] eqn:E; [|discriminate]. intro Hk. exact (H x (Hm _ _ _ E) c1 r c' Hk).
  Qed.
  Lemma yields_any {A} (m : B NN A) : yields m (fun _ => True).
  Proof. intros c r c' _. exact I. Qed.
  Lemma bisec_none z (a b : apoint) : yields (bisec_point z a b) (fun p => pt_c p = None).
  Proof. do 3 (eapply yields_bind; [apply yields_any|intros ? _]). now apply yields_ret. Qed.
  Lemma ecc_add_none (a b : apoint) : yields (ecc_add W a b) (fun r => pt_c (fst r) = None).
  Proof.
    unfold ecc_add. do 2 (eapply yields_bind; [apply yields_any|intros ? _]).
    eapply yields_bind; [apply yields_any|intros [[[xe t] dy'] dx'] _].
    do 2 (eapply yields_bind; [apply yields_any|intros ? _]).
    eapply yields_bind; [apply yields_any|intros [cc a'] _].
    do 3 (eapply yields_bind; [apply yields_any|intros ? _]).
    eapply yields_bind; [apply bisec_none|intros p Hp]. now apply yields_ret.
  Qed.
  Lemma constant_loop_none identity windows : forall (base : point) acc,
    (match acc with None => 2 | Some a => match pt_c a with None => 0 | Some _ => 1 end end <= length windows)%nat ->
    yields (constant_mul_loop identity windows base acc) (fun p => pt_c p = None).
  Proof.
    induction windows as [|bits windows IH]; intros base acc Hl; cbn [constant_mul_loop length] in *.
    - destruct acc as [a|]; [|lia]. destruct (pt_c a) eqn:E; [lia|]. now apply yields_ret.
    - do 8 (eapply yields_bind; [apply yields_any|intros ? _]). destruct acc as [a|].
      + eapply yields_bind; [apply ecc_add_none|intros s Hs]. apply IH. rewrite Hs. lia.
      + apply IH. destruct pt_c; lia.
  Qed.

  Lemma constant_mul_snd w (P : point) s : onc P -> smul (Z.to_N fr_mod) P = Inf ->
    snd_ w (constant_mul P s) (fun r => exists k, k < 2 ^ 254 /\ w (av_cell s) = ofN NN k /\ rp w r (smul k P)).
  Proof.
    intros OP Hr. unfold constant_mul. eapply snd_bind; [apply (decompose_scalar_snd NN w 2 s); rewrite windows_2; lia|]. intro windows.
    eapply snd_bind; [apply (constant_curvature NN W HN HW); exact I|]. intro id.
    replace (constant_mul_loop id (rev windows) P None) with (constant_mul_loop id (rev windows) (smul (4 ^ N.of_nat 0) P) None)
      by (change (4 ^ N.of_nat 0) with 1; now rewrite smul_1).
    apply snd_conseq with (P := fun p => ((2 <= length (rev windows))%nat -> pt_c p = None) /\ (forall bss k,
      4 ^ N.of_nat (0 + length (rev windows)) < Z.to_N fr_mod + 4 ^ (N.of_nat (0 + length (rev windows)) - 1) -> pt w id Inf ->
      Forall2 (Forall2 (holds_bit w)) (rev windows) bss -> Forall (fun l => length l = 2%nat) bss ->
      k < 4 ^ N.of_nat 0 -> k = 0 -> pt w p (smul (k + 4 ^ N.of_nat 0 * winsN_le 2 bss) P))).
    { intros c p c' E Hs. split; [|split].
      - refine (proj1 (constant_loop_snd w (Z.to_N fr_mod) P id _ OP Hr (rev windows) 0%nat None c p c' E Hs)).
        rewrite Z2N.id by (unfold fr_mod; lia). rewrite <- HN. apply pf_prime.
      - intro Hl. exact (constant_loop_none id (rev windows) _ None Hl c p c' E).
      - refine (proj2 (constant_loop_snd w (Z.to_N fr_mod) P id _ OP Hr (rev windows) 0%nat None c p c' E Hs)).
        rewrite Z2N.id by (unfold fr_mod; lia). rewrite <- HN. apply pf_prime. }
    intros r [Hn Hk] Hid (bss & Hb & Hlb & Hf & Hs). exists (winsN 2 bss). rewrite windows_2 in Hlb.
    pose proof (Forall2_len _ _ _ Hb) as Hl. rewrite Hlb in Hl. split; [|split; [exact Hs|split]].
    - pose proof (winsN_lt _ _ Hf) as Hlt. rewrite Hlb in Hlt. exact Hlt.
    - rewrite <- (rev_involutive bss), winsN_rev.
      specialize (Hk (rev bss) 0). rewrite rev_length, Hl in Hk.
      specialize (Hk ltac:(vm_compute; reflexivity) Hid (Forall2_rev _ _ _ Hb) (Forall_rev Hf) eq_refl eq_refl).
      change (4 ^ N.of_nat 0) with 1 in Hk. now rewrite N.add_0_l, N.mul_1_l in Hk.
    - apply none_ok, Hn. rewrite rev_length, Hl. lia.
  Qed.

  (** The multiplier is the scalar itself when the point's order is the native one. *)
  Lemma scalar_of (s : NN) k P : onc P -> smul (Z.to_N fr_mod) P = Inf -> s = ofN NN k -> smul k P = smul (Z.to_N (toZ s)) P.
  Proof.
    intros OP Hr ->. unfold ofN. rewrite toZ_ofZ, HN. rewrite (smul_mod W bb (two_neq0 W HW) (no_ordinate_0 W HW) k (Z.to_N fr_mod)) by (auto; discriminate).
    f_equal. rewrite Z2N.inj_mod by (unfold fr_mod; lia). now rewrite N2Z.id.
  Qed.
End Mul.
