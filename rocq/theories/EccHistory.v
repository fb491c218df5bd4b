(** Client programs of the elliptic-curve chip: any finite sequence of the
    operations of [EccChipOps] (chips/ecc_chip.rs:60-580) applied to point
    registers.  This file models no code of its own; it only calls the operations of
    Ecc.v.  An operation appends its result; arguments taken by [&mut] are written
    back. *)
From Coq Require Import ZArith Arith NArith Lia List Bool.
From Verif Require Import Util Algebra PField Gate GateProofs GateOps Integer Bn254 IntegerHistory IntegerHistorySound
  IntegerValue Curve CurveAssoc Bn254Curve Ecc EccSound EccScalar EccMul.
Import ListNotations.

Inductive eop (N W : PF) : Type :=
| EConst (P : point W) | EIdentity
| EAdd (i j : nat) | EDouble (i : nat) | ENeg (i : nat) | ESub (i j : nat)
| EReduce (i : nat) | EAssertEqual (i j : nat)
| EMul (i : nat) (s : aval N)
| EShamir (is : list nat) (ss : list (aval N))
| EConstMul (P : point W) (s : aval N).
Arguments EConst {N W}. Arguments EIdentity {N W}. Arguments EAdd {N W}. Arguments EDouble {N W}. Arguments ENeg {N W}.
Arguments ESub {N W}. Arguments EReduce {N W}. Arguments EAssertEqual {N W}. Arguments EMul {N W}. Arguments EShamir {N W}.
Arguments EConstMul {N W}.

Section Run.
  Context {N W : PF}.
  Definition run_eop (o : eop N W) (ps : list (apoint N)) : B N (list (apoint N)) :=
    match o with
    | EConst P => r <- assign_constant_point P ;; ret (ps ++ [r])
    | EIdentity => r <- assign_identity W ;; ret (ps ++ [r])
    | EAdd i j => a <- at_ ps i ;; b <- at_ ps j ;; r <- ecc_add W a b ;; ret (upd ps i (snd r) ++ [fst r])
    | EDouble i => a <- at_ ps i ;; r <- ecc_double W a ;; ret (upd ps i (snd r) ++ [fst r])
    | ENeg i => a <- at_ ps i ;; r <- ecc_neg W a ;; ret (ps ++ [r])
    | ESub i j => a <- at_ ps i ;; b <- at_ ps j ;; r <- ecc_sub W a b ;; ret (upd ps i (snd r) ++ [fst r])
    | EReduce i => a <- at_ ps i ;; r <- ecc_reduce W a ;; ret (upd ps i (snd r) ++ [fst r])
    | EAssertEqual i j => a <- at_ ps i ;; b <- at_ ps j ;; ecc_assert_equal W a b ;;; ret ps
    | EMul i s => a <- at_ ps i ;; r <- ecc_mul W a s ;; ret (ps ++ [r])
    | EShamir is ss => l <- bmap (at_ ps) is ;; r <- shamir W l ss ;; ret (ps ++ [r])
    | EConstMul P s => r <- constant_mul P s ;; ret (ps ++ [r])
    end.
  Fixpoint run_ecc (os : list (eop N W)) (ps : list (apoint N)) : B N (list (apoint N)) :=
    match os with
    | [] => ret ps
    | o :: os => ps <- run_eop o ps ;; run_ecc os ps
    end.
End Run.

(** ** What a history means in the group; [sc] reads a scalar cell. *)
Section Sem.
  Context {N W : PF}.
  Variable sc : aval N -> BinNums.N.
  Definition look (ps : list (point W)) (i : nat) : point W := nth i ps Inf.
  Fixpoint msm (kps : list (BinNums.N * point W)) : point W :=
    match kps with [] => Inf | (k, P) :: kps => padd (smul k P) (msm kps) end.
  Definition sem_eop (o : eop N W) (ps : list (point W)) : list (point W) :=
    match o with
    | EConst P => ps ++ [P]
    | EIdentity => ps ++ [Inf]
    | EAdd i j => ps ++ [padd (look ps i) (look ps j)]
    | EDouble i => ps ++ [padd (look ps i) (look ps i)]
    | ENeg i => ps ++ [pneg (look ps i)]
    | ESub i j => ps ++ [padd (look ps i) (pneg (look ps j))]
    | EReduce i => ps ++ [look ps i]
    | EAssertEqual i j => ps
    | EMul i s => ps ++ [smul (sc s) (look ps i)]
    | EShamir is ss => ps ++ [msm (combine (map sc ss) (map (look ps) is))]
    | EConstMul P s => ps ++ [smul (sc s) P]
    end.
  Definition sem_ecc (os : list (eop N W)) (ps : list (point W)) : list (point W) := fold_left (fun ps o => sem_eop o ps) os ps.
End Sem.

(** The constants of a program are points of the prime-order group. *)
Definition in_group {W : PF} (P : point W) : Prop := on_curve (ofZ 3) P /\ smul (Z.to_N fr_mod) P = Inf.
Definition consts_ok {N W : PF} (o : eop N W) : Prop :=
  match o with EConst P | EConstMul P _ => in_group P | _ => True end.

Section Sound.
  Variables NN W : PF.
  Hypothesis HN : pf_n NN = fr_mod.
  Hypothesis HW : pf_n W = fq_mod.
  Local Notation rp := (rp NN W).
  Implicit Types (w : asg NN).
  Definition sc_of w (s : aval NN) : BinNums.N := Z.to_N (toZ (w (av_cell s))).
  (** the register holds [P], a point of the prime-order group *)
  Definition gp w (a : apoint NN) (P : point W) : Prop := rp w a P /\ smul (Z.to_N fr_mod) P = Inf.
  Lemma gp_on w a P : gp w a P -> on_curve (curve_b W) P.
  Proof. intros [H _]. exact (rp_on NN W w a P H). Qed.
  Lemma in_group_add (P Q : point W) : in_group P -> in_group Q -> in_group (padd P Q).
  Proof.
    intros [OP HP] [OQ HQ]. split; [apply (aon W); assumption|].
    rewrite (spadd W HW) by assumption. rewrite HP, HQ. reflexivity.
  Qed.
  Lemma in_group_neg (P : point W) : in_group P -> in_group (pneg P).
  Proof. intros [OP HP]. split; [now apply pneg_on|]. rewrite (smul_neg W (curve_b W) (two_neq0 W HW) (no_ordinate_0 W HW)) by assumption. now rewrite HP. Qed.
  Lemma in_group_mul k (P : point W) : in_group P -> in_group (smul k P).
  Proof.
    intros [OP HP]. split; [now apply (smul_on W)|]. rewrite <- (smulmul W HW), N.mul_comm, (smulmul W HW) by assumption. rewrite HP. apply (smul_inf W).
  Qed.
  Lemma gp_grp w a P : gp w a P -> in_group P.
  Proof. intro H. split; [exact (gp_on _ _ _ H)|apply H]. Qed.
  Lemma gp_of w a P : rp w a P -> in_group P -> gp w a P.
  Proof. intros H [_ H']. now split. Qed.

  Lemma nth_look w ps Ps i a : Forall2 (gp w) ps Ps -> nth_error ps i = Some a -> nth_error Ps i = Some (look Ps i) /\ gp w a (look Ps i).
  Proof.
    intros H E. destruct (Forall2_nth_l _ _ _ _ _ H E) as (P & EP & HP). unfold look. rewrite (nth_error_nth _ _ Inf EP). auto.
  Qed.
  Lemma at_look w ps i : snd_ w (at_ ps i) (fun a => forall Ps, Forall2 (gp w) ps Ps -> nth_error Ps i = Some (look Ps i) /\ gp w a (look Ps i)).
  Proof. apply snd_at. intros a E Ps H. now apply (nth_look w ps). Qed.
  Lemma bmap_look w ps is : snd_ w (bmap (at_ ps) is) (fun l => forall Ps, Forall2 (gp w) ps Ps -> Forall2 (gp w) l (map (look Ps) is)).
  Proof.
    induction is as [|i is IH]; cbn [bmap map]; [apply snd_ret; constructor|].
    eapply snd_bind; [apply at_look|]. intro a. eapply snd_bind; [exact IH|]. intro l. apply snd_ret. intros Hl Ha Ps H.
    constructor; [apply (Ha Ps H)|auto].
  Qed.
  Lemma scal w s k (P : point W) : in_group P -> w (av_cell s) = ofN NN k -> smul k P = smul (sc_of w s) P.
  Proof. intros [OP HP] E. unfold sc_of. exact (scalar_of NN W HN HW _ k P OP HP E). Qed.
  Lemma msm_scal w ss ks : Forall2 (fun s k => (k < 2 ^ 256)%N /\ w (av_cell s) = ofN NN k) ss ks -> forall Ps : list (point W), Forall in_group Ps ->
    psum W (map (fun kP => smul (fst kP) (snd kP)) (combine ks Ps)) = msm (combine (map (sc_of w) ss) Ps) /\ in_group (msm (combine (map (sc_of w) ss) Ps)).
  Proof.
    induction 1 as [|s k ss ks [_ Hk] H IH]; intros Ps HP; [split; [reflexivity|split; [exact I|apply (smul_inf W)]]|].
    destruct Ps as [|P Ps]; [split; [reflexivity|split; [exact I|apply (smul_inf W)]]|].
    apply Forall_cons_iff in HP. destruct HP as [HP HPs]. destruct (IH Ps HPs) as [E G]. cbn [combine map msm fst snd].
    split; [|apply in_group_add; [now apply in_group_mul|assumption]]. unfold psum. cbn [fold_right]. fold (psum W (map (fun kP => smul (fst kP) (snd kP)) (combine ks Ps))).
    rewrite E, (scal w s k P HP Hk). reflexivity.
  Qed.

  Lemma run_eop_snd w o ps : consts_ok o ->
    snd_ w (run_eop o ps) (fun ps' => forall Ps, Forall2 (gp w) ps Ps -> Forall2 (gp w) ps' (sem_eop (sc_of w) o Ps)).
  Proof.
    intro Ho. destruct o; cbn [run_eop sem_eop consts_ok] in *.
    - eapply snd_bind; [apply (coords_const NN W HN HW); apply Ho|]. intro r. apply snd_ret. intros [H1 H2] Ps H. apply Forall2_app1; [assumption|]. now apply gp_of.
    - eapply snd_bind; [apply (ident_rp NN W HN HW)|]. intro r. apply snd_ret. intros Hr Ps H. apply Forall2_app1; [assumption|].
      split; [assumption|apply (smul_inf W)].
    - eapply snd_bind; [apply at_look|]. intro a. eapply snd_bind; [apply at_look|]. intro b. eapply snd_bind; [apply (add_rp NN W HN HW)|]. intro r.
      apply snd_ret. intros Hr Hb Ha Ps H. destruct (Ha Ps H) as [Ea Ga]. destruct (Hb Ps H) as [_ Gb].
      destruct (Hr _ _ (proj1 Ga) (proj1 Gb)) as [H1 H2]. apply Forall2_app1.
      + eapply Forall2_upd; [exact H|exact Ea|]. now apply gp_of, (gp_grp w a).
      + apply gp_of; [assumption|]. apply in_group_add; eapply gp_grp; eassumption.
    - eapply snd_bind; [apply at_look|]. intro a. eapply snd_bind; [apply (double_rp NN W HN HW)|]. intro r.
      apply snd_ret. intros Hr Ha Ps H. destruct (Ha Ps H) as [Ea Ga].
      destruct (Hr _ (proj1 Ga)) as [H1 H2]. apply Forall2_app1.
      + eapply Forall2_upd; [exact H|exact Ea|]. now apply gp_of, (gp_grp w a).
      + apply gp_of; [assumption|]. apply in_group_add; eapply gp_grp; eassumption.
    - eapply snd_bind; [apply at_look|]. intro a. eapply snd_bind; [apply (ecc_neg_snd NN W HN HW)|]. intro r.
      apply snd_ret. intros [Hc Hr] Ha Ps H. destruct (Ha Ps H) as [Ea Ga]. apply Forall2_app1; [assumption|].
      apply gp_of; [|apply in_group_neg; eapply gp_grp; eassumption]. split; [apply Hr; apply (proj1 (proj1 Ga))|now apply none_ok].
    - eapply snd_bind; [apply at_look|]. intro a. eapply snd_bind; [apply at_look|]. intro b. eapply snd_bind; [apply (ecc_sub_snd NN W HN HW)|]. intro r.
      apply snd_ret. intros Hr Hb Ha Ps H. destruct (Ha Ps H) as [Ea Ga]. destruct (Hb Ps H) as [_ Gb].
      pose proof Ga as [[PA CA] _]. destruct (Hr _ _ PA (proj1 (proj1 Gb)) (fun _ => CA)) as (H1 & H2 & H3 & H4). apply Forall2_app1.
      + eapply Forall2_upd; [exact H|exact Ea|]. apply gp_of; [split; auto|exact (gp_grp _ _ _ Ga)].
      + apply gp_of; [split; [assumption|now apply none_ok]|]. apply in_group_add; [|apply in_group_neg]; eapply gp_grp; eassumption.
    - eapply snd_bind; [apply at_look|]. intro a. eapply snd_bind; [apply (ecc_reduce_snd NN W HN HW)|]. intro r.
      apply snd_ret. intros Hr Ha Ps H. destruct (Ha Ps H) as [Ea Ga]. pose proof Ga as [[PA CA] _].
      destruct (Hr _ PA) as (H1 & _ & _ & _ & H2 & H3 & H4). apply Forall2_app1.
      + eapply Forall2_upd; [exact H|exact Ea|]. apply gp_of; [split; auto|exact (gp_grp _ _ _ Ga)].
      + apply gp_of; [split; [assumption|now apply none_ok]|exact (gp_grp _ _ _ Ga)].
    - eapply snd_bind; [apply at_look|]. intro a. eapply snd_bind; [apply at_look|]. intro b.
      eapply snd_bind; [apply (ecc_assert_equal_snd NN W HN HW)|]. intro r. apply snd_ret. auto.
    - eapply snd_bind; [apply at_look|]. intro a. eapply snd_bind; [apply (ecc_mul_snd NN W HN HW)|]. intro r. apply snd_ret.
      intros Hr Ha Ps H. destruct (Ha Ps H) as [Ea Ga]. apply Forall2_app1; [assumption|]. destruct (Hr _ (proj1 Ga)) as (k & _ & Ek & Hk).
      rewrite (scal w s k _ (gp_grp _ _ _ Ga) Ek) in Hk. apply gp_of; [assumption|]. apply in_group_mul. exact (gp_grp _ _ _ Ga).
    - eapply snd_bind; [apply bmap_look|]. intro l. eapply snd_bind; [apply (shamir_snd NN W HN HW)|]. intro r. apply snd_ret.
      intros Hr Hl Ps H. specialize (Hl Ps H). apply Forall2_app1; [assumption|].
      assert (Hl' : Forall2 (rp w) l (map (look Ps) is)) by (clear - Hl; induction Hl as [|? ? ? ? [X _]]; constructor; auto).
      assert (HG : Forall in_group (map (look Ps) is)) by (clear - Hl; induction Hl as [|? ? ? ? X]; constructor; eauto using gp_grp).
      destruct (Hr _ Hl') as (ks & Hks & _ & Hk). destruct (msm_scal w ss ks Hks _ HG) as [E G]. rewrite E in Hk. now apply gp_of.
    - eapply snd_bind; [apply (constant_mul_snd NN W HN HW); apply Ho|]. intro r. apply snd_ret. intros (k & _ & Ek & Hk) Ps H.
      apply Forall2_app1; [assumption|]. rewrite (scal w s k _ Ho Ek) in Hk. apply gp_of; [assumption|]. now apply in_group_mul.
  Qed.

  Lemma run_ecc_snd w os : forall ps, Forall consts_ok os ->
    snd_ w (run_ecc os ps) (fun ps' => forall Ps, Forall2 (gp w) ps Ps -> Forall2 (gp w) ps' (sem_ecc (sc_of w) os Ps)).
  Proof.
    induction os as [|o os IH]; intros ps Ho; cbn [run_ecc]; [apply snd_ret; auto|]. apply Forall_cons_iff in Ho. destruct Ho as [Ho Hos].
    eapply snd_bind; [now apply run_eop_snd|]. intro ps1. eapply snd_conseq; [now apply IH|]. intros ps' H' H1 Ps H. exact (H' _ (H1 _ H)).
  Qed.
End Sound.
