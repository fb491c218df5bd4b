(** Relating two layouts of the same circuit: the calls of the verifier and the circuit
    around them (CircuitRun.v), with the rules of Shape.v. *)
From Coq Require Import String ZArith NArith Arith Lia List Bool.
From Verif Require Import Util Algebra PField Gate Integer Curve Ecc Schema Plonk Poseidon BuildParams Calls VerifierCalls VerifierCallsTop VerifyCircuit CircuitRun Shape.
Import ListNotations.

Section Run.
  Variables N W : PF.
  Variable M : Mod N.
  Variable affine : M -> point W.
  Variables (PT SC : nat).
  Variable pt_decode : list Z -> option M.
  Variable sc_decode : list Z -> option N.
  Variable sp : pspec N.
  Variable RATE : nat.
  Variable init : list N.
  Variable generator : M.
  Local Notation chip := (circuit_chip N).
  Local Notation hash := (pstate N (circuit_chip N)).
  Variable RC : ctx N -> ctx N -> Prop.
  Variable RA : aval N -> aval N -> Prop.
  Local Notation shp := (shp N RC).
  Local Notation RS := (RS N RA).
  Local Notation RT := (RT N RA).
  Local Notation RI := (RI N RA).
  Local Notation RH := (RH N RA).
  Hypothesis line : forall ps1 ps2 k mc nx, Forall2 (both RS eq) ps1 ps2 -> shp (one_line ps1 k mc nx) (one_line ps2 k mc nx) (Forall2 RA).
  Hypothesis rline : forall b l ps1 ps2 k mc nx, configured N W b l -> Forall2 (both RS eq) ps1 ps2 ->
    shp (one_line_in_range b l ps1 k mc nx) (one_line_in_range b l ps2 k mc nx) (Forall2 RA).
  Local Notation x_call := (x_call N W M affine PT SC pt_decode sc_decode sp RATE generator).
  Local Notation x_calls := (x_calls N W M affine PT SC pt_decode sc_decode sp RATE generator).

  Definition RX (x y : xval N) : Prop := match x, y with XS a, XS b => RA a b | XP p, XP q => RT p q | _, _ => False end.
  Definition RTr (t u : tr hash) : Prop := RH (t_hash t) (t_hash u).
  Definition RSt (s t : xst N) : Prop := Forall2 RX (x_vals s) (x_vals t) /\ Forall2 RTr (x_trs s) (x_trs t).

  Local Ltac next := eapply (shp_bind N RC).
  Local Ltac done := apply (shp_ret N RC).
  Lemma x_s_shp s t i : RSt s t -> shp (x_s s i) (x_s t i) RA.
  Proof.
    intros [H _]. unfold x_s. pose proof (Forall2_nth_opt _ _ _ H i) as K. destruct (nth_error (x_vals s) i) as [[a|p]|], (nth_error (x_vals t) i) as [[b|q]|];
      cbn in K; try contradiction; try apply shp_panic_l; done; exact K.
  Qed.
  Lemma x_p_shp s t i : RSt s t -> shp (x_p s i) (x_p t i) RT.
  Proof.
    intros [H _]. unfold x_p. pose proof (Forall2_nth_opt _ _ _ H i) as K. destruct (nth_error (x_vals s) i) as [[a|p]|], (nth_error (x_vals t) i) as [[b|q]|];
      cbn in K; try contradiction; try apply shp_panic_l; done; exact K.
  Qed.
  Lemma push_rel x y s t : RX x y -> RSt s t -> RSt (x_push x s) (x_push y t).
  Proof. intros H [H1 H2]. split; [|exact H2]. cbn. apply Forall2_app; [exact H1|]. constructor; [exact H|constructor]. Qed.
  Lemma set_rel i x y s t : RTr x y -> RSt s t -> RSt (x_set i x s) (x_set i y t).
  Proof.
    intros H [H1 H2]. split; [exact H1|]. cbn. unfold set_nth. apply Forall2_app; [apply F2_firstn; exact H2|]. constructor; [exact H|]. apply F2_skipn. exact H2.
  Qed.
  Lemma lift_shp {A1 A2} (o1 : option A1) (o2 : option A2) : shp (lift_o o1) (lift_o o2) (fun a b => o1 = Some a /\ o2 = Some b).
  Proof. destruct o1; [|apply shp_panic_l]. destruct o2; [|apply shp_panic_r]. done. split; reflexivity. Qed.
  Lemma decode_rel {A} size (dec : list Z -> option A) x y v1 v2 : RTr x y -> read_decode hash size dec x = Some v1 -> read_decode hash size dec y = Some v2 -> RTr (snd v1) (snd v2).
  Proof.
    intros H. unfold read_decode. destruct (Nat.leb _ _); [|discriminate]. destruct (dec _); [|discriminate]. intros E1. injection E1 as <-.
    destruct (Nat.leb _ _); [|discriminate]. destruct (dec _); [|discriminate]. intros E2. injection E2 as <-. exact H.
  Qed.
  Lemma common_point_shp p q x y : RT p q -> RTr x y -> shp (x_common_point p x) (x_common_point q y) RTr.
  Proof.
    intros HP HX. unfold x_common_point, encode_point.
    next; [next; [apply (int_native_shp N RC RA line), (rtx _ _ _ _ HP)|intros ? ? [H1 _]]|].
    - next; [apply (int_native_shp N RC RA line), (rty _ _ _ _ HP)|intros ? ? [H2 _]]. done. instantiate (1 := Forall2 RA). constructor; [exact H1|constructor; [exact H2|constructor]].
    - intros e1 e2 He. done. unfold RTr. cbn. apply update_rel; assumption.
  Qed.

  Local Ltac s1 := next; [apply x_s_shp; assumption|intros ? ? ?].
  Local Ltac p1 := next; [apply x_p_shp; assumption|intros ? ? ?].
  Local Ltac fin := done; cbn [fst snd]; apply push_rel; [assumption|assumption].
  Lemma x_call_shp c s t : RSt s t -> shp (x_call c s) (x_call c t) (fun r r' => RSt (fst r) (fst r')).
  Proof.
    intros H. destruct c; cbn [CircuitRun.x_call].
    - next; [apply (const_shp N RC RA line)|intros ? ? ?]. fin.
    - s1. s1. next; [apply (add_shp N RC RA line); eassumption|intros ? ? ?]. fin.
    - s1. s1. next; [apply (sub_shp N RC RA line); eassumption|intros ? ? ?]. fin.
    - s1. s1. next; [apply (mul_shp N RC RA line); eassumption|intros ? ? ?]. fin.
    - s1. s1. next; [apply (div_unsafe_shp N RC RA line); eassumption|intros ? ? ?]. fin.
    - s1. next; [apply (mul_shp N RC RA line); eassumption|intros ? ? ?]. fin.
    - next.
      + apply (shp_bmap N RC eq (both RA eq)); [apply F2_same|]. intros ic ? <-. s1. done. split; [assumption|reflexivity].
      + intros l1 l2 Hl. next; [apply (swc_shp N RC RA line); exact Hl|intros ? ? ?]. fin.
    - next; [apply (const_point_shp N W RC RA line)|intros ? ? ?]. fin.
    - next; [apply (const_point_shp N W RC RA line)|intros ? ? ?]. fin.
    - p1. p1. next; [apply (ecc_add_shp N W RC RA line rline); eassumption|intros [? ?] [? ?] [? ?]]. fin.
    - p1. p1. next; [apply (ecc_sub_shp N W RC RA line rline); eassumption|intros [? ?] [? ?] [? ?]]. fin.
    - s1. p1. next; [apply (ecc_mul_shp N W RC RA line rline); eassumption|intros ? ? ?]. fin.
    - s1. next; [apply (constant_mul_shp N W RC RA line rline); eassumption|intros ? ? ?]. fin.
    - next; [apply (shp_bmap N RC eq RT); [apply F2_same|]; intros i ? <-; apply x_p_shp; exact H|intros ? ? ?].
      next; [apply (shp_bmap N RC eq RA); [apply F2_same|]; intros i ? <-; apply x_s_shp; exact H|intros ? ? ?].
      next; [apply (shamir_shp N W RC RA line rline); eassumption|intros ? ? ?]. fin.
    - p1. next; [apply (ecc_reduce_shp N W RC RA line rline); eassumption|intros [? ?] [? ?] [? ?]]. fin.
    - destruct (x_inst s); [apply shp_panic_l|]. destruct (x_inst t); [apply shp_panic_r|]. next; [apply (assign_shp N RC RA line)|intros ? ? ?]. done. cbn [fst].
      destruct H as [H1 H2]. split; [|exact H2]. cbn. apply Forall2_app; [exact H1|]. constructor; [assumption|constructor].
    - next; [apply (shp_at N RC RTr), (proj2 H)|intros x y Hx]. next; [apply lift_shp|]. intros v1 v2 [E1 E2].
      next; [apply (assign_point_shp N W RC RA line rline)|intros p q Hp]. next; [apply common_point_shp; [exact Hp|exact (decode_rel _ _ _ _ _ _ Hx E1 E2)]|intros x' y' Hx'].
      done. cbn [fst]. apply push_rel; [exact Hp|]. apply set_rel; assumption.
    - next; [apply (shp_at N RC RTr), (proj2 H)|intros x y Hx]. next; [apply lift_shp|]. intros v1 v2 [E1 E2].
      next; [apply (assign_shp N RC RA line)|intros p q Hp]. done. cbn [fst]. apply push_rel; [exact Hp|]. apply set_rel; [|exact H].
      unfold RTr, x_common_scalar. cbn. apply update_rel; [exact (decode_rel _ _ _ _ _ _ Hx E1 E2)|]. constructor; [exact Hp|constructor].
    - p1. next; [apply (shp_at N RC RTr), (proj2 H)|intros x y Hx]. next; [apply common_point_shp; eassumption|intros x' y' Hx']. done. cbn [fst]. apply set_rel; assumption.
    - s1. next; [apply (shp_at N RC RTr), (proj2 H)|intros x y Hx]. done. cbn [fst]. apply set_rel; [|exact H]. unfold RTr, x_common_scalar. cbn.
      apply update_rel; [exact Hx|]. constructor; [assumption|constructor].
    - next; [apply (shp_at N RC RTr), (proj2 H)|intros x y Hx]. next; [apply (squeeze_shp N RC RA line); exact Hx|]. intros r1 r2 [Hr1 Hr2]. done. cbn [fst].
      apply push_rel; [exact Hr1|]. apply set_rel; [exact Hr2|exact H].
  Qed.
  Lemma x_calls_shp cs : forall s t, RSt s t -> shp (x_calls cs s) (x_calls cs t) (fun r r' => RSt (fst r) (fst r')).
  Proof.
    induction cs as [|c cs IH]; intros s t H; cbn [CircuitRun.x_calls]; [done; exact H|].
    next; [apply x_call_shp; exact H|]. intros r r' Hr. next; [apply IH; exact Hr|]. intros q q' Hq. done. exact Hq.
  Qed.
  Lemma x_transcript_shp b b' : shp (x_transcript N init b) (x_transcript N init b') RTr.
  Proof. unfold x_transcript. next; [apply (new_shp N RC RA line)|]. intros p q Hp. done. exact Hp. Qed.
  Lemma x_coherent_shp m1 m2 co : Forall2 (Forall2 RT) m1 m2 -> shp (x_coherent N W m1 co) (x_coherent N W m2 co) (Forall2 any).
  Proof.
    intros H. unfold x_coherent. eapply (shp_bmap N RC eq); [apply F2_same|]. intros c ? <-.
    next; [apply (shp_at N RC); exact H|intros ? ? ?]. next; [eapply (shp_at N RC RT); eassumption|intros ? ? ?].
    next; [apply (shp_at N RC); exact H|intros ? ? ?]. next; [eapply (shp_at N RC RT); eassumption|intros ? ? ?]. apply (ecc_aeq_shp N W RC RA line rline); assumption.
  Qed.
  Lemma tail_shp p1 p2 q1 q2 i1 i2 : RT p1 p2 -> RT q1 q2 -> Forall2 RA i1 i2 -> shp (synthesize_tail N W p1 q1 i1) (synthesize_tail N W p2 q2 i2) (Forall2 RA).
  Proof.
    intros HP HQ HI. unfold synthesize_tail, expose_pair, expose_low, expose_high.
    next; [apply (afalse_shp N RC RA line), (rtz _ _ _ _ HP)|intros ? ? ?]. next; [apply (afalse_shp N RC RA line), (rtz _ _ _ _ HQ)|intros ? ? ?].
    next; [|intros ws ws' Hws; done; apply Forall2_app; [exact Hws|exact HI]].
    next; [apply (int_reduce_shp N W RC RA line rline), (rtx _ _ _ _ HP)|intros x0 x0' Hx0]. next; [apply (int_reduce_shp N W RC RA line rline), (rty _ _ _ _ HP)|intros y0 y0' Hy0].
    next; [apply (int_reduce_shp N W RC RA line rline), (rtx _ _ _ _ HQ)|intros x1 x1' Hx1]. next; [apply (int_reduce_shp N W RC RA line rline), (rty _ _ _ _ HQ)|intros y1 y1' Hy1].
    next; [apply shp_guard|intros ? ? ?]. next; [apply (last_bit_shp N W RC RA line rline), Hy0|intros b0 b0' Hb0]. next; [apply (last_bit_shp N W RC RA line rline), Hy1|intros b1 b1' Hb1].
    assert (two : forall (a a' b b' : aval N) (k k' : N), RA a a' -> RA b b' -> Forall2 (both RA eq) [(a, k); (b, k')] [(a', k); (b', k')]).
    { intros. constructor; [split; [assumption|reflexivity]|]. constructor; [split; [assumption|reflexivity]|constructor]. }
    assert (three : forall (a a' b b' c c' : aval N) (k k' k'' : N), RA a a' -> RA b b' -> RA c c' -> Forall2 (both RA eq) [(a, k); (b, k'); (c, k'')] [(a', k); (b', k'); (c', k'')]).
    { intros. constructor; [split; [assumption|reflexivity]|]. apply two; assumption. }
    next; [apply (swc_shp N RC RA line), two; [apply (ri0 _ _ _ _ Hx0)|apply (ri1 _ _ _ _ Hx0)]|intros ? ? ?].
    next; [apply (swc_shp N RC RA line), three; [apply (ri2 _ _ _ _ Hx0)|apply (ri3 _ _ _ _ Hx0)|exact Hb0]|intros ? ? ?].
    next; [apply (swc_shp N RC RA line), two; [apply (ri0 _ _ _ _ Hx1)|apply (ri1 _ _ _ _ Hx1)]|intros ? ? ?].
    next; [apply (swc_shp N RC RA line), three; [apply (ri2 _ _ _ _ Hx1)|apply (ri3 _ _ _ _ Hx1)|exact Hb1]|intros ? ? ?].
    done. repeat (constructor; [assumption|]). constructor.
  Qed.

  (** The circuit: the same calls *)
  Local Notation gvn := (given N (kzg N M) (key N M)).
  Local Notation calls_for := (fun nw (gs : list gvn) => c_verify_aggregation_proofs_in_chip N M 0 (hcircuits_of N M unit nw 1 (given_circuits N M gs)) 0).
  Lemma x_synthesize_shp nw (gs gs' : list gvn) coherent : calls_for nw gs = calls_for nw gs' -> List.length (given_bytes N M gs) = List.length (given_bytes N M gs') ->
    shp (x_synthesize N W M affine PT SC pt_decode sc_decode sp RATE init generator nw gs coherent)
        (x_synthesize N W M affine PT SC pt_decode sc_decode sp RATE init generator nw gs' coherent) (fun r r' => Forall2 RA (fst r) (fst r')).
  Proof.
    intros E L. unfold x_synthesize, x_verify. rewrite E.
    next; [|intros [[[p1 p2] ins] n1] [[[q1 q2] ins'] n2]].
    - next; [apply (shp_bmap N RC any RTr)|intros ts ts' Hts].
      { revert L. generalize (given_bytes N M gs) (given_bytes N M gs'). induction l; intros [|b l'] Hl; try discriminate; constructor; [exact I|]. apply IHl. injection Hl as Hl. exact Hl. }
      { intros a b _. apply x_transcript_shp. }
      next; [apply x_transcript_shp|intros m m' Hm]. next; [apply lift_shp|]. intros g g' [E1 E2]. rewrite E1 in E2. injection E2 as <-.
      destruct g as [[[[[a b] is_] ads] calls] k]. next; [apply x_calls_shp; split; [constructor|constructor; assumption]|]. intros [s ns] [t ns'] H. cbn [fst snd] in *.
      next; [apply x_p_shp; exact H|intros ? ? ?]. next; [apply x_p_shp; exact H|intros ? ? ?].
      next; [apply (shp_bmap N RC eq RA); [apply F2_same|]; intros i ? <-; apply x_s_shp; exact H|intros ? ? ?].
      next; [apply (shp_bmap N RC eq (Forall2 RT)); [apply F2_same|]; intros i ? <-; apply (shp_bmap N RC eq RT); [apply F2_same|]; intros j ? <-; apply x_p_shp; exact H|intros ? ? ?].
      next; [apply x_coherent_shp; eassumption|intros ? ? ?]. done.
      instantiate (1 := fun r r' => (RT (fst (fst (fst r))) (fst (fst (fst r'))) /\ RT (snd (fst (fst r))) (snd (fst (fst r')))) /\ Forall2 RA (snd (fst r)) (snd (fst r'))).
      cbn. split; [split; assumption|assumption].
    - cbn [fst snd]. intros [[HP HQ] HI]. next; [apply tail_shp; eassumption|intros ? ? ?]. done. assumption.
  Qed.
End Run.
