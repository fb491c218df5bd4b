(** Overflow counts of the results of the chips: functions of those of the arguments. *)
From Coq Require Import ZArith Arith NArith Lia List Bool.
From Verif Require Import Util Algebra ListFacts PField Gate Integer Curve Ecc.
Import ListNotations.

Section Forms.
  Variables N W : PF.
  (** what every result of a builder satisfies *)
  Definition post {A} (m : B N A) (Q : A -> Prop) : Prop := forall c a c', m c = Some (a, c') -> Q a.
  Lemma post_ret {A} (a : A) (Q : A -> Prop) : Q a -> post (ret a) Q.
  Proof. intros H c b c' E. injection E as <- _. exact H. Qed.
  Lemma post_bind {A A'} (m : B N A) (k : A -> B N A') (Q : A -> Prop) (R : A' -> Prop) : post m Q -> (forall a, Q a -> post (k a) R) -> post (bind m k) R.
  Proof. intros H K c b c' E. unfold bind in E. destruct (m c) as [[a c1]|] eqn:E1; [|discriminate]. exact (K a (H _ _ _ E1) _ _ _ E). Qed.
  Lemma post_any {A} (m : B N A) : post m (fun _ => True).
  Proof. intros c a c' _. exact I. Qed.
  Lemma post_panic {A} (Q : A -> Prop) : post panic Q.
  Proof. intros c a c' E. discriminate E. Qed.
  Lemma post_guard b : post (guard b) (fun _ => b = true).
  Proof. destruct b; [apply post_ret; reflexivity|apply post_panic]. Qed.
  Lemma post_weaken {A} (m : B N A) (Q R : A -> Prop) : post m Q -> (forall a, Q a -> R a) -> post m R.
  Proof. intros H K c a c' E. exact (K _ (H _ _ _ E)). Qed.
  Lemma post_at {A} (Q : A -> Prop) l i : Forall Q l -> post (at_ l i) Q.
  Proof. intros H. unfold at_. destruct (nth_error l i) eqn:E; [apply post_ret; exact (proj1 (Forall_forall _ _) H _ (nth_error_In _ _ E))|apply post_panic]. Qed.
  Lemma post_bmap {A A'} (P : A -> Prop) (Q : A' -> Prop) (f : A -> B N A') l : Forall P l -> (forall a, P a -> post (f a) Q) -> post (bmap f l) (Forall Q).
  Proof.
    intros H K. induction H as [|a l Ha H IH]; cbn; [apply post_ret; constructor|].
    eapply post_bind; [exact (K a Ha)|]. intros x Hx. eapply post_bind; [exact IH|]. intros xs Hxs. apply post_ret. constructor; assumption.
  Qed.
  Local Ltac skip := eapply post_bind; [apply post_any|intros ? _].

  (** ** Integers *)
  Definition fT (o : nat) : nat := if 32 <=? o then 0 else o.
  Lemma reduce_post a : post (int_reduce W a) (fun r => overflows r = 0).
  Proof.
    unfold int_reduce. destruct (overflows a =? 0) eqn:E; [apply post_ret; apply Nat.eqb_eq; exact E|]. skip. cbv zeta. skip.
    eapply post_bind with (Q := fun r => overflows r = 0 /\ native_of r = None); [unfold assign_w; cbv zeta; do 4 skip; apply post_ret; split; reflexivity|intros rem [H1 H2]]. do 3 skip.
    eapply post_bind with (Q := fun r => overflows (snd r) = 0); [unfold int_native; rewrite H2; skip; apply post_ret; exact H1|intros rn Hr]. do 3 skip. apply post_ret. exact Hr.
  Qed.
  Lemma cred_post a : post (conditionally_reduce W a) (fun r => overflows r = fT (overflows a)).
  Proof. unfold conditionally_reduce, fT. destruct (OVERFLOW_THRESHOLD <=? overflows a) eqn:E; unfold OVERFLOW_THRESHOLD in E; rewrite E; [apply reduce_post|apply post_ret; reflexivity]. Qed.
  Lemma sub_post a b : post (int_sub W a b) (fun r => overflows r = fT (overflows a + (overflows b + 1) + 1)).
  Proof. unfold int_sub. skip. destruct a0 as [[[u0 u1] u2] u3]. do 4 skip. apply cred_post. Qed.
  Lemma native_post a : post (int_native a) (fun r => overflows (snd r) = overflows a).
  Proof. unfold int_native. destruct (native_of a); [apply post_ret; reflexivity|]. skip. apply post_ret. reflexivity. Qed.
  Lemma assign_w_post (v : W) : post (assign_w v) (fun r : aint N => overflows r = 0).
  Proof. unfold assign_w. cbv zeta. do 4 skip. apply post_ret. reflexivity. Qed.
  Lemma const_post (v : W) : post (int_assign_constant v) (fun r : aint N => overflows r = 0).
  Proof. unfold int_assign_constant. cbv zeta. do 4 skip. apply post_ret. reflexivity. Qed.
  Lemma square_post a : post (int_square W a) (fun r => overflows (fst r) = 0 /\ overflows (snd r) = overflows a).
  Proof.
    unfold int_square. cbv zeta. eapply post_bind; [apply assign_w_post|intros rem Hr]. do 2 skip.
    eapply post_bind with (Q := fun r => overflows (fst r) = overflows a /\ overflows (snd r) = 0); [|intros r [H1 H2]; apply post_ret; cbn; auto].
    unfold square_native. eapply post_bind; [apply native_post|intros an Ha]. skip. eapply post_bind; [apply native_post|intros rn Hrn]. skip. apply post_ret. cbn. split; congruence.
  Qed.
  Lemma mul_post a b : post (int_mul W a b) (fun r => overflows (fst (fst r)) = 0).
  Proof.
    unfold int_mul. cbv zeta. eapply post_bind; [apply assign_w_post|intros rem Hr]. do 2 skip.
    eapply post_bind with (Q := fun r => overflows (snd r) = 0); [|intros [[x y] r] H; apply post_ret; exact H].
    unfold mul_native. do 3 skip. eapply post_bind; [apply native_post|intros rn Hrn]. skip. apply post_ret. cbn. congruence.
  Qed.
  Lemma small_post a k : post (mul_small_constant W a k) (fun r => overflows a * k < 64 -> overflows (snd r) = overflows a).
  Proof.
    unfold mul_small_constant. skip. eapply post_bind with (Q := fun r => overflows a * k < 64 -> overflows r = overflows a).
    - destruct (OVERFLOW_LIMIT <=? overflows a * k) eqn:E; [|apply post_ret; reflexivity]. apply Nat.leb_le in E. unfold OVERFLOW_LIMIT in E. intros c x c' _ H. lia.
    - intros x Hx. cbv zeta. do 5 skip. apply post_ret. exact Hx.
  Qed.
  Lemma bisec_post c a b : post (int_bisec c a b) (fun r => overflows r = Nat.max (overflows a) (overflows b) /\ native_of r = None).
  Proof. unfold int_bisec. do 4 skip. apply post_ret. cbn [overflows native_of]. split; [|reflexivity]. destruct (Nat.ltb_spec (overflows b) (overflows a)); lia. Qed.

  Lemma div_post a b : post (int_div W a b) (fun r => overflows (snd (fst (fst r))) = 0).
  Proof.
    unfold int_div. skip. destruct a0 as [iz b']. do 6 skip. cbv zeta. skip. eapply post_bind; [apply assign_w_post|intros c Hc]. do 2 skip.
    eapply post_bind with (Q := fun r => overflows (snd (fst r)) = 0); [|intros [[x y] r] H; apply post_ret; exact H].
    unfold mul_native. skip. eapply post_bind; [apply native_post|intros cn Hcn]. do 3 skip. apply post_ret. cbn. congruence.
  Qed.

  (** ** Points: the counts of the two coordinates *)
  Definition form : Type := nat * nat.
  Definition fresh_slope (o : option (acurv N)) : Prop := match o with Some c => overflows (cv_v c) = 0 | None => True end.
  Record has (p : apoint N) (f : form) : Prop := mkHas { has_x : overflows (pt_x p) = fst f; has_y : overflows (pt_y p) = snd f; has_c : fresh_slope (pt_c p) }.
  (** with nothing cached *)
  Definition bare (p : apoint N) (f : form) : Prop := has p f /\ native_of (pt_x p) = None /\ native_of (pt_y p) = None /\ pt_c p = None.
  Definition small (f : form) : Prop := snd f < 32.
  Definition fmax (f g : form) : form := (Nat.max (fst f) (fst g), Nat.max (snd f) (snd g)).
  Definition fline (f g : form) : form := (fT (fT (fst f + 2) + fst g + 2), fT (snd f + 2)).
  Definition fadd (f g : form) : form := fmax f (fmax g (fline f g)).
  Lemma curv_post a f : has a f -> snd f < 32 -> post (curvature W a) (fun r => has (snd r) f /\ overflows (cv_v (fst r)) = 0).
  Proof.
    intros [Hx Hy Hc] Hf. unfold curvature. destruct (pt_c a) as [c|] eqn:E; [apply post_ret; cbn [fst snd]; split; [constructor; try assumption; rewrite E|]; exact Hc|].
    eapply post_bind; [apply square_post|intros [x2 x] [_ H2]]. cbn [fst snd] in H2. skip. eapply post_bind; [apply small_post|intros den Hd].
    eapply post_bind; [apply div_post|]. intros [[[z v] ?] ?] Hv. cbn [fst snd] in Hv. cbv zeta. apply post_ret. cbn [fst snd cv_v]. split; [|exact Hv]. constructor; cbn; [congruence|rewrite Hd; [assumption|lia]|exact Hv].
  Qed.
  Lemma bpoint_post c a b f g : has a f -> has b g -> post (bisec_point c a b) (fun p => bare p (fmax f g)).
  Proof.
    intros [Ax Ay _] [Bx By _]. unfold bisec_point. eapply post_bind; [apply bisec_post|intros x [X1 X2]]. eapply post_bind; [apply bisec_post|intros y [Y1 Y2]]. skip.
    apply post_ret. unfold bare, fmax. cbn. repeat split; cbn; congruence.
  Qed.
  (** what is picked from a table: the slope is there, nothing else *)
  Definition ready (p : apoint N) : Prop := native_of (pt_x p) = None /\ native_of (pt_y p) = None /\ match pt_c p with Some c => native_of (cv_v c) = None | None => False end.
  Lemma bpc_post c a b f g : has a f -> has b g -> small f -> small g -> post (bisec_point_with_curvature W c a b) (fun p => has p (fmax f g) /\ ready p).
  Proof.
    intros HA HB Sf Sg. pose proof HA as [Ax Ay _]. pose proof HB as [Bx By _]. unfold bisec_point_with_curvature. eapply post_bind; [apply bisec_post|intros x [X1 X2]].
    eapply post_bind; [apply bisec_post|intros y [Y1 Y2]]. skip. eapply post_bind; [exact (curv_post a f HA Sf)|intros ca [_ Ha]]. eapply post_bind; [exact (curv_post b g HB Sg)|intros cb [_ Hb]].
    eapply post_bind with (Q := fun c => overflows (cv_v c) = 0 /\ native_of (cv_v c) = None).
    { unfold bisec_curvature. eapply post_bind; [apply bisec_post|intros v [V1 V2]]. skip. apply post_ret. cbn. split; [rewrite V1, Ha, Hb; reflexivity|exact V2]. }
    intros v [V1 V2]. apply post_ret. unfold ready, fmax. cbn. repeat split; cbn; congruence.
  Qed.
  Lemma fT_2 a b : fT (0 + (a + 1) + 1) = fT (a + 2) /\ fT (b + (a + 1) + 1) = fT (b + a + 2).
  Proof. split; f_equal; lia. Qed.
  Lemma line_post l a b f g : has a f -> has b g -> post (lambda_to_point W l a b) (fun p => has p (fline f g) /\ pt_c p = None).
  Proof.
    intros [Ax Ay _] [Bx By _]. unfold lambda_to_point. eapply post_bind; [apply square_post|intros [l2 l'] [H _]]. cbn [fst] in H.
    eapply post_bind; [apply sub_post|intros t Ht]. eapply post_bind; [apply sub_post|intros cx Hcx]. skip. eapply post_bind; [apply mul_post|intros [[t3 ?] ?] H3]. cbn [fst] in H3.
    eapply post_bind; [apply sub_post|intros cy Hcy]. apply post_ret. unfold fline. split; [|reflexivity].
    rewrite H, Ax, (proj1 (fT_2 _ 0)) in Ht. rewrite Ht, Bx, (proj2 (fT_2 _ _)) in Hcx. rewrite H3, Ay, (proj1 (fT_2 _ 0)) in Hcy. constructor; cbn; auto.
  Qed.
  Lemma add_post a b f g : has a f -> has b g -> snd f < 32 -> post (ecc_add W a b) (fun r => bare (fst r) (fadd f g) /\ has (snd r) f).
  Proof.
    intros HA HB Hf. unfold ecc_add. do 2 skip. skip. destruct a2 as [[[xe tg] dy] ?]. do 2 skip. eapply post_bind; [exact (curv_post a f HA Hf)|intros [c a'] [HA' _]]. cbn [snd] in HA'.
    skip. eapply post_bind; [exact (line_post _ a' b f g HA' HB)|intros p [Hp _]]. eapply post_bind; [exact (bpoint_post _ b p _ _ HB Hp)|intros p' [Hp' _]].
    eapply post_bind; [exact (bpoint_post _ a' p' _ _ HA' Hp')|intros q Hq]. apply post_ret. cbn. split; [exact Hq|exact HA'].
  Qed.
  Definition fdouble (f : form) : form := fline f f.
  Lemma double_post a f : has a f -> snd f < 32 -> post (ecc_double W a) (fun r => has (fst r) (fdouble f)).
  Proof.
    intros HA Hf. unfold ecc_double. eapply post_bind; [exact (curv_post a f HA Hf)|intros [c a'] [HA' _]]. cbn [snd] in HA'.
    eapply post_bind; [exact (line_post _ a' a' f f HA' HA')|intros p [Hp _]]. skip. apply post_ret. destruct Hp as [P1 P2 P3]. constructor; assumption.
  Qed.
  Lemma fT_lt o : fT o < 32.
  Proof. unfold fT. destruct (32 <=? o) eqn:E; [lia|]. apply Nat.leb_gt in E. exact E. Qed.
  Fixpoint fdoubles (n : nat) (f : form) : form := match n with O => f | S n => fdoubles n (fdouble f) end.
  Lemma doubles_post n : forall a f, has a f -> snd f < 32 -> post (repeat_double W n a) (fun r => has r (fdoubles n f)).
  Proof.
    induction n as [|n IH]; intros a f HA Hf; cbn [repeat_double fdoubles]; [apply post_ret; exact HA|].
    eapply post_bind; [exact (double_post a f HA Hf)|]. intros d Hd. apply IH; [exact Hd|]. apply fT_lt.
  Qed.
  Lemma identity_post : post (assign_identity W) (fun p => has p (0, 0)).
  Proof. unfold assign_identity. eapply post_bind; [apply const_post|intros z Hz]. skip. apply post_ret. constructor; exact Hz. Qed.

  (** ** Tables and windows *)
  Fixpoint fcands (n : nat) (f a : form) : list form := match n with O => [f] | S n => f :: fcands n (fadd f a) a end.
  Lemma fadd_small f g : small f -> small g -> small (fadd f g).
  Proof. unfold small, fadd, fmax, fline. cbn. intros. pose proof (fT_lt (snd f + 2)). lia. Qed.
  Lemma cands_post n : forall p a f g, has p f -> has a g -> small f -> small g -> post (build_candidates_with_curvature W n p a) (fun l => Forall2 has l (fcands n f g)).
  Proof.
    induction n as [|n IH]; intros p a f g HP HA Sf Sg; cbn [build_candidates_with_curvature fcands]; [apply post_ret; constructor; [exact HP|constructor]|].
    eapply post_bind; [exact (add_post p a f g HP HA Sf)|]. intros [ai p'] [[H1 _] H2]. cbn [fst snd] in *.
    eapply post_bind; [exact (curv_post ai _ H1 (fadd_small f g Sf Sg))|intros ca [Hc _]]. eapply post_bind; [exact (IH _ _ _ _ Hc HA (fadd_small f g Sf Sg) Sg)|].
    intros rest Hr. apply post_ret. constructor; assumption.
  Qed.
  Fixpoint fhalve (l : list form) : list form := match l with a0 :: a1 :: l => fmax a1 a0 :: fhalve l | _ => [] end.
  Lemma halve_post bit n : forall l fs, length l <= n -> Forall2 has l fs -> Forall small fs -> post (halve W bit l) (fun r => Forall2 has r (fhalve fs) /\ Forall small (fhalve fs) /\ Forall ready r).
  Proof.
    induction n as [|n IH]; intros l fs L H S.
    - destruct H as [|? ? ? ? ? ?]; [|cbn in L; lia]. apply post_ret. repeat constructor.
    - destruct H as [|a0 f0 l fs H0 H]; [apply post_ret; repeat constructor|]. destruct H as [|a1 f1 l fs H1 H]; [apply post_ret; repeat constructor|].
      pose proof (Forall_inv S) as S0. pose proof (Forall_inv (Forall_inv_tail S)) as S1. apply Forall_inv_tail, Forall_inv_tail in S.
      cbn [halve fhalve]. eapply post_bind; [exact (bpc_post bit a1 a0 _ _ H1 H0 S1 S0)|intros c [Hc1 Hc2]]. eapply post_bind; [apply (IH l fs); [cbn in L; lia|exact H|exact S]|].
      intros cs (I1 & I2 & I3). apply post_ret. split; [constructor; assumption|]. split; [|constructor; assumption]. constructor; [|exact I2]. unfold small, fmax in *. cbn. lia.
  Qed.
  Fixpoint fpick (n : nat) (fs : list form) : form := match n with O => hd (0, 0) fs | S n => fpick n (fhalve fs) end.
  Lemma pick_post bits : forall l fs, Forall2 has l fs -> Forall small fs -> bits <> [] \/ Forall ready l -> post (pick_candidate W l bits) (fun p => has p (fpick (length bits) fs) /\ ready p).
  Proof.
    induction bits as [|b bits IH]; intros l fs H S R; cbn [pick_candidate length fpick].
    - destruct R as [R|R]; [destruct (R eq_refl)|]. destruct H; [apply post_panic|]. apply post_ret. split; [assumption|exact (Forall_inv R)].
    - eapply post_bind; [exact (halve_post b (length l) l fs (le_n _) H S)|]. intros cs (H1 & H2 & H3). exact (IH cs _ H1 H2 (or_intror H3)).
  Qed.
  (** a point without overflow: its table and what is picked from it *)
  Definition table : list form := (0, 0) :: fcands 14 (0, 0) (0, 0).
  Lemma picked : fpick 4 table = (28, 28).
  Proof. reflexivity. Qed.
  (** the sums over two and more points, and the sums of the rounds *)
  Lemma sums : fadd (28, 28) (28, 28) = (28, 30) /\ fadd (28, 28) (28, 30) = (28, 30) /\ fadd (28, 30) (fdoubles 4 (28, 30)) = (28, 30) /\
    fadd (28, 28) (fdoubles 4 (28, 30)) = (28, 30) /\ fadd (28, 28) (fdoubles 4 (28, 28)) = (28, 30) /\ fdoubles 4 (28, 30) = (28, 6).
  Proof. repeat split; reflexivity. Qed.
End Forms.
