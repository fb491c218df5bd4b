(** The merging passes keep what the printer relies on: the ranges of offsets and constants,
    and loops that can be printed. *)
From Coq Require Import ZArith NArith List Bool Lia.
From Verif Require Import Util SolIr SolAgg SolTextSpec.
Import ListNotations.

Section Keep.
  Variable O : optimizer.
  Variable P : stmt -> Prop.
  Variable J : o_state O -> Prop.
  Hypothesis H_init : J (o_init O).
  Hypothesis H_start : forall s o, P s -> J o -> J (snd (o_start O s o)).
  Hypothesis H_merge : forall s o a o', P s -> J o -> o_merge O s o = Some (a, o') -> J o'.
  Hypothesis H_stmt : forall o c, J o -> o_stmt O o = Some c -> P c.
  Hypothesis H_un : forall o us, J o -> o_unresolved O o = Some us -> Forall P us.
  Hypothesis H_reset : forall o, J o -> J (o_reset O o).
  Lemma keep_disabled s o ac o' out : P s -> J o -> disabled O s o = Some (ac, o', out) -> J o' /\ Forall P out.
  Proof.
    intros Hs Ho. unfold disabled. pose proof (H_start s o Hs Ho) as K. destruct (o_start O s o) as [a o1]. cbn [snd] in K.
    destruct a; try discriminate; intro X; injection X as <- <- <-; (split; [exact K|]); [|apply Forall_nil]. apply Forall_cons; [exact Hs|apply Forall_nil].
  Qed.
  Lemma keep_one s ac o ac' o' out : P s -> J o -> one O s ac o = Some (ac', o', out) -> J o' /\ Forall P out.
  Proof.
    intros Hs Ho. unfold one. destruct ac; [|apply keep_disabled; assumption]. destruct (o_merge O s o) as [[a o1]|] eqn:Em; [|discriminate]. pose proof (H_merge s o a o1 Hs Ho Em) as K.
    destruct a; try discriminate.
    - intro X; injection X as <- <- <-. split; [exact K|apply Forall_nil].
    - destruct (o_unresolved O o1) as [us|] eqn:Eu; [|discriminate]. destruct (disabled O s (o_reset O o1)) as [[[ac2 o2] out2]|] eqn:Ed; [|discriminate]. intro X; injection X as <- <- <-.
      destruct (keep_disabled s _ _ _ _ Hs (H_reset _ K) Ed) as [K2 F2]. split; [exact K2|]. apply Forall_app. split; [exact (H_un _ _ K Eu)|exact F2].
    - destruct (o_stmt O o1) as [c|] eqn:Ec; [|discriminate]. destruct (disabled O s (o_reset O o1)) as [[[ac2 o2] out2]|] eqn:Ed; [|discriminate]. intro X; injection X as <- <- <-.
      destruct (keep_disabled s _ _ _ _ Hs (H_reset _ K) Ed) as [K2 F2]. split; [exact K2|]. apply Forall_cons; [exact (H_stmt _ _ K Ec)|exact F2].
  Qed.
  Lemma keep_loop p : forall ac o q, Forall P p -> J o -> loop O p ac o = Some q -> Forall P q.
  Proof.
    induction p as [|s p IH]; intros ac o q Hp Ho; cbn [loop].
    - destruct ac; [|intro X; injection X as <-; apply Forall_nil]. destruct (o_can_complete O o); [|apply H_un; exact Ho].
      destruct (o_stmt O o) as [c|] eqn:Ec; [|discriminate]. intro X; injection X as <-. apply Forall_cons; [exact (H_stmt _ _ Ho Ec)|apply Forall_nil].
    - inversion Hp; subst. destruct (one O s ac o) as [[[ac1 o1] out]|] eqn:E1; [|discriminate]. destruct (loop O p ac1 o1) as [q'|] eqn:E2; [|discriminate]. intro X; injection X as <-.
      destruct (keep_one _ _ _ _ _ _ ltac:(eassumption) Ho E1) as [K F]. apply Forall_app. split; [exact F|]. eapply IH; eassumption.
  Qed.
  Lemma keep p q : Forall P p -> merge_groups O p = Some q -> Forall P q.
  Proof. intro H. apply keep_loop; assumption. Qed.
End Keep.

(** ** Ranges *)
Definition P (s : stmt) : Prop := stmt_in_range s /\ prints s.

Lemma usub_le a b d : usub false a b = Some d -> (b <= a)%N /\ d = (a - b)%N.
Proof. unfold usub. destruct (N.leb_spec b a); [|discriminate]. intro X; injection X as <-. auto. Qed.
Lemma uadd_lt a b d : uadd false a b = Some d -> (d < 2 ^ 64)%N.
Proof. unfold uadd. destruct (N.ltb_spec (a + b) (2 ^ 64)); [|discriminate]. intro X; injection X as <-. assumption. Qed.
Lemma umul_lt a b d : umul false a b = Some d -> (d < 2 ^ 64)%N.
Proof. unfold umul. destruct (N.ltb_spec (a * b) (2 ^ 64)); [|discriminate]. intro X; injection X as <-. assumption. Qed.
Lemma offset_small n : (n < 16)%N -> offset n.
Proof. unfold offset. assert (16 < 2 ^ 64)%N by reflexivity. lia. Qed.

Lemma uh_keeps p q : Forall P p -> merge_groups (update_hash_merger false) p = Some q -> Forall P q.
Proof.
  apply (keep (update_hash_merger false) P (fun o : uh => offset (uh_ms o) /\ offset (uh_me o) /\ offset (uh_as o) /\ offset (uh_mst o) /\ offset (uh_ast o) /\ (uh_ms o <= uh_me o)%N /\ (uh_ms o = uh_me o \/ uh_mst o <> 0%N))).
  - cbn. repeat split; try (apply offset_small; reflexivity); [lia|auto].
  - intros s o [Hs _] Ho. cbn [o_start update_hash_merger]. destruct s as [|e a| |]; try exact Ho. destruct e; try exact Ho. cbn [uh_start snd uh_ms uh_me uh_as uh_mst uh_ast]. destruct Hs as [H1 H2]. cbn [in_range] in H1.
    repeat split; try assumption; try (destruct t; apply offset_small; reflexivity); [lia|auto].
  - intros s o a o' [Hs _] Ho. cbn [o_merge update_hash_merger]. destruct s as [|e ab| |]; try (intro X; injection X as <- <-; exact Ho). destruct e as [| m t| | | | | | | | | | | | | |]; try (intro X; injection X as <- <-; exact Ho).
    cbn [uh_merge]. destruct (usub false m (uh_me o)) as [d|] eqn:E1; [|discriminate]. destruct (N.eqb_spec d (uh_mst o)) as [Hd|]; cbn [negb]; [|intro X; injection X as <- <-; exact Ho].
    destruct (usub false ab (uh_ae o)) as [d'|] eqn:E2; [|discriminate]. destruct ((d' =? uh_ast o)%N && ty_eqb t (uh_t o)); intro X; injection X as <- <-; [|exact Ho].
    destruct Ho as (H1 & H2 & H3 & H4 & H5 & H6 & H7). destruct Hs as [K1 K2]. cbn [in_range] in K1. apply usub_le in E1. cbn [uh_ms uh_me uh_as uh_mst uh_ast]. repeat split; try assumption; [lia|]. destruct H7; [|auto]. destruct (N.eq_dec (uh_mst o) 0); [left; lia|auto].
  - intros o c (H1 & H2 & H3 & H4 & H5 & H6 & H7). cbn [o_stmt update_hash_merger]. unfold uh_stmt. intro X; injection X as <-. destruct (N.eqb_spec (uh_ms o) (uh_me o)) as [E|E]; (split; [|cbn [prints]; first [exact I|split; [exact H6|tauto]]]); cbn [stmt_in_range in_range]; auto.
  - intros o us _. discriminate.
  - intros o Ho. exact Ho.
Qed.
Lemma opcode_pm l : (0 <= pm_opcode l)%Z.
Proof.
  unfold pm_opcode. assert (G : forall l acc, (0 <= acc)%Z -> (0 <= fold_left (fun acc '(p, m) => Z.shiftl acc 16 + Z.shiftl (Z.of_N m) 8 + Z.of_N p)%Z l acc)%Z).
  { clear. induction l as [|[p m] l IH]; intros acc H; [exact H|]. cbn [fold_left]. apply IH. assert (0 <= Z.shiftl acc 16)%Z by (apply Z.shiftl_nonneg; exact H). assert (0 <= Z.shiftl (Z.of_N m) 8)%Z by (apply Z.shiftl_nonneg; lia). lia. }
  apply G. destruct (_ =? _)%nat; lia.
Qed.
Lemma opcode_mt l : (0 <= mt_opcode l)%Z.
Proof.
  unfold mt_opcode. assert (G : forall l acc, (0 <= acc)%Z -> (0 <= fold_left (fun acc m => Z.shiftl acc 8 + Z.of_N m)%Z l acc)%Z).
  { clear. induction l as [|m l IH]; intros acc H; [exact H|]. cbn [fold_left]. apply IH. assert (0 <= Z.shiftl acc 8)%Z by (apply Z.shiftl_nonneg; exact H). lia. }
  apply G. destruct (_ =? _)%nat; lia.
Qed.
Lemma Forall_snoc {A} (Q : A -> Prop) l x : Forall Q l -> Q x -> Forall Q (l ++ [x]).
Proof. intros. apply Forall_app. split; [assumption|]. apply Forall_cons; [assumption|apply Forall_nil]. Qed.
Definition opt {A} (Q : A -> Prop) (o : option A) : Prop := match o with Some a => Q a | None => True end.

Lemma pm_range_of s x y c t : P s -> pm_extract s = Some (x, y, c, t) -> in_range c.
Proof.
  intros [H _]. destruct s as [l r| | |]; try discriminate. destruct r; try discriminate. cbn [pm_extract]. destruct (is_transcript _ && is_memory _ && is_temp _ && is_temp l); [|discriminate].
  destruct (try_get_offset _); [|discriminate]. destruct (try_get_offset _); [|discriminate]. intro X; injection X as <- <- <- <-. apply H.
Qed.
Lemma pm_keeps p q : Forall P p -> merge_groups mul_add_pm_optimizer p = Some q -> Forall P q.
Proof.
  apply (keep mul_add_pm_optimizer P (fun o : pm => Forall P (pm_un o) /\ opt in_range (pm_target o))).
  - split; [apply Forall_nil|exact I].
  - intros s o Hs [H1 H2]. cbn [o_start mul_add_pm_optimizer]. unfold pm_start. destruct (pm_extract s) as [[[[x y] c] t]|] eqn:E; [|split; assumption]. split; [apply Forall_snoc; assumption|]. exact (pm_range_of _ _ _ _ _ Hs E).
  - intros s o a o' Hs [H1 H2]. cbn [o_merge mul_add_pm_optimizer]. unfold pm_merge. destruct (_ =? _)%nat; [intro X; injection X as <- <-; split; assumption|].
    destruct (pm_extract s) as [[[[x y] c] t]|] eqn:E; [|intro X; injection X as <- <-; split; assumption]. destruct (pm_target o) as [tg|] eqn:Et; [|discriminate].
    destruct (_ && _); intro X; injection X as <- <-; [|split; [assumption|rewrite Et; assumption]]. split; [apply Forall_snoc; assumption|cbn [pm_target]; exact H2].
  - intros o c [H1 H2]. cbn [o_stmt mul_add_pm_optimizer]. unfold pm_stmt. destruct (pm_target o) as [tg|]; [|discriminate]. intro X; injection X as <-. split; [|exact I]. split; [exact I|]. split; [exact H2|apply opcode_pm].
  - intros o us [H1 H2] X. injection X as <-. exact H1.
  - intros o _. split; [apply Forall_nil|exact I].
Qed.
Lemma mt_range_of s a c : P s -> mt_extract s = Some (a, c) -> offset a.
Proof.
  intros [H _]. destruct s as [l r| | |]; try discriminate. destruct r as [| | | | | | | | | |x y z t| | | | |]; try discriminate. cbn [mt_extract]. destruct t; [|discriminate]. destruct x; try discriminate.
  cbn [is_memory andb]. destruct (is_temp y && is_memory z && is_temp l); [|discriminate]. cbn [try_get_offset]. destruct (try_get_offset z); [|discriminate]. intro X; injection X as <- <-. apply H.
Qed.
Lemma mt_keeps p q : Forall P p -> merge_groups mul_add_mt_optimizer p = Some q -> Forall P q.
Proof.
  apply (keep mul_add_mt_optimizer P (fun o : mt => Forall P (mt_un o) /\ opt offset (mt_target o))).
  - split; [apply Forall_nil|exact I].
  - intros s o Hs [H1 H2]. cbn [o_start mul_add_mt_optimizer]. unfold mt_start. destruct (mt_extract s) as [[a c]|] eqn:E; [|split; assumption]. split; [apply Forall_snoc; assumption|]. exact (mt_range_of _ _ _ Hs E).
  - intros s o a o' Hs [H1 H2]. cbn [o_merge mul_add_mt_optimizer]. unfold mt_merge. destruct (_ =? _)%nat; [intro X; injection X as <- <-; split; assumption|].
    destruct (mt_extract s) as [[x c]|] eqn:E; [|intro X; injection X as <- <-; split; assumption]. destruct (mt_target o) as [tg|] eqn:Et; [|discriminate].
    destruct (x =? tg)%N; intro X; injection X as <- <-; [|split; [assumption|rewrite Et; assumption]]. split; [apply Forall_snoc; assumption|cbn [mt_target]; exact H2].
  - intros o c [H1 H2]. cbn [o_stmt mul_add_mt_optimizer]. unfold mt_stmt. destruct (mt_target o) as [tg|]; [|discriminate]. intro X; injection X as <-. split; [|exact I]. split; [exact I|]. split; [exact H2|apply opcode_mt].
  - intros o us [H1 H2] X. injection X as <-. exact H1.
  - intros o _. split; [apply Forall_nil|exact I].
Qed.
Lemma fp_range_of s l a b : P s -> fp_extract s = Some (l, a, b) -> in_range l /\ in_range a /\ in_range b.
Proof.
  intros [H _]. destruct s as [l' r| | |]; try discriminate. destruct r as [| | | | | | | |x y t| | | | | | |]; try discriminate. cbn [fp_extract]. destruct t; [|discriminate]. intro X; injection X as <- <- <-. destruct H as [H1 [H2 H3]]. auto.
Qed.
Lemma fp_keeps p q : Forall P p -> merge_groups (fr_pow_optimizer false) p = Some q -> Forall P q.
Proof.
  apply (keep (fr_pow_optimizer false) P (fun o : fp => Forall P (fp_un o) /\ opt in_range (fp_target o) /\ opt in_range (fp_assignee o) /\ (fp_exp o < 2 ^ 64)%N)).
  - repeat split. apply Forall_nil.
  - intros s o Hs (H1 & H2 & H3 & H4). cbn [o_start fr_pow_optimizer]. unfold fp_start. destruct (fp_extract s) as [[[l a] b]|] eqn:E; [|repeat split; assumption]. destruct (fp_range_of _ _ _ _ Hs E) as (K1 & K2 & K3).
    destruct (is_temp l && expr_eqb a b); [|repeat split; assumption]. split; [apply Forall_snoc; assumption|]. split; [exact K2|]. split; [exact H3|reflexivity].
  - intros s o a o' Hs (H1 & H2 & H3 & H4). cbn [o_merge fr_pow_optimizer]. unfold fp_merge. destruct (fp_assignee o) as [asg|] eqn:Ea; [intro X; injection X as <- <-; rewrite Ea; repeat split; assumption|].
    destruct (fp_extract s) as [[[l x] y]|] eqn:E; [|intro X; injection X as <- <-; rewrite Ea; repeat split; assumption]. destruct (fp_range_of _ _ _ _ Hs E) as (K1 & K2 & K3).
    assert (KA : opt in_range (if is_temp l then None else Some l)) by (destruct (is_temp l); [exact I|exact K1]).
    destruct (is_temp x && is_temp y).
    + destruct (umul false (fp_exp o) 2) as [e|] eqn:Ee; [|discriminate]. intro X; injection X as <- <-. cbn [fp_un fp_target fp_assignee fp_exp]. split; [exact H1|]. split; [exact H2|]. split; [exact KA|]. exact (umul_lt _ _ _ Ee).
    + destruct (fp_target o) as [tg|] eqn:Et; [|discriminate]. destruct (_ || _).
      * destruct (uadd false (fp_exp o) 1) as [e|] eqn:Ee; [|discriminate]. intro X; injection X as <- <-. cbn [fp_un fp_target fp_assignee fp_exp]. split; [exact H1|]. split; [exact H2|]. split; [exact KA|]. exact (uadd_lt _ _ _ Ee).
      * intro X; injection X as <- <-. rewrite Et, Ea. repeat split; assumption.
  - intros o c (H1 & H2 & H3 & H4). cbn [o_stmt fr_pow_optimizer]. unfold fp_stmt. destruct (fp_target o) as [tg|]; [|discriminate]. intro X; injection X as <-. split; [|reflexivity]. split; [destruct (fp_assignee o); [exact H3|exact I]|]. split; [exact H2|exact H4].
  - intros o us (H1 & _) X. injection X as <-. exact H1.
  - intros o _. repeat split. apply Forall_nil.
Qed.
Definition offset3 (f : N * N * N) : Prop := let '(l, a, b) := f in offset l /\ offset a /\ offset b.
Lemma ms_range_of s f : P s -> ms_extract s = Some f -> offset3 f.
Proof.
  intros [H _]. destruct s as [l r| | |]; try discriminate. destruct r as [| | | | | | | |x y t| | | | | | |]; try discriminate. cbn [ms_extract]. destruct t; [|discriminate].
  destruct x; try discriminate. destruct y; try discriminate. destruct l; try discriminate. cbn. intro X; injection X as <-. destruct H as [H1 [H2 H3]]. cbn in *. auto.
Qed.
Lemma offset_sub a b d : offset a -> usub false a b = Some d -> offset d.
Proof. unfold offset. intros H X. apply usub_le in X. lia. Qed.
Lemma ms_keeps p q : Forall P p -> merge_groups (mul_seq_optimizer false) p = Some q -> Forall P q.
Proof.
  apply (keep (mul_seq_optimizer false) P (fun o : ms => Forall P (ms_un o) /\ opt offset3 (ms_step o) /\ offset3 (ms_first o) /\ (ms_cap o < 2 ^ 64)%N)).
  - repeat split; apply Forall_nil.
  - intros s o Hs (H1 & H2 & H3 & H4). cbn [o_start mul_seq_optimizer]. unfold ms_start_. destruct (ms_extract s) as [f|] eqn:E; [|split; [|split; [|split]]; assumption].
    split; [apply Forall_snoc; assumption|]. split; [exact H2|]. split; [exact (ms_range_of _ _ Hs E)|reflexivity].
  - intros s o ac o' Hs Ho. cbn [o_merge mul_seq_optimizer]. unfold ms_merge. destruct (ms_extract s) as [[[l a] b]|] eqn:E; [|intro X; injection X as <- <-; exact Ho].
    pose proof (ms_range_of _ _ Hs E) as (K1 & K2 & K3). destruct (ms_first o) as [[l0 a0] b0] eqn:Ef. destruct Ho as (H1 & H2 & H3 & H4). assert (Ho : Forall P (ms_un o) /\ opt offset3 (ms_step o) /\ offset3 (ms_first o) /\ (ms_cap o < 2 ^ 64)%N) by (rewrite Ef; split; [|split; [|split]]; assumption).
    destruct (ms_step o) as [[[dl da] db]|] eqn:Es.
    + repeat match goal with |- (do x <- ?e; _) = _ -> _ => destruct e eqn:?; [|discriminate] | |- (if negb ?e then _ else _) = _ -> _ => destruct (negb e) end; intro X; injection X as <- <-; try (try rewrite Es; exact Ho).
      cbn [ms_un ms_step ms_first ms_cap]. split; [apply Forall_snoc; [apply Ho|exact Hs]|]. split; [try rewrite Es; exact H2|]. split; [exact H3|]. eapply uadd_lt. eassumption.
    + destruct (usub false l l0) as [dl|] eqn:E1; [|discriminate]. destruct (usub false a a0) as [da|] eqn:E2; [|discriminate]. destruct (usub false b b0) as [db|] eqn:E3; [|discriminate]. destruct (uadd false (ms_cap o) 1) as [cap|] eqn:E4; [|discriminate].
      intro X; injection X as <- <-. cbn [ms_un ms_step ms_first ms_cap]. split; [apply Forall_snoc; [apply Ho|exact Hs]|]. split; [|split; [exact H3|exact (uadd_lt _ _ _ E4)]]. split; [exact (offset_sub _ _ _ K1 E1)|]. split; [exact (offset_sub _ _ _ K2 E2)|exact (offset_sub _ _ _ K3 E3)].
  - intros o c (H1 & H2 & H3 & H4). cbn [o_stmt mul_seq_optimizer]. unfold ms_stmt. destruct (ms_step o) as [[[dl da] db]|]; [|discriminate]. intro X; injection X as <-. split; [|reflexivity]. destruct (ms_first o) as [[l a] b]. destruct H2 as (? & ? & ?), H3 as (? & ? & ?). cbn [stmt_in_range]. auto 10.
  - intros o us (H1 & _) X. injection X as <-. exact H1.
  - intros o _. repeat split; apply Forall_nil.
Qed.
Theorem aggregate_keeps p q : Forall P p -> aggregate false p = Some q -> Forall P q.
Proof.
  intros Hp. unfold aggregate. destruct (merge_groups (update_hash_merger false) p) as [p1|] eqn:E1; [|discriminate]. destruct (merge_groups mul_add_pm_optimizer p1) as [p2|] eqn:E2; [|discriminate].
  destruct (merge_groups mul_add_mt_optimizer p2) as [p3|] eqn:E3; [|discriminate]. destruct (merge_groups (fr_pow_optimizer false) p3) as [p4|] eqn:E4; [|discriminate].
  apply ms_keeps. eapply fp_keeps; [|exact E4]. eapply mt_keeps; [|exact E3]. eapply pm_keeps; [|exact E2]. eapply uh_keeps; [|exact E1]. exact Hp.
Qed.
