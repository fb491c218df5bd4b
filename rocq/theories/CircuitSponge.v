(** One squeeze of the sponge in the circuit and natively. *)
From Coq Require Import List Arith Lia Bool.
From Verif Require Import Util Algebra PField Gate GateProofs GateOps Bytes Poseidon PoseidonSpec PoseidonProofs PoseidonInst.
Import ListNotations.

Section Mock.
  Variable F : Fld.
  Add Field FF : (f_th F).
  Variable sp : pspec F.
  Variable RATE : nat.
  Hypothesis wf : wf_spec sp RATE.
  Lemma mock_squeeze (p : pstate F (mock_chip F)) : length (ps_s p) = S RATE ->
    squeeze F (mock_chip F) sp (S RATE) RATE p =
      Some (challenge (sponge sp RATE (ps_s p) (ps_absorbing p)), mkP (A := mock_chip F) (sponge sp RATE (ps_s p) (ps_absorbing p)) []) /\
    length (sponge sp RATE (ps_s p) (ps_absorbing p)) = S RATE.
  Proof.
    intro L.
    assert (H : exists x, squeeze F (mock_chip F) sp (S RATE) RATE p = Some x /\
       (fst x = challenge (sponge sp RATE (ps_s p) (ps_absorbing p)) /\ Forall2 eq (ps_s (snd x)) (sponge sp RATE (ps_s p) (ps_absorbing p)) /\
        ps_absorbing (snd x) = [] /\ length (sponge sp RATE (ps_s p) (ps_absorbing p)) = S RATE)).
    { apply (squeeze_wp F (mock_chip F) unit (fun _ _ => True) (fun _ v f => v = f) (fun _ _ => True)
        (fun c X (m : option X) P => exists x, m = Some x /\ P x c)); auto.
      - intros c X x P H. exists x. auto.
      - intros c X Y m k P Q (x & -> & Hx) _ H. destruct (H x c I Hx) as (y & E & Hy). exists y. auto.
      - intros c X m P Q (x & -> & Hx) H. exists x. split; [reflexivity|]. now apply H.
      - intros c a b x y -> ->. eexists. split; reflexivity.
      - intros c a b k x y -> ->. eexists. split; reflexivity.
      - intros c l k xs E. apply Forall2_eq in E. subst xs. eexists. split; [reflexivity|]. apply mock_sum.
      - exact tt.
      - apply eq_Forall2.
      - apply eq_Forall2. }
    destruct H as ([v [s a]] & E & Hv & Hs & Ha & Hl). cbn [fst snd ps_s ps_absorbing] in *. apply Forall2_eq in Hs. subst. auto.
  Qed.
End Mock.

Section Circuit.
  Variable N : PF.
  Add Field NF : (f_th N).
  Variable sp : pspec N.
  Variable RATE : nat.
  Hypothesis wf : wf_spec sp RATE.
  Local Notation chip := (circuit_chip N).
  Local Notation R w := (fun (a : aval N) y => w (av_cell a) = y).

  Lemma circuit_squeeze w (p : pstate N chip) xs ys : Forall2 (R w) (ps_s p) xs -> Forall2 (R w) (ps_absorbing p) ys -> length xs = S RATE ->
    snd_ w (squeeze N chip sp (S RATE) RATE p) (fun r => w (av_cell (fst r)) = challenge (sponge sp RATE xs ys) /\
      Forall2 (R w) (ps_s (snd r)) (sponge sp RATE xs ys) /\ ps_absorbing (snd r) = [] /\ length (sponge sp RATE xs ys) = S RATE).
  Proof.
    intros Hs Ha L.
    refine (squeeze_wp N chip unit (fun _ _ => True) (fun _ (a : aval N) f => w (av_cell a) = f) (fun X (m : B N X) => snd_ w m (fun _ => True))
        (fun _ X (m : B N X) P => snd_ w m (fun r => P r tt)) _ _ _ _ _ _ _ _ _ _ _ _ _ sp RATE wf tt p xs ys Hs Ha L); auto.
    - intros X x. now apply snd_ret.
    - intros X. apply snd_panic.
    - intros X Y m k Hm Hk. eapply snd_bind; [exact Hm|]. intro a. eapply snd_conseq; [apply Hk|]. auto.
    - intros a b. eapply snd_conseq; [apply mul_snd|]. auto.
    - intros a b k. eapply snd_conseq; [apply mul_add_constant_snd|]. auto.
    - intros l k. eapply snd_conseq; [apply sum_with_constant_snd|]. auto.
    - intros [] X x P H. now apply snd_ret.
    - intros c X Y m k P Q Hm Hk HQ c0 r c' E Hs'. cbn in E. unfold bind in E. destruct (m c0) as [[a c1]|] eqn:Em; [|discriminate].
      destruct (Hk a _ _ _ E Hs') as [Hs1 _]. destruct (Hm _ _ _ Em Hs1) as [Hs0 HP].
      destruct (HQ a tt I HP _ _ _ E Hs') as [_ HQr]. auto.
    - intros c X m P Q Hm HPQ. eapply snd_conseq; [exact Hm|]. intros a Haa. now apply HPQ.
    - intros c a b x y <- <-. apply mul_snd.
    - intros c a b k x y <- <-. apply mul_add_constant_snd.
    - intros c l k zs E. apply Forall2_map_eq in E. subst zs. rewrite map_map.
      eapply snd_conseq; [apply sum_with_constant_snd|]. intros r ->. cbn beta. now rewrite lsum_dot.
  Qed.
  Lemma squeeze_sat w (p : pstate N chip) : snd_ w (squeeze N chip sp (S RATE) RATE p) (fun _ => True).
  Proof.
    apply (squeeze_mono N chip (fun X (m : B N X) => snd_ w m (fun _ => True))).
    - intros X x. now apply snd_ret.
    - intros X. apply snd_panic.
    - intros X Y m k Hm Hk. eapply snd_bind; [exact Hm|]. intro a. eapply snd_conseq; [apply Hk|]. auto.
    - intros a b. eapply snd_conseq; [apply mul_snd|]. auto.
    - intros a b k. eapply snd_conseq; [apply mul_add_constant_snd|]. auto.
    - intros l k. eapply snd_conseq; [apply sum_with_constant_snd|]. auto.
  Qed.
  Lemma circuit_new w init : snd_ w (poseidon_new N chip init) (fun p => Forall2 (R w) (ps_s p) init /\ ps_absorbing p = []).
  Proof.
    unfold poseidon_new. eapply snd_bind with (P := fun s => Forall2 (R w) s init).
    - induction init as [|k l IH]; cbn [cmap]; [apply snd_ret; constructor|].
      eapply snd_bind; [apply assign_constant_snd|]. intro a. eapply snd_bind; [exact IH|]. intro r. apply snd_ret. intros Hr Ha. now constructor.
    - intro s. apply snd_ret. auto.
  Qed.
End Circuit.
