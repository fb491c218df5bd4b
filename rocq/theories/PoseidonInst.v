(** The sponge over the native chip and over the circuit chip. *)
From Coq Require Import List Arith Lia Bool.
From Verif Require Import Util Algebra PField Gate GateProofs GateOps Bytes Poseidon PoseidonSpec PoseidonProofs.
Import ListNotations.

Section Mock.
  Variable F : Fld.
  Add Field FF : (f_th F).
  Lemma mock_sum (l : list (F * F)) k : fold_left (fun acc '(x, c) => fadd acc (fmul x c)) l k = fadd k (dot (map fst l) (map snd l)).
  Proof.
    revert k. induction l as [|[x c] l IH]; intro k; cbn [fold_left map].
    - unfold dot, zip; cbn [fst Datatypes.snd map combine fold_right]; ring.
    - rewrite IH. unfold dot, zip; cbn [fst Datatypes.snd map combine fold_right]; ring.
  Qed.
  Lemma Forall2_eq {X} (l l' : list X) : Forall2 eq l l' -> l = l'.
  Proof. induction 1; congruence. Qed.
  Lemma eq_Forall2 {X} (l : list X) : Forall2 eq l l.
  Proof. induction l; constructor; auto. Qed.

  Definition mock_call (h : hcall F) : pcall F (mock_chip F) := match h with HUpdate l => Update (A := mock_chip F) l | HSqueeze => Squeeze end.

  Variable sp : pspec F.
  Variable RATE : nat.
  Hypothesis wf : wf_spec sp RATE.
  Lemma mock_history init hs : length init = S RATE ->
    exists p, cbind (mock_chip F) (poseidon_new F (mock_chip F) init) (fun p => run_calls F (mock_chip F) sp (S RATE) RATE (map mock_call hs) p)
              = Some (fst (history sp RATE hs init []), p).
  Proof.
    intro L.
    assert (H : exists x, cbind (mock_chip F) (poseidon_new F (mock_chip F) init) (fun p => run_calls F (mock_chip F) sp (S RATE) RATE (map mock_call hs) p) = Some x
                /\ Forall2 eq (fst x) (fst (history sp RATE hs init []))).
    { apply (poseidon_wp F (mock_chip F) unit (fun _ _ => True) (fun _ v f => v = f) (fun _ _ => True)
        (fun c X (m : option X) P => exists x, m = Some x /\ P x c)) with (c := tt); auto.
      - intros c X x P H. exists x. auto.
      - intros c X Y m k P Q (x & -> & Hx) _ H. destruct (H x c I Hx) as (y & E & Hy). exists y. auto.
      - intros c X m P Q (x & -> & Hx) H. exists x. auto.
      - intros c k. eexists. split; reflexivity.
      - intros c a b x y -> ->. eexists. split; reflexivity.
      - intros c a b k x y -> ->. eexists. split; reflexivity.
      - intros c l k xs E. apply Forall2_eq in E. subst xs. eexists. split; [reflexivity|]. apply mock_sum.
      - induction hs as [|[l|] hs IH]; cbn; constructor; auto. apply eq_Forall2. }
    destruct H as ([vs p] & E & Hv). apply Forall2_eq in Hv. cbn [fst] in Hv. subst vs. exists p. exact E.
  Qed.
End Mock.

Section Circuit.
  Variable N : PF.
  Add Field NF : (f_th N).
  Variable sp : pspec N.
  Variable RATE : nat.
  Hypothesis wf : wf_spec sp RATE.
  Local Notation chip := (circuit_chip N).

  Lemma lsum_dot w (l : list (aval N * N)) : lsum w l = dot (map (fun a => w (av_cell (fst a))) l) (map Datatypes.snd l).
  Proof.
    induction l as [|[x c] l IH]; [reflexivity|]. cbn [lsum map fst Datatypes.snd]. rewrite IH. unfold dot, zip; cbn [fst Datatypes.snd map combine fold_right]; ring.
  Qed.
  Lemma vsum_dot (l : list (aval N * N)) : vsum N l = dot (map (fun a => av_val (fst a)) l) (map Datatypes.snd l).
  Proof.
    induction l as [|[x c] l IH]; [reflexivity|]. cbn [vsum map fst Datatypes.snd]. rewrite IH. unfold dot, zip; cbn [fst Datatypes.snd map combine fold_right]; ring.
  Qed.
  Lemma Forall2_map_eq {X Y} (f : X -> Y) l ys : Forall2 (fun x y => f x = y) l ys -> map f l = ys.
  Proof. induction 1; cbn; congruence. Qed.
  Lemma map_Forall2 {X Y} (f : X -> Y) l : Forall2 (fun x y => f x = y) l (map f l).
  Proof. induction l; cbn; constructor; auto. Qed.

  (** the calls as read under an assignment, and with their honest values *)
  Definition calls_under (w : asg N) (cs : list (pcall N chip)) : list (hcall N) :=
    map (fun c : pcall N chip => match c with Update l => HUpdate (map (fun a : aval N => w (av_cell a)) (l : list (aval N))) | Squeeze => HSqueeze end) cs.
  Definition calls_val (cs : list (pcall N chip)) : list (hcall N) :=
    map (fun c : pcall N chip => match c with Update l => HUpdate (map (@av_val N) (l : list (aval N))) | Squeeze => HSqueeze end) cs.

  Definition sponge_circuit (init : list N) (cs : list (pcall N chip)) : B N (list (aval N) * pstate N chip) :=
    bind (poseidon_new N chip init) (fun p => run_calls N chip sp (S RATE) RATE cs p).

  Lemma sponge_circuit_snd w init cs : length init = S RATE ->
    snd_ w (sponge_circuit init cs) (fun r => map (fun a : aval N => w (av_cell a)) (fst r) = fst (history sp RATE (calls_under w cs) init [])).
  Proof.
    intro L.
    eapply snd_conseq with (P := fun r => Forall2 (fun (a : aval N) y => w (av_cell a) = y) (fst r) (fst (history sp RATE (calls_under w cs) init [])));
      [|intros r H; apply Forall2_map_eq; exact H].
    apply (poseidon_wp N chip unit (fun _ _ => True) (fun _ (a : aval N) f => w (av_cell a) = f) (fun X (m : B N X) => snd_ w m (fun _ => True))
        (fun _ X (m : B N X) P => snd_ w m (fun r => P r tt))) with (c := tt); auto.
    - intros X x. now apply snd_ret.
    - intros X. apply snd_panic.
    - intros X Y m k Hm Hk. eapply snd_bind; [exact Hm|]. intro a. eapply snd_conseq; [apply Hk|]. auto.
    - intros k. eapply snd_conseq; [apply assign_constant_snd|]. auto.
    - intros a b. eapply snd_conseq; [apply mul_snd|]. auto.
    - intros a b k. eapply snd_conseq; [apply mul_add_constant_snd|]. auto.
    - intros l k. eapply snd_conseq; [apply sum_with_constant_snd|]. auto.
    - intros [] X x P H. now apply snd_ret.
    - intros c X Y m k P Q Hm Hk HQ c0 r c' E Hs. cbn in E. unfold bind in E. destruct (m c0) as [[a c1]|] eqn:Em; [|discriminate].
      destruct (Hk a _ _ _ E Hs) as [Hs1 _]. destruct (Hm _ _ _ Em Hs1) as [Hs0 HP].
      destruct (HQ a tt I HP _ _ _ E Hs) as [_ HQr]. auto.
    - intros c X m P Q Hm HPQ. eapply snd_conseq; [exact Hm|]. intros a Ha. now apply HPQ.
    - intros c k. apply assign_constant_snd.
    - intros c a b x y <- <-. apply mul_snd.
    - intros c a b k x y <- <-. apply mul_add_constant_snd.
    - intros c l k xs E. apply Forall2_map_eq in E. subst xs. rewrite map_map.
      eapply snd_conseq; [apply sum_with_constant_snd|]. intros r ->. cbn beta. now rewrite lsum_dot.
    - induction cs as [|[l|] cs IH]; cbn; constructor; auto. apply map_Forall2.
  Qed.

  Definition call_valid (c : ctx N) (call : pcall N chip) : Prop := match call with Update l => Forall (valid c) (l : list (aval N)) | Squeeze => True end.
  Lemma sponge_circuit_cpl c init cs : length init = S RATE -> Forall (call_valid c) cs ->
    cpl c (sponge_circuit init cs)
      (fun r c' => Forall (valid c') (fst r) /\ map (@av_val N) (fst r) = fst (history sp RATE (calls_val cs) init [])).
  Proof.
    intros L Hv.
    eapply cpl_conseq with (P := fun r c' => Forall2 (fun (a : aval N) y => valid c' a /\ av_val a = y) (fst r) (fst (history sp RATE (calls_val cs) init []))).
    2:{ intros r c' _ _ _ H. split.
        - clear - H. induction H as [|? ? ? ? [? ?]]; constructor; auto.
        - apply Forall2_map_eq. clear - H. induction H as [|? ? ? ? [? ?]]; constructor; auto. }
    apply (poseidon_wp N chip (ctx N) ctx_le (fun c (a : aval N) f => valid c a /\ av_val a = f) (fun X (m : B N X) => True)
        (fun c X (m : B N X) P => cpl c m P)); auto.
    - intros c0 c1 v f Hle [V E]. split; [eapply valid_le; eassumption|exact E].
    - intros. now apply cpl_ret.
    - intros c0 X Y m k P Q Hm _ Hk. eapply cpl_bind; [exact Hm|]. intros a c' _ Hle _ HP. now apply Hk.
    - intros c0 X m P Q Hm H. eapply cpl_conseq; [exact Hm|]. intros a c' _ Hle _ HP. now apply H.
    - intros. apply assign_constant_cpl.
    - intros c0 a b x y [Va <-] [Vb <-]. now apply mul_cpl.
    - intros c0 a b k x y [Va <-] [Vb <-]. now apply mul_add_constant_cpl.
    - intros c0 l k xs E.
      assert (Hl : Forall (fun vc => valid c0 (fst vc)) l /\ map (@av_val N) (map fst l) = xs).
      { clear - E. revert xs E. induction l as [|[a b] l IH]; intros xs E; inversion E as [|? ? ? ? [V <-] E']; subst; [split; [constructor|reflexivity]|].
        destruct (IH _ E') as [H1 <-]. split; [constructor; assumption|reflexivity]. }
      destruct Hl as [Hl <-]. rewrite map_map. eapply cpl_conseq; [apply sum_with_constant_cpl; exact Hl|]. intros a c' _ _ _ [V ->]. split; [exact V|]. now rewrite vsum_dot.
    - induction Hv as [|[l|] cs H _ IH]; cbn; constructor; auto. cbn in H. clear - H. induction H; cbn; constructor; auto.
  Qed.
End Circuit.
Arguments calls_under {N} _ _. Arguments calls_val {N} _. Arguments call_valid {N} _ _. Arguments sponge_circuit {N} _ _ _ _. Arguments mock_call {F} _.
