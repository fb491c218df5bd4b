(** Proofs about the schema evaluator (Schema.v). *)
From Coq Require Import List ListDec String Bool Lia Ring Field Permutation.
From Verif Require Import Algebra Schema.
Import ListNotations.

Section Proofs.
  Variable F : Fld.
  Variable M : Mod F.
  Local Open Scope fld_scope.
  Add Field FFs : (f_th F).
  Notation schema := (schema F M).
  Notation entry := (entry F M).

  (** Value carried by one entry. *)
  Definition ev_sc (e : entry) : F :=
    match e_pt e with Some _ => 0 | None => or_one (e_sc e) end.
  Definition ev_pt (e : entry) : M :=
    match e_pt e with Some p => smul (or_one (e_sc e)) p | None => m0 end.
  Fixpoint sum_sc (es : list entry) : F := match es with [] => 0 | e :: es => ev_sc e + sum_sc es end.
  Fixpoint sum_pt (es : list entry) : M := match es with [] => m0 | e :: es => madd (ev_pt e) (sum_pt es) end.

  Definition entry_ok (K : string -> M) (e : entry) : Prop :=
    (e_key e = ""%string /\ e_pt e = None /\ e_sc e <> None) \/
    (e_key e <> ""%string /\ e_pt e = Some (K (e_key e))).

  Definition keys (es : list entry) := map e_key es.

  Lemma merge1_keys res e :
    keys (merge1 res e) =
    if existsb (String.eqb (e_key e)) (keys res) then keys res else keys res ++ [e_key e].
  Proof.
    induction res as [|p res IH]; cbn; [reflexivity|].
    destruct (String.eqb_spec (e_key p) (e_key e)) as [E|E]; cbn.
    - rewrite <- E, String.eqb_refl. reflexivity.
    - destruct (String.eqb_spec (e_key e) (e_key p)) as [E2|E2]; [congruence|].
      cbn [orb]. fold (keys res). unfold keys in *. rewrite IH.
      destruct (existsb _ _); reflexivity.
  Qed.

  Lemma existsb_eqb_In k l : existsb (String.eqb k) l = true <-> In k l.
  Proof.
    rewrite existsb_exists. split.
    - intros [x [H1 H2]]. apply String.eqb_eq in H2. subst; assumption.
    - intro H. exists k. split; [assumption|apply String.eqb_refl].
  Qed.

  Lemma NoDup_snoc {A} (l : list A) x : NoDup l -> ~ In x l -> NoDup (l ++ [x]).
  Proof.
    intros H1 H2. apply (Permutation_NoDup (Permutation_cons_append l x)).
    constructor; assumption.
  Qed.

  Lemma merge1_nodup res e : NoDup (keys res) -> NoDup (keys (merge1 res e)).
  Proof.
    intro H. rewrite merge1_keys.
    destruct (existsb (String.eqb (e_key e)) (keys res)) eqn:E; [assumption|].
    apply NoDup_snoc; [assumption|]. rewrite <- existsb_eqb_In. congruence.
  Qed.

  Lemma merge1_ok K res e :
    Forall (entry_ok K) res -> entry_ok K e -> Forall (entry_ok K) (merge1 res e).
  Proof.
    intros H He. induction H as [|p res Hp H IH]; cbn; [constructor; auto|].
    destruct (String.eqb_spec (e_key p) (e_key e)) as [E|E].
    - constructor; [|assumption].
      destruct Hp as [[Hk [Hpt Hs]]|[Hk Hpt]]; [left|right]; cbn; repeat split; auto.
      discriminate.
    - constructor; assumption.
  Qed.

  Lemma merge1_sum K res e :
    Forall (entry_ok K) res -> entry_ok K e ->
    sum_sc (merge1 res e) = sum_sc res + ev_sc e /\
    sum_pt (merge1 res e) = madd (sum_pt res) (ev_pt e).
  Proof.
    intros H He. induction H as [|p res Hp H [IH1 IH2]]; cbn.
    - split; [ring|]. rewrite madd_0_l, madd_0_r. reflexivity.
    - destruct (String.eqb_spec (e_key p) (e_key e)) as [E|E]; cbn.
      + unfold ev_sc, ev_pt; cbn.
        destruct Hp as [[Hk [Hpt Hs]]|[Hk Hpt]], He as [[Gk [Gpt Gs]]|[Gk Gpt]];
          rewrite ?Hpt, ?Gpt; try congruence.
        * split; [ring|]. now rewrite ?madd_0_l, ?madd_0_r.
        * split; [ring|]. rewrite smul_add_l, E, <- !madd_assoc. f_equal. apply madd_comm.
      + rewrite IH1, IH2. split; [ring|]. apply madd_assoc.
  Qed.

  (** "both": the entry carries a point and a scalar. *)
  Definition both (e : entry) : bool :=
    match e_pt e, e_sc e with Some _, Some _ => true | _, _ => false end.
  Definition pkeys (es : list entry) : list string :=
    filter (fun k => negb (String.eqb k "")) (keys es).

  Lemma merge1_both K res e :
    Forall (entry_ok K) res -> entry_ok K e ->
    existsb both (merge1 res e) =
    existsb both res || both e ||
    (negb (String.eqb (e_key e) "") && existsb (String.eqb (e_key e)) (keys res)).
  Proof.
    intros H He. induction H as [|p res Hp H IH]; cbn.
    - destruct (both e); cbn; [reflexivity|]. rewrite andb_false_r. reflexivity.
    - destruct (String.eqb_spec (e_key p) (e_key e)) as [E|E]; cbn.
      + rewrite <- E, String.eqb_refl; cbn.
        destruct Hp as [[Hk [Hpt Hs]]|[Hk Hpt]].
        * unfold both at 1; cbn. rewrite Hpt. unfold both at 2. rewrite Hpt.
          rewrite Hk. cbn. destruct He as [[Gk [Gpt Gs]]|[Gk Gpt]]; [|congruence].
          unfold both at 3. rewrite Gpt. now rewrite !orb_false_r.
        * unfold both at 1; cbn. rewrite Hpt.
          destruct (String.eqb_spec (e_key p) "") as [E2|E2]; [congruence|].
          cbn. now rewrite !orb_true_r.
      + rewrite IH. destruct (String.eqb_spec (e_key e) (e_key p)) as [E2|E2]; [congruence|].
        cbn. now rewrite !orb_assoc.
  Qed.

  Lemma merge_nil es : NoDup (keys es) -> merge [] es = es.
  Proof.
    unfold merge.
    assert (G : forall es res, NoDup (keys (res ++ es)) -> fold_left merge1 es res = res ++ es).
    { clear es. intro es. induction es as [|e es IH]; intros res H; cbn.
      - now rewrite app_nil_r.
      - assert (E : merge1 res e = res ++ [e]).
        { assert (Hn : ~ In (e_key e) (keys res)).
          { unfold keys in *. rewrite map_app in H; cbn in H.
            apply NoDup_remove_2 in H. intro G. apply H. apply in_or_app. now left. }
          clear -Hn. induction res as [|p res IH]; cbn; [reflexivity|].
          destruct (String.eqb_spec (e_key p) (e_key e)) as [E|E].
          - exfalso. apply Hn. left. assumption.
          - f_equal. apply IH. intro G. apply Hn. right. assumption. }
        rewrite E, IH; rewrite <- app_assoc; cbn; [reflexivity|assumption]. }
    intro H. apply (G es []). assumption.
  Qed.

  Lemma merge_spec K er : forall res,
    Forall (entry_ok K) res -> Forall (entry_ok K) er -> NoDup (keys res) -> NoDup (keys er) ->
    Forall (entry_ok K) (merge res er) /\ NoDup (keys (merge res er)) /\
    sum_sc (merge res er) = sum_sc res + sum_sc er /\
    sum_pt (merge res er) = madd (sum_pt res) (sum_pt er) /\
    (forall k, In k (keys (merge res er)) <-> In k (keys res) \/ In k (keys er)) /\
    (existsb both (merge res er) = true <->
     existsb both res = true \/ existsb both er = true \/
     exists k, k <> ""%string /\ In k (keys res) /\ In k (keys er)).
  Proof.
    unfold merge. induction er as [|e er IH]; intros res H1 H2 H3 H4; cbn.
    - repeat split; auto; try ring.
      + now rewrite madd_0_r.
      + intros [?|[]]; assumption.
      + intros [?|[?|[k [? [? []]]]]]; [assumption|discriminate].
    - inversion H2 as [|? ? He Her]; subst. cbn in H4. inversion H4 as [|? ? Hn Hnd]; subst.
      destruct (merge1_sum K res e H1 He) as [S1 S2].
      destruct (IH (merge1 res e) (merge1_ok K res e H1 He) Her (merge1_nodup res e H3) Hnd)
        as [G1 [G2 [G3 [G4 [G5 G6]]]]].
      assert (Kin : forall k, In k (keys (merge1 res e)) <-> In k (keys res) \/ k = e_key e).
      { intro k. rewrite merge1_keys.
        destruct (existsb (String.eqb (e_key e)) (keys res)) eqn:E.
        - apply existsb_eqb_In in E. split; [tauto|]. intros [?|?]; subst; assumption.
        - rewrite in_app_iff; cbn. intuition. }
      split; [assumption|]. split; [assumption|]. split; [rewrite G3, S1; ring|].
      split; [rewrite G4, S2; now rewrite madd_assoc|].
      split.
      + intro k. rewrite G5, Kin. intuition.
      + rewrite G6, (merge1_both K res e H1 He), !orb_true_iff, andb_true_iff, negb_true_iff, existsb_eqb_In.
        rewrite String.eqb_neq.
        split.
        * intros [[[A|A]|[A B]]|[A|[k [A [B C]]]]].
          -- now left.
          -- right; left; now left.
          -- right; right. exists (e_key e). cbn. auto.
          -- right; left; now right.
          -- apply Kin in B. destruct B as [B|B].
             ++ right; right. exists k. cbn; auto.
             ++ subst k. contradiction.
        * intros [A|[[A|A]|[k [A [B C]]]]].
          -- auto.
          -- auto.
          -- auto.
          -- cbn in C. destruct C as [C|C].
             ++ subst k. auto.
             ++ right; right. exists k. rewrite Kin. auto.
  Qed.

  Definition is_scalar_entry (es : list entry) : Prop :=
    exists v, es = [(""%string, None, Some v)].

  Lemma well_built_flag K (t : schema) : well_built K t -> has_commitment t = mentions t.
  Proof.
    induction t as [q|q|s|l IHl lc r IHr rc|l IHl lc r IHr rc]; cbn; try reflexivity;
      intros [Hl [Hr [-> ->]]]; rewrite IHl, IHr; auto.
  Qed.

  Lemma pt_of_scalar (t : schema) : mentions t = false -> pt_of t = m0.
  Proof.
    induction t as [q|q|s|l IHl lc r IHr rc|l IHl lc r IHr rc]; cbn; try reflexivity; try discriminate;
      intro H; apply orb_false_iff in H; destruct H as [H1 H2]; rewrite IHl, IHr; auto.
    - apply madd_0_l.
    - rewrite !smul_0_r. apply madd_0_l.
  Qed.

  Lemma commit_keys_scalar (t : schema) : mentions t = false <-> commit_keys t = [].
  Proof.
    induction t as [q|q|s|l IHl lc r IHr rc|l IHl lc r IHr rc]; cbn; try tauto;
      try (split; [discriminate|discriminate]);
      rewrite orb_false_iff, IHl, IHr; (split; [intros [-> ->]; reflexivity|apply app_eq_nil]).
  Qed.

  Lemma scales_mentions (t : schema) : mentions t = false -> scales_commitment t = false.
  Proof.
    induction t as [q|q|s|l IHl lc r IHr rc|l IHl lc r IHr rc]; cbn; auto.
    intro H; apply orb_false_iff in H; destruct H as [H1 H2]; rewrite IHl, IHr; auto.
  Qed.

  Lemma has_scalar_part_scalar (t : schema) : mentions t = false -> has_scalar_part t = true.
  Proof.
    induction t as [q|q|s|l IHl lc r IHr rc|l IHl lc r IHr rc]; cbn; auto; try discriminate;
      intro H; apply orb_false_iff in H; destruct H as [H1 H2].
    - now rewrite IHl.
    - now rewrite H1, IHr.
  Qed.

  Lemma NoDup_app_iff {A} (a b : list A) :
    NoDup (a ++ b) <-> NoDup a /\ NoDup b /\ (forall x, In x a -> In x b -> False).
  Proof.
    induction a as [|x a IH]; cbn.
    - split; [intro H; repeat split; auto; constructor|tauto].
    - rewrite !NoDup_cons_iff, IH, in_app_iff. split.
      + intros [H1 [H2 [H3 H4]]]. repeat split; auto.
        intros y [->|Hy] Hb; [apply H1; now right|eauto].
      + intros [[H1 H2] [H3 H4]]. repeat split; auto.
        * intros [?|?]; [auto|eapply H4; eauto].
        * intros y Hy. apply H4. now right.
  Qed.

  Lemma commit_keys_nonempty K (t : schema) :
    well_built K t -> forall k, In k (commit_keys t) -> k <> ""%string.
  Proof.
    induction t as [q|q|s|l IHl lc r IHr rc|l IHl lc r IHr rc]; cbn.
    - intros [_ H] k [<-|[]]; assumption.
    - intros _ k [].
    - intros _ k [].
    - intros [Hl [Hr _]] k Hk; apply in_app_iff in Hk; destruct Hk; eauto.
    - intros [Hl [Hr _]] k Hk; apply in_app_iff in Hk; destruct Hk; eauto.
  Qed.

  Lemma DJ_lemma K (l r : schema) el er :
    well_built K l -> well_built K r ->
    (forall k, k <> ""%string -> (In k (keys el) <-> In k (commit_keys l))) ->
    (forall k, k <> ""%string -> (In k (keys er) <-> In k (commit_keys r))) ->
    (exists k, k <> ""%string /\ In k (keys el) /\ In k (keys er)) <->
    (exists k, In k (commit_keys l) /\ In k (commit_keys r)).
  Proof.
    intros Wl Wr Kl Kr. split.
    - intros [k [H1 [H2 H3]]]; exists k; split; [apply Kl|apply Kr]; assumption.
    - intros [k [H1 H2]]; assert (Hk := commit_keys_nonempty K l Wl k H1); exists k;
        split; [assumption|split; [apply Kl|apply Kr]; assumption].
  Qed.

  Lemma DN_lemma (l r : schema) :
    ~ NoDup (commit_keys l ++ commit_keys r) <->
    ~ NoDup (commit_keys l) \/ ~ NoDup (commit_keys r) \/
    exists k, In k (commit_keys l) /\ In k (commit_keys r).
  Proof.
    rewrite NoDup_app_iff; split.
    - intro H.
      destruct (ListDec.NoDup_dec string_dec (commit_keys l)) as [D1|D1]; [|now left].
      destruct (ListDec.NoDup_dec string_dec (commit_keys r)) as [D2|D2]; [|right; now left].
      right; right.
      destruct (Exists_dec (fun k => In k (commit_keys r)) (commit_keys l)
                 (fun k => in_dec string_dec k (commit_keys r))) as [D3|D3];
        [apply Exists_exists in D3; exact D3|].
      exfalso; apply H; repeat split; auto. intros x H1 H2; apply D3; apply Exists_exists; eauto.
    - intros [H|[H|[k [H1 H2]]]] [G [G' G'']]; auto; eapply G''; eauto.
  Qed.

  Lemma glue_lemma (ml mr A Sl Sr Nl Nr D : Prop) :
    (Sl -> ml) -> (Sr -> mr) -> (Nl -> ml) -> (Nr -> mr) -> (ml \/ mr) ->
    ((ml /\ (A \/ Sl \/ Nl)) \/ (mr /\ (A \/ Sr \/ Nr)) \/ D) <->
    (A \/ (Sl \/ Sr) \/ (Nl \/ Nr \/ D)).
  Proof. tauto. Qed.

  Lemma scales_true_mentions (t : schema) : scales_commitment t = true -> mentions t = true.
  Proof.
    intro H. destruct (mentions t) eqn:E; [reflexivity|]. now rewrite (scales_mentions t E) in H.
  Qed.

  Lemma nodup_mentions (t : schema) : ~ NoDup (commit_keys t) -> mentions t = true.
  Proof.
    intro H. destruct (mentions t) eqn:E; [reflexivity|]. exfalso.
    apply H. rewrite (proj1 (commit_keys_scalar t) E). constructor.
  Qed.

  Local Ltac fin_scalar :=
    first [ solve [constructor; [left; cbn; repeat split; auto; discriminate|constructor]]
          | solve [repeat constructor; auto]
          | solve [match goal with sc : option _ |- _ => destruct sc; cbn; ring end]
          | solve [rewrite smul_0_r; apply madd_0_l]
          | solve [intros _; eexists; reflexivity]
          | solve [intros [?|[]]; congruence]
          | tauto | discriminate | solve [intros [? _]; discriminate] ].

  (** The evaluator's invariant. *)
  Lemma eval_prepare_spec K (t : schema) : forall (sc : option F),
    well_built K t -> linear t = true ->
    exists es, eval_prepare t sc = Some es /\
      Forall (entry_ok K) es /\ NoDup (keys es) /\
      sum_sc es = or_one sc * sc_of t /\
      sum_pt es = smul (or_one sc) (pt_of t) /\
      (mentions t = false -> is_scalar_entry es) /\
      (In ""%string (keys es) <-> has_scalar_part t = true) /\
      (forall k, k <> ""%string -> (In k (keys es) <-> In k (commit_keys t))) /\
      (existsb both es = true <->
        mentions t = true /\ (sc <> None \/ scales_commitment t = true \/ ~ NoDup (commit_keys t))).
  Proof.
    induction t as [q|q|s|l IHl lc r IHr rc|l IHl lc r IHr rc]; intros sc WB LIN; cbn in WB, LIN.
    - destruct WB as [HC Hk]. cbn. rewrite HC. eexists. split; [reflexivity|].
      cbn. unfold ev_sc, ev_pt; cbn.
      repeat split; auto.
      + constructor; [|constructor]. right; cbn; auto.
      + repeat constructor; auto.
      + ring.
      + apply madd_0_r.
      + discriminate.
      + intros [?|[]]; contradiction.
      + discriminate.
      + destruct sc; cbn in *; [left; discriminate|discriminate].
      + destruct sc; cbn in *; [intros; reflexivity|].
        intros [_ [H|[H|H]]]; [congruence|discriminate|]. destruct H. repeat constructor. auto.
    - cbn. destruct (cq_eval q) as [e|] eqn:E; [|congruence].
      eexists. split; [reflexivity|]. cbn. unfold ev_sc, ev_pt; cbn.
      repeat split; auto; fin_scalar.
    - cbn. eexists. split; [reflexivity|]. cbn. unfold ev_sc, ev_pt; cbn.
      repeat split; auto; fin_scalar.
    - destruct WB as [Wl [Wr [-> ->]]]. apply andb_true_iff in LIN; destruct LIN as [Ll Lr].
      rewrite (well_built_flag K l Wl), (well_built_flag K r Wr) in *.
      cbn [eval_prepare]. destruct (negb (mentions l) && negb (mentions r)) eqn:Mlr.
      1: { apply andb_true_iff in Mlr. rewrite !negb_true_iff in Mlr. destruct Mlr as [Ml Mr].
           destruct (IHl None Wl Ll) as [el [El [_ [_ [Sl [_ [Il [_ [_ _]]]]]]]]].
           destruct (IHr None Wr Lr) as [er [Er [_ [_ [Sr [_ [Ir [_ [_ _]]]]]]]]].
           destruct (Il Ml) as [vl ->]. destruct (Ir Mr) as [vr ->]. rewrite El, Er.
           cbn in Sl, Sr. unfold ev_sc in Sl, Sr; cbn in Sl, Sr.
           assert (Hl : vl = sc_of l) by (transitivity (vl + 0); [ring|rewrite Sl; ring]).
           assert (Hr : vr = sc_of r) by (transitivity (vr + 0); [ring|rewrite Sr; ring]).
           subst vl vr. cbn. eexists. split; [reflexivity|]. cbn. unfold ev_sc, ev_pt; cbn.
           rewrite Ml, Mr. cbn.
           rewrite (proj1 (commit_keys_scalar l) Ml), (proj1 (commit_keys_scalar r) Mr).
           rewrite (pt_of_scalar l Ml), (pt_of_scalar r Mr), !madd_0_l, smul_0_r.
           rewrite (has_scalar_part_scalar l Ml). cbn.
           repeat split; auto; fin_scalar. }
      all: destruct (IHl sc Wl Ll) as [el [El [Okl [Ndl [Sl [Pl [Il [Zl [Kl Bl]]]]]]]]];
           destruct (IHr sc Wr Lr) as [er [Er [Okr [Ndr [Sr [Pr [Ir [Zr [Kr Br]]]]]]]]];
           rewrite El, Er, (merge_nil el Ndl);
           destruct (merge_spec K er el Okl Okr Ndl Ndr) as [G1 [G2 [G3 [G4 [G5 G6]]]]];
           eexists; (split; [reflexivity|]); cbn [sc_of pt_of mentions has_scalar_part scales_commitment commit_keys];
           assert (Hm : mentions l = true \/ mentions r = true)
             by (destruct (mentions l), (mentions r); auto).
      all: split; [assumption|]; split; [assumption|];
           split; [rewrite G3, Sl, Sr; ring|];
           split; [rewrite G4, Pl, Pr, smul_add_r; reflexivity|];
           split; [rewrite orb_false_iff; intros [? ?]; destruct Hm; congruence|];
           split; [rewrite G5, Zl, Zr, orb_true_iff; reflexivity|];
           split; [intros k Hk; rewrite G5, (Kl k Hk), (Kr k Hk), in_app_iff; reflexivity|].
      all: rewrite G6, (DJ_lemma K l r el er Wl Wr Kl Kr), Bl, Br, (DN_lemma l r), orb_true_iff.
      all: rewrite (glue_lemma (mentions l = true) (mentions r = true));
           auto using scales_true_mentions, nodup_mentions.
      all: rewrite !orb_true_iff; split; [intro H; split; assumption|intros [_ H]; exact H].
    - destruct WB as [Wl [Wr [-> ->]]]. apply andb_true_iff in LIN; destruct LIN as [LIN Lm].
      apply andb_true_iff in LIN; destruct LIN as [Ll Lr].
      rewrite (well_built_flag K l Wl), (well_built_flag K r Wr) in *.
      cbn [eval_prepare sc_of pt_of mentions has_scalar_part scales_commitment commit_keys].
      assert (ND0 : NoDup (@nil string)) by constructor.
      destruct (mentions l) eqn:Ml; cbn [negb orb andb] in *.
      + assert (Mr : mentions r = false) by (destruct (mentions r); [discriminate|reflexivity]).
        destruct (IHr None Wr Lr) as [er [Er [_ [_ [Sr [_ [Ir _]]]]]]].
        destruct (Ir Mr) as [vr ->]. rewrite Er. cbn in Sr; unfold ev_sc in Sr; cbn in Sr.
        assert (Hr : vr = sc_of r) by (transitivity (vr + 0); [ring|rewrite Sr; ring]). subst vr.
        cbn [e_sc snd].
        set (s' := match sc with Some c => c * sc_of r | None => sc_of r end).
        destruct (IHl (Some s') Wl Ll) as [el [El [Okl [Ndl [Sl [Pl [Il [Zl [Kl Bl]]]]]]]]].
        exists el. split; [exact El|]. split; [assumption|]. split; [assumption|].
        cbn [or_one] in Sl, Pl. rewrite (proj1 (commit_keys_scalar _) Mr), app_nil_r.
        assert (Es : s' = or_one sc * sc_of r) by (unfold s'; destruct sc; cbn; ring).
        split; [rewrite Sl, Es; ring|].
        split; [rewrite Pl, (pt_of_scalar r Mr), Es, smul_0_r, madd_0_l, smul_mul; reflexivity|].
        split; [discriminate|]. split; [assumption|]. split; [assumption|].
        rewrite Bl. split; [intros [_ H]; split; [reflexivity|tauto]|].
        intros _; split; [reflexivity|left; discriminate].
      + destruct (IHl None Wl Ll) as [el [El [_ [_ [Sl [_ [Il _]]]]]]].
        destruct (Il eq_refl) as [vl ->]. rewrite El. cbn in Sl; unfold ev_sc in Sl; cbn in Sl.
        assert (Hl : vl = sc_of l) by (transitivity (vl + 0); [ring|rewrite Sl; ring]). subst vl.
        cbn [e_sc snd].
        set (s' := match sc with Some c => c * sc_of l | None => sc_of l end).
        destruct (IHr (Some s') Wr Lr) as [er [Er [Okr [Ndr [Sr [Pr [Ir [Zr [Kr Br]]]]]]]]].
        exists er. split; [exact Er|]. split; [assumption|]. split; [assumption|].
        cbn [or_one] in Sr, Pr. rewrite (proj1 (commit_keys_scalar _) Ml). cbn [app].
        assert (Es : s' = or_one sc * sc_of l) by (unfold s'; destruct sc; cbn; ring).
        split; [rewrite Sr, Es; ring|].
        split; [rewrite Pr, (pt_of_scalar l Ml), Es, smul_0_r, madd_0_r, smul_mul; reflexivity|].
        split; [assumption|]. split; [assumption|]. split; [assumption|].
        rewrite Br. split; [intros [H1 _]; rewrite H1; split; [reflexivity|right; left; reflexivity]|].
        intros [H1 _]; split; [assumption|left; discriminate].
  Qed.

  (** [multi_exp] on a non-empty list is the sum. *)
  Lemma multi_exp_sum (ps : list (M * F)) :
    ps <> [] ->
    multi_exp (map fst ps) (map snd ps) =
    Some (fold_right (fun c a => madd (smul (snd c) (fst c)) a) m0 ps).
  Proof.
    unfold multi_exp.
    assert (E : combine (map fst ps) (map snd ps) = ps)
      by (induction ps as [|[a b] ps IH]; cbn; [reflexivity|now rewrite IH]).
    rewrite E. clear E.
    assert (G : forall ps a, fold_left (fun acc c => match acc with None => Some (smul (snd c) (fst c)) | Some a0 => Some (madd a0 (smul (snd c) (fst c))) end) ps (Some a)
                = Some (madd a (fold_right (fun (c : M * F) a => madd (smul (snd c) (fst c)) a) m0 ps))).
    { clear ps. intro ps. induction ps as [|[p s] ps IH]; intro a; cbn.
      - now rewrite madd_0_r.
      - rewrite IH. now rewrite madd_assoc. }
    destruct ps as [|[p s] ps]; [congruence|]. intros _. cbn. apply G.
  Qed.

  Lemma multi_exp_nil : multi_exp (M := M) [] [] = None.
  Proof. reflexivity. Qed.

  Lemma fold_left_madd (ps : list M) : forall a,
    fold_left madd ps a = madd a (fold_right madd m0 ps).
  Proof.
    induction ps as [|p ps IH]; intro a; cbn; [now rewrite madd_0_r|].
    rewrite IH. now rewrite madd_assoc.
  Qed.

  Lemma split_sum K (es : list entry) :
    Forall (entry_ok K) es ->
    madd (fold_right (fun c a => madd (smul (snd c) (fst c)) a) m0
            (flat_map (fun b : entry => match e_pt b, e_sc b with Some p, Some v => [(p, v)] | _, _ => [] end) es))
         (fold_right madd m0
            (flat_map (fun b : entry => match e_sc b, e_pt b with None, Some p => [p] | _, _ => [] end) es))
    = sum_pt es.
  Proof.
    induction 1 as [|e es He H IH]; cbn; [apply madd_0_l|].
    rewrite <- IH. unfold ev_pt. destruct (e_pt e) as [p|], (e_sc e) as [v|]; cbn.
    - now rewrite madd_assoc.
    - rewrite smul_1. rewrite (madd_comm _ _ p), (madd_assoc _ _ _ _ p).
      now rewrite (madd_comm _ _ p).
    - now rewrite madd_0_l.
    - now rewrite madd_0_l.
  Qed.

  Lemma find_scalar K (es : list entry) :
    Forall (entry_ok K) es -> NoDup (keys es) ->
    match find (fun b => String.eqb (e_key b) "") es with
    | None => ~ In ""%string (keys es)
    | Some b => In ""%string (keys es) /\ e_sc b = Some (sum_sc es)
    end.
  Proof.
    intros H ND. induction H as [|e es He H IH]; cbn; [tauto|].
    cbn in ND. inversion ND as [|? ? N1 N2]; subst. specialize (IH N2).
    destruct (String.eqb_spec (e_key e) "") as [E|E].
    - split; [now left|]. destruct He as [[_ [Hp Hs]]|[? _]]; [|contradiction].
      unfold ev_sc. rewrite Hp. destruct (e_sc e) as [v|]; [|congruence]. cbn. f_equal.
      rewrite E in N1.
      assert (Z : sum_sc es = 0).
      { clear -N1 H. induction H as [|e es He H IH]; cbn; [reflexivity|].
        cbn in N1. rewrite IH by tauto. destruct He as [[Hk _]|[_ Hp]]; [tauto|].
        unfold ev_sc. rewrite Hp. ring. }
      rewrite Z. ring.
    - destruct (find _ es) as [b|].
      + destruct IH as [I1 I2]. split; [now right|]. rewrite I2. f_equal.
        destruct He as [[? _]|[_ Hp]]; [contradiction|]. unfold ev_sc. rewrite Hp. ring.
      + intros [?|?]; auto.
  Qed.

  Lemma pairs_both (es : list entry) :
    flat_map (fun b : entry => match e_pt b, e_sc b with Some p, Some v => [(p, v)] | _, _ => [] end) es <> []
    <-> existsb both es = true.
  Proof.
    induction es as [|e es IH]; cbn; [split; [congruence|discriminate]|].
    unfold both at 1. destruct (e_pt e), (e_sc e); cbn; try exact IH.
    split; [reflexivity|discriminate].
  Qed.

  Lemma eval_spec K (t : schema) :
    well_built K t -> linear t = true ->
    (mentions t = true /\ (scales_commitment t = true \/ ~ NoDup (commit_keys t)) ->
     exists names, eval t = Some (pt_of t, (if has_scalar_part t then Some (sc_of t) else None), names)
       /\ NoDup names
       /\ (In ""%string names <-> has_scalar_part t = true)
       /\ (forall k, k <> ""%string -> (In k names <-> In k (commit_keys t)))) /\
    (eval t = None <-> ~ (mentions t = true /\ (scales_commitment t = true \/ ~ NoDup (commit_keys t)))).
  Proof.
    intros WB LIN.
    destruct (eval_prepare_spec K t None WB LIN) as [es [E [Ok [Nd [S [P [_ [Z [Kk B]]]]]]]]].
    unfold eval. rewrite E. cbn [or_one] in S, P.
    assert (FS := find_scalar K es Ok Nd).
    assert (SS : (match find (fun b : entry => (e_key b =? "")%string) es with
                  | Some b => match e_sc b with Some v => Some (Some v) | None => None end
                  | None => Some None end)
                 = Some (if has_scalar_part t then Some (sc_of t) else None)).
    { destruct (find _ es) as [b|].
      - destruct FS as [F1 F2]. rewrite F2. apply Z in F1. rewrite F1, S. do 2 f_equal. ring.
      - destruct (has_scalar_part t); [|reflexivity]. exfalso. apply FS, Z. reflexivity. }
    rewrite SS.
    assert (PB := pairs_both es).
    set (pairs := flat_map (fun b : entry => match e_pt b with
              | Some p => match e_sc b with Some v => [(p, v)] | None => [] end
              | None => [] end) es) in *.
    assert (Bc : existsb both es = true <->
                 mentions t = true /\ (scales_commitment t = true \/ ~ NoDup (commit_keys t))).
    { rewrite B. split; [intros [H1 [H2|[H2|H2]]]; [congruence|tauto|tauto]|tauto]. }
    split.
    - intro H. apply Bc in H. apply PB in H. rewrite (multi_exp_sum pairs H).
      exists (keys es). rewrite fold_left_madd. unfold pairs. rewrite (split_sum K es Ok), P, smul_1.
      repeat split; try (apply Z; assumption); try apply Kk; auto.
    - rewrite <- Bc, <- PB. destruct pairs as [|c pairs'] eqn:Ep.
      + cbn. split; [intros _ H; congruence|reflexivity].
      + rewrite (multi_exp_sum (c :: pairs')) by discriminate. split; [discriminate|].
        intro H. exfalso. apply H. discriminate.
  Qed.
End Proofs.
