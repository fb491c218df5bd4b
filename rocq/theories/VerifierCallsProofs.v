(** The calls of VerifierCalls.v compute the functions of Schema.v, Plonk.v and
    BuildParams.v. *)
From Coq Require Import String ZArith NArith Arith List Bool Lia.
From Verif Require Import Util Algebra Schema Plonk BuildParams Calls VerifierCalls CallsSim.
Import ListNotations.

Section Proofs.
  Variable F : Fld.
  Variable M : Mod F.
  Variables (PT SC : nat).
  Variable pt_decode : list Z -> option M.
  Variable sc_decode : list Z -> option F.
  Variable St : Type.
  Variable upd_pt : St -> M -> St.
  Variable upd_sc : St -> F -> St.
  Variable sqz : St -> option (F * St).
  Variable generator : M.
  Notation cst := (cst F M St).
  Notation Q := (Q F M).
  Notation simL := (simL F M PT SC pt_decode sc_decode St upd_pt upd_sc sqz generator).
  Notation simT := (simT F M PT SC pt_decode sc_decode St upd_pt upd_sc sqz generator).
  Notation Mono := (Mono F M St).

  Hint Resolve emit_const emit_add emit_sub emit_mul emit_square emit_div emit_sum emit_pconst emit_pone emit_padd emit_psub
    emit_pmul emit_pmulconst emit_normalize emit_multiexp emit_readpoint emit_readscalar emit_squeeze emit_commonpoint emit_commonscalar : sim.
  Hint Resolve simL_ret simL_lift simT_lift simT_ret simL_fail simT_fail : sim.
  Hint Resolve rl_nil rl_cons rl_nth rl_app rl_rev rl_skipn rl_firstn rl_concat rl_combine rl_refl rl_enumerate rl_chunks rl_repeat : sim.
  Hint Extern 1 (CallsSim.Mono _ _ _ _) => apply _ : sim.

  Ltac next := let s := fresh "s" in let a := fresh "a" in let b := fresh "b" in let E := fresh "E" in let H := fresh "H" in
    intros s a b E H; cbn beta iota in *; lift.
  Tactic Notation "next" "as" ident(H) := let s := fresh "s" in let a := fresh "a" in let b := fresh "b" in let E := fresh "E" in
    intros s a b E H; cbn beta iota in *; lift.
  Tactic Notation "nxt" ident(s) ident(a) ident(b) ident(H) := let E := fresh "E" in intros s a b E H; cbn beta iota in *; lift.
  Tactic Notation "nxtP" ident(s) ident(a) ident(H) := let E := fresh "E" in intros s a E H; cbn beta iota in *; lift.
  Ltac nextP := let s := fresh "s" in let a := fresh "a" in let E := fresh "E" in let H := fresh "H" in
    intros s a E H; cbn beta iota in *; lift.
  Tactic Notation "bnd" := eapply simL_bind; [eauto with sim|next].
  Tactic Notation "pur" := eapply simL_pure; [eauto with sim|nextP].
  Tactic Notation "bndT" := eapply simT_bind; [eauto with sim|next].
  Tactic Notation "purT" := eapply simT_pure; [eauto with sim|nextP].

  (** ** arith *)
  Inductive rast (s : cst) : hast -> ast F -> Prop :=
  | ra_val i x : rs s i x -> rast s (HVal i) (AVal x)
  | ra_add a b x y : rast s a x -> rast s b y -> rast s (HAdd a b) (AAdd x y)
  | ra_sub a b x y : rast s a x -> rast s b y -> rast s (HSub a b) (ASub x y)
  | ra_mul a b x y : rast s a x -> rast s b y -> rast s (HMul a b) (AMul x y)
  | ra_div a b x y : rast s a x -> rast s b y -> rast s (HDiv a b) (ADiv x y).
  Global Instance Mono_rast : Mono rast.
  Proof. intros s s' a b E H. induction H; constructor; eauto. exact (mono s s' _ _ E H). Qed.
  Lemma ast_sim h : forall s x, rast s h x -> simL s (c_ast F M h) (ast_eval x) rs.
  Proof.
    induction h; intros s x H; inversion H; subst; cbn [c_ast ast_eval]; [now apply simL_ret| | | | ].
    all: eapply simL_bind; [eauto|next]; eapply simL_bind; [eauto|next]; eauto with sim.
  Qed.
  Hint Resolve ast_sim : sim.
  Hint Constructors rast : sim.

  Lemma mul_add_sim s i j k a b c : rs s i a -> rs s j b -> rs s k c -> simL s (c_mul_add F M i j k) (Some (mul_add a b c)) rs.
  Proof. intros. unfold c_mul_add, mul_add. pur. eauto with sim. Qed.
  Lemma accumulate_sim s l l' j b : rlist rs s l l' -> rs s j b -> simL s (c_mul_add_accumulate F M l j) (Some (mul_add_accumulate l' b)) rs.
  Proof.
    intros. unfold c_mul_add_accumulate, mul_add_accumulate. pur.
    apply (simL_foldS) with (R1 := rs); auto with sim. intros s' a0 b0 a1 b1 E H3 H4. lift. now apply mul_add_sim.
  Qed.
  Lemma sum_sim s l l' c : rlist rs s l l' -> simL s (c_sum_with_constant F M l c) (Some (sum_with_constant l' c)) rs.
  Proof.
    intros H. apply emit_sum. eapply rl_map; [exact H|]. intros a b Hab. split; [exact Hab|reflexivity].
  Qed.
  Hint Resolve mul_add_sim accumulate_sim sum_sim : sim.
  Lemma pow_loop_sim fuel : forall s i x e sb acc a, rs s i x -> rs s acc a -> simL s (c_pow_loop F M fuel i e sb acc) (pow_loop fuel x e sb a) rs.
  Proof.
    induction fuel as [|fuel IH]; intros s i x e sb acc a H H'; cbn [c_pow_loop pow_loop]; destruct (N.eqb sb 0); eauto with sim.
    pur. destruct (N.eqb (N.land e sb) 0).
    - eapply simL_pure; [apply simL_ret; eassumption|nextP]. now apply IH.
    - pur. now apply IH.
  Qed.
  Lemma pow_sim fuel s i x e : rs s i x -> simL s (c_pow_constant F M fuel i e) (pow_constant fuel x e) rs.
  Proof.
    intro H. unfold c_pow_constant, pow_constant. destruct (N.leb 1 e); [|apply simL_fail].
    eapply simL_bind with (R1 := req); [apply simL_lift; destruct (pow_top fuel e 1); reflexivity|next].
    unfold req in *. subst. now apply pow_loop_sim.
  Qed.
  Hint Resolve pow_sim : sim.

  (** ** Lagrange *)
  Lemma ws_sim l : forall s w om w' om', rs s w w' -> rs s om om' -> simL s (c_lagrange_ws F M l w om) (lagrange_ws l w' om') (rlist rs).
  Proof.
    induction l as [|l IH]; intros s w om w' om' H H'; cbn [c_lagrange_ws lagrange_ws]; [eauto with sim|].
    bnd. eapply simL_bind; [apply IH; eassumption|next]. eauto with sim.
  Qed.
  Lemma lagrange_sim s l n x xn one om n' x' xn' one' om' :
    rs s n n' -> rs s x x' -> rs s xn xn' -> rs s one one' -> rs s om om' ->
    simL s (c_get_lagrange_commits F M l n x xn one om) (get_lagrange_commits l n' x' xn' one' om') (rlist rs).
  Proof.
    intros. unfold c_get_lagrange_commits, get_lagrange_commits.
    eapply simL_bind; [apply ws_sim; eassumption|next].
    apply simL_map with (R1 := rs); auto with sim. intros s' a0 b0 E Hab. lift. apply ast_sim. auto 10 with sim.
  Qed.
  Hint Resolve lagrange_sim : sim.

  (** ** Expressions *)
  Inductive rexpr (s : cst) : hexpr -> expr F -> Prop :=
  | rx_const i c : rs s i c -> rexpr s (HEConst i) (EConst c)
  | rx_sel : rexpr s HESelector ESelector
  | rx_fixed i : rexpr s (HEFixed i) (EFixed i)
  | rx_advice i : rexpr s (HEAdvice i) (EAdvice i)
  | rx_instance i : rexpr s (HEInstance i) (EInstance i)
  | rx_challenge i : rexpr s (HEChallenge i) (EChallenge i)
  | rx_neg a x : rexpr s a x -> rexpr s (HENeg a) (ENeg x)
  | rx_sum a b x y : rexpr s a x -> rexpr s b y -> rexpr s (HESum a b) (ESum x y)
  | rx_prod a b x y : rexpr s a x -> rexpr s b y -> rexpr s (HEProd a b) (EProd x y)
  | rx_scaled a x i f : rexpr s a x -> rs s i f -> rexpr s (HEScaled a i) (EScaled x f).
  Global Instance Mono_rexpr : Mono rexpr.
  Proof. intros s s' a b E H. induction H; constructor; eauto; exact (mono s s' _ _ E H) || exact (mono s s' _ _ E H0). Qed.
  Hint Constructors rexpr : sim.
  Lemma evaluate_sim e : forall s fx ad ins ch z fx' ad' ins' ch' z' e',
    rlist rs s fx fx' -> rlist rs s ad ad' -> rlist rs s ins ins' -> rlist rs s ch ch' -> rs s z z' -> rexpr s e e' ->
    simL s (c_chip_evaluate F M fx ad ins ch z e) (chip_evaluate fx' ad' ins' ch' z' e') rs.
  Proof.
    induction e; intros s fx ad ins ch z fx' ad' ins' ch' z' e' H1 H2 H3 H4 H5 H; inversion H; subst; cbn [c_chip_evaluate chip_evaluate].
    all: try solve [eauto with sim].
    - eapply simL_bind; [eapply IHe; eassumption|next]. auto with sim.
    - eapply simL_bind; [eapply IHe1; eassumption|next]. eapply simL_bind; [eapply IHe2; eassumption|next]. auto with sim.
    - eapply simL_bind; [eapply IHe1; eassumption|next]. eapply simL_bind; [eapply IHe2; eassumption|next]. auto with sim.
    - eapply simL_bind; [eapply IHe; eassumption|next]. auto with sim.
  Qed.
  Hint Resolve evaluate_sim : sim.

  (** ** Schemas *)
  Definition rcq : rel F M St hcq (commit_query F M) := fun s q q' =>
    hq_key q = cq_key q' /\ orel rp s (hq_commitment q) (cq_commitment q') /\ orel rs s (hq_eval q) (cq_eval q').
  Global Instance Mono_rcq : Mono rcq.
  Proof. intros s s' a b E (H1 & H2 & H3). split; [exact H1|]. split; [exact (mono s s' _ _ E H2)|exact (mono s s' _ _ E H3)]. Qed.
  Inductive rsch (s : cst) : hschema -> schema F M -> Prop :=
  | rc_commitment q q' : rcq s q q' -> rsch s (HSCommitment q) (SCommitment q')
  | rc_eval q q' : rcq s q q' -> rsch s (HSEval q) (SEval q')
  | rc_scalar i x : rs s i x -> rsch s (HSScalar i) (SScalar x)
  | rc_add l lc r rc l' r' : rsch s l l' -> rsch s r r' -> rsch s (HSAdd l lc r rc) (SAdd l' lc r' rc)
  | rc_mul l lc r rc l' r' : rsch s l l' -> rsch s r r' -> rsch s (HSMul l lc r rc) (SMul l' lc r' rc).
  Global Instance Mono_rsch : Mono rsch.
  Proof. intros s s' a b E H. induction H; constructor; eauto; exact (mono s s' _ _ E H). Qed.
  Hint Constructors rsch : sim.
  Lemma rsch_has s a b : rsch s a b -> h_has_commitment a = has_commitment b.
  Proof. intro H. destruct H; reflexivity. Qed.
  Lemma rsch_add s a b a' b' : rsch s a a' -> rsch s b b' -> rsch s (hs_add a b) (sch_add a' b').
  Proof. intros H H'. unfold hs_add, sch_add. rewrite (rsch_has _ _ _ H), (rsch_has _ _ _ H'). now constructor. Qed.
  Lemma rsch_mul s a b a' b' : rsch s a a' -> rsch s b b' -> rsch s (hs_mul a b) (sch_mul a' b').
  Proof. intros H H'. unfold hs_mul, sch_mul. rewrite (rsch_has _ _ _ H), (rsch_has _ _ _ H'). now constructor. Qed.
  Lemma rsch_commit s k c P : rp s c P -> rsch s (HSCommitment (mkHQ k (Some c) None)) (SCommitment (mkCQ k (Some P) None)).
  Proof. intro H. constructor. split; [reflexivity|]. split; [exact H|exact I]. Qed.
  Hint Resolve rsch_add rsch_mul rsch_commit : sim.

  Definition rentry : rel F M St hentry (entry F M) := rpair (rpair req (orel rp)) (orel rs).
  Hint Unfold rentry : sim.
  Global Instance Mono_rentry : Mono rentry.
  Proof. unfold rentry. apply _. Qed.
  Lemma rentry_key s a b : rentry s a b -> he_key a = e_key b.
  Proof. intros [[H _] _]. exact H. Qed.
  Lemma h_or_sim (s : cst) one i x : rs s one f1 -> orel rs s i x -> rs s (h_or one i) (or_one x).
  Proof. destruct i, x; cbn; intros; try contradiction; assumption. Qed.
  Lemma merge1_sim one res : forall (s : cst) res' ev ev', rs s one f1 -> rlist rentry s res res' -> rentry s ev ev' ->
    simL s (c_merge1 F M one res ev) (Some (merge1 res' ev')) (rlist rentry).
  Proof.
    induction res as [|p res IH]; intros s res' ev ev' H1 H H'; inversion H as [|? p' ? r' Hp Hr]; subst; cbn [c_merge1 merge1].
    - apply simL_ret. constructor; [assumption|constructor].
    - change (rlist rentry s res r') in Hr. rewrite (rentry_key _ _ _ Hp), (rentry_key _ _ _ H'). destruct (String.eqb (e_key p') (e_key ev')).
      + pose proof Hp as [[K1 K2] K3]. pose proof H' as [[K4 K5] K6]. change (he_sc p) with (snd p). change (he_sc ev) with (snd ev).
        change (he_pt p) with (snd (fst p)). change (e_sc p') with (snd p'). change (e_sc ev') with (snd ev'). change (e_pt p') with (snd (fst p')).
        eapply simL_pure. { apply emit_add; apply h_or_sim; eassumption. }
        nextP. apply simL_ret. constructor; [|exact Hr]. split; [split; [reflexivity|exact K2]|exact H0].
      + eapply simL_pure. { apply IH; eassumption. } nextP. apply simL_ret. now constructor.
  Qed.
  Lemma merge_sim one (s : cst) res res' evs evs' : rs s one f1 -> rlist rentry s res res' -> rlist rentry s evs evs' ->
    simL s (c_merge F M one res evs) (Some (merge res' evs')) (rlist rentry).
  Proof.
    intros. unfold c_merge, merge. apply simL_foldS with (R1 := rentry); auto with sim.
    intros s' a0 b0 a1 b1 E K K'. lift. now apply merge1_sim.
  Qed.
  Hint Resolve merge_sim : sim.
  Lemma scale_sim (s : cst) f g sc sc' v v' : rs s v v' -> orel rs s sc sc' -> (forall i x, rs s i x -> simL s (emit (f i)) (Some (g x)) rs) ->
    simL s (c_scale F M f sc v) (Some (match sc' with Some x => g x | None => v' end)) rs.
  Proof. intros H H' K. unfold c_scale. destruct sc, sc'; cbn in H'; try contradiction; [now apply K|now apply simL_ret]. Qed.
  Lemma prepare_sim one t : forall (s : cst) t' sc sc', rs s one f1 -> rsch s t t' -> orel rs s sc sc' ->
    simL s (c_eval_prepare F M one t sc) (eval_prepare t' sc') (rlist rentry).
  Proof.
    induction t as [q|q|i|l IHl lc r IHr rc|l IHl lc r IHr rc]; intros s t' sc sc' H1 H Hsc; inversion H; subst; cbn [c_eval_prepare eval_prepare].
    - destruct H2 as (K1 & K2 & K3). destruct (hq_commitment q), (cq_commitment q'); cbn in K2; try contradiction; [|apply simL_fail].
      apply simL_ret. constructor; [|constructor]. split; [split; [exact K1|exact K2]|exact Hsc].
    - destruct H2 as (K1 & K2 & K3). destruct (hq_eval q), (cq_eval q'); cbn in K3; try contradiction; [|apply simL_fail].
      eapply simL_pure. { eapply scale_sim with (g := fun x => fmul x c); [exact K3|exact Hsc|]. auto with sim. }
      nextP. apply simL_ret. constructor; [|constructor]. split; [split; [reflexivity|exact I]|exact H0].
    - eapply simL_pure. { eapply scale_sim with (g := fun sc => fmul x sc); [eassumption|exact Hsc|]. auto with sim. }
      nextP. apply simL_ret. constructor; [|constructor]. split; [split; [reflexivity|exact I]|exact H0].
    - destruct (negb lc && negb rc).
      + match goal with |- simL _ _ ?o _ => replace o with
          (do le <- eval_prepare l' None; do re <- eval_prepare r' None;
           match le, re return option (list (entry F M)) with
           | [le], [re] => match e_sc le, e_sc re return option (list (entry F M)) with
                           | Some a, Some b => Some [(""%string, None, Some (match sc' with Some x => fmul x (fadd a b) | None => fadd a b end))]
                           | _, _ => None end
           | _, _ => None end) end.
        2: { destruct (eval_prepare l' None) as [[|? [|]]|], (eval_prepare r' None) as [[|? [|]]|]; reflexivity. }
        eapply simL_bind; [apply (IHl s l' None None); [assumption|assumption|exact I]|next as HL].
        eapply simL_bind; [apply (IHr s0 r' None None); [assumption|assumption|exact I]|next as HR].
        inversion HL as [|le le' ? ? Hle [|]]; subst; [apply simL_fail| |apply simL_fail].
        inversion HR as [|re re' ? ? Hre [|]]; subst; [apply simL_fail| |apply simL_fail].
        destruct Hle as [_ Hle], Hre as [_ Hre]. change (he_sc le) with (snd le). change (e_sc le') with (snd le').
        change (he_sc re) with (snd re). change (e_sc re') with (snd re').
        destruct (snd le), (snd le'); cbn in Hle; try contradiction; [|apply simL_fail].
        destruct (snd re), (snd re'); cbn in Hre; try contradiction; [|apply simL_fail].
        eapply simL_pure. { apply emit_add; [exact Hle|exact Hre]. } nextP.
        eapply simL_pure. { eapply scale_sim with (g := fun sc => fmul sc (fadd c c0)); [eassumption|exact Hsc|]. auto with sim. }
        nextP. apply simL_ret. constructor; [|constructor]. split; [split; [reflexivity|exact I]|assumption].
      + match goal with |- simL _ _ ?o _ => replace o with
          (do el <- eval_prepare l' sc'; do er <- eval_prepare r' sc'; Some (merge (merge [] el) er)) by
            (destruct (eval_prepare l' sc'), (eval_prepare r' sc'); reflexivity) end.
        eapply simL_bind; [apply IHl; eassumption|next].
        eapply simL_pure. { apply merge_sim; [eassumption|apply rl_nil|eassumption]. } nextP.
        eapply simL_bind; [apply IHr; eassumption|next].
        apply merge_sim; assumption.
    - assert (G : forall hm hrem m rem, simL s hm m (rlist rentry) ->
                 (forall s' i x, ext s s' -> rs s' i x -> simL s' (hrem (Some i)) (rem (Some x)) (rlist rentry)) ->
                 simL s (qbind hm (fun s => match s with
                   | [se] => match he_sc se with Some v => qbind (c_scale F M (fun sc => CMul sc v) sc v) (fun v => hrem (Some v)) | None => qfail end
                   | _ => qfail end))
                 (match m with
                   | Some [se] => match e_sc se with Some v => rem (Some (match sc' with Some x => fmul x v | None => v end)) | None => None end
                   | _ => None end) (rlist rentry)).
      { intros hm hrem m rem Hm Hrem. replace (match m with Some [se] => _ | _ => _ end) with
          (do se <- m; match se with [se] => match e_sc se with Some v => rem (Some (match sc' with Some x => fmul x v | None => v end)) | None => None end | _ => None end)
          by (destruct m as [[|? [|]]|]; reflexivity).
        eapply simL_bind; [exact Hm|]. intros s1 a b E1 Hab. pose proof (mono s s1 _ _ E1 Hsc) as Hsc1.
        inversion Hab as [|se se' ? ? Hse [|]]; subst; [apply simL_fail| |apply simL_fail].
        destruct Hse as [_ Hse]. change (he_sc se) with (snd se). change (e_sc se') with (snd se').
        destruct (snd se), (snd se'); cbn in Hse; try contradiction; [|apply simL_fail].
        eapply simL_pure. { eapply scale_sim with (g := fun sc => fmul sc c); [exact Hse|exact Hsc1|]. auto with sim. }
        intros s2 a2 E2 H2. apply Hrem; [eapply ext_trans; eassumption|exact H2]. }
      destruct (negb lc).
      + apply (G _ (c_eval_prepare F M one r) _ (eval_prepare r')).
        * apply (IHl s l' None None); [assumption|assumption|exact I].
        * intros s' i x E Hi. lift. now apply IHr.
      + apply (G _ (c_eval_prepare F M one l) _ (eval_prepare l')).
        * apply (IHr s r' None None); [assumption|assumption|exact I].
        * intros s' i x E Hi. lift. now apply IHl.
  Qed.
  Hint Resolve prepare_sim : sim.

  Definition reval : rel F M St (nat * option nat) (M * option F * list string) := fun s a b => rp s (fst a) (fst (fst b)) /\ orel rs s (snd a) (snd (fst b)).
  Global Instance Mono_reval : Mono reval.
  Proof. intros s s' a b E [H1 H2]. split; [exact (mono s s' _ _ E H1)|exact (mono s s' _ _ E H2)]. Qed.
  Lemma eval_sim one (s : cst) t t' : rs s one f1 -> rsch s t t' -> simL s (c_eval F M one t) (eval t') reval.
  Proof.
    intros H1 H. unfold c_eval, eval.
    match goal with |- simL _ _ ?o _ => set (o0 := o) end.
    replace o0 with
      (do points <- eval_prepare t' None;
       do s <- (match find (fun b => String.eqb (e_key b) "") points with
               | None => Some None
               | Some b => match e_sc b with Some v => Some (Some v) | None => None end
               end);
       do acc <- multi_exp (map fst (flat_map (fun b => match e_pt b, e_sc b with Some p, Some v => [(p, v)] | _, _ => [] end) points))
                           (map snd (flat_map (fun b => match e_pt b, e_sc b with Some p, Some v => [(p, v)] | _, _ => [] end) points));
       Some (fold_left madd (flat_map (fun b => match e_sc b, e_pt b with None, Some p => [p] | _, _ => [] end) points) acc, s, map e_key points)).
    2: { subst o0. destruct (eval_prepare t' None); reflexivity. }
    clear o0.
    eapply simL_bind; [apply (prepare_sim one t s t' None None); [assumption|assumption|exact I]|nxt s0 pts pts' H0].
    eapply simL_bind with (R1 := orel rs).
    { apply simL_lift. clear -H0. induction H0 as [|e e' l l' He _ IH]; cbn; [exact I|].
      rewrite (rentry_key _ _ _ He). destruct (String.eqb (e_key e') ""); [|exact IH].
      destruct He as [_ He]. change (he_sc e) with (snd e). change (e_sc e') with (snd e').
      destruct (snd e), (snd e'); cbn in *; try contradiction; auto. }
    nxt s1 sc sc' H2.
    assert (HP : rlist (rpair rp rs) s1 (flat_map (fun b => match he_pt b, he_sc b with Some p, Some v => [(p, v)] | _, _ => [] end) pts)
                       (flat_map (fun b => match e_pt b, e_sc b with Some p, Some v => [(p, v)] | _, _ => [] end) pts')).
    { eapply rl_flat_map; [exact H0|]. intros e e' [[_ K2] K3]. change (he_pt e) with (snd (fst e)). change (he_sc e) with (snd e).
      change (e_pt e') with (snd (fst e')). change (e_sc e') with (snd e').
      destruct (snd (fst e)), (snd (fst e')); cbn in K2; try contradiction; [|constructor].
      destruct (snd e), (snd e'); cbn in K3; try contradiction; constructor; [now split|constructor]. }
    assert (HW : rlist rp s1 (flat_map (fun b => match he_sc b, he_pt b with None, Some p => [p] | _, _ => [] end) pts)
                       (flat_map (fun b => match e_sc b, e_pt b with None, Some p => [p] | _, _ => [] end) pts')).
    { eapply rl_flat_map; [exact H0|]. intros e e' [[_ K2] K3]. change (he_pt e) with (snd (fst e)). change (he_sc e) with (snd e).
      change (e_pt e') with (snd (fst e')). change (e_sc e') with (snd e').
      destruct (snd e), (snd e'); cbn in K3; try contradiction; [constructor|].
      destruct (snd (fst e)), (snd (fst e')); cbn in K2; try contradiction; constructor; [exact K2|constructor]. }
    eapply simL_bind. { apply emit_multiexp; (eapply rl_map; [exact HP|]); [intros x y [K _]; exact K|intros x y [_ K]; exact K]. }
    nxt s2 acc acc' H3.
    eapply simL_pure. { eapply simL_foldS with (R1 := rp) (R2 := rp) (g := @madd F M); [auto with sim|exact HW|exact H3|]. intros; lift. now apply emit_padd. }
    nextP. apply simL_ret. split; assumption.
  Qed.
  Hint Resolve eval_sim : sim.

  (** ** Queries and arguments *)
  Ltac mono_tac := intros s s' a b E H; hnf in H; hnf;
    repeat match goal with H : _ /\ _ |- _ => destruct H end;
    repeat split; auto; match goal with H : ?R s ?x ?y |- ?R s' ?x ?y => exact (mono (R := R) s s' _ _ E H) end.
  Definition rqu : rel F M St hquery (query F M) := fun s h q =>
    rs s (hqu_point h) (q_point q) /\ hqu_rotation h = q_rotation q /\ rsch s (hqu_s h) (q_s q).
  Global Instance Mono_rqu : Mono rqu.
  Proof. mono_tac. Qed.
  Definition rset : rel F M St hset (perm_set F M) := fun s h p =>
    rp s (hs_commitment h) (ps_commitment p) /\ rs s (hs_eval h) (ps_eval p) /\ rs s (hs_next_eval h) (ps_next_eval p) /\ orel rs s (hs_last_eval h) (ps_last_eval p).
  Global Instance Mono_rset : Mono rset.
  Proof. mono_tac. Qed.
  Definition rperm : rel F M St hperm (perm_evaluated F M) := fun s h p =>
    hpe_key h = pe_key p /\ hpe_blinding_factors h = pe_blinding_factors p /\ rs s (hpe_x h) (pe_x p) /\
    rlist rset s (hpe_sets h) (pe_sets p) /\ rlist rs s (hpe_evals h) (pe_evals p) /\ hpe_chunk_len h = pe_chunk_len p.
  Global Instance Mono_rperm : Mono rperm.
  Proof. mono_tac. Qed.
  Definition rlook : rel F M St hlookup (lookup_evaluated F M) := fun s h p =>
    hle_key h = le_key p /\ rlist rexpr s (hle_input h) (le_input p) /\ rlist rexpr s (hle_table h) (le_table p) /\
    rp s (hle_permuted_input_commitment h) (le_permuted_input_commitment p) /\ rp s (hle_permuted_table_commitment h) (le_permuted_table_commitment p) /\
    rp s (hle_product_commitment h) (le_product_commitment p) /\ rs s (hle_product_eval h) (le_product_eval p) /\
    rs s (hle_product_next_eval h) (le_product_next_eval p) /\ rs s (hle_permuted_input_eval h) (le_permuted_input_eval p) /\
    rs s (hle_permuted_input_inv_eval h) (le_permuted_input_inv_eval p) /\ rs s (hle_permuted_table_eval h) (le_permuted_table_eval p).
  Global Instance Mono_rlook : Mono rlook.
  Proof. mono_tac. Qed.
  Lemma rqu_new s rot key pt c e pt' c' e' : rs s pt pt' -> rp s c c' -> rs s e e' -> rqu s (h_query_new rot key pt c e) (query_new rot key pt' c' e').
  Proof.
    intros H H' H''. split; [exact H|]. split; [reflexivity|]. apply rsch_add; constructor; (split; [reflexivity|split; assumption]).
  Qed.
  Hint Resolve rqu_new : sim.
  Lemma common_queries_sim s key cs es x cs' es' x' : rlist rp s cs cs' -> rlist rs s es es' -> rs s x x' ->
    rlist rqu s (h_perm_common_queries key cs es x) (perm_common_queries key cs' es' x').
  Proof.
    intros. unfold h_perm_common_queries, perm_common_queries. eapply rl_map; [apply rl_enumerate, rl_combine; eassumption|].
    intros [i [c e]] [i' [c' e']] [Hi [Hc He]]. unfold req in *. cbn in *. subst. now apply rqu_new.
  Qed.
  Hint Resolve common_queries_sim : sim.
  Lemma perm_step_sim s be ga de be' ga' de' st st' ep ep' :
    rs s be be' -> rs s ga ga' -> rs s de de' -> rpair (rpair rs rs) rs s st st' -> rpair rs rs s ep ep' ->
    simL s (c_perm_step F M be ga de st ep) (perm_step be' ga' de' st' ep') (rpair (rpair rs rs) rs).
  Proof.
    destruct st as [[l r] d], st' as [[l' r'] d'], ep as [e p], ep' as [e' p'].
    intros H1 H2 H3 [[H4 H5] H6] [H7 H8]. cbn in H4, H5, H6, H7, H8. unfold c_perm_step, perm_step.
    eapply simL_bind; [apply ast_sim; auto with sim|next].
    eapply simL_bind; [apply ast_sim; auto with sim|next].
    eapply simL_bind; [apply ast_sim; auto with sim|next].
    eapply simL_bind; [apply ast_sim; auto with sim|next].
    apply simL_ret. repeat split; assumption.
  Qed.
  Lemma perm_chunk_sim s cl de be ga one t0 t1 de' be' ga' one' t0' t1' c c' :
    rs s de de' -> rs s be be' -> rs s ga ga' -> rs s one one' -> rs s t0 t0' -> rs s t1 t1' ->
    rpair req (rpair (rpair rset (rlist rs)) (rlist rs)) s c c' ->
    simL s (c_perm_chunk F M cl de be ga one t0 t1 c) (perm_chunk cl de' be' ga' one' t0' t1' c') rs.
  Proof.
    destruct c as [i [[set es] ps]], c' as [i' [[set' es'] ps']].
    intros H1 H2 H3 H4 H5 H6 [Hi [[(K1 & K2 & K3 & K4) Hes] Hps]]. cbn in Hi, Hes, Hps, K1, K2, K3, K4. unfold req in Hi. subst i'.
    unfold c_perm_chunk, perm_chunk.
    eapply simL_bind with (R1 := rs). { destruct (Nat.eqb i 0); auto with sim. }
    next. eapply simL_bind; [apply ast_sim; auto with sim|next].
    eapply simL_bind with (R1 := rpair (rpair rs rs) rs).
    { eapply simL_fold with (R1 := rpair rs rs); [apply _|apply rl_combine; eassumption|repeat split; assumption|].
      intros s' x y ep ep' E Hxy Hep. lift. now apply perm_step_sim. }
    intros s' [[x y] z] [[x' y'] z'] E [[X1 X2] X3]. cbn in X1, X2. lift. apply ast_sim. auto with sim.
  Qed.
  Lemma perm_expressions_sim s pe pe' pev pev' l0 ll lb de be ga x one l0' ll' lb' de' be' ga' x' one' :
    rperm s pe pe' -> rlist rs s pev pev' -> rs s l0 l0' -> rs s ll ll' -> rs s lb lb' -> rs s de de' -> rs s be be' -> rs s ga ga' ->
    rs s x x' -> rs s one one' ->
    simL s (c_perm_expressions F M pe pev l0 ll lb de be ga x one) (perm_expressions pe' pev' l0' ll' lb' de' be' ga' x' one') (rlist rs).
  Proof.
    intros (K1 & K2 & K3 & K4 & K5 & K6) H2 H3 H4 H5 H6 H7 H8 H9 H10. unfold c_perm_expressions, perm_expressions.
    eapply simL_bind with (R1 := rlist rs).
    { inversion K4 as [|a b la lb0 Hab]; subst; [auto with sim|]. destruct Hab as (J1 & J2 & J3 & J4).
      eapply simL_bind; [apply ast_sim; auto with sim|next]. auto with sim. }
    next. eapply simL_bind with (R1 := rlist rs).
    { pose proof (rl_rev _ _ _ _ _ _ _ K4) as K4'. destruct K4' as [|a0 b0 la lb0 Hab]; [auto with sim|]. destruct Hab as (J1 & J2 & J3 & J4).
      eapply simL_bind; [apply ast_sim; auto with sim|next]. auto with sim. }
    next. eapply simL_bind with (R1 := rlist rs).
    { eapply simL_map with (R1 := rpair rset rset); [apply _|apply _|apply rl_combine; auto with sim; eassumption|].
      intros s' [u v] [u' v'] E [Hu Hv]. cbn [fst snd] in Hu, Hv. lift. destruct Hu as (J1 & J2 & J3 & J4), Hv as (I1 & I2 & I3 & I4).
      eapply simL_bind; [apply simL_lift; eassumption|next]. apply ast_sim; auto with sim. }
    next. eapply simL_bind; [apply ast_sim; auto with sim|next].
    eapply simL_bind; [apply ast_sim; auto with sim|next].
    rewrite K6. destruct (Nat.eqb (pe_chunk_len pe') 0); [apply simL_fail|].
    eapply simL_bind with (R1 := rlist rs).
    { eapply simL_map with (R1 := rpair req (rpair (rpair rset (rlist rs)) (rlist rs))); [apply _|apply _|apply rl_enumerate, rl_combine; [apply rl_combine|]; auto with sim; eassumption|].
      intros s' u u' E Hu. lift. now apply perm_chunk_sim. }
    next. apply simL_ret. auto 10 with sim.
  Qed.
  Hint Resolve perm_expressions_sim : sim.
  Lemma perm_queries_sim s pe pe' xn xl xn' xl' : rperm s pe pe' -> rs s xn xn' -> rs s xl xl' ->
    orel (rlist rqu) s (h_perm_queries pe xn xl) (perm_queries pe' xn' xl').
  Proof.
    intros (K1 & K2 & K3 & K4 & K5 & K6) H H'. unfold h_perm_queries, perm_queries. rewrite K1, K2.
    eapply orel_bind.
    - eapply rl_mapM; [apply rl_skipn, rl_rev, rl_enumerate; exact K4|]. intros [i a] [i' b] [Hi (J1 & J2 & J3 & J4)]. unfold req in Hi. cbn in *. subst.
      eapply orel_bind; [exact J4|]. intros e e' He. cbn. now apply rqu_new.
    - intros a b Hab. cbn. apply rl_app; [|exact Hab]. eapply rl_flat_map; [apply rl_enumerate; exact K4|].
      intros [i x] [i' y] [Hi (J1 & J2 & J3 & J4)]. unfold req in Hi. cbn in *. subst. auto with sim.
  Qed.
  Lemma lookup_expressions_sim s le le' fx ins ad ch l0 ll lb th be ga z one fx' ins' ad' ch' l0' ll' lb' th' be' ga' z' one' :
    rlook s le le' -> rlist rs s fx fx' -> rlist rs s ins ins' -> rlist rs s ad ad' -> rlist rs s ch ch' ->
    rs s l0 l0' -> rs s ll ll' -> rs s lb lb' -> rs s th th' -> rs s be be' -> rs s ga ga' -> rs s z z' -> rs s one one' ->
    simL s (c_lookup_expressions F M le fx ins ad ch l0 ll lb th be ga z one)
      (lookup_expressions le' fx' ins' ad' ch' l0' ll' lb' th' be' ga' z' one') (rlist rs).
  Proof.
    intros (K1 & K2 & K3 & K4 & K5 & K6 & K7 & K8 & K9 & K10 & K11) H1 H2 H3 H4 H5 H6 H7 H8 H9 H10 H11 H12.
    unfold c_lookup_expressions, lookup_expressions. cbv zeta.
    eapply simL_bind; [apply ast_sim; auto 10 with sim|next].
    eapply simL_bind. { eapply simL_map with (R1 := rexpr) (R2 := rs); [apply _|apply _|eassumption|]. intros; lift. now apply evaluate_sim. }
    next. eapply simL_pure; [apply accumulate_sim; eassumption|nextP].
    eapply simL_bind. { eapply simL_map with (R1 := rexpr) (R2 := rs); [apply _|apply _|eassumption|]. intros; lift. now apply evaluate_sim. }
    next. eapply simL_pure; [apply accumulate_sim; eassumption|nextP].
    eapply simL_bind; [apply ast_sim; auto 10 with sim|next].
    eapply simL_bind; [apply ast_sim; auto 10 with sim|next].
    eapply simL_bind; [apply ast_sim; auto 10 with sim|next].
    eapply simL_bind; [apply ast_sim; auto 10 with sim|next].
    eapply simL_bind; [apply ast_sim; auto 10 with sim|next].
    eapply simL_bind; [apply ast_sim; auto 10 with sim|next].
    eapply simL_bind; [apply ast_sim; auto 10 with sim|next].
    apply simL_ret. auto 10 with sim.
  Qed.
  Lemma lookup_queries_sim s le le' x xi xn x' xi' xn' : rlook s le le' -> rs s x x' -> rs s xi xi' -> rs s xn xn' ->
    rlist rqu s (h_lookup_queries le x xi xn) (lookup_queries le' x' xi' xn').
  Proof.
    intros (K1 & K2 & K3 & K4 & K5 & K6 & K7 & K8 & K9 & K10 & K11) H1 H2 H3. unfold h_lookup_queries, lookup_queries. rewrite K1. auto 10 with sim.
  Qed.
  Hint Resolve lookup_expressions_sim lookup_queries_sim : sim.
  Lemma vanish_sim s ex y xn rc re hc one key x ex' y' xn' rc' re' hc' one' x' :
    rlist rs s ex ex' -> rs s y y' -> rs s xn xn' -> rp s rc rc' -> rs s re re' -> rlist rp s hc hc' -> rs s one one' -> rs s x x' ->
    simL s (c_vanish_queries F M ex y xn rc re hc one key x) (vanish_queries ex' y' xn' rc' re' hc' one' key x') (rlist rqu).
  Proof.
    intros. unfold c_vanish_queries, vanish_queries.
    eapply simL_pure; [apply accumulate_sim; eassumption|nextP].
    eapply simL_bind; [apply ast_sim; auto 10 with sim|next].
    eapply simL_bind with (R1 := rsch).
    { apply simL_lift. eapply rl_reduce.
      - eapply rl_map; [apply rl_enumerate, rl_rev; eassumption|]. intros [i c] [i' c'] [Hi Hc]. unfold req in Hi. cbn in *. subst. now apply rsch_commit.
      - intros. auto with sim. }
    next. apply simL_ret. repeat (apply rl_cons || apply rl_nil); [|auto with sim]. split; [assumption|]. split; [reflexivity|]. cbn. auto with sim.
  Qed.
  Hint Resolve vanish_sim : sim.

  (** ** Queries of one proof *)
  Record rparams (s : cst) (h : hparams F) (p : params F M) : Prop := mkRP {
    rpp_key : hp_key F h = p_key p;
    rpp_gates : rlist (rlist rexpr) s (hp_gates F h) (p_gates p);
    rpp_l : hp_l F h = p_l p;
    rpp_lookup : rlist (rlist rlook) s (hp_lookup F h) (p_lookup p);
    rpp_permutation : rlist rperm s (hp_permutation F h) (p_permutation p);
    rpp_instance_commitments : rlist (rlist rp) s (hp_instance_commitments F h) (p_instance_commitments p);
    rpp_instance_evals : rlist (rlist rs) s (hp_instance_evals F h) (p_instance_evals p);
    rpp_instance_queries : hp_instance_queries F h = p_instance_queries p;
    rpp_challenges : rlist rs s (hp_challenges F h) (p_challenges p);
    rpp_advice_commitments : rlist (rlist rp) s (hp_advice_commitments F h) (p_advice_commitments p);
    rpp_advice_evals : rlist (rlist rs) s (hp_advice_evals F h) (p_advice_evals p);
    rpp_advice_queries : hp_advice_queries F h = p_advice_queries p;
    rpp_fixed_commitments : rlist rp s (hp_fixed_commitments F h) (p_fixed_commitments p);
    rpp_fixed_evals : rlist rs s (hp_fixed_evals F h) (p_fixed_evals p);
    rpp_fixed_queries : hp_fixed_queries F h = p_fixed_queries p;
    rpp_permutation_commitments : rlist rp s (hp_permutation_commitments F h) (p_permutation_commitments p);
    rpp_permutation_evals : rlist rs s (hp_permutation_evals F h) (p_permutation_evals p);
    rpp_vanish_commitments : rlist rp s (hp_vanish_commitments F h) (p_vanish_commitments p);
    rpp_random_commitment : rp s (hp_random_commitment F h) (p_random_commitment p);
    rpp_w : rlist rp s (hp_w F h) (p_w p);
    rpp_random_eval : rs s (hp_random_eval F h) (p_random_eval p);
    rpp_beta : rs s (hp_beta F h) (p_beta p);
    rpp_gamma : rs s (hp_gamma F h) (p_gamma p);
    rpp_theta : rs s (hp_theta F h) (p_theta p);
    rpp_delta : rs s (hp_delta F h) (p_delta p);
    rpp_x : rs s (hp_x F h) (p_x p);
    rpp_x_next : rs s (hp_x_next F h) (p_x_next p);
    rpp_x_last : rs s (hp_x_last F h) (p_x_last p);
    rpp_x_inv : rs s (hp_x_inv F h) (p_x_inv p);
    rpp_xn : rs s (hp_xn F h) (p_xn p);
    rpp_y : rs s (hp_y F h) (p_y p);
    rpp_u : rs s (hp_u F h) (p_u p);
    rpp_v : rs s (hp_v F h) (p_v p);
    rpp_omega : rs s (hp_omega F h) (p_omega p);
    rpp_zero : rs s (hp_zero F h) (p_zero p);
    rpp_one : rs s (hp_one F h) (p_one p);
    rpp_n : rs s (hp_n F h) (p_n p);
    rpp_omega_value : hp_omega_value F h = p_omega p }.
  Global Instance Mono_rparams : Mono rparams.
  Proof.
    intros s s' h p E H. destruct H. constructor; try assumption;
      match goal with H : ?R s ?x ?y |- ?R s' ?x ?y => exact (mono (R := R) s s' _ _ E H) end.
  Qed.
  Hint Resolve rpp_gates rpp_lookup rpp_permutation rpp_instance_commitments rpp_instance_evals rpp_challenges rpp_advice_commitments
    rpp_advice_evals rpp_fixed_commitments rpp_fixed_evals rpp_permutation_commitments rpp_permutation_evals rpp_vanish_commitments
    rpp_random_commitment rpp_w rpp_random_eval rpp_beta rpp_gamma rpp_theta rpp_delta rpp_x rpp_x_next rpp_x_last rpp_x_inv rpp_xn
    rpp_y rpp_u rpp_v rpp_omega rpp_zero rpp_one rpp_n : sim.

  Lemma rotate_sim s x x' om at_ : rs s x x' -> simL s (c_rotate_omega F M x om at_) (rotate_omega x' om at_) rs.
  Proof.
    intro H. unfold c_rotate_omega, rotate_omega.
    eapply simL_bind with (R1 := req).
    { apply simL_lift. destruct (Z.ltb at_ 0); [destruct (feq_dec om f0)|]; cbn; reflexivity. }
    next. unfold req in *. subst. apply emit_sum. repeat constructor. assumption.
  Qed.
  Hint Resolve rotate_sim : sim.
  Lemma column_sim s h p suffix qs cs es cs' es' : rparams s h p -> rlist rp s cs cs' -> rlist rs s es es' ->
    simL s (c_column_queries F M h suffix qs cs es) (column_queries p suffix qs cs' es') (rlist rqu).
  Proof.
    intros Hp Hc He. unfold c_column_queries, column_queries. eapply simL_map with (R1 := req); [apply _|apply _|apply rl_refl|].
    intros s' [i [c at_]] b E Hb. unfold req in Hb. subst b. lift. rewrite (rpp_omega_value _ _ _ Hp), (rpp_key _ _ _ Hp).
    eapply simL_bind; [apply rotate_sim; eapply rpp_x; eassumption|next].
    eapply simL_bind; [apply simL_lift, rl_nth; eassumption|next].
    eapply simL_bind; [apply simL_lift, rl_nth; eassumption|next].
    apply simL_ret. now apply rqu_new.
  Qed.
  Hint Resolve column_sim : sim.
  Lemma proof_expressions_sim s h p l0 ll lb l0' ll' lb' k : rparams s h p -> rs s l0 l0' -> rs s ll ll' -> rs s lb lb' ->
    simL s (c_proof_expressions F M h l0 ll lb k) (proof_expressions p l0' ll' lb' k) (rlist rs).
  Proof.
    intros Hp H1 H2 H3. unfold c_proof_expressions, proof_expressions.
    eapply simL_bind; [apply simL_lift, rl_nth; eapply rpp_advice_evals; eassumption|next].
    eapply simL_bind; [apply simL_lift, rl_nth; eapply rpp_instance_evals; eassumption|next].
    eapply simL_bind; [apply simL_lift, rl_nth; eapply rpp_permutation; eassumption|next].
    eapply simL_bind; [apply simL_lift, rl_nth; eapply rpp_lookup; eassumption|next].
    eapply simL_bind.
    { eapply simL_map with (R1 := rexpr) (R2 := rs); [apply _|apply _|apply rl_concat; eapply rpp_gates; eassumption|].
      intros; lift. apply evaluate_sim; eauto with sim. }
    next. eapply simL_bind; [apply perm_expressions_sim; eauto with sim|next].
    eapply simL_bind.
    { eapply simL_map with (R1 := rlook) (R2 := rlist rs); [apply _|apply _|eassumption|].
      intros; lift. apply lookup_expressions_sim; eauto with sim. }
    next. apply simL_ret. auto with sim.
  Qed.
  Lemma proof_queries_sim s h p k : rparams s h p -> simL s (c_proof_queries F M h k) (proof_queries p k) (rlist rqu).
  Proof.
    intros Hp. unfold c_proof_queries, proof_queries.
    rewrite (rpp_instance_queries _ _ _ Hp), (rpp_advice_queries _ _ _ Hp).
    eapply simL_bind; [apply simL_lift, rl_nth; eapply rpp_instance_commitments; eassumption|next].
    eapply simL_bind; [apply simL_lift, rl_nth; eapply rpp_instance_evals; eassumption|next].
    eapply simL_bind; [apply simL_lift, rl_nth; eapply rpp_advice_commitments; eassumption|next].
    eapply simL_bind; [apply simL_lift, rl_nth; eapply rpp_advice_evals; eassumption|next].
    eapply simL_bind; [apply simL_lift, rl_nth; eapply rpp_permutation; eassumption|next].
    eapply simL_bind; [apply simL_lift, rl_nth; eapply rpp_lookup; eassumption|next].
    eapply simL_bind; [apply column_sim; eassumption|next].
    eapply simL_bind; [apply column_sim; eassumption|next].
    eapply simL_bind; [apply simL_lift, perm_queries_sim; eauto with sim|next].
    apply simL_ret. repeat (apply rl_app; [assumption|]). eapply rl_flat_map; [eassumption|].
    intros. apply lookup_queries_sim; eauto with sim.
  Qed.
  Lemma queries_sim s h p : rparams s h p -> simL s (c_queries F M h) (queries p) (rlist rqu).
  Proof.
    intros Hp. unfold c_queries, queries.
    rewrite (rpp_l _ _ _ Hp), (rpp_key _ _ _ Hp), (rpp_fixed_queries _ _ _ Hp).
    rewrite (rl_length _ _ _ _ _ _ _ (rpp_advice_evals _ _ _ Hp)), (rl_length _ _ _ _ _ _ _ (rpp_instance_commitments _ _ _ Hp)).
    eapply simL_bind; [apply lagrange_sim; eauto with sim|next].
    eapply simL_bind; [apply simL_lift, rl_nth; eassumption|next].
    eapply simL_bind; [apply simL_lift, rl_nth; eassumption|next].
    destruct (Nat.eqb (p_l p) 0); [apply simL_fail|].
    eapply simL_pure; [apply sum_sim, rl_firstn, rl_skipn; eassumption|nextP].
    eapply simL_bind.
    { eapply simL_map with (R1 := req) (R2 := rlist rs); [apply _|apply _|apply rl_refl|]. intros s' k k' E Hk. unfold req in Hk. subst k'. lift.
      now apply proof_expressions_sim. }
    next. eapply simL_bind.
    { eapply simL_map with (R1 := req) (R2 := rlist rqu); [apply _|apply _|apply rl_refl|]. intros s' k k' E Hk. unfold req in Hk. subst k'. lift.
      now apply proof_queries_sim. }
    next. eapply simL_bind; [apply column_sim; eauto with sim|next].
    eapply simL_bind; [apply vanish_sim; eauto with sim|next].
    apply simL_ret. repeat apply rl_app; eauto with sim.
  Qed.

  (** ** Multiopen *)
  Notation rgroup := (rpair req (rpair rs (rlist rsch))).
  Lemma group_insert_sim s q q' : rqu s q q' -> forall g g', rlist rgroup s g g' -> rlist rgroup s (h_group_insert g q) (group_insert g' q').
  Proof.
    intros (K1 & K2 & K3) g g' H. induction H as [|[r [pt l]] [r' [pt' l']] g g' [Hr [Hpt Hl]] Hg IH]; cbn [h_group_insert group_insert].
    - apply rl_cons; [|apply rl_nil]. rewrite K2. repeat split; auto with sim. cbn. auto with sim.
    - unfold req in Hr. cbn in Hr, Hpt, Hl. subst r'. rewrite K2. destruct (Z.eqb r (q_rotation q')).
      + apply rl_cons; [|exact Hg]. repeat split; auto with sim. cbn. auto with sim.
      + apply rl_cons; [|exact IH]. now repeat split.
  Qed.
  Lemma point_schemas_sim s v v' w w' qs qs' : rs s v v' -> rlist rp s w w' -> rlist rqu s qs qs' ->
    orel (rlist (fun s h e => rs s (hep_point h) (ep_point e) /\ rsch s (hep_s h) (ep_s e) /\ rp s (hep_w h) (ep_w e))) s
      (h_get_point_schemas v w qs) (get_point_schemas v' w' qs').
  Proof.
    intros Hv Hw Hq. unfold h_get_point_schemas, get_point_schemas.
    assert (G : rlist rgroup s (h_group_queries qs) (group_queries qs')).
    { unfold h_group_queries, group_queries. eapply (rl_fold _ _ _ rqu (rlist rgroup)); [exact Hq| |apply rl_nil]. intros. now apply group_insert_sim. }
    rewrite (rl_length _ _ _ _ _ _ _ Hw), (rl_length _ _ _ _ _ _ _ G). destruct (Nat.eqb _ _); [|exact I].
    eapply rl_mapM; [apply rl_combine; eassumption|]. intros [[r [pt l]] x] [[r' [pt' l']] x'] [[Hr [Hpt Hl]] Hx]. cbn in Hr, Hpt, Hl, Hx.
    eapply orel_bind with (R := rsch).
    - apply rl_reduce; [auto with sim|]. intros. auto with sim.
    - intros. cbn. auto.
  Qed.
  Definition rmo : rel F M St hmultiopen (multiopen F M) := fun s h m => rsch s (hw_x h) (w_x m) /\ rsch s (hw_g h) (w_g m).
  Global Instance Mono_rmo : Mono rmo.
  Proof. mono_tac. Qed.
  Lemma batch_sim s key u v w qs u' v' w' qs' : rs s u u' -> rs s v v' -> rlist rp s w w' -> rlist rqu s qs qs' ->
    orel rmo s (h_batch_queries key u v w qs) (batch_queries key u' v' w' qs').
  Proof.
    intros Hu Hv Hw Hq. unfold h_batch_queries, batch_queries. eapply orel_bind; [eapply point_schemas_sim; eassumption|].
    intros a b Hab. cbn. eapply (rl_fold _ _ _ _ (orel rmo)); [apply rl_rev, rl_enumerate; exact Hab| |exact I].
    intros a0 b0 [i e] [i' e'] H0 [Hi (J1 & J2 & J3)]. unfold req in Hi. cbn in Hi, J1, J2, J3. subst i'.
    unfold h_batch_step, batch_step.
    assert (W : rsch s (HSCommitment (mkHQ (key ++ "_w" ++ fmt_nat i) (Some (hep_w e)) None)) (SCommitment (mkCQ (key ++ "_w" ++ fmt_nat i) (Some (ep_w e')) None))) by now apply rsch_commit.
    destruct a0 as [a0|], b0 as [b0|]; cbn in H0; try contradiction; cbn; [destruct H0|]; split; cbn; auto 10 with sim.
  Qed.
  Lemma batch_multi_open_sim s h p : rparams s h p -> simL s (c_batch_multi_open_proofs F M h) (batch_multi_open_proofs p) rmo.
  Proof.
    intro Hp. unfold c_batch_multi_open_proofs, batch_multi_open_proofs. eapply simL_bind; [apply queries_sim; eassumption|next].
    apply simL_lift. rewrite (rpp_key _ _ _ Hp). apply batch_sim; eauto with sim.
  Qed.
  Hint Resolve batch_multi_open_sim : sim.

  (** ** The reader *)
  Notation read_point := (read_point F M PT pt_decode St upd_pt).
  Notation read_scalar := (read_scalar F SC sc_decode St upd_sc).
  Notation squeeze_scalar := (squeeze_scalar F St sqz).
  Lemma n_points_sim t s n : simT t s (c_load_n_points F M t n) (load_n_points F M PT pt_decode St upd_pt n) (rlist rp).
  Proof. apply simT_times; auto with sim. Qed.
  Hint Resolve n_points_sim : sim.
  Lemma nm_points_sim t s n m : simT t s (c_load_n_m_points F M t n m) (load_n_m_points F M PT pt_decode St upd_pt n m) (rlist (rlist rp)).
  Proof. apply simT_times; auto with sim. Qed.
  Lemma n_scalars_sim t s n : simT t s (c_load_n_scalars F M t n) (load_n_scalars F SC sc_decode St upd_sc n) (rlist rs).
  Proof. apply simT_times; auto with sim. Qed.
  Hint Resolve n_scalars_sim : sim.
  Lemma nm_scalars_sim t s n m : simT t s (c_load_n_m_scalars F M t n m) (load_n_m_scalars F SC sc_decode St upd_sc n m) (rlist (rlist rs)).
  Proof. apply simT_times; auto with sim. Qed.
  Hint Resolve nm_points_sim nm_scalars_sim : sim.
  Lemma squeeze_instance_sim t s i i' : rlist (rlist rp) s i i' -> simT t s (c_squeeze_instance_commitment F M t i) (squeeze_instance_commitment F M St upd_pt i') req.
  Proof.
    intro H. unfold c_squeeze_instance_commitment, squeeze_instance_commitment. eapply simT_bind with (R1 := rlist (rlist req)).
    - eapply simT_map with (R1 := rlist rp); [apply _|apply _|exact H|]. intros s' a b E Hab. lift.
      eapply simT_map with (R1 := rp); [apply _|apply _|exact Hab|]. intros. auto with sim.
    - next. apply simT_ret. reflexivity.
  Qed.
  Lemma convert_sim e : forall s, simL s (c_convert F M e) (Some e) rexpr.
  Proof.
    induction e; intro s; cbn [c_convert]; auto with sim.
    all: try (eapply simL_pure; [apply emit_const|nextP]; now auto with sim).
    all: eapply simL_pure; [eauto|nextP]; auto with sim.
    all: eapply simL_pure; [eauto with sim|nextP]; auto with sim.
  Qed.
  Lemma convert_list_sim l s : simL s (qmap (c_convert F M) l) (Some l) (rlist rexpr).
  Proof.
    rewrite <- (map_id l) at 2. eapply simL_mapS with (R1 := req) (g := fun e => e); [apply _|apply _|apply rl_refl|].
    intros s' a b _ H. unfold req in H. subst. apply convert_sim.
  Qed.
  Lemma pconst_list_sim l s : simL s (qmap (fun P => emit (CPConst P)) l) (Some l) (rlist rp).
  Proof.
    rewrite <- (map_id l) at 2. eapply simL_mapS with (R1 := req) (g := fun e => e); [apply _|apply _|apply rl_refl|].
    intros s' a b _ H. unfold req in H. subst. apply emit_pconst.
  Qed.
  Hint Resolve squeeze_instance_sim convert_list_sim pconst_list_sim : sim.
  Section Vk.
  Variable t : nat.
  Variable vk : vkey F M.
  Lemma read_phase_sim cur ph : forall s l l', rlist (orel rp) s l l' ->
    simT t s (c_read_phase F M t cur ph l) (read_phase F M PT pt_decode St upd_pt cur ph l') (rlist (orel rp)).
  Proof.
    induction ph as [|p ph IH]; intros s l l' H; inversion H as [|a b la lb Hab Hl]; subst; cbn [c_read_phase read_phase]; try (now apply simT_ret).
    change (rlist (orel rp) s la lb) in Hl. eapply simT_bind with (R1 := orel rp).
    - destruct (Nat.eqb cur p); [|now apply simT_ret]. bndT. now apply simT_ret.
    - next. eapply simT_bind; [apply IH; eassumption|next]. apply simT_ret. now constructor.
  Qed.
  Lemma squeeze_phase_sim cur ph : forall s l l', rlist rs s l l' ->
    simT t s (c_squeeze_phase F M t cur ph l) (squeeze_phase F St sqz cur ph l') (rlist rs).
  Proof.
    induction ph as [|p ph IH]; intros s l l' H; inversion H as [|a b la lb Hab Hl]; subst; cbn [c_squeeze_phase squeeze_phase]; try (now apply simT_ret).
    change (rlist rs s la lb) in Hl. eapply simT_bind with (R1 := rs).
    - destruct (Nat.eqb cur p); [|now apply simT_ret]. auto with sim.
    - next. eapply simT_bind; [apply IH; eassumption|next]. apply simT_ret. now constructor.
  Qed.
  Lemma read_phases_sim ph : forall s l l' c c', rlist (rlist (orel rp)) s l l' -> rlist rs s c c' ->
    simT t s (c_read_phases F M t vk ph l c) (read_phases F M PT pt_decode St upd_pt sqz vk ph l' c') (rpair (rlist (rlist (orel rp))) (rlist rs)).
  Proof.
    induction ph as [|p ph IH]; intros s l l' c c' H H'; cbn [c_read_phases read_phases].
    - apply simT_ret. now split.
    - eapply simT_bind with (R1 := rlist (rlist (orel rp))).
      { eapply simT_map with (R1 := rlist (orel rp)); [apply _|apply _|exact H|]. intros; lift. now apply read_phase_sim. }
      next. eapply simT_bind; [apply squeeze_phase_sim; eassumption|next]. now apply IH.
  Qed.
  Lemma read_advice_sim s n : simT t s (c_read_advice F M t vk n) (read_advice F M PT pt_decode St upd_pt sqz vk n) (rpair (rlist (rlist rp)) (rlist rs)).
  Proof.
    unfold c_read_advice, read_advice. eapply simT_pure; [apply emit_const|nextP].
    eapply simT_bind. { apply read_phases_sim; [apply rl_repeat, rl_repeat; exact I|apply rl_repeat; eassumption]. }
    intros s1 [a1 a2] [b1 b2] E [H1 H2]. cbn in H1, H2. lift. cbn [fst snd].
    eapply simT_bind with (R1 := rlist (rlist rp)).
    - apply simT_lift, simL_lift. eapply rl_mapM; [exact H1|]. intros l l' Hl. eapply rl_mapM; [exact Hl|]. intros x x' Hx. exact Hx.
    - next. apply simT_ret. now split.
  Qed.
  Lemma read_permuted_sim s n : simT t s (c_read_lookups_permuted F M t vk n) (read_lookups_permuted F M PT pt_decode St upd_pt vk n) (rlist (rlist (rpair rp rp))).
  Proof.
    apply simT_times; [apply _|]. intros s1 E1. apply simT_times; [apply _|]. intros s2 E2. bndT. bndT. apply simT_ret. now split.
  Qed.
  Lemma column_eval_sim (s : cst) a i f a' i' f' c : rlist rs s a a' -> rlist rs s i i' -> rlist rs s f f' ->
    orel rs s (h_column_eval F M vk a i f c) (column_eval F M vk a' i' f' c).
  Proof.
    intros. unfold h_column_eval, column_eval. destruct (fst c); (eapply orel_bind with (R := req); [destruct (query_index _ _); cbn; reflexivity|]);
      intros j k Hj; unfold req in Hj; subst; now apply rl_nth.
  Qed.
  Lemma read_sets_sim l : forall s l', rlist rp s l l' -> simT t s (c_read_sets F M t l) (read_sets F M SC sc_decode St upd_sc l') (rlist rset).
  Proof.
    induction l as [|c l IH]; intros s l' H; inversion H as [|a b la lb Hab Hl]; subst; cbn [c_read_sets read_sets]; [auto with sim|].
    change (rlist rp s l lb) in Hl. change (rp s c b) in Hab.
    eapply simT_bind; [apply emit_readscalar|next]. eapply simT_bind; [apply emit_readscalar|next].
    eapply simT_bind with (R1 := orel rs).
    { clear H. inversion Hl; subst; [apply simT_ret; exact I|]. bndT. now apply simT_ret. }
    next. eapply simT_bind; [apply IH; eassumption|next]. apply simT_ret. apply rl_cons; [|assumption]. repeat split; assumption.
  Qed.
  Lemma build_perm_sim s key x co ad ins fx x' co' ad' ins' fx' :
    rs s x x' -> rlist (rlist rp) s co co' -> rlist (rlist rs) s ad ad' -> rlist (rlist rs) s ins ins' -> rlist rs s fx fx' ->
    simT t s (c_build_permutation_evaluated F M t vk key x co ad ins fx)
      (build_permutation_evaluated F M SC sc_decode St upd_sc vk key x' co' ad' ins' fx') (rlist rperm).
  Proof.
    intros. unfold c_build_permutation_evaluated, build_permutation_evaluated.
    eapply simT_bind with (R1 := rlist (rlist rset)).
    { eapply simT_map with (R1 := rlist rp); [apply _|apply _|eassumption|]. intros. now apply read_sets_sim. }
    next. eapply simT_bind with (R1 := rlist (rlist rs)).
    { apply simT_lift, simL_lift. eapply rl_mapM; [apply rl_combine; eassumption|]. intros [u v] [u' v'] [Hu Hv]. cbn [fst snd] in *.
      eapply rl_mapM; [apply rl_refl|]. intros c c' Hc. unfold req in Hc. subst. now apply column_eval_sim. }
    next. apply simT_ret. unfold perm_keys_and_evals. eapply rl_map; [apply rl_enumerate, rl_combine; eassumption|].
    intros [i [u v]] [i' [u' v']] [Hi [Hu Hv]]. unfold req in Hi. cbn in Hi, Hu, Hv. subst. repeat split; assumption.
  Qed.
  Lemma read_lookup_sim s key i a a' : rpair req (rpair (rpair (rpair rp rp) rp) req) s a a' ->
    simT t s (c_read_lookup F M t key i a) (read_lookup F M SC sc_decode St upd_sc key i a') rlook.
  Proof.
    destruct a as [j [[[p1 p2] p3] [ie te]]], a' as [j' [[[p1' p2'] p3'] [ie' te']]]. intros [Hj [[[H1 H2] H3] He]]. unfold req in Hj, He. cbn in Hj, He, H1, H2, H3.
    injection He as He Ht. subst. unfold c_read_lookup, read_lookup.
    do 5 (eapply simT_bind; [apply emit_readscalar|next]).
    eapply simT_pure; [apply convert_list_sim|nextP]. eapply simT_pure; [apply convert_list_sim|nextP].
    apply simT_ret. repeat split; assumption.
  Qed.
  Lemma build_lookup_sim s key pe co pe' co' : rlist (rlist (rpair rp rp)) s pe pe' -> rlist (rlist rp) s co co' ->
    simT t s (c_build_lookup_evaluated F M t vk key pe co) (build_lookup_evaluated F M SC sc_decode St upd_sc vk key pe' co') (rlist (rlist rlook)).
  Proof.
    intros. unfold c_build_lookup_evaluated, build_lookup_evaluated.
    eapply simT_map with (R1 := rpair req (rpair (rlist (rpair rp rp)) (rlist rp))); [apply _|apply _|auto with sim|].
    intros s' [i [p c]] [i' [p' c']] E [Hi [Hp Hc]]. unfold req in Hi. cbn in Hi, Hp, Hc. subst i'. lift.
    eapply simT_map with (R1 := rpair req (rpair (rpair (rpair rp rp) rp) req)); [apply _|apply _|apply rl_enumerate, rl_combine; [apply rl_combine; assumption|apply rl_refl]|].
    intros. now apply read_lookup_sim.
  Qed.
  Lemma build_params_sim s nw key i i' : rlist (rlist rp) s i i' ->
    simT t s (c_build_params F M t vk nw key i)
      (build_params_with F M PT SC pt_decode sc_decode St upd_pt upd_sc sqz vk (load_n_points F M PT pt_decode St upd_pt nw) key i') rparams.
  Proof.
    intro Hi. unfold c_build_params, build_params_with. destruct (Nat.leb (vk_degree vk) 2); [apply simT_fail|].
    rewrite (rl_length _ _ _ _ _ _ _ Hi).
    eapply simT_pure; [apply emit_const|nextP].
    eapply simT_bind; [apply emit_commonscalar; eassumption|next].
    eapply simT_bind; [apply squeeze_instance_sim; eassumption|next].
    eapply simT_bind; [apply read_advice_sim|].
    intros s1 [ac ch] [ac' ch'] E [Hac Hch]. cbn in Hac, Hch. lift.
    eapply simT_bind; [apply emit_squeeze|next].
    eapply simT_bind; [apply read_permuted_sim|next].
    eapply simT_bind; [apply emit_squeeze|next].
    eapply simT_bind; [apply emit_squeeze|next].
    eapply simT_bind; [apply nm_points_sim|next].
    eapply simT_bind with (R1 := rlist (rlist rp)).
    { eapply simT_map with (R1 := rlist (rpair rp rp)); [apply _|apply _|eassumption|]. intros s2 l l' E Hl.
      eapply simT_map with (R1 := rpair rp rp); [apply _|apply _|eassumption|]. intros. apply emit_readpoint. }
    next. eapply simT_bind; [apply emit_readpoint|next].
    eapply simT_bind; [apply emit_squeeze|next].
    eapply simT_bind; [apply n_points_sim|next].
    eapply simT_bind; [apply emit_squeeze|next].
    eapply simT_bind; [apply nm_scalars_sim|next].
    eapply simT_bind; [apply nm_scalars_sim|next].
    eapply simT_bind; [apply n_scalars_sim|next].
    eapply simT_bind; [apply emit_readscalar|next].
    eapply simT_bind; [apply n_scalars_sim|next].
    eapply simT_bind; [apply build_perm_sim; eassumption|next].
    eapply simT_bind; [apply build_lookup_sim; eassumption|next].
    eapply simT_pure; [apply pconst_list_sim|nextP].
    eapply simT_bind; [apply emit_squeeze|next].
    eapply simT_bind; [apply n_points_sim|next].
    eapply simT_bind; [apply emit_squeeze|next].
    eapply simT_bind; [apply simT_lift, rotate_sim; eassumption|next].
    eapply simT_bind; [apply simT_lift, rotate_sim; eassumption|next].
    eapply simT_bind; [apply simT_lift, rotate_sim; eassumption|next].
    eapply simT_bind; [apply simT_lift, pow_sim; eassumption|next].
    eapply simT_pure with (v := vk_gates vk) (R1 := rlist (rlist rexpr)).
    { rewrite <- (map_id (vk_gates vk)) at 2. eapply simL_mapS with (R1 := req) (g := fun e => e); [apply _|apply _|apply rl_refl|].
      intros s' u u' _ Hu. unfold req in Hu. subst. apply convert_list_sim. }
    nextP. eapply simT_pure; [apply pconst_list_sim|nextP].
    eapply simT_pure; [apply emit_const|nextP].
    eapply simT_pure; [apply emit_const|nextP].
    eapply simT_pure; [apply emit_const|nextP].
    eapply simT_pure; [apply emit_const|nextP].
    eapply simT_pure; [apply emit_const|nextP].
    apply simT_ret. constructor; cbn; try reflexivity; assumption.
  Qed.
  Definition vsp_with (read_w : BuildParams.R St (list M)) (key : string) (instances : list (list M)) : BuildParams.R St (multiopen F M * list M) :=
    rbind (build_params_with F M PT SC pt_decode sc_decode St upd_pt upd_sc sqz vk read_w key instances) (fun p =>
    rbind (rlift (batch_multi_open_proofs p)) (fun proof =>
    rbind (rlift (nth_error (p_advice_commitments p) 0)) (fun c =>
    rret (proof, c)))).
  Lemma vsp_sim s nw key i i' : rlist (rlist rp) s i i' ->
    simT t s (c_verify_single_proof_no_eval F M t vk nw key i) (vsp_with (load_n_points F M PT pt_decode St upd_pt nw) key i') (rpair rmo (rlist rp)).
  Proof.
    intro Hi. unfold c_verify_single_proof_no_eval, vsp_with. eapply simT_bind; [apply build_params_sim; eassumption|next].
    eapply simT_bind; [apply simT_lift, batch_multi_open_sim; eassumption|next].
    eapply simT_bind; [apply simT_lift, simL_lift, rl_nth; eapply rpp_advice_commitments; eassumption|next].
    apply simT_ret. now split.
  Qed.
  End Vk.
End Proofs.
