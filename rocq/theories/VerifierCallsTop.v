(** The calls of VerifierCalls.v against the reader and the aggregation of BuildParams.v. *)
From Coq Require Import String ZArith NArith Arith List Bool Lia.
From Verif Require Import Util Algebra Schema Plonk BuildParams Calls VerifierCalls CallsSim VerifierCallsProofs ListFacts ReaderSpec ReaderProofs.
Import ListNotations.

Section Top.
  Variable F : Fld.
  Variable M : Mod F.
  Variables (PT SC : nat).
  Variable pt_decode : list Z -> option M.
  Variable sc_decode : list Z -> option F.
  Variable St : Type.
  Variable upd_pt : St -> M -> St.
  Variable upd_sc : St -> F -> St.
  Variable sqz : St -> option (F * St).
  Variable generator : M.
  Notation cst := (cst F M St).
  Notation Q := (Q F M).
  Notation sim := (sim F M PT SC pt_decode sc_decode St upd_pt upd_sc sqz generator).
  Notation simL := (simL F M PT SC pt_decode sc_decode St upd_pt upd_sc sqz generator).
  Notation simT := (simT F M PT SC pt_decode sc_decode St upd_pt upd_sc sqz generator).
  Notation X := (X F St).
  Notation xtr := (xtr F St).
  Notation xret := (xret F St).
  Notation xbind := (xbind F St).
  Notation xmap := (xmap F St).
  Notation xlift := (xlift F St).
  Notation read_point := (read_point F M PT pt_decode St upd_pt).
  Notation while_ := (load_points_while F M PT pt_decode St upd_pt).
  Notation load_n := (load_n_points F M PT pt_decode St upd_pt).
  Notation build := (build_params F M PT SC pt_decode sc_decode St upd_pt upd_sc sqz).
  Notation build_with := (build_params_with F M PT SC pt_decode sc_decode St upd_pt upd_sc sqz).
  Notation vsp_with := (vsp_with F M PT SC pt_decode sc_decode St upd_pt upd_sc sqz).
  Notation vsp := (verify_single_proof_no_eval F M PT SC pt_decode sc_decode St upd_pt upd_sc sqz).
  Notation rmo := (rmo F M St).

  Ltac next := let s := fresh "s" in let a := fresh "a" in let b := fresh "b" in let E := fresh "E" in let H := fresh "H" in
    intros s a b E H; cbn beta iota in *; lift.
  Ltac nextP := let s := fresh "s" in let a := fresh "a" in let E := fresh "E" in let H := fresh "H" in
    intros s a E H; cbn beta iota in *; lift.

  (** ** Instance commitments *)
  Lemma instance_commitment_sim s g l l' : rlist rs s l l' -> simL s (c_instance_commitment F M g l) (instance_commitment g l') rp.
  Proof.
    intro H. unfold c_instance_commitment, instance_commitment. eapply simL_bind with (R1 := orel rp).
    - eapply simL_fold with (R1 := rpair req rs); [apply _|apply rl_enumerate; exact H|exact I|].
      intros s' a0 b0 [i x] [i' x'] E H0 [Hi Hx]. unfold req in Hi. cbn in Hi, Hx. subst i'. lift. cbn [fst snd].
      eapply simL_bind with (R1 := req); [apply simL_lift; destruct (nth_error g i); reflexivity|].
      intros s2 g1 g2 E Hg. unfold req in Hg. subst g2. lift. cbv zeta.
      eapply simL_pure; [apply emit_pmulconst; eassumption|nextP].
      destruct a0 as [a0|], b0 as [b0|]; cbn in H0; try contradiction.
      + change (rp s a0 b0) in H0. eapply simL_pure; [apply emit_padd; eassumption|nextP]. now apply simL_ret.
      + now apply simL_ret.
    - intros s1 [a|] [b|] E Hab; cbn in Hab; try contradiction.
      + now apply emit_normalize.
      + apply emit_pconst.
  Qed.
  Definition x_take (shape : list (list nat)) : X (list (list (list F))) :=
    xmap (xmap (fun len => xmap (fun _ => xpop F St) (repeat tt len))) shape.
  Definition x_assign (cols n bl : nat) (g : list M) (shape : list (list nat)) : X (list F * list (list M)) :=
    if forallb (fun i => Nat.eqb (List.length i) cols) shape then
      if forallb (forallb (fun c => Nat.leb (bl + 1) n && Nat.leb c (n - (bl + 1)))) shape then
        xbind (x_take shape) (fun instances =>
        xbind (xlift (mapM (mapM (instance_commitment g)) instances)) (fun cs =>
        xret (concat (concat instances), cs)))
      else fun _ => None
    else fun _ => None.
  Lemma sim_none {A B} s (R : rel F M St A B) : sim s qfail (fun _ => None) R.
  Proof. reflexivity. Qed.
  Lemma assign_sim s cols n bl g shape : sim s (c_assign_instance_commitment F M cols n bl g shape) (x_assign cols n bl g shape) (rpair (rlist rs) (rlist (rlist rp))).
  Proof.
    unfold c_assign_instance_commitment, x_assign. destruct (forallb _ shape); [|apply sim_none]. destruct (forallb _ shape); [|apply sim_none].
    eapply sim_bind with (R1 := rlist (rlist (rlist rs))).
    { eapply sim_map with (R1 := req); [apply _|apply _|apply rl_refl|]. intros s1 a b _ Hab. unfold req in Hab. subst b.
      eapply sim_map with (R1 := req); [apply _|apply _|apply rl_refl|]. intros s2 a0 b0 _ Hab. unfold req in Hab. subst b0.
      eapply sim_map with (R1 := req); [apply _|apply _|apply rl_refl|]. intros. apply emit_instance. }
    next. eapply sim_bind with (R1 := rlist (rlist rp)).
    { change (simL s0 (qmap (qmap (c_instance_commitment F M g)) a) (mapM (mapM (instance_commitment g)) b) (rlist (rlist rp))).
      eapply simL_map with (R1 := rlist (rlist rs)); [apply _|apply _|eassumption|]. intros s1 a1 b1 _ H1.
      eapply simL_map with (R1 := rlist rs); [apply _|apply _|eassumption|]. intros s2 a2 b2 _ H2. now apply instance_commitment_sim. }
    next. apply sim_ret. split; [|assumption]. cbn. now apply rl_concat, rl_concat.
  Qed.
  (** ** Evaluation *)
  Lemma evaluate_multiopen_sim s m m' : rmo s m m' -> simL s (c_evaluate_multiopen_proof F M m) (evaluate_multiopen_proof generator m') (rpair rp rp).
  Proof.
    intros [H1 H2]. unfold c_evaluate_multiopen_proof, evaluate_multiopen_proof.
    eapply simL_pure; [apply emit_const|nextP].
    eapply simL_bind; [apply eval_sim; eassumption|]. intros s1 [e f] [[e1 f1] ?] E [Ha Hb]. cbn in Ha, Hb. lift.
    eapply simL_bind; [apply eval_sim; eassumption|]. intros s2 [c d] [[c' d'] ?] E [Hc Hd]. cbn in Hc, Hd. lift.
    eapply simL_pure; [apply emit_pone|]. intros s3 g E Hg. lift.
    eapply simL_pure with (R1 := rp) (v := match f1 with None => e1 | Some z => madd e1 (smul z generator) end).
    { destruct f as [f|], f1 as [f1|]; cbn in Hb; try contradiction; [|now apply simL_ret]. change (rs s3 f f1) in Hb.
      eapply simL_pure; [apply emit_pmul; eassumption|nextP]. now apply emit_padd. }
    intros s4 lf E Hl. lift.
    eapply simL_pure with (R1 := rp) (v := match d' with None => c' | Some e => msub c' (smul e generator) end).
    { destruct d as [d|], d' as [d'|]; cbn in Hd; try contradiction; [|now apply simL_ret]. change (rs s4 d d') in Hd.
      eapply simL_pure; [apply emit_pmul; eassumption|nextP]. now apply emit_psub. }
    intros s5 rg E Hr. lift. apply simL_ret. now split.
  Qed.
  Lemma aggregate_sim (s : cst) ch ch' l l' : rs s ch ch' -> rlist rmo s l l' -> orel rmo s (h_aggregate ch l) (aggregate ch' l').
  Proof.
    intros H H'. apply rl_reduce; [exact H'|]. intros a0 b0 a b [X1 X2] [Y1 Y2]. split; cbn; apply rsch_add; try assumption; apply rsch_mul; try assumption; now constructor.
  Qed.

  (** ** Aggregation on values *)
  Definition x_proof (c : hcircuit F M) (p : hproof) : X (list F * multiopen F M * list M) :=
    xbind (x_assign (hc_columns F M c) (N.to_nat (vk_n (hc_vk F M c))) (vk_blinding (hc_vk F M c)) (hc_g_lagrange F M c) (hpr_shape p)) (fun ic =>
    xbind (xtr (hpr_tr p) (vsp_with (hc_vk F M c) (load_n (hpr_nw p)) (hpr_key p) (snd ic))) (fun pc =>
    xret (fst ic, fst pc, snd pc))).
  Definition x_circuit (main : nat) (c : hcircuit F M) : X (list (list F * multiopen F M * list M)) :=
    xbind (xmap (x_proof c) (hc_proofs F M c)) (fun rs =>
    xbind (xmap (fun p => xbind (xtr (hpr_tr p) (squeeze_scalar F St sqz)) (fun s => xtr main (common_scalar F St upd_sc s))) (hc_proofs F M c)) (fun _ =>
    xret rs)).
  Definition x_top (main : nat) (cs : list (hcircuit F M)) : X (M * M * list F * list (list M)) :=
    xbind (xmap (x_circuit main) cs) (fun rs =>
    let rs := concat rs in
    xbind (xtr main (squeeze_scalar F St sqz)) (fun challenge =>
    xbind (xlift (aggregate challenge (map (fun r => snd (fst r)) rs))) (fun agg =>
    xbind (xlift (nth_error cs 0)) (fun _ =>
    xbind (xlift (evaluate_multiopen_proof generator agg)) (fun wp =>
    xret (fst wp, snd wp, concat (map (fun r => fst (fst r)) rs), map snd rs)))))).
  Notation ragg := (rpair (rpair (rlist rs) rmo) (rlist rp)).
  Notation ok_tr s c := (Forall (fun p => hpr_tr p < List.length (c_trs s)) (hc_proofs F M c)).
  Lemma ext_ok (s s' : cst) l : ext s s' -> Forall (fun p => hpr_tr p < List.length (c_trs s)) l -> Forall (fun p => hpr_tr p < List.length (c_trs s')) l.
  Proof. intros [_ E]. now rewrite E. Qed.
  Lemma proof_sim (s : cst) c p : hpr_tr p < List.length (c_trs s) -> sim s (c_aggregate_proof F M c p) (x_proof c p) ragg.
  Proof.
    intro L. unfold c_aggregate_proof, x_proof. eapply sim_bind; [apply assign_sim|].
    intros s1 [a b] [a' b'] E [H1 H2]. cbn in H1, H2. cbn [fst snd].
    assert (L1 : hpr_tr p < List.length (c_trs s1)) by (destruct E as [_ E]; lia). clear E L.
    eapply sim_bind; [exact (vsp_sim _ _ _ _ _ _ _ _ _ _ _ _ _ _ _ _ _ _ H2 L1)|].
    intros s2 [m d] [m' d'] E [H3 H4]. cbn in H3, H4. lift. apply sim_ret. split; [split|]; cbn; assumption.
  Qed.
  Lemma circuit_sim main (s : cst) c : main < List.length (c_trs s) -> ok_tr s c -> sim s (c_aggregate_circuit F M main c) (x_circuit main c) (rlist ragg).
  Proof.
    intros L O. unfold c_aggregate_circuit, x_circuit. eapply sim_bind.
    { assert (G : forall l (s : cst), Forall (fun p => hpr_tr p < List.length (c_trs s)) l ->
        sim s (qmap (c_aggregate_proof F M c) l) (xmap (x_proof c) l) (rlist ragg)).
      { induction l as [|p l IH]; intros s0 K; [apply sim_ret, rl_nil|]. inversion K as [|? ? K1 K2]; subst. cbn.
        eapply sim_bind; [apply proof_sim; exact K1|]. intros s1 a b E H. eapply sim_bind; [apply IH; exact (ext_ok _ _ _ E K2)|].
        intros s2 l1 l2 E2 H2. apply sim_ret. apply rl_cons; [|exact H2]. exact (mono s1 s2 _ _ E2 H). }
      apply G. exact O. }
    intros s1 a b E H. pose proof (ext_ok _ _ _ E O) as O1. assert (L1 : main < List.length (c_trs s1)) by (destruct E as [_ E]; lia). clear E L O.
    eapply sim_bind with (R1 := rlist req).
    { assert (G : forall l (s : cst), main < List.length (c_trs s) -> Forall (fun p => hpr_tr p < List.length (c_trs s)) l ->
        sim s (qmap (fun p => qbind (emit (CSqueeze (hpr_tr p))) (fun s => emit_ (CCommonScalar main s))) l)
              (xmap (fun p => xbind (xtr (hpr_tr p) (squeeze_scalar F St sqz)) (fun s => xtr main (common_scalar F St upd_sc s))) l) (rlist req)).
      { induction l as [|p l IH]; intros s0 L K; [apply sim_ret, rl_nil|]. inversion K as [|? ? K1 K2]; subst. cbn.
        eapply sim_bind with (R1 := req).
        - eapply sim_bind; [apply emit_squeeze; exact K1|]. intros s2 x y E Hxy. apply emit_commonscalar; [exact Hxy|]. destruct E as [_ E]. lia.
        - intros s2 u u' E Hu. eapply sim_bind; [apply IH; [destruct E as [_ E]; lia|exact (ext_ok _ _ _ E K2)]|].
          intros s3 l1 l2 E2 H2. apply sim_ret. now apply rl_cons. }
      apply G; assumption. }
    intros s2 u u' E _. lift. now apply sim_ret.
  Qed.
  Lemma top_sim main (s : cst) cs : main < List.length (c_trs s) -> Forall (fun c => ok_tr s c) cs ->
    sim s (c_verify_aggregation_proofs_in_chip F M main cs) (x_top main cs) (rpair (rpair (rpair rp rp) (rlist rs)) (rlist (rlist rp))).
  Proof.
    intros L O. unfold c_verify_aggregation_proofs_in_chip, x_top. eapply sim_bind with (R1 := rlist (rlist ragg)).
    { assert (G : forall l (s : cst), main < List.length (c_trs s) -> Forall (fun c => ok_tr s c) l ->
        sim s (qmap (c_aggregate_circuit F M main) l) (xmap (x_circuit main) l) (rlist (rlist ragg))).
      { induction l as [|c l IH]; intros s0 L0 K; [apply sim_ret, rl_nil|]. inversion K as [|? ? K1 K2]; subst. cbn.
        eapply sim_bind; [apply circuit_sim; assumption|]. intros s1 a b E H. eapply sim_bind.
        - apply IH; [destruct E as [_ E]; lia|]. clear - E K2. induction K2; constructor; [eapply ext_ok; eassumption|assumption].
        - intros s2 l1 l2 E2 H2. apply sim_ret. apply rl_cons; [|exact H2]. exact (mono s1 s2 _ _ E2 H). }
      apply G; assumption. }
    intros s1 a b E H. assert (L1 : main < List.length (c_trs s1)) by (destruct E as [_ E]; lia). clear E L O. cbv zeta.
    apply rl_concat in H. eapply sim_bind; [apply emit_squeeze; exact L1|next].
    eapply sim_bind; [apply (simL_lift F M PT SC pt_decode sc_decode St upd_pt upd_sc sqz generator)|].
    { eapply aggregate_sim; [eassumption|]. eapply rl_map; [exact H|]. intros x y [[_ K] _]. exact K. }
    next. eapply sim_bind with (R1 := req); [apply (simL_lift F M PT SC pt_decode sc_decode St upd_pt upd_sc sqz generator); destruct (nth_error cs 0); reflexivity|next].
    eapply sim_bind; [apply evaluate_multiopen_sim; eassumption|]. intros s5 [w1 w2] [w1' w2'] E [K1 K2]. cbn in K1, K2. lift.
    apply sim_ret. cbn [fst snd]. repeat split; cbn; try assumption.
    - apply rl_concat. eapply rl_map; [exact H|]. intros x y [[K _] _]. exact K.
    - eapply rl_map; [exact H|]. intros x y [_ K]. exact K.
  Qed.

  (** ** The number of opening points *)
  Lemma read_point_rest t t' : t_rest t = t_rest t' -> read_point t = None -> read_point t' = None.
  Proof.
    unfold BuildParams.read_point, rbind, read_decode. intros ->. destruct (Nat.leb PT (List.length (t_rest t'))); [|reflexivity].
    destruct (pt_decode _); [discriminate|reflexivity].
  Qed.
  Lemma read_point_less t P t' : 1 <= PT -> read_point t = Some (P, t') -> List.length (t_rest t') < List.length (t_rest t).
  Proof.
    unfold BuildParams.read_point, rbind, read_decode. intro H. destruct (Nat.leb PT (List.length (t_rest t))) eqn:L; [|discriminate].
    apply Nat.leb_le in L. destruct (pt_decode _); [|discriminate]. intro E. injection E as <- <-. cbn. rewrite skipn_length. lia.
  Qed.
  Lemma rbind_inv {A B} (m : BuildParams.R St A) (k : A -> BuildParams.R St B) t b t' : rbind m k t = Some (b, t') -> exists a t1, m t = Some (a, t1) /\ k a t1 = Some (b, t').
  Proof. unfold rbind. destruct (m t) as [[a t1]|]; [|discriminate]. eauto. Qed.
  Lemma rbind_step {A B} (m : BuildParams.R St A) (k : A -> BuildParams.R St B) t a t1 : m t = Some (a, t1) -> rbind m k t = k a t1.
  Proof. unfold rbind. now intros ->. Qed.
  Lemma while_n (Hpos : 1 <= PT) fuel : forall n t w t', List.length (t_rest t) < fuel ->
    (while_ fuel t = Some (w, t') /\ List.length w = n) <-> (load_n n t = Some (w, t') /\ read_point t' = None).
  Proof.
    induction fuel as [|fuel IH]; intros n t w t' L; [lia|]. cbn [load_points_while].
    destruct (read_point t) as [[P t1]|] eqn:E.
    - assert (L1 := read_point_less _ _ _ Hpos E). destruct n as [|n].
      + split.
        * intros [H N]. apply rbind_inv in H as (r & t2 & H1 & H2). injection H2 as <- <-. discriminate N.
        * intros [H N]. cbn in H. injection H as <- <-. congruence.
      + change (load_n (S n)) with (rbind read_point (fun b => rbind (load_n n) (fun r => rret (b :: r)))).
        rewrite (rbind_step _ _ _ _ _ E). split.
        * intros [H N]. apply rbind_inv in H as (r & t2 & H1 & H2). injection H2 as <- <-. cbn in N. injection N as N.
          assert (K : load_n n t1 = Some (r, t2) /\ read_point t2 = None) by (apply IH; [lia|now split]). destruct K as [K1 K2].
          rewrite (rbind_step _ _ _ _ _ K1). now split.
        * intros [H N]. apply rbind_inv in H as (r & t2 & H1 & H2). injection H2 as <- <-.
          assert (K : while_ fuel t1 = Some (r, t2) /\ List.length r = n) by (apply IH; [lia|now split]). destruct K as [K1 K2].
          rewrite (rbind_step _ _ _ _ _ K1). split; [reflexivity|cbn; congruence].
    - split.
      + intros [H N]. injection H as <- <-. subst n. now split.
      + intros [H N]. destruct n as [|n].
        * cbn in H. injection H as <- <-. now split.
        * change (load_n (S n)) with (rbind read_point (fun b => rbind (load_n n) (fun r => rret (b :: r)))) in H.
          apply rbind_inv in H as (r & t2 & H1 & H2). congruence.
  Qed.
  Lemma build_swap vk r1 key ins t p t' : build_with vk r1 key ins t = Some (p, t') ->
    exists tv tw, r1 tv = Some (p_w p, tw) /\ t_rest t' = t_rest tw /\
      forall r2, r2 tv = Some (p_w p, tw) -> build_with vk r2 key ins t = Some (p, t').
  Proof.
    unfold build_params_with. destruct (Nat.leb (vk_degree vk) 2); [discriminate|]. intro E.
    apply rbind_inv in E as (u0 & t0 & E0 & E).
    apply rbind_inv in E as (u1 & t1 & E1 & E).
    apply rbind_inv in E as ([advice challenges] & t2 & E2 & E).
    apply rbind_inv in E as (theta & t3 & E3 & E).
    apply rbind_inv in E as (permuted & t4 & E4 & E).
    apply rbind_inv in E as (beta & t5 & E5 & E).
    apply rbind_inv in E as (gamma & t6 & E6 & E).
    apply rbind_inv in E as (perms & t7 & E7 & E).
    apply rbind_inv in E as (committed & t8 & E8 & E).
    apply rbind_inv in E as (random & t9 & E9 & E).
    apply rbind_inv in E as (y & t10 & E10 & E).
    apply rbind_inv in E as (h & t11 & E11 & E).
    apply rbind_inv in E as (x & t12 & E12 & E).
    apply rbind_inv in E as (ie & t13 & E13 & E).
    apply rbind_inv in E as (ae & t14 & E14 & E).
    apply rbind_inv in E as (fe & t15 & E15 & E).
    apply rbind_inv in E as (re & t16 & E16 & E).
    apply rbind_inv in E as (pev & t17 & E17 & E).
    apply rbind_inv in E as (permutation & t18 & E18 & E).
    apply rbind_inv in E as (lookup & t19 & E19 & E).
    apply rbind_inv in E as (v & t20 & E20 & E).
    apply rbind_inv in E as (w & t21 & E21 & E).
    apply rbind_inv in E as (u & t22 & E22 & E).
    apply rbind_inv in E as (xnext & t23 & E23 & E).
    apply rbind_inv in E as (xlast & t24 & E24 & E).
    apply rbind_inv in E as (xinv & t25 & E25 & E).
    apply rbind_inv in E as (xn & t26 & E26 & E).
    injection E as <- <-. exists t20, t21. cbn [p_w]. split; [exact E21|]. split.
    { assert (RL : forall A (o : option A) (t : tr St) a t', rlift o t = Some (a, t') -> t_rest t' = t_rest t).
      { clear. intros A o t a t'. unfold rlift. destruct o; [|discriminate]. intro E. now injection E as _ <-. }
      rewrite (RL _ _ _ _ _ E26), (RL _ _ _ _ _ E25), (RL _ _ _ _ _ E24), (RL _ _ _ _ _ E23).
      revert E22. unfold squeeze_scalar. destruct (sqz (t_hash t21)) as [[? ?]|]; [|discriminate]. intro E. now injection E as _ <-. }
    intros r2 E21'.
    rewrite (rbind_step _ _ _ _ _ E0), (rbind_step _ _ _ _ _ E1). cbv zeta. rewrite (rbind_step _ _ _ _ _ E2). cbv beta iota.
    rewrite (rbind_step _ _ _ _ _ E3), (rbind_step _ _ _ _ _ E4), (rbind_step _ _ _ _ _ E5), (rbind_step _ _ _ _ _ E6), (rbind_step _ _ _ _ _ E7),
      (rbind_step _ _ _ _ _ E8), (rbind_step _ _ _ _ _ E9), (rbind_step _ _ _ _ _ E10), (rbind_step _ _ _ _ _ E11), (rbind_step _ _ _ _ _ E12),
      (rbind_step _ _ _ _ _ E13), (rbind_step _ _ _ _ _ E14), (rbind_step _ _ _ _ _ E15), (rbind_step _ _ _ _ _ E16), (rbind_step _ _ _ _ _ E17),
      (rbind_step _ _ _ _ _ E18), (rbind_step _ _ _ _ _ E19), (rbind_step _ _ _ _ _ E20), (rbind_step _ _ _ _ _ E21'), (rbind_step _ _ _ _ _ E22),
      (rbind_step _ _ _ _ _ E23), (rbind_step _ _ _ _ _ E24), (rbind_step _ _ _ _ _ E25), (rbind_step _ _ _ _ _ E26).
    reflexivity.
  Qed.
  Lemma build_n (Hpos : 1 <= PT) vk n key ins t p t' :
    (build vk key ins t = Some (p, t') /\ List.length (p_w p) = n) <-> (build_with vk (load_n n) key ins t = Some (p, t') /\ read_point t' = None).
  Proof.
    split.
    - intros [H N]. apply build_swap in H as (tv & tw & W & Rt & K).
      assert (J : load_n n tv = Some (p_w p, tw) /\ read_point tw = None) by (apply (while_n Hpos (S (List.length (t_rest tv)))); [lia|now split]).
      destruct J as [J1 J2]. split; [now apply K|]. apply (read_point_rest tw); [now symmetry|exact J2].
    - intros [H N]. apply build_swap in H as (tv & tw & W & Rt & K).
      assert (J : while_ (S (List.length (t_rest tv))) tv = Some (p_w p, tw) /\ List.length (p_w p) = n).
      { apply (while_n Hpos); [lia|]. split; [exact W|]. apply (read_point_rest t'); assumption. }
      destruct J as [J1 J2]. split; [|exact J2]. apply (K (fun t => while_ (S (List.length (t_rest t))) t)). exact J1.
  Qed.
  Definition points vk key ins t : option nat := match build vk key ins t with Some (p, _) => Some (List.length (p_w p)) | None => None end.
  Lemma vsp_tail vk rw key ins t r t' : vsp_with vk rw key ins t = Some (r, t') <->
    exists p, build_with vk rw key ins t = Some (p, t') /\ batch_multi_open_proofs p = Some (fst r) /\ nth_error (p_advice_commitments p) 0 = Some (snd r).
  Proof.
    unfold VerifierCallsProofs.vsp_with, rbind, rlift, rret. destruct (build_with vk rw key ins t) as [[p t1]|].
    2: { split; [discriminate|]. intros (p & H & _). discriminate H. }
    destruct (batch_multi_open_proofs p) as [m|] eqn:E1, (nth_error (p_advice_commitments p) 0) as [a|] eqn:E2; split; try discriminate;
      try (intros (p0 & H & H1 & H2); injection H as <- <-; congruence).
    - intro H. injection H as <- <-. eauto.
    - intros (p0 & H & H1 & H2). injection H as <- <-. destruct r. cbn in *. congruence.
  Qed.
  Lemma vsp_n (Hpos : 1 <= PT) vk n key ins t r t' :
    (vsp vk key ins t = Some (r, t') /\ points vk key ins t = Some n) <-> (vsp_with vk (load_n n) key ins t = Some (r, t') /\ read_point t' = None).
  Proof.
    change (vsp vk) with (vsp_with vk (fun t => while_ (S (List.length (t_rest t))) t)). rewrite !vsp_tail. unfold points. split.
    - intros [(p & H & K1 & K2) N]. change (build vk key ins t = Some (p, t')) in H. rewrite H in N. injection N as N.
      destruct (proj1 (build_n Hpos vk n key ins t p t') (conj H N)) as [J1 J2]. split; [|exact J2]. exists p. auto.
    - intros [(p & H & K1 & K2) N].
      destruct (proj2 (build_n Hpos vk n key ins t p t') (conj H N)) as [J1 J2].
      rewrite J1. split; [|congruence]. exists p. split; [exact J1|]. auto.
  Qed.

  (** ** The aggregation with given numbers of opening points *)
  Notation pdata := (proof_data F St).
  Notation cproof := (circuit_proof F M St).
  Notation result := (list F * multiopen F M * list M * tr St)%type.
  Definition opening_points (c : cproof) (p : pdata) : option nat :=
    do (_, ic) <- assign_instance_commitment (cp_columns c) (N.to_nat (vk_n (cp_vk c))) (vk_blinding (cp_vk c)) (cp_g_lagrange c) (pd_instances p);
    points (cp_vk c) (pd_key p) ic (pd_transcript p).
  Definition hproof_of (nw : nat -> nat) (k : nat) (p : pdata) : hproof := mkHProof (map (map (@List.length F)) (pd_instances p)) k (pd_key p) (nw k).
  Fixpoint hproofs_of (nw : nat -> nat) (k : nat) (ps : list pdata) : list hproof :=
    match ps with [] => [] | p :: ps => hproof_of nw k p :: hproofs_of nw (S k) ps end.
  Definition hcircuit_of (nw : nat -> nat) (k : nat) (c : cproof) : hcircuit F M :=
    mkHCircuit F M (cp_vk c) (cp_columns c) (cp_g_lagrange c) (hproofs_of nw k (cp_proofs c)).
  Fixpoint hcircuits_of (nw : nat -> nat) (k : nat) (cs : list cproof) : list (hcircuit F M) :=
    match cs with [] => [] | c :: cs => hcircuit_of nw k c :: hcircuits_of nw (k + List.length (cp_proofs c)) cs end.
  Definition flat_instances (p : pdata) : list F := concat (concat (pd_instances p)).
  Definition all_instances (cs : list cproof) : list F := concat (map (fun c => concat (map flat_instances (cp_proofs c))) cs).
  Definition all_transcripts (cs : list cproof) : list (tr St) := concat (map (fun c => map pd_transcript (cp_proofs c)) cs).

  Definition proof_n (n : nat) (c : cproof) (p : pdata) : option result :=
    do (ic1, ic2) <- assign_instance_commitment (cp_columns c) (N.to_nat (vk_n (cp_vk c))) (vk_blinding (cp_vk c)) (cp_g_lagrange c) (pd_instances p);
    do (pc, t) <- vsp_with (cp_vk c) (load_n n) (pd_key p) ic2 (pd_transcript p);
    Some (ic1, fst pc, snd pc, t).
  Fixpoint proofs_n (nw : nat -> nat) (c : cproof) (k : nat) (ps : list pdata) : option (list result) :=
    match ps with
    | [] => Some []
    | p :: ps => do r <- proof_n (nw k) c p; do rs <- proofs_n nw c (S k) ps; Some (r :: rs)
    end.
  Fixpoint circuits_n (nw : nat -> nat) (k : nat) (cs : list cproof) (h : St) : option (list (list result) * St) :=
    match cs with
    | [] => Some ([], h)
    | c :: cs =>
        do rs <- proofs_n nw c k (cp_proofs c);
        do h <- absorb_transcripts F St upd_sc sqz (map snd rs) h;
        do (rest, h) <- circuits_n nw (k + List.length (cp_proofs c)) cs h;
        Some (rs :: rest, h)
    end.

  (** *** the values against this *)
  Lemma take_times l : forall rest ts, xmap (fun _ => xpop F St) (repeat tt (List.length l)) (l ++ rest, ts) = Some (l, (rest, ts)).
  Proof.
    induction l as [|x l IH]; intros rest ts; [reflexivity|]. cbn. unfold CallsSim.xbind, xpop at 1. cbn. rewrite IH. reflexivity.
  Qed.
  Lemma xmap_take {A} (len : A -> list F) {C} (g : C -> X A) (sh : A -> C) :
    (forall a rest ts, g (sh a) (len a ++ rest, ts) = Some (a, (rest, ts))) ->
    forall l rest ts, xmap g (map sh l) (concat (map len l) ++ rest, ts) = Some (l, (rest, ts)).
  Proof.
    intro H. induction l as [|a l IH]; intros rest ts; [reflexivity|]. cbn. unfold CallsSim.xbind. rewrite <- app_assoc, H, IH. reflexivity.
  Qed.
  Lemma take_inst (inst : list (list (list F))) rest ts : x_take (map (map (@List.length F)) inst) (concat (concat inst) ++ rest, ts) = Some (inst, (rest, ts)).
  Proof.
    unfold x_take. replace (concat (concat inst)) with (concat (map (fun cols => concat (map (fun x => x) cols)) inst)).
    - apply (xmap_take (fun cols => concat (map (fun x => x) cols)) _ (map (@List.length F))). intros cols r t.
      apply (xmap_take (fun x => x) _ (@List.length F)). intros. apply take_times.
    - clear. induction inst as [|c inst IH]; [reflexivity|]. cbn. rewrite concat_app, IH, map_id. reflexivity.
  Qed.
  Lemma assign_value cols n bl g inst rest ts :
    x_assign cols n bl g (map (map (@List.length F)) inst) (concat (concat inst) ++ rest, ts) =
    match assign_instance_commitment cols n bl g inst with Some ic => Some (ic, (rest, ts)) | None => None end.
  Proof.
    unfold x_assign, assign_instance_commitment.
    replace (forallb (fun i => Nat.eqb (List.length i) cols) (map (map (@List.length F)) inst)) with (forallb (fun i : list (list F) => Nat.eqb (List.length i) cols) inst).
    2: { clear. induction inst as [|i inst IH]; [reflexivity|]. cbn. now rewrite map_length, IH. }
    destruct (forallb (fun i : list (list F) => Nat.eqb (List.length i) cols) inst); [|reflexivity].
    replace (forallb (forallb (fun c => Nat.leb (bl + 1) n && Nat.leb c (n - (bl + 1)))) (map (map (@List.length F)) inst))
      with (forallb (forallb (fun c : list F => Nat.leb (bl + 1) n && Nat.leb (List.length c) (n - (bl + 1)))) inst).
    2: { clear. induction inst as [|i inst IH]; [reflexivity|]. cbn. rewrite IH. f_equal. clear. induction i as [|c i IH]; [reflexivity|]. cbn. now rewrite IH. }
    destruct (forallb _ inst); [|reflexivity].
    unfold CallsSim.xbind at 1. rewrite take_inst. unfold CallsSim.xbind, CallsSim.xlift. destruct (mapM _ inst); reflexivity.
  Qed.
  Lemma set_nth_mid {A} (pre post : list A) a b k : k = List.length pre -> set_nth (pre ++ a :: post) k b = pre ++ b :: post.
  Proof.
    intros ->. unfold set_nth. rewrite firstn_app, Nat.sub_diag, firstn_all. cbn [firstn]. rewrite app_nil_r. f_equal. f_equal.
    rewrite skipn_app, skipn_all2 by lia. replace (S (List.length pre) - List.length pre) with 1 by lia. reflexivity.
  Qed.
  Lemma nth_mid {A} (pre post : list A) a k : k = List.length pre -> nth_error (pre ++ a :: post) k = Some a.
  Proof. intros ->. rewrite nth_error_app2, Nat.sub_diag by lia. reflexivity. Qed.
  Lemma proof_value nw k c k0 p pre post rest : k = List.length pre ->
    x_proof (hcircuit_of nw k0 c) (hproof_of nw k p) (flat_instances p ++ rest, pre ++ pd_transcript p :: post) =
    match proof_n (nw k) c p with Some r => Some (fst r, (rest, pre ++ snd r :: post)) | None => None end.
  Proof.
    intro K. unfold x_proof, proof_n. cbn [hcircuit_of hc_columns hc_vk hc_g_lagrange hproof_of hpr_shape hpr_tr hpr_nw hpr_key].
    unfold CallsSim.xbind at 1, flat_instances. rewrite assign_value.
    destruct (assign_instance_commitment _ _ _ _ _) as [[i1 i2]|]; [|reflexivity]. cbn [fst snd].
    unfold CallsSim.xbind, CallsSim.xtr. cbn [fst snd]. rewrite (nth_mid _ _ _ _ K).
    destruct (vsp_with _ _ _ _ _) as [[[m a] t]|]; [|reflexivity]. rewrite (set_nth_mid _ _ _ _ _ K). reflexivity.
  Qed.
  Lemma proofs_value nw c k0 ps : forall k pre post rest, k = List.length pre ->
    xmap (x_proof (hcircuit_of nw k0 c)) (hproofs_of nw k ps) (concat (map flat_instances ps) ++ rest, pre ++ map pd_transcript ps ++ post) =
    match proofs_n nw c k ps with Some rs => Some (map fst rs, (rest, pre ++ map snd rs ++ post)) | None => None end.
  Proof.
    induction ps as [|p ps IH]; intros k pre post rest K; [reflexivity|]. cbn [map concat hproofs_of CallsSim.xmap proofs_n app].
    unfold CallsSim.xbind at 1. rewrite <- app_assoc. rewrite proof_value by exact K.
    destruct (proof_n (nw k) c p) as [r|]; [|reflexivity]. unfold CallsSim.xbind at 1.
    replace (pre ++ snd r :: map pd_transcript ps ++ post) with ((pre ++ [snd r]) ++ map pd_transcript ps ++ post) by (rewrite <- app_assoc; reflexivity).
    rewrite IH by (rewrite app_length; cbn; lia). destruct (proofs_n nw c (S k) ps) as [rs|]; [|reflexivity].
    unfold CallsSim.xret. rewrite <- app_assoc. reflexivity.
  Qed.
  Definition after (t : tr St) : tr St := match sqz (t_hash t) with Some (_, h) => mkTr (t_rest t) h | None => t end.
  Lemma absorb_value nw ps : forall ts k m pre post is, List.length ts = List.length ps -> k = S (List.length pre) ->
    match xmap (fun p => xbind (xtr (hpr_tr p) (squeeze_scalar F St sqz)) (fun s => xtr 0 (common_scalar F St upd_sc s))) (hproofs_of nw k ps) (is, m :: pre ++ ts ++ post) with
    | Some (_, e) => exists h, absorb_transcripts F St upd_sc sqz ts (t_hash m) = Some h /\ e = (is, mkTr (t_rest m) h :: pre ++ map after ts ++ post)
    | None => absorb_transcripts F St upd_sc sqz ts (t_hash m) = None
    end.
  Proof.
    induction ps as [|p ps IH]; intros [|t ts] k m pre post is L K; try discriminate L.
    - cbn. exists (t_hash m). destruct m. now split.
    - injection L as L. cbn [map hproofs_of CallsSim.xmap app]. unfold CallsSim.xbind at 1, CallsSim.xbind at 1. unfold CallsSim.xtr at 1. cbn [fst snd hproof_of hpr_tr].
      change (m :: pre ++ t :: ts ++ post) with ((m :: pre) ++ t :: ts ++ post). rewrite (nth_mid (m :: pre)) by (cbn; exact K).
      unfold absorb_transcripts. cbn [foldM]. unfold squeeze_scalar at 1. destruct (sqz (t_hash t)) as [[c h]|] eqn:Es; [|reflexivity].
      rewrite (set_nth_mid (m :: pre)) by (cbn; exact K). unfold CallsSim.xtr at 1. cbn [fst snd nth_error app]. unfold common_scalar at 1.
      unfold set_nth. cbn [firstn skipn app]. unfold CallsSim.xbind at 1.
      replace (pre ++ mkTr (t_rest t) h :: ts ++ post) with ((pre ++ [mkTr (t_rest t) h]) ++ ts ++ post) by (rewrite <- app_assoc; reflexivity).
      specialize (IH ts (S k) (mkTr (t_rest m) (upd_sc (t_hash m) c)) (pre ++ [mkTr (t_rest t) h]) post is L ltac:(rewrite app_length; cbn; lia)).
      cbn [t_hash t_rest] in IH.
      destruct (xmap _ (hproofs_of nw (S k) ps) _) as [[us e]|].
      + destruct IH as (h' & Eh & ->). exists h'. split; [exact Eh|]. unfold after at 2. rewrite Es, <- app_assoc. reflexivity.
      + exact IH.
  Qed.
  Lemma proofs_n_length nw c ps : forall k rs, proofs_n nw c k ps = Some rs -> List.length rs = List.length ps.
  Proof.
    induction ps as [|p ps IH]; intros k rs; cbn; [intro E; now injection E as <-|]. destruct (proof_n (nw k) c p); [|discriminate].
    destruct (proofs_n nw c (S k) ps) eqn:E; [|discriminate]. intro H. injection H as <-. cbn. f_equal. eauto.
  Qed.
  Lemma circuits_value nw cs : forall k pre m rest, k = S (List.length pre) ->
    match xmap (x_circuit 0) (hcircuits_of nw k cs) (all_instances cs ++ rest, m :: pre ++ all_transcripts cs) with
    | Some (rs, e) => exists rss h, circuits_n nw k cs (t_hash m) = Some (rss, h) /\ rs = map (map fst) rss /\
        e = (rest, mkTr (t_rest m) h :: pre ++ map after (map snd (concat rss)))
    | None => circuits_n nw k cs (t_hash m) = None
    end.
  Proof.
    induction cs as [|c cs IH]; intros k pre m rest K; unfold all_instances, all_transcripts; cbn [map concat hcircuits_of CallsSim.xmap circuits_n app].
    - exists [], (t_hash m). destruct m. repeat split.
    - unfold CallsSim.xbind at 1. unfold x_circuit at 1. unfold CallsSim.xbind at 1. cbn [hc_proofs hcircuit_of]. rewrite <- app_assoc.
      change (mkHCircuit F M (cp_vk c) (cp_columns c) (cp_g_lagrange c) (hproofs_of nw k (cp_proofs c))) with (hcircuit_of nw k c).
      change (m :: pre ++ map pd_transcript (cp_proofs c) ++ concat (map (fun c => map pd_transcript (cp_proofs c)) cs))
        with ((m :: pre) ++ map pd_transcript (cp_proofs c) ++ all_transcripts cs).
      rewrite proofs_value by (cbn; exact K). destruct (proofs_n nw c k (cp_proofs c)) as [rs|] eqn:Ep; [|reflexivity]. cbn [app].
      assert (Lr := proofs_n_length _ _ _ _ _ Ep). unfold CallsSim.xbind at 1.
      pose proof (absorb_value nw (cp_proofs c) (map snd rs) k m pre (all_transcripts cs) (concat (map (fun c => concat (map flat_instances (cp_proofs c))) cs) ++ rest)
        ltac:(rewrite map_length; exact Lr) K) as A.
      destruct (xmap _ (hproofs_of nw k (cp_proofs c)) _) as [[us e]|].
      2: { now rewrite A. }
      destruct A as (h & Eh & ->). rewrite Eh. unfold CallsSim.xret at 1. unfold CallsSim.xbind at 1.
      rewrite app_assoc.
      specialize (IH (k + List.length (cp_proofs c)) (pre ++ map after (map snd rs)) (mkTr (t_rest m) h) rest ltac:(rewrite app_length, !map_length; lia)).
      unfold all_instances in IH. destruct (xmap _ (hcircuits_of _ _ cs) _) as [[rs' e]|].
      + destruct IH as (rss & h' & E1 & -> & ->). cbn [t_hash t_rest] in E1 |- *. rewrite E1. exists (rs :: rss), h'. split; [reflexivity|]. split; [reflexivity|].
        cbn [concat]. rewrite !map_app, <- app_assoc. reflexivity.
      + cbn [t_hash] in IH. now rewrite IH.
  Qed.

  (** *** the model against this *)
  Definition all_proofs (cs : list cproof) : list (cproof * pdata) := flat_map (fun c => map (pair c) (cp_proofs c)) cs.
  Definition counts (nw : nat -> nat) (k : nat) (l : list (cproof * pdata)) : Prop :=
    forall i c p, nth_error l i = Some (c, p) -> opening_points c p = Some (nw (k + i)).
  Lemma counts_cons nw k c p l : counts nw k ((c, p) :: l) <-> opening_points c p = Some (nw k) /\ counts nw (S k) l.
  Proof.
    unfold counts. split.
    - intro H. split; [rewrite <- (Nat.add_0_r k); now apply (H 0)|]. intros i c' p' E. replace (S k + i) with (k + S i) by lia. now apply (H (S i)).
    - intros [H1 H2] [|i] c' p' E; [rewrite Nat.add_0_r; cbn in E; injection E as <- <-; exact H1|]. replace (k + S i) with (S k + i) by lia. now apply H2.
  Qed.
  Lemma counts_app nw k l l' : counts nw k (l ++ l') <-> counts nw k l /\ counts nw (k + List.length l) l'.
  Proof.
    revert k. induction l as [|[c p] l IH]; intro k; cbn [app List.length].
    - rewrite Nat.add_0_r. split; [|tauto]. intro H. split; [|exact H]. intros [|i] ? ? E; discriminate E.
    - rewrite !counts_cons, IH. replace (k + S (List.length l)) with (S k + List.length l) by lia. tauto.
  Qed.
  Hypothesis Hpos : 1 <= PT.
  Notation agg_proof := (aggregate_proof F M PT SC pt_decode sc_decode St upd_pt upd_sc sqz).
  Notation agg_circuits := (aggregate_circuits F M PT SC pt_decode sc_decode St upd_pt upd_sc sqz).
  Lemma proof_iff n c p r : (agg_proof c p = Some r /\ opening_points c p = Some n) <-> (proof_n n c p = Some r /\ read_point (snd r) = None).
  Proof.
    unfold aggregate_proof, opening_points, proof_n. destruct (assign_instance_commitment _ _ _ _ _) as [[i1 i2]|]; [|now split; intros [? ?]].
    split.
    - intros [H N]. destruct (vsp _ _ _ _) as [[pc t]|] eqn:E; [|discriminate]. injection H as <-.
      assert (J := proj1 (vsp_n Hpos _ n _ _ _ _ _) (conj E N)). destruct J as [J1 J2]. rewrite J1. now split.
    - intros [H N]. destruct (vsp_with _ _ _ _ _) as [[pc t]|] eqn:E; [|discriminate]. injection H as <-.
      assert (J := proj2 (vsp_n Hpos _ n _ _ _ _ _) (conj E N)). destruct J as [J1 J2]. rewrite J1. now split.
  Qed.
  Notation unread rs := (Forall (fun r : result => read_point (snd r) = None) rs).
  Lemma proofs_iff nw c ps : forall k rs,
    (mapM (agg_proof c) ps = Some rs /\ counts nw k (map (pair c) ps)) <-> (proofs_n nw c k ps = Some rs /\ unread rs).
  Proof.
    induction ps as [|p ps IH]; intros k rs; cbn [mapM proofs_n map].
    - split; intros [E _]; (split; [exact E|]); injection E as <-; [constructor|]. intros [|i] ? ? E; discriminate E.
    - rewrite counts_cons. split.
      + intros [H [N1 N2]]. destruct (agg_proof c p) as [r|] eqn:E1; [|discriminate]. destruct (mapM (agg_proof c) ps) as [rs1|] eqn:E2; [|discriminate].
        injection H as <-. destruct (proj1 (proof_iff _ _ _ _) (conj E1 N1)) as [J1 J2]. rewrite J1.
        destruct (proj1 (IH (S k) rs1) (conj eq_refl N2)) as [J3 J4]. rewrite J3. split; [reflexivity|now constructor].
      + intros [H N]. destruct (proof_n (nw k) c p) as [r|] eqn:E1; [|discriminate]. destruct (proofs_n nw c (S k) ps) as [rs1|] eqn:E2; [|discriminate].
        injection H as <-. inversion N as [|? ? N1 N2]; subst. destruct (proj2 (proof_iff _ _ _ _) (conj E1 N1)) as [J1 J2]. rewrite J1.
        destruct (proj2 (IH (S k) rs1) (conj E2 N2)) as [J3 J4]. rewrite J3. auto.
  Qed.
  Lemma circuits_iff nw cs : forall k h rs h',
    (agg_circuits cs h = Some (rs, h') /\ counts nw k (all_proofs cs)) <-> (exists rss, circuits_n nw k cs h = Some (rss, h') /\ rs = concat rss /\ unread rs).
  Proof.
    induction cs as [|c cs IH]; intros k h rs h'; cbn [aggregate_circuits circuits_n all_proofs flat_map].
    - split.
      + intros [E _]. injection E as <- <-. exists []. auto.
      + intros (rss & E & -> & _). injection E as <- <-. split; [reflexivity|]. intros [|i] ? ? E; discriminate E.
    - change (flat_map (fun c => map (pair c) (cp_proofs c)) cs) with (all_proofs cs). rewrite counts_app, map_length. split.
      + intros [H [N1 N2]]. unfold aggregate_circuit in H. destruct (mapM (agg_proof c) (cp_proofs c)) as [r1|] eqn:E1; [|discriminate].
        destruct (absorb_transcripts F St upd_sc sqz (map snd r1) h) as [h1|] eqn:E2; [|discriminate].
        destruct (agg_circuits cs h1) as [[r2 h2]|] eqn:E3; [|discriminate]. injection H as <- <-.
        destruct (proj1 (proofs_iff nw c _ _ _) (conj E1 N1)) as [J1 J2]. rewrite J1, E2.
        destruct (proj1 (IH (k + List.length (cp_proofs c)) h1 r2 h2) (conj E3 N2)) as (rss & J3 & -> & J4). rewrite J3. exists (r1 :: rss). repeat split.
        cbn. apply Forall_app. now split.
      + intros (rss & H & -> & N). destruct (proofs_n nw c k (cp_proofs c)) as [r1|] eqn:E1; [|discriminate].
        destruct (absorb_transcripts F St upd_sc sqz (map snd r1) h) as [h1|] eqn:E2; [|discriminate].
        destruct (circuits_n nw _ cs h1) as [[r2 h2]|] eqn:E3; [|discriminate]. injection H as <- <-.
        cbn in N. apply Forall_app in N as [N1 N2].
        destruct (proj2 (proofs_iff nw c _ _ _) (conj E1 N1)) as [J1 J2]. unfold aggregate_circuit. rewrite J1, E2.
        destruct (proj2 (IH (k + List.length (cp_proofs c)) h1 (concat r2) h2)) as [J3 J4]; [eauto|]. rewrite J3. auto.
  Qed.
  Lemma map_concat_fst {A B} (f : A -> B) (l : list (list A)) : concat (map (map f) l) = map f (concat l).
  Proof. induction l as [|a l IH]; [reflexivity|]. cbn. now rewrite map_app, IH. Qed.
  Notation verify := (verify_aggregation_proofs_in_chip F M PT SC pt_decode sc_decode St upd_pt upd_sc sqz).
  Lemma unread_after rs : Forall (fun t => read_point t = None) (map after (map snd rs)) <-> unread rs.
  Proof.
    rewrite map_map, Forall_map. split; intro H; (eapply Forall_impl; [|exact H]); intros r K; cbn in *.
    - eapply read_point_rest; [|exact K]. unfold after. now destruct (sqz _) as [[? ?]|].
    - eapply read_point_rest; [|exact K]. unfold after. now destruct (sqz _) as [[? ?]|].
  Qed.
  Lemma top_value nw cs m rest r : (forall c, nth_error cs 0 = Some c -> cp_generator c = generator) ->
    (verify cs (t_hash m) = Some r /\ counts nw 1 (all_proofs cs)) <->
    (exists e, x_top 0 (hcircuits_of nw 1 cs) (all_instances cs ++ rest, m :: all_transcripts cs) = Some (r, e) /\
       fst e = rest /\ Forall (fun t => read_point t = None) (skipn 1 (snd e))).
  Proof.
    intro HG. unfold x_top. unfold CallsSim.xbind at 1.
    assert (A := circuits_value nw cs 1 [] m rest eq_refl). cbn [app] in A.
    assert (T : forall rss h, circuits_n nw 1 cs (t_hash m) = Some (rss, h) -> forall r,
       ((do (challenge, _) <- sqz h;
         do agg <- aggregate challenge (map (fun r => snd (fst (fst r))) (concat rss));
         do c0 <- nth_error cs 0;
         do (wx, wg) <- evaluate_multiopen_proof (cp_generator c0) agg;
         Some (wx, wg, concat (map (fun r => fst (fst (fst r))) (concat rss)), map (fun r => snd (fst r)) (concat rss))) = Some r <->
       exists h2, (let rs := concat (map (map fst) rss) in
         xbind (xtr 0 (squeeze_scalar F St sqz)) (fun challenge =>
         xbind (xlift (aggregate challenge (map (fun r => snd (fst r)) rs))) (fun agg =>
         xbind (xlift (nth_error (hcircuits_of nw 1 cs) 0)) (fun _ =>
         xbind (xlift (evaluate_multiopen_proof generator agg)) (fun wp =>
         xret (fst wp, snd wp, concat (map (fun r => fst (fst r)) rs), map snd rs)))))
         (rest, mkTr (t_rest m) h :: map after (map snd (concat rss)))) =
         Some (r, (rest, mkTr (t_rest m) h2 :: map after (map snd (concat rss)))))).
    { clear A. intros rss h _ r0. cbv zeta. rewrite map_concat_fst. unfold CallsSim.xbind, CallsSim.xtr at 1, CallsSim.xlift, CallsSim.xret. cbn [fst snd nth_error].
      unfold squeeze_scalar. cbn [t_hash t_rest]. destruct (sqz h) as [[ch h2]|]; [|split; [discriminate|intros [? ?]; discriminate]].
      rewrite !map_map. destruct (aggregate ch _) as [agg|]; [|split; [discriminate|intros [? ?]; discriminate]].
      destruct cs as [|c0 cs0]; [split; [discriminate|intros [? ?]; discriminate]|]. cbn [nth_error hcircuits_of].
      rewrite (HG c0 eq_refl). destruct (evaluate_multiopen_proof generator agg) as [[wx wg]|]; [|split; [discriminate|intros [? ?]; discriminate]].
      unfold set_nth. cbn [firstn skipn app fst snd]. split.
      - intro E. injection E as <-. exists h2. reflexivity.
      - intros [h3 E]. injection E as <- _. reflexivity. }
    unfold verify_aggregation_proofs_in_chip. split.
    - intros [H N]. destruct (agg_circuits cs (t_hash m)) as [[rs h]|] eqn:E; [|discriminate].
      destruct (proj1 (circuits_iff nw cs 1 _ _ _) (conj E N)) as (rss & J1 & -> & J2).
      destruct (xmap (x_circuit 0) _ _) as [[rs e]|]; [|congruence]. destruct A as (rss' & h' & A1 & -> & ->). rewrite J1 in A1. injection A1 as <- <-.
      destruct (proj1 (T _ _ J1 r) H) as (h2 & E2). eexists. split; [exact E2|]. split; [reflexivity|]. cbn [snd skipn]. now apply unread_after.
    - intros (e & H & He & N). destruct (xmap (x_circuit 0) _ _) as [[rs e1]|]; [|discriminate]. destruct A as (rss & h & A1 & -> & ->).
      assert (K : exists h2, e = (rest, mkTr (t_rest m) h2 :: map after (map snd (concat rss)))).
      { revert H. clear. cbv zeta. unfold CallsSim.xbind, CallsSim.xtr at 1, CallsSim.xlift, CallsSim.xret. cbn [fst snd nth_error].
        unfold squeeze_scalar. cbn [t_hash t_rest]. destruct (sqz h) as [[ch h2]|]; [|discriminate].
        destruct (aggregate ch _) as [agg|]; [|discriminate]. destruct (hcircuits_of nw 1 cs); [discriminate|]. destruct (evaluate_multiopen_proof generator agg); [|discriminate].
        unfold set_nth. cbn [firstn skipn app fst snd]. intro E. injection E as _ <-. eauto. }
      destruct K as [h2 ->]. cbn [snd skipn] in N. apply unread_after in N.
      destruct (proj2 (circuits_iff nw cs 1 _ _ _) (ex_intro _ rss (conj A1 (conj eq_refl N)))) as [J1 J2]. rewrite J1. split; [|exact J2].
      apply (T _ _ A1 r). exists h2. exact H.
  Qed.

  (** ** One proof *)
  Definition x_single (t : nat) (vk : vkey F M) (nw cols : nat) (g : list M) (shape : list (list nat)) : X (M * M * list F * list M) :=
    xbind (x_assign cols (N.to_nat (vk_n vk)) (vk_blinding vk) g shape) (fun ic =>
    xbind (xtr t (vsp_with vk (load_n nw) "" (snd ic))) (fun pc =>
    xbind (xlift (evaluate_multiopen_proof generator (fst pc))) (fun wp =>
    xret (fst wp, snd wp, fst ic, snd pc)))).
  Lemma single_sim t (s : cst) vk nw cols g shape : t < List.length (c_trs s) ->
    sim s (c_verify_single_proof_in_chip F M t vk nw cols g shape) (x_single t vk nw cols g shape) (rpair (rpair (rpair rp rp) (rlist rs)) (rlist rp)).
  Proof.
    intro L. unfold c_verify_single_proof_in_chip, x_single. eapply sim_bind; [apply assign_sim|].
    intros s1 [a1 a2] [b1 b2] E [H1 H2]. cbn [fst snd] in *. assert (L1 : t < List.length (c_trs s1)) by (destruct E as [_ E]; lia). clear L E.
    eapply sim_bind; [apply vsp_sim; [exact H2|exact L1]|]. intros s2 [c1 c2] [d1 d2] E [K1 K2]. cbn [fst snd] in *. lift.
    eapply sim_bind; [apply evaluate_multiopen_sim; eassumption|]. intros s3 [w1 w2] [w1' w2'] E [J1 J2]. cbn [fst snd] in *. lift.
    apply sim_ret. split; [split; [split|]|]; cbn [fst snd]; assumption.
  Qed.
  Notation verify_single := (verify_single_proof_in_chip F M PT SC pt_decode sc_decode St upd_pt upd_sc sqz).
  Lemma single_value vk nw cols g inst t rest r t' :
    (verify_single vk cols g generator inst t = Some (r, t') /\ opening_points (mkCP vk cols g generator []) (mkPD inst t "") = Some nw) <->
    (x_single 0 vk nw cols g (map (map (@List.length F)) inst) (concat (concat inst) ++ rest, [t]) = Some (r, (rest, [t'])) /\ read_point t' = None).
  Proof.
    unfold x_single, verify_single_proof_in_chip, opening_points, rbind at 1. cbn [cp_columns cp_vk cp_g_lagrange pd_instances pd_key pd_transcript].
    unfold CallsSim.xbind at 1. rewrite assign_value. unfold rlift.
    destruct (assign_instance_commitment _ _ _ _ _) as [[i1 i2]|]; [|now split; intros [? ?]]. cbn [snd fst].
    unfold rbind, CallsSim.xbind, CallsSim.xtr, CallsSim.xlift. cbn [fst snd nth_error]. unfold set_nth. cbn [firstn skipn app]. split.
    - intros [H N]. destruct (vsp vk "" i2 t) as [[pc t1]|] eqn:E; [|discriminate].
      destruct (proj1 (vsp_n Hpos vk nw "" i2 t pc t1) (conj E N)) as [J1 J2]. rewrite J1.
      destruct (evaluate_multiopen_proof generator (fst pc)); [|discriminate]. unfold rret in H. injection H as <- <-. now split.
    - intros [H N]. destruct (vsp_with vk (load_n nw) "" i2 t) as [[pc t1]|] eqn:E; [|discriminate].
      destruct (evaluate_multiopen_proof generator (fst pc)) eqn:Ev; [|discriminate]. unfold CallsSim.xret in H. injection H as <- <-.
      destruct (proj2 (vsp_n Hpos vk nw "" i2 t pc t1) (conj E N)) as [J1 J2]. rewrite J1, Ev. now split.
  Qed.

  (** ** The calls *)
  Notation run := (run_calls F M PT SC pt_decode sc_decode St upd_pt upd_sc sqz generator).
  Lemma sim_iff {A B} s (m : Q A) (x : X B) (R : rel F M St A B) r e : sim s m x R ->
    (forall s a b b', R s a b -> R s a b' -> b = b') ->
    (x (env_of F M St s) = Some (r, e) <-> exists a cs n s', m (List.length (c_vals s)) = Some (a, cs, n) /\ run cs s = Some s' /\ R s' a r /\ env_of F M St s' = e).
  Proof.
    unfold CallsSim.sim. intros H U. split.
    - intro E. destruct (m _) as [[[a cs] n]|]; [|congruence]. destruct (run cs s) as [s'|] eqn:Er; [|congruence].
      destruct H as (_ & _ & b & Hb & HR). rewrite Hb in E. injection E as <- <-. exists a, cs, n, s'. auto.
    - intros (a & cs & n & s' & Em & Er & HR & <-). rewrite Em, Er in H. destruct H as (_ & _ & b & Hb & HR'). rewrite Hb. now rewrite (U _ _ _ _ HR' HR).
  Qed.
  Lemma rs_u (s : cst) a b b' : rs s a b -> rs s a b' -> b = b'.
  Proof. unfold rs. congruence. Qed.
  Lemma rp_u (s : cst) a b b' : rp s a b -> rp s a b' -> b = b'.
  Proof. unfold rp. congruence. Qed.
  Lemma rlist_u {A B} (R : rel F M St A B) : (forall s a b b', R s a b -> R s a b' -> b = b') -> forall (s : cst) a b b', rlist R s a b -> rlist R s a b' -> b = b'.
  Proof.
    intros U s a b b' H. revert b'. induction H as [|x y l l' H _ IH]; intros b' K; inversion K; subst; [reflexivity|]. f_equal; [eapply U; eassumption|now apply IH].
  Qed.
  Lemma rpair_u {A B A' B'} (R : rel F M St A B) (R' : rel F M St A' B') :
    (forall s a b b', R s a b -> R s a b' -> b = b') -> (forall s a b b', R' s a b -> R' s a b' -> b = b') ->
    forall (s : cst) a b b', rpair R R' s a b -> rpair R R' s a b' -> b = b'.
  Proof. intros U U' s a [b1 b2] [b1' b2'] [H1 H2] [K1 K2]. cbn in *. f_equal; [eapply U; eassumption|eapply U'; eassumption]. Qed.
  Lemma rlist_mapM {A B} (f : cst -> A -> option B) (s : cst) l l' : rlist (fun s a b => f s a = Some b) s l l' <-> mapM (f s) l = Some l'.
  Proof.
    revert l'. induction l as [|a l IH]; intro l'; cbn.
    - split; [intro H; now inversion H|intro H; injection H as <-; constructor].
    - split.
      + intro H. inversion H as [|? b ? l0 H1 H2]; subst. rewrite H1. apply IH in H2. now rewrite H2.
      + destruct (f s a) as [b|] eqn:E; [|discriminate]. destruct (mapM (f s) l) as [l0|] eqn:E2; [|discriminate]. intro H. injection H as <-.
        constructor; [exact E|]. now apply IH.
  Qed.
  Lemma hcircuits_tr nw cs : forall k c p, In c (hcircuits_of nw k cs) -> In p (hc_proofs F M c) -> hpr_tr p < k + List.length (all_transcripts cs).
  Proof.
    unfold all_transcripts. induction cs as [|c cs IH]; intros k c0 p Hc Hp; [contradiction|]. cbn in *. rewrite app_length, map_length. destruct Hc as [<-|Hc].
    - clear IH. cbn in Hp. enough (hpr_tr p < k + List.length (cp_proofs c)) by lia. revert k Hp. induction (cp_proofs c) as [|q l IH]; intros k Hp; [contradiction|].
      cbn in *. destruct Hp as [<-|Hp]; [cbn; lia|]. apply IH in Hp. lia.
    - apply IH with (p := p) in Hc; [lia|exact Hp].
  Qed.

  Lemma aggregation_calls nw cs h rm rest wx wg insts advs : (forall c, nth_error cs 0 = Some c -> cp_generator c = generator) ->
    (verify cs h = Some (wx, wg, insts, advs) /\ counts nw 1 (all_proofs cs)) <->
    (exists a b is_ ads calls n s',
       c_verify_aggregation_proofs_in_chip F M 0 (hcircuits_of nw 1 cs) 0 = Some (a, b, is_, ads, calls, n) /\
       run calls (mkC [] (all_instances cs ++ rest) (mkTr rm h :: all_transcripts cs)) = Some s' /\
       val_p s' a = Some wx /\ val_p s' b = Some wg /\ mapM (val_s s') is_ = Some insts /\ mapM (mapM (val_p s')) ads = Some advs /\
       c_inst s' = rest /\ Forall (fun t => read_point t = None) (skipn 1 (c_trs s'))).
  Proof.
    intro HG. set (s := mkC [] (all_instances cs ++ rest) (mkTr rm h :: all_transcripts cs) : cst).
    assert (SIM : sim s (c_verify_aggregation_proofs_in_chip F M 0 (hcircuits_of nw 1 cs)) (x_top 0 (hcircuits_of nw 1 cs)) (rpair (rpair (rpair rp rp) (rlist rs)) (rlist (rlist rp)))).
    { apply top_sim; [cbn; lia|]. apply Forall_forall. intros c Hc. apply Forall_forall. intros p Hp. cbn [s c_trs List.length].
      pose proof (hcircuits_tr nw cs 1 c p Hc Hp). lia. }
    assert (U := rpair_u _ _ (rpair_u _ _ (rpair_u _ _ rp_u rp_u) (rlist_u _ rs_u)) (rlist_u _ (rlist_u _ rp_u))).
    split.
    - intro H. destruct (proj1 (top_value nw cs (mkTr rm h) rest _ HG) H) as (e & E & Er & Un).
      destruct (proj1 (sim_iff _ _ _ _ _ _ SIM U) E) as ([[[a b] is_] ads] & calls & n & s' & Em & Erun & [[[H1 H2] H3] H4] & Ee). cbn [fst snd] in *.
      exists a, b, is_, ads, calls, n, s'. subst e. cbn [env_of fst snd] in *. repeat split; auto.
      + now apply (rlist_mapM (fun s => val_s s)).
      + apply (rlist_mapM (fun s => mapM (val_p s))). unfold rlist in *. eapply ListFacts.Forall2_weaken; [|exact H4]. intros x y K. now apply (rlist_mapM (fun s => val_p s)).
    - intros (a & b & is_ & ads & calls & n & s' & Em & Erun & H1 & H2 & H3 & H4 & Hr & Un).
      apply (top_value nw cs (mkTr rm h) rest _ HG). exists (env_of F M St s'). split; [|now split].
      apply (sim_iff _ _ _ _ _ _ SIM U). exists (a, b, is_, ads), calls, n, s'. repeat split; auto; cbn [fst snd].
      + now apply (rlist_mapM (fun s => val_s s)).
      + apply (rlist_mapM (fun s => mapM (val_p s))) in H4. unfold rlist in *. eapply ListFacts.Forall2_weaken; [|exact H4]. intros x y K. now apply (rlist_mapM (fun s => val_p s)).
  Qed.
  Lemma single_calls vk nw cols g inst t rest wx wg insts adv t' :
    (verify_single vk cols g generator inst t = Some (wx, wg, insts, adv, t') /\ opening_points (mkCP vk cols g generator []) (mkPD inst t "") = Some nw) <->
    (exists a b is_ ad calls n s',
       c_verify_single_proof_in_chip F M 0 vk nw cols g (map (map (@List.length F)) inst) 0 = Some (a, b, is_, ad, calls, n) /\
       run calls (mkC [] (concat (concat inst) ++ rest) [t]) = Some s' /\
       val_p s' a = Some wx /\ val_p s' b = Some wg /\ mapM (val_s s') is_ = Some insts /\ mapM (val_p s') ad = Some adv /\
       c_inst s' = rest /\ c_trs s' = [t'] /\ read_point t' = None).
  Proof.
    set (s := mkC [] (concat (concat inst) ++ rest) [t] : cst).
    assert (SIM : sim s (c_verify_single_proof_in_chip F M 0 vk nw cols g (map (map (@List.length F)) inst)) (x_single 0 vk nw cols g (map (map (@List.length F)) inst)) (rpair (rpair (rpair rp rp) (rlist rs)) (rlist rp))).
    { apply single_sim. cbn. lia. }
    assert (U := rpair_u _ _ (rpair_u _ _ (rpair_u _ _ rp_u rp_u) (rlist_u _ rs_u)) (rlist_u _ rp_u)).
    split.
    - intro H. destruct (proj1 (single_value vk nw cols g inst t rest _ _) H) as (E & Un).
      destruct (proj1 (sim_iff _ _ _ _ _ _ SIM U) E) as ([[[a b] is_] ads] & calls & n & s' & Em & Erun & [[[H1 H2] H3] H4] & Ee). cbn [fst snd] in *.
      exists a, b, is_, ads, calls, n, s'. unfold env_of in Ee. injection Ee as E1 E2. repeat split; auto.
      + now apply (rlist_mapM (fun s => val_s s)).
      + now apply (rlist_mapM (fun s => val_p s)).
    - intros (a & b & is_ & ads & calls & n & s' & Em & Erun & H1 & H2 & H3 & H4 & Hr & Ht & Un).
      apply (single_value vk nw cols g inst t rest _ _). split; [|exact Un].
      apply (sim_iff _ _ _ _ _ _ SIM U). exists (a, b, is_, ads), calls, n, s'. repeat split; auto; cbn [fst snd].
      + now apply (rlist_mapM (fun s => val_s s)).
      + now apply (rlist_mapM (fun s => val_p s)).
      + unfold env_of. now rewrite Hr, Ht.
  Qed.
End Top.
