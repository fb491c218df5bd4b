(** The reader and the protocol: [build_params] succeeds exactly on the byte strings that
    follow the protocol, with exactly the parameters the protocol describes. *)
From Coq Require Import String ZArith NArith Arith Bool Lia List Field.
From Verif Require Import Util Algebra Schema Plonk PowLagrange PlonkProofs BuildParams ReaderSpec ListFacts ReaderProofs.
Import ListNotations.

Section Main.
  Variable F : Fld.
  Variable M : Mod F.
  Add Field FF : (f_th F).
  Variables (PT SC : nat).
  Variable pt_decode : list Z -> option M.
  Variable sc_decode : list Z -> option F.
  Variable St : Type.
  Variable upd_pt : St -> M -> St.
  Variable upd_sc : St -> F -> St.
  Variable sqz : St -> option (F * St).
  Variable vk : vkey F M.
  Hypothesis PT_pos : (1 <= PT)%nat.
  Hypothesis wf : wf_vk vk.

  Local Notation follows := (follows F M PT SC pt_decode sc_decode St upd_pt upd_sc sqz).
  Local Notation read_point := (read_point F M PT pt_decode St upd_pt).
  Local Notation read_scalar := (read_scalar F SC sc_decode St upd_sc).
  Local Notation squeeze_scalar := (squeeze_scalar F St sqz).
  Local Notation build_params := (build_params F M PT SC pt_decode sc_decode St upd_pt upd_sc sqz vk).
  Local Notation reads := (reads F M PT SC pt_decode sc_decode St upd_pt upd_sc sqz).
  Local Notation fapp := (follows_app F M PT SC pt_decode sc_decode St upd_pt upd_sc sqz).
  Local Notation fcons := (follows_cons F M PT SC pt_decode sc_decode St upd_pt upd_sc sqz).
  Local Notation fone := (follows_one F M PT SC pt_decode sc_decode St upd_pt upd_sc sqz).

  Lemma common_scalar_iff s t a t' : common_scalar F St upd_sc s t = Some (a, t') <-> follows [EvKey s] t t'.
  Proof. rewrite fone. unfold common_scalar, ev_step. split; [intro E; now inversion E|intros ->; destruct a; reflexivity]. Qed.
  Lemma squeeze_instance_iff ins t a t' : squeeze_instance_commitment F M St upd_pt ins t = Some (a, t') <-> follows (map EvInst (concat ins)) t t'.
  Proof.
    assert (H1 : forall l t bs t', rmap (common_point F M St upd_pt) l t = Some (bs, t') <-> bs = repeat tt (length l) /\ follows (map EvInst l) t t').
    { induction l as [|P l IH]; intros u bs u'; cbn [rmap map length repeat].
      - rewrite rret_iff. reflexivity.
      - rewrite rbind_iff. split.
        + intros (b & u1 & E1 & E2). apply rbind_iff in E2 as (r & u2 & E2 & E3). apply rret_iff in E3 as [-> ->]. apply IH in E2 as [-> F2].
          inversion E1; subst. split; [reflexivity|]. apply fcons. eexists. split; [reflexivity|exact F2].
        + intros [-> F0]. apply fcons in F0 as (u1 & S & F0). exists tt, u1. split; [cbn in S; now rewrite S|]. apply rbind_iff. exists (repeat tt (length l)), u'. split; [now apply IH|now apply rret_iff]. }
    assert (H2 : forall l t bs t', rmap (rmap (common_point F M St upd_pt)) l t = Some (bs, t') <-> bs = map (fun x => repeat tt (length x)) l /\ follows (map EvInst (concat l)) t t').
    { induction l as [|P l IH]; intros u bs u'; cbn [rmap map concat].
      - rewrite rret_iff. reflexivity.
      - rewrite map_app, fapp, rbind_iff. split.
        + intros (b & u1 & E1 & E2). apply rbind_iff in E2 as (r & u2 & E2 & E3). apply rret_iff in E3 as [-> ->]. apply IH in E2 as [-> F2].
          apply H1 in E1 as [-> F1]. split; [reflexivity|]. exists u1; auto.
        + intros [-> (u1 & F1 & F2)]. eexists _, u1. split; [apply H1; split; [reflexivity|exact F1]|]. apply rbind_iff. eexists _, u'. split; [apply IH; split; [reflexivity|exact F2]|now apply rret_iff]. }
    unfold squeeze_instance_commitment. rewrite rbind_iff. split.
    - intros (b & t1 & E1 & E2). apply rret_iff in E2 as [_ ->]. now apply H2 in E1 as [_ F0].
    - intro F0. eexists _, t'. split; [apply H2; split; [reflexivity|exact F0]|]. destruct a. now apply rret_iff.
  Qed.

  (** The permutation argument. *)
  Lemma query_index_iff qs c i : query_index qs c = Some i <->
    nth_error qs i = Some (c, 0%Z) /\ forall j, (j < i)%nat -> nth_error qs j <> Some (c, 0%Z).
  Proof.
    revert i. induction qs as [|[c' a] qs IH]; intro i; cbn [query_index].
    - split; [discriminate|]. intros [H _]. destruct i; discriminate.
    - destruct (Nat.eqb c' c && Z.eqb a 0) eqn:E.
      + apply andb_true_iff in E. destruct E as [E1 E2]. apply Nat.eqb_eq in E1. apply Z.eqb_eq in E2. subst c' a. split.
        * intros [= <-]. split; [reflexivity|]. intros j Hj. lia.
        * intros [_ H]. destruct i; [reflexivity|]. exfalso. apply (H O); [lia|reflexivity].
      + assert (Ne : (c', a) <> (c, 0%Z)) by (intros [= -> ->]; rewrite Nat.eqb_refl in E; discriminate).
        split.
        * destruct (query_index qs c) as [k|]; [|discriminate]. intros [= <-]. destruct (proj1 (IH k) eq_refl) as [H1 H2]. split; [exact H1|].
          intros [|j] Hj; cbn [nth_error]; [congruence|]. apply H2. lia.
        * intros [H1 H2]. destruct i as [|i]; [cbn in H1; congruence|]. rewrite (proj2 (IH i)); [reflexivity|]. split; [exact H1|].
          intros j Hj. apply (H2 (S j)). lia.
  Qed.
  Lemma column_eval_eq a i f c e : column_eval F M vk a i f c = Some e <-> permuted_eval vk a i f c e.
  Proof.
    assert (G : forall qs (evals : list F), (do k <- query_index qs (snd c); nth_error evals k) = Some e <-> opened_cur F qs evals (snd c) e).
    { intros qs evals. unfold opened_cur. split.
      - destruct (query_index qs (snd c)) as [k|] eqn:E; [|discriminate]. apply query_index_iff in E. intro H. exists k. tauto.
      - intros (k & H1 & H2 & H3). rewrite (proj2 (query_index_iff _ _ _) (conj H1 H2)). exact H3. }
    destruct c as [[] n]; apply G.
  Qed.
  Lemma build_permutation_iff key (p : params F M) (k : nat) (cs : list (list M)) t r t' :
    length cs = k -> length (p_advice_evals p) = k -> length (p_instance_evals p) = k ->
    build_permutation_evaluated F M SC sc_decode St upd_sc vk key (p_x p) cs (p_advice_evals p) (p_instance_evals p) (p_fixed_evals p) t = Some (r, t') <->
    (length r = k /\ cs = map (fun pe => map ps_commitment (pe_sets pe)) r /\
     forall i pe, nth_error r i = Some pe -> permutation_static vk key p i pe) /\
    follows (map EvScalar (flat_map set_evals (flat_map pe_sets r))) t t'.
  Proof.
    intros Lc La Li. unfold build_permutation_evaluated. rewrite rbind_iff.
    assert (RS := read_all_sets_iff F M PT SC pt_decode sc_decode St upd_pt upd_sc sqz).
    assert (FC : forall r : list (perm_evaluated F M), concat (map pe_sets r) = flat_map pe_sets r) by (intro l; induction l as [|x l IH]; cbn; [reflexivity|now rewrite IH]).
    split.
    - intros (sets & t1 & E1 & E). apply RS in E1 as [Q1 F1]. apply rbind_iff in E as (evals & t2 & E2 & E). apply rlift_iff in E2 as [E2 ->]. apply rret_iff in E as [-> ->].
      apply mapM_Forall2 in E2. assert (Ls := Forall2_length _ _ _ Q1). assert (Le := Forall2_length _ _ _ E2). rewrite combine_length, La, Li, Nat.min_id in Le.
      apply Forall2_nth in Q1 as [_ Q1]. apply Forall2_nth in E2 as [_ E2].
      assert (LR : length (perm_keys_and_evals F M vk key (p_x p) sets evals) = k) by (unfold perm_keys_and_evals; rewrite map_length, enumerate_length, combine_length; lia).
      assert (NR : forall i pe, nth_error (perm_keys_and_evals F M vk key (p_x p) sets evals) i = Some pe ->
                   exists s e, nth_error sets i = Some s /\ nth_error evals i = Some e /\ pe = mkPE (key ++ "_" ++ fmt_nat i)%string (vk_blinding vk) (p_x p) s e (vk_degree vk - 2)%nat).
      { intros i pe E. unfold perm_keys_and_evals in E. rewrite nth_error_map in E. destruct (nth_error (enumerate (combine sets evals)) i) as [[j [s e]]|] eqn:En; [|discriminate].
        apply enumerate_nth_error in En as [-> En]. apply combine_nth_error in En as [Es Ee]. exists s, e. cbn in E. inversion E. auto. }
      assert (PS : map pe_sets (perm_keys_and_evals F M vk key (p_x p) sets evals) = sets).
      { apply nth_ext_err; [rewrite map_length; lia|]. intros i x y Ex Ey. rewrite nth_error_map in Ex. destruct (nth_error _ i) as [pe|] eqn:En in Ex; [|discriminate].
        destruct (NR _ _ En) as (s & e & Es & _ & ->). cbn in Ex. congruence. }
      split; [split; [exact LR|split]|].
      + rewrite <- (map_map pe_sets (map ps_commitment)), PS. apply nth_ext_err; [rewrite map_length; congruence|]. intros i x y Ex Ey. rewrite nth_error_map in Ey.
        destruct (nth_error sets i) as [s|] eqn:Es; [|discriminate]. cbn in Ey. destruct (Q1 _ _ _ Ex Es) as [Q _]. congruence.
      + intros i pe E. assert (I : (i < k)%nat) by (rewrite <- LR; apply nth_error_Some; congruence). destruct (NR _ _ E) as (s & e & Es & Ee & ->).
        unfold permutation_static. cbn [pe_key pe_blinding_factors pe_x pe_chunk_len pe_sets pe_evals]. repeat (split; [reflexivity|]). split.
        * destruct (nth_error_ex cs i) as [c Ec]; [lia|]. exact (proj2 (Q1 _ _ _ Ec Es)).
        * destruct (nth_error_ex (p_advice_evals p) i) as [a Ea]; [lia|]. destruct (nth_error_ex (p_instance_evals p) i) as [n En]; [lia|]. exists a, n. repeat split; auto.
          specialize (E2 i (a, n) e (proj2 (combine_nth_error _ _ _ _ _) (conj Ea En)) Ee). apply mapM_Forall2 in E2. cbn [fst snd] in E2.
          eapply Forall2_weaken; [|exact E2]. intros x y. cbv beta. now apply column_eval_eq.
      + rewrite <- FC, PS. exact F1.
    - intros [(LR & -> & St0) F0]. exists (map pe_sets r), t'. split.
      + apply RS. rewrite FC. split; [|exact F0]. apply Forall2_nth. split; [now rewrite !map_length|]. intros i x y Ex Ey. rewrite nth_error_map in Ex, Ey.
        destruct (nth_error r i) as [pe|] eqn:E; [|discriminate]. cbn in Ex, Ey. inversion Ex; inversion Ey; subst. split; [reflexivity|]. now destruct (St0 _ _ E) as (_ & _ & _ & _ & H & _).
      + apply rbind_iff. exists (map pe_evals r), t'. split.
        * apply rlift_iff. split; [|reflexivity]. apply mapM_Forall2. apply Forall2_nth. split; [rewrite map_length, combine_length; lia|].
          intros i [a n] e Ec Ee. apply combine_nth_error in Ec as [Ea En]. rewrite nth_error_map in Ee. destruct (nth_error r i) as [pe|] eqn:E; [|discriminate]. cbn in Ee. inversion Ee; subst.
          destruct (St0 _ _ E) as (_ & _ & _ & _ & _ & a' & n' & Ea' & En' & H). rewrite Ea in Ea'. rewrite En in En'. inversion Ea'; inversion En'; subst. cbn [fst snd].
          apply mapM_Forall2. eapply Forall2_weaken; [|exact H]. intros x y Hxy. now apply column_eval_eq.
        * apply rret_iff. split; [|reflexivity]. unfold perm_keys_and_evals. apply nth_ext_err; [rewrite map_length, enumerate_length, combine_length, !map_length; lia|].
          intros i x y Ex Ey. rewrite nth_error_map in Ey. destruct (nth_error (enumerate _) i) as [[j [s e]]|] eqn:En; [|discriminate].
          apply enumerate_nth_error in En as [-> En]. apply combine_nth_error in En as [Es Ee]. rewrite nth_error_map, Ex in Es, Ee. cbn in Es, Ee, Ey. inversion Es; inversion Ee; inversion Ey; subst.
          destruct (St0 _ _ Ex) as (A & B & C & D & _). destruct x as [a1 a2 a3 a4 a5 a6]. cbn in A, B, C, D. cbn [pe_sets pe_evals]. unfold chunk_len. now subst.
  Qed.

  Lemma rotate_ok (x r : F) (at_ : Z) : rotate_omega x (vk_omega vk) at_ = Some r <->
    (if (0 <=? at_)%Z then r = fmul x (fpow (vk_omega vk) (Z.to_nat at_)) else fmul r (fpow (vk_omega vk) (Z.to_nat (- at_))) = x).
  Proof.
    destruct wf as (_ & _ & _ & _ & _ & _ & O & _).
    assert (Ex : exists r', rotate_omega x (vk_omega vk) at_ = Some r').
    { unfold rotate_omega. destruct (Z.ltb at_ 0); [destruct (feq_dec (vk_omega vk) f0); [contradiction|]|]; eexists; reflexivity. }
    destruct Ex as [r' E]. destruct (rotate_omega_val F _ _ _ _ E) as [H1 H2]. rewrite E. destruct (Z.leb_spec 0 at_) as [L|L].
    - rewrite (H1 L). split; [intro X; now inversion X|now intros ->].
    - destruct (H2 L) as [_ H]. clear H1 H2. split; [intro X; assert (X' : r' = r) by congruence; rewrite <- X'; exact H|]. intro H'. f_equal.
      assert (NZ : fpow (vk_omega vk) (Z.to_nat (- at_)) <> f0) by (apply fpow_neq0; exact O).
      apply (fmul_cancel_l F (fpow (vk_omega vk) (Z.to_nat (- at_)))); [exact NZ|]. transitivity x; [rewrite <- H|rewrite <- H']; ring.
  Qed.

  Lemma all_len_nth {X} n (l : list (list X)) : all_len n l <-> forall i x, nth_error l i = Some x -> length x = n.
  Proof.
    unfold all_len. rewrite Forall_forall. split; intros H.
    - intros i x E. apply H. eapply nth_error_In; exact E.
    - intros x I. apply In_nth_error in I as [i E]. eapply H; exact E.
  Qed.
  Lemma le_pair_flat (l : list (lookup_evaluated F M)) :
    flat_map (fun it : M * M => [fst it; snd it]) (map (le_pair F M) l) = flat_map (fun l => [le_permuted_input_commitment l; le_permuted_table_commitment l]) l.
  Proof. induction l as [|a l IH]; cbn; [reflexivity|now rewrite IH]. Qed.
  Lemma sets_flat (l : list (perm_evaluated F M)) : concat (map (fun pe => map ps_commitment (pe_sets pe)) l) = map ps_commitment (flat_map pe_sets l).
  Proof. induction l as [|a l IH]; cbn; [reflexivity|now rewrite IH, map_app]. Qed.
  Lemma pow_n (x : F) : pow_constant POW_FUEL x (vk_n vk mod 2 ^ 32) = Some (fpow x (N.to_nat (vk_n vk))).
  Proof.
    destruct wf as (_ & _ & _ & _ & _ & _ & _ & Hn). rewrite N.mod_small by (change (2 ^ 31)%N with 2147483648%N in Hn; change (2 ^ 32)%N with 4294967296%N; lia).
    apply pow_constant_ok; [exact Hn|unfold POW_FUEL; lia].
  Qed.
  Lemma n_small : (vk_n vk mod 2 ^ 32)%N = vk_n vk.
  Proof. destruct wf as (_ & _ & _ & _ & _ & _ & _ & Hn). apply N.mod_small. change (2 ^ 31)%N with 2147483648%N in Hn; change (2 ^ 32)%N with 4294967296%N; lia. Qed.

  Theorem build_params_iff key instances t p t' :
    build_params key instances t = Some (p, t') <->
    determined vk key instances p /\ shaped vk (length instances) p /\ follows (protocol vk p) t t'.
  Proof.
    destruct wf as (ND & La & Lc & Ia & Ic & Dg & O & Hn).
    assert (PO : phases_ok F M vk) by (repeat split; auto).
    assert (Deg : Nat.leb (vk_degree vk) 2 = false) by (apply Nat.leb_gt; lia).
    unfold BuildParams.build_params, build_params_with. rewrite Deg.
    assert (Hadv := read_advice_iff F M PT SC pt_decode sc_decode St upd_pt upd_sc sqz vk (length instances) PO).
    assert (Hsq := squeeze_iff F M PT SC pt_decode sc_decode St upd_pt upd_sc sqz).
    assert (Hpt := read_point_iff F M PT SC pt_decode sc_decode St upd_pt upd_sc sqz).
    assert (Hsc := read_scalar_iff F M PT SC pt_decode sc_decode St upd_pt upd_sc sqz).
    assert (Hlp := read_lookups_permuted_iff F M PT SC pt_decode sc_decode St upd_pt upd_sc sqz vk (length instances)).
    assert (Hnp := load_n_points_iff F M PT SC pt_decode sc_decode St upd_pt upd_sc sqz).
    assert (Hns := load_n_scalars_iff F M PT SC pt_decode sc_decode St upd_pt upd_sc sqz).
    assert (Hnmp := load_n_m_points_iff F M PT SC pt_decode sc_decode St upd_pt upd_sc sqz).
    assert (Hnms := load_n_m_scalars_iff F M PT SC pt_decode sc_decode St upd_pt upd_sc sqz).
    assert (Hlc := @lookups_committed_iff F M PT SC pt_decode sc_decode St upd_pt upd_sc sqz (M * M)).
    assert (Hw := while_iff F M PT SC pt_decode sc_decode St upd_pt upd_sc sqz PT_pos).
    assert (Hbl := build_lookup_iff F M PT SC pt_decode sc_decode St upd_pt upd_sc sqz vk key).
    split.
    - intro E.
      apply rbind_iff in E as (u0 & t0 & E0 & E). apply common_scalar_iff in E0.
      apply rbind_iff in E as (u1 & t1 & E1 & E). apply squeeze_instance_iff in E1.
      apply rbind_iff in E as ([advice challenges] & t2 & E2 & E). apply Hadv in E2 as [((La1 & La2) & La3) E2]. cbn [fst snd] in La1, La2, La3, E2.
      apply rbind_iff in E as (theta & t3 & E3 & E). apply Hsq in E3 as [_ E3].
      apply rbind_iff in E as (permuted & t4 & E4 & E). apply Hlp in E4 as [[Lp1 Lp2] E4].
      apply rbind_iff in E as (beta & t5 & E5 & E). apply Hsq in E5 as [_ E5].
      apply rbind_iff in E as (gamma & t6 & E6 & E). apply Hsq in E6 as [_ E6].
      apply rbind_iff in E as (perms & t7 & E7 & E). apply Hnmp in E7 as [[Lq1 Lq2] E7].
      apply rbind_iff in E as (committed & t8 & E8 & E). apply Hlc in E8 as [Qc E8].
      apply rbind_iff in E as (random & t9 & E9 & E). apply Hpt in E9 as [_ E9].
      apply rbind_iff in E as (y & t10 & E10 & E). apply Hsq in E10 as [_ E10].
      apply rbind_iff in E as (h & t11 & E11 & E). apply Hnp in E11 as [Lh E11].
      apply rbind_iff in E as (x & t12 & E12 & E). apply Hsq in E12 as [_ E12].
      apply rbind_iff in E as (ie & t13 & E13 & E). apply Hnms in E13 as [[Li1 Li2] E13].
      apply rbind_iff in E as (ae & t14 & E14 & E). apply Hnms in E14 as [[Le1 Le2] E14].
      apply rbind_iff in E as (fe & t15 & E15 & E). apply Hns in E15 as [Lf E15].
      apply rbind_iff in E as (re & t16 & E16 & E). apply Hsc in E16 as [_ E16].
      apply rbind_iff in E as (pev & t17 & E17 & E). apply Hns in E17 as [Lpe E17].
      apply rbind_iff in E as (permutation & t18 & E18 & E).
      apply rbind_iff in E as (lookup & t19 & E19 & E).
      apply (Hbl permuted committed Lp2 Qc) in E19 as [(Ll & Ep & Ec & Hls) E19].
      apply rbind_iff in E as (v & t20 & E20 & E). apply Hsq in E20 as [_ E20].
      apply rbind_iff in E as (w & t21 & E21 & E). apply Hw in E21 as [_ E21].
      apply rbind_iff in E as (u & t22 & E22 & E). apply Hsq in E22 as [_ E22].
      apply rbind_iff in E as (xnext & t23 & E23 & E). apply rlift_iff in E23 as [E23 ->]. apply rotate_ok in E23.
      apply rbind_iff in E as (xlast & t24 & E24 & E). apply rlift_iff in E24 as [E24 ->]. apply rotate_ok in E24.
      apply rbind_iff in E as (xinv & t25 & E25 & E). apply rlift_iff in E25 as [E25 ->]. apply rotate_ok in E25.
      apply rbind_iff in E as (xn & t26 & E26 & E). apply rlift_iff in E26 as [E26 ->]. rewrite pow_n in E26. inversion E26; subst xn. clear E26.
      apply rret_iff in E as [Ep0 ->].
      assert (Px : x = p_x p) by (rewrite Ep0; reflexivity). assert (Pae : ae = p_advice_evals p) by (rewrite Ep0; reflexivity).
      assert (Pie : ie = p_instance_evals p) by (rewrite Ep0; reflexivity). assert (Pfe : fe = p_fixed_evals p) by (rewrite Ep0; reflexivity).
      rewrite Px, Pae, Pie, Pfe in E18. apply (build_permutation_iff key p (length instances)) in E18; [|exact Lq1|now rewrite <- Pae|now rewrite <- Pie].
      destruct E18 as [(Lr & Er & Hst) E18]. clear Px Pae Pie Pfe.
      split; [|split].
      + subst p. unfold determined. cbn [p_key p_gates p_l p_lookup p_permutation p_instance_commitments p_instance_queries p_advice_queries p_fixed_queries p_fixed_commitments
          p_permutation_commitments p_delta p_x p_x_next p_x_last p_x_inv p_xn p_omega p_zero p_one p_n].
        repeat (split; [reflexivity|]). split; [unfold of_N; now rewrite n_small|]. split; [cbn in E23; change (Pos.to_nat 1) with 1%nat in E23; cbn [fpow] in E23; rewrite E23; ring|].
        split; [|split; [|split; [reflexivity|split; [exact Hls|exact Hst]]]].
        * destruct (Z.leb_spec 0 (- Z.of_nat (vk_blinding vk + 1))) as [C|C]; [lia|]. rewrite Z.opp_involutive, Nat2Z.id in E24. exact E24.
        * cbn in E25. change (Pos.to_nat 1) with 1%nat in E25. cbn [fpow] in E25. rewrite <- E25. ring.
      + subst p. unfold shaped. cbn [p_advice_commitments p_challenges p_lookup p_permutation p_vanish_commitments p_instance_evals p_advice_evals p_fixed_evals p_permutation_evals].
        repeat (split; [assumption|]). split; [congruence|]. split; [|split; [exact Lr|split; [|repeat split; assumption]]].
        * apply all_len_nth. intros i ls En. exact (proj1 (Hls _ _ En)).
        * apply all_len_nth. intros i ls En. rewrite nth_error_map in En. destruct (nth_error permutation i) as [pe|] eqn:Epe; [|discriminate]. cbn in En. inversion En; subst ls.
          rewrite all_len_nth in Lq2. rewrite <- (map_length ps_commitment). eapply (Lq2 i). rewrite Er, nth_error_map, Epe. reflexivity.
      + subst p. unfold protocol. cbn [p_advice_commitments p_instance_commitments p_challenges p_lookup p_permutation p_vanish_commitments p_instance_evals p_advice_evals p_fixed_evals p_permutation_evals
          p_theta p_beta p_gamma p_y p_x p_v p_u p_w p_random_commitment p_random_eval].
        change (EvKey (vk_hash vk) :: ?l) with ([@EvKey F M (vk_hash vk)] ++ l). apply fapp. exists t0. split; [exact E0|].
        apply fapp. exists t1. split; [exact E1|]. apply fapp. exists t2. split; [exact E2|]. apply fapp. exists t3. split; [exact E3|].
        apply fapp. exists t4. split; [unfold pair_events in E4; rewrite Ep, <- concat_map, le_pair_flat in E4; exact E4|].
        change ([EvChal beta; EvChal gamma]) with ([@EvChal F M beta] ++ [EvChal gamma]). rewrite <- (app_assoc [EvChal beta]). apply fapp. exists t5. split; [exact E5|]. apply fapp. exists t6. split; [exact E6|].
        rewrite !map_app, <- !app_assoc. apply fapp. exists t7. split; [rewrite Er, sets_flat in E7; exact E7|].
        apply fapp. exists t8. split; [rewrite Ec, <- concat_map in E8; exact E8|]. apply fapp. exists t9. split; [exact E9|].
        apply fapp. exists t10. split; [exact E10|]. apply fapp. exists t11. split; [exact E11|]. apply fapp. exists t12. split; [exact E12|].
        apply fapp. exists t13. split; [exact E13|]. apply fapp. exists t14. split; [exact E14|]. apply fapp. exists t15. split; [exact E15|].
        apply fapp. exists t16. split; [exact E16|]. apply fapp. exists t17. split; [exact E17|]. apply fapp. exists t18. split; [exact E18|].
        apply fapp. exists t19. split; [exact E19|]. apply fapp. exists t20. split; [exact E20|].
        change ([EvStop; EvChal u]) with ([@EvStop F M] ++ [EvChal u]). rewrite app_assoc. apply fapp. exists t21. split; [exact E21|exact E22].
    - intros (D & S & F0).
      destruct D as (D1 & D2 & D3 & D4 & D5 & D6 & D7 & D8 & D9 & D10 & D11 & D12 & D13 & D14 & D15 & D16 & D17 & D18 & D19 & D20).
      destruct S as (S1 & S2 & S3 & S4 & S5 & S6 & S7 & S8 & S9 & S10 & S11 & S12 & S13 & S14).
      unfold protocol in F0.
      change (EvKey (vk_hash vk) :: ?l) with ([@EvKey F M (vk_hash vk)] ++ l) in F0. apply fapp in F0 as (t0 & F1 & F0).
      apply fapp in F0 as (t1 & F2 & F0). rewrite D4 in F2. apply fapp in F0 as (t2 & F3 & F0). apply fapp in F0 as (t3 & F4 & F0). apply fapp in F0 as (t4 & F5 & F0).
      change ([EvChal (p_beta p); EvChal (p_gamma p)]) with ([@EvChal F M (p_beta p)] ++ [EvChal (p_gamma p)]) in F0. rewrite <- (app_assoc [EvChal (p_beta p)]) in F0.
      apply fapp in F0 as (t5 & F6 & F0). apply fapp in F0 as (t6 & F7 & F0). rewrite !map_app, <- !app_assoc in F0.
      apply fapp in F0 as (t7 & F8 & F0). apply fapp in F0 as (t8 & F9 & F0). apply fapp in F0 as (t9 & F10 & F0). apply fapp in F0 as (t10 & F11 & F0).
      apply fapp in F0 as (t11 & F12 & F0). apply fapp in F0 as (t12 & F13 & F0). apply fapp in F0 as (t13 & F14 & F0). apply fapp in F0 as (t14 & F15 & F0).
      apply fapp in F0 as (t15 & F16 & F0). apply fapp in F0 as (t16 & F17 & F0). apply fapp in F0 as (t17 & F18 & F0). apply fapp in F0 as (t18 & F19 & F0).
      apply fapp in F0 as (t19 & F20 & F0). apply fapp in F0 as (t20 & F21 & F0).
      change ([EvStop; EvChal (p_u p)]) with ([@EvStop F M] ++ [EvChal (p_u p)]) in F0. rewrite app_assoc in F0. apply fapp in F0 as (t21 & F22 & F23).
      assert (LPp : all_len (length (vk_lookups vk)) (map (map (le_pair F M)) (p_lookup p))).
      { apply all_len_nth. intros i x E. rewrite nth_error_map in E. destruct (nth_error (p_lookup p) i) eqn:El; [|discriminate]. cbn in E. inversion E. rewrite map_length. rewrite all_len_nth in S5. eapply S5; exact El. }
      assert (LCc : Forall2 (fun (a : list (M * M)) (b : list M) => length b = length a) (map (map (le_pair F M)) (p_lookup p)) (map (map le_product_commitment) (p_lookup p))).
      { clear. induction (p_lookup p) as [|a l IH]; cbn; constructor; [now rewrite !map_length|exact IH]. }
      apply rbind_iff. exists tt, t0. split; [now apply common_scalar_iff|].
      apply rbind_iff. exists tt, t1. split; [now apply squeeze_instance_iff|].
      apply rbind_iff. exists (p_advice_commitments p, p_challenges p), t2. split; [apply Hadv; cbn [fst snd]; auto|]. cbv beta iota.
      apply rbind_iff. exists (p_theta p), t3. split; [apply Hsq; auto|].
      apply rbind_iff. exists (map (map (le_pair F M)) (p_lookup p)), t4. split; [apply Hlp; split; [split; [now rewrite map_length|exact LPp]|]|].
      { unfold pair_events. rewrite <- concat_map, le_pair_flat. exact F5. }
      apply rbind_iff. exists (p_beta p), t5. split; [apply Hsq; auto|].
      apply rbind_iff. exists (p_gamma p), t6. split; [apply Hsq; auto|].
      apply rbind_iff. exists (map (fun pe => map ps_commitment (pe_sets pe)) (p_permutation p)), t7. split.
      { apply Hnmp. split; [|rewrite sets_flat; exact F8]. split; [now rewrite map_length|]. apply all_len_nth. intros i x E. rewrite nth_error_map in E. destruct (nth_error (p_permutation p) i) as [pe|] eqn:El; [|discriminate].
        cbn in E. inversion E. rewrite map_length. rewrite all_len_nth in S7. apply (S7 i). now rewrite nth_error_map, El. }
      apply rbind_iff. exists (map (map le_product_commitment) (p_lookup p)), t8. split; [apply Hlc; split; [exact LCc|rewrite <- concat_map; exact F9]|].
      apply rbind_iff. exists (p_random_commitment p), t9. split; [apply Hpt; auto|].
      apply rbind_iff. exists (p_y p), t10. split; [apply Hsq; auto|].
      apply rbind_iff. exists (p_vanish_commitments p), t11. split; [apply Hnp; auto|].
      apply rbind_iff. exists (p_x p), t12. split; [apply Hsq; auto|].
      apply rbind_iff. exists (p_instance_evals p), t13. split; [apply Hnms; auto|].
      apply rbind_iff. exists (p_advice_evals p), t14. split; [apply Hnms; auto|].
      apply rbind_iff. exists (p_fixed_evals p), t15. split; [apply Hns; auto|].
      apply rbind_iff. exists (p_random_eval p), t16. split; [apply Hsc; auto|].
      apply rbind_iff. exists (p_permutation_evals p), t17. split; [apply Hns; auto|].
      apply rbind_iff. exists (p_permutation p), t18. split; [apply (build_permutation_iff key p (length instances)); [now rewrite map_length|exact S11|exact S9|auto]|].
      apply rbind_iff. exists (p_lookup p), t19. split; [apply (Hbl _ _ LPp LCc); split; [|exact F20]; rewrite map_length; auto|].
      apply rbind_iff. exists (p_v p), t20. split; [apply Hsq; auto|].
      apply rbind_iff. exists (p_w p), t21. split; [apply Hw; auto|].
      apply rbind_iff. exists (p_u p), t'. split; [apply Hsq; auto|].
      apply rbind_iff. exists (p_x_next p), t'. split; [apply rlift_iff; split; [|reflexivity]; apply rotate_ok; rewrite D15; cbn; change (Pos.to_nat 1) with 1%nat; cbn [fpow]; ring|].
      apply rbind_iff. exists (p_x_last p), t'. split; [apply rlift_iff; split; [|reflexivity]; apply rotate_ok|].
      { destruct (Z.leb_spec 0 (- Z.of_nat (vk_blinding vk + 1))) as [C|C]; [lia|]. rewrite Z.opp_involutive, Nat2Z.id. exact D16. }
      apply rbind_iff. exists (p_x_inv p), t'. split; [apply rlift_iff; split; [|reflexivity]; apply rotate_ok|].
      { cbn. change (Pos.to_nat 1) with 1%nat. cbn [fpow]. rewrite <- D17. ring. }
      apply rbind_iff. exists (p_xn p), t'. split; [apply rlift_iff; split; [|reflexivity]; rewrite pow_n, D18; reflexivity|].
      apply rret_iff. split; [|reflexivity]. unfold of_N. rewrite n_small. rewrite <- D14, <- D2, <- D3, <- D5, <- D6, <- D7, <- D8, <- D9, <- D10, <- D11, <- D12, <- D13, <- D4, <- D1. destruct p; reflexivity.
  Qed.
End Main.
