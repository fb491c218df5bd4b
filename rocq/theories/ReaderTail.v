(** Bytes after the part of the proof that is read. *)
From Coq Require Import String ZArith NArith Arith Bool Lia List.
From Verif Require Import Util Algebra Schema Plonk PlonkSpec MultiopenProofs ApiProofs BuildParams ReaderSpec ListFacts ReaderProofs ReaderMain.
Import ListNotations.

Section Tail.
  Variable F : Fld.
  Variable M : Mod F.
  Variables (PT SC : nat).
  Variable pt_decode : list Z -> option M.
  Variable sc_decode : list Z -> option F.
  Variable St : Type.
  Variable upd_pt : St -> M -> St.
  Variable upd_sc : St -> F -> St.
  Variable sqz : St -> option (F * St).
  Variable vk : vkey F M.

  Local Notation follows := (follows F M PT SC pt_decode sc_decode St upd_pt upd_sc sqz).
  Local Notation ev_step := (ev_step F M PT SC pt_decode sc_decode St upd_pt upd_sc sqz).
  Local Notation read_point := (read_point F M PT pt_decode St upd_pt).
  Local Notation read_scalar := (read_scalar F SC sc_decode St upd_sc).
  Local Notation squeeze_scalar := (squeeze_scalar F St sqz).
  Local Notation build_params := (build_params F M PT SC pt_decode sc_decode St upd_pt upd_sc sqz vk).
  Local Notation while_ := (load_points_while F M PT pt_decode St upd_pt).
  Local Notation fapp := (follows_app F M PT SC pt_decode sc_decode St upd_pt upd_sc sqz).

  (** more unread bytes *)
  Definition more (j : list Z) (t : tr St) : tr St := mkTr (t_rest t ++ j) (t_hash t).
  Definition mono {A} (m : R St A) : Prop := forall t a t1, m t = Some (a, t1) -> forall j, m (more j t) = Some (a, more j t1).

  Lemma mono_ret {A} (a : A) : mono (rret a).
  Proof. intros t b t1 E j. inversion E; subst. reflexivity. Qed.
  Lemma mono_lift {A} (o : option A) : mono (rlift o).
  Proof. intros t b t1 E j. unfold rlift in *. destruct o; inversion E; subst. reflexivity. Qed.
  Lemma mono_bind {A B} (m : R St A) (k : A -> R St B) : mono m -> (forall a, mono (k a)) -> mono (rbind m k).
  Proof. intros Hm Hk t b t1 E j. apply rbind_iff in E as (a & t2 & E1 & E2). apply rbind_iff. exists a, (more j t2). split; [now apply Hm|now apply Hk]. Qed.
  Lemma mono_map {A B} (f : A -> R St B) l : (forall a, mono (f a)) -> mono (rmap f l).
  Proof. intro H. induction l as [|a l IH]; cbn [rmap]; [apply mono_ret|]. apply mono_bind; [apply H|intro b]. apply mono_bind; [exact IH|intro r; apply mono_ret]. Qed.
  Lemma mono_times {B} n (m : R St B) : mono m -> mono (rtimes n m).
  Proof. intro H. apply mono_map. intros _. exact H. Qed.
  Lemma mono_decode {A} size (d : list Z -> option A) : mono (read_decode St size d).
  Proof.
    intros t a t1 E j. unfold read_decode, more in *. cbn [t_rest t_hash]. destruct (Nat.leb_spec size (length (t_rest t))) as [L|L]; [|discriminate].
    destruct (Nat.leb_spec size (length (t_rest t ++ j))) as [L'|L']; [|rewrite app_length in L'; lia].
    rewrite firstn_app, skipn_app. replace (size - length (t_rest t))%nat with 0%nat by lia. cbn [firstn skipn]. rewrite app_nil_r.
    destruct (d (firstn size (t_rest t))); inversion E; subst. reflexivity.
  Qed.
  Lemma mono_point : mono read_point.
  Proof. apply mono_bind; [apply mono_decode|]. intro P. apply mono_bind; [|intros _; apply mono_ret]. intros t a t1 E j. inversion E; subst. reflexivity. Qed.
  Lemma mono_scalar : mono read_scalar.
  Proof. apply mono_bind; [apply mono_decode|]. intro P. apply mono_bind; [|intros _; apply mono_ret]. intros t a t1 E j. inversion E; subst. reflexivity. Qed.
  Lemma mono_squeeze : mono squeeze_scalar.
  Proof. intros t a t1 E j. unfold BuildParams.squeeze_scalar, more in *. cbn [t_rest t_hash]. destruct (sqz (t_hash t)) as [[c h]|]; inversion E; subst. reflexivity. Qed.
  Lemma mono_common_scalar s : mono (common_scalar F St upd_sc s).
  Proof. intros t a t1 E j. inversion E; subst. reflexivity. Qed.
  Lemma mono_instance ins : mono (squeeze_instance_commitment F M St upd_pt ins).
  Proof. apply mono_bind; [|intro; apply mono_ret]. apply mono_map. intro l. apply mono_map. intros P t a t1 E j. inversion E; subst. reflexivity. Qed.
  Lemma mono_read_phase cur ps cells : mono (read_phase F M PT pt_decode St upd_pt cur ps cells).
  Proof.
    revert cells. induction ps as [|p ps IH]; intros [|c cells]; cbn [read_phase]; try apply mono_ret.
    apply mono_bind; [destruct (Nat.eqb cur p); [apply mono_bind; [apply mono_point|intro; apply mono_ret]|apply mono_ret]|].
    intro d. apply mono_bind; [apply IH|intro; apply mono_ret].
  Qed.
  Lemma mono_squeeze_phase cur ps cells : mono (squeeze_phase F St sqz cur ps cells).
  Proof.
    revert cells. induction ps as [|p ps IH]; intros [|c cells]; cbn [squeeze_phase]; try apply mono_ret.
    apply mono_bind; [destruct (Nat.eqb cur p); [apply mono_squeeze|apply mono_ret]|].
    intro d. apply mono_bind; [apply IH|intro; apply mono_ret].
  Qed.
  Lemma mono_phases phases adv ch : mono (read_phases F M PT pt_decode St upd_pt sqz vk phases adv ch).
  Proof.
    revert adv ch. induction phases as [|c phases IH]; intros adv ch; cbn [read_phases]; [apply mono_ret|].
    apply mono_bind; [apply mono_map; intro; apply mono_read_phase|intro a]. apply mono_bind; [apply mono_squeeze_phase|intro b]. apply IH.
  Qed.
  Lemma mono_advice k : mono (read_advice F M PT pt_decode St upd_pt sqz vk k).
  Proof. apply mono_bind; [apply mono_phases|intro ac]. apply mono_bind; [apply mono_lift|intro; apply mono_ret]. Qed.
  Lemma mono_permuted k : mono (read_lookups_permuted F M PT pt_decode St upd_pt vk k).
  Proof. apply mono_times. apply mono_times. apply mono_bind; [apply mono_point|intro]. apply mono_bind; [apply mono_point|intro; apply mono_ret]. Qed.
  Lemma mono_sets cs : mono (read_sets F M SC sc_decode St upd_sc cs).
  Proof.
    induction cs as [|c cs IH]; cbn [read_sets]; [apply mono_ret|]. apply mono_bind; [apply mono_scalar|intro]. apply mono_bind; [apply mono_scalar|intro].
    apply mono_bind; [destruct cs; [apply mono_ret|apply mono_bind; [apply mono_scalar|intro; apply mono_ret]]|intro]. apply mono_bind; [apply IH|intro; apply mono_ret].
  Qed.
  Lemma mono_permutation key x cs ae ie fe : mono (build_permutation_evaluated F M SC sc_decode St upd_sc vk key x cs ae ie fe).
  Proof. apply mono_bind; [apply mono_map; apply mono_sets|intro]. apply mono_bind; [apply mono_lift|intro; apply mono_ret]. Qed.
  Lemma mono_lookup key p c : mono (build_lookup_evaluated F M SC sc_decode St upd_sc vk key p c).
  Proof.
    apply mono_map. intros [i [a b]]. apply mono_map. intros [j [[[pi pt] pr] [ie te]]]. cbn [read_lookup].
    do 5 (apply mono_bind; [apply mono_scalar|intro]). apply mono_ret.
  Qed.

  Lemma rbind_step {A B} (m : R St A) (k : A -> R St B) t a t1 : m t = Some (a, t1) -> rbind m k t = k a t1.
  Proof. unfold rbind. now intros ->. Qed.

  (** the same parameters with other opening points and batching challenge *)
  Definition with_w (p : params F M) (w : list M) (u : F) : params F M :=
    mkParams (p_key p) (p_gates p) (p_l p) (p_lookup p) (p_permutation p) (p_instance_commitments p) (p_instance_evals p)
      (p_instance_queries p) (p_challenges p) (p_advice_commitments p) (p_advice_evals p) (p_advice_queries p)
      (p_fixed_commitments p) (p_fixed_evals p) (p_fixed_queries p) (p_permutation_commitments p) (p_permutation_evals p)
      (p_vanish_commitments p) (p_random_commitment p) w (p_random_eval p) (p_beta p) (p_gamma p) (p_theta p) (p_delta p)
      (p_x p) (p_x_next p) (p_x_last p) (p_x_inv p) (p_xn p) (p_y p) u (p_v p) (p_omega p) (p_zero p) (p_one p) (p_n p).

  Lemma build_params_split key ins t p t' : build_params key ins t = Some (p, t') ->
    exists tv tw, while_ (S (length (t_rest tv))) tv = Some (p_w p, tw) /\ sqz (t_hash tw) = Some (p_u p, t_hash t') /\ t_rest t' = t_rest tw /\
    forall j w' tw', while_ (S (length (t_rest (more j tv)))) (more j tv) = Some (w', tw') ->
      build_params key ins (more j t) =
      match sqz (t_hash tw') with Some (u', h) => Some (with_w p w' u', mkTr (t_rest tw') h) | None => None end.
  Proof.
    unfold BuildParams.build_params, build_params_with. destruct (Nat.leb (vk_degree vk) 2); [discriminate|]. intro E.
    apply rbind_iff in E as (u0 & t0 & E0 & E).
    apply rbind_iff in E as (u1 & t1 & E1 & E).
    apply rbind_iff in E as ([advice challenges] & t2 & E2 & E).
    apply rbind_iff in E as (theta & t3 & E3 & E).
    apply rbind_iff in E as (permuted & t4 & E4 & E).
    apply rbind_iff in E as (beta & t5 & E5 & E).
    apply rbind_iff in E as (gamma & t6 & E6 & E).
    apply rbind_iff in E as (perms & t7 & E7 & E).
    apply rbind_iff in E as (committed & t8 & E8 & E).
    apply rbind_iff in E as (random & t9 & E9 & E).
    apply rbind_iff in E as (y & t10 & E10 & E).
    apply rbind_iff in E as (h & t11 & E11 & E).
    apply rbind_iff in E as (x & t12 & E12 & E).
    apply rbind_iff in E as (ie & t13 & E13 & E).
    apply rbind_iff in E as (ae & t14 & E14 & E).
    apply rbind_iff in E as (fe & t15 & E15 & E).
    apply rbind_iff in E as (re & t16 & E16 & E).
    apply rbind_iff in E as (pev & t17 & E17 & E).
    apply rbind_iff in E as (permutation & t18 & E18 & E).
    apply rbind_iff in E as (lookup & t19 & E19 & E).
    apply rbind_iff in E as (v & t20 & E20 & E).
    apply rbind_iff in E as (w & t21 & E21 & E).
    apply rbind_iff in E as (u & t22 & E22 & E).
    apply rbind_iff in E as (xnext & t23 & E23 & E).
    apply rbind_iff in E as (xlast & t24 & E24 & E).
    apply rbind_iff in E as (xinv & t25 & E25 & E).
    apply rbind_iff in E as (xn & t26 & E26 & E).
    apply rret_iff in E as [-> ->].
    apply rlift_iff in E23 as [E23 ->], E24 as [E24 ->], E25 as [E25 ->], E26 as [E26 ->].
    exists t20, t21. cbn [p_w p_u]. split; [exact E21|].
    unfold BuildParams.squeeze_scalar in E22. destruct (sqz (t_hash t21)) as [[cu hu]|] eqn:Eu; [|discriminate]. inversion E22; subst cu t22. cbn [t_hash t_rest].
    split; [reflexivity|]. split; [reflexivity|]. intros j w' tw' EW.
    rewrite (rbind_step _ _ _ _ _ (mono_common_scalar _ _ _ _ E0 j)). rewrite (rbind_step _ _ _ _ _ (mono_instance _ _ _ _ E1 j)). cbv zeta.
    rewrite (rbind_step _ _ _ _ _ (mono_advice _ _ _ _ E2 j)). cbv beta iota.
    rewrite (rbind_step _ _ _ _ _ (mono_squeeze _ _ _ E3 j)).
    rewrite (rbind_step _ _ _ _ _ (mono_permuted _ _ _ _ E4 j)).
    rewrite (rbind_step _ _ _ _ _ (mono_squeeze _ _ _ E5 j)).
    rewrite (rbind_step _ _ _ _ _ (mono_squeeze _ _ _ E6 j)).
    rewrite (rbind_step _ _ _ _ _ (mono_times _ _ (mono_times _ _ mono_point) _ _ _ E7 j)).
    rewrite (rbind_step _ _ _ _ _ (mono_map _ _ (fun a => mono_map _ a (fun _ => mono_point)) _ _ _ E8 j)).
    rewrite (rbind_step _ _ _ _ _ (mono_point _ _ _ E9 j)).
    rewrite (rbind_step _ _ _ _ _ (mono_squeeze _ _ _ E10 j)).
    rewrite (rbind_step _ _ _ _ _ (mono_times _ _ mono_point _ _ _ E11 j)).
    rewrite (rbind_step _ _ _ _ _ (mono_squeeze _ _ _ E12 j)).
    rewrite (rbind_step _ _ _ _ _ (mono_times _ _ (mono_times _ _ mono_scalar) _ _ _ E13 j)).
    rewrite (rbind_step _ _ _ _ _ (mono_times _ _ (mono_times _ _ mono_scalar) _ _ _ E14 j)).
    rewrite (rbind_step _ _ _ _ _ (mono_times _ _ mono_scalar _ _ _ E15 j)).
    rewrite (rbind_step _ _ _ _ _ (mono_scalar _ _ _ E16 j)).
    rewrite (rbind_step _ _ _ _ _ (mono_times _ _ mono_scalar _ _ _ E17 j)).
    rewrite (rbind_step _ _ _ _ _ (mono_permutation _ _ _ _ _ _ _ _ _ E18 j)).
    rewrite (rbind_step _ _ _ _ _ (mono_lookup _ _ _ _ _ _ E19 j)).
    rewrite (rbind_step _ _ _ _ _ (mono_squeeze _ _ _ E20 j)).
    rewrite (rbind_step (fun t => while_ (S (length (t_rest t))) t) _ (more j t20) w' tw' EW).
    unfold rbind at 1, BuildParams.squeeze_scalar. destruct (sqz (t_hash tw')) as [[u' h']|]; [|reflexivity].
    unfold rbind, rlift, rret. rewrite E23, E24, E25, E26. reflexivity.
  Qed.

  Lemma queries_with_w p w u : queries (with_w p w u) = queries p.
  Proof. destruct p; reflexivity. Qed.
  Lemma while_total n t : exists w t', while_ n t = Some (w, t').
  Proof.
    revert t. induction n as [|n IH]; intro t; cbn [load_points_while]; [eauto|]. destruct (read_point t) as [[P t1]|]; [|eauto].
    destruct (IH t1) as (w & t2 & E). exists (P :: w), t2. unfold rbind. rewrite E. reflexivity.
  Qed.
  Lemma points_more l t t' j : follows (map EvPoint l) t t' -> follows (map EvPoint l) (more j t) (more j t').
  Proof.
    revert t. induction l as [|P l IH]; intro t; cbn [map]; [intros ->; reflexivity|].
    intros (t1 & S & H). exists (more j t1). split; [|now apply IH]. apply follows_one in S. apply follows_one.
    assert (E : read_point t = Some (P, t1)) by (apply (read_point_iff F M PT SC pt_decode sc_decode St upd_pt upd_sc sqz); auto).
    apply (mono_point _ _ _) with (j := j) in E. now apply (read_point_iff F M PT SC pt_decode sc_decode St upd_pt upd_sc sqz) in E.
  Qed.
  Local Notation starts_pt := (starts PT pt_decode).

  Hypothesis PT_pos : (1 <= PT)%nat.
  Lemma while_more t w t' j : while_ (S (length (t_rest t))) t = Some (w, t') ->
    exists ws t'', while_ (S (length (t_rest (more j t)))) (more j t) = Some (w ++ ws, t'') /\
      ((forall P, ~ starts_pt (t_rest t' ++ j) P) -> ws = [] /\ t'' = more j t') /\
      ((exists P, starts_pt (t_rest t' ++ j) P) -> ws <> []).
  Proof.
    intro E. assert (W := while_iff F M PT SC pt_decode sc_decode St upd_pt upd_sc sqz PT_pos).
    apply W in E as [_ E]. apply fapp in E as (t1 & E & S). apply follows_one in S as [-> _].
    destruct (while_total (S (length (t_rest (more j t1)))) (more j t1)) as (ws & t2 & E2).
    exists ws, t2. assert (E2' := E2). apply W in E2 as [_ E2].
    split; [|split].
    - apply W. split; [exact I|]. rewrite map_app, <- app_assoc. apply fapp. exists (more j t1). split; [now apply points_more|exact E2].
    - intro N. destruct ws as [|P ws]; cbn [map app] in E2; apply follows_cons in E2 as (t3 & S & E2).
      + cbn in E2. subst t3. destruct S as [-> _]. auto.
      + exfalso. destruct S as [S _]. exact (N P S).
    - intros [P HP] ->. cbn [map app] in E2. apply follows_one in E2 as [_ N]. exact (N P HP).
  Qed.

  Local Notation verify := (verify_single_proof_no_eval F M PT SC pt_decode sc_decode St upd_pt upd_sc sqz vk).
  Lemma verify_trailing key ins bytes h r rest h' junk :
    verify key ins (mkTr bytes h) = Some (r, mkTr rest h') ->
    ((forall P, ~ starts_pt (rest ++ junk) P) -> verify key ins (mkTr (bytes ++ junk) h) = Some (r, mkTr (rest ++ junk) h')) /\
    ((exists P, starts_pt (rest ++ junk) P) -> verify key ins (mkTr (bytes ++ junk) h) = None).
  Proof.
    unfold BuildParams.verify_single_proof_no_eval. intro E. apply rbind_iff in E as (p & t1 & E1 & E).
    apply rbind_iff in E as (m & t2 & E2 & E). apply rlift_iff in E2 as [E2 ->]. apply rbind_iff in E as (c & t3 & E3 & E). apply rlift_iff in E3 as [E3 ->].
    apply rret_iff in E as [-> <-].
    destruct (build_params_split _ _ _ _ _ E1) as (tv & tw & W & U & Rt & H). cbn [t_rest t_hash] in U, Rt.
    destruct (while_more _ _ _ junk W) as (ws & t2 & W2 & H1 & H2). rewrite <- Rt in H1, H2. specialize (H junk _ _ W2).
    change (more junk (mkTr bytes h)) with (mkTr (bytes ++ junk) h) in H. split; intro N.
    - destruct (H1 N) as [-> ->]. rewrite app_nil_r in *. unfold more in H. cbn [t_hash t_rest] in H. rewrite U in H.
      rewrite (rbind_step _ _ _ _ _ H). replace (with_w p (p_w p) (p_u p)) with p by (destruct p; reflexivity).
      unfold rbind, rlift, rret. now rewrite E2, E3, Rt.
    - specialize (H2 N). destruct (sqz (t_hash t2)) as [[u' h'']|]; [|unfold rbind; now rewrite H].
      rewrite (rbind_step _ _ _ _ _ H). unfold batch_multi_open_proofs in E2 |- *. rewrite queries_with_w.
      destruct (queries p) as [qs|]; [|discriminate]. change (p_key (with_w p (p_w p ++ ws) u')) with (p_key p). change (p_u (with_w p (p_w p ++ ws) u')) with u'.
      change (p_v (with_w p (p_w p ++ ws) u')) with (p_v p). change (p_w (with_w p (p_w p ++ ws) u')) with (p_w p ++ ws).
      destruct (batch_queries (p_key p) u' (p_v p) (p_w p ++ ws) qs) as [m'|] eqn:EB; [|reflexivity].
      exfalso. assert (L1 := proj1 (proj1 (batch_defined F M _ _ _ _ _) (ex_intro _ m E2))). assert (L2 := proj2 (proj1 (batch_defined F M _ _ _ _ _) (ex_intro _ m E2))).
      assert (L3 := proj2 (proj1 (batch_defined F M _ _ _ _ _) (ex_intro _ m' EB))). rewrite app_length in L3. destruct ws; [now apply H2|]. cbn [length] in L3. lia.
  Qed.
End Tail.
