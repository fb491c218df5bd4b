(** Proofs: the verifier's constraint expressions and vanishing query are the
    PLONK constraints of PlonkSpec.v. *)
From Coq Require Import String NArith ZArith Arith Bool Lia Ring Field List ZifyBool ZifyNat ZifyN.
From Verif Require Import Util Algebra Poly Schema SchemaProofs Plonk PowLagrange PlonkSpec.
Import ListNotations.

Section Proofs.
  Variable F : Fld.
  Variable M : Mod F.
  Local Open Scope fld_scope.
  Add Field FPl : (f_th F).

  Lemma chip_evaluate_val fixed advice instance challenge (e : expr F) v :
    chip_evaluate fixed advice instance challenge 0 e = Some v ->
    v = expr_val (at_list fixed) (at_list advice) (at_list instance) (at_list challenge) e.
  Proof.
    assert (N : forall (l : list F) i x, nth_error l i = Some x -> x = at_list l i).
    { intros l i x H. unfold at_list. symmetry. now apply nth_error_nth. }
    revert v; induction e as [c| |i|i|i|i|a IHa|a IHa b IHb|a IHa b IHb|a IHa f]; cbn; intros v H; auto.
    - now inversion H.
    - discriminate.
    - destruct (chip_evaluate fixed advice instance challenge 0 a) as [x|]; [|discriminate].
      inversion H; subst. rewrite (IHa x eq_refl). ring.
    - destruct (chip_evaluate fixed advice instance challenge 0 a) as [x|]; [|discriminate].
      destruct (chip_evaluate fixed advice instance challenge 0 b) as [y|]; [|discriminate].
      inversion H; subst. now rewrite (IHa x eq_refl), (IHb y eq_refl).
    - destruct (chip_evaluate fixed advice instance challenge 0 a) as [x|]; [|discriminate].
      destruct (chip_evaluate fixed advice instance challenge 0 b) as [y|]; [|discriminate].
      inversion H; subst. now rewrite (IHa x eq_refl), (IHb y eq_refl).
    - destruct (chip_evaluate fixed advice instance challenge 0 a) as [x|]; [|discriminate].
      inversion H; subst. rewrite (IHa x eq_refl). ring.
  Qed.

  Lemma mapM_chip_evaluate fixed advice instance challenge (es : list (expr F)) vs :
    mapM (chip_evaluate fixed advice instance challenge 0) es = Some vs ->
    vs = map (expr_val (at_list fixed) (at_list advice) (at_list instance) (at_list challenge)) es.
  Proof.
    revert vs; induction es as [|e es IH]; cbn; intros vs H; [now inversion H|].
    destruct (chip_evaluate _ _ _ _ _ e) as [v|] eqn:E; [|discriminate].
    destruct (mapM _ es) as [r|]; [|discriminate]. inversion H; subst.
    rewrite (IH r eq_refl). f_equal. now apply chip_evaluate_val.
  Qed.

  Lemma feval_app (p q : list F) y : feval F (p ++ q) y = feval F p y + fpow y (length p) * feval F q y.
  Proof.
    induction p as [|a p IH]; cbn [app length fpow]; [unfold feval at 2; cbn; ring|].
    rewrite !feval_cons, IH. ring.
  Qed.

  Lemma feval_snoc1 (a : F) y : feval F [a] y = a.
  Proof. rewrite feval_cons. unfold feval; cbn. ring. Qed.

  Lemma mul_add_accumulate_spec (es : list F) y : mul_add_accumulate es y = compress es y.
  Proof.
    unfold mul_add_accumulate, compress.
    assert (G : forall es acc, fold_left (fun a v => mul_add a y v) es acc =
                               fpow y (length es) * acc + feval F (rev es) y).
    { clear es. intro es. induction es as [|e es IH]; intro acc; cbn [fold_left length rev fpow].
      - unfold feval; cbn. ring.
      - rewrite IH, feval_app, feval_snoc1, rev_length. unfold mul_add. ring. }
    rewrite G. ring.
  Qed.

  (** *** Permutation *)
  Definition cols_from (a : nat) {A} (l : list A) : list (nat * A) := combine (seq a (length l)) l.

  Lemma perm_step_fold beta gamma delta x : forall (l : list (F * F)) k lft rgt,
    foldM (perm_step beta gamma delta) l (lft, rgt, beta * x * fpow delta k) =
    Some (fprod (map (fun jps => let '(j, (p, sigma)) := jps in p + beta * sigma + gamma) (cols_from k l)) * lft,
          fprod (map (fun jps => let '(j, (p, sigma)) := jps in p + fpow delta j * beta * x + gamma) (cols_from k l)) * rgt,
          beta * x * fpow delta (k + length l)).
  Proof.
    induction l as [|[e s] l IH]; intros k lft rgt.
    - cbn. rewrite Nat.add_0_r. do 2 f_equal. f_equal; ring.
    - cbn [foldM perm_step ast_eval].
      replace (delta * (beta * x * fpow delta k)) with (beta * x * fpow delta (S k)) by (cbn [fpow]; ring).
      rewrite IH. unfold cols_from. cbn [length seq combine map fprod fold_right].
      replace (S k + length l)%nat with (k + S (length l))%nat by lia.
      f_equal. f_equal. f_equal; [unfold fprod; ring|unfold fprod; ring].
  Qed.

  Lemma chunks_aux_fuel {A} c : (0 < c)%nat -> forall f1 f2 (l : list A),
    (length l <= f1)%nat -> (length l <= f2)%nat -> chunks_aux f1 c l = chunks_aux f2 c l.
  Proof.
    intro Hc. induction f1 as [|f1 IH]; intros f2 l H1 H2.
    - destruct l; [|cbn in H1; lia]. destruct f2; reflexivity.
    - destruct f2 as [|f2]; [destruct l; [reflexivity|cbn in H2; lia]|].
      cbn [chunks_aux]. destruct l as [|a l]; [reflexivity|]. f_equal. apply IH.
      + rewrite skipn_length. cbn [length] in *. lia.
      + rewrite skipn_length. cbn [length] in *. lia.
  Qed.

  Lemma chunks_cons {A} c (l : list A) : (0 < c)%nat -> l <> [] ->
    chunks c l = firstn c l :: chunks c (skipn c l).
  Proof.
    intros Hc Hl. unfold chunks. destruct l as [|a l]; [congruence|].
    cbn [length chunks_aux]. f_equal. apply chunks_aux_fuel; [assumption| |lia].
    rewrite skipn_length. cbn [length]. lia.
  Qed.

  Lemma chunks_nil {A} c : @chunks A c [] = [].
  Proof. reflexivity. Qed.

  Lemma combine_firstn_skipn {A B} n (l : list A) (r : list B) :
    combine (firstn n l) (firstn n r) = firstn n (combine l r) /\
    combine (skipn n l) (skipn n r) = skipn n (combine l r).
  Proof.
    revert l r; induction n as [|n IH]; intros [|a l] [|b r]; cbn; auto.
    - split; [reflexivity|]. destruct (skipn n l); reflexivity.
    - destruct (IH l r) as [E1 E2]. rewrite E1, E2. auto.
  Qed.

  Lemma cols_from_firstn {A} k n (l : list A) : cols_from k (firstn n l) = firstn n (cols_from k l).
  Proof.
    unfold cols_from. revert k l; induction n as [|n IH]; intros k [|a l]; cbn; auto. now rewrite IH.
  Qed.

  Lemma cols_from_skipn {A} k n (l : list A) : (n <= length l)%nat ->
    cols_from (k + n) (skipn n l) = skipn n (cols_from k l).
  Proof.
    unfold cols_from. revert k l; induction n as [|n IH]; intros k l H; [cbn; now rewrite Nat.add_0_r|].
    destruct l as [|a l]; [cbn in H; lia|]. cbn [length skipn seq combine].
    rewrite <- IH by (cbn in H; lia). f_equal. f_equal. lia.
  Qed.

  Lemma cols_from_length {A} k (l : list A) : length (cols_from k l) = length l.
  Proof. unfold cols_from. rewrite combine_length, seq_length. lia. Qed.

  Definition perm_main beta gamma delta x t1 (sc : perm_set F M * list (nat * (F * F))) : F :=
    let '(s, cols) := sc in
    (ps_next_eval s * fprod (map (fun jps => let '(j, (p, sigma)) := jps in p + beta * sigma + gamma) cols)
     - ps_eval s * fprod (map (fun jps => let '(j, (p, sigma)) := jps in p + fpow delta j * beta * x + gamma) cols))
    * t1.

  Lemma pow_const_field (x : F) e r fuel : (33 <= fuel)%nat ->
    pow_constant fuel x e = Some r -> r = fpow x (N.to_nat e).
  Proof.
    intros Hf H. destruct (N.le_gt_cases (2 ^ 31) e) as [L|L].
    - rewrite pow_constant_diverges in H by assumption. discriminate.
    - destruct (N.eq_dec e 0) as [->|E]; [discriminate|].
      rewrite pow_constant_ok in H by (try assumption; lia). now inversion H.
  Qed.

  Lemma perm_chunk_val c beta gamma delta x t1 i s ev sg r :
    (N.of_nat (i * c) < 2 ^ 32)%N ->
    perm_chunk c delta beta gamma 1 (beta * x) t1 (i, (s, ev, sg)) = Some r ->
    r = perm_main beta gamma delta x t1 (s, cols_from (i * c) (combine ev sg)).
  Proof.
    intros Hb H. unfold perm_chunk in H.
    destruct (if (i =? 0)%nat then Some 1
              else pow_constant POW_FUEL delta (N.of_nat (i * c) mod 2 ^ 32)) as [dp|] eqn:E; [|discriminate].
    assert (Ed : dp = fpow delta (i * c)).
    { destruct (Nat.eqb_spec i 0) as [->|Hi].
      - inversion E. reflexivity.
      - rewrite N.mod_small in E by assumption.
        apply pow_const_field in E; [|unfold POW_FUEL; lia]. now rewrite Nnat.Nat2N.id in E. }
    subst dp. cbn [ast_eval] in H. rewrite perm_step_fold in H. inversion H; subst.
    unfold perm_main. unfold fprod. ring.
  Qed.

  Lemma perm_chunks_val c beta gamma delta x t1 : (0 < c)%nat -> forall sets i ev sg r,
    length ev = length sg ->
    (N.of_nat ((i + length sets) * c) <= 2 ^ 32)%N ->
    mapM (perm_chunk c delta beta gamma 1 (beta * x) t1)
         (combine (seq i (length (combine (combine sets (chunks c ev)) (chunks c sg))))
                  (combine (combine sets (chunks c ev)) (chunks c sg))) = Some r ->
    r = map (perm_main beta gamma delta x t1)
            (combine sets (chunks c (cols_from (i * c) (combine ev sg)))).
  Proof.
    intro Hc. induction sets as [|s sets IH]; intros i ev sg r HL HB H.
    - cbn in H. inversion H. reflexivity.
    - destruct ev as [|e ev].
      + destruct sg; [|discriminate]. cbn in H. inversion H. reflexivity.
      + destruct sg as [|g sg]; [discriminate|].
        set (ev0 := e :: ev) in *. set (sg0 := g :: sg) in *.
        assert (Ne : ev0 <> []) by discriminate. assert (Ns : sg0 <> []) by discriminate.
        rewrite (chunks_cons c ev0 Hc Ne), (chunks_cons c sg0 Hc Ns) in H.
        cbn [combine length seq mapM] in H.
        destruct (perm_chunk c delta beta gamma 1 (beta * x) t1 _) as [v|] eqn:E1; [|discriminate].
        destruct (mapM _ _) as [r'|] eqn:E2; [|discriminate]. inversion H; subst r.
        assert (Nc : cols_from (i * c) (combine ev0 sg0) <> []) by (unfold cols_from, ev0, sg0; cbn; discriminate).
        rewrite (chunks_cons c _ Hc Nc). cbn [combine map].
        f_equal.
        * apply perm_chunk_val in E1; [|cbn [length] in HB; nia].
          rewrite E1. destruct (combine_firstn_skipn c ev0 sg0) as [Ef _].
          rewrite Ef, cols_from_firstn. reflexivity.
        * apply IH in E2; [| |cbn [length] in HB; replace (S i + length sets)%nat with (i + S (length sets))%nat by lia; exact HB].
          -- rewrite E2. do 3 f_equal. destruct (combine_firstn_skipn c ev0 sg0) as [_ Es]. rewrite Es.
             destruct (Nat.le_gt_cases c (length (combine ev0 sg0))) as [L|L].
             ++ rewrite <- cols_from_skipn by assumption. f_equal. lia.
             ++ rewrite (skipn_all2 (combine ev0 sg0)) by lia.
                rewrite (skipn_all2 (cols_from _ _)) by (rewrite cols_from_length; lia). reflexivity.
          -- rewrite !skipn_length, HL. reflexivity.
  Qed.

  Lemma perm_expressions_val (pe : perm_evaluated F M) sigmas l_0 l_last l_blind delta beta gamma x r :
    length (pe_evals pe) = length sigmas ->
    (N.of_nat (length (pe_sets pe) * pe_chunk_len pe) <= 2 ^ 32)%N ->
    perm_expressions pe sigmas l_0 l_last l_blind delta beta gamma x 1 = Some r ->
    r = perm_constraints (pe_sets pe) (pe_chunk_len pe) (pe_evals pe) sigmas
                         l_0 l_last l_blind delta beta gamma x.
  Proof.
    intros HL HB H. unfold perm_expressions in H.
    destruct (match pe_sets pe with [] => Some [] | _ => _ end) as [r1|] eqn:E1; [|discriminate].
    destruct (match rev (pe_sets pe) with [] => Some [] | _ => _ end) as [r2|] eqn:E2; [|discriminate].
    destruct (mapM _ (combine (skipn 1 _) _)) as [r3|] eqn:E3; [|discriminate].
    cbn [ast_eval] in H.
    destruct (Nat.eqb_spec (pe_chunk_len pe) 0) as [?|Hc]; [discriminate|].
    destruct (mapM _ (enumerate _)) as [r4|] eqn:E4; [|discriminate]. inversion H; subst r; clear H.
    unfold perm_constraints.
    assert (R1 : r1 = match pe_sets pe with [] => [] | s :: _ => [l_0 * (1 - ps_eval s)] end).
    { destruct (pe_sets pe); cbn in E1; now inversion E1. }
    assert (R2 : r2 = match pe_sets pe with [] => [] | s :: _ =>
                        let z := ps_eval (last (pe_sets pe) s) in [l_last * (z * z - z)] end).
    { destruct (pe_sets pe) as [|s sets]; [cbn in E2; now inversion E2|].
      assert (RV : exists t, rev (s :: sets) = last (s :: sets) s :: t).
      { clear. exists (rev (removelast (s :: sets))).
        rewrite (app_removelast_last s (l := s :: sets)) at 1 by discriminate.
        rewrite rev_app_distr. reflexivity. }
      destruct RV as [t RV]. rewrite RV in E2. cbn in E2. inversion E2. reflexivity. }
    assert (R3 : r3 = map (fun sp => let '(s, prev) := sp in (ps_eval s - or_zero (ps_last_eval prev)) * l_0)
                          (combine (tl (pe_sets pe)) (pe_sets pe))).
    { replace (skipn 1 (pe_sets pe)) with (tl (pe_sets pe)) in E3 by (destruct (pe_sets pe); reflexivity).
      revert r3 E3. induction (combine (tl (pe_sets pe)) (pe_sets pe)) as [|[s prev] l IH]; intros r3 E3.
      - cbn in E3. now inversion E3.
      - cbn [mapM] in E3. destruct (ps_last_eval prev) as [pl|] eqn:Ep; [|discriminate]. cbn [ast_eval] in E3.
        destruct (mapM _ l) as [r'|]; [|discriminate]. inversion E3; subst. cbn [map]. rewrite Ep. cbn [or_zero].
        f_equal. now apply IH. }
    assert (R4 : r4 = map (perm_main beta gamma delta x (1 - (l_last + l_blind)))
                          (combine (pe_sets pe) (chunks (pe_chunk_len pe) (enumerate (combine (pe_evals pe) sigmas))))).
    { apply (perm_chunks_val (pe_chunk_len pe)) in E4; [exact E4|lia|assumption|exact HB]. }
    rewrite R1, R2, R3, R4. reflexivity.
  Qed.

  Lemma lookup_expressions_val (le : lookup_evaluated F M) fixed instance advice challenges
        l_0 l_last l_blind theta beta gamma r :
    lookup_expressions le fixed instance advice challenges l_0 l_last l_blind theta beta gamma 0 1 = Some r ->
    let ev := expr_val (at_list fixed) (at_list advice) (at_list instance) (at_list challenges) in
    r = lookup_constraints (le_product_eval le) (le_product_next_eval le)
                                   (le_permuted_input_eval le) (le_permuted_input_inv_eval le)
                                   (le_permuted_table_eval le)
                                   (compress (map ev (le_input le)) theta)
                                   (compress (map ev (le_table le)) theta)
                                   l_0 l_last l_blind beta gamma.
  Proof.
    intros H ev. unfold lookup_expressions in H. cbn [ast_eval] in H.
    destruct (mapM _ (le_input le)) as [iv|] eqn:E1; [|discriminate].
    destruct (mapM _ (le_table le)) as [tv|] eqn:E2; [|discriminate].
    inversion H; subst; clear H.
    apply mapM_chip_evaluate in E1. apply mapM_chip_evaluate in E2. subst iv tv.
    rewrite !mul_add_accumulate_spec. reflexivity.
  Qed.

  (** Side conditions a verification instance built by [build_params] meets:
      the constants are the right ones, as many permutation commitments as
      permutation columns, and column indices fit in u32. *)
  Definition params_consistent (p : params F M) : Prop :=
    p_zero p = 0 /\ p_one p = 1 /\
    Forall (fun pe => length (pe_evals pe) = length (p_permutation_evals p) /\
                      (N.of_nat (length (pe_sets pe) * pe_chunk_len pe) <= 2 ^ 32)%N) (p_permutation p).

  Lemma proof_expressions_val (p : params F M) l_0 l_last l_blind k r :
    params_consistent p ->
    proof_expressions p l_0 l_last l_blind k = Some r ->
    r = proof_constraints p l_0 l_last l_blind k.
  Proof.
    intros [Hz [Ho Hp]] H. unfold proof_expressions in H.
    destruct (nth_error (p_advice_evals p) k) as [adv|] eqn:Ea; [|discriminate].
    destruct (nth_error (p_instance_evals p) k) as [ins|] eqn:Ei; [|discriminate].
    destruct (nth_error (p_permutation p) k) as [pe|] eqn:Ep; [|discriminate].
    destruct (nth_error (p_lookup p) k) as [lk|] eqn:El; [|discriminate].
    destruct (mapM _ (concat (p_gates p))) as [gs|] eqn:Eg; [|discriminate].
    destruct (perm_expressions _ _ _ _ _ _ _ _ _ _) as [ps|] eqn:Eps; [|discriminate].
    destruct (mapM _ lk) as [ls|] eqn:Els; [|discriminate]. inversion H; subst r; clear H.
    unfold proof_constraints.
    rewrite (nth_error_nth _ _ [] Ea), (nth_error_nth _ _ [] Ei), (nth_error_nth _ _ [] El), Ep.
    rewrite Hz in *. rewrite Ho in *.
    apply mapM_chip_evaluate in Eg. subst gs.
    rewrite Forall_forall in Hp. destruct (Hp pe (nth_error_In _ _ Ep)) as [HL HB].
    apply perm_expressions_val in Eps; [|assumption|assumption]. subst ps.
    f_equal. f_equal.
    revert ls Els. clear El. induction lk as [|le lk IH]; intros ls Els; [cbn in Els; now inversion Els|].
    cbn [mapM] in Els. destruct (lookup_expressions _ _ _ _ _ _ _ _ _ _ _ _ _) as [e|] eqn:Ee; [|discriminate].
    destruct (mapM _ lk) as [ls'|]; [|discriminate]. inversion Els; subst. cbn [concat flat_map].
    rewrite (IH ls' eq_refl). f_equal. apply lookup_expressions_val in Ee. exact Ee.
  Qed.

  Lemma mapM_concat_val {A B} (f : A -> option (list B)) (g : A -> list B) l r :
    (forall a b, f a = Some b -> b = g a) -> mapM f l = Some r -> concat r = flat_map g l.
  Proof.
    intro Hf. revert r; induction l as [|a l IH]; cbn; intros r H; [now inversion H|].
    destruct (f a) as [b|] eqn:E; [|discriminate]. destruct (mapM f l) as [r'|]; [|discriminate].
    inversion H; subst. cbn. rewrite (IH r' eq_refl). f_equal. now apply Hf.
  Qed.

  Lemma h_commit_val xn key (cs : list M) : forall (k : nat) acc,
    let t := fold_left (fun acc commitment => sch_add (sch_mul (SScalar xn) acc) commitment)
               (map (fun ic : nat * M => SCommitment (mkCQ (key ++ "_h_commitment" ++ fmt_nat (fst ic))%string (Some (snd ic)) (@None F)))
                    (combine (seq k (length cs)) cs)) acc in
    sc_of acc = 0 ->
    sc_of t = 0 /\
    pt_of t = madd (smul (fpow xn (length cs)) (pt_of acc)) (peval (rev cs) xn).
  Proof.
    induction cs as [|c cs IH]; intros k acc t Hs.
    - cbn in t. subst t. split; [exact Hs|]. cbn. now rewrite smul_1, madd_0_r.
    - subst t. cbn [length seq combine map fold_left].
      match goal with |- context [fold_left _ _ ?a] => set (acc' := a) end.
      assert (Hs' : sc_of acc' = 0) by (unfold acc', sch_add, sch_mul; cbn; rewrite Hs; ring).
      destruct (IH (S k) acc' Hs') as [I1 I2]. split; [exact I1|]. rewrite I2.
      assert (Ep : pt_of acc' = madd (smul xn (pt_of acc)) c).
      { unfold acc', sch_add, sch_mul; cbn. rewrite smul_0_r, madd_0_r. reflexivity. }
      rewrite Ep. cbn [rev].
      assert (PA : forall (p q : list M), peval (p ++ q) xn = madd (peval p xn) (smul (fpow xn (length p)) (peval q xn))).
      { clear. induction p as [|a p IH]; intro q; cbn [app peval length fpow].
        - now rewrite smul_1, madd_0_l.
        - rewrite IH, smul_add_r, madd_assoc, <- smul_mul. reflexivity. }
      rewrite PA, rev_length. cbn [peval fpow]. rewrite smul_0_r, madd_0_r, smul_add_r, <- smul_mul.
      rewrite <- !madd_assoc. f_equal; [f_equal; ring|]. apply madd_comm.
  Qed.

  Lemma vanish_queries_val es y xn rc re hs key x qs :
    vanish_queries (M := M) es y xn rc re hs 1 key x = Some qs ->
    exists hq rq, qs = [hq; rq] /\
      q_point hq = x /\ q_rotation hq = 0%Z /\
      fst (claim hq) = msum_pow hs xn /\ snd (claim hq) * (xn - 1) = compress es y /\
      q_point rq = x /\ q_rotation rq = 0%Z /\ claim rq = (rc, re).
  Proof.
    unfold vanish_queries. intro H. cbn [ast_eval] in H. unfold chip_div in H.
    destruct (feq_dec (xn - 1) 0) as [?|Hx]; [discriminate|].
    destruct (reduce _ _) as [h|] eqn:Er; [|discriminate]. inversion H; subst; clear H.
    eexists _, _. split; [reflexivity|]. cbn [q_point q_rotation].
    rewrite mul_add_accumulate_spec.
    assert (Hh : sc_of h = 0 /\ pt_of h = peval hs xn).
    { destruct (rev hs) as [|c cs] eqn:Erev; [discriminate|].
      assert (Ehs : hs = rev (c :: cs)) by (rewrite <- Erev, rev_involutive; reflexivity).
      unfold enumerate in Er. cbn [length seq combine map reduce] in Er. inversion Er; subst h; clear Er.
      destruct (h_commit_val xn key cs 1 (SCommitment (mkCQ (key ++ "_h_commitment" ++ fmt_nat (fst (0%nat, c)))%string (Some (snd (0%nat, c))) None)))
        as [I1 I2]; [reflexivity|].
      split; [exact I1|]. etransitivity; [exact I2|]. rewrite Ehs. cbn [rev pt_of cq_commitment snd].
      assert (PA : forall (p q : list M), peval (p ++ q) xn = madd (peval p xn) (smul (fpow xn (length p)) (peval q xn))).
      { clear. induction p as [|a p IH]; intro q; cbn [app peval length fpow].
        - now rewrite smul_1, madd_0_l.
        - rewrite IH, smul_add_r, madd_assoc, <- smul_mul. reflexivity. }
      rewrite PA, rev_length. cbn [peval]. rewrite smul_0_r, madd_0_r. apply madd_comm. }
    destruct Hh as [Hs Hp].
    repeat split; auto.
    - cbn. rewrite Hp. apply madd_0_r.
    - cbn. rewrite Hs. field. exact Hx.
    - unfold claim; cbn. rewrite madd_0_r. f_equal. ring.
  Qed.

  (** *** Queries *)
  Lemma rotate_omega_val (x omega : F) at_ r :
    rotate_omega x omega at_ = Some r ->
    ((0 <= at_)%Z -> r = x * fpow omega (Z.to_nat at_)) /\
    ((at_ < 0)%Z -> omega <> 0 /\ r * fpow omega (Z.to_nat (- at_)) = x).
  Proof.
    unfold rotate_omega. destruct (Z.ltb_spec at_ 0) as [L|L].
    - destruct (feq_dec omega 0) as [?|Ho]; [discriminate|]. cbn. intro H; inversion H; subst; clear H.
      split; [lia|]. intros _. split; [exact Ho|].
      replace (Z.abs at_) with (- at_)%Z by lia.
      transitivity (x * (fpow (finv omega) (Z.to_nat (- at_)) * fpow omega (Z.to_nat (- at_)))); [ring|].
      rewrite inv_pow_0 by exact Ho. ring.
    - cbn. intro H; inversion H; subst; clear H. split; [|lia]. intros _.
      replace (Z.abs at_) with at_ by lia. ring.
  Qed.

  Lemma column_queries_val (p : params F M) suffix qs cs evs r :
    column_queries p suffix qs cs evs = Some r ->
    Forall2 (fun iq q => let '(i, (column, at_)) := iq in
               exists c e, nth_error cs column = Some c /\ nth_error evs i = Some e /\
                 claim q = (c, e) /\ q_rotation q = at_ /\ rotate_omega (p_x p) (p_omega p) at_ = Some (q_point q))
            (enumerate qs) r.
  Proof.
    unfold column_queries. intro H. apply mapM_Forall2 in H.
    induction H as [|[i [column at_]] q l r' H _ IH]; constructor; [|exact IH]. clear IH.
    cbn beta iota in H.
    destruct (rotate_omega _ _ _) as [pt|]; [|discriminate].
    destruct (nth_error cs column) as [c|]; [|discriminate].
    destruct (nth_error evs i) as [e|]; [|discriminate]. inversion H; subst; clear H.
    exists c, e. repeat split; auto. unfold claim; cbn. rewrite madd_0_r. f_equal. ring.
  Qed.

  (** The vanishing part of the query list. *)
  Lemma queries_vanish (p : params F M) qs :
    params_consistent p -> queries p = Some qs ->
    exists ls hq rq init,
      get_lagrange_commits (p_l p) (p_n p) (p_x p) (p_xn p) 1 (p_omega p) = Some ls /\
      qs = init ++ [hq; rq] /\
      q_point hq = p_x p /\ q_rotation hq = 0%Z /\
      fst (claim hq) = msum_pow (p_vanish_commitments p) (p_xn p) /\
      snd (claim hq) * (p_xn p - 1) =
        compress (all_constraints p (nth 0 ls 0) (nth (p_l p) ls 0)
                    (fold_right fadd 0 (firstn (p_l p - 1) (skipn 1 ls)))) (p_y p) /\
      q_point rq = p_x p /\ q_rotation rq = 0%Z /\
      claim rq = (p_random_commitment p, p_random_eval p).
  Proof.
    intros PC H. assert (PC' := PC). destruct PC' as [Hz [Ho _]]. unfold queries in H. rewrite Ho in H.
    destruct (get_lagrange_commits _ _ _ _ _ _) as [ls|]; [|discriminate].
    destruct (nth_error ls 0) as [l_0|] eqn:E0; [|discriminate].
    destruct (nth_error ls (p_l p)) as [l_last|] eqn:El; [|discriminate].
    destruct (Nat.eqb_spec (p_l p) 0) as [?|Hl]; [discriminate|].
    destruct (mapM (proof_expressions _ _ _ _) _) as [ex|] eqn:Eex; [|discriminate].
    destruct (mapM (proof_queries p) _) as [pq|]; [|discriminate].
    destruct (column_queries _ _ _ _ _) as [fq|]; [|discriminate].
    destruct (vanish_queries _ _ _ _ _ _ _ _ _) as [vq|] eqn:Ev; [|discriminate].
    inversion H; subst qs; clear H.
    apply vanish_queries_val in Ev. destruct Ev as [hq [rq [-> [V1 [V2 [V3 [V4 [V5 [V6 V7]]]]]]]]].
    exists ls, hq, rq, (concat pq ++ fq ++ perm_common_queries (p_key p) (p_permutation_commitments p) (p_permutation_evals p) (p_x p)).
    split; [reflexivity|]. split; [now rewrite <- !app_assoc|].
    repeat split; auto. rewrite V4. f_equal.
    assert (LB : sum_with_constant (firstn (p_l p - 1) (skipn 1 ls)) f0 =
                 fold_right fadd 0 (firstn (p_l p - 1) (skipn 1 ls))).
    { generalize (firstn (p_l p - 1) (skipn 1 ls)). clear. intro l.
      unfold sum_with_constant, sum_with_coeff_and_constant.
      assert (G : forall l a, fold_left (fun acc xc => acc + fst xc * snd xc) (map (fun x : F => (x, 1)) l) a = a + fold_right fadd 0 l).
      { clear. induction l as [|b l IH]; intro a; cbn; [ring|]. rewrite IH. ring. }
      rewrite G. ring. }
    rewrite <- LB. rewrite (nth_error_nth _ _ 0 E0), (nth_error_nth _ _ 0 El).
    unfold all_constraints. eapply mapM_concat_val; [|exact Eex].
    intros k r Hk. now apply proof_expressions_val.
  Qed.

  (** Every opening query the protocol requires is there, with the right point and claim. *)
  Lemma mapM_In {A B} (f : A -> option B) l r a :
    mapM f l = Some r -> In a l -> exists b, f a = Some b /\ In b r.
  Proof.
    revert r; induction l as [|x l IH]; cbn; intros r H Ha; [destruct Ha|].
    destruct (f x) as [y|] eqn:E; [|discriminate]. destruct (mapM f l) as [r'|]; [|discriminate].
    inversion H; subst. destruct Ha as [->|Ha].
    - exists y. split; [assumption|now left].
    - destruct (IH r' eq_refl Ha) as [b [B1 B2]]. exists b. split; [assumption|now right].
  Qed.

  Lemma Forall2_In_l {A B} (R : A -> B -> Prop) l r a :
    Forall2 R l r -> In a l -> exists b, In b r /\ R a b.
  Proof.
    induction 1 as [|x y l r HR H IH]; intro Ha; [destruct Ha|].
    destruct Ha as [->|Ha]; [exists y; split; [now left|assumption]|].
    destruct (IH Ha) as [b [B1 B2]]. exists b. split; [now right|assumption].
  Qed.

  Definition opens (q : query F M) (pt : F) (rot : Z) (c : M) (e : F) : Prop :=
    q_point q = pt /\ q_rotation q = rot /\ claim q = (c, e).

  Lemma query_new_opens rot key pt c e : opens (query_new rot key pt c e) pt rot c e.
  Proof. repeat split. unfold claim; cbn. rewrite madd_0_r. f_equal. ring. Qed.

  Lemma column_queries_opens (p : params F M) suffix qs cs evs r i column at_ :
    column_queries p suffix qs cs evs = Some r -> nth_error qs i = Some (column, at_) ->
    exists q c e pt, In q r /\ nth_error cs column = Some c /\ nth_error evs i = Some e /\
      rotate_omega (p_x p) (p_omega p) at_ = Some pt /\ opens q pt at_ c e.
  Proof.
    intros H Hi. apply column_queries_val in H. apply enumerate_In in Hi.
    destruct (Forall2_In_l _ _ _ _ H Hi) as [q [Hq [c [e [H1 [H2 [H3 [H4 H5]]]]]]]].
    exists q, c, e, (q_point q). repeat split; auto.
  Qed.

  Lemma queries_inv (p : params F M) qs :
    queries p = Some qs ->
    exists pq fq vq,
      mapM (proof_queries p) (seq 0 (length (p_instance_commitments p))) = Some pq /\
      column_queries p "_fixed_commitments" (p_fixed_queries p) (p_fixed_commitments p) (p_fixed_evals p) = Some fq /\
      qs = concat pq ++ fq ++
           perm_common_queries (p_key p) (p_permutation_commitments p) (p_permutation_evals p) (p_x p) ++ vq.
  Proof.
    intro H. unfold queries in H.
    destruct (get_lagrange_commits _ _ _ _ _ _) as [ls|]; [|discriminate].
    destruct (nth_error ls 0) as [l_0|]; [|discriminate].
    destruct (nth_error ls (p_l p)) as [l_last|]; [|discriminate].
    destruct (Nat.eqb (p_l p) 0); [discriminate|].
    destruct (mapM (proof_expressions _ _ _ _) _) as [ex|]; [|discriminate].
    destruct (mapM (proof_queries p) _) as [pq|]; [|discriminate].
    destruct (column_queries _ _ _ _ _) as [fq|]; [|discriminate].
    destruct (vanish_queries _ _ _ _ _ _ _ _ _) as [vq|]; [|discriminate].
    inversion H; subst. exists pq, fq, vq. auto.
  Qed.

  Lemma perm_queries_opens (pe : perm_evaluated F M) x_next x_last r i s :
    perm_queries pe x_next x_last = Some r -> nth_error (pe_sets pe) i = Some s ->
    (exists q, In q r /\ opens q (pe_x pe) 0 (ps_commitment s) (ps_eval s)) /\
    (exists q, In q r /\ opens q x_next 1 (ps_commitment s) (ps_next_eval s)) /\
    ((S i < length (pe_sets pe))%nat ->
     exists q e, In q r /\ ps_last_eval s = Some e /\
       opens q x_last (- Z.of_nat (pe_blinding_factors pe + 1)) (ps_commitment s) e).
  Proof.
    intros H Hi. unfold perm_queries in H.
    destruct (mapM _ _) as [lasts|] eqn:E; [|discriminate]. inversion H; subst r; clear H.
    assert (Hen : In (i, s) (enumerate (pe_sets pe))) by now apply enumerate_In.
    split; [|split].
    - eexists. split; [apply in_or_app; left; apply in_flat_map; exists (i, s); split; [exact Hen|]; now left|].
      apply query_new_opens.
    - eexists. split; [apply in_or_app; left; apply in_flat_map; exists (i, s); split; [exact Hen|]; right; now left|].
      apply query_new_opens.
    - intro Hlt.
      assert (Hs : In (i, s) (skipn 1 (rev (enumerate (pe_sets pe))))).
      { set (en := enumerate (pe_sets pe)) in *.
        assert (Ne : en <> []) by (intro Z; rewrite Z in Hen; destruct Hen).
        destruct (exists_last Ne) as [en' [z Ez]]. rewrite Ez, rev_app_distr. cbn [rev app skipn].
        apply -> in_rev. rewrite Ez in Hen. apply in_app_or in Hen. destruct Hen as [?|[->|[]]]; [assumption|].
        exfalso.
        assert (Hl : length en = length (pe_sets pe)) by apply enumerate_length.
        assert (Hn : nth_error en (length en') = Some (i, s)).
        { rewrite Ez, nth_error_app2, Nat.sub_diag by lia. reflexivity. }
        assert (Hc : fst (i, s) = length en').
        { assert (G : forall (l : list (perm_set F M)) a n y, nth_error (combine (seq a (length l)) l) n = Some y -> fst y = (a + n)%nat).
          { clear. induction l as [|b l IH]; intros a n y H; [destruct n; discriminate|].
            destruct n as [|n]; cbn in H; [inversion H; cbn; lia|]. apply IH in H. lia. }
          apply (G (pe_sets pe) 0%nat (length en') (i, s)). exact Hn. }
        cbn in Hc. rewrite Ez, app_length in Hl. cbn in Hl. lia. }
      destruct (mapM_In _ _ _ _ E Hs) as [q [Q1 Q2]]. cbn beta iota in Q1.
      destruct (ps_last_eval s) as [e|]; [|discriminate]. inversion Q1; subst q.
      eexists _, e. split; [apply in_or_app; right; exact Q2|]. split; [reflexivity|]. apply query_new_opens.
  Qed.
End Proofs.
