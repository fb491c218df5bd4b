(** Running calls in the exponent: a run of chip calls (Calls.v) in which all points are
    multiples of one point [g] follows a run with the multiples' numbers in place of the
    points.  Used for concrete cases (Properties_CircuitComplete.v); nothing here models code. *)
From Coq Require Import ZArith NArith Arith Lia List Bool.
From Verif Require Import Util Algebra ListFacts Schema Plonk Poseidon PoseidonSpec BuildParams.
From Verif Require Import PField Bn254 Curve Ecc EccSound EccMul CurveOrder GeneratorOrder EccMulComplete EccHonest EccLucky CurveMod CircuitRunSpec Calls CircuitHonest.
Import ListNotations.

Section Exponent.
  Variable F : Fld.
  Variable M : Mod F.
  Variable g : M.
  Notation E1 := (self_mod F).
  Definition times (e : E1) : M := Algebra.smul (e : F) g.
  Lemma times_add a b : times (madd a b) = madd (times a) (times b).
  Proof. apply smul_add_l. Qed.
  Lemma zero_unique (a : M) : madd a a = a -> a = m0.
  Proof. intro H. rewrite <- (madd_opp F M a). rewrite <- H at 2. rewrite <- madd_assoc, madd_opp, madd_comm, madd_0_l. reflexivity. Qed.
  Lemma times_0 : times m0 = m0.
  Proof. apply zero_unique. rewrite <- times_add. f_equal. apply madd_0_l. Qed.
  Lemma times_opp a : times (mopp a) = mopp (times a).
  Proof.
    assert (H : madd (times a) (times (mopp a)) = m0) by (rewrite <- times_add, madd_opp; apply times_0).
    rewrite <- (madd_0_l F M (times (mopp a))), <- (madd_opp F M (times a)), (madd_comm F M (times a) (mopp (times a))).
    rewrite <- madd_assoc, H, madd_comm, madd_0_l. reflexivity.
  Qed.
  Lemma times_smul s a : times (Algebra.smul s a) = Algebra.smul s (times a).
  Proof. apply smul_mul. Qed.
  Lemma times_multi_exp es : forall ss e, multi_exp es ss = Some e -> multi_exp (map times es) ss = Some (times e).
  Proof.
    unfold multi_exp. intros ss e. generalize (@None E1) (@None M) (eq_refl : option_map times None = @None M). revert ss.
    induction es as [|a es IH]; intros ss o o' Ho H.
    - cbn in *. subst. reflexivity.
    - destruct ss as [|s ss]; [cbn in *; subst; reflexivity|]. cbn [map combine fold_left] in *. refine (IH ss _ _ _ H). subst o'. destruct o as [x|]; cbn [option_map fst snd].
      + now rewrite times_add, times_smul.
      + now rewrite times_smul.
  Qed.

  (** The two runs. *)
  Variables (PT SC : nat).
  Variable dec1 : list Z -> option E1.
  Variable dec2 : list Z -> option M.
  Hypothesis dec : forall bs e, dec1 bs = Some e -> dec2 bs = Some (times e).
  Variable sc_decode : list Z -> option F.
  Variable St : Type.
  Variable upd_pt : St -> M -> St.
  Variable upd_sc : St -> F -> St.
  Variable sqz : St -> option (F * St).
  (** All challenges are [two]. *)
  Variable ready : St -> Prop.
  Variable two : F.
  Hypothesis pt_ready : forall h P, ready h -> ready (upd_pt h P).
  Hypothesis sc_ready : forall h s, ready h -> ready (upd_sc h s).
  Hypothesis sqz_ready : forall h, ready h -> exists h', sqz h = Some (two, h') /\ ready h'.
  Variable generator : E1.
  Notation call1 := (run_call F E1 PT SC dec1 sc_decode unit (fun s _ => s) (fun s _ => s) (fun s => Some (two, s)) generator).
  Notation call2 := (run_call F M PT SC dec2 sc_decode St upd_pt upd_sc sqz (times generator)).
  Notation calls1 := (run_calls F E1 PT SC dec1 sc_decode unit (fun s _ => s) (fun s _ => s) (fun s => Some (two, s)) generator).
  Notation calls2 := (run_calls F M PT SC dec2 sc_decode St upd_pt upd_sc sqz (times generator)).
  Notation st1 := (cst F E1 unit).
  Notation st2 := (cst F M St).

  Definition on_val (v : cval F E1) : cval F M := match v with VS x => VS x | VP e => VP (times e) end.
  Definition on_call (k : call F E1) : call F M :=
    match k with
    | CConst c => CConst c | CAdd i j => CAdd i j | CSub i j => CSub i j | CMul i j => CMul i j | CDiv i j => CDiv i j | CSquare i => CSquare i
    | CSum l c => CSum l c | CPConst P => CPConst (times P) | CPOne => CPOne | CPAdd i j => CPAdd i j | CPSub i j => CPSub i j | CPMul i j => CPMul i j
    | CPMulConst i P => CPMulConst i (times P) | CMultiExp ps ss => CMultiExp ps ss | CNormalize i => CNormalize i | Calls.CInstance => Calls.CInstance
    | CReadPoint t => CReadPoint t | CReadScalar t => CReadScalar t | CCommonPoint t i => CCommonPoint t i | CCommonScalar t i => CCommonScalar t i | CSqueeze t => CSqueeze t
    end.
  Definition follows_tr (a : tr unit) (b : tr St) : Prop := t_rest a = t_rest b /\ ready (t_hash b).
  Definition follows (a : st1) (b : st2) : Prop := c_vals b = map on_val (c_vals a) /\ c_inst b = c_inst a /\ Forall2 follows_tr (c_trs a) (c_trs b).

  Lemma f_val_s a b i x : follows a b -> val_s a i = Some x -> val_s b i = Some x.
  Proof. intros (H & _) E. unfold val_s in *. rewrite H, nth_error_map. destruct (nth_error (c_vals a) i) as [[y|P]|]; try discriminate. exact E. Qed.
  Lemma f_val_p a b i x : follows a b -> val_p a i = Some x -> val_p b i = Some (times x).
  Proof. intros (H & _) E. unfold val_p in *. rewrite H, nth_error_map. destruct (nth_error (c_vals a) i) as [[y|P]|]; try discriminate. cbn. now injection E as ->. Qed.
  Lemma f_mapM_s a b l xs : follows a b -> mapM (val_s a) l = Some xs -> mapM (val_s b) l = Some xs.
  Proof.
    intros R. revert xs. induction l as [|i l IH]; intros xs E; [exact E|]. cbn [mapM] in *. destruct (val_s a i) eqn:E1; [|discriminate].
    destruct (mapM (val_s a) l) eqn:E2; [|discriminate]. injection E as <-. rewrite (f_val_s a b i _ R E1), (IH _ eq_refl). reflexivity.
  Qed.
  Lemma f_mapM_p a b l xs : follows a b -> mapM (val_p a) l = Some xs -> mapM (val_p b) l = Some (map times xs).
  Proof.
    intros R. revert xs. induction l as [|i l IH]; intros xs E; [injection E as <-; reflexivity|]. cbn [mapM] in *. destruct (val_p a i) eqn:E1; [|discriminate].
    destruct (mapM (val_p a) l) eqn:E2; [|discriminate]. injection E as <-. rewrite (f_val_p a b i _ R E1), (IH _ eq_refl). reflexivity.
  Qed.
  Lemma f_mapM_c a b (l : list (nat * F)) xs : follows a b ->
    mapM (fun ic => do x <- val_s a (fst ic); Some (x, snd ic)) l = Some xs -> mapM (fun ic => do x <- val_s b (fst ic); Some (x, snd ic)) l = Some xs.
  Proof.
    intros R. revert xs. induction l as [|i l IH]; intros xs E; [exact E|]. cbn [mapM] in *. destruct (val_s a (fst i)) eqn:E1; [|discriminate].
    destruct (mapM _ l) eqn:E2 in E; [|discriminate]. injection E as <-. rewrite (f_val_s a b _ _ R E1), (IH _ E2). reflexivity.
  Qed.
  Lemma f_push v a b a' : follows a b -> push v a = Some a' -> exists b', push (on_val v) b = Some b' /\ follows a' b'.
  Proof.
    intros (H1 & H2 & H3) E. injection E as <-. eexists; split; [reflexivity|]. split; cbn; [|now split]. now rewrite H1, map_app.
  Qed.
  Lemma f_set_nth l l' t x y : Forall2 follows_tr l l' -> follows_tr x y -> Forall2 follows_tr (set_nth l t x) (set_nth l' t y).
  Proof.
    intros H R. unfold set_nth.
    assert (A : forall k, Forall2 follows_tr (firstn k l) (firstn k l') /\ Forall2 follows_tr (skipn k l) (skipn k l')).
    { clear - H. induction H as [|p q l l' R H IH]; intros [|k]; cbn; split; try constructor; try assumption; try apply (IH k). }
    apply Forall2_app; [apply A|]. constructor; [exact R|]. apply A.
  Qed.
  (** readers *)
  Lemma f_on_tr {A B} (m1 : R unit A) (m2 : R St B) (rl : A -> B -> Prop) t a b x a' :
    (forall u v, follows_tr u v -> forall y u', m1 u = Some (y, u') -> exists z v', m2 v = Some (z, v') /\ rl y z /\ follows_tr u' v') ->
    follows a b -> on_tr t m1 a = Some (x, a') -> exists z b', on_tr t m2 b = Some (z, b') /\ rl x z /\ follows a' b'.
  Proof.
    intros Hm (H1 & H2 & H3) E. unfold on_tr in *. destruct (nth_error (c_trs a) t) as [u|] eqn:Eu; [|discriminate].
    destruct (m1 u) as [[y u']|] eqn:Em; [|discriminate]. injection E as <- <-.
    assert (Hv : exists v, nth_error (c_trs b) t = Some v /\ follows_tr u v).
    { clear - H3 Eu. revert t Eu. induction H3 as [|p q l l' R _ IH]; intros [|t] E; try discriminate; [injection E as <-; now exists q|exact (IH t E)]. }
    destruct Hv as (v & Ev & R). rewrite Ev. destruct (Hm u v R y u' Em) as (z & v' & Ez & Rz & R'). rewrite Ez. eexists _, _. split; [reflexivity|]. split; [exact Rz|].
    split; [exact H1|]. split; [exact H2|]. now apply f_set_nth.
  Qed.
  Lemma f_read {A B} n (d1 : list Z -> option A) (d2 : list Z -> option B) (rl : A -> B -> Prop) u v y u' :
    (forall bs x, d1 bs = Some x -> exists z, d2 bs = Some z /\ rl x z) -> follows_tr u v -> read_decode unit n d1 u = Some (y, u') ->
    exists z v', read_decode St n d2 v = Some (z, v') /\ rl y z /\ follows_tr u' v'.
  Proof.
    intros Hd [R1 R2] E. unfold read_decode in *. rewrite <- R1. destruct (Nat.leb n (length (t_rest u))); [|discriminate].
    destruct (d1 (firstn n (t_rest u))) eqn:Ed; [|discriminate]. injection E as <- <-. destruct (Hd _ _ Ed) as (z & Ez & Rz). rewrite Ez.
    eexists _, _. split; [reflexivity|]. split; [exact Rz|]. split; [reflexivity|exact R2].
  Qed.

  Lemma f_call k a b a' : follows a b -> call1 k a = Some a' -> exists b', call2 (on_call k) b = Some b' /\ follows a' b'.
  Proof.
    intros R E. destruct k; cbn [run_call on_call] in *.
    - exact (f_push (VS c) _ _ _ R E).
    - destruct (val_s a i) as [x|] eqn:E1; [|discriminate]. destruct (val_s a j) as [y|] eqn:E2; [|discriminate].
      rewrite (f_val_s a b i _ R E1), (f_val_s a b j _ R E2). exact (f_push (VS _) _ _ _ R E).
    - destruct (val_s a i) as [x|] eqn:E1; [|discriminate]. destruct (val_s a j) as [y|] eqn:E2; [|discriminate].
      rewrite (f_val_s a b i _ R E1), (f_val_s a b j _ R E2). exact (f_push (VS _) _ _ _ R E).
    - destruct (val_s a i) as [x|] eqn:E1; [|discriminate]. destruct (val_s a j) as [y|] eqn:E2; [|discriminate].
      rewrite (f_val_s a b i _ R E1), (f_val_s a b j _ R E2). exact (f_push (VS _) _ _ _ R E).
    - destruct (val_s a i) as [x|] eqn:E1; [|discriminate]. destruct (val_s a j) as [y|] eqn:E2; [|discriminate].
      rewrite (f_val_s a b i _ R E1), (f_val_s a b j _ R E2). destruct (chip_div x y); [|discriminate]. exact (f_push (VS _) _ _ _ R E).
    - destruct (val_s a i) as [x|] eqn:E1; [|discriminate]. rewrite (f_val_s a b i _ R E1). exact (f_push (VS _) _ _ _ R E).
    - destruct (mapM _ l) as [xs|] eqn:E1 in E; [|discriminate]. rewrite (f_mapM_c a b l _ R E1). exact (f_push (VS _) _ _ _ R E).
    - exact (f_push (VP P) _ _ _ R E).
    - exact (f_push (VP _) _ _ _ R E).
    - destruct (val_p a i) as [x|] eqn:E1; [|discriminate]. destruct (val_p a j) as [y|] eqn:E2; [|discriminate].
      rewrite (f_val_p a b i _ R E1), (f_val_p a b j _ R E2), <- times_add. exact (f_push (VP _) _ _ _ R E).
    - destruct (val_p a i) as [x|] eqn:E1; [|discriminate]. destruct (val_p a j) as [y|] eqn:E2; [|discriminate].
      rewrite (f_val_p a b i _ R E1), (f_val_p a b j _ R E2). unfold msub. rewrite <- times_opp, <- times_add. exact (f_push (VP _) _ _ _ R E).
    - destruct (val_s a i) as [x|] eqn:E1; [|discriminate]. destruct (val_p a j) as [y|] eqn:E2; [|discriminate].
      rewrite (f_val_s a b i _ R E1), (f_val_p a b j _ R E2), <- times_smul. exact (f_push (VP _) _ _ _ R E).
    - destruct (val_s a i) as [x|] eqn:E1; [|discriminate]. rewrite (f_val_s a b i _ R E1), <- times_smul. exact (f_push (VP _) _ _ _ R E).
    - destruct (mapM (val_p a) ps) as [es|] eqn:E1; [|discriminate]. destruct (mapM (val_s a) ss) as [xs|] eqn:E2; [|discriminate].
      rewrite (f_mapM_p a b _ _ R E1), (f_mapM_s a b _ _ R E2). destruct (multi_exp es xs) as [e|] eqn:E3; [|discriminate].
      rewrite (times_multi_exp _ _ _ E3). exact (f_push (VP _) _ _ _ R E).
    - destruct (val_p a i) as [x|] eqn:E1; [|discriminate]. rewrite (f_val_p a b i _ R E1). exact (f_push (VP _) _ _ _ R E).
    - destruct R as (R1 & R2 & R3). rewrite R2. destruct (c_inst a) as [|x l]; [discriminate|]. injection E as <-. eexists. split; [reflexivity|].
      split; cbn; [|now split]. now rewrite R1, map_app.
    - destruct (on_tr t _ a) as [[P a1]|] eqn:E1 in E; [|discriminate].
      destruct (f_on_tr (read_point F (self_mod F) PT dec1 unit (fun (s : unit) _ => s)) (read_point F M PT dec2 St upd_pt) (fun e P => P = times e) t a b P a1) with (2 := R) (3 := E1) as (z & b1 & Eb & -> & R1).
      { intros u v Ru y u' Ey. unfold read_point, rbind in Ey |- *. destruct (read_decode unit PT dec1 u) as [[e u1]|] eqn:Er; [|discriminate].
        destruct (f_read PT dec1 dec2 (fun e P => P = times e) u v e u1) with (2 := Ru) (3 := Er) as (z & v1 & Ev & -> & [Rv1 Rv2]).
        { intros bs x Hx. eexists; split; [exact (dec bs x Hx)|reflexivity]. }
        rewrite Ev. unfold common_point, rret in Ey |- *. injection Ey as <- <-. eexists _, _. split; [reflexivity|]. split; [reflexivity|]. split; [exact Rv1|now apply pt_ready]. }
      rewrite Eb. exact (f_push (VP _) _ _ _ R1 E).
    - destruct (on_tr t _ a) as [[P a1]|] eqn:E1 in E; [|discriminate].
      destruct (f_on_tr (read_scalar F SC sc_decode unit (fun (s : unit) _ => s)) (read_scalar F SC sc_decode St upd_sc) eq t a b P a1) with (2 := R) (3 := E1) as (z & b1 & Eb & <- & R1).
      { intros u v Ru y u' Ey. unfold read_scalar, rbind in Ey |- *. destruct (read_decode unit SC sc_decode u) as [[e u1]|] eqn:Er; [|discriminate].
        destruct (f_read SC sc_decode sc_decode eq u v e u1) with (2 := Ru) (3 := Er) as (z & v1 & Ev & <- & [Rv1 Rv2]).
        { intros bs x Hx. exists x. now split. }
        rewrite Ev. unfold common_scalar, rret in Ey |- *. injection Ey as <- <-. eexists _, _. split; [reflexivity|]. split; [reflexivity|]. split; [exact Rv1|now apply sc_ready]. }
      rewrite Eb. exact (f_push (VS _) _ _ _ R1 E).
    - destruct (val_p a i) as [x|] eqn:E0; [|discriminate]. rewrite (f_val_p a b i _ R E0). destruct (on_tr t _ a) as [[P a1]|] eqn:E1 in E; [|discriminate].
      destruct (f_on_tr (common_point F (self_mod F) unit (fun (s : unit) _ => s) x) (common_point F M St upd_pt (times x)) (fun _ _ => True) t a b P a1) with (2 := R) (3 := E1) as (z & b1 & Eb & _ & R1).
      { intros u v [Ru1 Ru2] y u' Ey. unfold common_point in Ey |- *. injection Ey as <- <-. eexists _, _. split; [reflexivity|]. split; [exact I|]. split; [exact Ru1|now apply pt_ready]. }
      rewrite Eb. injection E as <-. exists b1. now split.
    - destruct (val_s a i) as [x|] eqn:E0; [|discriminate]. rewrite (f_val_s a b i _ R E0). destruct (on_tr t _ a) as [[P a1]|] eqn:E1 in E; [|discriminate].
      destruct (f_on_tr (common_scalar F unit (fun (s : unit) _ => s) x) (common_scalar F St upd_sc x) (fun _ _ => True) t a b P a1) with (2 := R) (3 := E1) as (z & b1 & Eb & _ & R1).
      { intros u v [Ru1 Ru2] y u' Ey. unfold common_scalar in Ey |- *. injection Ey as <- <-. eexists _, _. split; [reflexivity|]. split; [exact I|]. split; [exact Ru1|now apply sc_ready]. }
      rewrite Eb. injection E as <-. exists b1. now split.
    - destruct (on_tr t _ a) as [[P a1]|] eqn:E1 in E; [|discriminate].
      destruct (f_on_tr (squeeze_scalar F unit (fun s : unit => Some (two, s))) (squeeze_scalar F St sqz) eq t a b P a1) with (2 := R) (3 := E1) as (z & b1 & Eb & <- & R1).
      { intros u v [Ru1 Ru2] y u' Ey. unfold squeeze_scalar in Ey |- *. injection Ey as <- <-. destruct (sqz_ready _ Ru2) as (h' & -> & Rh).
        eexists _, _. split; [reflexivity|]. split; [reflexivity|]. split; [exact Ru1|exact Rh]. }
      rewrite Eb. exact (f_push (VS _) _ _ _ R1 E).
  Qed.
  Lemma f_calls cs : forall a b a', follows a b -> calls1 cs a = Some a' -> exists b', calls2 (map on_call cs) b = Some b' /\ follows a' b'.
  Proof.
    induction cs as [|k cs IH]; intros a b a' R E; [injection E as <-; exists b; now split|]. cbn [run_calls map] in *.
    destruct (call1 k a) as [a1|] eqn:Ek; [|discriminate]. destruct (f_call k a b a1 R Ek) as (b1 & Eb & R1). rewrite Eb. exact (IH a1 b1 a' R1 E).
  Qed.
End Exponent.
Arguments on_call {F M} _ _. Arguments follows {F M} _ {St} _ _ _. Arguments times {F M} _ _.

(** ** A sponge whose challenges are all 2 *)
Section Two.
  Variable F : PF.
  Add Field FF : (f_th F).
  Definition num2 : F := fadd f1 f1.
  Definition two_spec : pspec F := mkSpec F 2 [[f0; f0]] [] [] [[f1; f0]; [num2; f0]] [[f1; f0]; [f0; f0]] [].
  Definition two_init : list F := [f1; f0].
  Lemma two_wf : wf_spec two_spec 1.
  Proof. unfold wf_spec, two_spec. cbn [sp_r_f sp_start sp_partial sp_end sp_mds sp_pre_sparse_mds sp_sparse]. repeat split; try discriminate; try (repeat constructor; reflexivity); try lia. Qed.
  Definition two_ready (h : pstate F (mock_chip F)) : Prop := exists y, ps_s h = [f1; y].
  Lemma two_perm y inputs : length inputs <= 1 -> permutation F (mock_chip F) two_spec 2 [f1; y] inputs = Some [f1; num2].
  Proof.
    intro L. destruct inputs as [|i [|j l]]; [| |cbn in L; lia]; unfold permutation, two_spec, num2; cbn; f_equal; f_equal; [| |ring|]; try (f_equal; ring); ring.
  Qed.
  Lemma two_sqz (h : pstate F (mock_chip F)) : two_ready h -> exists h', native_sqz F two_spec 1 h = Some (num2, h') /\ two_ready h'.
  Proof.
    intros [y Hy]. unfold native_sqz, squeeze.
    assert (A : forall l o y, exists o' y', (o = 0 \/ y = num2 -> o' = 0 \/ y' = num2) /\ (Forall (fun b : list (cV (mock_chip F)) => length b <= 1) l -> cfold F (mock_chip F) (fun '(_, s) chunk =>
       cbind (mock_chip F) (permutation F (mock_chip F) two_spec 2 s chunk) (fun s => cret (mock_chip F) (1 - length chunk, s))) l (o, [f1; y]) = Some (o', [f1; y']))).
    { clear. induction l as [|b l IH]; intros o y.
      - exists o, y. split; [auto|]. reflexivity.
      - destruct (IH (1 - length b) num2) as (o' & y' & H0 & H). exists o', y'. split; [intros _; apply H0; now right|]. intro HF. inversion HF as [|? ? H1 H2]; subst. specialize (H H2).
        cbn [cfold cbind mock_chip]. rewrite (two_perm y b H1). exact H. }
    destruct (A (chunks 1 (ps_absorbing h)) 0 y) as (o' & y' & H0 & E). specialize (H0 (or_introl eq_refl)). rewrite Hy.
    specialize (E (PoseidonProofs.chunks_bound 1 _)). cbn [cbind mock_chip] in E |- *.
    match goal with |- context [match ?x with Some _ => _ | None => _ end] => replace x with (Some (o', [f1; y']) : option (nat * list F)) by (symmetry; exact E) end.
    cbv beta iota zeta. destruct (Nat.eqb_spec o' 0) as [_|Ne].
    - rewrite (two_perm y' []) by (cbn; lia). eexists. split; [reflexivity|]. now exists num2.
    - destruct H0 as [H0|H0]; [contradiction|]; rewrite H0. eexists. split; [reflexivity|]. now exists num2.
  Qed.
End Two.

(** ** Luck (CircuitHonest.v) of a run on multiples of the generator, checked on the exponents *)
Section Luck.
  Variables NN W : PF.
  Hypothesis HN : pf_n NN = fr_mod.
  Hypothesis HW : pf_n W = fq_mod.
  Notation M := (G1 NN W HN HW).
  Notation aff := (g1_affine NN W HN HW).
  Notation E1 := (self_mod NN).
  Variable g : M.
  Hypothesis g_G : aff g = G W.
  Variables (PT SC : nat).
  Variable dec1 : list Z -> option E1.
  Variable dec2 : list Z -> option M.
  Hypothesis dec : forall bs e, dec1 bs = Some e -> dec2 bs = Some (times g e).
  Variable sc_decode : list Z -> option NN.
  Variable generator : E1.
  Notation nm := (scN NN).
  Notation call1 := (run_call NN E1 PT SC dec1 sc_decode unit (fun s _ => s) (fun s _ => s) (fun s => Some (num2 NN, s)) generator).
  Notation calls1 := (run_calls NN E1 PT SC dec1 sc_decode unit (fun s _ => s) (fun s _ => s) (fun s => Some (num2 NN, s)) generator).
  Notation follows2 := (follows g (two_ready NN)).
  Notation calls2 := (run_calls NN M PT SC dec2 sc_decode (pstate NN (mock_chip NN)) (native_pt NN W M aff) (native_sc NN) (native_sqz NN (two_spec NN) 1) (times g generator)).
  Notation luck := (lucky_calls NN W HN HW PT SC dec2 sc_decode (two_spec NN) 1 (times g generator)).

  Definition luckynb (ks : list N) (K n : N) : bool :=
    forallb (fun i => memb ks (N.of_nat i * n)) (seq 1 15) &&
    forallb (fun m => forallb (fun i => memb ks (2 ^ N.of_nat i * (K / 16 ^ N.of_nat m) * n)) (seq 0 4)) (seq 1 63).
  Lemma luckynb_ok ks K n : Forall (fun m => fine W (Curve.smul m (G W))) ks -> (K < 2 ^ 256)%N -> luckynb ks K n = true -> lucky W K (Curve.smul n (G W)).
  Proof.
    intros F HK. unfold luckynb. rewrite andb_true_iff, !forallb_forall. intros [H1 H2]. split.
    - intros i L1 L2. rewrite <- (smulmul W HW) by exact (g_on W). apply (memb_ok W ks); [assumption|]. specialize (H1 (N.to_nat i) ltac:(apply in_seq; lia)). now rewrite N2Nat.id in H1.
    - intros m i Hm Hi. rewrite <- (smulmul W HW) by exact (g_on W). apply (memb_ok W ks); [assumption|]. destruct (N.lt_ge_cases m 64) as [L|L].
      + specialize (H2 (N.to_nat m) ltac:(apply in_seq; lia)). rewrite forallb_forall in H2. specialize (H2 (N.to_nat i) ltac:(apply in_seq; lia)).
        rewrite !N2Nat.id in H2. exact H2.
      + assert (E : (K / 16 ^ m = 0)%N).
        { apply N.div_small. apply N.lt_le_trans with (2 ^ 256)%N; [assumption|]. change (2 ^ 256)%N with (16 ^ 64)%N. apply N.pow_le_mono_r; [discriminate|assumption]. }
        rewrite E, N.mul_0_r. reflexivity.
  Qed.
  Lemma aff_times e : aff (times g e) = Curve.smul (nm e) (G W).
  Proof. rewrite <- g_G. reflexivity. Qed.
  Lemma nm_small (x : NN) : (nm x < 2 ^ 256)%N.
  Proof.
    unfold scN. pose proof (toZ_range NN x) as R. rewrite HN in R. clear g_G dec. change (2 ^ 256)%N with (Z.to_N (2 ^ 256)). apply Z2N.inj_lt; [lia|now apply Z.pow_nonneg|].
    apply Z.lt_trans with fr_mod; [lia|reflexivity].
  Qed.

  Definition call_luckyb (ks : list N) (k : call NN E1) (s : cst NN E1 unit) : bool :=
    match k with
    | CPAdd i j => match val_p s i, val_p s j with Some P, Some Q => memb ks (nm P) && small (nm P) (nm Q) | _, _ => true end
    | CPSub i j => match val_p s i with Some P => memb ks (nm P) | _ => true end
    | CPMul i j => match val_s s i, val_p s j with Some x, Some P => luckynb ks (nm x) (nm P) | _, _ => true end
    | CMultiExp ps ss => match mapM (val_p s) ps, mapM (val_s s) ss with Some es, Some xs => sluckyb ks (combine (map nm xs) (map nm es)) | _, _ => true end
    | _ => true
    end.
  Fixpoint lrun (ks : list N) (cs : list (call NN E1)) (s : cst NN E1 unit) : option (cst NN E1 unit) :=
    match cs with [] => Some s | k :: cs => if call_luckyb ks k s then match call1 k s with Some s => lrun ks cs s | None => None end else None end.
  Lemma lrun_run ks cs : forall s s', lrun ks cs s = Some s' -> calls1 cs s = Some s'.
  Proof.
    induction cs as [|k cs IH]; intros s s' E; [exact E|]. cbn [lrun run_calls] in *. destruct (call_luckyb ks k s); [|discriminate].
    destruct (call1 k s); [|discriminate]. now apply IH.
  Qed.
  Lemma f_val_p' a b i P : follows2 a b -> val_p b i = Some P -> exists e, val_p a i = Some e /\ P = times g e.
  Proof.
    intros (H & _) E. unfold val_p in *. rewrite H, nth_error_map in E. destruct (nth_error (c_vals a) i) as [[y|e]|]; try discriminate. cbn in E. injection E as <-. now exists e.
  Qed.
  Lemma f_val_s' a b i x : follows2 a b -> val_s b i = Some x -> val_s a i = Some x.
  Proof. intros (H & _) E. unfold val_s in *. rewrite H, nth_error_map in E. destruct (nth_error (c_vals a) i) as [[y|e]|]; try discriminate. exact E. Qed.
  Lemma f_mapM_p' a b l xs : follows2 a b -> mapM (val_p b) l = Some xs -> exists es, mapM (val_p a) l = Some es /\ xs = map (times g) es.
  Proof.
    intros R. revert xs. induction l as [|i l IH]; intros xs E; [injection E as <-; exists []; now split|]. cbn [mapM] in *. destruct (val_p b i) eqn:E1; [|discriminate].
    destruct (mapM (val_p b) l) eqn:E2; [|discriminate]. injection E as <-. destruct (f_val_p' a b i _ R E1) as (e & -> & ->). destruct (IH _ eq_refl) as (es & -> & ->).
    exists (e :: es). now split.
  Qed.
  Lemma f_mapM_s' a b l xs : follows2 a b -> mapM (val_s b) l = Some xs -> mapM (val_s a) l = Some xs.
  Proof.
    intros R. revert xs. induction l as [|i l IH]; intros xs E; [exact E|]. cbn [mapM] in *. destruct (val_s b i) eqn:E1; [|discriminate].
    destruct (mapM (val_s b) l) eqn:E2; [|discriminate]. injection E as <-. rewrite (f_val_s' a b i _ R E1), (IH _ eq_refl). reflexivity.
  Qed.
  Lemma call_luckyb_ok ks k a b : Forall (fun m => fine W (Curve.smul m (G W))) ks -> follows2 a b -> call_luckyb ks k a = true ->
    lucky_call NN W HN HW (on_call g k) b.
  Proof.
    intros Hk R H. destruct k; try exact I; cbn [on_call lucky_call call_luckyb] in *.
    - intros P Q EP EQ. destruct (f_val_p' a b i P R EP) as (e & E1 & ->). destruct (f_val_p' a b j Q R EQ) as (e' & E2 & ->). rewrite E1, E2 in H.
      apply andb_true_iff in H. destruct H as [H1 H2]. rewrite !aff_times. split; [exact (memb_ok W ks _ Hk H1)|exact (small_ok W HW _ _ H2)].
    - intros P EP. destruct (f_val_p' a b i P R EP) as (e & E1 & ->). rewrite E1 in H. rewrite aff_times. exact (memb_ok W ks _ Hk H).
    - intros x P Ex EP. destruct (f_val_p' a b j P R EP) as (e & E1 & ->). rewrite (f_val_s' a b i x R Ex), E1 in H. rewrite aff_times. apply (luckynb_ok ks); [exact Hk|apply nm_small|exact H].
    - intros Ps xs EP Ex. destruct (f_mapM_p' a b ps Ps R EP) as (es & E1 & ->). rewrite E1, (f_mapM_s' a b ss xs R Ex) in H.
      replace (combine (map nm xs) (map aff (map (times g) es))) with (pts W (combine (map nm xs) (map nm es))); [exact (sluckyb_ok W HW ks _ Hk H)|].
      clear - g_G. unfold pts. revert es. induction xs as [|x xs IH]; intros [|e es]; try reflexivity. cbn [map combine fst snd]. rewrite IH. f_equal. f_equal. symmetry. apply aff_times.
  Qed.
  Lemma lrun_luck ks cs : Forall (fun m => fine W (Curve.smul m (G W))) ks -> forall a b a', follows2 a b -> lrun ks cs a = Some a' -> luck (map (on_call g) cs) b.
  Proof.
    intros Hk. induction cs as [|k cs IH]; intros a b a' R E; [exact I|]. cbn [lrun map lucky_calls] in *.
    destruct (call_luckyb ks k a) eqn:El; [|discriminate]. destruct (call1 k a) as [a1|] eqn:Ek; [|discriminate].
    split; [exact (call_luckyb_ok ks k a b Hk R El)|].
    destruct (f_call NN M g PT SC dec1 dec2 dec sc_decode _ (native_pt NN W M aff) (native_sc NN) (native_sqz NN (two_spec NN) 1) (two_ready NN) (num2 NN)
      (fun h P H => H) (fun h s H => H) (two_sqz NN) generator k a b a1 R Ek) as (b1 & Eb & R1).
    intros b' Eb'. rewrite Eb in Eb'. injection Eb' as <-. exact (IH a1 b1 a' R1 E).
  Qed.
  Lemma lrun_ok ks cs a b a' : Forall (fun m => fine W (Curve.smul m (G W))) ks -> follows2 a b -> lrun ks cs a = Some a' ->
    luck (map (on_call g) cs) b /\ exists b', calls2 (map (on_call g) cs) b = Some b' /\ follows2 a' b'.
  Proof.
    intros Hk R E. split; [exact (lrun_luck ks cs Hk a b a' R E)|].
    exact (f_calls NN M g PT SC dec1 dec2 dec sc_decode _ (native_pt NN W M aff) (native_sc NN) (native_sqz NN (two_spec NN) 1) (two_ready NN) (num2 NN)
      (fun h P H => H) (fun h s H => H) (two_sqz NN) generator cs a b a' R (lrun_run ks cs a a' E)).
  Qed.
End Luck.
