(** The operations of SolCalls.v compute what the calls compute. *)
From Coq Require Import String ZArith NArith Arith List Bool Lia.
From Verif Require Import Util Algebra PField Curve Bytes Schema Plonk BuildParams Calls VerifierCalls ChipRun SolCalls ListFacts.
From Verif Require ShaTranscript.
Import ListNotations.

Section Proofs.
  Variables S W : PF.
  Variable b : W.
  Variable H : list Z -> list Z.
  Variable ident_ok : bool.
  Variable M : Mod S.
  Variable pt : M -> point W.
  Variable lift : point W -> option M.
  Variable generator : M.
  Hypothesis Hadd : forall P Q, pt (madd P Q) = padd (pt P) (pt Q).
  Hypothesis Hsub : forall P Q, pt (msub P Q) = padd (pt P) (pneg (pt Q)).
  Hypothesis Hmul : forall s P, pt (Algebra.smul s P) = Curve.smul (Z.to_N (toZ s)) (pt P).
  Hypothesis Hlift : forall P m, lift P = Some m <-> pt m = P.
  Hypothesis Hcurve : forall P, on_curve b P -> exists m, pt m = P.
  Notation cst := (cst S M sha_state).
  Notation rpoint := (read_point S M 64 (sha_pt S W b ident_ok M lift) sha_state (sha_upd_pt S W ident_ok M pt)).
  Notation rscalar := (read_scalar S 32 (sha_sc S) sha_state (sha_upd_sc S)).
  Notation run_call := (run_call S M 64 32 (sha_pt S W b ident_ok M lift) (sha_sc S) sha_state (sha_upd_pt S W ident_ok M pt) (sha_upd_sc S) (sha_sqz S H) generator).
  Notation run := (run_calls S M 64 32 (sha_pt S W b ident_ok M lift) (sha_sc S) sha_state (sha_upd_pt S W ident_ok M pt) (sha_upd_sc S) (sha_sqz S H) generator).
  Notation nrun := (native_run (S := S) b H ident_ok).
  Notation nst := (nst S W).
  Notation trc := (tr_call S W M pt generator).
  Notation trs := (tr_calls S W M pt generator).

  Definition conv (v : cval S M) : nval S W := match v with VS x => NS x | VP P => NP (pt P) end.
  Record agree (st : tstate) (s : cst) (ns : nst) : Prop := mkAgree {
    ag_n : snd st = List.length (n_vals ns);
    ag_vals : Forall2 (fun i v => nth_error (n_vals ns) i = Some (conv v)) (fst st) (c_vals s);
    ag_inst : c_inst s = n_inst ns;
    ag_trs : c_trs s = [mkTr (n_rest ns) (Some (n_st ns))]
  }.
  Lemma nrun_app l l' : forall s : nst, nrun (l ++ l') s = do s <- nrun l s; nrun l' s.
  Proof. induction l as [|o l IH]; intro s; [reflexivity|]. cbn [app native_run]. destruct (native_op _ _ _ o s) as [s1|]; [apply IH|reflexivity]. Qed.

  Lemma F2_at {X Y} (R : X -> Y -> Prop) l l' i : Forall2 R l l' -> match nth_error l i, nth_error l' i with Some x, Some y => R x y | None, None => True | _, _ => False end.
  Proof. intro K. revert i. induction K as [|x y l l' Hxy K IH]; intros [|i]; cbn; [exact I|exact I|exact Hxy|exact (IH i)]. Qed.
  Lemma look st s ns i : agree st s ns -> match nth_error (fst st) i with
    | Some i' => n_s (n_vals ns) i' = val_s s i /\ n_p (n_vals ns) i' = (do P <- val_p s i; Some (pt P))
    | None => val_s s i = None /\ val_p s i = None end.
  Proof.
    intros [_ V _ _]. apply (F2_at _ _ _ i) in V. unfold n_s, n_p, val_s, val_p. destruct (nth_error (fst st) i) as [i'|], (nth_error (c_vals s) i) as [v|]; try contradiction; [|now split].
    rewrite V. destruct v; now split.
  Qed.
  Lemma ag_push st s ns v : agree st s ns ->
    agree (fst st ++ [snd st], Datatypes.S (snd st)) (mkC (c_vals s ++ [v]) (c_inst s) (c_trs s)) (mkN (n_vals ns ++ [conv v]) (n_inst ns) (n_st ns) (n_rest ns)).
  Proof.
    intros [A B C D]. constructor; cbn [fst snd c_vals c_inst c_trs n_vals n_inst n_rest n_st]; auto.
    - rewrite app_length. cbn. lia.
    - apply Forall2_app.
      + eapply Forall2_weaken; [|exact B]. cbn beta. intros i w E. rewrite nth_error_app1; [exact E|]. apply nth_error_Some. congruence.
      + constructor; [|constructor]. rewrite nth_error_app2 by lia. rewrite A, Nat.sub_diag. reflexivity.
  Qed.
  (** more results of the operations *)
  Lemma ag_more st s ns l : agree st s ns -> agree (fst st, snd st + List.length l) s (mkN (n_vals ns ++ l) (n_inst ns) (n_st ns) (n_rest ns)).
  Proof.
    intros [A B C D]. constructor; cbn [fst snd n_vals n_inst n_rest n_st]; auto.
    - rewrite app_length. lia.
    - eapply Forall2_weaken; [|exact B]. cbn beta. intros i w E. rewrite nth_error_app1; [exact E|]. apply nth_error_Some. congruence.
  Qed.
  Lemma ag_alias st s ns i v : agree st s ns -> nth_error (n_vals ns) i = Some (conv v) ->
    agree (fst st ++ [i], snd st) (mkC (c_vals s ++ [v]) (c_inst s) (c_trs s)) ns.
  Proof.
    intros [A B C D] E. constructor; cbn [fst snd c_vals c_inst c_trs]; auto. apply Forall2_app; [exact B|]. constructor; [exact E|constructor].
  Qed.

  Definition dead (s : cst) : Prop := exists r, c_trs s = [mkTr r None].
  Lemma mapM_look st s ns l : agree st s ns -> match mapM (fun i => nth_error (fst st) i) l with
    | Some l' => mapM (n_s (n_vals ns)) l' = mapM (val_s s) l /\ mapM (n_p (n_vals ns)) l' = (do ps <- mapM (val_p s) l; Some (map pt ps))
    | None => mapM (val_s s) l = None /\ mapM (val_p s) l = None end.
  Proof.
    intro A. induction l as [|i l IH]; [now split|]. cbn [mapM]. pose proof (look st s ns i A) as L. destruct (nth_error (fst st) i) as [i'|].
    - destruct L as [L1 L2]. destruct (mapM _ l) as [l'|].
      + destruct IH as [I1 I2]. cbn [mapM]. rewrite L1, L2, I1, I2. split; [reflexivity|]. destruct (val_p s i); [|reflexivity]. destruct (mapM (val_p s) l); reflexivity.
      + destruct IH as [I1 I2]. rewrite I1, I2. now destruct (val_s s i), (val_p s i).
    - destruct L as [L1 L2]. now rewrite L1, L2.
  Qed.
  Lemma sum_look st s ns l : agree st s ns -> match mapM (fun ic : nat * S => do i <- nth_error (fst st) (fst ic); Some (i, snd ic)) l with
    | Some l' => forall acc, n_sum (n_vals ns) l' acc = (do xs <- mapM (fun ic => do x <- val_s s (fst ic); Some (x, snd ic)) l; Some (sum_with_coeff_and_constant xs acc))
    | None => mapM (fun ic => do x <- val_s s (fst ic); Some (x, snd ic)) l = None end.
  Proof.
    intro A. induction l as [|[i c] l IH]; [intro; reflexivity|]. cbn [mapM fst snd]. pose proof (look st s ns i A) as L. destruct (nth_error (fst st) i) as [i'|].
    - destruct L as [L _]. destruct (mapM (fun ic : nat * S => do i <- nth_error (fst st) (fst ic); Some (i, snd ic)) l) as [l'|].
      + intro acc. cbn [n_sum].
 rewrite L. destruct (val_s s i) as [x|]; [|reflexivity]. rewrite IH. destruct (mapM _ l); reflexivity.
      + rewrite IH. now destruct (val_s s i).
    - destruct L as [L _]. now rewrite L.
  Qed.

  Lemma n_at_ext l l' i P : n_p (S := S) (W := W) l i = Some P -> n_p (l ++ l') i = Some P.
  Proof. unfold n_p. destruct (nth_error l i) as [v|] eqn:E; [|discriminate]. rewrite nth_error_app1 by (apply nth_error_Some; congruence). now rewrite E. Qed.
  Lemma n_p_last l (P : point W) : n_p (S := S) (l ++ [NP P]) (List.length l) = Some P.
  Proof. unfold n_p. rewrite nth_error_app2, Nat.sub_diag by lia. reflexivity. Qed.
  (** the accumulation of [multi_exp] on values *)
  Fixpoint multi_val (vs : list (nval S W)) (l : list (nat * nat)) (A : option (point W)) : option (point W) :=
    match l with
    | [] => A
    | (p, s) :: l => do x <- n_s vs s; do P <- n_p vs p;
        let c := Curve.smul (Z.to_N (toZ x)) P in multi_val vs l (Some (match A with None => c | Some a => padd a c end))
    end.
  Lemma multi_run (vs : list (nval S W)) l : Forall (fun ps => fst ps < List.length vs /\ snd ps < List.length vs) l ->
    forall acc n0 ns os r n A, multi_ops S W l acc n0 = Some (os, r, n) -> n0 = List.length (n_vals ns) ->
    (exists tl, n_vals ns = vs ++ tl) ->
    match acc with Some a => n_p (n_vals ns) a = A /\ A <> None | None => A = None end ->
    match multi_val vs l A with
    | None => nrun os ns = None
    | Some R => exists tl, nrun os ns = Some (mkN (n_vals ns ++ tl) (n_inst ns) (n_st ns) (n_rest ns)) /\ n = n0 + List.length tl /\ n_p (n_vals ns ++ tl) r = Some R
    end.
  Proof.
    intros FL. induction FL as [|[p s] l [Lp Ls] FL IH]; intros acc n0 ns os r n A E N0 [tl0 Hv] HA; cbn [fst snd] in *.
    - cbn [multi_ops] in E. destruct acc as [a|]; [|discriminate]. injection E as <- <- <-. destruct HA as [HP HN]. cbn [multi_val].
      destruct A as [R|]; [|congruence]. exists []. cbn. rewrite app_nil_r. destruct ns; cbn in *. repeat split; auto.
    - cbn [multi_val].
      assert (Ep : n_p (n_vals ns) p = n_p vs p) by (unfold n_p; rewrite Hv, nth_error_app1 by lia; reflexivity).
      assert (Es : n_s (n_vals ns) s = n_s vs s) by (unfold n_s; rewrite Hv, nth_error_app1 by lia; reflexivity).
      cbn [multi_ops] in E. destruct acc as [a|].
      + destruct (multi_ops S W l (Some (n0 + 1)) (n0 + 2)) as [[[os' r'] n']|] eqn:E'; [|discriminate]. injection E as <- <- <-. destruct HA as [HP HN].
        destruct (n_s vs s) as [x|]; [|cbn [native_run native_op]; rewrite Es; reflexivity].
        destruct (n_p vs p) as [P|]; [|cbn [native_run native_op]; rewrite Es, Ep; reflexivity].
        destruct A as [Q|]; [|congruence]. cbv zeta. set (c := Curve.smul _ P). subst n0.
        set (ns2 := mkN (n_vals ns ++ [NP c; NP (padd Q c)]) (n_inst ns) (n_st ns) (n_rest ns)).
        replace (nrun (OPMul s p :: OPAdd a (List.length (n_vals ns)) :: os') ns) with (nrun os' ns2).
        2: { cbn [native_run native_op]. rewrite Es, Ep. unfold n_ret. cbn [n_vals n_inst n_st n_rest]. fold c. rewrite (n_at_ext _ _ _ _ HP), n_p_last. rewrite <- app_assoc. reflexivity. }
        specialize (IH _ _ ns2 _ _ _ (Some (padd Q c)) E'). destruct (multi_val vs l (Some (padd Q c))) as [R|].
        * destruct IH as (tl & I1 & I2 & I3).
          { cbn. rewrite app_length. reflexivity. } { cbn. rewrite Hv, <- app_assoc. eauto. }
          { split; [|discriminate]. cbn [ns2 n_vals]. replace (List.length (n_vals ns) + 1) with (List.length (n_vals ns ++ [NP c])) by (rewrite app_length; reflexivity).
            change (n_vals ns ++ [NP c; NP (padd Q c)]) with (n_vals ns ++ [NP c] ++ [NP (padd Q c)]). rewrite app_assoc. apply n_p_last. }
          exists (NP c :: NP (padd Q c) :: tl). cbn [ns2 n_vals n_inst n_st n_rest] in I1, I3. rewrite <- app_assoc in I1, I3.
          split; [exact I1|]. split; [cbn [List.length]; lia|]. exact I3.
        * apply IH. { cbn. rewrite app_length. reflexivity. } { cbn. rewrite Hv, <- app_assoc. eauto. }
          { split; [|discriminate]. cbn [ns2 n_vals]. replace (List.length (n_vals ns) + 1) with (List.length (n_vals ns ++ [NP c])) by (rewrite app_length; reflexivity).
            change (n_vals ns ++ [NP c; NP (padd Q c)]) with (n_vals ns ++ [NP c] ++ [NP (padd Q c)]). rewrite app_assoc. apply n_p_last. }
      + destruct (multi_ops S W l (Some n0) (n0 + 1)) as [[[os' r'] n']|] eqn:E'; [|discriminate]. injection E as <- <- <-. subst A.
        destruct (n_s vs s) as [x|]; [|cbn [native_run native_op]; rewrite Es; reflexivity].
        destruct (n_p vs p) as [P|]; [|cbn [native_run native_op]; rewrite Es, Ep; reflexivity].
        cbv zeta. set (c := Curve.smul _ P). subst n0.
        set (ns2 := mkN (n_vals ns ++ [NP c]) (n_inst ns) (n_st ns) (n_rest ns)).
        replace (nrun (OPMul s p :: os') ns) with (nrun os' ns2) by (cbn [native_run native_op]; rewrite Es, Ep; reflexivity).
        specialize (IH _ _ ns2 _ _ _ (Some c) E'). destruct (multi_val vs l (Some c)) as [R|].
        * destruct IH as (tl & I1 & I2 & I3).
          { cbn. rewrite app_length. reflexivity. } { cbn. rewrite Hv, <- app_assoc. eauto. } { split; [|discriminate]. apply n_p_last. }
          exists (NP c :: tl). cbn [ns2 n_vals n_inst n_st n_rest] in I1, I3. rewrite <- app_assoc in I1, I3.
          split; [exact I1|]. split; [cbn [List.length]; lia|]. exact I3.
        * apply IH. { cbn. rewrite app_length. reflexivity. } { cbn. rewrite Hv, <- app_assoc. eauto. } { split; [|discriminate]. apply n_p_last. }
  Qed.
  Lemma multi_ops_some l : forall acc n, l <> [] \/ acc <> None -> exists os r n', multi_ops S W l acc n = Some (os, r, n').
  Proof.
    induction l as [|[p s] l IH]; intros acc n K.
    - destruct acc; [cbn; eauto|]. destruct K; congruence.
    - cbn. destruct acc as [a|].
      + destruct (IH (Some (n + 1)) (n + 2)) as (os & r & n' & ->); [now right|]. eauto.
      + destruct (IH (Some n) (n + 1)) as (os & r & n' & ->); [now right|]. eauto.
  Qed.
  (** against the native [multi_exp] *)
  Lemma multi_exp_val vs ps : forall ss Ps xs A, mapM (n_p vs) ps = Some (map pt Ps) -> mapM (n_s vs) ss = Some xs ->
    multi_val vs (combine ps ss) (do P <- A; Some (pt P)) =
    (do R <- fold_left (fun acc c => let curr := Algebra.smul (snd c) (fst c) in match acc with None => Some curr | Some a => Some (madd a curr) end) (combine Ps xs) A; Some (pt R)).
  Proof.
    induction ps as [|p ps IH]; intros ss Ps xs A HP HX.
    - cbn in HP. destruct Ps; [|discriminate]. reflexivity.
    - cbn [mapM] in HP. destruct (n_p vs p) as [P|] eqn:Ep; [|discriminate]. destruct (mapM (n_p vs) ps) as [Ps'|] eqn:Eps; [|discriminate].
      destruct Ps as [|Q Qs]; [discriminate|]. cbn [map] in HP. injection HP as -> EQ. subst Ps'.
      destruct ss as [|s ss]; cbn [mapM] in HX.
      + injection HX as <-. reflexivity.
      + destruct (n_s vs s) as [x|] eqn:Es; [|discriminate]. destruct (mapM (n_s vs) ss) as [xs'|] eqn:Exs; [|discriminate]. injection HX as <-.
        cbn [combine multi_val fold_left fst snd]. rewrite Es, Ep. cbv zeta. specialize (IH ss Qs xs'). cbv zeta in IH.
        destruct A as [a|]; cbv beta iota.
        * rewrite <- Hmul, <- Hadd. exact (IH (Some (madd a (Algebra.smul x Q))) eq_refl Exs).
        * rewrite <- Hmul. exact (IH (Some (Algebra.smul x Q)) eq_refl Exs).
  Qed.

  Lemma mapM_in {X Y} (f : X -> option Y) l l' x : mapM f l = Some l' -> In x l -> exists y, f x = Some y.
  Proof.
    revert l'. induction l as [|a l IH]; intros l' E I; [contradiction|]. cbn [mapM] in E. destruct (f a) as [y|] eqn:Ea; [|discriminate].
    destruct (mapM f l) as [r|] eqn:El; [|discriminate]. destruct I as [->|I]; [eauto|]. eapply IH; eauto.
  Qed.
  (** ** The transcript *)
  Lemma skipn_add {X} n k (l : list X) : skipn (n + k) l = skipn k (skipn n l).
  Proof. revert l. induction n as [|n IH]; intros [|x l]; cbn; auto; now destruct k. Qed.
  Lemma from_xy_on x y P : ShaTranscript.from_xy b ident_ok x y = Some P -> on_curve b P /\ exists xy, ShaTranscript.coordinates ident_ok P = Some xy.
  Proof.
    unfold ShaTranscript.from_xy, ShaTranscript.on_curve_dec, ShaTranscript.coordinates. destruct (feq_dec _ _) as [E|_].
    - intro K. injection K as <-. split; [exact E|eauto].
    - destruct ident_ok; [|discriminate]. destruct (feq_dec x f0); [|discriminate]. destruct (feq_dec y f0); [|discriminate]. intro K. injection K as <-. split; [exact I|eauto].
  Qed.
  Lemma rpoint_ok st rest : match ShaTranscript.read_point b ident_ok st rest with
    | Some (P, st', rest') => exists m, pt m = P /\ rpoint (mkTr rest (Some st)) = Some (m, mkTr rest' (Some st'))
    | None => rpoint (mkTr rest (Some st)) = None end.
  Proof.
    unfold ShaTranscript.read_point, BuildParams.read_point, rbind, read_decode, ShaTranscript.read_base, ShaTranscript.read_exact, sha_pt. cbn [t_rest t_hash].
    destruct (Nat.leb_spec 32 (List.length rest)) as [L|L].
    2: { destruct (Nat.leb_spec 64 (List.length rest)); [lia|reflexivity]. }
    destruct (Nat.leb_spec 64 (List.length rest)) as [L2|L2].
    - rewrite firstn_firstn. change (Nat.min 32 64) with 32.
      destruct (ShaTranscript.from_repr (firstn 32 rest)) as [x|]; [|reflexivity].
      destruct (Nat.leb_spec 32 (List.length (skipn 32 rest))) as [L3|L3]; [|rewrite skipn_length in L3; lia].
      rewrite (firstn_skipn_comm 32 32). change (32 + 32) with 64.
      destruct (ShaTranscript.from_repr (skipn 32 (firstn 64 rest))) as [y|]; [|reflexivity].
      destruct (ShaTranscript.from_xy b ident_ok x y) as [P|] eqn:Ex; [|reflexivity].
      destruct (from_xy_on _ _ _ Ex) as [On [xy Co]]. destruct (Hcurve P On) as [m Hm]. rewrite (proj2 (Hlift P m) Hm).
      unfold rret, BuildParams.common_point, sha_upd_pt. cbn [t_rest t_hash]. rewrite Hm. unfold ShaTranscript.common_point. rewrite Co. destruct xy as [x' y'].
      exists m. split; [exact Hm|]. do 3 f_equal. apply (skipn_add 32 32).
    - destruct (ShaTranscript.from_repr (firstn 32 rest)) as [x|]; [|reflexivity].
      destruct (Nat.leb_spec 32 (List.length (skipn 32 rest))) as [L3|L3]; [rewrite skipn_length in L3; lia|reflexivity].
  Qed.
  Lemma rscalar_ok st rest : rscalar (mkTr rest (Some st)) =
    match ShaTranscript.read_scalar (S := S) st rest with Some (x, st', rest') => Some (x, mkTr rest' (Some st')) | None => None end.
  Proof.
    unfold ShaTranscript.read_scalar, BuildParams.read_scalar, rbind, read_decode, ShaTranscript.read_exact, sha_sc. cbn [t_rest t_hash].
    destruct (Nat.leb 32 (List.length rest)); [|reflexivity]. destruct (ShaTranscript.from_repr _); reflexivity.
  Qed.

  (** ** One call *)
  Lemma one_step st s ns o v : agree st s ns -> nrun [o] ns = n_ret (conv v) ns ->
    exists os st' ns', one_op S W o st = Some (os, st') /\ nrun os ns = Some ns' /\ agree st' (mkC (c_vals s ++ [v]) (c_inst s) (c_trs s)) ns'.
  Proof. intros A E. do 3 eexists. split; [reflexivity|]. split; [exact E|]. now apply ag_push. Qed.
  Lemma on0 {A} (m : BuildParams.R sha_state A) (s : cst) t x : c_trs s = [x] -> on_tr t m s = match t with 0 => match m x with Some (a, x') => Some (a, mkC (c_vals s) (c_inst s) [x']) | None => None end | _ => None end.
  Proof. intros E. unfold on_tr. rewrite E. destruct t as [|[|t]]; reflexivity. Qed.

  Lemma step_ok c st s ns s' : agree st s ns -> run_call c s = Some s' ->
    dead s' \/ exists os st' ns', trc c st = Some (os, st') /\ nrun os ns = Some ns' /\ agree st' s' ns'.
  Proof.
    intro A. pose proof (ag_trs _ _ _ A) as T. pose proof (ag_inst _ _ _ A) as TI.
    assert (LS : forall i x, val_s s i = Some x -> exists i', nth_error (fst st) i = Some i' /\ n_s (n_vals ns) i' = Some x).
    { intros i x E. pose proof (look _ _ _ i A) as L. rewrite E in L. destruct (nth_error (fst st) i) as [i'|]; [|now destruct L]. exists i'. split; [reflexivity|apply L]. }
    assert (LP : forall i x, val_p s i = Some x -> exists i', nth_error (fst st) i = Some i' /\ n_p (n_vals ns) i' = Some (pt x)).
    { intros i x E. pose proof (look _ _ _ i A) as L. rewrite E in L. destruct (nth_error (fst st) i) as [i'|]; [|now destruct L]. exists i'. split; [reflexivity|apply L]. }
    assert (O : forall o v, nrun [o] ns = n_ret (conv v) ns -> exists os st' ns', one_op S W o st = Some (os, st') /\ nrun os ns = Some ns' /\
        agree st' (mkC (c_vals s ++ [v]) (c_inst s) (c_trs s)) ns') by (intros o v; now apply one_step).
    destruct c; cbn [Calls.run_call tr_call]; intro E.
    - injection E as <-. right. now apply O.
    - destruct (val_s s i) as [x|] eqn:Ei; [|discriminate]. destruct (val_s s j) as [y|] eqn:Ej; [|discriminate]. injection E as <-.
      apply LS in Ei, Ej. destruct Ei as (i' & -> & Ei), Ej as (j' & -> & Ej). right. apply O. cbn [native_run native_op]. now rewrite Ei, Ej.
    - destruct (val_s s i) as [x|] eqn:Ei; [|discriminate]. destruct (val_s s j) as [y|] eqn:Ej; [|discriminate]. injection E as <-.
      apply LS in Ei, Ej. destruct Ei as (i' & -> & Ei), Ej as (j' & -> & Ej). right. apply O. cbn [native_run native_op]. now rewrite Ei, Ej.
    - destruct (val_s s i) as [x|] eqn:Ei; [|discriminate]. destruct (val_s s j) as [y|] eqn:Ej; [|discriminate]. injection E as <-.
      apply LS in Ei, Ej. destruct Ei as (i' & -> & Ei), Ej as (j' & -> & Ej). right. apply O. cbn [native_run native_op]. now rewrite Ei, Ej.
    - (* div *) destruct (val_s s i) as [x|] eqn:Ei; [|discriminate]. destruct (val_s s j) as [y|] eqn:Ej; [|discriminate]. unfold chip_div in E.
      destruct (feq_dec y f0) as [Z|Z] eqn:D; [discriminate|]. injection E as <-.
      apply LS in Ei, Ej. destruct Ei as (i' & -> & Ei), Ej as (j' & -> & Ej). right. apply O. cbn [native_run native_op]. now rewrite Ei, Ej, D.
    - (* square *) destruct (val_s s i) as [x|] eqn:Ei; [|discriminate]. injection E as <-.
      apply LS in Ei. destruct Ei as (i' & -> & Ei). right. apply O. cbn [native_run native_op]. now rewrite Ei.
    - (* sum *) pose proof (sum_look st s ns l A) as L. destruct (mapM (fun ic => do x <- val_s s (fst ic); Some (x, snd ic)) l) as [xs|]; [|discriminate]. injection E as <-.
      destruct (mapM (fun ic : nat * S => do i <- nth_error (fst st) (fst ic); Some (i, snd ic)) l) as [l'|]; [|discriminate].
      specialize (L c). right. apply O. cbn [native_run native_op]. now rewrite L.
    - injection E as <-. right. now apply O.
    - injection E as <-. right. now apply O.
    - (* padd *) destruct (val_p s i) as [x|] eqn:Ei; [|discriminate]. destruct (val_p s j) as [y|] eqn:Ej; [|discriminate]. injection E as <-.
      apply LP in Ei, Ej. destruct Ei as (i' & -> & Ei), Ej as (j' & -> & Ej). right. apply O. cbn [native_run native_op conv]. now rewrite Ei, Ej, Hadd.
    - (* psub *) destruct (val_p s i) as [x|] eqn:Ei; [|discriminate]. destruct (val_p s j) as [y|] eqn:Ej; [|discriminate]. injection E as <-.
      apply LP in Ei, Ej. destruct Ei as (i' & -> & Ei), Ej as (j' & -> & Ej). right. apply O. cbn [native_run native_op conv]. now rewrite Ei, Ej, Hsub.
    - (* pmul *) destruct (val_s s i) as [x|] eqn:Ei; [|discriminate]. destruct (val_p s j) as [y|] eqn:Ej; [|discriminate]. injection E as <-.
      apply LS in Ei. apply LP in Ej. destruct Ei as (i' & -> & Ei), Ej as (j' & -> & Ej). right. apply O. cbn [native_run native_op conv]. now rewrite Ei, Ej, Hmul.
    - (* pmulconst *) destruct (val_s s i) as [x|] eqn:Ei; [|discriminate]. injection E as <-.
      apply LS in Ei. destruct Ei as (i' & -> & Ei). right. apply O. cbn [native_run native_op conv]. now rewrite Ei, Hmul.
    - (* multi_exp *) destruct (mapM (val_p s) ps) as [Ps|] eqn:Ep; [|discriminate]. destruct (mapM (val_s s) ss) as [xs|] eqn:Es; [|discriminate].
      destruct (multi_exp Ps xs) as [R|] eqn:Em; [|discriminate]. injection E as <-. right.
      pose proof (mapM_look st s ns ps A) as Lp. pose proof (mapM_look st s ns ss A) as Ls.
      destruct (mapM (fun i => nth_error (fst st) i) ps) as [ps'|]; [|destruct Lp; congruence]. destruct (mapM (fun i => nth_error (fst st) i) ss) as [ss'|]; [|destruct Ls; congruence].
      destruct Lp as [_ Lp], Ls as [Ls _]. rewrite Ep in Lp. rewrite Es in Ls.
      pose proof (multi_exp_val (n_vals ns) ps' ss' Ps xs None Lp Ls) as V. cbv zeta in V. unfold multi_exp in Em. cbv zeta in Em. rewrite Em in V.
      assert (NE : combine ps' ss' <> []) by (intro X; rewrite X in V; discriminate V).
      destruct (multi_ops_some (combine ps' ss') None (snd st) (or_introl NE)) as (os & r & n' & Eo). rewrite Eo.
      assert (B : Forall (fun q => fst q < List.length (n_vals ns) /\ snd q < List.length (n_vals ns)) (combine ps' ss')).
      { apply Forall_forall. intros [p q] Hin. cbn [fst snd]. pose proof (in_combine_l _ _ _ _ Hin) as I1. pose proof (in_combine_r _ _ _ _ Hin) as I2.
        destruct (mapM_in _ _ _ _ Lp I1) as (x1 & K1). destruct (mapM_in _ _ _ _ Ls I2) as (x2 & K2). unfold n_p in K1. unfold n_s in K2.
        split; apply nth_error_Some; [destruct (nth_error (n_vals ns) p)|destruct (nth_error (n_vals ns) q)]; discriminate. }
      pose proof (multi_run (n_vals ns) _ B None (snd st) ns os r n' None Eo (ag_n _ _ _ A) (ex_intro _ [] (eq_sym (app_nil_r _))) eq_refl) as Rn. rewrite V in Rn.
      destruct Rn as (tl & R1 & R2 & R3). do 3 eexists. split; [reflexivity|]. split; [exact R1|]. subst n'.
      apply (ag_alias (fst st, snd st + List.length tl)); [now apply ag_more|].
      cbn [n_vals conv]. unfold n_p in R3. destruct (nth_error (n_vals ns ++ tl) r) as [[?|Q]|]; try discriminate R3. now injection R3 as ->.
    - (* normalize *) pose proof (F2_at _ _ _ i (ag_vals _ _ _ A)) as V. unfold val_p in E. destruct (nth_error (c_vals s) i) as [[x|P]|]; try discriminate. injection E as <-.
      destruct (nth_error (fst st) i) as [i'|]; [|contradiction]. right. do 3 eexists. split; [reflexivity|]. split; [reflexivity|]. apply ag_alias; [exact A|exact V].
    - (* instance *) rewrite TI in E. destruct (n_inst ns) as [|x l] eqn:En; [discriminate|]. injection E as <-.
      right. do 3 eexists. split; [reflexivity|]. cbn [native_run native_op]. rewrite En. split; [reflexivity|].
      pose proof (ag_push _ _ _ (VS x) A) as [B1 B2 B3 B4]. constructor; cbn in *; auto.
    - (* read point *) rewrite (on0 _ _ _ _ T) in E. destruct t as [|t]; [|discriminate]. pose proof (rpoint_ok (n_st ns) (n_rest ns)) as R.
      destruct (ShaTranscript.read_point b ident_ok (n_st ns) (n_rest ns)) as [[[P st'] rest']|] eqn:Er; [|rewrite R in E; discriminate].
      destruct R as (m & Hm & R). subst P. rewrite R in E. injection E as <-. right. do 3 eexists. split; [reflexivity|]. cbn [native_run native_op]. rewrite Er. split; [reflexivity|].
      pose proof (ag_push _ _ _ (VP m) A) as [B1 B2 B3 B4]. constructor; cbn in *; auto.
    - (* read scalar *) rewrite (on0 _ _ _ _ T) in E. destruct t as [|t]; [|discriminate]. rewrite (rscalar_ok (n_st ns) (n_rest ns)) in E.
      destruct (ShaTranscript.read_scalar (n_st ns) (n_rest ns)) as [[[x st'] rest']|] eqn:Er; [|discriminate]. injection E as <-.
      right. do 3 eexists. split; [reflexivity|]. cbn [native_run native_op]. rewrite Er. split; [reflexivity|].
      pose proof (ag_push _ _ _ (VS x) A) as [B1 B2 B3 B4]. constructor; cbn in *; auto.
    - (* common point *) destruct (val_p s i) as [P|] eqn:Ei; [|discriminate]. rewrite (on0 _ _ _ _ T) in E. destruct t as [|t]; [|discriminate].
      apply LP in Ei. destruct Ei as (i' & -> & Ei). unfold common_point, sha_upd_pt in E. cbn [t_hash t_rest] in E. injection E as <-.
      destruct (ShaTranscript.common_point ident_ok (n_st ns) (pt P)) as [st'|] eqn:Ec; [|left; eexists; reflexivity].
      right. do 3 eexists. split; [reflexivity|]. cbn [native_run native_op]. rewrite Ei, Ec. split; [reflexivity|]. destruct A as [A1 A2 A3 A4]. constructor; cbn in *; auto.
    - (* common scalar *) destruct (val_s s i) as [x|] eqn:Ei; [|discriminate]. rewrite (on0 _ _ _ _ T) in E. destruct t as [|t]; [|discriminate].
      apply LS in Ei. destruct Ei as (i' & -> & Ei). unfold common_scalar, sha_upd_sc in E. cbn [t_hash t_rest] in E. injection E as <-.
      right. do 3 eexists. split; [reflexivity|]. cbn [native_run native_op]. rewrite Ei. split; [reflexivity|]. destruct A as [A1 A2 A3 A4]. constructor; cbn in *; auto.
    - (* squeeze *) rewrite (on0 _ _ _ _ T) in E. destruct t as [|t]; [|discriminate]. unfold squeeze_scalar, sha_sqz in E. cbn [t_hash t_rest] in E.
      destruct (ShaTranscript.squeeze_challenge H (n_st ns)) as [x st'] eqn:Eq. injection E as <-.
      right. do 3 eexists. split; [reflexivity|]. cbn [native_run native_op]. rewrite Eq. split; [reflexivity|].
      pose proof (ag_push _ _ _ (VS x) A) as [B1 B2 B3 B4]. constructor; cbn in *; auto.
  Qed.

  (** ** All calls *)
  Lemma dead_call c s s' : dead s -> run_call c s = Some s' -> dead s'.
  Proof.
    intros [r T] E. assert (K : c_trs s' = c_trs s \/ exists r', c_trs s' = [mkTr r' None]); [|destruct K as [K|K]; [exists r; congruence|exact K]].
    destruct c; cbn [Calls.run_call] in E; try rewrite (on0 _ _ _ _ T) in E;
      try (left; repeat match type of E with match ?x with _ => _ end = _ => destruct x; try discriminate E end; unfold push in E; injection E as <-; reflexivity).
    - destruct t; [|discriminate]. unfold BuildParams.read_point, rbind, read_decode, BuildParams.common_point, rret, sha_upd_pt in E. cbn [t_rest t_hash] in E.
      destruct (Nat.leb 64 _); [|discriminate]. destruct (sha_pt _ _ _ _ _ _ _); [|discriminate]. injection E as <-. right. eexists. reflexivity.
    - destruct t; [|discriminate]. unfold BuildParams.read_scalar, rbind, read_decode, BuildParams.common_scalar, rret, sha_upd_sc in E. cbn [t_rest t_hash] in E.
      destruct (Nat.leb 32 _); [|discriminate]. destruct (sha_sc _ _); [|discriminate]. injection E as <-. right. eexists. reflexivity.
    - destruct (val_p s i); [|discriminate]. rewrite (on0 _ _ _ _ T) in E. destruct t; [|discriminate]. injection E as <-. right. eexists. reflexivity.
    - destruct (val_s s i); [|discriminate]. rewrite (on0 _ _ _ _ T) in E. destruct t; [|discriminate]. injection E as <-. right. eexists. reflexivity.
    - destruct t; discriminate E.
  Qed.
  Lemma dead_run l : forall s s', dead s -> run l s = Some s' -> dead s'.
  Proof.
    induction l as [|c l IH]; intros s s' D E; cbn [run_calls] in E; [injection E as <-; exact D|].
    destruct (run_call c s) as [s1|] eqn:Ec; [|discriminate]. eapply IH; [|exact E]. eapply dead_call; eassumption.
  Qed.
  Lemma calls_ok l : forall st s ns s', agree st s ns -> run l s = Some s' -> ~ dead s' ->
    exists os st' ns', trs l st = Some (os, st') /\ nrun os ns = Some ns' /\ agree st' s' ns'.
  Proof.
    induction l as [|c l IH]; intros st s ns s' A E D; cbn [run_calls] in E.
    - injection E as <-. exists [], st, ns. auto.
    - destruct (run_call c s) as [s1|] eqn:Ec; [|discriminate]. destruct (step_ok c st s ns s1 A Ec) as [Dd|(os & st1 & ns1 & T1 & R1 & A1)].
      + destruct D. eapply dead_run; eassumption.
      + destruct (IH _ _ _ _ A1 E D) as (os2 & st2 & ns2 & T2 & R2 & A2). exists (os ++ os2), st2, ns2. cbn [tr_calls]. rewrite T1, T2. split; [reflexivity|].
        split; [|exact A2]. now rewrite nrun_app, R1.
  Qed.
  (** the constants among the operations are points of the curve *)
  Hypothesis Hon : forall m, on_curve b (pt m).
  Lemma trs_const l : forall st os st', trs l st = Some (os, st') -> Forall (const_on b) os.
  Proof.
    assert (MU : forall l acc n os r n', multi_ops S W l acc n = Some (os, r, n') -> Forall (const_on b) os).
    { induction l0 as [|[p q] l0 IH]; intros acc n os r n' E; cbn in E.
      - destruct acc; [|discriminate]. injection E as <- _ _. constructor.
      - destruct acc as [a|].
        + destruct (multi_ops S W l0 (Some (n + 1)) (n + 2)) as [[[os' r'] n'']|] eqn:E'; [|discriminate]. injection E as <- _ _. repeat constructor. eauto.
        + destruct (multi_ops S W l0 (Some n) (n + 1)) as [[[os' r'] n'']|] eqn:E'; [|discriminate]. injection E as <- _ _. repeat constructor. eauto. }
    assert (C : forall c st os st', trc c st = Some (os, st') -> Forall (const_on b) os).
    { intros c st os st' E. destruct c; cbn [tr_call] in E; unfold one_op in E;
        repeat match type of E with match ?x with _ => _ end = _ => destruct x eqn:?; try discriminate E end; injection E as <- _;
        try (constructor; [|constructor]; cbn; auto); try constructor.
      eapply MU; eassumption. }
    induction l as [|c l IH]; intros st os st' E; cbn [tr_calls] in E; [injection E as <- _; constructor|].
    destruct (trc c st) as [[o1 s1]|] eqn:E1; [|discriminate]. destruct (trs l s1) as [[o2 s2]|] eqn:E2; [|discriminate]. injection E as <- _.
    apply Forall_app. split; eauto.
  Qed.
End Proofs.
