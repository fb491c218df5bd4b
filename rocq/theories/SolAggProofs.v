(** The merging passes leave the result of the program unchanged. *)
From Coq Require Import ZArith NArith List Bool Lia.
From Verif Require Import Util Algebra PField Curve Evm EvmProofs SolIr SolScan SolAgg SolSem SolMulAdd ListFacts SolAggDriver.
Import ListNotations.

(** * Conditions on the program *)
(** The packed instructions have one byte per offset; 255 ends the list. *)
Definition pm_range (s : stmt) : Prop :=
  match s with
  | Assign (ETemp _) (EMulAdd (ETranscript x _) (EMemory y _) (ETemp _) _) => (x < 255)%N /\ (y < 256)%N
  | _ => True
  end.
Definition mt_range (s : stmt) : Prop :=
  match s with
  | Assign (ETemp _) (EMulAdd (EMemory _ _) (ETemp _) (EMemory y _) TScalar) => (y < 255)%N
  | _ => True
  end.
Definition fits (s : stmt) : Prop := wt_stmt s /\ pm_range s /\ mt_range s.
(** No point of the transcript is absorbed on its own, without the point before it or
    after it. *)
Definition paired (p : list stmt) : Prop :=
  forall pre m a rest, p = pre ++ UpdateHash (ETranscript m TPoint) a :: rest ->
    (exists pre' m' a', pre = pre' ++ [UpdateHash (ETranscript m' TPoint) a'] /\ m = (m' + 2)%N /\ a = (a' + 3)%N) \/
    (exists rest', rest = UpdateHash (ETranscript (m + 2) TPoint) (a + 3) :: rest').

(** * Exchanges that do not touch the products *)
Definition nomul (s : stmt) : Prop := match s with Assign _ (EMul _ _ _) => False | _ => True end.
Inductive sm : list stmt -> list stmt -> Prop :=
| sm_nil : sm [] []
| sm_keep s p q : sm p q -> sm (s :: p) (s :: q)
| sm_merge xs y p q : xs <> [] -> Forall nomul xs -> nomul y -> sm p q -> sm (xs ++ p) (y :: q).
Lemma sm_refl p : sm p p.
Proof. induction p; now constructor. Qed.
Lemma sm_app p1 q1 p2 q2 : sm p1 q1 -> sm p2 q2 -> sm (p1 ++ p2) (q1 ++ q2).
Proof. intros A B. induction A; cbn [app]; [exact B|now constructor|]. rewrite <- app_assoc. now constructor. Qed.
Lemma sm_one xs y : xs <> [] -> Forall nomul xs -> nomul y -> sm xs [y].
Proof. intros A B C. rewrite <- (app_nil_r xs). constructor; auto. constructor. Qed.
Lemma sm_split p q : sm p q -> forall q1 q2, q = q1 ++ q2 -> exists p1 p2, p = p1 ++ p2 /\ sm p1 q1 /\ sm p2 q2.
Proof.
  induction 1 as [|s p q Hs IH|xs y p q Hx Hxs Hy Hs IH]; intros q1 q2 E0.
  - symmetry in E0. apply app_eq_nil in E0. destruct E0 as [-> ->]. exists [], []. repeat constructor.
  - destruct q1 as [|s1 q1]; [exists [], (s :: p); cbn [app] in E0; rewrite <- E0; repeat constructor; exact Hs|].
    injection E0 as <- E0. destruct (IH q1 q2 E0) as (p1 & p2 & -> & A & B). exists (s :: p1), p2. split; [reflexivity|]. split; [now constructor|exact B].
  - destruct q1 as [|s1 q1]; [exists [], (xs ++ p); cbn [app] in E0; rewrite <- E0; repeat constructor; auto|].
    injection E0 as <- E0. destruct (IH q1 q2 E0) as (p1 & p2 & -> & A & B). exists (xs ++ p1), p2. split; [now rewrite app_assoc|]. split; [now constructor|exact B].
Qed.
Lemma sm_mul p q : sm p q -> Forall (fun s => ~ nomul s) q -> p = q.
Proof.
  induction 1 as [|s p q Hs IH|xs y p q Hx Hxs Hy Hs IH]; intro H; [reflexivity| |exfalso; exact (Forall_inv H Hy)].
  now rewrite (IH (Forall_inv_tail H)).
Qed.
Lemma sm_mul_l p q : sm p q -> Forall (fun s => ~ nomul s) p -> p = q.
Proof.
  induction 1 as [|s p q Hs IH|xs y p q Hx Hxs Hy Hs IH]; intro H; [reflexivity|now rewrite (IH (Forall_inv_tail H))|].
  destruct xs; [contradiction|]. exfalso. exact (Forall_inv H (Forall_inv Hxs)).
Qed.
Lemma sm_suffix p q : sm p q -> forall p' c, p = p' ++ c -> Forall (fun s => ~ nomul s) c -> exists q', q = q' ++ c.
Proof.
  induction 1 as [|s p q Hs IH|xs y p q Hx Hxs Hy Hs IH]; intros p' c E0 H.
  - symmetry in E0. apply app_eq_nil in E0. destruct E0 as [-> ->]. now exists [].
  - destruct p' as [|s' p'].
    + cbn [app] in E0. subst c. exists []. now rewrite (sm_mul_l p q Hs (Forall_inv_tail H)).
    + injection E0 as <- E0. destruct (IH p' c E0 H) as [q' ->]. now exists (s :: q').
  - apply app_eq_app in E0. destruct E0 as (l & [[E1 E2]|[E1 E2]]).
    + destruct l as [|s' l].
      * cbn [app] in E2. subst c. exists [y]. now rewrite (sm_mul_l p q Hs H).
      * exfalso. subst c xs. apply Forall_app in Hxs. exact (Forall_inv H (Forall_inv (proj2 Hxs))).
    + destruct (IH l c E2 H) as [q' ->]. now exists (y :: q').
Qed.
(** what the first three passes keep *)
Definition kept (p q : list stmt) : Prop := sm p q /\ (Forall fits p -> Forall fits q).
Lemma kept_refl p : kept p p.
Proof. split; [apply sm_refl|auto]. Qed.
Lemma kept_app p1 q1 p2 q2 : kept p1 q1 -> kept p2 q2 -> kept (p1 ++ p2) (q1 ++ q2).
Proof. intros [A B] [A' B']. split; [now apply sm_app|]. rewrite !Forall_app. tauto. Qed.

(** * Powers *)
(** [s] multiplies two scalars of which one is the temporary and the other the
    temporary or [a]. *)
Definition step (a : expr) (s : stmt) : Prop :=
  match s with
  | Assign _ (EMul x y TScalar) => (is_temp x = true /\ (is_temp y = true \/ y = a)) \/ (is_temp y = true /\ x = a)
  | _ => False
  end.
Definition tstep (a : expr) (s : stmt) : Prop := s_writes s = true /\ step a s.
Definition square (a : expr) : stmt := Assign (ETemp TScalar) (EMul a a TScalar).
(** [c] computes a power of [a] in the temporary *)
Definition chain (a : expr) (c : list stmt) : Prop := exists c', c = square a :: c' /\ Forall (tstep a) c'.
(** [s] does not continue such a computation at the end of [pre] *)
Definition starts (pre : list stmt) (s : stmt) : Prop :=
  forall pre' a c, pre = pre' ++ c -> chain a c -> ~ step a s.
Definition scalar_mul (s : stmt) : Prop := match s with Assign _ (EMul _ _ TScalar) => True | _ => False end.
(** No power is used in a product with something else: a computation of a power of at
    least two steps is not followed by another product of scalars. *)
Definition no_abandoned (p : list stmt) : Prop :=
  forall pre a c s post, p = pre ++ (square a :: c) ++ s :: post -> chain a (square a :: c) -> c <> [] ->
    starts pre (square a) -> scalar_mul s -> step a s.

Lemma usub_spec a c d : usub false a c = Some d -> a = (c + d)%N.
Proof. unfold usub. destruct (N.leb_spec c a); [|discriminate]. intros [= <-]. lia. Qed.

Section Sem.
  Variable W : PF.
  Variable b : W.
  Variable checked : bool.
  Variable sha256 : list Z -> list Z.
  Variable E : env.
  Notation eval := (eval b checked E). Notation exec := (exec b checked sha256 E). Notation run := (run b checked sha256 E).
  Notation piece := (piece W b checked sha256 E). Notation ok := (ok W b checked sha256 E).

  (** * Absorbing *)
  Fixpoint hashes (n : nat) (i ms mst as_ ast : N) (t : ty) : list stmt :=
    match n with
    | O => []
    | S n => UpdateHash (ETranscript (ms + i * mst) t) (as_ + i * ast) :: hashes n (i + 1) ms mst as_ ast t
    end.
  Lemma hashes_snoc n ms mst as_ ast t : forall i,
    hashes (S n) i ms mst as_ ast t = hashes n i ms mst as_ ast t ++ [UpdateHash (ETranscript (ms + (i + N.of_nat n) * mst) t) (as_ + (i + N.of_nat n) * ast)].
  Proof.
    induction n as [|n IH]; intro i.
    - cbn [hashes app N.of_nat]. now rewrite N.add_0_r.
    - change (hashes (S (S n)) i ms mst as_ ast t) with (UpdateHash (ETranscript (ms + i * mst) t) (as_ + i * ast) :: hashes (S n) (i + 1) ms mst as_ ast t).
      rewrite IH. cbn [hashes app]. replace (i + 1 + N.of_nat n)%N with (i + N.of_nat (S n))%N by lia. reflexivity.
  Qed.
  Lemma set_abs_set s a a' : set_abs (set_abs s a) a' = set_abs s a'.
  Proof. reflexivity. Qed.
  Lemma run_hashes n ms mst as_ ast t : forall i s,
    run (hashes n i ms mst as_ ast t) s = do a <- for_hash E n i ms mst as_ ast t (absorbing s); Some (set_abs s a).
  Proof.
    induction n as [|n IH]; intros i s.
    - cbn. now destruct s.
    - cbn [hashes SolIr.run for_hash]. destruct t; cbn [SolIr.exec SolIr.eval get_type].
      + destruct (calldata _ _); cbn [vs sc]; [|reflexivity]. destruct (update_hash_scalar _ _ _ _); cbn [vs]; [|reflexivity].
        rewrite IH. cbn [absorbing set_abs]. destruct (for_hash _ _ _ _ _ _ _ _ _); reflexivity.
      + destruct (calldata _ _); cbn [vs]; [|reflexivity].
        replace (ms + i * mst + 1)%N with (ms + 1 + i * mst)%N by lia.
        destruct (calldata _ _); cbn [pt]; [|reflexivity]. destruct (update_hash_point _ _ _ _ _); cbn [vs]; [|reflexivity].
        rewrite IH. cbn [absorbing set_abs]. destruct (for_hash _ _ _ _ _ _ _ _ _); reflexivity.
  Qed.
  Lemma hashes_disc n ms mst as_ ast t : forall i w, disc w (hashes n i ms mst as_ ast t).
  Proof. induction n as [|n IH]; intros i w; cbn [hashes disc]; [exact I|]. split; [discriminate|apply IH]. Qed.
  Lemma hashes_out n ms mst as_ ast t : forall i w, wout w (hashes (S n) i ms mst as_ ast t) = false.
  Proof. induction n as [|n IH]; intros i w; [reflexivity|]. apply (IH (i + 1)%N false). Qed.
  Lemma hashes_nomul n ms mst as_ ast t : forall i, Forall nomul (hashes n i ms mst as_ ast t).
  Proof. induction n as [|n IH]; intro i; cbn [hashes]; constructor; [exact I|apply IH]. Qed.

  Definition uh_mst_of (t : ty) : N := match t with TScalar => 1 | TPoint => 2 end.
  Definition uh_ast_of (t : ty) : N := match t with TScalar => 2 | TPoint => 3 end.
  Definition uh_fresh (pre rest : list stmt) (o : uh) : Prop :=
    forall pre' m' a' m a rest', pre = pre' ++ [UpdateHash (ETranscript m' TPoint) a'] ->
      rest = UpdateHash (ETranscript m TPoint) a :: rest' -> m = (m' + 2)%N -> a = (a' + 3)%N -> False.
  Definition uh_at (k : nat) (pre pend rest : list stmt) (o : uh) : Prop :=
    let t := uh_t o in
    pend = hashes (S k) 0 (uh_ms o) (uh_mst_of t) (uh_as o) (uh_ast_of t) t /\
    uh_me o = (uh_ms o + N.of_nat k * uh_mst_of t)%N /\ uh_ae o = (uh_as o + N.of_nat k * uh_ast_of t)%N /\
    uh_mst o = uh_mst_of t /\ uh_ast o = uh_ast_of t /\ uh_in o = true /\ uh_fresh pre (pend ++ rest) o.
  Definition uh_J (pre pend rest : list stmt) (o : uh) : Prop := exists k, uh_at k pre pend rest o.

  (** the statement that replaces a run of absorptions *)
  Lemma uh_ok full pre pend rest o : paired full -> full = pre ++ pend ++ rest -> uh_J pre pend rest o ->
    (forall m a rest', rest = UpdateHash (ETranscript m (uh_t o)) a :: rest' -> m = (uh_me o + uh_mst o)%N -> a = (uh_ae o + uh_ast o)%N -> False) ->
    exists c, uh_stmt o = Some c /\ ok kept pend [c].
  Proof.
    intros HP Hf (k & Hp & Hme & Hae & Hmst & Hast & _ & Hfr) Hstop. eexists. split; [reflexivity|].
    destruct k as [|k].
    - assert (Hms : uh_ms o = uh_me o) by (rewrite Hme; cbn [N.of_nat]; lia). rewrite Hms, N.eqb_refl.
      assert (Has : uh_as o = uh_ae o) by (rewrite Hae; cbn [N.of_nat]; lia).
      destruct (uh_t o) eqn:Et.
      + cbn [hashes uh_mst_of uh_ast_of] in Hp. rewrite !N.mul_0_l, !N.add_0_r in Hp. rewrite Hp, Hms.
        split; [apply kept_refl|]. intros w Dw. now apply piece_refl.
      + exfalso. cbn [hashes uh_mst_of uh_ast_of] in *. rewrite !N.mul_0_l, !N.add_0_r in Hp.
        rewrite Hp in Hf, Hfr. destruct (HP pre (uh_ms o) (uh_as o) rest Hf) as [(pre' & m' & a' & E1 & E2 & E3)|(rest' & E1)].
        * apply (Hfr pre' m' a' (uh_ms o) (uh_as o) rest E1 eq_refl E2 E3).
        * apply (Hstop _ _ _ E1); rewrite ?Hmst, ?Hast; lia.
    - assert (Hms : (uh_ms o =? uh_me o)%N = false) by (apply N.eqb_neq; rewrite Hme; destruct (uh_t o); cbn [uh_mst_of]; lia).
      rewrite Hms. split.
      + split; [apply sm_one|].
        * rewrite Hp. discriminate.
        * rewrite Hp. apply hashes_nomul.
        * exact I.
        * intros _. constructor; [|constructor]. split; [exact I|split; exact I].
      + intros w Dw. apply piece_intro; [exact Dw|split; [discriminate|exact I]|rewrite Hp, hashes_out; reflexivity|].
        intro s. rewrite Hp, run_hashes. cbn [SolIr.run SolIr.exec]. rewrite hashes_out, Hmst, Hast, Hme.
        replace (N.to_nat ((uh_ms o + N.of_nat (S k) * uh_mst_of (uh_t o) - uh_ms o) / uh_mst_of (uh_t o) + 1)) with (S (S k)).
        2:{ rewrite (N.add_comm (uh_ms o)), N.add_sub, N.div_mul by (destruct (uh_t o); discriminate). lia. }
        destruct (for_hash _ _ _ _ _ _ _ _ _); cbn [orel]; [|exact I]. constructor; cbn; auto. discriminate.
  Qed.

  Lemma uh_pass p q w : paired p -> disc w p -> merge_groups (update_hash_merger false) p = Some q -> kept p q /\ piece w p q.
  Proof.
    intros HP D H.
    refine (merge_ok W b checked sha256 E kept (kept_refl []) (fun s => kept_refl [s]) kept_app (update_hash_merger false) p uh_fresh uh_J _ _ _ q w _ D H).
    - intros pre s rest o Hf F. cbn [o_start update_hash_merger].
      assert (Sk : (forall m t a, s <> UpdateHash (ETranscript m t) a) -> uh_fresh (pre ++ [s]) rest o).
      { intros N pre' m' a' m a rest' E1 E2 _ _. apply app_inj_tail in E1. destruct E1 as [_ E1]. exact (N _ _ _ E1). }
      destruct s as [l r|e a| |]; try (apply Sk; discriminate).
      destruct e as [| m t| | | | | | | | | | | | | |]; try (apply Sk; discriminate).
      exists 0%nat. unfold uh_at. cbn [uh_t uh_ms uh_me uh_as uh_ae uh_mst uh_ast uh_in hashes].
      rewrite !N.mul_0_l, !N.add_0_r. repeat (split; [reflexivity|]). exact F.
    - intros pre pend s rest o a o' Hf Hj Hm. cbn [o_merge update_hash_merger] in Hm.
      assert (Stop : (forall m a, s = UpdateHash (ETranscript m (uh_t o)) a -> m = (uh_me o + uh_mst o)%N -> a = (uh_ae o + uh_ast o)%N -> False) ->
        (exists c, uh_stmt o = Some c /\ ok kept pend [c]) /\ uh_fresh (pre ++ pend) (s :: rest) (o_reset (update_hash_merger false) o)).
      { intro N. split.
        - apply (uh_ok p pre pend (s :: rest) o HP Hf Hj). intros m a' rest' [= E1 _]. now apply N.
        - destruct Hj as (k & Hp & Hme & Hae & Hmst & Hast & _ & _). intros pre' m' a' m a0 rest' E1 [= E2 _] E3 E4. rewrite Hp, hashes_snoc, app_assoc in E1.
          apply app_inj_tail in E1. destruct E1 as [_ [= E5 E6 E7]]. rewrite E6 in *. cbn [uh_mst_of uh_ast_of] in *. 
          apply (N m a0 E2); lia. }
      unfold uh_merge in Hm.
      destruct s as [l r|e a0| |]; try (injection Hm as <- <-; apply Stop; discriminate).
      destruct e as [| m t| | | | | | | | | | | | | |]; try (injection Hm as <- <-; apply Stop; discriminate).
      destruct (usub false m (uh_me o)) as [d|] eqn:E1; cbn [vs] in Hm; [|discriminate]. apply usub_spec in E1.
      destruct (N.eqb_spec d (uh_mst o)) as [Ed|Ed]; cbn [negb] in Hm.
      + destruct (usub false a0 (uh_ae o)) as [d'|] eqn:E2; cbn [vs] in Hm; [|discriminate]. apply usub_spec in E2.
        destruct (N.eqb_spec d' (uh_ast o)) as [Ed'|Ed']; cbn [andb] in Hm.
        * unfold ty_eqb in Hm. destruct (ty_eq_dec t (uh_t o)) as [Et|Et].
          -- injection Hm as <- <-. destruct Hj as (k & Hp & Hme & Hae & Hmst & Hast & Hin & Hfr). exists (S k). unfold uh_at.
             cbn [uh_t uh_ms uh_me uh_as uh_ae uh_mst uh_ast uh_in].
             split; [|split; [lia|split; [lia|split; [exact Hmst|split; [exact Hast|split; [exact Hin|]]]]]].
             ++ rewrite hashes_snoc, Hp, N.add_0_l. f_equal. f_equal. rewrite E1, E2, Et, Ed, Ed', Hmst, Hast, Hme, Hae. f_equal; [f_equal|]; lia.
             ++ rewrite <- app_assoc. exact Hfr.
          -- injection Hm as <- <-. apply Stop. intros m' a' [= _ E3 _]. contradiction.
        * injection Hm as <- <-. apply Stop. intros m' a' [= <- _ <-] _ E3. lia.
      + injection Hm as <- <-. apply Stop. intros m' a' [= <- _ <-] E3. lia.
    - intros pre pend o Hf Hj. cbn [o_can_complete update_hash_merger].
      assert (Hi : uh_in o = true) by (destruct Hj as (k & _ & _ & _ & _ & _ & Hi & _); exact Hi). rewrite Hi.
      apply (uh_ok p pre pend [] o HP); [now rewrite app_nil_r|exact Hj|discriminate].
    - intros pre' m' a' m a rest' E1. now destruct pre'.
  Qed.

  (** * Packed multiply-and-add, proof times memory *)
  Definition pm_mk (t : ty) (pr : N * N) : stmt :=
    Assign (ETemp t) (EMulAdd (ETranscript (fst pr) t) (EMemory (snd pr) TScalar) (ETemp t) t).
  Lemma pm_extract_mk s x y c t : wt_stmt s -> pm_extract s = Some (x, y, c, t) -> s = pm_mk t (x, y) /\ c = ETemp t.
  Proof.
    intros Hw H. destruct s as [l r| | |]; try discriminate. destruct r as [| | | | | | | | | |a1 b1 c1 t1| | | | |]; try discriminate. cbn [pm_extract] in H.
    destruct a1 as [|x1 ta| | | | | | | | | | | | | |]; try discriminate. destruct b1 as [y1 tb| | | | | | | | | | | | | | |]; try discriminate.
    destruct c1 as [| | | | | | | | | | | | | | |tc]; try discriminate. destruct l as [| | | | | | | | | | | | | | |tl]; try discriminate.
    cbn [is_transcript is_memory is_temp andb try_get_offset] in H. injection H as <- <- <- <-.
    destruct Hw as (_ & Ht & Hw). cbn [get_type] in Ht. subst tl. cbn [wt] in Hw. unfold operand in Hw. cbn [get_type] in Hw.
    destruct t1; destruct Hw as ((_ & ->) & (_ & ->) & (_ & ->)); split; reflexivity.
  Qed.
  Definition pm_small (pr : N * N) : Prop := (fst pr < 255)%N /\ (snd pr < 256)%N.
  Definition pm_f (pr : N * N) (acc : Z) : Z := (Z.shiftl acc 16 + Z.shiftl (Z.of_N (snd pr)) 8 + Z.of_N (fst pr))%Z.
  Lemma pm_opcode_fold pairs :
    pm_opcode pairs = fold_right pm_f (if (length pairs =? pm_CAPABILITY)%nat then 0 else 0xffff)%Z pairs.
  Proof.
    unfold pm_opcode. generalize (if (length pairs =? pm_CAPABILITY)%nat then 0 else 0xffff)%Z as i. intro i.
    rewrite <- (rev_involutive pairs) at 2. rewrite fold_left_rev_right.
    generalize (rev pairs). intro l. revert i. induction l as [|[x y] l IH]; intro i; cbn [fold_left]; [reflexivity|apply IH].
  Qed.
  Lemma pm_decode pr acc : pm_small pr ->
    Z.land (pm_f pr acc) 0xff = Z.of_N (fst pr) /\ Z.land (shr (pm_f pr acc) 8) 0xff = Z.of_N (snd pr) /\ shr (shr (pm_f pr acc) 8) 8 = acc.
  Proof.
    intros [H1 H2]. unfold pm_f, shr. change 0xff%Z with (Z.ones 8). rewrite !Z.land_ones, !Z.shiftl_mul_pow2, !Z.shiftr_div_pow2 by lia.
    change (2 ^ 8)%Z with 256%Z. change (2 ^ 16)%Z with 65536%Z.
    set (x := Z.of_N (fst pr)). set (y := Z.of_N (snd pr)). assert (0 <= x < 255)%Z by lia. assert (0 <= y < 256)%Z by lia.
    replace (acc * 65536 + y * 256 + x)%Z with (x + (acc * 256 + y) * 256)%Z by ring.
    rewrite Z.mod_add, Z.div_add by lia. rewrite (Z.mod_small x), (Z.div_small x) by lia. rewrite Z.add_0_l.
    replace (acc * 256 + y)%Z with (y + acc * 256)%Z by ring. rewrite Z.mod_add, Z.div_add by lia. rewrite (Z.mod_small y), (Z.div_small y) by lia. auto.
  Qed.
  Lemma pm_bound pairs : forall i, Forall pm_small pairs -> (0 <= i < 65536)%Z -> (0 <= fold_right pm_f i pairs < 65536 ^ Z.of_nat (S (length pairs)))%Z.
  Proof.
    induction pairs as [|pr l IH]; intros i Hs Hi; cbn [fold_right length].
    - change (65536 ^ Z.of_nat 1)%Z with 65536%Z. exact Hi.
    - specialize (IH i (Forall_inv_tail Hs) Hi). destruct (Forall_inv Hs) as [H1 H2]. set (acc := fold_right _ _ l) in *. clearbody acc. unfold pm_f. rewrite !Z.shiftl_mul_pow2 by lia.
      change (2 ^ 8)%Z with 256%Z. change (2 ^ 16)%Z with 65536%Z.
      rewrite (Nat2Z.inj_succ (S (length l))), Z.pow_succ_r by lia. set (P := (65536 ^ Z.of_nat (S (length l)))%Z) in *. clearbody P. lia.
  Qed.
  Lemma pm_bound0 pairs : Forall pm_small pairs -> (0 <= fold_right pm_f 0 pairs < 65536 ^ Z.of_nat (length pairs))%Z.
  Proof.
    induction pairs as [|pr l IH]; intros Hs; cbn [fold_right length].
    - change (65536 ^ Z.of_nat 0)%Z with 1%Z. lia.
    - specialize (IH (Forall_inv_tail Hs)). destruct (Forall_inv Hs) as [H1 H2]. set (acc := fold_right _ _ l) in *. clearbody acc. unfold pm_f. rewrite !Z.shiftl_mul_pow2 by lia.
      change (2 ^ 8)%Z with 256%Z. change (2 ^ 16)%Z with 65536%Z.
      rewrite (Nat2Z.inj_succ (length l)), Z.pow_succ_r by lia. set (P := (65536 ^ Z.of_nat (length l))%Z) in *. clearbody P. lia.
  Qed.
  Lemma pm_literal pairs : Forall pm_small pairs -> (length pairs <= 16)%nat -> literal (pm_opcode pairs) = Some (pm_opcode pairs).
  Proof.
    intros Hs Hl. unfold literal.
    assert (B : (0 <= pm_opcode pairs < 65536 ^ 16)%Z).
    { rewrite pm_opcode_fold. unfold pm_CAPABILITY. destruct (Nat.eqb_spec (length pairs) 16) as [Hn|Hn].
      - assert (B := pm_bound0 pairs Hs). rewrite Hn in B. exact B.
      - assert (B := pm_bound pairs 0xffff Hs ltac:(lia)). assert (65536 ^ Z.of_nat (S (length pairs)) <= 65536 ^ 16)%Z by (apply Z.pow_le_mono_r; lia). lia. }
    change (2 ^ 256)%Z with (65536 ^ 16)%Z. destruct (Z.leb_spec 0 (pm_opcode pairs)); [|lia]. destruct (Z.ltb_spec (pm_opcode pairs) (65536 ^ 16)); [reflexivity|lia].
  Qed.

  Lemma pm_run_scalar pairs : forall n i s, Forall pm_small pairs -> (length pairs <= n)%nat -> (length pairs = n \/ i = 0xffff%Z) ->
    run (map (pm_mk TScalar) pairs) s =
    do t <- fr_mul_add_pm_loop n (e_msize E) (mem s) (e_proof E) (fold_right pm_f i pairs) (t0 s); Some (mkSt (mem s) t (t1 s) (absorbing s)).
  Proof.
    induction pairs as [|pr l IH]; intros n i s Hs Hn Hi.
    - cbn [map SolIr.run fold_right]. assert (X : fr_mul_add_pm_loop n (e_msize E) (mem s) (e_proof E) i (t0 s) = Some (t0 s)).
      { destruct n as [|n]; [reflexivity|]. destruct Hi as [Hi|Hi]; [discriminate|]. subst i. reflexivity. }
      rewrite X. now destruct s.
    - destruct n as [|n]; [cbn in Hn; lia|]. cbn [map SolIr.run fold_right fr_mul_add_pm_loop].
      destruct (pm_decode pr (fold_right pm_f i l) (Forall_inv Hs)) as (E1 & E2 & E3). rewrite E1, E2, E3.
      destruct (Forall_inv Hs) as [H1 H2]. destruct (Z.eqb_spec (Z.of_N (fst pr)) 0xff) as [X|_]; [lia|]. rewrite !N2Z.id.
      unfold pm_mk at 1. rewrite exec_assign. cbn [SolIr.eval].
      destruct (calldata (e_proof E) (fst pr)) as [pa|]; cbn [vs]; [|reflexivity]. destruct (rd (e_msize E) (mem s) (snd pr)) as [mb|]; cbn [vs]; [|reflexivity].
      cbn [sc store]. rewrite (IH n i) by (try exact (Forall_inv_tail Hs); cbn [length] in *; lia). reflexivity.
  Qed.
  Lemma pm_run_point pairs : forall n i z0 z1 z2 s, Forall pm_small pairs -> (length pairs <= n)%nat -> (length pairs = n \/ i = 0xffff%Z) ->
    run (map (pm_mk TPoint) pairs) s =
    do (_, _, _, x, y) <- ecc_mul_add_pm_loop b n (e_msize E) (mem s) (e_proof E) (fold_right pm_f i pairs) (z0, z1, z2, t0 s, t1 s); Some (mkSt (mem s) x y (absorbing s)).
  Proof.
    induction pairs as [|pr l IH]; intros n i z0 z1 z2 s Hs Hn Hi.
    - cbn [map SolIr.run fold_right]. assert (X : ecc_mul_add_pm_loop b n (e_msize E) (mem s) (e_proof E) i (z0, z1, z2, t0 s, t1 s) = Some (z0, z1, z2, t0 s, t1 s)).
      { destruct n as [|n]; [reflexivity|]. destruct Hi as [Hi|Hi]; [discriminate|]. subst i. reflexivity. }
      rewrite X. now destruct s.
    - destruct n as [|n]; [cbn in Hn; lia|]. cbn [map SolIr.run fold_right ecc_mul_add_pm_loop].
      destruct (pm_decode pr (fold_right pm_f i l) (Forall_inv Hs)) as (E1 & E2 & E3). rewrite E1, E2, E3.
      destruct (Forall_inv Hs) as [H1 H2]. destruct (Z.eqb_spec (Z.of_N (fst pr)) 0xff) as [X|_]; [lia|].
      replace (Z.to_N (Z.of_N (fst pr) + 1)) with (fst pr + 1)%N by lia. rewrite !N2Z.id.
      unfold pm_mk at 1. rewrite exec_assign. cbn [SolIr.eval].
      destruct (calldata (e_proof E) (fst pr)) as [pa|]; [|reflexivity]. destruct (calldata (e_proof E) (fst pr + 1)) as [pb|]; [|reflexivity].
      destruct (rd (e_msize E) (mem s) (snd pr)) as [mb|]; cbn [vs]; [|reflexivity].
      cbn [sc pt]. unfold ecc_mul_add. destruct (ecc_mul_add_ b (pa, pb, mb, t0 s, t1 s)) as [[[[[w0 w1] w2] w3] w4]|]; cbn [vp store]; [|reflexivity].
      rewrite (IH n i w0 w1 w2) by (try exact (Forall_inv_tail Hs); cbn [length] in *; lia). reflexivity.
  Qed.
  Lemma pm_disc t l : forall w, (l <> [] -> w = true) -> disc w (map (pm_mk t) l).
  Proof. induction l as [|pr l IH]; intros w H; cbn [map disc]; [exact I|]. split; [intros _; apply H; discriminate|]. apply IH. reflexivity. Qed.
  Lemma pm_out t l : forall w, l <> [] -> wout w (map (pm_mk t) l) = true.
  Proof.
    induction l as [|pr l IH]; intros w H; [contradiction|]. destruct l as [|pr' l]; [reflexivity|]. apply (IH true). discriminate.
  Qed.

  Definition pm_fresh (pre rest : list stmt) (o : pm) : Prop := pm_un o = [] /\ pm_pairs o = [].
  Definition pm_J (pre pend rest : list stmt) (o : pm) : Prop :=
    pm_un o = pend /\ pend = map (pm_mk (pm_t o)) (pm_pairs o) /\ pm_target o = Some (ETemp (pm_t o)) /\ pm_pairs o <> [] /\
    (length (pm_pairs o) <= 16)%nat /\ Forall pm_small (pm_pairs o).
  Lemma pm_ok pre pend rest o : pm_J pre pend rest o -> exists c, pm_stmt o = Some c /\ ok kept pend [c].
  Proof.
    intros (Hu & Hp & Ht & Hn & Hl & Hs). unfold pm_stmt. rewrite Ht. eexists. split; [reflexivity|]. split.
    - split; [apply sm_one|].
      + rewrite Hp. now destruct (pm_pairs o).
      + rewrite Hp. apply Forall_map. apply Forall_forall. intros pr _. exact I.
      + exact I.
      + intros _. constructor; [|constructor]. split; [|split; exact I]. split; [reflexivity|]. split; reflexivity.
    - intros w Dw. assert (Hw : w = true).
      { rewrite Hp in Dw. destruct (pm_pairs o) as [|pr l]; [contradiction|]. destruct Dw as [Dw _]. apply Dw. destruct (pm_t o); reflexivity. }
      apply piece_intro; [exact Dw|split; [intros _; exact Hw|exact I]|rewrite Hp, pm_out by exact Hn; reflexivity|].
      intro s. rewrite Hp. cbn [SolIr.run]. rewrite exec_assign, pm_out by exact Hn.
      assert (Hi : length (pm_pairs o) = 16%nat \/ (if (length (pm_pairs o) =? pm_CAPABILITY)%nat then 0 else 0xffff)%Z = 0xffff%Z).
      { unfold pm_CAPABILITY. destruct (Nat.eqb_spec (length (pm_pairs o)) 16); auto. }
      destruct (pm_t o).
      + rewrite (pm_run_scalar _ 16 _ s Hs Hl Hi). cbn [SolIr.eval sc]. rewrite (pm_literal _ Hs Hl). unfold fr_mul_add_pm. rewrite pm_opcode_fold.
        destruct (fr_mul_add_pm_loop _ _ _ _ _ _); cbn [vs store orel]; [|exact I]. apply eqv_refl.
      + rewrite (pm_run_point _ 16 _ 0%Z 0%Z 0%Z s Hs Hl Hi). cbn [SolIr.eval pt]. rewrite (pm_literal _ Hs Hl). unfold ecc_mul_add_pm. rewrite pm_opcode_fold.
        destruct (ecc_mul_add_pm_loop _ _ _ _ _ _ _) as [[[[[w0 w1] w2] w3] w4]|]; cbn [vp store orel]; [|exact I]. apply eqv_refl.
  Qed.

  Lemma pm_pass p q w : Forall fits p -> disc w p -> merge_groups mul_add_pm_optimizer p = Some q -> kept p q /\ piece w p q.
  Proof.
    intros HP D H.
    refine (merge_ok W b checked sha256 E kept (kept_refl []) (fun s => kept_refl [s]) kept_app mul_add_pm_optimizer p pm_fresh pm_J _ _ _ q w _ D H).
    - intros pre s rest o Hf [F1 F2]. cbn [o_start mul_add_pm_optimizer]. unfold pm_start.
      destruct (pm_extract s) as [[[[x y] c] t]|] eqn:Ex; [|now split].
      assert (Hs : fits s) by (rewrite Hf in HP; apply Forall_app in HP; apply (Forall_inv (proj2 HP))).
      destruct Hs as (Hw & Hr & _). destruct (pm_extract_mk s x y c t Hw Ex) as [-> ->]. rewrite F1, F2. unfold pm_J. cbn [pm_un pm_pairs pm_t pm_target app].
      split; [reflexivity|]. split; [reflexivity|]. split; [reflexivity|]. split; [discriminate|]. split; [cbn [length]; lia|]. constructor; [exact Hr|constructor].
    - intros pre pend s rest o a o' Hf Hj Hm. cbn [o_merge mul_add_pm_optimizer] in Hm. unfold pm_merge in Hm.
      assert (Ab : (exists us, Some (pm_un o) = Some us /\ ok kept pend us) /\ pm_fresh (pre ++ pend) (s :: rest) (mkPm [] None [] (pm_t o))).
      { destruct Hj as (Hu & _). split; [|now split]. eexists. split; [reflexivity|]. rewrite Hu. split; [apply kept_refl|]. intros w' D'. now apply piece_refl. }
      assert (Co : (exists c, pm_stmt o = Some c /\ ok kept pend [c]) /\ pm_fresh (pre ++ pend) (s :: rest) (mkPm [] None [] (pm_t o))).
      { split; [eapply pm_ok; eauto|now split]. }
      destruct (Nat.eqb_spec (length (pm_pairs o)) pm_CAPABILITY) as [Hc|Hc]; [injection Hm as <- <-; exact Co|].
      destruct (pm_extract s) as [[[[x y] c] t]|] eqn:Ex.
      + assert (Hs : fits s) by (rewrite Hf in HP; apply Forall_app in HP; destruct HP as [_ HP]; apply Forall_app in HP; apply (Forall_inv (proj2 HP))).
        destruct Hs as (Hw & Hr & _). destruct (pm_extract_mk s x y c t Hw Ex) as [Es Ec]. destruct Hj as (Hu & Hp & Ht & Hn & Hl & Hs). rewrite Ht in Hm.
        unfold expr_eqb, ty_eqb in Hm. destruct (expr_eq_dec c (ETemp (pm_t o))) as [_|_]; destruct (ty_eq_dec t (pm_t o)) as [Ey|_]; cbn [andb] in Hm; injection Hm as <- <-; try exact Ab.
        unfold pm_J. cbn [pm_un pm_pairs pm_t pm_target]. rewrite Hu, map_app, <- Hp. cbn [map]. split; [reflexivity|]. split; [now rewrite Es, Ey|]. split; [reflexivity|].
        split; [intro X; apply app_eq_nil in X; destruct X; discriminate|]. split; [rewrite app_length; cbn [length]; unfold pm_CAPABILITY in Hc; lia|].
        apply Forall_app. split; [exact Hs|]. constructor; [|constructor]. rewrite Es in Hr. exact Hr.
      + injection Hm as <- <-. destruct (1 <? length (pm_pairs o))%nat; [exact Co|exact Ab].
    - intros pre pend o Hf Hj. cbn [o_can_complete mul_add_pm_optimizer o_stmt o_unresolved]. destruct (1 <? length (pm_pairs o))%nat; [eapply pm_ok; eauto|].
      destruct Hj as (Hu & _). eexists. split; [reflexivity|]. rewrite Hu. split; [apply kept_refl|]. intros w' D'. now apply piece_refl.
    - now split.
  Qed.

  (** * Packed multiply-and-add, memory times temporary *)
  Definition mt_mk (a c : N) : stmt := Assign (ETemp TScalar) (EMulAdd (EMemory a TScalar) (ETemp TScalar) (EMemory c TScalar) TScalar).
  Lemma mt_extract_mk s x y : wt_stmt s -> mt_extract s = Some (x, y) -> s = mt_mk x y.
  Proof.
    intros Hw H. destruct s as [l r| | |]; try discriminate. destruct r as [| | | | | | | | | |a1 b1 c1 t1| | | | |]; try discriminate. cbn [mt_extract] in H.
    destruct t1; [|discriminate].
    destruct a1 as [x1 ta| | | | | | | | | | | | | | |]; try discriminate. destruct b1 as [| | | | | | | | | | | | | | |tb]; try discriminate.
    destruct c1 as [y1 tc| | | | | | | | | | | | | | |]; try discriminate. destruct l as [| | | | | | | | | | | | | | |tl]; try discriminate.
    cbn [is_memory is_temp andb try_get_offset] in H. injection H as <- <-.
    destruct Hw as (_ & Ht & Hw). cbn [get_type] in Ht. subst tl. cbn [wt] in Hw. unfold operand in Hw. cbn [get_type] in Hw.
    destruct Hw as ((_ & ->) & (_ & ->) & (_ & ->)). reflexivity.
  Qed.
  Definition mt_f (m : N) (acc : Z) : Z := (Z.shiftl acc 8 + Z.of_N m)%Z.
  Lemma mt_opcode_fold pairs :
    mt_opcode pairs = fold_right mt_f (if (length pairs =? mt_CAPABILITY)%nat then 0 else 0xff)%Z pairs.
  Proof.
    unfold mt_opcode. generalize (if (length pairs =? mt_CAPABILITY)%nat then 0 else 0xff)%Z as i. intro i.
    rewrite <- (rev_involutive pairs) at 2. rewrite fold_left_rev_right. reflexivity.
  Qed.
  Lemma mt_decode m acc : (m < 255)%N -> Z.land (mt_f m acc) 0xff = Z.of_N m /\ shr (mt_f m acc) 8 = acc.
  Proof.
    intros H1. unfold mt_f, shr. change 0xff%Z with (Z.ones 8). rewrite !Z.land_ones, !Z.shiftl_mul_pow2, !Z.shiftr_div_pow2 by lia.
    change (2 ^ 8)%Z with 256%Z. set (x := Z.of_N m). assert (0 <= x < 255)%Z by lia.
    replace (acc * 256 + x)%Z with (x + acc * 256)%Z by ring.
    rewrite Z.mod_add, Z.div_add by lia. rewrite (Z.mod_small x), (Z.div_small x) by lia. auto.
  Qed.
  Lemma mt_bound pairs : forall i k, Forall (fun m => m < 255)%N pairs -> (0 <= i < 256 ^ Z.of_nat k)%Z -> (0 <= fold_right mt_f i pairs < 256 ^ Z.of_nat (k + length pairs))%Z.
  Proof.
    induction pairs as [|m l IH]; intros i k Hs Hi; cbn [fold_right length].
    - now rewrite Nat.add_0_r.
    - specialize (IH i k (Forall_inv_tail Hs) Hi). assert (H1 := Forall_inv Hs). cbv beta in H1. set (acc := fold_right _ _ l) in *. clearbody acc. unfold mt_f. rewrite !Z.shiftl_mul_pow2 by lia.
      change (2 ^ 8)%Z with 256%Z. rewrite Nat.add_succ_r, (Nat2Z.inj_succ (k + length l)), Z.pow_succ_r by lia.
      set (P := (256 ^ Z.of_nat (k + length l))%Z) in *. clearbody P. lia.
  Qed.
  Lemma mt_literal pairs : Forall (fun m => m < 255)%N pairs -> (length pairs <= 32)%nat -> literal (mt_opcode pairs) = Some (mt_opcode pairs).
  Proof.
    intros Hs Hl. unfold literal.
    assert (B : (0 <= mt_opcode pairs < 256 ^ 32)%Z).
    { rewrite mt_opcode_fold. unfold mt_CAPABILITY. destruct (Nat.eqb_spec (length pairs) 32) as [Hn|Hn].
      - assert (B := mt_bound pairs 0 0 Hs ltac:(cbn; lia)). rewrite Hn in B. exact B.
      - assert (B := mt_bound pairs 0xff 1 Hs ltac:(cbn; lia)). assert (256 ^ Z.of_nat (1 + length pairs) <= 256 ^ 32)%Z by (apply Z.pow_le_mono_r; lia). lia. }
    change (2 ^ 256)%Z with (256 ^ 32)%Z. destruct (Z.leb_spec 0 (mt_opcode pairs)); [|lia]. destruct (Z.ltb_spec (mt_opcode pairs) (256 ^ 32)); [reflexivity|lia].
  Qed.
  Lemma mt_run a pairs : forall n i s v, Forall (fun m => m < 255)%N pairs -> (length pairs <= n)%nat -> (length pairs = n \/ i = 0xff%Z) ->
    rd (e_msize E) (mem s) a = Some v ->
    run (map (mt_mk a) pairs) s =
    do t <- fr_mul_add_mt_loop n (e_msize E) (mem s) v (fold_right mt_f i pairs) (t0 s); Some (mkSt (mem s) t (t1 s) (absorbing s)).
  Proof.
    induction pairs as [|pr l IH]; intros n i s v Hs Hn Hi Hv.
    - cbn [map SolIr.run fold_right]. assert (X : fr_mul_add_mt_loop n (e_msize E) (mem s) v i (t0 s) = Some (t0 s)).
      { destruct n as [|n]; [reflexivity|]. destruct Hi as [Hi|Hi]; [discriminate|]. subst i. reflexivity. }
      rewrite X. now destruct s.
    - destruct n as [|n]; [cbn in Hn; lia|]. cbn [map SolIr.run fold_right fr_mul_add_mt_loop].
      destruct (mt_decode pr (fold_right mt_f i l) (Forall_inv Hs)) as (E1 & E2). rewrite E1, E2.
      assert (H1 := Forall_inv Hs). cbv beta in H1. destruct (Z.eqb_spec (Z.of_N pr) 0xff) as [X|_]; [lia|]. rewrite !N2Z.id.
      unfold mt_mk at 1. rewrite exec_assign. cbn [SolIr.eval]. rewrite Hv. cbn [vs].
      destruct (rd (e_msize E) (mem s) pr) as [mb|]; cbn [vs]; [|reflexivity].
      cbn [sc store]. rewrite (IH n i _ v) by (try exact (Forall_inv_tail Hs); try exact Hv; cbn [length] in *; lia). reflexivity.
  Qed.
  Lemma mt_out a l : forall w, l <> [] -> wout w (map (mt_mk a) l) = true.
  Proof.
    induction l as [|pr l IH]; intros w H; [contradiction|]. destruct l as [|pr' l]; [reflexivity|]. apply (IH true). discriminate.
  Qed.
  Definition mt_fresh (pre rest : list stmt) (o : mt) : Prop := mt_un o = [] /\ mt_pairs o = [].
  Definition mt_J (pre pend rest : list stmt) (o : mt) : Prop :=
    exists a, mt_un o = pend /\ pend = map (mt_mk a) (mt_pairs o) /\ mt_target o = Some a /\ mt_pairs o <> [] /\
    (length (mt_pairs o) <= 32)%nat /\ Forall (fun m => m < 255)%N (mt_pairs o).
  Lemma mt_ok pre pend rest o : mt_J pre pend rest o -> exists c, mt_stmt o = Some c /\ ok kept pend [c].
  Proof.
    intros (a & Hu & Hp & Ht & Hn & Hl & Hs). unfold mt_stmt. rewrite Ht. eexists. split; [reflexivity|]. split.
    - split; [apply sm_one|].
      + rewrite Hp. now destruct (mt_pairs o).
      + rewrite Hp. apply Forall_map. apply Forall_forall. intros pr _. exact I.
      + exact I.
      + intros _. constructor; [|constructor]. split; [|split; exact I]. split; [reflexivity|]. split; [reflexivity|exact I].
    - intros w Dw. assert (Hw : w = true).
      { rewrite Hp in Dw. destruct (mt_pairs o) as [|pr l]; [contradiction|]. destruct Dw as [Dw _]. apply Dw. reflexivity. }
      apply piece_intro; [exact Dw|split; [intros _; exact Hw|exact I]|rewrite Hp, mt_out by exact Hn; reflexivity|].
      intro s. rewrite Hp. cbn [SolIr.run]. rewrite exec_assign, mt_out by exact Hn. cbn [SolIr.eval].
      assert (Hi : length (mt_pairs o) = 32%nat \/ (if (length (mt_pairs o) =? mt_CAPABILITY)%nat then 0 else 0xff)%Z = 0xff%Z).
      { unfold mt_CAPABILITY. destruct (Nat.eqb_spec (length (mt_pairs o)) 32); auto. }
      destruct (rd (e_msize E) (mem s) a) as [v|] eqn:Ev.
      + rewrite (mt_run a _ 32 _ s v Hs Hl Hi Ev). rewrite (mt_literal _ Hs Hl). unfold fr_mul_add_mt. rewrite mt_opcode_fold.
        destruct (fr_mul_add_mt_loop _ _ _ _ _ _); cbn [vs store orel]; [|exact I]. apply eqv_refl.
      + destruct (mt_pairs o) as [|pr l]; [contradiction|]. cbn [map SolIr.run]. unfold mt_mk at 1. rewrite exec_assign. cbn [SolIr.eval]. rewrite Ev. exact I.
  Qed.
  Lemma mt_pass p q w : Forall fits p -> disc w p -> merge_groups mul_add_mt_optimizer p = Some q -> kept p q /\ piece w p q.
  Proof.
    intros HP D H.
    refine (merge_ok W b checked sha256 E kept (kept_refl []) (fun s => kept_refl [s]) kept_app mul_add_mt_optimizer p mt_fresh mt_J _ _ _ q w _ D H).
    - intros pre s rest o Hf [F1 F2]. cbn [o_start mul_add_mt_optimizer]. unfold mt_start.
      destruct (mt_extract s) as [[x y]|] eqn:Ex; [|now split].
      assert (Hs : fits s) by (rewrite Hf in HP; apply Forall_app in HP; apply (Forall_inv (proj2 HP))).
      destruct Hs as (Hw & _ & Hr). rewrite (mt_extract_mk s x y Hw Ex) in *. rewrite F1, F2. exists x. cbn [mt_un mt_pairs mt_target app].
      split; [reflexivity|]. split; [reflexivity|]. split; [reflexivity|]. split; [discriminate|]. split; [cbn [length]; lia|]. constructor; [exact Hr|constructor].
    - intros pre pend s rest o a o' Hf Hj Hm. cbn [o_merge mul_add_mt_optimizer] in Hm. unfold mt_merge in Hm.
      assert (Ab : (exists us, Some (mt_un o) = Some us /\ ok kept pend us) /\ mt_fresh (pre ++ pend) (s :: rest) (mkMt [] None [])).
      { destruct Hj as (? & Hu & _). split; [|now split]. eexists. split; [reflexivity|]. rewrite Hu. split; [apply kept_refl|]. intros w' D'. now apply piece_refl. }
      assert (Co : (exists c, mt_stmt o = Some c /\ ok kept pend [c]) /\ mt_fresh (pre ++ pend) (s :: rest) (mkMt [] None [])).
      { split; [eapply mt_ok; eauto|now split]. }
      destruct (Nat.eqb_spec (length (mt_pairs o)) mt_CAPABILITY) as [Hc|Hc]; [injection Hm as <- <-; exact Co|].
      destruct (mt_extract s) as [[x y]|] eqn:Ex.
      + assert (Hs : fits s) by (rewrite Hf in HP; apply Forall_app in HP; destruct HP as [_ HP]; apply Forall_app in HP; apply (Forall_inv (proj2 HP))).
        destruct Hs as (Hw & _ & Hr). assert (Es := mt_extract_mk s x y Hw Ex). destruct Hj as (a1 & Hu & Hp & Ht & Hn & Hl & Hs). rewrite Ht in Hm.
        destruct (N.eqb_spec x a1) as [Ey|_]; injection Hm as <- <-; try exact Ab.
        exists a1. cbn [mt_un mt_pairs mt_target]. rewrite Hu, map_app, <- Hp. cbn [map]. split; [reflexivity|]. split; [now rewrite Es, Ey|]. split; [reflexivity|].
        split; [intro X; apply app_eq_nil in X; destruct X; discriminate|]. split; [rewrite app_length; cbn [length]; unfold mt_CAPABILITY in Hc; lia|].
        apply Forall_app. split; [exact Hs|]. constructor; [|constructor]. rewrite Es in Hr. exact Hr.
      + injection Hm as <- <-. destruct (1 <? length (mt_pairs o))%nat; [exact Co|exact Ab].
    - intros pre pend o Hf Hj. cbn [o_can_complete mul_add_mt_optimizer o_stmt o_unresolved]. destruct (1 <? length (mt_pairs o))%nat; [eapply mt_ok; eauto|].
      destruct Hj as (? & Hu & _). eexists. split; [reflexivity|]. rewrite Hu. split; [apply kept_refl|]. intros w' D'. now apply piece_refl.
    - now split.
  Qed.

  (** * Powers *)
  Lemma umul_spec x y z : umul false x y = Some z -> z = (x * y)%N.
  Proof. unfold umul. destruct (x * y <? 2 ^ 64)%N; [|discriminate]. now intros [= <-]. Qed.
  Lemma uadd_spec x y z : uadd false x y = Some z -> z = (x + y)%N.
  Proof. unfold uadd. destruct (x + y <? 2 ^ 64)%N; [|discriminate]. now intros [= <-]. Qed.

  Lemma starts_after pre a c s : starts pre (square a) -> chain a c -> ~ step a s -> starts (pre ++ c) s.
  Proof.
    intros F (c1 & Hc & Hcs) N pre' a' c' E0 (c2 & Hc' & Hcs') Hst.
    assert (Ht : is_temp a' = false).
    { destruct (is_temp a') eqn:Ht; [|reflexivity]. exfalso. apply N. destruct s as [l r| | |]; try contradiction.
      destruct r as [| | | | | | | |x y t| | | | | | |]; try contradiction. destruct t; [|contradiction]. cbn [step] in *.
      destruct Hst as [(A & [B|B])|(A & B)]; subst; auto. }
    assert (Ns : ~ step a (square a') \/ a = a').
    { destruct (expr_eq_dec a a') as [Ea|Ea]; [now right|]. left. cbn [step square]. rewrite Ht. intros [(A & _)|(A & _)]; discriminate. }
    apply app_eq_app in E0. destruct E0 as (l & [[E1 E2]|[E1 E2]]).
    - destruct l as [|s0 l].
      + cbn [app] in E2. rewrite Hc, Hc' in E2. injection E2 as E2 _. subst a'. contradiction.
      + rewrite Hc' in E2. rewrite Hc in E2. cbn [app] in E2. injection E2 as E2 E3. subst s0.
        assert (C : chain a' (square a' :: l)). { exists l. split; [reflexivity|]. rewrite E3 in Hcs'. apply Forall_app in Hcs'. tauto. }
        rewrite E3 in Hcs'. apply Forall_app in Hcs'. destruct Hcs' as [_ Hcs']. apply Forall_inv in Hcs'. exact (F pre' a' _ E1 C (proj2 Hcs')).
    - destruct l as [|s0 l].
      + cbn [app] in E2. rewrite Hc, Hc' in E2. injection E2 as E2 _. subst a'. contradiction.
      + rewrite Hc, Hc' in E2. cbn [app] in E2. injection E2 as _ E3. rewrite E3 in Hcs. apply Forall_app in Hcs. destruct Hcs as [_ Hcs]. apply Forall_inv in Hcs.
        destruct Ns as [Ns|Ns]; [exact (Ns (proj2 Hcs))|]. subst a'. contradiction.
  Qed.
  Lemma starts_snoc pre s0 s : s_writes s0 = false -> starts (pre ++ [s0]) s.
  Proof.
    intros N pre' a c E0 (c' & -> & Hc) _.
    assert (X : exists l s1, square a :: c' = l ++ [s1] /\ s_writes s1 = true).
    { destruct (exists_last (l := square a :: c')) as (l & s1 & E1); [discriminate|]. exists l, s1. split; [exact E1|].
      assert (H : In s1 (square a :: c')) by (rewrite E1; apply in_or_app; right; now left). destruct H as [<-|H]; [reflexivity|].
      rewrite Forall_forall in Hc. exact (proj1 (Hc _ H)). }
    destruct X as (l & s1 & E1 & W1). rewrite E1, app_assoc in E0. apply app_inj_tail in E0. destruct E0 as [_ ->]. congruence.
  Qed.

  Inductive pows (a : expr) : list stmt -> N -> Prop :=
  | pows_start : pows a [square a] 2
  | pows_double c e t1 t2 : pows a c e -> pows a (c ++ [Assign (ETemp TScalar) (EMul (ETemp t1) (ETemp t2) TScalar)]) (e * 2)
  | pows_left c e t1 : is_temp a = false -> pows a c e -> pows a (c ++ [Assign (ETemp TScalar) (EMul (ETemp t1) a TScalar)]) (e + 1)
  | pows_right c e t1 : is_temp a = false -> pows a c e -> pows a (c ++ [Assign (ETemp TScalar) (EMul a (ETemp t1) TScalar)]) (e + 1).
  Lemma pows_ge a c e : pows a c e -> (2 <= e)%N.
  Proof. induction 1; lia. Qed.
  Lemma pows_two a c e : pows a c e -> (e <= 2)%N -> c = [square a].
  Proof. intros H He. destruct H as [|c e t1 t2 H|c e t1 Ht H|c e t1 Ht H]; [reflexivity| | |]; apply pows_ge in H; lia. Qed.
  Lemma pows_more a c e : pows a c e -> (2 < e)%N -> exists c', c = square a :: c' /\ c' <> [].
  Proof.
    intros H He.
    assert (K : forall c1 e1, pows a c1 e1 -> exists c', c1 = square a :: c').
    { induction 1 as [|c1 e1 t1 t2 H1 [c' IH]|c1 e1 t1 Ht H1 [c' IH]|c1 e1 t1 Ht H1 [c' IH]]; [now exists []| | |]; rewrite IH; eexists; reflexivity. }
    destruct H as [|c e t1 t2 H|c e t1 Ht H|c e t1 Ht H]; [lia| | |]; destruct (K _ _ H) as [c' ->]; eexists; (split; [reflexivity|]); intro X; apply app_eq_nil in X; destruct X; discriminate.
  Qed.
  Lemma pows_chain a c e : pows a c e -> chain a c.
  Proof.
    induction 1 as [|c e t1 t2 H (c' & -> & IH)|c e t1 Ht H (c' & -> & IH)|c e t1 Ht H (c' & -> & IH)];
    [exists []; split; [reflexivity|constructor]| | |]; eexists; (split; [reflexivity|]); apply Forall_app; (split; [exact IH|]); (constructor; [|constructor]); (split; [reflexivity|]); cbn [step is_temp]; auto.
  Qed.
  Lemma chain_out a c w : chain a c -> wout w c = true.
  Proof.
    intros (c' & -> & H). cbn [wout fold_left]. revert H. change (Forall (tstep a) c' -> wout true c' = true). intro H.
    induction c' as [|s c' IH]; [reflexivity|]. cbn [wout fold_left]. destruct (Forall_inv H) as [-> _]. apply IH. exact (Forall_inv_tail H).
  Qed.
  Lemma pow_mod x e y : ((x ^ Z.of_N e mod q_mod * y) mod q_mod = (x ^ Z.of_N e * y) mod q_mod)%Z.
  Proof. now rewrite Z.mul_mod_idemp_l by discriminate. Qed.
  Lemma eval_t0 s a t : is_temp a = false -> simple a -> eval (mkSt (mem s) t (t1 s) (absorbing s)) a = eval s a.
  Proof.
    intros Ht Hs. apply (eval_eqv W b checked E false).
    - constructor; auto. discriminate.
    - destruct a; try contradiction; discriminate.
  Qed.
  Lemma pows_run a c e s : simple a -> get_type a = TScalar -> Forall wt_stmt c -> pows a c e ->
    run c s = do v <- eval s a; do x <- sc v; Some (mkSt (mem s) (x ^ Z.of_N e mod q_mod)%Z (t1 s) (absorbing s)).
  Proof.
    intros Hs Ht Hw H. induction H as [|c e u1 u2 H IH|c e u1 Hn H IH|c e u1 Hn H IH].
    - cbn [SolIr.run]. unfold square. rewrite exec_assign. cbn [SolIr.eval]. destruct (eval s a) as [v|]; [|reflexivity]. destruct (sc v) as [x|]; [|reflexivity].
      cbn [store]. change (Z.of_N 2) with 2%Z. rewrite Z.pow_2_r. reflexivity.
    - apply Forall_app in Hw. destruct Hw as [Hw Hl]. rewrite run_app, (IH Hw). destruct (eval s a) as [v|]; [|reflexivity]. destruct (sc v) as [x|]; [|reflexivity].
      cbn [SolIr.run]. rewrite exec_assign. destruct (Forall_inv Hl) as (_ & _ & [_ O1] & [_ O2]). cbn [get_type] in O1, O2. subst u1 u2. cbn [SolIr.eval sc store t0 mem t1 absorbing].
      unfold fr_mul, mulmod. rewrite pow_mod, (Z.mul_comm (x ^ Z.of_N e)), pow_mod, <- Z.pow_add_r by lia. do 2 f_equal. f_equal. f_equal. lia.
    - apply Forall_app in Hw. destruct Hw as [Hw Hl]. rewrite run_app, (IH Hw). destruct (eval s a) as [v|] eqn:Ev; [|reflexivity]. destruct (sc v) as [x|] eqn:Ex; [|reflexivity].
      cbn [SolIr.run]. rewrite exec_assign. destruct (Forall_inv Hl) as (_ & _ & [_ O1] & _). cbn [get_type] in O1. subst u1. cbn [SolIr.eval].
      rewrite (eval_t0 s a _ Hn Hs), Ev. cbn [sc t0]. rewrite Ex. cbn [store mem t1 absorbing].
      unfold fr_mul, mulmod. rewrite pow_mod. replace (Z.of_N (e + 1)) with (Z.succ (Z.of_N e)) by lia. rewrite Z.pow_succ_r, (Z.mul_comm x) by lia. reflexivity.
    - apply Forall_app in Hw. destruct Hw as [Hw Hl]. rewrite run_app, (IH Hw). destruct (eval s a) as [v|] eqn:Ev; [|reflexivity]. destruct (sc v) as [x|] eqn:Ex; [|reflexivity].
      cbn [SolIr.run]. rewrite exec_assign. destruct (Forall_inv Hl) as (_ & _ & _ & [_ O1]). cbn [get_type] in O1. subst u1. cbn [SolIr.eval].
      rewrite (eval_t0 s a _ Hn Hs), Ev. cbn [sc t0]. rewrite Ex. cbn [store mem t1 absorbing].
      unfold fr_mul, mulmod. rewrite (Z.mul_comm x), pow_mod. replace (Z.of_N (e + 1)) with (Z.succ (Z.of_N e)) by lia. rewrite Z.pow_succ_r, (Z.mul_comm x) by lia. reflexivity.
  Qed.

  (** the same with the result stored elsewhere *)
  Lemma pows_store a c e o x y s : simple a -> get_type a = TScalar -> Forall wt_stmt c -> wt_stmt (Assign (ETemp TScalar) (EMul x y TScalar)) ->
    pows a (c ++ [Assign (ETemp TScalar) (EMul x y TScalar)]) e ->
    orel (eqv false) (run (c ++ [Assign (EMemory o TScalar) (EMul x y TScalar)]) s)
      (do v <- eval s a; do x <- sc v; store E s (EMemory o TScalar) (VS (x ^ Z.of_N e mod q_mod)%Z)).
  Proof.
    intros Hs Ht Hw Hf H. assert (R := pows_run a _ e s Hs Ht ltac:(apply Forall_app; split; [exact Hw|constructor; [exact Hf|constructor]]) H).
    rewrite run_app in R. rewrite run_app. destruct (run c s) as [s1|]; cbn [SolIr.run] in *.
    - rewrite exec_assign in *. destruct (eval s1 (EMul x y TScalar)) as [[z|z z']|] eqn:Em; cbn [store] in R |- *.
      + destruct (eval s a) as [v|]; [|discriminate]. destruct (sc v) as [u|]; [|discriminate]. injection R as R1 R2 R3 R4. rewrite R1, R2.
        cbn [store]. destruct (wr _ _ _ _); [|exact I]. constructor; cbn; auto. discriminate.
      + exfalso. cbn [SolIr.eval] in Em. destruct (eval s1 x) as [v1|]; [|discriminate]. destruct (eval s1 y) as [v2|]; [|discriminate]. destruct (sc v1), (sc v2); discriminate.
      + destruct (eval s a) as [v|]; [|exact I]. destruct (sc v) as [u|]; [discriminate|exact I].
    - destruct (eval s a) as [v|]; [|exact I]. destruct (sc v) as [u|]; [discriminate|exact I].
  Qed.

  Definition wkept (p q : list stmt) : Prop := Forall wt_stmt p -> Forall wt_stmt q.
  Lemma wkept_refl p : wkept p p.
  Proof. now intro. Qed.
  Lemma wkept_app p1 q1 p2 q2 : wkept p1 q1 -> wkept p2 q2 -> wkept (p1 ++ p2) (q1 ++ q2).
  Proof. unfold wkept. rewrite !Forall_app. tauto. Qed.

  Definition fp_fresh (pre rest : list stmt) (o : fp) : Prop :=
    fp_un o = [] /\ fp_assignee o = None /\ match rest with s :: _ => starts pre s | [] => True end.
  Definition fp_J (pre pend rest : list stmt) (o : fp) : Prop :=
    exists a, fp_target o = Some a /\ fp_un o = [square a] /\ simple a /\ get_type a = TScalar /\ starts pre (square a) /\ Forall wt_stmt pend /\
    match fp_assignee o with
    | None => pows a pend (fp_exp o)
    | Some l => exists m c x y, l = EMemory m TScalar /\ pend = c ++ [Assign l (EMul x y TScalar)] /\ wt_stmt (Assign (ETemp TScalar) (EMul x y TScalar)) /\
        chain a c /\ pows a (c ++ [Assign (ETemp TScalar) (EMul x y TScalar)]) (fp_exp o)
    end.
  Lemma fp_disc a w : disc w [square a] -> simple a -> reads_temp a = true -> w = true.
  Proof. intros [H _] _ R. apply H. cbn [s_reads square reads_temp]. now rewrite R. Qed.
  Lemma fp_ok pre pend rest o : fp_J pre pend rest o -> exists c, fp_stmt o = Some c /\ ok wkept pend [c].
  Proof.
    intros (a & Ht & Hu & Hs & Hty & Hst & Hw & Ha). unfold fp_stmt. rewrite Ht. eexists. split; [reflexivity|].
    destruct (fp_assignee o) as [l|].
    - destruct Ha as (m & c & x & y & -> & Hp & Hf & Hch & Hpw). assert (Hw2 := Hw). rewrite Hp in Hw2. apply Forall_app in Hw2. destruct Hw2 as [Hw2 _].
      split.
      + intros _. constructor; [|constructor]. split; [reflexivity|]. split; [reflexivity|]. split; assumption.
      + intros w Dw. apply piece_intro; [exact Dw| | |].
        * split; [|exact I]. cbn [s_reads reads_temp]. intro R. apply (fp_disc a w); auto.
          destruct Hch as (c' & -> & _). rewrite Hp in Dw. cbn [app disc] in Dw. split; [apply (proj1 Dw)|exact I].
        * rewrite Hp, wout_app. reflexivity.
        * intro s. rewrite Hp, wout_app. change (wout (wout w c) [Assign (EMemory m TScalar) (EMul x y TScalar)]) with false.
          eapply orel_trans; [intros; eapply eqv_trans; eauto|apply (pows_store a c (fp_exp o) m x y s); auto|].
          cbn [SolIr.run]. rewrite exec_assign. cbn [SolIr.eval]. destruct (eval s a) as [v|]; [|exact I]. destruct (sc v) as [u|]; [|exact I].
          cbn [store]. unfold fr_pow, modexp. destruct (wr _ _ _ _); [|exact I]. apply eqv_refl.
    - split.
      + intros _. constructor; [|constructor]. split; [reflexivity|]. split; [reflexivity|]. split; assumption.
      + assert (Hch := pows_chain a pend _ Ha). intros w Dw. apply piece_intro; [exact Dw| | |].
        * split; [|exact I]. cbn [s_reads reads_temp]. intro R. apply (fp_disc a w); auto.
          destruct Hch as (c' & -> & _). cbn [app disc] in Dw. split; [apply (proj1 Dw)|exact I].
        * rewrite (chain_out a pend w Hch). reflexivity.
        * intro s. rewrite (pows_run a pend (fp_exp o) s) by auto. cbn [SolIr.run]. rewrite exec_assign. cbn [SolIr.eval].
          destruct (eval s a) as [v|]; [|exact I]. destruct (sc v) as [u|]; [|exact I]. cbn [store]. apply eqv_refl.
  Qed.
  Lemma wt_mul l x y : wt_stmt (Assign l (EMul x y TScalar)) -> (exists m, l = EMemory m TScalar) \/ l = ETemp TScalar.
  Proof. intros (H1 & H2 & _). destruct l as [m t| | | | | | | | | | | | | | |t]; try discriminate; cbn [get_type] in H2; subst t; eauto. Qed.
  Lemma temp_ty e t : is_temp e = true -> get_type e = t -> e = ETemp t.
  Proof. destruct e; try discriminate. cbn. now intros _ ->. Qed.

  Lemma fp_pass p q w : Forall wt_stmt p -> no_abandoned p -> disc w p -> merge_groups (fr_pow_optimizer false) p = Some q -> wkept p q /\ piece w p q.
  Proof.
    intros HP HA D H.
    refine (merge_ok W b checked sha256 E wkept (wkept_refl []) (fun s => wkept_refl [s]) wkept_app (fr_pow_optimizer false) p fp_fresh fp_J _ _ _ q w _ D H).
    - intros pre s rest o Hf (F1 & F2 & F3). cbn [o_start fr_pow_optimizer]. unfold fp_start.
      assert (Hs : wt_stmt s) by (rewrite Hf in HP; apply Forall_app in HP; apply (Forall_inv (proj2 HP))).
      assert (Sk : (forall a, s <> square a) -> fp_fresh (pre ++ [s]) rest o).
      { intro N. split; [exact F1|]. split; [exact F2|]. destruct rest as [|s' rest]; [exact I|].
        intros pre' a c E0 (c' & -> & Hc) _. destruct (exists_last (l := square a :: c')) as (l & s1 & E1); [discriminate|].
        rewrite E1, app_assoc in E0. apply app_inj_tail in E0. destruct E0 as [E0 <-]. destruct l as [|s0 l].
        - injection E1 as E1 _. exact (N a (eq_sym E1)).
        - injection E1 as <- E1. rewrite E1 in Hc. apply Forall_app in Hc. destruct Hc as [Hc1 Hc2]. apply (F3 pre' a (square a :: l) E0).
          + exists l. split; [reflexivity|exact Hc1].
          + exact (proj2 (Forall_inv Hc2)). }
      destruct s as [l r| | |]; try (apply Sk; discriminate).
      destruct r as [| | | | | | | |x y t| | | | | | |]; try (apply Sk; discriminate). destruct t; [|apply Sk; discriminate]. cbn [fp_extract].
      unfold expr_eqb. destruct (is_temp l) eqn:El; cbn [andb]; [|apply Sk; intros a Ea; injection Ea as Ea1 _; subst l; discriminate].
      destruct (expr_eq_dec x y) as [Exy|Exy]; [|apply Sk; intros a Ea; injection Ea as _ Ea1 Ea2; congruence].
      subst y. destruct (wt_mul l x x Hs) as [[m Em]|Em]; subst l; [discriminate|]. destruct Hs as (_ & _ & [Hx1 Hx2] & _).
      exists x. cbn [fp_target fp_un fp_assignee fp_exp]. rewrite F1, F2. split; [reflexivity|]. split; [reflexivity|]. split; [exact Hx1|]. split; [exact Hx2|].
      split; [exact F3|]. split; [|constructor]. constructor; [|constructor]. split; [reflexivity|]. split; [reflexivity|]. split; split; assumption.
    - intros pre pend s rest o a o' Hf (a0 & Ht & Hu & Hs0 & Hty & Hst & Hw & Ha) Hm. cbn [o_merge fr_pow_optimizer] in Hm. unfold fp_merge in Hm.
      assert (Hs : wt_stmt s) by (rewrite Hf in HP; apply Forall_app in HP; destruct HP as [_ HP]; apply Forall_app in HP; apply (Forall_inv (proj2 HP))).
      assert (Hj : fp_J pre pend (s :: rest) o) by (exists a0; auto 10).
      destruct (fp_assignee o) as [l|] eqn:Eas.
      { injection Hm as <- <-. split; [exact (fp_ok pre pend (s :: rest) o Hj)|]. split; [reflexivity|]. split; [reflexivity|].
        destruct Ha as (m & c & x & y & -> & -> & _). rewrite app_assoc. now apply starts_snoc. }
      assert (Hch := pows_chain a0 pend _ Ha).
      assert (Stop : ~ step a0 s -> fp_fresh (pre ++ pend) (s :: rest) (mkFp [] None None 0)).
      { intro N. split; [reflexivity|]. split; [reflexivity|]. now apply (starts_after pre a0 pend s). }
      assert (Ab : ((2 < fp_exp o)%N -> False) -> ~ step a0 s ->
        (exists us, Some (fp_un o) = Some us /\ ok wkept pend us) /\ fp_fresh (pre ++ pend) (s :: rest) (mkFp [] None None 0)).
      { intros N1 N2. split; [|now apply Stop]. eexists. split; [reflexivity|]. rewrite Hu, <- (pows_two a0 pend (fp_exp o) Ha) by lia.
        split; [apply wkept_refl|]. intros w' D'. now apply piece_refl. }
      assert (Other : fp_extract s = None -> Some (if (2 <? fp_exp o)%N then Complete else Abort, o) = Some (a, o') -> 
        match a with Skip => False | Continue => fp_J pre (pend ++ [s]) rest o'
        | Abort => (exists us, Some (fp_un o') = Some us /\ ok wkept pend us) /\ fp_fresh (pre ++ pend) (s :: rest) (mkFp [] None None 0)
        | Complete => (exists c, fp_stmt o' = Some c /\ ok wkept pend [c]) /\ fp_fresh (pre ++ pend) (s :: rest) (mkFp [] None None 0) end).
      { intros N [= <- <-]. assert (Ns : ~ step a0 s).
        { destruct s as [l r| | |]; try (intros []). destruct r as [| | | | | | | |x y t| | | | | | |]; try (intros []). destruct t; [discriminate|intros []]. }
        destruct (N.ltb_spec 2 (fp_exp o)) as [L|L]; [split; [exact (fp_ok pre pend (s :: rest) o Hj)|now apply Stop]|apply Ab; [lia|exact Ns]]. }
      destruct s as [l r| | |]; try (apply Other; [reflexivity|exact Hm]).
      destruct r as [| | | | | | | |x y t| | | | | | |]; try (apply Other; [reflexivity|exact Hm]). destruct t; [|apply Other; [reflexivity|exact Hm]].
      clear Other. cbn [fp_extract] in Hm. rewrite Ht in Hm.
      assert (Go : forall e' r0, r0 = EMul x y TScalar -> pows a0 (pend ++ [Assign (ETemp TScalar) r0]) e' ->
        fp_J pre (pend ++ [Assign l r0]) rest (mkFp (fp_un o) (fp_target o) (if is_temp l then None else Some l) e')).
      { intros e' r0 -> Hpw. exists a0. cbn [fp_target fp_un fp_assignee fp_exp]. split; [exact Ht|]. split; [exact Hu|]. split; [exact Hs0|]. split; [exact Hty|]. split; [exact Hst|].
        split; [apply Forall_app; split; [exact Hw|constructor; [exact Hs|constructor]]|].
        destruct (wt_mul l x y Hs) as [[m ->]| ->]; cbn [is_temp].
        - exists m, pend, x, y. split; [reflexivity|]. split; [reflexivity|]. split; [|split; [exact Hch|exact Hpw]]. destruct Hs as (_ & _ & Hs). split; [reflexivity|]. split; [reflexivity|exact Hs].
        - exact Hpw. }
      destruct Hs as (Hs1 & Hs2 & [Hx1 Hx2] & [Hy1 Hy2]).
      destruct (is_temp x && is_temp y) eqn:Exy.
      + apply andb_true_iff in Exy. destruct Exy as [Tx Ty]. destruct (umul false (fp_exp o) 2) as [e'|] eqn:Ee; [|discriminate]. apply umul_spec in Ee. injection Hm as <- <-.
        rewrite <- Ht. apply (Go e' _ eq_refl). rewrite (temp_ty x _ Tx Hx2), (temp_ty y _ Ty Hy2), Ee. now constructor.
      + unfold expr_eqb in Hm.
        assert (Cont : forall e', uadd false (fp_exp o) 1 = Some e' -> (is_temp x = true /\ y = a0) \/ (is_temp y = true /\ x = a0) ->
          fp_J pre (pend ++ [Assign l (EMul x y TScalar)]) rest (mkFp (fp_un o) (fp_target o) (if is_temp l then None else Some l) e')).
        { intros e' Ee C. apply uadd_spec in Ee. apply (Go e' _ eq_refl). rewrite Ee. destruct C as [[Tx ->] |[Ty ->]].
          - rewrite (temp_ty x _ Tx Hx2). constructor; [|exact Ha]. rewrite Tx in Exy. exact Exy.
          - rewrite (temp_ty y _ Ty Hy2). constructor; [|exact Ha]. rewrite Ty, andb_true_r in Exy. exact Exy. }
        assert (Dr : (is_temp x = true /\ y = a0) \/ (is_temp y = true /\ x = a0) \/ ~ step a0 (Assign l (EMul x y TScalar))).
        { destruct (expr_eq_dec y a0) as [Ey|Ey], (expr_eq_dec x a0) as [Ex|Ex]; destruct (is_temp x) eqn:Tx, (is_temp y) eqn:Ty; cbn [andb] in Exy; try discriminate; auto;
          right; right; cbn [step]; rewrite Tx, Ty; intros [(? & [?|?])|(? & ?)]; try discriminate; contradiction. }
        destruct Dr as [C|[C|C]].
        * destruct C as [Tx Ey]. rewrite Tx in Hm. destruct (expr_eq_dec y a0) as [_|]; [|contradiction]. cbn [andb orb] in Hm.
          destruct (uadd false (fp_exp o) 1) as [e'|] eqn:Ee; [|discriminate]. injection Hm as <- <-. rewrite <- Ht. apply (Cont e' eq_refl). auto.
        * destruct C as [Ty Ex]. rewrite Ty in Hm. destruct (expr_eq_dec x a0) as [_|]; [|contradiction]. rewrite orb_true_r in Hm.
          destruct (uadd false (fp_exp o) 1) as [e'|] eqn:Ee; [|discriminate]. injection Hm as <- <-. rewrite <- Ht. apply (Cont e' eq_refl). auto.
        * destruct (is_temp x && (if expr_eq_dec y a0 then true else false) || is_temp y && (if expr_eq_dec x a0 then true else false)) eqn:Ec.
          -- exfalso. apply C. cbn [step]. apply orb_true_iff in Ec. rewrite !andb_true_iff in Ec. destruct (expr_eq_dec y a0), (expr_eq_dec x a0); intuition (discriminate || auto).
          -- injection Hm as <- <-. apply Ab; [|exact C]. intro L. destruct (pows_more a0 pend _ Ha L) as (c' & Ep & Nc). apply C.
             apply (HA pre a0 c' (Assign l (EMul x y TScalar)) rest); [rewrite <- Ep; exact Hf|rewrite <- Ep; exact Hch|exact Nc|exact Hst|exact I].
    - intros pre pend o Hf Hj. cbn [o_can_complete fr_pow_optimizer o_stmt o_unresolved]. destruct (N.ltb_spec 2 (fp_exp o)) as [L|L]; [exact (fp_ok pre pend [] o Hj)|].
      destruct Hj as (a & Ht & Hu & Hs & Hty & Hst & Hw & Ha). eexists. split; [reflexivity|]. rewrite Hu. destruct (fp_assignee o) as [l|].
      + exfalso. destruct Ha as (m & c & x & y & _ & _ & _ & Hch & Hpw). apply pows_two in Hpw; [|exact L]. destruct Hch as (c' & -> & _). destruct c'; discriminate.
      + rewrite <- (pows_two a pend _ Ha L). split; [apply wkept_refl|]. intros w' D'. now apply piece_refl.
    - split; [reflexivity|]. split; [reflexivity|]. destruct p as [|s p]; [exact I|]. intros pre' a c E0 (c' & -> & _). destruct pre'; discriminate.
  Qed.

  (** * Loops of products *)
  Definition ms_mk (f : N * N * N) : stmt :=
    let '(l, a, c) := f in Assign (EMemory l TScalar) (EMul (EMemory a TScalar) (EMemory c TScalar) TScalar).
  Definition ms_nth (start st : N * N * N) (i : N) : N * N * N :=
    let '(l, a, c) := start in let '(dl, da, dc) := st in (l + i * dl, a + i * da, c + i * dc)%N.
  Fixpoint muls (n : nat) (i : N) (start st : N * N * N) : list stmt :=
    match n with O => [] | S n => ms_mk (ms_nth start st i) :: muls n (i + 1) start st end.
  Lemma muls_snoc n start st : forall i, muls (S n) i start st = muls n i start st ++ [ms_mk (ms_nth start st (i + N.of_nat n))].
  Proof.
    induction n as [|n IH]; intro i.
    - cbn [muls app N.of_nat]. now rewrite N.add_0_r.
    - change (muls (S (S n)) i start st) with (ms_mk (ms_nth start st i) :: muls (S n) (i + 1) start st). rewrite IH. cbn [muls app].
      replace (i + 1 + N.of_nat n)%N with (i + N.of_nat (S n))%N by lia. reflexivity.
  Qed.
  Lemma run_muls n start st : forall i s,
    run (muls n i start st) s = do m <- for_mul E n i start st (mem s); Some (mkSt m (t0 s) (t1 s) (absorbing s)).
  Proof.
    destruct start as [[l a] c], st as [[dl da] dc]. induction n as [|n IH]; intros i s.
    - cbn. now destruct s.
    - cbn [muls SolIr.run for_mul ms_mk ms_nth]. rewrite exec_assign. cbn [SolIr.eval].
      destruct (rd _ _ _) as [x|]; cbn [vs]; [|reflexivity]. destruct (rd _ _ _) as [y|]; cbn [vs sc store]; [|reflexivity].
      unfold fr_mul. destruct (wr _ _ _ _); cbn [vs]; [|reflexivity]. rewrite IH. reflexivity.
  Qed.
  Lemma muls_out n start st : forall i w, wout w (muls (S n) i start st) = false.
  Proof.
    induction n as [|n IH]; intros i w.
    - destruct start as [[l a] c], st as [[dl da] dc]. reflexivity.
    - change (wout w (muls (S (S n)) i start st)) with (wout (s_writes (ms_mk (ms_nth start st i))) (muls (S n) (i + 1) start st)). apply IH.
  Qed.
  (** [q] is [p] with some runs of more than four products made loops and nothing else changed *)
  Inductive looped : list stmt -> list stmt -> Prop :=
  | lp_nil : looped [] []
  | lp_keep s p q : looped p q -> looped (s :: p) (s :: q)
  | lp_run n start st p q : (4 < n)%nat -> looped p q -> looped (muls n 0 start st ++ p) (ForMMMMul start st (N.of_nat n) TScalar :: q).
  Lemma looped_refl p : looped p p.
  Proof. induction p; now constructor. Qed.
  Lemma looped_app p1 q1 p2 q2 : looped p1 q1 -> looped p2 q2 -> looped (p1 ++ p2) (q1 ++ q2).
  Proof. intros A B. induction A; cbn [app]; [exact B|now constructor|]. rewrite <- app_assoc. now constructor. Qed.
  Lemma looped_wt p q : looped p q -> wkept p q.
  Proof.
    unfold wkept. intro H. induction H; intro F; [constructor|inversion F; subst; constructor; auto|].
    apply Forall_app in F. constructor; [exact I|]. now apply IHlooped.
  Qed.
  Lemma ms_extract_mk s f : wt_stmt s -> ms_extract s = Some f -> s = ms_mk f.
  Proof.
    intros Hw H. destruct s as [l r| | |]; try discriminate. destruct r as [| | | | | | | |x y t| | | | | | |]; try discriminate. cbn [ms_extract] in H.
    destruct t; [|discriminate]. destruct x as [ox tx| | | | | | | | | | | | | | |]; try discriminate. destruct y as [oy ty| | | | | | | | | | | | | | |]; try discriminate.
    destruct l as [ol tl| | | | | | | | | | | | | | |]; try discriminate. cbn [is_memory andb try_get_offset] in H. injection H as <-.
    destruct Hw as (_ & Ht & [_ O1] & [_ O2]). cbn [get_type] in *. now subst.
  Qed.
  Definition ms_fresh (pre rest : list stmt) (o : ms) : Prop := ms_un o = [] /\ ms_step o = None.
  Definition ms_J (pre pend rest : list stmt) (o : ms) : Prop :=
    ms_un o = pend /\
    match ms_step o with
    | None => ms_cap o = 1%N /\ pend = [ms_mk (ms_first o)]
    | Some st => exists n, ms_cap o = N.of_nat (S n) /\ pend = muls (S n) 0 (ms_first o) st
    end.
  Lemma ms_ok pre pend rest o : ms_J pre pend rest o -> ms_can o = true -> exists c, ms_stmt o = Some c /\ ok looped pend [c].
  Proof.
    intros (Hu & Hj) Hc. unfold ms_stmt. unfold ms_can in Hc. apply N.ltb_lt in Hc. destruct (ms_step o) as [st|]; [|lia].
    destruct Hj as (n & Hn & Hp). eexists. split; [reflexivity|]. split.
    - rewrite Hp, Hn, <- (app_nil_r (muls _ _ _ _)). apply lp_run; [lia|constructor].
    - intros w Dw. apply piece_intro; [exact Dw|split; [discriminate|exact I]|rewrite Hp, muls_out; reflexivity|].
      intro s. rewrite Hp, run_muls, muls_out, Hn. cbn [SolIr.run SolIr.exec]. rewrite Nat2N.id.
      destruct (for_mul _ _ _ _ _ _); cbn [vs orel]; [|exact I]. constructor; cbn; auto. discriminate.
  Qed.
  Lemma on_step_spec x start cap st : on_step false x start cap st = Some true -> x = (start + cap * st)%N.
  Proof.
    unfold on_step. destruct (usub false x start) as [d|] eqn:E1; [|discriminate]. destruct (umul false cap st) as [k|] eqn:E2; [|discriminate].
    apply usub_spec in E1. apply umul_spec in E2. intros [= H]. apply N.eqb_eq in H. lia.
  Qed.
  Lemma ms_pass p q w : Forall wt_stmt p -> disc w p -> merge_groups (mul_seq_optimizer false) p = Some q -> looped p q /\ piece w p q.
  Proof.
    intros HP D H.
    refine (merge_ok W b checked sha256 E looped (looped_refl []) (fun s => looped_refl [s]) looped_app (mul_seq_optimizer false) p ms_fresh ms_J _ _ _ q w _ D H).
    - intros pre s rest o Hf (F1 & F2). cbn [o_start mul_seq_optimizer]. unfold ms_start_.
      destruct (ms_extract s) as [f|] eqn:Ex; [|now split].
      assert (Hs : wt_stmt s) by (rewrite Hf in HP; apply Forall_app in HP; apply (Forall_inv (proj2 HP))).
      rewrite (ms_extract_mk s f Hs Ex). split; cbn [ms_un ms_step ms_cap ms_first]; [now rewrite F1|]. rewrite F2. split; reflexivity.
    - intros pre pend s rest o a o' Hf Hj Hm. cbn [o_merge mul_seq_optimizer] in Hm. unfold ms_merge in Hm.
      assert (Hs : wt_stmt s) by (rewrite Hf in HP; apply Forall_app in HP; destruct HP as [_ HP]; apply Forall_app in HP; apply (Forall_inv (proj2 HP))).
      assert (Stop : Some (if ms_can o then Complete else Abort, o) = Some (a, o') -> 
        match a with Skip => False | Continue => ms_J pre (pend ++ [s]) rest o'
        | Abort => (exists us, Some (ms_un o') = Some us /\ ok looped pend us) /\ ms_fresh (pre ++ pend) (s :: rest) (mkMs [] None (0, 0, 0)%N 0)
        | Complete => (exists c, ms_stmt o' = Some c /\ ok looped pend [c]) /\ ms_fresh (pre ++ pend) (s :: rest) (mkMs [] None (0, 0, 0)%N 0) end).
      { intros [= <- <-]. destruct (ms_can o) eqn:Ec; (split; [|now split]).
        - exact (ms_ok pre pend (s :: rest) o Hj Ec).
        - destruct Hj as [-> _]. eexists. split; [reflexivity|]. split; [apply looped_refl|]. intros w' D'. now apply piece_refl. }
      destruct (ms_extract s) as [[[l x] y]|] eqn:Ex; [|now apply Stop].
      assert (Es := ms_extract_mk s _ Hs Ex). destruct (ms_first o) as [[l0 x0] y0] eqn:Ef.
      assert (Hj2 := Hj). destruct Hj2 as [Hu Hj2]. destruct (ms_step o) as [[[dl dx] dy]|] eqn:Est.
      + destruct (on_step false l l0 (ms_cap o) dl) as [[|]|] eqn:E1; cbn [negb] in Hm; [|now apply Stop|discriminate].
        destruct (on_step false x x0 (ms_cap o) dx) as [[|]|] eqn:E2; cbn [negb] in Hm; [|now apply Stop|discriminate].
        destruct (on_step false y y0 (ms_cap o) dy) as [[|]|] eqn:E3; cbn [negb] in Hm; [|now apply Stop|discriminate].
        destruct (uadd false (ms_cap o) 1) as [cap|] eqn:E4; [|discriminate]. apply uadd_spec in E4. injection Hm as <- <-.
        apply on_step_spec in E1, E2, E3. destruct Hj2 as (n & Hn & Hp). split; cbn [ms_un ms_step ms_cap ms_first]; [now rewrite Hu|].
        exists (S n). split; [lia|]. rewrite muls_snoc, Hp, Ef, Es. do 3 f_equal. cbn [ms_nth]. rewrite N.add_0_l, <- Hn. congruence.
      + destruct (usub false l l0) as [dl|] eqn:E1; [|discriminate]. destruct (usub false x x0) as [dx|] eqn:E2; [|discriminate]. destruct (usub false y y0) as [dy|] eqn:E3; [|discriminate].
        destruct (uadd false (ms_cap o) 1) as [cap|] eqn:E4; [|discriminate]. apply uadd_spec in E4. injection Hm as <- <-. apply usub_spec in E1, E2, E3.
        destruct Hj2 as [Hn Hp]. split; cbn [ms_un ms_step ms_cap ms_first]; [now rewrite Hu|].
        exists 1%nat. split; [lia|]. rewrite Hp, Ef, Es. cbn [muls app ms_nth]. rewrite !N.mul_0_l, !N.add_0_r, !N.mul_1_l. congruence.
    - intros pre pend o Hf Hj. cbn [o_can_complete mul_seq_optimizer o_stmt o_unresolved]. destruct (ms_can o) eqn:Ec; [exact (ms_ok pre pend [] o Hj Ec)|].
      destruct Hj as [-> _]. eexists. split; [reflexivity|]. split; [apply looped_refl|]. intros w' D'. now apply piece_refl.
    - now split.
  Qed.

  (** * All passes *)
  Lemma fits_wt p : Forall fits p -> Forall wt_stmt p.
  Proof. apply Forall_impl. now intros s [H _]. Qed.
  Lemma step_mul a s : step a s -> ~ nomul s.
  Proof. destruct s as [l r| | |]; try (intros []). destruct r; try (intros []). now intros _ F. Qed.
  Lemma chain_mul a c : chain a c -> Forall (fun s => ~ nomul s) c.
  Proof. intros (c' & -> & H). constructor; [now intro|]. eapply Forall_impl; [|exact H]. intros s [_ S]. exact (step_mul a s S). Qed.
  Lemma sm_abandoned p q : sm p q -> no_abandoned p -> no_abandoned q.
  Proof.
    intros Hs HA pre a c s post Hq Hc Nc Hst Hm.
    destruct (sm_split p q Hs _ _ Hq) as (p1 & p2 & -> & S1 & S2). destruct (sm_split _ _ S2 _ _ eq_refl) as (p3 & p4 & -> & S3 & S4).
    rewrite (sm_mul _ _ S3 (chain_mul a _ Hc)) in *. change (s :: post) with ([s] ++ post) in S4. destruct (sm_split _ _ S4 _ _ eq_refl) as (p5 & p6 & -> & S5 & S6).
    assert (Hs1 : p5 = [s]). { apply sm_mul; [exact S5|]. constructor; [|constructor]. destruct s as [l r| | |]; try contradiction. destruct r; try contradiction. now intro. }
    subst p5. apply (HA p1 a c s p6 eq_refl Hc Nc); [|exact Hm].
    intros pre' a' c' E0 C'. destruct (sm_suffix _ _ S1 pre' c' E0 (chain_mul a' c' C')) as [q' ->]. now apply (Hst q' a' c').
  Qed.

  (** ** The whole of [aggregate] *)
  Theorem aggregate_ok p q w : Forall fits p -> disc w p -> paired p -> no_abandoned p -> aggregate false p = Some q -> Forall wt_stmt q /\ piece w p q.
  Proof.
    intros HF HD HP HA H. unfold aggregate in H.
    destruct (merge_groups (update_hash_merger false) p) as [p1|] eqn:E1; [|discriminate].
    destruct (merge_groups mul_add_pm_optimizer p1) as [p2|] eqn:E2; [|discriminate].
    destruct (merge_groups mul_add_mt_optimizer p2) as [p3|] eqn:E3; [|discriminate].
    destruct (merge_groups (fr_pow_optimizer false) p3) as [p4|] eqn:E4; [|discriminate].
    destruct (uh_pass p p1 w HP HD E1) as [[S1 K1] P1]. assert (F1 := K1 HF). assert (D1 := pc_disc _ _ _ _ _ _ _ _ P1).
    destruct (pm_pass p1 p2 w F1 D1 E2) as [[S2 K2] P2]. assert (F2 := K2 F1). assert (D2 := pc_disc _ _ _ _ _ _ _ _ P2).
    destruct (mt_pass p2 p3 w F2 D2 E3) as [[S3 K3] P3]. assert (F3 := K3 F2). assert (D3 := pc_disc _ _ _ _ _ _ _ _ P3).
    assert (A3 : no_abandoned p3) by (eapply sm_abandoned; [exact S3|]; eapply sm_abandoned; [exact S2|]; eapply sm_abandoned; eauto).
    destruct (fp_pass p3 p4 w (fits_wt _ F3) A3 D3 E4) as [K4 P4]. assert (F4 := K4 (fits_wt _ F3)). assert (D4 := pc_disc _ _ _ _ _ _ _ _ P4).
    destruct (ms_pass p4 q w F4 D4 H) as [K5 P5]. split; [exact (looped_wt _ _ K5 F4)|].
    eapply piece_trans; [exact P1|]. eapply piece_trans; [exact P2|]. eapply piece_trans; [exact P3|]. eapply piece_trans; eauto.
  Qed.
End Sem.

(** A release build gives the same program whenever a debug build does not panic. *)
Lemma usub_release a c d : usub false a c = Some d -> usub true a c = Some d.
Proof. unfold usub. destruct (c <=? a)%N; [auto|discriminate]. Qed.
Lemma umul_release a c d : umul false a c = Some d -> umul true a c = Some d.
Proof. unfold umul. destruct (a * c <? 2 ^ 64)%N; [auto|discriminate]. Qed.
Lemma uadd_release a c d : uadd false a c = Some d -> uadd true a c = Some d.
Proof. unfold uadd. destruct (a + c <? 2 ^ 64)%N; [auto|discriminate]. Qed.
Lemma loop_release (T : Type) (i : T) st m1 m2 stm un rs cc : (forall s (o : T) r, m1 s o = Some r -> m2 s o = Some r) ->
  forall p act o q, loop (mkOpt T i st m1 stm un rs cc) p act o = Some q -> loop (mkOpt T i st m2 stm un rs cc) p act o = Some q.
Proof.
  intro H. induction p as [|s p IH]; intros act o q Hl; [exact Hl|]. cbn [loop] in *.
  destruct (one (mkOpt T i st m1 stm un rs cc) s act o) as [[[a' o'] out]|] eqn:E1; [|discriminate].
  assert (E2 : one (mkOpt T i st m2 stm un rs cc) s act o = Some (a', o', out)).
  { unfold one in *. destruct act; [|exact E1]. cbn [o_merge] in *. destruct (m1 s o) as [[a o1]|] eqn:Em; [|discriminate]. rewrite (H _ _ _ Em). exact E1. }
  rewrite E2. destruct (loop (mkOpt T i st m1 stm un rs cc) p a' o') as [q'|] eqn:El; [|discriminate]. now rewrite (IH _ _ _ El).
Qed.
Lemma on_step_release x start cap st r : on_step false x start cap st = Some r -> on_step true x start cap st = Some r.
Proof.
  unfold on_step. destruct (usub false x start) eqn:E1; [|discriminate]. rewrite (usub_release _ _ _ E1). destruct (umul false cap st) eqn:E2; [|discriminate]. now rewrite (umul_release _ _ _ E2).
Qed.
Lemma uh_release p q : merge_groups (update_hash_merger false) p = Some q -> merge_groups (update_hash_merger true) p = Some q.
Proof.
  apply loop_release. intros s o r. unfold uh_merge. destruct s as [| e a| |]; auto. destruct e as [|m t| | | | | | | | | | | | | |]; auto.
  destruct (usub false m (uh_me o)) as [d|] eqn:E1; [|discriminate]. rewrite (usub_release _ _ _ E1). destruct (negb _); [auto|].
  destruct (usub false a (uh_ae o)) as [d'|] eqn:E2; [|discriminate]. now rewrite (usub_release _ _ _ E2).
Qed.
Lemma fp_release p q : merge_groups (fr_pow_optimizer false) p = Some q -> merge_groups (fr_pow_optimizer true) p = Some q.
Proof.
  apply loop_release. intros s o r. unfold fp_merge. destruct (fp_assignee o); [auto|]. destruct (fp_extract s) as [[[l x] y]|]; [|auto].
  destruct (is_temp x && is_temp y).
  - destruct (umul false (fp_exp o) 2) eqn:E1; [|discriminate]. now rewrite (umul_release _ _ _ E1).
  - destruct (fp_target o) as [t|]; [|discriminate]. destruct (_ || _); [|auto]. destruct (uadd false (fp_exp o) 1) eqn:E1; [|discriminate]. now rewrite (uadd_release _ _ _ E1).
Qed.
Lemma ms_release p q : merge_groups (mul_seq_optimizer false) p = Some q -> merge_groups (mul_seq_optimizer true) p = Some q.
Proof.
  apply loop_release. intros s o r. unfold ms_merge. destruct (ms_extract s) as [[[l x] y]|]; [|auto]. destruct (ms_first o) as [[l0 x0] y0].
  destruct (ms_step o) as [[[dl dx] dy]|].
  - destruct (on_step false l l0 (ms_cap o) dl) as [k1|] eqn:E1; [|discriminate]. rewrite (on_step_release _ _ _ _ _ E1). destruct (negb k1); [auto|].
    destruct (on_step false x x0 (ms_cap o) dx) as [k2|] eqn:E2; [|discriminate]. rewrite (on_step_release _ _ _ _ _ E2). destruct (negb k2); [auto|].
    destruct (on_step false y y0 (ms_cap o) dy) as [k3|] eqn:E3; [|discriminate]. rewrite (on_step_release _ _ _ _ _ E3). destruct (negb k3); [auto|].
    destruct (uadd false (ms_cap o) 1) eqn:E4; [|discriminate]. now rewrite (uadd_release _ _ _ E4).
  - destruct (usub false l l0) eqn:E1; [|discriminate]. rewrite (usub_release _ _ _ E1). destruct (usub false x x0) eqn:E2; [|discriminate]. rewrite (usub_release _ _ _ E2).
    destruct (usub false y y0) eqn:E3; [|discriminate]. rewrite (usub_release _ _ _ E3). destruct (uadd false (ms_cap o) 1) eqn:E4; [|discriminate]. now rewrite (uadd_release _ _ _ E4).
Qed.
Theorem aggregate_release p q : aggregate false p = Some q -> aggregate true p = Some q.
Proof.
  unfold aggregate. destruct (merge_groups (update_hash_merger false) p) as [p1|] eqn:E1; [|discriminate]. rewrite (uh_release _ _ E1).
  destruct (merge_groups mul_add_pm_optimizer p1) as [p2|]; [|discriminate].
  destruct (merge_groups mul_add_mt_optimizer p2) as [p3|]; [|discriminate].
  destruct (merge_groups (fr_pow_optimizer false) p3) as [p4|] eqn:E4; [|discriminate]. rewrite (fp_release _ _ E4). apply ms_release.
Qed.
