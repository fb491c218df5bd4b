(** Soundness and completeness of the base gate operations. *)
From Coq Require Import ZArith Arith Lia List Bool Ring Field.
From Verif Require Import Util Algebra PField Gate.
Import ListNotations.
Local Open Scope fld_scope.

(** ** What a builder guarantees *)

(** Two assignments agree on the first [n] rows. *)
Definition agree {N : PF} (n : nat) (w v : asg N) : Prop := forall r i, (r < n)%nat -> w (r, i) = v (r, i).
(** The values the prover wrote satisfy everything emitted so far, whatever is
    written later below the current offset. *)
Definition good {N : PF} (c : ctx N) : Prop := forall w, agree (offset c) w (adv c) -> sat w c.
(** The same, when the last emitted row still waits for [t] in the last column of
    the next row. *)
Definition goodp {N : PF} (t : N) (c : ctx N) : Prop :=
  forall w, agree (offset c) w (adv c) -> w (offset c, (VAR_COLUMNS - 1)%nat) = t -> sat w c.
(** An assigned value: its cell is above the offset and holds the value. *)
Definition valid {N : PF} (c : ctx N) (a : aval N) : Prop :=
  (fst (av_cell a) < offset c)%nat /\ adv c (av_cell a) = av_val a.
(** Later contexts keep the rows already written. *)
Definition ctx_le {N : PF} (c c' : ctx N) : Prop :=
  (offset c <= offset c')%nat /\ agree (offset c) (adv c') (adv c).

(** [snd_ w m P]: if [w] satisfies everything emitted after a run of [m], it
    satisfies everything emitted before it, and the result satisfies [P]. *)
Definition snd_ {N : PF} (w : asg N) {A} (m : B N A) (P : A -> Prop) : Prop :=
  forall c r c', m c = Some (r, c') -> sat w c' -> sat w c /\ P r.
(** [cpl c m P]: from the good context [c], [m] does not panic, ends in a good
    context, and the result satisfies [P]. *)
Definition cpl {N : PF} (c : ctx N) {A} (m : B N A) (P : A -> ctx N -> Prop) : Prop :=
  good c -> exists r c', m c = Some (r, c') /\ ctx_le c c' /\ good c' /\ P r c'.

Section Logic.
  Variable N : PF.
  Add Field NF : (f_th N).
  Implicit Types (w : asg N) (c : ctx N).

  Lemma snd_ret w {A} (a : A) (P : A -> Prop) : P a -> snd_ w (ret a) P.
  Proof. intros H c r c' [= <- <-] Hs. now split. Qed.
  Lemma snd_panic w {A} (P : A -> Prop) : snd_ w panic P.
  Proof. intros c r c' [=]. Qed.
  Lemma snd_bind w {A A'} (m : B N A) (k : A -> B N A') (P : A -> Prop) (Q : A' -> Prop) :
    snd_ w m P -> (forall a, snd_ w (k a) (fun r => P a -> Q r)) -> snd_ w (bind m k) Q.
  Proof.
    intros Hm Hk c r c' H Hs. unfold bind in H. destruct (m c) as [[a c1]|] eqn:E; [|discriminate].
    destruct (Hk a _ _ _ H Hs) as [Hs1 HQ]. destruct (Hm _ _ _ E Hs1) as [Hs0 HP]. auto.
  Qed.
  Lemma snd_conseq w {A} (m : B N A) (P Q : A -> Prop) :
    snd_ w m P -> (forall a, P a -> Q a) -> snd_ w m Q.
  Proof. intros Hm HPQ c r c' H Hs. destruct (Hm _ _ _ H Hs). auto. Qed.
  Lemma snd_guard w b (P : unit -> Prop) : (b = true -> P tt) -> snd_ w (guard b) P.
  Proof. destruct b; intro H; [apply snd_ret; auto|apply snd_panic]. Qed.
  Lemma snd_at w {A} (l : list A) i (P : A -> Prop) : (forall a, nth_error l i = Some a -> P a) -> snd_ w (at_ l i) P.
  Proof. intro H. unfold at_. destruct (nth_error l i); [apply snd_ret; auto|apply snd_panic]. Qed.

  Lemma ctx_le_refl c : ctx_le c c.
  Proof. split; [lia|intros r i _; reflexivity]. Qed.
  Lemma ctx_le_trans c1 c2 c3 : ctx_le c1 c2 -> ctx_le c2 c3 -> ctx_le c1 c3.
  Proof.
    intros [H1 G1] [H2 G2]. split; [lia|]. intros r i H. rewrite (G2 r i) by lia. now apply G1.
  Qed.
  Lemma valid_le c c' a : ctx_le c c' -> valid c a -> valid c' a.
  Proof.
    intros [H1 H2] [Hr Hv]. split; [lia|].
    destruct a as [[r i] v]; cbn in *. now rewrite (H2 r i) by lia.
  Qed.

  Lemma cpl_ret c {A} (a : A) (P : A -> ctx N -> Prop) : P a c -> cpl c (ret a) P.
  Proof. intros H G. exists a, c. repeat split; auto. Qed.
  Lemma cpl_bind c {A A'} (m : B N A) (k : A -> B N A') (P : A -> ctx N -> Prop) (Q : A' -> ctx N -> Prop) :
    cpl c m P ->
    (forall a c', m c = Some (a, c') -> ctx_le c c' -> good c' -> P a c' -> cpl c' (k a) Q) ->
    cpl c (bind m k) Q.
  Proof.
    intros Hm Hk G. destruct (Hm G) as (a & c1 & E & L & G1 & HP).
    destruct (Hk a c1 E L G1 HP G1) as (r & c' & E' & L' & G' & HQ).
    exists r, c'. unfold bind. rewrite E. repeat split; auto; eapply ctx_le_trans; eauto.
  Qed.
  Lemma cpl_conseq c {A} (m : B N A) (P Q : A -> ctx N -> Prop) :
    cpl c m P -> (forall a c', m c = Some (a, c') -> ctx_le c c' -> good c' -> P a c' -> Q a c') -> cpl c m Q.
  Proof. intros Hm H G. destruct (Hm G) as (r & c' & E & L & G' & HP). exists r, c'. repeat split; auto; apply L. Qed.
  Lemma cpl_guard c b (P : unit -> ctx N -> Prop) : b = true -> P tt c -> cpl c (guard b) P.
  Proof. intros -> H. now apply cpl_ret. Qed.
  Lemma cpl_at c {A} (l : list A) i a (P : A -> ctx N -> Prop) : nth_error l i = Some a -> P a c -> cpl c (at_ l i) P.
  Proof. intros E H. unfold at_. rewrite E. now apply cpl_ret. Qed.

  Lemma good_sat c : good c -> sat (adv c) c.
  Proof. intro G. apply G. intros r i _. reflexivity. Qed.
  (** What soundness says about the prover's own values. *)
  Lemma good_snd c {A} (m : B N A) r c' (P : A -> Prop) :
    m c = Some (r, c') -> good c' -> snd_ (adv c') m P -> P r.
  Proof. intros E G H. exact (proj2 (H _ _ _ E (good_sat _ G))). Qed.
  Lemma good_goodp c t : good c -> goodp t c.
  Proof. intros G w H _. now apply G. Qed.
  Lemma valid_val c a : valid c a -> adv c (av_cell a) = av_val a.
  Proof. now intros [_ H]. Qed.
  Lemma ctx_le_adv c c' a : ctx_le c c' -> valid c a -> adv c' (av_cell a) = av_val a.
  Proof. intros L V. apply (valid_le _ _ _ L V). Qed.

  (** An equation [x = y] from a multiple of a known zero. *)
  Lemma eq_by (k : N) (x y e : N) : e = 0 -> x - y = k * e -> x = y.
  Proof. intros He H. apply fsub_eq0. rewrite H, He. ring. Qed.
End Logic.

(** ** One row *)
Section Row.
  Variable N : PF.
  Add Field NF2 : (f_th N).
  Implicit Types (w : asg N) (c : ctx N).
  Local Notation pairs := (list (vschema N * N)).

  Lemma dot_app w r l1 : forall i l2, dot w r i (l1 ++ l2) = dot w r i l1 + dot w r (i + length l1) l2.
  Proof.
    induction l1 as [|a l1 IH]; intros i l2; cbn [app dot length].
    - rewrite Nat.add_0_r. ring.
    - rewrite IH. replace (S i + length l1)%nat with (i + S (length l1))%nat by lia. ring.
  Qed.
  Lemma dot_zeros w r n : forall i, dot w r i (repeat 0 n) = 0.
  Proof. induction n as [|n IH]; intro i; cbn; [reflexivity|rewrite IH; ring]. Qed.
  Lemma map_snd_empty n : map snd (repeat (@pair_empty N) n) = repeat 0 n.
  Proof. induction n; cbn; congruence. Qed.

  Lemma resize_small {A} n (d : A) l : (length l <= n)%nat -> resize n d l = l ++ repeat d (n - length l).
  Proof. intro H. unfold resize. now rewrite firstn_all2. Qed.
  Lemma resize_length {A} n (d : A) l : length (resize n d l) = n.
  Proof. unfold resize. rewrite app_length, firstn_length, repeat_length. lia. Qed.

  (** A row run, unfolded. *)
  Lemma one_line_run ps k ms nx c cells c' :
    one_line ps k ms nx c = Some (cells, c') ->
    (length ps <= VAR_COLUMNS)%nat /\ (length ms <= MUL_COLUMNS)%nat /\
    cells = cells_of (offset c) 0 (resize VAR_COLUMNS pair_empty ps) /\
    offset c' = S (offset c) /\
    emitted c' = CRow (offset c) (mkRow (map snd (resize VAR_COLUMNS pair_empty ps)) (resize MUL_COLUMNS 0 ms) k nx)
                 :: copies_of (offset c) 0 (resize VAR_COLUMNS pair_empty ps) ++ emitted c.
  Proof.
    unfold one_line, bind, guard.
    destruct (Nat.leb_spec (length ps) VAR_COLUMNS) as [H1|]; [|discriminate].
    destruct (Nat.leb_spec (length ms) MUL_COLUMNS) as [H2|]; [|discriminate].
    cbn [ret]. intro H. injection H as H3 H4. subst c' cells. repeat split; auto.
  Qed.

  Fixpoint copied w r i (ps : pairs) : Prop :=
    match ps with
    | [] => True
    | (VA a, _) :: l => w (r, i) = w (av_cell a) /\ copied w r (S i) l
    | (VU _, _) :: l => copied w r (S i) l
    end.
  Lemma copies_copied w r ps : forall i, Forall (holds w) (copies_of r i ps) -> copied w r i ps.
  Proof.
    induction ps as [|[[a|v] k] ps IH]; intros i H; cbn in *; auto.
    apply Forall_cons_iff in H. destruct H as [H1 H2]. split; [now symmetry|auto].
  Qed.
  Lemma copied_app w r l1 : forall i l2, copied w r i (l1 ++ l2) -> copied w r i l1 /\ copied w r (i + length l1) l2.
  Proof.
    induction l1 as [|[[a|v] k] l1 IH]; intros i l2 H; cbn [app copied length] in *.
    - rewrite Nat.add_0_r. auto.
    - destruct H as [H H']. apply IH in H'. replace (i + S (length l1))%nat with (S i + length l1)%nat by lia. tauto.
    - apply IH in H. replace (i + S (length l1))%nat with (S i + length l1)%nat by lia. tauto.
  Qed.

  (** Soundness of one row. *)
  Lemma one_line_row w ps k ms nx c cells c' :
    one_line ps k ms nx c = Some (cells, c') -> sat w c' ->
    sat w c /\ offset c' = S (offset c) /\
    cells = cells_of (offset c) 0 (resize VAR_COLUMNS pair_empty ps) /\
    copied w (offset c) 0 (resize VAR_COLUMNS pair_empty ps) /\
    k + w (S (offset c), 4%nat) * nx + dot w (offset c) 0 (map snd (resize VAR_COLUMNS pair_empty ps)) +
      muls w (offset c) 0 (resize MUL_COLUMNS 0 ms) = 0.
  Proof.
    intros H Hs. apply one_line_run in H. destruct H as (_ & _ & Hc & Ho & He).
    unfold sat in Hs. rewrite He in Hs. apply Forall_cons_iff in Hs. destruct Hs as [H1 H2].
    apply Forall_app in H2. destruct H2 as [H2 H3]. repeat split; auto. now apply copies_copied.
  Qed.

  (** The same for rows whose next coefficient is zero, as a contract. *)
  Lemma one_line_snd w ps k ms (P : list (aval N) -> Prop) :
    (forall r, let ps := resize VAR_COLUMNS pair_empty ps in
               copied w r 0 ps ->
               k + dot w r 0 (map snd ps) + muls w r 0 (resize MUL_COLUMNS 0 ms) = 0 ->
               P (cells_of r 0 ps)) ->
    snd_ w (one_line ps k ms 0) P.
  Proof.
    intros H c r c' E Hs. destruct (one_line_row _ _ _ _ _ _ _ _ E Hs) as (H1 & _ & -> & H2 & H3).
    split; [assumption|]. apply H; [assumption|]. refine (eq_trans _ H3). ring.
  Qed.

  (** Completeness of one row. *)
  Fixpoint vdot (vs : list N) (coeffs : list N) : N :=
    match vs, coeffs with v :: vs, c :: cs => v * c + vdot vs cs | _, _ => 0 end.
  Definition vmuls (vs : list N) (ms : list N) : N :=
    match vs, ms with
    | a :: b :: c :: d :: _, [m1; m2] => a * b * m1 + c * d * m2
    | _, _ => 0
    end.

  Lemma dot_vdot w r vs : forall i cs,
    (length cs <= length vs)%nat ->
    (forall j, (j < length vs)%nat -> w (r, (i + j)%nat) = nth j vs 0) ->
    dot w r i cs = vdot vs cs.
  Proof.
    induction vs as [|v vs IH]; intros i [|k cs] Hl H; cbn in *; try reflexivity; try lia.
    rewrite (IH (S i) cs) by (try lia; intros j Hj; specialize (H (S j)); rewrite <- (H ltac:(lia)); do 2 f_equal; lia).
    specialize (H 0%nat). rewrite Nat.add_0_r in H. now rewrite (H ltac:(lia)).
  Qed.
  Lemma dot_nil_vs w r : forall cs i, (forall j, (j < length cs)%nat -> w (r, (i + j)%nat) = 0) -> dot w r i cs = 0.
  Proof.
    induction cs as [|k cs IH]; intros i H; cbn; [reflexivity|].
    rewrite (IH (S i)) by (intros j Hj; rewrite <- (H (S j)) by (cbn; lia); do 2 f_equal; lia).
    rewrite <- (Nat.add_0_r i) at 1. rewrite (H 0%nat) by (cbn; lia). ring.
  Qed.

  Lemma cells_of_nth r (ps : pairs) : forall i j a, nth_error (cells_of r i ps) j = Some a ->
    exists s k, nth_error ps j = Some (s, k) /\ a = AV (r, (i + j)%nat) (vs_val s).
  Proof.
    induction ps as [|[s k] ps IH]; intros i [|j] a H; cbn in *; try discriminate.
    - injection H as <-. exists s, k. now rewrite Nat.add_0_r.
    - apply IH in H. destruct H as (s' & k' & H & ->). exists s', k'. split; auto. do 2 f_equal. lia.
  Qed.

  Lemma firstn_In' {A} n : forall (l : list A) x, In x (firstn n l) -> In x l.
  Proof. intros l x H. rewrite <- (firstn_skipn n l). apply in_or_app. now left. Qed.

  Definition in_valid c (ps : pairs) : Prop := Forall (fun p => match fst p with VA a => valid c a | VU _ => True end) ps.

  Lemma copies_hold w c r ps : forall i,
    in_valid c ps -> agree (offset c) w (adv c) ->
    (forall j, (j < length ps)%nat -> w (r, (i + j)%nat) = nth j (map (fun p => vs_val (fst p)) ps) 0) ->
    Forall (holds w) (copies_of r i ps).
  Proof.
    induction ps as [|[[a|v] k] ps IH]; intros i Hv Ha Hw; cbn [copies_of]; [constructor| |];
      apply Forall_cons_iff in Hv; destruct Hv as [Hv1 Hv2].
    - apply Forall_cons.
      + cbn [holds fst] in *. specialize (Hw 0%nat ltac:(cbn; lia)). rewrite Nat.add_0_r in Hw. cbn in Hw.
        rewrite Hw. destruct Hv1 as [Hr Hval]. destruct a as [[ra ia] va]. cbn in *. now rewrite (Ha ra ia).
      + apply IH; auto. intros j Hj. specialize (Hw (S j) ltac:(cbn; lia)). cbn in Hw. rewrite <- Hw. do 2 f_equal. lia.
    - apply IH; auto. intros j Hj. specialize (Hw (S j) ltac:(cbn; lia)). cbn in Hw. rewrite <- Hw. do 2 f_equal. lia.
  Qed.

  Lemma one_line_cpl_gen c ps k ms nx t :
    (length ps <= VAR_COLUMNS)%nat -> (length ms <= MUL_COLUMNS)%nat ->
    in_valid c ps ->
    let ps' := resize VAR_COLUMNS pair_empty ps in
    let vs := map (fun p => vs_val (fst p)) ps' in
    goodp (nth 4 vs 0) c ->
    k + t * nx + vdot vs (map snd ps') + vmuls vs (resize MUL_COLUMNS 0 ms) = 0 ->
    exists c', one_line ps k ms nx c = Some (cells_of (offset c) 0 ps', c') /\ ctx_le c c' /\ goodp t c' /\
               offset c' = S (offset c) /\
               Forall (valid c') (cells_of (offset c) 0 ps').
  Proof.
    intros H1 H2 Hv ps' vs Hg Heq.
    set (r := offset c).
    set (nw := fun cl : cell => if Nat.eqb (fst cl) r then nth (snd cl) vs 0 else adv c cl).
    exists (mkCtx (S r) (CRow r (mkRow (map snd ps') (resize MUL_COLUMNS 0 ms) k nx) :: copies_of r 0 ps' ++ emitted c) nw).
    assert (Hnew : forall i, nw (r, i) = nth i vs 0) by (intro i; unfold nw; cbn; now rewrite Nat.eqb_refl).
    assert (Hlen : length ps' = 5%nat) by apply resize_length.
    assert (Hlenv : length vs = 5%nat) by (unfold vs; now rewrite map_length).
    assert (Hlm : length (resize MUL_COLUMNS 0 ms : list N) = 2%nat) by apply resize_length.
    assert (Hle : forall w, agree (S r) w nw -> agree r w (adv c)).
    { intros w Hw r0 i Hr. rewrite Hw by lia. unfold nw. cbn. destruct (Nat.eqb_spec r0 r); [lia|reflexivity]. }
    repeat split; cbn [offset adv emitted].
    - unfold one_line, bind, guard.
      rewrite (proj2 (Nat.leb_le _ _) H1), (proj2 (Nat.leb_le _ _) H2). reflexivity.
    - lia.
    - intros r0 i Hr. unfold nw. cbn. destruct (Nat.eqb_spec r0 r); [lia|reflexivity].
    - intros w Hw Ht. unfold sat. cbn [offset adv emitted] in *.
      assert (Hrow : forall i, w (r, i) = nth i vs 0) by (intro i; rewrite Hw by lia; apply Hnew).
      apply Forall_cons; [|apply Forall_app; split].
      + cbn [holds]. unfold gate_poly. cbn [g_const g_next g_coeff g_mul].
        cbn [offset] in Ht. fold r in Ht. rewrite Ht. refine (eq_trans _ Heq). f_equal; [f_equal|].
        *  apply dot_vdot; [rewrite map_length; lia|]. intros j _. apply Hrow.
        * destruct (resize MUL_COLUMNS 0 ms) as [|m1 [|m2 [|]]]; try discriminate Hlm.
          destruct vs as [|v0 [|v1 [|v2 [|v3 vs']]]]; try discriminate Hlenv.
          cbn. rewrite !Hrow. cbn. ring.
      + apply copies_hold with (c := c); auto.
        apply Forall_app. split; [apply Forall_forall; intros x Hx; apply (proj1 (Forall_forall _ _) Hv); now apply firstn_In' in Hx|].
        apply Forall_forall. intros x Hx. apply repeat_spec in Hx. subst x. exact I.
      + apply Hg; auto.
    - apply Forall_forall. intros a Ha. apply In_nth_error in Ha. destruct Ha as [j Hj].
      apply cells_of_nth in Hj. destruct Hj as (s & kk & Hj & ->). split; cbn [av_cell av_val fst offset adv]; [lia|].
      rewrite Hnew. apply (map_nth_error (fun p => vs_val (fst p))) in Hj. cbn [fst] in Hj.
      now apply nth_error_nth with (d := 0) in Hj.
  Qed.
End Row.

(** ** Sums of any length *)

(** The weighted sum of the cells of a list, in an assignment. *)
Fixpoint lsum {N : PF} (w : asg N) (l : list (aval N * N)) : N :=
  match l with [] => 0 | (a, k) :: l => w (av_cell a) * k + lsum w l end.

Section Sum.
  Variable N : PF.
  Add Field NF3 : (f_th N).
  Implicit Types (w : asg N) (c : ctx N).
  Local Notation pairs := (list (vschema N * N)).

  Lemma lsum_app w l1 l2 : lsum w (l1 ++ l2) = lsum w l1 + lsum w l2.
  Proof. induction l1 as [|[a k] l1 IH]; cbn; [ring|rewrite IH; ring]. Qed.

  Lemma dot_pairs_of w r l : forall i, copied N w r i (pairs_of l) -> dot w r i (map snd (pairs_of l)) = lsum w l.
  Proof.
    induction l as [|[a k] l IH]; intros i H; cbn in *; [reflexivity|].
    destruct H as [H1 H2]. now rewrite IH, H1.
  Qed.
  Lemma pairs_of_length (l : list (aval N * N)) : length (pairs_of l) = length l.
  Proof. apply map_length. Qed.

  Lemma muls_zeros w r : muls w r 0 (resize MUL_COLUMNS 0 []) = 0.
  Proof. cbn. ring. Qed.

  (** A row without last-column base, holding a list of cells *)
  Lemma sum_row_none w (l : list (aval N * N)) k nx c cells c' :
    one_line (pairs_of l) k [] nx c = Some (cells, c') -> sat w c' ->
    sat w c /\ offset c' = S (offset c) /\ k + w (offset c', 4%nat) * nx + lsum w l = 0.
  Proof.
    intros H Hs. pose proof (one_line_run _ _ _ _ _ _ _ _ H) as (Hl & _).
    apply one_line_row with (1 := H) in Hs. destruct Hs as (Hs & Ho & _ & Hc & He).
    rewrite (resize_small _ pair_empty _ Hl) in Hc, He.
    rewrite map_app, map_snd_empty, dot_app, dot_zeros in He. apply copied_app in Hc.
    rewrite (dot_pairs_of _ _ _ _ (proj1 Hc)), muls_zeros in He. rewrite Ho.
    repeat split; auto. refine (eq_trans _ He). ring.
  Qed.

  Lemma with_last_run ps last k ms nx c cells c' :
    one_line_with_last_base ps last k ms nx c = Some (cells, c') ->
    (length ps <= 4)%nat /\
    one_line (ps ++ repeat (@pair_empty N) (4 - length ps) ++ [last]) k ms nx c = Some (cells, c').
  Proof.
    unfold one_line_with_last_base, bind at 1, guard at 1.
    destruct (Nat.ltb_spec (length ps) VAR_COLUMNS) as [H|]; [|discriminate]. cbn [ret]. intro E.
    unfold VAR_COLUMNS in H. split; [lia|]. rewrite resize_small in E by (unfold VAR_COLUMNS; lia).
    now rewrite <- app_assoc in E.
  Qed.

  Lemma full_resize (ps : pairs) n (d : vschema N * N) : length ps = n -> resize n d ps = ps.
  Proof. intros <-. rewrite resize_small by lia. rewrite Nat.sub_diag. apply app_nil_r. Qed.

  (** A row with the accumulator in the last column *)
  Lemma last_row w ps last k ms nx c cells c' :
    one_line_with_last_base ps last k ms nx c = Some (cells, c') -> sat w c' ->
    (length ps <= 4)%nat /\ sat w c /\ offset c' = S (offset c) /\
    cells = cells_of (offset c) 0 (ps ++ repeat (@pair_empty N) (4 - length ps) ++ [last]) /\
    copied N w (offset c) 0 ps /\ copied N w (offset c) 4 [last] /\
    k + w (offset c', 4%nat) * nx + (dot w (offset c) 0 (map snd ps) + w (offset c, 4%nat) * snd last) +
      muls w (offset c) 0 (resize MUL_COLUMNS 0 ms) = 0.
  Proof.
    intros H Hs. apply with_last_run in H. destruct H as [Hl H].
    apply one_line_row with (1 := H) in Hs. destruct Hs as (Hs & Ho & Hcells & Hc & He).
    rewrite full_resize in Hc, He, Hcells by (rewrite !app_length, repeat_length; cbn [length]; unfold VAR_COLUMNS in *; lia).
    apply copied_app in Hc. destruct Hc as [Hc1 Hc2]. apply copied_app in Hc2. destruct Hc2 as [_ Hc2].
    rewrite repeat_length in Hc2. replace (0 + length ps + (4 - length ps))%nat with 4%nat in Hc2 by lia.
    rewrite !map_app, map_snd_empty, !dot_app, dot_zeros in He.
    rewrite repeat_length, map_length in He.
    replace (0 + length ps + (4 - length ps))%nat with 4%nat in He by lia. cbn [map dot] in He.
    rewrite Ho. repeat split; auto. refine (eq_trans _ He). ring.
  Qed.

  (** value of the accumulator cell, as seen by an assignment *)
  Definition accw w (acc : option N) (c : ctx N) : N :=
    match acc with Some _ => w (offset c, 4%nat) | None => 0 end.

  Lemma sum_loop_sound w fuel : forall elems acc c rest acc' c',
    sum_loop fuel elems acc c = Some ((rest, acc'), c') -> sat w c' ->
    sat w c /\ accw w acc' c' + lsum w rest = accw w acc c + lsum w elems /\
    (length rest + acc_len acc' + 1 <= VAR_COLUMNS)%nat.
  Proof.
    induction fuel as [|fuel IH]; intros elems acc c rest acc' c' H Hs; cbn [sum_loop] in H; [discriminate|].
    destruct (Nat.ltb_spec VAR_COLUMNS (length elems + acc_len acc + 1)) as [Hlt|Hge].
    2:{ injection H as <- <- <-. repeat split; auto. }
    unfold bind at 1, guard at 1 in H.
    destruct (Nat.leb_spec (VAR_COLUMNS - acc_len acc) (length elems)) as [Hle|]; [|discriminate].
    cbn [ret] in H. unfold bind at 1 in H.
    destruct acc as [t|].
    - destruct (one_line_with_last_base _ _ _ _ _ c) as [[cells c1]|] eqn:E; [|discriminate].
      destruct (IH _ _ _ _ _ _ H Hs) as (Hs1 & Hsum & Hlen).
      destruct (last_row _ _ _ _ _ _ _ _ _ E Hs1) as (_ & Hs0 & Ho & _ & Hc & _ & He).
      rewrite (dot_pairs_of _ _ _ _ Hc), muls_zeros in He.
      repeat split; auto. rewrite Hsum. cbn [accw].
      rewrite <- (firstn_skipn (VAR_COLUMNS - acc_len (Some t)) elems) at 2. rewrite lsum_app.
      apply (eq_by N (- (1)) _ _ _ He). cbn [snd]. ring.
    - destruct (one_line _ _ _ _ c) as [[cells c1]|] eqn:E; [|discriminate].
      destruct (IH _ _ _ _ _ _ H Hs) as (Hs1 & Hsum & Hlen).
      destruct (sum_row_none _ _ _ _ _ _ _ E Hs1) as (Hs0 & Ho & He).
      repeat split; auto. rewrite Hsum. cbn [accw].
      rewrite <- (firstn_skipn (VAR_COLUMNS - acc_len (@None N)) elems) at 2. rewrite lsum_app.
      apply (eq_by N (- (1)) _ _ _ He). ring.
  Qed.

  Lemma sum_with_constant_snd w elems k :
    snd_ w (sum_with_constant elems k) (fun a => w (av_cell a) = k + lsum w elems).
  Proof.
    intros c a c' H Hs. unfold sum_with_constant, bind in H.
    destruct (sum_loop _ elems None c) as [[[rest acc] c1]|] eqn:E1; [|discriminate].
    destruct acc as [t|].
    - destruct (one_line_with_last_base _ _ _ _ _ c1) as [[cells c2]|] eqn:E2; [|discriminate].
      unfold at_ in H. destruct (nth_error cells 0) as [x|] eqn:Ex; [|discriminate].
      injection H as -> ->.
      destruct (last_row _ _ _ _ _ _ _ _ _ E2 Hs) as (_ & Hs1 & Ho & -> & Hc & _ & He).
      destruct (sum_loop_sound _ _ _ _ _ _ _ _ E1 Hs1) as (Hs0 & Hsum & _).
      split; [assumption|]. cbn in Ex. injection Ex as <-. cbn [av_cell].
      cbn [map snd dot] in He. cbn [copied] in Hc. rewrite (dot_pairs_of _ _ _ _ Hc), muls_zeros in He.
      cbn [accw] in Hsum. replace (lsum w elems) with (w (offset c1, 4%nat) + lsum w rest) by (rewrite Hsum; ring).
      apply (eq_by N (- (1)) _ _ _ He). cbn [snd]. ring.
    - destruct (one_line _ _ _ _ c1) as [[cells c2]|] eqn:E2; [|discriminate].
      unfold at_ in H. destruct (nth_error cells 0) as [x|] eqn:Ex; [|discriminate].
      injection H as -> ->.
      pose proof (one_line_run _ _ _ _ _ _ _ _ E2) as (Hl & _).
      apply one_line_row with (1 := E2) in Hs. destruct Hs as (Hs1 & _ & -> & Hc & He).
      destruct (sum_loop_sound _ _ _ _ _ _ _ _ E1 Hs1) as (Hs0 & Hsum & _).
      split; [assumption|].
      rewrite (resize_small _ pair_empty _ Hl) in Hc, He, Ex. cbn in Ex. injection Ex as <-. cbn [av_cell].
      rewrite map_app, map_snd_empty, dot_app, dot_zeros in He. apply copied_app in Hc.
      destruct Hc as [Hc _]. cbn [copied] in Hc. cbn [map snd dot] in He.
      rewrite (dot_pairs_of _ _ _ _ Hc), muls_zeros in He.
      cbn [accw] in Hsum. replace (lsum w elems) with (lsum w rest) by (refine (eq_trans _ (eq_trans Hsum _)); ring).
      apply (eq_by N (- (1)) _ _ _ He). ring.
  Qed.

  (** *** Completeness of sums *)
  Fixpoint vsum (l : list (aval N * N)) : N :=
    match l with [] => 0 | (a, k) :: l => av_val a * k + vsum l end.
  Lemma vsum_app l1 l2 : vsum (l1 ++ l2) = vsum l1 + vsum l2.
  Proof. induction l1 as [|[a k] l1 IH]; cbn; [ring|rewrite IH; ring]. Qed.
  Lemma lin_vsum l : forall init, lin l init = init + vsum l.
  Proof.
    unfold lin. induction l as [|[a k] l IH]; intro init; cbn; [ring|rewrite IH; ring].
  Qed.
  Lemma lsum_vsum c l : Forall (fun vc => valid c (fst vc)) l -> lsum (adv c) l = vsum l.
  Proof.
    induction l as [|[a k] l IH]; intro H; cbn; [reflexivity|].
    apply Forall_cons_iff in H. destruct H as [[_ H1] H2]. cbn in H1. now rewrite H1, IH.
  Qed.

  Lemma vdot_app : forall vs1 (cs1 : list N) vs2 cs2, length vs1 = length cs1 ->
    vdot N (vs1 ++ vs2) (cs1 ++ cs2) = vdot N vs1 cs1 + vdot N vs2 cs2.
  Proof.
    induction vs1 as [|v vs1 IH]; intros [|k cs1] vs2 cs2 H; cbn in *; try discriminate; [ring|].
    rewrite IH by lia. ring.
  Qed.
  Lemma vdot_zeros n : forall vs : list N, vdot N vs (repeat 0 n) = 0.
  Proof. induction n as [|n IH]; intros [|v vs]; cbn; try reflexivity. rewrite IH. ring. Qed.
  Lemma vdot_pairs_of l : vdot N (map (fun p => vs_val (fst p)) (pairs_of l)) (map snd (pairs_of l)) = vsum l.
  Proof. unfold pairs_of. induction l as [|[a k] l IH]; cbn; [reflexivity|now rewrite IH]. Qed.
  Lemma vmuls_zeros vs : vmuls N vs (resize MUL_COLUMNS 0 []) = 0.
  Proof. destruct vs as [|a [|b [|d [|e vs]]]]; cbn; try reflexivity. ring. Qed.

  Lemma in_valid_pairs_of c l : Forall (fun vc => valid c (fst vc)) l -> in_valid N c (pairs_of l).
  Proof. intro H. unfold in_valid, pairs_of. apply Forall_map. exact H. Qed.

  (** a row without multiplications and without accumulator *)
  Lemma sum_line_cpl c ps k nx t :
    (length ps <= VAR_COLUMNS)%nat -> in_valid N c ps -> good c ->
    k + t * nx + vdot N (map (fun p => vs_val (fst p)) ps) (map snd ps) = 0 ->
    exists cells c', one_line ps k [] nx c = Some (cells, c') /\ ctx_le c c' /\ goodp t c' /\
      offset c' = S (offset c) /\
      Forall (valid c') cells /\
      cells = cells_of (offset c) 0 (resize VAR_COLUMNS pair_empty ps).
  Proof.
    intros Hl Hv Hg He.
    destruct (one_line_cpl_gen N c ps k [] nx t) as (c' & H1 & H2 & H3 & H4 & H5); auto.
    - cbn; lia.
    - now apply good_goodp.
    - rewrite vmuls_zeros, (resize_small _ pair_empty _ Hl), !map_app, vdot_app by now rewrite !map_length.
      rewrite map_snd_empty, vdot_zeros. refine (eq_trans _ He). ring.
    - eexists _, c'. split; [exact H1|]. repeat split; auto; apply H2.
  Qed.

  (** a row with the accumulator in the last column *)
  Lemma last_line_cpl c ps last k ms nx t :
    (length ps <= 4)%nat -> (length ms <= MUL_COLUMNS)%nat -> in_valid N c ps -> in_valid N c [last] -> goodp (vs_val (fst last)) c ->
    let ps' := ps ++ repeat (@pair_empty N) (4 - length ps) ++ [last] in
    k + t * nx + (vdot N (map (fun p => vs_val (fst p)) ps) (map snd ps) + vs_val (fst last) * snd last) +
      vmuls N (map (fun p => vs_val (fst p)) ps') (resize MUL_COLUMNS 0 ms) = 0 ->
    exists c', one_line_with_last_base ps last k ms nx c = Some (cells_of (offset c) 0 ps', c') /\
      ctx_le c c' /\ goodp t c' /\ offset c' = S (offset c) /\ Forall (valid c') (cells_of (offset c) 0 ps').
  Proof.
    intros Hl Hm Hv Hvl Hg ps' He.
    assert (Hlen : length ps' = 5%nat) by (unfold ps'; rewrite !app_length, repeat_length; cbn [length]; lia).
    assert (Hfull : resize VAR_COLUMNS pair_empty ps' = ps') by now apply full_resize.
    destruct (one_line_cpl_gen N c ps' k ms nx t) as (c' & H1 & H2 & H3 & H4 & H5); auto.
    - unfold VAR_COLUMNS; lia.
    - apply Forall_app; split; [assumption|]. apply Forall_app; split; [|assumption].
      apply Forall_forall. intros x Hx. apply repeat_spec in Hx. subst x. exact I.
    - rewrite Hfull. unfold ps'. rewrite !map_app, !app_nth2; rewrite ?map_length, ?repeat_length; try lia.
      replace (4 - length ps - (4 - length ps))%nat with 0%nat by lia. exact Hg.
    - rewrite Hfull. refine (eq_trans _ He). f_equal. f_equal. unfold ps'.
      rewrite !map_app, vdot_app by now rewrite !map_length.
      rewrite vdot_app by now rewrite !map_length.
      rewrite map_snd_empty, vdot_zeros. cbn [map vdot]. ring.
    - rewrite Hfull in *. exists c'. split; [|auto].
      unfold one_line_with_last_base, bind at 1, guard at 1.
      rewrite (proj2 (Nat.ltb_lt _ _)) by (unfold VAR_COLUMNS; lia). cbn [ret].
      rewrite resize_small by (unfold VAR_COLUMNS; lia). rewrite <- app_assoc. exact H1.
  Qed.

  Definition goodacc (acc : option N) (c : ctx N) : Prop :=
    match acc with Some t => goodp t c | None => good c end.

  Lemma Forall_valid_le c c' (l : list (aval N * N)) :
    ctx_le c c' -> Forall (fun vc => valid c (fst vc)) l -> Forall (fun vc => valid c' (fst vc)) l.
  Proof. intros L H. eapply Forall_impl; [|exact H]. intros a Ha. now apply (valid_le N c c'). Qed.
  Lemma Forall_skipn' {A} (P : A -> Prop) n l : Forall P l -> Forall P (skipn n l).
  Proof. intro H. rewrite <- (firstn_skipn n l) in H. now apply Forall_app in H. Qed.
  Lemma Forall_firstn'' {A} (P : A -> Prop) n l : Forall P l -> Forall P (firstn n l).
  Proof. intro H. rewrite <- (firstn_skipn n l) in H. now apply Forall_app in H. Qed.

  Lemma sum_loop_cpl fuel : forall elems acc c,
    (length elems < fuel)%nat -> goodacc acc c -> Forall (fun vc => valid c (fst vc)) elems ->
    exists rest acc' c', sum_loop fuel elems acc c = Some ((rest, acc'), c') /\ ctx_le c c' /\ goodacc acc' c' /\
      Forall (fun vc => valid c' (fst vc)) rest /\
      acc_or0 acc' + vsum rest = acc_or0 acc + vsum elems /\
      (length rest + acc_len acc' + 1 <= VAR_COLUMNS)%nat.
  Proof.
    induction fuel as [|fuel IH]; intros elems acc c Hf Hg Hv; [lia|]. cbn [sum_loop].
    destruct (Nat.ltb_spec VAR_COLUMNS (length elems + acc_len acc + 1)) as [Hlt|Hge].
    2:{ exists elems, acc, c. repeat split; auto. }
    assert (Hll : (acc_len acc <= 1)%nat) by (destruct acc; cbn; lia).
    assert (Hle : (VAR_COLUMNS - acc_len acc <= length elems)%nat) by lia.
    unfold bind at 1, guard at 1. rewrite (proj2 (Nat.leb_le _ _) Hle). cbn [ret]. unfold bind at 1.
    set (n := (VAR_COLUMNS - acc_len acc)%nat) in *.
    assert (Hn : (1 <= n)%nat) by (unfold n, VAR_COLUMNS; lia).
    assert (Hfl : length (firstn n elems) = n) by (rewrite firstn_length; lia).
    destruct acc as [t|].
    - destruct (last_line_cpl c (pairs_of (firstn n elems)) (VU t, 1) 0 [] (- (1)) (t + lin (firstn n elems) 0))
        as (c1 & E & L & G & Ho & _).
      + rewrite pairs_of_length, Hfl. unfold n, VAR_COLUMNS. cbn. lia.
      + cbn; lia.
      + now apply in_valid_pairs_of, Forall_firstn''.
      + apply Forall_cons; [exact I|constructor].
      + exact Hg.
      + rewrite vdot_pairs_of, vmuls_zeros, lin_vsum. cbn [fst snd vs_val]. ring.
      + rewrite E. destruct (IH (skipn n elems) (Some (acc_or0 (Some t) + lin (firstn n elems) 0)) c1)
          as (rest & acc' & c2 & E2 & L2 & G2 & V2 & S2 & B2).
        * rewrite skipn_length. lia.
        * exact G.
        * eapply Forall_valid_le; [exact L|]. now apply Forall_skipn'.
        * exists rest, acc', c2. repeat split; auto; try (eapply ctx_le_trans; eauto).
          rewrite S2. cbn [acc_or0]. rewrite lin_vsum. rewrite <- (firstn_skipn n elems) at 3. rewrite vsum_app. ring.
    - destruct (sum_line_cpl c (pairs_of (firstn n elems)) 0 (- (1)) (lin (firstn n elems) 0))
        as (cells & c1 & E & L & G & Ho & _).
      + rewrite pairs_of_length, Hfl. unfold n, VAR_COLUMNS. cbn. lia.
      + now apply in_valid_pairs_of, Forall_firstn''.
      + exact Hg.
      + rewrite vdot_pairs_of, lin_vsum. ring.
      + rewrite E. destruct (IH (skipn n elems) (Some (acc_or0 None + lin (firstn n elems) 0)) c1)
          as (rest & acc' & c2 & E2 & L2 & G2 & V2 & S2 & B2).
        * rewrite skipn_length. lia.
        * cbn [goodacc acc_or0]. intros w Hw Ht. apply G; auto. rewrite Ht. ring.
        * eapply Forall_valid_le; [exact L|]. now apply Forall_skipn'.
        * exists rest, acc', c2. repeat split; auto; try (eapply ctx_le_trans; eauto).
          rewrite S2. cbn [acc_or0]. rewrite lin_vsum. rewrite <- (firstn_skipn n elems) at 3. rewrite vsum_app. ring.
  Qed.

  Lemma goodp_all c : (forall t, goodp t c) -> good c.
  Proof. intros H w Hw. now apply (H (w (offset c, (VAR_COLUMNS - 1)%nat))). Qed.

  Lemma sum_with_constant_cpl c elems k :
    Forall (fun vc => valid c (fst vc)) elems ->
    cpl c (sum_with_constant elems k) (fun a c' => valid c' a /\ av_val a = k + vsum elems).
  Proof.
    intros Hv Hg.
    destruct (sum_loop_cpl (S (length elems)) elems None c) as (rest & acc & c1 & E & L & G & V & S1 & B1); auto.
    cbn [acc_or0] in S1.
    unfold sum_with_constant, bind. rewrite E. destruct acc as [t|].
    - set (sum := lin rest k + acc_or0 (Some t)).
      assert (Hx : forall t', exists c', one_line_with_last_base ((VU sum, - (1)) :: pairs_of rest) (VU t, 1) k [] 0 c1 =
          Some (cells_of (offset c1) 0 (((VU sum, - (1)) :: pairs_of rest) ++ repeat (@pair_empty N) (4 - length ((VU sum, - (1)) :: pairs_of rest)) ++ [(VU t, 1)]), c')
          /\ ctx_le c1 c' /\ goodp t' c' /\ offset c' = S (offset c1) /\
          Forall (valid c') (cells_of (offset c1) 0 (((VU sum, - (1)) :: pairs_of rest) ++ repeat (@pair_empty N) (4 - length ((VU sum, - (1)) :: pairs_of rest)) ++ [(VU t, 1)]))).
      { intro t'. apply last_line_cpl.
        - cbn [length]. rewrite pairs_of_length. cbn [acc_len] in B1. unfold VAR_COLUMNS in B1. lia.
        - cbn; lia.
        - apply Forall_cons; [exact I|]. now apply in_valid_pairs_of.
        - apply Forall_cons; [exact I|constructor].
        - exact G.
        - rewrite vmuls_zeros. cbn [map vdot fst snd vs_val]. rewrite vdot_pairs_of. unfold sum. rewrite lin_vsum.
          cbn [acc_or0]. ring. }
      destruct (Hx 0) as (c2 & E2 & L2 & _ & Ho & V2). rewrite E2.
      cbn [app cells_of at_ nth_error ret]. eexists _, c2. split; [reflexivity|].
      split; [eapply ctx_le_trans; eauto|]. split; [|split].
      + apply goodp_all. intro t'. destruct (Hx t') as (c3 & E3 & _ & G3 & _). rewrite E2 in E3. injection E3 as ->. exact G3.
      + cbn [app cells_of] in V2. now apply Forall_cons_iff in V2.
      + cbn [av_val vs_val]. unfold sum. rewrite lin_vsum. cbn [acc_or0] in *.
        replace (vsum elems) with (t + vsum rest) by (rewrite S1; ring). ring.
    - set (sum := lin rest k + acc_or0 None).
      assert (Hx : forall t', exists cells c', one_line ((VU sum, - (1)) :: pairs_of rest) k [] 0 c1 = Some (cells, c')
          /\ ctx_le c1 c' /\ goodp t' c' /\ offset c' = S (offset c1) /\ Forall (valid c') cells /\
          cells = cells_of (offset c1) 0 (resize VAR_COLUMNS pair_empty ((VU sum, - (1)) :: pairs_of rest))).
      { intro t'. apply sum_line_cpl.
        - cbn [length]. rewrite pairs_of_length. cbn [acc_len] in B1. lia.
        - apply Forall_cons; [exact I|]. now apply in_valid_pairs_of.
        - exact G.
        - cbn [map vdot fst snd vs_val]. rewrite vdot_pairs_of. unfold sum. rewrite lin_vsum. cbn [acc_or0]. ring. }
      destruct (Hx 0) as (cells & c2 & E2 & L2 & _ & Ho & V2 & Hcells). rewrite E2.
      rewrite Hcells. cbn [VAR_COLUMNS resize firstn app cells_of at_ nth_error ret]. eexists _, c2. split; [reflexivity|].
      split; [eapply ctx_le_trans; eauto|]. split; [|split].
      + apply goodp_all. intro t'. destruct (Hx t') as (cells3 & c3 & E3 & _ & G3 & _). rewrite E2 in E3.
        injection E3 as _ ->. exact G3.
      + rewrite Hcells in V2. cbn [VAR_COLUMNS resize firstn app cells_of] in V2. now apply Forall_cons_iff in V2.
      + cbn [av_val vs_val]. unfold sum. rewrite lin_vsum. cbn [acc_or0] in *.
        replace (vsum elems) with (vsum rest) by (refine (eq_trans _ (eq_trans S1 _)); ring). ring.
  Qed.
End Sum.
