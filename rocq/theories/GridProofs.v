(** The table that halo2 checks: its constraints are those of Gate.v, row by row. *)
From Coq Require Import ZArith Arith Lia List Bool Field.
From Verif Require Import Util Algebra PField Gate GateProofs GateExtra Integer Shape Grid.
Import ListNotations.

Section Proofs.
  Variables N W : PF.
  Local Open Scope fld_scope.
  Add Field nring2 : (f_th N).

  (** ** The tables *)
  Lemma table_in rows bits t (x : N) : assign_table N rows bits = Some t -> (In x t <-> (toZ x < 2 ^ Z.of_nat bits)%Z).
  Proof.
    unfold assign_table. destruct (_ <? _)%Z; [discriminate|]. intros [= <-]. assert (P : (0 < 2 ^ Z.of_nat bits)%Z) by (apply Z.pow_pos_nonneg; lia). split.
    - intros H. apply in_app_or in H. destruct H as [H|H].
      + apply in_map_iff in H. destruct H as (i & <- & Hi). apply in_seq in Hi. rewrite toZ_ofZ. pose proof (toZ_range N (ofZ (Z.of_nat i))).
        assert (Z.of_nat i mod pf_n N <= Z.of_nat i)%Z by (apply Z.mod_le; lia). lia.
      + apply repeat_spec in H. subst x. rewrite ofZ_0, toZ_0. exact P.
    - intros H. apply in_or_app. left. apply in_map_iff. exists (Z.to_nat (toZ x)). pose proof (toZ_range N x). split; [rewrite Z2Nat.id by lia; apply ofZ_toZ|].
      apply in_seq. lia.
  Qed.
  Lemma table_zero rows bits t : assign_table N rows bits = Some t -> In 0 t.
  Proof. intros H. apply (table_in _ _ _ _ H). rewrite toZ_0. apply Z.pow_pos_nonneg; lia. Qed.
  Lemma tables_of rows t : init_table N W rows = Some t ->
    assign_table N rows COMMON_RANGE_BITS = Some (t_common N t) /\ assign_table N rows (w_table W) = Some (t_w_ceil N t) /\
    assign_table N rows (n_table N) = Some (t_n_floor N t) /\ assign_table N rows (d_table N W) = Some (t_d N t).
  Proof.
    unfold init_table. cbv zeta. destruct (_ && _); [|discriminate].
    destruct (assign_table N rows COMMON_RANGE_BITS) as [c|]; [|discriminate]. destruct (assign_table N rows (w_table W)) as [w|]; [|discriminate].
    destruct (assign_table N rows (n_table N)) as [n|]; [|discriminate]. destruct (assign_table N rows (d_table N W)) as [d|]; [|discriminate].
    intros [= <-]. repeat split.
  Qed.

  (** ** The gate *)
  Lemma gate_row (log : list (gline N)) w r l : nth_error log r = Some l -> List.length (g_coeff (gl_row l)) = VAR_COLUMNS -> List.length (g_mul (gl_row l)) = MUL_COLUMNS ->
    base_gate N log w r = gate_poly w r (gl_row l).
  Proof.
    intros E L1 L2. unfold base_gate, coeff_column, mul_column, constant_column, next_column, fixed, gate_poly. rewrite E. destruct (gl_row l) as [cs ms k nx]. cbn [g_coeff g_mul g_const g_next] in *.
    do 5 (destruct cs as [|? cs]; [discriminate|]). destruct cs; [|discriminate]. do 2 (destruct ms as [|? ms]; [discriminate|]). destruct ms; [|discriminate].
    cbn [fold_left seq nth dot muls VAR_COLUMNS MUL_COLUMNS]. cbn [Nat.sub Nat.mul Nat.add]. ring.
  Qed.
  Lemma gate_empty (log : list (gline N)) w r : nth_error log r = None -> base_gate N log w r = 0.
  Proof.
    intros E. unfold base_gate, coeff_column, mul_column, constant_column, next_column, fixed. rewrite E. cbn [fold_left seq VAR_COLUMNS MUL_COLUMNS]. ring.
  Qed.

  (** ** The whole *)
  Lemma accepts_sat rows t c log w : init_table N W rows = Some t -> (offset c <= rows)%nat -> log_of W c log -> (accepts rows t log w <-> sat w c).
  Proof.
    intros HT Hr (L & HE & HL). destruct (tables_of _ _ HT) as (T1 & T2 & T3 & T4). unfold sat. rewrite Forall_forall.
    assert (K : forall (s : gline N -> N) i tb r, In 0 tb -> (forall l, nth_error log r = Some l -> s l = 1 -> In (w (r, i)) tb) -> (forall l, nth_error log r = Some l -> s l = 0 \/ s l = 1) -> In (w (r, i) * fixed N s log r) tb).
    { intros s i tb r H0 H1 H2. unfold fixed. destruct (nth_error log r) as [l|]; [|replace (w (r, i) * 0) with (0 : N) by ring; exact H0].
      destruct (H2 l eq_refl) as [E|E]; rewrite E; [replace (w (r, i) * 0) with (0 : N) by ring; exact H0|]. replace (w (r, i) * 1) with (w (r, i)) by ring. exact (H1 l eq_refl E). }
    assert (one : (1 : N) <> 0) by apply f1_neq_0.
    split.
    - intros (HG & HK & HC) x Hx. apply HE in Hx. destruct Hx as (r & l & E & A). assert (R : (r < rows)%nat) by (assert (r < List.length log)%nat by (apply nth_error_Some; congruence); lia).
      assert (In_l : In l log) by exact (nth_error_In _ _ E).
      destruct A as [->|[(a & b & Hab & ->)|[(Hn & i & Hi & ->)|(tt & Ht & ->)]]]; cbn [holds].
      + rewrite <- (gate_row log w r l E (proj1 (HL l In_l)) (proj2 (HL l In_l))). apply HG. exact R.
      + exact (HC l a b In_l Hab).
      + apply (table_in _ _ _ _ T1). specialize (HK (fun r => w (r, i) * common_selector N log r, t_common N t) r). cbn [fst snd] in HK.
        replace (w (r, i)) with (w (r, i) * common_selector N log r); [apply HK; [|exact R]|].
        * unfold lookups. apply in_or_app. left. apply in_map_iff. exists i. split; [reflexivity|]. apply in_seq. lia.
        * unfold common_selector, fixed. rewrite E. destruct (gl_ranged l); [contradiction|ring..].
      + destruct (gl_ranged l) eqn:El; cbn [leading] in Ht; try discriminate; injection Ht as <-.
        * apply (table_in _ _ _ _ T2). specialize (HK (fun r => w (r, 0%nat) * w_ceil_selector N log r, t_w_ceil N t) r). cbn [fst snd] in HK.
          replace (w (r, 0%nat)) with (w (r, 0%nat) * w_ceil_selector N log r); [apply HK; [|exact R]; apply in_or_app; right; left; reflexivity|].
          unfold w_ceil_selector, fixed. rewrite E, El. ring.
        * apply (table_in _ _ _ _ T3). specialize (HK (fun r => w (r, 0%nat) * n_floor_selector N log r, t_n_floor N t) r). cbn [fst snd] in HK.
          replace (w (r, 0%nat)) with (w (r, 0%nat) * n_floor_selector N log r); [apply HK; [|exact R]; apply in_or_app; right; right; left; reflexivity|].
          unfold n_floor_selector, fixed. rewrite E, El. ring.
        * apply (table_in _ _ _ _ T4). specialize (HK (fun r => w (r, 0%nat) * d_selector N log r, t_d N t) r). cbn [fst snd] in HK.
          replace (w (r, 0%nat)) with (w (r, 0%nat) * d_selector N log r); [apply HK; [|exact R]; apply in_or_app; right; right; right; left; reflexivity|].
          unfold d_selector, fixed. rewrite E, El. ring.
    - intros H. assert (A : forall r l x, nth_error log r = Some l -> asks N W r l x -> holds w x) by (intros r l x E Hx; apply H, HE; exists r, l; split; assumption). split; [|split].
      + intros r _. destruct (nth_error log r) as [l|] eqn:E; [|apply gate_empty; exact E]. destruct (HL l (nth_error_In _ _ E)) as [L1 L2]. rewrite (gate_row log w r l E L1 L2).
        apply (A r l (CRow r (gl_row l)) E). left. reflexivity.
      + intros k r Hk _. unfold lookups in Hk. apply in_app_or in Hk. destruct Hk as [Hk|[<-|[<-|[<-|[]]]]]; [apply in_map_iff in Hk; destruct Hk as (i & <- & Hi); apply in_seq in Hi|..]; cbn [fst snd]; apply K.
        * exact (table_zero _ _ _ T1).
        * intros l E El. apply (table_in _ _ _ _ T1). apply (A r l (CRange (r, i) COMMON_RANGE_BITS) E). right; right; left. split; [|exists i; split; [lia|reflexivity]].
          intro C. rewrite C in El. apply one. symmetry. exact El.
        * intros l _. destruct (gl_ranged l); auto.
        * exact (table_zero _ _ _ T2).
        * intros l E El. apply (table_in _ _ _ _ T2). apply (A r l (CRange (r, 0%nat) (w_table W)) E). right; right; right. exists (w_table W). split; [|reflexivity].
          destruct (gl_ranged l); try (exfalso; apply one; symmetry; exact El). reflexivity.
        * intros l _. destruct (gl_ranged l); auto.
        * exact (table_zero _ _ _ T3).
        * intros l E El. apply (table_in _ _ _ _ T3). apply (A r l (CRange (r, 0%nat) (n_table N)) E). right; right; right. exists (n_table N). split; [|reflexivity].
          destruct (gl_ranged l); try (exfalso; apply one; symmetry; exact El). reflexivity.
        * intros l _. destruct (gl_ranged l); auto.
        * exact (table_zero _ _ _ T4).
        * intros l E El. apply (table_in _ _ _ _ T4). apply (A r l (CRange (r, 0%nat) (d_table N W)) E). right; right; right. exists (d_table N W). split; [|reflexivity].
          destruct (gl_ranged l); try (exfalso; apply one; symmetry; exact El). reflexivity.
        * intros l _. destruct (gl_ranged l); auto.
      + intros l a b Hl Hab. apply In_nth_error in Hl. destruct Hl as [r E]. apply (A r l (CCopy a b) E). right; left. exists a, b. split; [exact Hab|reflexivity].
  Qed.

  (** ** Every line has an entry in the log *)
  Definition logged (c _ : ctx N) : Prop := exists log, log_of W c log.
  Definition ra (_ _ : aval N) : Prop := True.
  Fixpoint copy_pairs (r i : nat) (ps : list (vschema N * N)) : list (cell * cell) :=
    match ps with [] => [] | (VA a, _) :: l => (av_cell a, (r, i)) :: copy_pairs r (S i) l | (VU _, _) :: l => copy_pairs r (S i) l end.
  Lemma copies_in r ps x : forall i, In x (copies_of r i ps) <-> exists a b, In (a, b) (copy_pairs r i ps) /\ x = CCopy a b.
  Proof.
    induction ps as [|[[a|v] k] ps IH]; intro i; cbn [copies_of copy_pairs].
    - split; [intros []|intros (? & ? & [] & _)].
    - cbn [In]. rewrite IH. split.
      + intros [<-|(p & q & H & E)]; [exists (av_cell a), (r, i); split; [left; reflexivity|reflexivity]|exists p, q; split; [right; exact H|exact E]].
      + intros (p & q & [E|H] & ->); [left; injection E as <- <-; reflexivity|right; exists p, q; split; [exact H|reflexivity]].
    - apply IH.
  Qed.
  Lemma log_more c log l (new : list (constr N)) w : log_of W c log ->
    (forall x, In x new <-> asks N W (offset c) l x) -> List.length (g_coeff (gl_row l)) = VAR_COLUMNS -> List.length (g_mul (gl_row l)) = MUL_COLUMNS ->
    log_of W (mkCtx (S (offset c)) (new ++ emitted c) w) (log ++ [l]).
  Proof.
    intros (L & HE & HL) Hn L1 L2. split; [|split].
    - rewrite app_length. cbn. lia.
    - intros x. cbn [emitted]. rewrite in_app_iff, HE, Hn. split.
      + intros [H|(r & l' & E & A)]; [exists (offset c), l; split; [|exact H]; rewrite nth_error_app2 by lia; rewrite L, Nat.sub_diag; reflexivity|].
        exists r, l'. split; [|exact A]. rewrite nth_error_app1; [exact E|]. apply nth_error_Some. congruence.
      + intros (r & l' & E & A). destruct (Nat.lt_ge_cases r (List.length log)) as [Hr|Hr].
        * rewrite nth_error_app1 in E by exact Hr. right. exists r, l'. split; assumption.
        * rewrite nth_error_app2 in E by exact Hr. left. destruct (r - List.length log)%nat as [|k] eqn:Ek; cbn in E; [|destruct k; discriminate]. injection E as <-.
          replace (offset c) with r by lia. exact A.
    - intros l' Hl. apply in_app_or in Hl. destruct Hl as [Hl|[<-|[]]]; [exact (HL l' Hl)|split; assumption].
  Qed.
  Lemma one_line_runs (ps : list (vschema N * N)) k mc nx c cells d : one_line ps k mc nx c = Some (cells, d) ->
    cells = cells_of (offset c) 0 (resize VAR_COLUMNS pair_empty ps) /\ offset d = S (offset c) /\
    emitted d = CRow (offset c) (mkRow (map snd (resize VAR_COLUMNS pair_empty ps)) (resize MUL_COLUMNS 0 mc) k nx) :: copies_of (offset c) 0 (resize VAR_COLUMNS pair_empty ps) ++ emitted c /\
    (List.length ps <= VAR_COLUMNS)%nat /\ (List.length mc <= MUL_COLUMNS)%nat.
  Proof.
    unfold one_line, bind, guard. destruct (length ps <=? VAR_COLUMNS)%nat eqn:E1; [|discriminate]. destruct (length mc <=? MUL_COLUMNS)%nat eqn:E2; [|discriminate].
    cbn [ret]. intros [= <- <-]. cbn [offset emitted]. apply Nat.leb_le in E1, E2. repeat split; assumption.
  Qed.
  Lemma resize_len {A} n (a : A) l : (List.length l <= n)%nat -> List.length (resize n a l) = n.
  Proof. intros H. unfold resize. rewrite app_length, firstn_length, repeat_length. lia. Qed.
  Lemma cells_len r (ps : list (vschema N * N)) : forall i, List.length (cells_of r i ps) = List.length ps.
  Proof. induction ps as [|[s k] ps IH]; intro i; cbn; [reflexivity|now rewrite IH]. Qed.
  Lemma all_ra (l1 l2 : list (aval N)) : List.length l1 = List.length l2 -> Forall2 ra l1 l2.
  Proof. revert l2. induction l1; intros [|]; try discriminate; constructor; [exact I|]. apply IHl1. injection H as H. exact H. Qed.
  Lemma log_line (ps1 ps2 : list (vschema N * N)) k mc nx : Forall2 (both (RS N ra) eq) ps1 ps2 ->
    shp N logged (one_line ps1 k mc nx) (one_line ps2 k mc nx) (Forall2 ra).
  Proof.
    intros _ c1 c2 (log & HC) r1 d1 r2 d2 E1 E2. apply one_line_runs in E1, E2. destruct E1 as (-> & O1 & M1 & A1 & B1), E2 as (-> & _ & _ & A2 & _).
    split; [|apply all_ra; rewrite !cells_len, !resize_len by assumption; reflexivity]. destruct d1 as [o e w]. cbn [offset emitted] in *. subst o e.
    set (row := mkRow _ _ _ _). exists (log ++ [GL row (copy_pairs (offset c1) 0 (resize VAR_COLUMNS pair_empty ps1)) Unranged]).
    rewrite app_comm_cons. apply log_more; [exact HC| |subst row; cbn [gl_row g_coeff]; rewrite map_length; apply resize_len; exact A1|apply resize_len; exact B1].
    intros x. cbn [In]. rewrite copies_in. unfold asks. cbn [gl_row gl_copies gl_ranged leading]. split.
    - intros [<-|H]; [left; reflexivity|right; left; exact H].
    - intros [->|[H|[(H & _)|(? & H & _)]]]; [left; reflexivity|right; exact H|contradiction|discriminate].
  Qed.
  Lemma log_rline b l (ps1 ps2 : list (vschema N * N)) k mc nx : configured N W b l -> Forall2 (both (RS N ra) eq) ps1 ps2 ->
    shp N logged (one_line_in_range b l ps1 k mc nx) (one_line_in_range b l ps2 k mc nx) (Forall2 ra).
  Proof.
    intros [-> Hl] _ c1 c2 (log & HC) r1 d1 r2 d2. unfold one_line_in_range.
    destruct (one_line ps1 k mc nx c1) as [[x1 e1]|] eqn:F1; [|discriminate]. destruct (one_line ps2 k mc nx c2) as [[x2 e2]|] eqn:F2; [|discriminate].
    apply one_line_runs in F1, F2. destruct F1 as (-> & O1 & M1 & A1 & B1), F2 as (-> & _ & _ & A2 & _). intros [= <- <-] [= <- _].
    split; [|apply all_ra; rewrite !cells_len, !resize_len by assumption; reflexivity]. rewrite O1, M1. set (row := mkRow _ _ _ _).
    assert (exists x, leading N W x = l /\ x <> Unranged) as (sel & Hs & Hu).
    { destruct l as [t|]; [|exists Common; split; [reflexivity|discriminate]]. destruct Hl as [->|[->| ->]]; [exists WCeil|exists NFloor|exists DLeading]; (split; [reflexivity|discriminate]). }
    exists (log ++ [GL row (copy_pairs (offset c1) 0 (resize VAR_COLUMNS pair_empty ps1)) sel]).
    match goal with |- log_of _ (mkCtx _ ?e _) _ => replace e with
      (((map (fun i => CRange (offset c1, i) COMMON_RANGE_BITS) (seq 0 (VAR_COLUMNS - 1)) ++ match l with Some t => [CRange (offset c1, 0%nat) t] | None => [] end) ++
        CRow (offset c1) row :: copies_of (offset c1) 0 (resize VAR_COLUMNS pair_empty ps1)) ++ emitted c1) by (destruct l; reflexivity) end.
    apply log_more; [exact HC| |subst row; cbn [gl_row g_coeff]; rewrite map_length; apply resize_len; exact A1|apply resize_len; exact B1].
    intros x. rewrite !in_app_iff. cbn [In]. rewrite copies_in, in_map_iff. unfold asks. cbn [gl_row gl_copies gl_ranged]. rewrite Hs. split.
    - intros [[(i & <- & Hi)|H]|[<-|H]]; [right; right; left; split; [exact Hu|exists i; apply in_seq in Hi; split; [lia|reflexivity]]|..].
      + right; right; right. destruct l as [t|]; [|destruct H]. destruct H as [<-|[]]. exists t. split; reflexivity.
      + left. reflexivity.
      + right; left. exact H.
    - intros [->|[H|[(_ & i & Hi & ->)|(t & -> & ->)]]].
      + right; left; reflexivity.
      + right; right; exact H.
      + left; left. exists i. split; [reflexivity|apply in_seq; lia].
      + left; right. left. reflexivity.
  Qed.
  Lemma logged0 : logged (ctx0 N) (ctx0 N).
  Proof. exists []. split; [reflexivity|]. split; [|intros l []]. intros x. split; [intros []|]. intros (r & l & E & _). destruct r; discriminate. Qed.
End Proofs.
