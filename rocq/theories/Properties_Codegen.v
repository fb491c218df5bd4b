(** Properties C31 to C37: the optimization passes of the code generator preserve the
    generated program.  [run] executes statements as the contract does ([SolIr]). *)
From Coq Require Import ZArith NArith List Bool Permutation Lia.
From Verif Require Import Util Algebra PField Curve Evm Bn254Prime SolIr SolScan SolAgg SolPool SolSem SolMulAdd SolAggDriver SolAggProofs SolMemOpt.
Import ListNotations.

Notation M o := (EMemory o TScalar). Notation T o := (ETranscript o TScalar).
Notation MP o := (EMemory o TPoint). Notation TP o := (ETranscript o TPoint).
(** a calldata array and an execution for the examples *)
Definition ex_hash : list Z -> list Z := fun _ => repeat 0%Z 32.
Definition ex_run (E : env) (p : list stmt) : option st := run (@ofZ Fq 3) false ex_hash E p st0.
Definition ex_eval (E : env) (p : list stmt) (e : expr) : option value :=
  do s <- ex_run E p; eval (@ofZ Fq 3) false E s e.

Ltac decide_ssa :=
  repeat match goal with
  | |- ssa _ _ (_ :: _) => cbn [ssa to_length N.add Pos.add Pos.succ]
  | |- ssa _ _ [] => exact I
  | |- ssa _ _ ?p => unfold p
  | |- _ /\ _ => split
  | |- True => exact I
  | |- reads_ok _ _ => unfold reads_ok; cbn [leaves app targets]
  | |- Forall _ [] => apply Forall_nil
  | |- Forall _ (_ :: _) => apply Forall_cons
  | |- Forall _ ?p => unfold p
  | |- leaf_ok _ _ => cbn; tauto
  | |- _ = _ => reflexivity
  | |- (_ <= _)%N => cbn; lia
  | |- (_ < _)%N => reflexivity
  | |- no_self_add _ => cbn; first [exact I | intros; split; [discriminate|intros _; intuition discriminate] | intros; split; intros; intuition discriminate]
  end.

Section Programs.
  Variable W : PF.
  Variable b : W.
  Variable checked : bool.
  Variable sha256 : list Z -> list Z.

  (** * C31: fusing multiplications and additions *)
  (** Programs assign cells in ascending order and read only assigned cells ([ssa]); the
      expressions [es] are read at the end.  Both programs revert together; otherwise
      they leave the same hash buffer and the same value in every cell that the new
      program assigns, and these are all the cells that it and [es] read.
      Missing: programs that add a cell to itself, see [C31_refuted]. *)
  Theorem C31_fusion_preserves_partial E p es ivs tb :
    ssa 0 [] p -> Forall (reads_ok (targets p)) es -> (top 0 p <= e_msize E)%N -> build_intervals p es = Some (ivs, tb) ->
    Forall no_self_add p ->
    exists q, combine_mul_add p ivs tb = Some q /\ ssa 0 [] q /\ Forall (reads_ok (targets q)) es /\
      orel (fun s s' => absorbing s = absorbing s' /\
              (forall o t, In (o, t) (targets q) -> eval b checked E s (EMemory o t) = eval b checked E s' (EMemory o t)) /\
              (forall e, In e es -> eval b checked E s e = eval b checked E s' e))
           (run b checked sha256 E p st0) (run b checked sha256 E q st0).
  Proof.
    intros Hp Hes Ht Hb Hn. destruct (combine_ok W b checked sha256 E p es ivs tb Hp Hn Ht Hes Hb) as (q & Eq & Q1 & _ & Q3 & R).
    exists q. rewrite app_nil_r in *. split; [exact Eq|]. split; [exact Q1|]. split; [exact Q3|].
    assert (A0 : agree W b checked E [] st0 st0) by (constructor; [reflexivity|]; intros; contradiction). specialize (R st0 st0 A0).
    destruct (run b checked sha256 E p st0) as [s|], (run b checked sha256 E q st0) as [s'|]; try exact R. cbn [orel] in *.
    split; [|split].
    - now destruct R.
    - intros o t Hin. apply (agree_eval W b checked E _ s s' _ R). constructor; [exact Hin|constructor].
    - intros e He. apply (agree_eval W b checked E _ s s' _ R). rewrite Forall_forall in Q3. now apply Q3.
  Qed.

  (** * C33: allocation of memory cells *)
  (** The scan succeeds; the program it returns yields the same values of the results in
      a memory of the size it reports (out of bounds accesses revert), and reverts
      exactly when the original does.  Offsets must stay below the sentinel used for the
      temporary. *)
  Theorem C33_linear_scan p es : ssa 0 [] p -> Forall (reads_ok (targets p)) es -> (top 0 p < DEADBEAF)%N ->
    exists ivs tb q es' size, build_intervals p es = Some (ivs, tb) /\ linear_scan ivs [] p es pool0 = Some (q, es', size) /\
      (size <= top 0 p + 1)%N /\
      forall E, (top 0 p <= e_msize E)%N ->
        orel (fun s s' => map (eval b checked E s) es = map (eval b checked (resize E size) s') es')
          (run b checked sha256 E p st0) (run b checked sha256 (resize E size) q st0).
  Proof.
    intros Hp Hes Hd. destruct (scan_ok p es Hp Hes Hd) as (ivs & tb & q & es' & size & E1 & E2 & [S1 _ _ _ _ S5]).
    exists ivs, tb, q, es', size. auto 6.
  Qed.
  (** the temporary is read only right after the statement that writes it *)
  Theorem C33_temporaries p es : ssa 0 [] p -> Forall (reads_ok (targets p)) es -> (top 0 p < DEADBEAF)%N ->
    exists ivs tb q es' size, build_intervals p es = Some (ivs, tb) /\ linear_scan ivs [] p es pool0 = Some (q, es', size) /\
      disc false q /\ Forall (fun e => reads_temp e = false) es'.
  Proof.
    intros Hp Hes Hd. destruct (scan_ok p es Hp Hes Hd) as (ivs & tb & q & es' & size & E1 & E2 & [_ _ S2 S3 _ _]).
    exists ivs, tb, q, es', size. auto 6.
  Qed.
  (** Both steps of [memory_optimize]: the points returned by the contract are the same. *)
  Theorem C33_memory_optimize p wx wg : ssa 0 [] p -> Forall no_self_add p -> (top 0 p < DEADBEAF)%N ->
    reads_ok (targets p) wx -> reads_ok (targets p) wg ->
    exists q wx' wg' size, memory_optimize p wx wg = Some (q, wx', wg', size) /\ (size <= top 0 p + 1)%N /\
      forall E, (top 0 p <= e_msize E)%N ->
        get_wx_wg b checked sha256 (resize E size) q wx' wg' = get_wx_wg b checked sha256 E p wx wg.
  Proof.
    intros Hp Hn Hd Hx Hg. destruct (memory_optimize_ok p wx wg Hp Hn Hd Hx Hg) as (q & wx' & wg' & size & E1 & [O1 _ _ _ O5]).
    exists q, wx', wg', size. auto.
  Qed.

  (** * The merging passes *)
  (** the memory and the hash buffer; the temporaries are dead between groups *)
  Definition same_store (s s' : st) : Prop := mem s = mem s' /\ absorbing s = absorbing s'.
  Lemma piece_store E p q s : piece W b checked sha256 E false p q -> orel same_store (run b checked sha256 E p s) (run b checked sha256 E q s).
  Proof.
    intros [_ _ R]. specialize (R s s (eqv_refl _ _)).
    destruct (run b checked sha256 E p s) as [s1|], (run b checked sha256 E q s) as [s2|]; try exact R. cbn [orel] in *. destruct R as [R1 R2 _ _]. split; assumption.
  Qed.

  (** C34.  Missing: an isolated point, see [C34_refuted]. *)
  Theorem C34_update_hash_partial E p q s : disc false p -> paired p -> merge_groups (update_hash_merger false) p = Some q ->
    orel same_store (run b checked sha256 E p s) (run b checked sha256 E q s).
  Proof. intros D P H. apply piece_store. now apply (uh_pass W b checked sha256 E p q false P D H). Qed.

  (** C35, for points and scalars.  Missing: offsets outside the byte range, see
      [C35_refuted]. *)
  Theorem C35_mul_add_pm_partial E p q s : disc false p -> Forall fits p -> merge_groups mul_add_pm_optimizer p = Some q ->
    orel same_store (run b checked sha256 E p s) (run b checked sha256 E q s).
  Proof. intros D F H. apply piece_store. now apply (pm_pass W b checked sha256 E p q false F D H). Qed.
  Theorem C35_mul_add_mt_partial E p q s : disc false p -> Forall fits p -> merge_groups mul_add_mt_optimizer p = Some q ->
    orel same_store (run b checked sha256 E p s) (run b checked sha256 E q s).
  Proof. intros D F H. apply piece_store. now apply (mt_pass W b checked sha256 E p q false F D H). Qed.

  (** C36.  Missing: chains that are abandoned late, see [C36_refuted]. *)
  Theorem C36_fr_pow_partial E p q s : disc false p -> Forall wt_stmt p -> no_abandoned p -> merge_groups (fr_pow_optimizer false) p = Some q ->
    orel same_store (run b checked sha256 E p s) (run b checked sha256 E q s).
  Proof. intros D F A H. apply piece_store. now apply (fp_pass W b checked sha256 E p q false F A D H). Qed.

  (** C37, for a debug build; [looped]: runs of more than four products become loops,
      every other statement is kept, in order.  A release build does the same whenever the
      debug build does not panic; when it does panic, see [C37_refuted]. *)
  Theorem C37_mul_seq_partial E p q s : disc false p -> Forall wt_stmt p -> merge_groups (mul_seq_optimizer false) p = Some q ->
    looped p q /\ orel same_store (run b checked sha256 E p s) (run b checked sha256 E q s).
  Proof.
    intros D F H. destruct (ms_pass W b checked sha256 E p q false F D H) as [L P]. split; [exact L|now apply piece_store].
  Qed.

  (** All passes: the returned points are the same, in a debug and in a release build. *)
  Theorem C37_all_passes_partial E p q wx wg : disc false p -> Forall fits p -> paired p -> no_abandoned p ->
    reads_temp wx = false -> reads_temp wg = false -> aggregate false p = Some q ->
    aggregate true p = Some q /\ get_wx_wg b checked sha256 E q wx wg = get_wx_wg b checked sha256 E p wx wg.
  Proof.
    intros D F P A Tx Tg H. split; [now apply aggregate_release|now apply aggregate_result].
  Qed.
End Programs.
Print Assumptions C31_fusion_preserves_partial.
Print Assumptions C33_linear_scan.
Print Assumptions C33_temporaries.
Print Assumptions C33_memory_optimize.
Print Assumptions C34_update_hash_partial.
Print Assumptions C35_mul_add_pm_partial.
Print Assumptions C35_mul_add_mt_partial.
Print Assumptions C36_fr_pow_partial.
Print Assumptions C37_mul_seq_partial.
Print Assumptions C37_all_passes_partial.

(** ** C31: examples *)
Definition ex_fuse : list stmt :=
  [Assign (M 0) (EMul (T 0) (T 1) TScalar); Assign (M 1) (EAdd (M 0) (T 2) TScalar); UpdateHash (M 1) 0; Assign (M 2) (EMul (M 1) (M 1) TScalar)].
Example C31_example : ssa 0 [] ex_fuse /\ Forall (reads_ok (targets ex_fuse)) [M 2] /\ top 0 ex_fuse = 3%N /\ Forall no_self_add ex_fuse /\
  exists ivs tb, build_intervals ex_fuse [M 2] = Some (ivs, tb) /\
    combine_mul_add ex_fuse ivs tb = Some [Assign (M 1) (EMulAdd (T 1) (T 0) (T 2) TScalar); UpdateHash (M 1) 0; Assign (M 2) (EMul (M 1) (M 1) TScalar)].
Proof.
  split; [|split; [|split; [|split]]].
  - decide_ssa.
  - decide_ssa.
  - reflexivity.
  - decide_ssa.
  - eexists _, _. split; reflexivity.
Qed.
(** A product that is added to itself: the fused statement still reads the cell of the
    product, which is no longer assigned.  The cache of the generator shares equal
    products, so a gate [a * c + a * c] is printed like this. *)
Definition ex_self : list stmt := [Assign (M 0) (EMul (T 0) (T 1) TScalar); Assign (M 1) (EAdd (M 0) (M 0) TScalar)].
Theorem C31_refuted : exists p es ivs tb q E, ssa 0 [] p /\ Forall (reads_ok (targets p)) es /\ (top 0 p <= e_msize E)%N /\
  build_intervals p es = Some (ivs, tb) /\ combine_mul_add p ivs tb = Some q /\
  exists e, In e es /\ ex_eval E p e = Some (VS 12) /\ ex_eval E q e = Some (VS 6).
Proof.
  exists ex_self, [M 1]. eexists _, _, _. exists (mkEnv [2; 3]%Z [] 2 1). split; [|split; [|split; [|split; [reflexivity|split; [reflexivity|]]]]].
  - decide_ssa.
  - decide_ssa.
  - cbn. lia.
  - exists (M 1). split; [now left|]. split; reflexivity.
Qed.
Print Assumptions C31_refuted.

(** * C32: the memory pool *)
(** Any history of allocations of one and two words (growing the pool when it has no free
    block of the size) and frees of live blocks. *)
Theorem C32_pool rs p live : serve_all rs pool0 [] = Some (p, live) ->
  (* live blocks are disjoint from each other and from the free words; together they are
     all words below the capacity *)
  Permutation (free256 p ++ flat_map cells live) (upto (capability p)) /\ NoDup (flat_map cells live) /\
  (forall bl x, In bl live -> In x (cells bl) -> (x < capability p)%N) /\
  (* every pair of free words is available for two-word blocks *)
  (forall x, In x (free512 p) <-> N.even x = true /\ In x (free256 p) /\ In (x + 1)%N (free256 p)).
Proof.
  intro H. apply serve_all_inv in H; [|exact inv0]. destruct H as [A B C D]. split; [exact A|]. split; [|split; [|exact B]].
  - assert (ND : NoDup (free256 p ++ flat_map cells live)) by (eapply Permutation_NoDup; [symmetry; exact A|apply nodup_upto]).
    clear - ND. revert ND. generalize (flat_map cells live). induction (free256 p) as [|x l IH]; intros l0 ND; [exact ND|]. apply IH. cbn [app] in ND. now apply NoDup_cons_iff in ND.
  - intros bl x Hb Hx. apply in_upto. eapply Permutation_in; [exact A|]. apply in_or_app. right. apply in_flat_map. eauto.
Qed.
(** Every request is served: an allocation never fails, and the capacity grows, by two
    words, only when no free block of the size exists. *)
Theorem C32_take_succeeds rs p live t : serve_all rs pool0 [] = Some (p, live) ->
  exists bl p', take t p = Some (bl, p') /\ b_t bl = t /\
    (capability p' = capability p \/
     capability p' = (capability p + 2)%N /\ match t with TScalar => free256 p = [] | TPoint => free512 p = [] end).
Proof.
  intro H. apply serve_all_inv in H; [|exact inv0]. destruct (take_inv t p live H) as (bl & p' & E & _ & Hb & _ & Hc).
  exists bl, p'. split; [exact E|]. split; [exact Hb|]. destruct (N.eq_dec (capability p') (capability p)) as [->|N]; [now left|right; now apply Hc].
Qed.
(** freed words are free again *)
Theorem C32_free rs p live i bl : serve_all rs pool0 [] = Some (p, live) -> nth_error live i = Some bl ->
  capability (pfree p bl) = capability p /\ forall x, In x (free256 (pfree p bl)) <-> In x (free256 p) \/ In x (cells bl).
Proof.
  intros H Hi. apply serve_all_inv in H; [|exact inv0]. apply nth_error_split in Hi. destruct Hi as (l1 & l2 & -> & _).
  apply (inv_live_perm p _ (bl :: l1 ++ l2)) in H; [|symmetry; apply Permutation_middle].
  split; [now apply (free_inv p bl (l1 ++ l2))|]. intro x. unfold pfree, cells. destruct (b_t bl); cbn [free256 In]; rewrite ?sins_in; intuition.
Qed.
(** The order in which a hash set yields the expired blocks does not matter. *)
Theorem C32_free_order rs p live dead rest dead' : serve_all rs pool0 [] = Some (p, live) -> Permutation live (dead ++ rest) -> Permutation dead dead' ->
  fold_left pfree dead p = fold_left pfree dead' p.
Proof.
  intros H P Q. assert (S : sorted p) by (apply (serve_all_sorted rs pool0 [] p live); [split; constructor|exact H]).
  apply serve_all_inv in H; [|exact inv0]. eapply free_comm; [eapply inv_live_perm; [exact P|exact H]|exact S|exact Q].
Qed.
Print Assumptions C32_pool.
Print Assumptions C32_take_succeeds.
Print Assumptions C32_free.
Print Assumptions C32_free_order.
(** allocate a word, a pair, a word, free the first word and the pair, allocate a pair *)
Example C32_example : exists p, serve_all [RTake TScalar; RTake TPoint; RTake TScalar; RFree 2; RFree 1; RTake TPoint] pool0 [] =
    Some (p, [mkBlock 2 TPoint; mkBlock 1 TScalar]) /\ capability p = 4%N /\ free256 p = [0%N].
Proof. eexists. split; [reflexivity|]. split; reflexivity. Qed.

(** ** C33: example *)
(** Points are combined with multiples; one value goes through the temporary and cells are
    used again. *)
Definition ex_alloc : list stmt :=
  [Assign (M 0) (EHash 1); Assign (M 1) (ESub (M 0) (T 6) TScalar); Assign (M 2) (EMul (M 1) (M 0) TScalar);
   Assign (MP 3) (EMul (M 0) (TP 0) TPoint); Assign (MP 5) (EAdd (MP 3) (TP 2) TPoint);
   Assign (MP 7) (EMul (M 2) (TP 4) TPoint); Assign (MP 9) (EAdd (MP 5) (MP 7) TPoint); Assign (MP 11) (EAdd (MP 9) (MP 5) TPoint)].
Example C33_example : ssa 0 [] ex_alloc /\ Forall no_self_add ex_alloc /\ (top 0 ex_alloc < DEADBEAF)%N /\
  reads_ok (targets ex_alloc) (MP 11) /\ reads_ok (targets ex_alloc) (MP 9) /\
  memory_optimize ex_alloc (MP 11) (MP 9) = Some (
    [Assign (M 0) (EHash 1); Assign (ETemp TScalar) (ESub (M 0) (T 6) TScalar); Assign (M 1) (EMul (ETemp TScalar) (M 0) TScalar);
     Assign (MP 2) (EMulAdd (TP 0) (M 0) (TP 2) TPoint); Assign (MP 0) (EMulAdd (TP 4) (M 1) (MP 2) TPoint);
     Assign (MP 2) (EAdd (MP 0) (MP 2) TPoint)], MP 2, MP 0, 4%N).
Proof.
  split; [|split; [|split; [|split; [|split]]]].
  - decide_ssa.
  - decide_ssa.
  - reflexivity.
  - decide_ssa.
  - decide_ssa.
  - vm_compute. reflexivity.
Qed.

Notation TMP := (ETemp TScalar).
Ltac split_lists :=
  repeat match goal with
  | H : _ :: _ = ?l ++ _ |- _ => is_var l; destruct l; cbn [app] in H
  | H : [] = _ ++ _ :: _ |- _ => now destruct (app_cons_not_nil _ _ _ H)
  | H : [] = _ :: _ |- _ => discriminate H
  | H : _ :: _ = _ :: _ |- _ => injection H as ? H; subst
  end.

Ltac decide_all :=
  match goal with |- Forall _ ?p => unfold p | _ => idtac end;
  repeat (apply Forall_cons; [cbn; repeat split; try reflexivity; try exact I|]); apply Forall_nil.

(** ** C34 *)
Definition ex_absorb : list stmt :=
  [UpdateHash (TP 0) 0; UpdateHash (TP 2) 3; UpdateHash (TP 4) 6; Assign (M 0) (EHash 9); UpdateHash (T 6) 1; UpdateHash (T 7) 3].
Example C34_example : disc false ex_absorb /\ paired ex_absorb /\
  merge_groups (update_hash_merger false) ex_absorb = Some [For 0 4 2 0 3 TPoint; Assign (M 0) (EHash 9); For 6 7 1 1 2 TScalar].
Proof.
  split; [cbn; intuition discriminate|]. split; [|reflexivity].
  intros pre m a rest H. unfold ex_absorb in H. split_lists.
  - right. eexists. reflexivity.
  - right. eexists. reflexivity.
  - left. eexists [_], _, _. split; [reflexivity|]. split; reflexivity.
  - discriminate.
  - discriminate.
  - discriminate.
Qed.
(** A point of the proof that is absorbed alone is absorbed as a scalar. *)
Theorem C34_refuted : exists p q E s s', disc false p /\ merge_groups (update_hash_merger false) p = Some q /\
  ex_run E p = Some s /\ ex_run E q = Some s' /\ absorbing s 0%N = 1%Z /\ absorbing s' 0%N = 2%Z.
Proof.
  exists [UpdateHash (TP 0) 0], [UpdateHash (T 0) 0], (mkEnv [5; 6]%Z [] 0 4). eexists _, _.
  split; [cbn; intuition discriminate|]. split; [reflexivity|]. split; [reflexivity|]. split; [reflexivity|]. split; reflexivity.
Qed.
Print Assumptions C34_refuted.

(** ** C35 *)
Definition ex_pm : list stmt :=
  [Assign TMP (EMul (T 0) (M 0) TScalar); Assign TMP (EMulAdd (T 1) (M 1) TMP TScalar); Assign TMP (EMulAdd (T 2) (M 0) TMP TScalar);
   Assign TMP (EMulAdd (T 254) (M 255) TMP TScalar); Assign (M 2) (EAdd TMP (T 3) TScalar)].
Example C35_pm_example : disc false ex_pm /\ Forall fits ex_pm /\
  merge_groups mul_add_pm_optimizer ex_pm =
    Some [Assign TMP (EMul (T 0) (M 0) TScalar); Assign TMP (EMulAddPM TMP 0xfffffffe00020101 TScalar); Assign (M 2) (EAdd TMP (T 3) TScalar)].
Proof.
  split; [cbn; intuition discriminate|]. split; [|reflexivity].
  decide_all.
Qed.
Definition ex_mt : list stmt :=
  [Assign TMP (EMul (T 0) (M 0) TScalar); Assign TMP (EMulAdd (M 7) TMP (M 1) TScalar); Assign TMP (EMulAdd (M 7) TMP (M 254) TScalar);
   Assign (M 2) (EAdd TMP (T 3) TScalar)].
Example C35_mt_example : disc false ex_mt /\ Forall fits ex_mt /\
  merge_groups mul_add_mt_optimizer ex_mt =
    Some [Assign TMP (EMul (T 0) (M 0) TScalar); Assign TMP (EMulAddMT 7 0xfffe01); Assign (M 2) (EAdd TMP (T 3) TScalar)].
Proof.
  split; [cbn; intuition discriminate|]. split; [|reflexivity].
  decide_all.
Qed.
(** The words of the proof with an offset of 255 and more and the cells with an offset of
    256 (255 for the second pass) and more do not fit into the bytes of the opcode. *)
Definition wide_pm : list stmt :=
  [Assign TMP (EMul (T 0) (T 0) TScalar); Assign TMP (EMulAdd (T 255) (M 0) TMP TScalar); Assign TMP (EMulAdd (T 256) (M 0) TMP TScalar); Assign (M 1) TMP].
Definition wide_mt : list stmt :=
  [Assign TMP (EMul (T 0) (T 0) TScalar); Assign TMP (EMulAdd (M 0) TMP (M 255) TScalar); Assign TMP (EMulAdd (M 0) TMP (M 255) TScalar); Assign (M 1) TMP].
Theorem C35_refuted :
  (exists q E, disc false wide_pm /\ merge_groups mul_add_pm_optimizer wide_pm = Some q /\
    ex_eval E (Assign (M 0) (EScalar 1) :: wide_pm) (M 1) = Some (VS 12) /\ ex_eval E (Assign (M 0) (EScalar 1) :: q) (M 1) = Some (VS 4)) /\
  (exists q E, disc false wide_mt /\ merge_groups mul_add_mt_optimizer wide_mt = Some q /\
    ex_eval E (Assign (M 0) (EScalar 3) :: wide_mt) (M 1) = Some (VS 36) /\ ex_eval E (Assign (M 0) (EScalar 3) :: q) (M 1) = Some (VS 4)).
Proof.
  split.
  - eexists. exists (mkEnv (2 :: repeat 4 256)%Z [] 2 1). split; [cbn; intuition discriminate|]. split; [reflexivity|]. split; vm_compute; reflexivity.
  - eexists. exists (mkEnv [2]%Z [] 256 1). split; [cbn; intuition discriminate|]. split; [reflexivity|]. split; vm_compute; reflexivity.
Qed.
Print Assumptions C35_refuted.

(** ** C36 *)
Definition ex_pow : list stmt :=
  [Assign TMP (EMul (M 0) (M 0) TScalar); Assign TMP (EMul TMP TMP TScalar); Assign (M 1) (EMul TMP (M 0) TScalar); Assign (M 2) (EAdd (M 1) (M 0) TScalar)].
Example C36_example : disc false ex_pow /\ Forall wt_stmt ex_pow /\ no_abandoned ex_pow /\
  merge_groups (fr_pow_optimizer false) ex_pow = Some [Assign (M 1) (EPow (M 0) 5 TScalar); Assign (M 2) (EAdd (M 1) (M 0) TScalar)].
Proof.
  split; [cbn; intuition discriminate|]. split; [|split; [|reflexivity]].
  - decide_all.
  - intros pre a c s post H Hc Nc Hst Hm. unfold ex_pow, square in H. split_lists; try discriminate; try contradiction; cbn; auto.
Qed.
(** The statements merged after the first are lost when the chain is abandoned. *)
Definition lost : list stmt :=
  [Assign TMP (EMul (M 0) (M 0) TScalar); Assign TMP (EMul TMP TMP TScalar); Assign (M 1) (EMul TMP (T 0) TScalar)].
Theorem C36_refuted : exists q E, disc false lost /\ Forall wt_stmt lost /\ merge_groups (fr_pow_optimizer false) lost = Some q /\
  ex_eval E (Assign (M 0) (EScalar 2) :: lost) (M 1) = Some (VS 48) /\ ex_eval E (Assign (M 0) (EScalar 2) :: q) (M 1) = Some (VS 12).
Proof.
  eexists. exists (mkEnv [3]%Z [] 2 1). split; [cbn; intuition discriminate|]. split; [decide_all|].
  split; [reflexivity|]. split; vm_compute; reflexivity.
Qed.
Print Assumptions C36_refuted.

(** ** C37 *)
Definition ex_seq : list stmt :=
  [Assign (M 3) (EAdd (M 2) (M 0) TScalar); Assign (M 10) (EMul (M 0) (M 20) TScalar); Assign (M 11) (EMul (M 2) (M 20) TScalar);
   Assign (M 12) (EMul (M 4) (M 20) TScalar); Assign (M 13) (EMul (M 6) (M 20) TScalar); Assign (M 14) (EMul (M 8) (M 20) TScalar); Assign (M 16) (EMul (M 9) (M 20) TScalar)].
Example C37_example : disc false ex_seq /\ Forall wt_stmt ex_seq /\
  merge_groups (mul_seq_optimizer false) ex_seq =
    Some [Assign (M 3) (EAdd (M 2) (M 0) TScalar); ForMMMMul (10, 0, 20)%N (1, 2, 0)%N 5 TScalar; Assign (M 16) (EMul (M 9) (M 20) TScalar)].
Proof.
  split; [cbn; intuition discriminate|]. split; [|reflexivity]. decide_all.
Qed.
(** A run with descending offsets: a debug build panics, a release build prints a loop
    whose index leaves the memory, so that the contract always reverts. *)
Definition descending : list stmt :=
  [Assign (M 14) (EMul (M 0) (M 1) TScalar); Assign (M 13) (EMul (M 0) (M 1) TScalar); Assign (M 12) (EMul (M 0) (M 1) TScalar);
   Assign (M 11) (EMul (M 0) (M 1) TScalar); Assign (M 10) (EMul (M 0) (M 1) TScalar)].
Theorem C37_refuted : exists q E, disc false descending /\ Forall wt_stmt descending /\ merge_groups (mul_seq_optimizer false) descending = None /\
  merge_groups (mul_seq_optimizer true) descending = Some q /\ (exists s, ex_run E descending = Some s) /\ ex_run E q = None.
Proof.
  eexists. exists (mkEnv [] [] 15 1). split; [cbn; intuition discriminate|]. split; [decide_all|].
  split; [reflexivity|]. split; [reflexivity|]. split; [eexists; reflexivity|]. vm_compute. reflexivity.
Qed.
Print Assumptions C37_refuted.

(** All passes at once: a program to which each of the five passes applies. *)
Definition ex_passes : list stmt := ex_absorb ++ ex_pow ++ ex_pm ++ ex_mt ++ ex_seq.
Example C37_all_passes_example : Forall fits ex_passes /\ disc false ex_passes /\ paired ex_passes /\ no_abandoned ex_passes /\
  aggregate false ex_passes = Some
    [For 0 4 2 0 3 TPoint; Assign (M 0) (EHash 9); For 6 7 1 1 2 TScalar; Assign (M 1) (EPow (M 0) 5 TScalar);
     Assign (M 2) (EAdd (M 1) (M 0) TScalar); Assign TMP (EMul (T 0) (M 0) TScalar); Assign TMP (EMulAddPM TMP 0xfffffffe00020101 TScalar);
     Assign (M 2) (EAdd TMP (T 3) TScalar); Assign TMP (EMul (T 0) (M 0) TScalar); Assign TMP (EMulAddMT 7 0xfffe01);
     Assign (M 2) (EAdd TMP (T 3) TScalar); Assign (M 3) (EAdd (M 2) (M 0) TScalar); ForMMMMul (10, 0, 20)%N (1, 2, 0)%N 5 TScalar;
     Assign (M 16) (EMul (M 9) (M 20) TScalar)].
Proof.
  split; [decide_all|]. split; [cbn; intuition discriminate|]. split; [|split; [|]].
  - intros pre m a rest H. unfold ex_passes, ex_absorb, ex_pow, ex_pm, ex_mt, ex_seq in H. cbn [app] in H.
    split_lists; try discriminate.
    + right. eexists. reflexivity.
    + right. eexists. reflexivity.
    + left. eexists [_], _, _. split; [reflexivity|]. split; reflexivity.
  - intros pre a c s post H Hc Nc Hst Hm. unfold ex_passes, ex_absorb, ex_pow, ex_pm, ex_mt, ex_seq, square in H. cbn [app] in H.
    destruct Hc as (c' & Ec & Hc). injection Ec as <-.
    do 7 (destruct pre as [|? pre]; cbn [app] in H; [try discriminate|injection H as ? H; subst]).
    + injection H as <- _ H. destruct c as [|c0 c]; [contradiction|]. cbn [app] in H. injection H as <- H.
      destruct c as [|c1 c]; cbn [app] in H; [injection H as <- H; left; split; [reflexivity|now right]|].
      injection H as <- H. inversion_clear Hc as [|? ? _ Hc']. inversion Hc' as [|? ? [K _] _]. discriminate K.
    + destruct pre as [|? pre]; cbn [app] in H;
        [injection H as <- _ H; destruct c as [|c0 c]; [contradiction|]; cbn [app] in H; injection H as <- H; inversion Hc as [|? ? [K _] _]; discriminate K|].
      injection H as ? H. subst.
      repeat (destruct pre as [|? pre]; cbn [app] in H; [congruence|injection H as ? H; subst]).
      destruct pre; discriminate H.
  - vm_compute. reflexivity.
Qed.
