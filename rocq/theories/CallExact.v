(** The points summed by the verifier ([multi_exp]) come without overflow: they are points
    read from a transcript, constants, or normalised commitments to the instances. *)
From Coq Require Import String ZArith NArith Arith Lia List Bool.
From Verif Require Import Util Algebra PField ListFacts Schema Plonk BuildParams Calls VerifierCalls CallOrder MeasureProofs.
Import ListNotations.

Section Exact.
  Variable F : PF.
  Variable M : Mod F.
  Notation call := (call F M).
  Notation Q := (Q F M).
  Notation added := (added F M).
  Notation sums := (sums_exact F M true).

  (** *** the calls that are no sums of many points *)
  Definition nosum (c : call) : Prop := match c with CMultiExp _ _ => False | _ => True end.
  Definition mute {A} (m : Q A) : Prop := forall n a cs n', m n = Some (a, cs, n') -> Forall nosum cs /\ n' = n + List.length (added cs).
  Lemma added_app a b : added (a ++ b) = added a ++ added b.
  Proof. apply CallOrder.added_app. Qed.
  Lemma mute_ret {A} (a : A) : mute (qret a).
  Proof. intros n b cs n' E. injection E as <- <- <-. split; [constructor|cbn; lia]. Qed.
  Lemma mute_fail {A} : mute (@qfail F M A).
  Proof. discriminate. Qed.
  Lemma mute_lift {A} (o : option A) : mute (qlift o).
  Proof. destruct o; [apply mute_ret|apply mute_fail]. Qed.
  Lemma mute_emit c : nosum c /\ List.length (kind_of c) = 1 -> mute (emit c).
  Proof. intros [H L] n b cs n' E. injection E as <- <- <-. split; [auto|]. unfold added. cbn [map concat]. rewrite app_nil_r, L. lia. Qed.
  Lemma mute_emit_ c : nosum c /\ List.length (kind_of c) = 0 -> mute (emit_ c).
  Proof. intros [H L] n b cs n' E. injection E as <- <- <-. split; [auto|]. unfold added. cbn [map concat]. rewrite app_nil_r, L. lia. Qed.
  Lemma mute_bind {A B} (m : Q A) (k : A -> Q B) : mute m -> (forall a, mute (k a)) -> mute (qbind m k).
  Proof.
    intros Hm Hk n b cs n' E. unfold qbind in E. destruct (m n) as [[[a c1] n1]|] eqn:E1; [|discriminate].
    destruct (k a n1) as [[[b' c2] n2]|] eqn:E2; [|discriminate]. injection E as <- <- <-. destruct (Hm _ _ _ _ E1) as [A1 A2]. destruct (Hk _ _ _ _ _ E2) as [B1 B2].
    split; [apply Forall_app; auto|]. rewrite added_app, app_length. lia.
  Qed.
  Lemma mute_map {A B} (f : A -> Q B) l : (forall a, mute (f a)) -> mute (qmap f l).
  Proof. intro H. induction l as [|a l IH]; cbn; [apply mute_ret|]. apply mute_bind; [apply H|]. intro. apply mute_bind; [exact IH|]. intro. apply mute_ret. Qed.
  Lemma mute_fold {A B} (f : B -> A -> Q B) l : (forall b a, mute (f b a)) -> forall b, mute (qfold f l b).
  Proof. intro H. induction l as [|a l IH]; intro b; cbn; [apply mute_ret|]. apply mute_bind; [apply H|exact IH]. Qed.
  Lemma mute_times {A} n (m : Q A) : mute m -> mute (qtimes n m).
  Proof. intro H. apply mute_map. auto. Qed.

  Create HintDb mute.
  Ltac on := repeat first
    [ progress intros
    | apply mute_ret | apply mute_fail | apply mute_lift | (apply mute_emit; split; [exact I|reflexivity]) | (apply mute_emit_; split; [exact I|reflexivity])
    | (apply mute_emit; split; [cbn; now rewrite !map_length|reflexivity])
    | apply mute_bind | apply mute_map | apply mute_fold | apply mute_times
    | solve [auto with mute]
    | match goal with |- mute (match ?x with _ => _ end) => destruct x end
    | match goal with |- mute (let '(_, _) := ?x in _) => destruct x end ].

  Lemma q_ast t : mute (c_ast F M t).
  Proof. induction t; cbn; on. Qed.
  Hint Resolve q_ast : mute.
  Lemma q_mul_add a b c : mute (c_mul_add F M a b c).
  Proof. unfold c_mul_add. on. Qed.
  Hint Resolve q_mul_add : mute.
  Lemma q_acc a b : mute (c_mul_add_accumulate F M a b).
  Proof. unfold c_mul_add_accumulate. on. Qed.
  Lemma q_pow_loop fuel : forall b e s acc, mute (c_pow_loop F M fuel b e s acc).
  Proof. induction fuel as [|fuel IH]; intros; cbn; on. Qed.
  Hint Resolve q_acc q_pow_loop : mute.
  Lemma q_pow fuel b e : mute (c_pow_constant F M fuel b e).
  Proof. unfold c_pow_constant. on. Qed.
  Lemma q_ws l : forall w o, mute (c_lagrange_ws F M l w o).
  Proof. induction l; intros; cbn; on. Qed.
  Hint Resolve q_pow q_ws : mute.
  Lemma q_lagrange l n x xn one o : mute (c_get_lagrange_commits F M l n x xn one o).
  Proof. unfold c_get_lagrange_commits. on. Qed.
  Lemma q_chip a b c d z e : mute (c_chip_evaluate F M a b c d z e).
  Proof. induction e; cbn; on. Qed.
  Hint Resolve q_lagrange q_chip : mute.
  Lemma q_scale f s v : (forall x, nosum (f x) /\ List.length (kind_of (f x)) = 1) -> mute (c_scale F M f s v).
  Proof. intro H. destruct s; cbn; [apply mute_emit; apply H|apply mute_ret]. Qed.
  Lemma q_merge1 one ev : forall res, mute (c_merge1 F M one res ev).
  Proof. induction res; cbn; on. Qed.
  Hint Resolve q_merge1 : mute.
  Lemma q_merge one a b : mute (c_merge F M one a b).
  Proof. unfold c_merge. on. Qed.
  Hint Resolve q_merge : mute.
  Lemma q_prepare one t : forall s, mute (c_eval_prepare F M one t s).
  Proof. induction t; intros; cbn; on; try (apply q_scale; intro; split; [exact I|reflexivity]). Qed.
  Hint Resolve q_prepare : mute.
  Lemma q_perm_step b g d st ep : mute (c_perm_step F M b g d st ep).
  Proof. destruct st as [[l r] d0], ep as [e p]. unfold c_perm_step. on. Qed.
  Hint Resolve q_perm_step : mute.
  Lemma q_perm_chunk cl d b g one t0 t1 c : mute (c_perm_chunk F M cl d b g one t0 t1 c).
  Proof. destruct c as [i [[s e] p]]. unfold c_perm_chunk. on. Qed.
  Hint Resolve q_perm_chunk : mute.
  Lemma q_perm pe ev a b c d e f g h : mute (c_perm_expressions F M pe ev a b c d e f g h).
  Proof. unfold c_perm_expressions. on. Qed.
  Lemma q_lookup le a b c d e f g h i j k l : mute (c_lookup_expressions F M le a b c d e f g h i j k l).
  Proof. unfold c_lookup_expressions. cbv zeta. on. Qed.
  Lemma q_vanish a b c d e f g h i : mute (c_vanish_queries F M a b c d e f g h i).
  Proof. unfold c_vanish_queries. on. Qed.
  Lemma q_rotate x o a : mute (c_rotate_omega F M x o a).
  Proof. unfold c_rotate_omega. on. Qed.
  Hint Resolve q_perm q_lookup q_vanish q_rotate : mute.
  Lemma q_column p s qs c e : mute (c_column_queries F M p s qs c e).
  Proof. unfold c_column_queries. on. Qed.
  Lemma q_proof_exprs p a b c k : mute (c_proof_expressions F M p a b c k).
  Proof. unfold c_proof_expressions. on. Qed.
  Hint Resolve q_column q_proof_exprs : mute.
  Lemma q_proof_queries p i : mute (c_proof_queries F M p i).
  Proof. unfold c_proof_queries. on. Qed.
  Hint Resolve q_proof_queries : mute.
  Lemma q_queries p : mute (c_queries F M p).
  Proof. unfold c_queries. cbv zeta. on. Qed.
  Hint Resolve q_queries : mute.
  Lemma q_batch p : mute (c_batch_multi_open_proofs F M p).
  Proof. unfold c_batch_multi_open_proofs. on. Qed.
  Lemma q_convert e : mute (c_convert F M e).
  Proof. induction e; cbn; on. Qed.
  Lemma q_read_phase t c ph : forall cells, mute (c_read_phase F M t c ph cells).
  Proof. induction ph; intros [|x cells]; cbn; on. Qed.
  Lemma q_squeeze_phase t c ph : forall cells, mute (c_squeeze_phase F M t c ph cells).
  Proof. induction ph; intros [|x cells]; cbn; on. Qed.
  Hint Resolve q_batch q_convert q_read_phase q_squeeze_phase : mute.
  Lemma q_read_phases t vk ph : forall a c, mute (c_read_phases F M t vk ph a c).
  Proof. induction ph; intros; cbn; on. Qed.
  Hint Resolve q_read_phases : mute.
  Lemma q_read_advice t vk n : mute (c_read_advice F M t vk n).
  Proof. unfold c_read_advice. on. Qed.
  Lemma q_read_lookups t vk n : mute (c_read_lookups_permuted F M t vk n).
  Proof. unfold c_read_lookups_permuted. on. Qed.
  Lemma q_read_sets t c : mute (c_read_sets F M t c).
  Proof. induction c; cbn; on. Qed.
  Hint Resolve q_read_advice q_read_lookups q_read_sets : mute.
  Lemma q_perm_evaluated t vk k x a b c d : mute (c_build_permutation_evaluated F M t vk k x a b c d).
  Proof. unfold c_build_permutation_evaluated. on. Qed.
  Lemma q_read_lookup t k i a : mute (c_read_lookup F M t k i a).
  Proof. destruct a as [j [[[pi pt] pr] [ie te]]]. unfold c_read_lookup. on. Qed.
  Hint Resolve q_perm_evaluated q_read_lookup : mute.
  Lemma q_lookup_evaluated t vk k a b : mute (c_build_lookup_evaluated F M t vk k a b).
  Proof. unfold c_build_lookup_evaluated. on. Qed.
  Lemma q_points t n : mute (c_load_n_points F M t n).
  Proof. unfold c_load_n_points. on. Qed.
  Lemma q_scalars t n : mute (c_load_n_scalars F M t n).
  Proof. unfold c_load_n_scalars. on. Qed.
  Hint Resolve q_lookup_evaluated q_points q_scalars : mute.
  Lemma q_points2 t n m : mute (c_load_n_m_points F M t n m).
  Proof. unfold c_load_n_m_points. on. Qed.
  Lemma q_scalars2 t n m : mute (c_load_n_m_scalars F M t n m).
  Proof. unfold c_load_n_m_scalars. on. Qed.


  (** *** what is known of a result wherever the counter stands *)
  Definition gives {A} (m : Q A) (P : A -> Prop) : Prop := forall n a cs n', m n = Some (a, cs, n') -> P a.
  Lemma gives_ret {A} (a : A) (P : A -> Prop) : P a -> gives (qret a) P.
  Proof. intros H n b cs n' E. injection E as <- <- <-. exact H. Qed.
  Lemma gives_any {A} (m : Q A) : gives m (fun _ => True).
  Proof. intros n a cs n' _. exact I. Qed.
  Lemma gives_fail {A} P : gives (@qfail F M A) P.
  Proof. discriminate. Qed.
  Lemma gives_lift {A} (o : option A) (P : A -> Prop) : (forall a, o = Some a -> P a) -> gives (qlift o) P.
  Proof. intro H. destruct o; [apply gives_ret; auto|apply gives_fail]. Qed.
  Lemma gives_bind {A B} (m : Q A) (k : A -> Q B) P R : gives m P -> (forall a, P a -> gives (k a) R) -> gives (qbind m k) R.
  Proof.
    intros Hm Hk n b cs n' E. unfold qbind in E. destruct (m n) as [[[a c1] n1]|] eqn:E1; [|discriminate].
    destruct (k a n1) as [[[b' c2] n2]|] eqn:E2; [|discriminate]. injection E as <- <- <-. exact (Hk a (Hm _ _ _ _ E1) _ _ _ _ E2).
  Qed.
  Lemma gives_map {A B} (f : A -> Q B) (R : B -> Prop) l : (forall a, In a l -> gives (f a) R) -> gives (qmap f l) (fun r => Forall R r).
  Proof.
    induction l as [|a l IH]; intro H; cbn [qmap]; [apply gives_ret; constructor|]. eapply gives_bind; [apply H; left; reflexivity|intros b Hb].
    eapply gives_bind; [apply IH; intros; apply H; right; assumption|intros r Hr]. apply gives_ret. now constructor.
  Qed.
  Lemma gives_fold {A B} (f : B -> A -> Q B) (R : B -> Prop) l : (forall b a, R b -> In a l -> gives (f b a) R) -> forall b, R b -> gives (qfold f l b) R.
  Proof.
    induction l as [|a l IH]; intros H b Hb; cbn [qfold]; [now apply gives_ret|]. eapply gives_bind; [apply (H b a Hb); left; reflexivity|intros b' Hb'].
    apply IH; [intros; apply H; [assumption|right; assumption]|exact Hb'].
  Qed.

  (** *** the points of a schema, a list of entries, the parameters *)
  Fixpoint schema_points (t : hschema) : list nat :=
    match t with
    | HSCommitment q => match hq_commitment q with Some i => [i] | None => [] end
    | HSEval _ | HSScalar _ => []
    | HSAdd l _ r _ | HSMul l _ r _ => schema_points l ++ schema_points r
    end.
  Definition entry_points (l : list hentry) : list nat := flat_map (fun e => match he_pt e with Some p => [p] | None => [] end) l.
  (** a set of positions, and what is inside it *)
  Section Inside.
  Variable S : nat -> Prop.
  Definition within (l : list nat) : Prop := Forall S l.
  Definition ins (t : hschema) : Prop := within (schema_points t).
  Lemma within_app a b : within a -> within b -> within (a ++ b).
  Proof. intros. now apply Forall_app. Qed.
  Lemma ins_add a b : ins a -> ins b -> ins (hs_add a b).
  Proof. intros. unfold ins. cbn. now apply within_app. Qed.
  Lemma ins_mul a b : ins a -> ins b -> ins (hs_mul a b).
  Proof. intros. unfold ins. cbn. now apply within_app. Qed.
  Lemma ins_scalar i : ins (HSScalar i).
  Proof. constructor. Qed.
  Lemma ins_commitment k c e : S c -> ins (HSCommitment (mkHQ k (Some c) e)).
  Proof. intro H. constructor; [exact H|constructor]. Qed.
  Lemma ins_query r k x c e : S c -> ins (hqu_s (h_query_new r k x c e)).
  Proof. intro H. unfold h_query_new. cbn [hqu_s]. apply ins_add; [now apply ins_commitment|constructor]. Qed.
  Lemma ins_reduce (f : hschema -> hschema -> hschema) l a : (forall x y, ins x -> ins y -> ins (f x y)) -> Forall ins l -> reduce f l = Some a -> ins a.
  Proof.
    intros Hf Hl E. destruct l as [|x l]; [discriminate|]. cbn [reduce] in E. injection E as <-. pose proof (Forall_inv Hl) as Hx. apply Forall_inv_tail in Hl.
    revert x Hx. induction Hl as [|y l Hy Hl IH]; intros x Hx; cbn [fold_left]; [exact Hx|]. apply IH, Hf; assumption.
  Qed.
  (** the entries of a sum *)
  Lemma merge1_in one ev : (within (entry_points [ev])) -> forall res, within (entry_points res) -> gives (c_merge1 F M one res ev) (fun r => within (entry_points r)).
  Proof.
    intro He. induction res as [|p res IH]; intro H; cbn [c_merge1]; [now apply gives_ret|].
    change (within (entry_points [p] ++ entry_points res)) in H || (unfold entry_points in H; cbn [flat_map] in H). apply Forall_app in H. destruct H as [H1 H2].
    destruct (String.eqb _ _).
    - eapply gives_bind; [apply gives_any|intros s _]. apply gives_ret. unfold entry_points. cbn [flat_map]. apply within_app; [exact H1|exact H2].
    - eapply gives_bind; [apply IH, H2|intros r Hr]. apply gives_ret. unfold entry_points. cbn [flat_map]. apply within_app; [exact H1|exact Hr].
  Qed.
  Lemma merge_in one res evs : within (entry_points res) -> within (entry_points evs) -> gives (c_merge F M one res evs) (fun r => within (entry_points r)).
  Proof.
    intros Hr He. unfold c_merge. apply gives_fold; [|exact Hr]. intros b a Hb Ha. apply merge1_in; [|exact Hb].
    unfold entry_points, within in *. cbn [flat_map]. rewrite app_nil_r. rewrite Forall_forall in *. intros x Hx. apply He. apply in_flat_map. now exists a.
  Qed.
  Lemma none_in (e : option nat) : within (entry_points [(""%string, None, e)]).
  Proof. constructor. Qed.
  Lemma prepare_in one t : forall sc, ins t -> gives (c_eval_prepare F M one t sc) (fun r => within (entry_points r)).
  Proof.
    induction t as [q|q|i|l IHl lc r IHr rc|l IHl lc r IHr rc]; intros sc H; cbn [c_eval_prepare].
    - unfold ins in H. cbn in H. destruct (hq_commitment q) as [c|]; [|apply gives_fail]. apply gives_ret. exact H.
    - destruct (hq_eval q); [|apply gives_fail]. eapply gives_bind; [apply gives_any|intros v _]. apply gives_ret, none_in.
    - eapply gives_bind; [apply gives_any|intros v _]. apply gives_ret, none_in.
    - unfold ins in H. cbn [schema_points] in H. apply Forall_app in H. destruct H as [H1 H2]. destruct (_ && _).
      + eapply gives_bind; [apply gives_any|intros le _]. eapply gives_bind; [apply gives_any|intros re _].
        destruct le as [|le [|]]; try apply gives_fail. destruct re as [|re [|]]; try apply gives_fail. destruct (he_sc le), (he_sc re); try apply gives_fail.
        eapply gives_bind; [apply gives_any|intros s _]. eapply gives_bind; [apply gives_any|intros v _]. apply gives_ret, none_in.
      + eapply gives_bind; [apply (IHl sc H1)|intros el Hl]. eapply gives_bind; [apply merge_in; [constructor|exact Hl]|intros res Hres].
        eapply gives_bind; [apply (IHr sc H2)|intros er Her]. now apply merge_in.
    - unfold ins in H. cbn [schema_points] in H. apply Forall_app in H. destruct H as [H1 H2]. cbv zeta. destruct (negb lc).
      + eapply gives_bind; [apply gives_any|intros s _]. destruct s as [|se [|]]; try apply gives_fail. destruct (he_sc se); [|apply gives_fail].
        eapply gives_bind; [apply gives_any|intros v _]. apply IHr, H2.
      + eapply gives_bind; [apply gives_any|intros s _]. destruct s as [|se [|]]; try apply gives_fail. destruct (he_sc se); [|apply gives_fail].
        eapply gives_bind; [apply gives_any|intros v _]. apply IHl, H1.
  Qed.
  Lemma summed_in points : within (entry_points points) ->
    within (map fst (flat_map (fun b : hentry => match he_pt b, he_sc b with Some p, Some v => [(p, v)] | _, _ => [] end) points)).
  Proof.
    unfold within, entry_points. rewrite !Forall_forall. intros H x Hx. apply in_map_iff in Hx. destruct Hx as ([p v] & <- & Hx). apply in_flat_map in Hx. destruct Hx as (e & He & Hx).
    apply H. apply in_flat_map. exists e. split; [exact He|]. destruct (he_pt e) as [q|]; [|destruct Hx]. destruct (he_sc e); [|destruct Hx]. destruct Hx as [Hx|[]]. injection Hx as -> ->. now left.
  Qed.

  (** *** the queries *)
  Definition qs_in (l : list hquery) : Prop := Forall (fun q => ins (hqu_s q)) l.
  Lemma nth_in l i c : within l -> nth_error l i = Some c -> S c.
  Proof. intros H E. unfold within in H. rewrite Forall_forall in H. apply H. exact (nth_error_In _ _ E). Qed.
  Lemma column_in p s qs cs es : within cs -> gives (c_column_queries F M p s qs cs es) qs_in.
  Proof.
    intro H. unfold c_column_queries. apply gives_map. intros [i [c a]] _. eapply gives_bind; [apply gives_any|intros pt _].
    eapply gives_bind; [apply (gives_lift _ S); intros c0 E; exact (nth_in _ _ _ H E)|intros c0 Hc]. eapply gives_bind; [apply gives_any|intros e _]. apply gives_ret. now apply ins_query.
  Qed.
  Definition sets_in (pe : hperm) : Prop := Forall (fun s => S (hs_commitment s)) (hpe_sets pe).
  Definition look_in (le : hlookup) : Prop := S (hle_product_commitment le) /\ S (hle_permuted_input_commitment le) /\ S (hle_permuted_table_commitment le).
  Lemma enum_in {A} (P : A -> Prop) l : Forall P l -> Forall (fun ia => P (snd ia)) (enumerate l).
  Proof. intro H. rewrite Forall_forall in *. intros [i a] Hi. apply H. exact (in_combine_r _ _ _ _ Hi). Qed.
  Lemma perm_in pe x y r : sets_in pe -> h_perm_queries pe x y = Some r -> qs_in r.
  Proof.
    intros H E. unfold h_perm_queries in E. destruct (mapM _ _) as [lasts|] eqn:Em; [|discriminate]. injection E as <-. apply Forall_app.
    pose proof (enum_in _ _ H) as He. split.
    - apply Forall_forall. intros q Hq. apply in_flat_map in Hq. destruct Hq as ([i s] & Hi & Hq). rewrite Forall_forall in He. specialize (He _ Hi). cbn [snd] in He.
      destruct Hq as [<-|[<-|[]]]; now apply ins_query.
    - assert (Hs : Forall (fun ia : nat * hset => S (hs_commitment (snd ia))) (skipn 1 (rev (enumerate (hpe_sets pe))))).
      { rewrite Forall_forall in *. intros z Hz. apply He. apply in_rev. destruct (rev _) as [|z0 l]; [destruct Hz|]. right. exact Hz. }
      revert lasts Em. induction Hs as [|[i s] l Hi Hl IH]; intros lasts Em; cbn [mapM] in Em; [injection Em as <-; constructor|].
      destruct (hs_last_eval s); [|discriminate]. cbn in Em. destruct (mapM _ l) as [l'|]; [|discriminate]. injection Em as <-. constructor; [now apply ins_query|now apply IH].
  Qed.
  Lemma look_queries_in le x xi xn : look_in le -> qs_in (h_lookup_queries le x xi xn).
  Proof. intros (H1 & H2 & H3). unfold h_lookup_queries, qs_in. do 5 (apply Forall_cons; [now apply ins_query|]). apply Forall_nil. Qed.
  Record params_in (p : hparams F) : Prop := {
    pi_inst : Forall within (hp_instance_commitments F p);
    pi_adv : Forall within (hp_advice_commitments F p);
    pi_fixed : within (hp_fixed_commitments F p);
    pi_permc : within (hp_permutation_commitments F p);
    pi_van : within (hp_vanish_commitments F p);
    pi_rand : S (hp_random_commitment F p);
    pi_w : within (hp_w F p);
    pi_perm : Forall sets_in (hp_permutation F p);
    pi_look : Forall (Forall look_in) (hp_lookup F p) }.
  Lemma nth_all {A} (P : A -> Prop) l i a : Forall P l -> nth_error l i = Some a -> P a.
  Proof. intros H E. rewrite Forall_forall in H. apply H. exact (nth_error_In _ _ E). Qed.
  Lemma proof_queries_in p i : params_in p -> gives (c_proof_queries F M p i) qs_in.
  Proof.
    intro H. unfold c_proof_queries. eapply gives_bind; [apply gives_lift; intros a E; exact (nth_all _ _ _ _ (pi_inst p H) E)|intros ic Hic].
    eapply gives_bind; [apply gives_any|intros ie _]. eapply gives_bind; [apply gives_lift; intros a E; exact (nth_all _ _ _ _ (pi_adv p H) E)|intros ac Hac].
    eapply gives_bind; [apply gives_any|intros ae _]. eapply gives_bind; [apply gives_lift; intros a E; exact (nth_all _ _ _ _ (pi_perm p H) E)|intros pe Hpe].
    eapply gives_bind; [apply gives_lift; intros a E; exact (nth_all _ _ _ _ (pi_look p H) E)|intros ls Hls].
    eapply gives_bind; [apply column_in, Hic|intros q1 H1]. eapply gives_bind; [apply column_in, Hac|intros q2 H2].
    eapply gives_bind; [apply gives_lift; intros a E; exact (perm_in _ _ _ _ Hpe E)|intros q3 H3]. apply gives_ret. unfold qs_in in *. rewrite !Forall_app. split; [exact H1|]. split; [exact H2|]. split; [exact H3|].
    apply Forall_forall. intros q Hq. apply in_flat_map in Hq. destruct Hq as (le & Hle & Hq). rewrite Forall_forall in Hls.
    pose proof (look_queries_in le (hp_x F p) (hp_x_inv F p) (hp_x_next F p) (Hls _ Hle)) as L. unfold qs_in in L. rewrite Forall_forall in L. auto.
  Qed.
  Lemma vanish_in es y xn rc re cs one k x : S rc -> within cs -> gives (c_vanish_queries F M es y xn rc re cs one k x) qs_in.
  Proof.
    intros Hr Hc. unfold c_vanish_queries. eapply gives_bind; [apply gives_any|intros acc _]. eapply gives_bind; [apply gives_any|intros e _].
    eapply gives_bind; [apply (gives_lift _ ins); intros a E|intros h Hh].
    - eapply ins_reduce; [| |exact E]; [intros u v Hu Hv; apply ins_add; [apply ins_mul; [apply ins_scalar|exact Hu]|exact Hv]|].
      apply Forall_forall. intros t Ht. apply in_map_iff in Ht. destruct Ht as ([i c] & <- & Hi). apply ins_commitment. cbn [snd]. unfold within in Hc. rewrite Forall_forall in Hc. apply Hc, in_rev. exact (in_combine_r _ _ _ _ Hi).
    - apply gives_ret. constructor; [cbn [hqu_s]; apply ins_add; [exact Hh|apply ins_scalar]|]. constructor; [now apply ins_query|constructor].
  Qed.
  Lemma queries_in p : params_in p -> gives (c_queries F M p) qs_in.
  Proof.
    intro H. unfold c_queries. do 3 (eapply gives_bind; [apply gives_any|intros ? _]). destruct (Nat.eqb _ 0); [apply gives_fail|].
    do 2 (eapply gives_bind; [apply gives_any|intros ? _]). eapply gives_bind; [apply gives_map; intros i _; apply proof_queries_in, H|intros pq Hpq].
    eapply gives_bind; [apply column_in, (pi_fixed p H)|intros fq Hfq]. cbv zeta. eapply gives_bind; [apply vanish_in; [exact (pi_rand p H)|exact (pi_van p H)]|intros vq Hvq]. apply gives_ret.
    unfold qs_in in *. rewrite !Forall_app. split; [|split; [exact Hfq|split; [|exact Hvq]]].
    - apply Forall_forall. intros q Hq. apply in_concat in Hq. destruct Hq as (l & Hl & Hq). rewrite Forall_forall in Hpq. specialize (Hpq l Hl). rewrite Forall_forall in Hpq. auto.
    - unfold h_perm_common_queries. apply Forall_forall. intros q Hq. apply in_map_iff in Hq. destruct Hq as ([i [c e]] & <- & Hi). apply ins_query.
      pose proof (pi_permc p H) as P. unfold within in P. rewrite Forall_forall in P. apply P. exact (in_combine_l _ _ _ _ (in_combine_r _ _ _ _ Hi)).
  Qed.
  (** *** the opening *)
  Lemma group_in qs : qs_in qs -> Forall (fun g : Z * (nat * list hschema) => Forall ins (snd (snd g))) (h_group_queries qs).
  Proof.
    unfold h_group_queries. assert (G : forall gs, Forall (fun g : Z * (nat * list hschema) => Forall ins (snd (snd g))) gs -> qs_in qs -> Forall (fun g : Z * (nat * list hschema) => Forall ins (snd (snd g))) (fold_left h_group_insert qs gs)).
    { induction qs as [|q qs IH]; intros gs Hg Hq; cbn [fold_left]; [exact Hg|]. apply IH; [|exact (Forall_inv_tail Hq)]. apply Forall_inv in Hq. clear IH. induction Hg as [|[r [pt ss]] gs Hg0 Hg IH]; cbn [h_group_insert].
      - constructor; [|constructor]. cbn. constructor; [exact Hq|constructor].
      - destruct (Z.eqb _ _); constructor; [|exact Hg|exact Hg0|exact IH]. cbn in *. apply Forall_app. split; [exact Hg0|]. constructor; [exact Hq|constructor]. }
    intro H. apply G; [constructor|exact H].
  Qed.
  Definition mo_in (m : hmultiopen) : Prop := ins (hw_x m) /\ ins (hw_g m).
  Lemma schemas_in v w qs r : within w -> qs_in qs -> h_get_point_schemas v w qs = Some r -> Forall (fun e => ins (hep_s e) /\ S (hep_w e)) r.
  Proof.
    intros Hw Hq E. unfold h_get_point_schemas in E. cbv zeta in E. destruct (Nat.eqb _ _); [|discriminate]. apply group_in in Hq.
    assert (Hc : Forall (fun gw : (Z * (nat * list hschema)) * nat => Forall ins (snd (snd (fst gw))) /\ S (snd gw)) (combine (h_group_queries qs) w)).
    { unfold within in Hw. rewrite Forall_forall in *. intros [g x] Hi. split; [apply Hq; exact (in_combine_l _ _ _ _ Hi)|apply Hw; exact (in_combine_r _ _ _ _ Hi)]. }
    revert r E. induction Hc as [|[[z [pt ss]] x] l [H1 H2] Hl IH]; intros r E; cbn [mapM] in E; [injection E as <-; constructor|].
    destruct (reduce _ (rev ss)) as [acc|] eqn:Er; [|discriminate]. cbn in E. destruct (mapM _ l) as [l'|]; [|discriminate]. injection E as <-. constructor; [|now apply IH].
    cbn in *. split; [|exact H2]. eapply ins_reduce; [| |exact Er]; [intros u y Hu Hy; apply ins_add; [apply ins_mul; [apply ins_scalar|exact Hu]|exact Hy]|]. apply Forall_rev. exact H1.
  Qed.
  Lemma batch_in k u v w qs r : within w -> qs_in qs -> h_batch_queries k u v w qs = Some r -> mo_in r.
  Proof.
    intros Hw Hq E. unfold h_batch_queries in E. destruct (h_get_point_schemas v w qs) as [ps|] eqn:Es; [|discriminate]. cbn in E. apply (schemas_in v w qs ps Hw Hq) in Es.
    apply enum_in in Es. apply Forall_rev in Es. revert E. generalize (rev (enumerate ps)) Es. clear Es. intros l Hl.
    assert (G : forall acc, match acc with Some a => mo_in a | None => True end -> match fold_left (h_batch_step k u) l acc with Some a => mo_in a | None => True end).
    { induction Hl as [|[i p] l [H1 H2] Hl IH]; intros acc Ha; cbn [fold_left]; [exact Ha|]. apply IH. cbn [h_batch_step snd] in *. pose proof (ins_commitment (k ++ "_w" ++ fmt_nat i)%string _ None H2) as Hc.
      destruct acc as [a|]; cbn [h_batch_step]; split; cbn [hw_x hw_g].
      - apply ins_add; [apply ins_mul; [apply ins_scalar|apply Ha]|exact Hc].
      - apply ins_add; [apply ins_add; apply ins_mul; try apply ins_scalar; [apply Ha|exact Hc]|exact H1].
      - exact Hc.
      - apply ins_add; [apply ins_mul; [apply ins_scalar|exact Hc]|exact H1]. }
    intro E. specialize (G None I). rewrite E in G. exact G.
  Qed.
  Lemma open_in p : params_in p -> gives (c_batch_multi_open_proofs F M p) mo_in.
  Proof. intro H. unfold c_batch_multi_open_proofs. eapply gives_bind; [apply queries_in, H|intros qs Hq]. apply gives_lift. intros a E. exact (batch_in _ _ _ _ _ _ (pi_w p H) Hq E). Qed.
  Lemma aggregate_in c l r : Forall mo_in l -> h_aggregate c l = Some r -> mo_in r.
  Proof.
    intros Hl E. unfold h_aggregate in E. destruct l as [|x l]; [discriminate|]. cbn [reduce] in E. injection E as <-. pose proof (Forall_inv Hl) as Hx. apply Forall_inv_tail in Hl.
    revert x Hx. induction Hl as [|y l Hy Hl IH]; intros x Hx; cbn [fold_left]; [exact Hx|]. apply IH. split; cbn [hw_x hw_g]; (apply ins_add; [apply ins_mul; [apply Hx|apply ins_scalar]|apply Hy]).
  Qed.
  End Inside.

  (** *** from the kinds [ks]: the sums are of exact points, positions are counted right, and [P] of the result *)
  Notation ext := CallOrder.ext.
  Definition xrd (ks : list kind) {A} (m : Q A) (P : A -> list kind -> Prop) : Prop := forall a cs n', m (List.length ks) = Some (a, cs, n') ->
    sums ks cs = true /\ n' = List.length (ks ++ added cs) /\ ext ks (ks ++ added cs) /\ P a (ks ++ added cs).
  Lemma sums_app cs : forall ks cs', sums ks (cs ++ cs') = sums ks cs && sums (ks ++ added cs) cs'.
  Proof.
    induction cs as [|c cs IH]; intros ks cs'; cbn [sums_exact app]; [unfold CallOrder.added; cbn; now rewrite app_nil_r|].
    rewrite IH, <- !andb_assoc. unfold CallOrder.added. cbn [map concat]. now rewrite app_assoc.
  Qed.
  Lemma xrd_bind ks {A B} (m : Q A) (k : A -> Q B) P R : xrd ks m P -> (forall a ks', ext ks ks' -> P a ks' -> xrd ks' (k a) R) -> xrd ks (qbind m k) R.
  Proof.
    intros Hm Hk b cs n' E. unfold qbind in E. destruct (m _) as [[[a c1] n1]|] eqn:E1; [|discriminate]. destruct (Hm _ _ _ E1) as (F1 & -> & X1 & P1).
    destruct (k a _) as [[[b' c2] n2]|] eqn:E2; [|discriminate]. injection E as <- <- <-. destruct (Hk a _ X1 P1 _ _ _ E2) as (F2 & -> & X2 & P2).
    rewrite sums_app, F1, F2, added_app, app_assoc. split; [reflexivity|]. split; [reflexivity|]. split; [exact (ext_trans _ _ _ X1 X2)|exact P2].
  Qed.
  Lemma xrd_ret ks {A} (a : A) (P : A -> list kind -> Prop) : P a ks -> xrd ks (qret a) P.
  Proof. intros H b cs n' E. injection E as <- <- <-. unfold CallOrder.added. cbn [map concat]. rewrite app_nil_r. split; [reflexivity|]. split; [reflexivity|]. split; [apply ext_refl|exact H]. Qed.
  Lemma xrd_fail ks {A} P : xrd ks (@qfail F M A) P.
  Proof. discriminate. Qed.
  Lemma xrd_conseq ks {A} (m : Q A) (P R : A -> list kind -> Prop) : xrd ks m P -> (forall a ks', ext ks ks' -> P a ks' -> R a ks') -> xrd ks m R.
  Proof. intros H HR a cs n' E. destruct (H a cs n' E) as (A1 & A2 & A3 & A4). auto. Qed.
  Lemma nosum_sums cs : Forall nosum cs -> forall ks, sums ks cs = true.
  Proof. induction 1 as [|c cs Hc H IH]; intros ks; [reflexivity|]. cbn [sums_exact]. rewrite IH, andb_true_r. destruct c; try reflexivity. destruct Hc. Qed.
  Lemma xrd_mute ks {A} (m : Q A) P : mute m -> gives m P -> xrd ks m (fun a _ => P a).
  Proof.
    intros H HP a cs n' E. destruct (H _ _ _ _ E) as [H1 ->]. split; [apply nosum_sums, H1|]. split; [now rewrite app_length|]. split; [now exists (added cs)|exact (HP _ _ _ _ E)].
  Qed.
  Lemma xrd_bind_mute ks {A B} (m : Q A) (k : A -> Q B) R : mute m -> (forall a ks', ext ks ks' -> xrd ks' (k a) R) -> xrd ks (qbind m k) R.
  Proof. intros Hm H. eapply xrd_bind; [apply xrd_mute; [exact Hm|apply gives_any]|]. intros. now apply H. Qed.
  Lemma xrd_map ks {A B} (f : A -> Q B) (R : B -> list kind -> Prop) l : (forall b ks1 ks2, ext ks1 ks2 -> R b ks1 -> R b ks2) ->
    (forall a ks', In a l -> ext ks ks' -> xrd ks' (f a) R) -> xrd ks (qmap f l) (fun bs ks' => Forall (fun b => R b ks') bs).
  Proof.
    intros Hmono. revert ks. induction l as [|a l IH]; intros ks Hf; cbn [qmap].
    - apply xrd_ret. constructor.
    - eapply xrd_bind; [apply (Hf a ks); [left; reflexivity|apply ext_refl]|]. intros b ks1 X1 R1. cbn beta in *.
      eapply xrd_bind; [apply (IH ks1); intros a' ks' I' X'; apply Hf; [right; exact I'|exact (ext_trans _ _ _ X1 X')]|]. intros bs ks2 X2 R2. cbn beta in *. apply xrd_ret.
      constructor; [exact (Hmono _ _ _ X2 R1)|exact R2].
  Qed.
  Definition exact (ks : list kind) (i : nat) : Prop := exactb ks i = true.
  Lemma xrd_exact ks c : nosum c -> kind_of c = [KExact] -> xrd ks (emit c) (fun i ks' => exact ks' i).
  Proof.
    intros Hc E a cs n' E'. injection E' as <- <- <-. unfold CallOrder.added. cbn [map concat]. rewrite app_nil_r, E. split; [apply nosum_sums; auto|]. split; [rewrite app_length; cbn; lia|].
    split; [now eexists|]. unfold exact, exactb. rewrite nth_error_app2 by lia. rewrite Nat.sub_diag. reflexivity.
  Qed.
  (** monotone facts *)
  Lemma up ks ks' i : ext ks ks' -> exact ks i -> exact ks' i.
  Proof. apply exact_ext. Qed.
  Lemma up1 ks ks' l : ext ks ks' -> within (exact ks) l -> within (exact ks') l.
  Proof. intros X. apply Forall_impl. intro i. now apply up. Qed.
  Lemma up2 ks ks' l : ext ks ks' -> Forall (within (exact ks)) l -> Forall (within (exact ks')) l.
  Proof. intros X. apply Forall_impl. intro i. now apply up1. Qed.
  Definition pair_in (S : nat -> Prop) (p : nat * nat) : Prop := S (fst p) /\ S (snd p).
  Lemma up3 ks ks' l : ext ks ks' -> Forall (Forall (pair_in (exact ks))) l -> Forall (Forall (pair_in (exact ks'))) l.
  Proof. intros X. apply Forall_impl. intro a. apply Forall_impl. intros p [H1 H2]. split; now apply (up ks). Qed.
  Lemma up_perm ks ks' l : ext ks ks' -> Forall (sets_in (exact ks)) l -> Forall (sets_in (exact ks')) l.
  Proof. intros X. apply Forall_impl. intro a. apply Forall_impl. intro s. now apply up. Qed.
  Lemma up_look ks ks' l : ext ks ks' -> Forall (Forall (look_in (exact ks))) l -> Forall (Forall (look_in (exact ks'))) l.
  Proof. intros X. apply Forall_impl. intro a. apply Forall_impl. intros p (H1 & H2 & H3). split; [|split]; now apply (up ks). Qed.
  Lemma up_ins ks ks' t : ext ks ks' -> ins (exact ks) t -> ins (exact ks') t.
  Proof. intros X. now apply up1. Qed.
  Lemma up_mo ks ks' t : ext ks ks' -> mo_in (exact ks) t -> mo_in (exact ks') t.
  Proof. intros X [H1 H2]. split; now apply (up_ins ks). Qed.
  Ltac lift_all X := match type of X with ext ?k ?k' => repeat first
    [ match goal with H : exact k _ |- _ => apply (up k k' _ X) in H end
    | match goal with H : within (exact k) _ |- _ => apply (up1 k k' _ X) in H end
    | match goal with H : Forall (within (exact k)) _ |- _ => apply (up2 k k' _ X) in H end
    | match goal with H : Forall (Forall (pair_in (exact k))) _ |- _ => apply (up3 k k' _ X) in H end
    | match goal with H : Forall (sets_in (exact k)) _ |- _ => apply (up_perm k k' _ X) in H end
    | match goal with H : Forall (Forall (look_in (exact k))) _ |- _ => apply (up_look k k' _ X) in H end
    | match goal with H : mo_in (exact k) _ |- _ => apply (up_mo k k' _ X) in H end ]; clear X end.

  (** *** the readers *)
  Lemma x_points ks t n : xrd ks (c_load_n_points F M t n) (fun l ks' => within (exact ks') l).
  Proof. unfold c_load_n_points, qtimes. apply xrd_map; [intros b k1 k2; apply up|]. intros a ks' _ _. now apply xrd_exact. Qed.
  Lemma x_points2 ks t n m : xrd ks (c_load_n_m_points F M t n m) (fun l ks' => Forall (within (exact ks')) l).
  Proof. unfold c_load_n_m_points, qtimes. apply (xrd_map ks _ (fun b ks' => within (exact ks') b)); [intros b k1 k2; apply up1|]. intros a ks' _ _. apply x_points. Qed.
  Lemma x_consts ks l : xrd ks (qmap (fun P => emit (CPConst P)) l) (fun l ks' => within (exact ks') l).
  Proof. apply xrd_map; [intros b k1 k2; apply up|]. intros a ks' _ _. now apply xrd_exact. Qed.
  Lemma x_lookups ks t vk n : xrd ks (c_read_lookups_permuted F M t vk n) (fun l ks' => Forall (Forall (pair_in (exact ks'))) l).
  Proof.
    unfold c_read_lookups_permuted, qtimes. apply (xrd_map ks _ (fun b ks' => Forall (pair_in (exact ks')) b)).
    { intros b k1 k2 X. apply Forall_impl. intros p [H1 H2]. split; now apply (up k1). }
    intros _ ks1 _ _. apply (xrd_map ks1 _ (fun b ks' => pair_in (exact ks') b)); [intros p k1 k2 X [H1 H2]; split; now apply (up k1)|].
    intros _ ks2 _ _. eapply xrd_bind; [now apply xrd_exact|intros i ks3 X3 H3]. eapply xrd_bind; [now apply xrd_exact|intros j ks4 X4 H4]. cbn beta in *. apply xrd_ret. split; [exact (up _ _ _ X4 H3)|exact H4].
  Qed.
  Lemma x_committed ks t (l : list (list (nat * nat))) : xrd ks (qmap (qmap (fun _ => emit (CReadPoint t))) l) (fun r ks' => Forall (within (exact ks')) r).
  Proof.
    apply (xrd_map ks _ (fun b ks' => within (exact ks') b)); [intros b k1 k2; apply up1|]. intros a ks1 _ _. apply xrd_map; [intros b k1 k2; apply up|]. intros a' ks' _ _. now apply xrd_exact.
  Qed.
  Lemma x_commit ks g l : xrd ks (c_instance_commitment F M g l) (fun i ks' => exact ks' i).
  Proof. unfold c_instance_commitment. apply xrd_bind_mute; [on|]. intros [a|] ks' X'; now apply xrd_exact. Qed.
  Lemma x_assign ks c n b g shape : xrd ks (c_assign_instance_commitment F M c n b g shape) (fun r ks' => Forall (within (exact ks')) (snd r)).
  Proof.
    unfold c_assign_instance_commitment. destruct (forallb _ _); [|apply xrd_fail]. destruct (forallb _ _); [|apply xrd_fail].
    apply xrd_bind_mute; [on|]. intros insts ks1 X1. eapply xrd_bind.
    - apply (xrd_map ks1 _ (fun l ks' => within (exact ks') l)); [intros l k1 k2; apply up1|]. intros l ks2 _ X2.
      apply (xrd_map ks2 _ (fun i ks' => exact ks' i)); [intros i k1 k2; apply up|]. intros i ks3 _ X3. apply x_commit.
    - intros cs ks2 X2 H2. now apply xrd_ret.
  Qed.
  Definition opt_in (S : nat -> Prop) (o : option nat) : Prop := match o with Some i => S i | None => True end.
  Definition opts_in ks l : Prop := Forall (opt_in (exact ks)) l.
  Lemma up_opts l ks ks' : ext ks ks' -> opts_in ks l -> opts_in ks' l.
  Proof. intros X. apply Forall_impl. intros [i|]; [|auto]. now apply up. Qed.
  Lemma x_read_phase t c ph : forall ks cells, opts_in ks cells -> xrd ks (c_read_phase F M t c ph cells) (fun r ks' => opts_in ks' r).
  Proof.
    induction ph as [|p ph IH]; intros ks [|x cells] Hc; cbn [c_read_phase]; try (apply xrd_ret; exact Hc).
    eapply xrd_bind with (P := fun o ks' => opt_in (exact ks') o).
    - destruct (Nat.eqb c p); [|apply xrd_ret; exact (Forall_inv Hc)]. eapply xrd_bind; [now apply xrd_exact|]. intros i ks1 _ E1. now apply xrd_ret.
    - intros o ks1 X1 E1. eapply xrd_bind; [apply IH; exact (up_opts _ _ _ X1 (Forall_inv_tail Hc))|]. intros r ks2 X2 E2. apply xrd_ret.
      constructor; [|exact E2]. destruct o; [exact (up _ _ _ X2 E1)|exact I].
  Qed.
  Lemma x_read_phases t vk ph : forall ks a c, Forall (opts_in ks) a -> xrd ks (c_read_phases F M t vk ph a c) (fun r ks' => Forall (opts_in ks') (fst r)).
  Proof.
    induction ph as [|p ph IH]; intros ks a c Ha; cbn [c_read_phases]; [now apply xrd_ret|].
    eapply xrd_bind; [apply (xrd_map ks _ (fun r ks' => opts_in ks' r)); [intros b k1 k2; apply up_opts|]; intros l ks' Il X'; apply x_read_phase; apply (up_opts _ _ _ X'); rewrite Forall_forall in Ha; auto|].
    intros a' ks1 X1 E1. apply xrd_bind_mute; [auto with mute|]. intros c' ks2 X2. apply IH.
    eapply Forall_impl; [|exact E1]. intros l. exact (up_opts l ks1 ks2 X2).
  Qed.
  Lemma x_read_advice ks t vk n : xrd ks (c_read_advice F M t vk n) (fun r ks' => Forall (within (exact ks')) (fst r)).
  Proof.
    unfold c_read_advice. apply xrd_bind_mute; [on|]. intros z ks1 X1. eapply xrd_bind; [apply x_read_phases|].
    { apply Forall_forall. intros l Hl. apply repeat_spec in Hl. subst l. apply Forall_forall. intros o Ho. apply repeat_spec in Ho. now subst o. }
    intros [a c] ks2 X2 E2. cbn [fst snd] in *. destruct (mapM (mapM (fun x => x)) a) as [a'|] eqn:Em; [|cbn [qlift]; intros b cs n' E; discriminate E].
    eapply xrd_bind with (P := fun x ks' => x = a' /\ Forall (opts_in ks') a); [apply xrd_ret; auto|]. intros x ks3 X3 [-> E3]. apply xrd_ret. cbn [fst].
    clear - Em E3. revert a' Em. induction E3 as [|l a Hl H IH]; intros a' Em; cbn [mapM] in Em; [injection Em as <-; constructor|].
    destruct (mapM (fun x => x) l) as [l'|] eqn:El; [|discriminate]. destruct (mapM _ a) as [a2|]; [|discriminate]. injection Em as <-. constructor; [|now apply IH].
    clear - Hl El. revert l' El. induction Hl as [|o l Ho H IH]; intros l' El; cbn [mapM] in El; [injection El as <-; constructor|].
    destruct o as [i|]; [|discriminate]. destruct (mapM _ l) as [l2|]; [|discriminate]. injection El as <-. constructor; [exact Ho|now apply IH].
  Qed.
  Lemma read_sets_in S t cs : within S cs -> gives (c_read_sets F M t cs) (fun r => Forall (fun s => S (hs_commitment s)) r).
  Proof.
    induction 1 as [|c cs Hc H IH]; cbn [c_read_sets]; [apply gives_ret; constructor|]. do 3 (eapply gives_bind; [apply gives_any|intros ? _]).
    eapply gives_bind; [apply IH|intros r Hr]. apply gives_ret. constructor; [exact Hc|exact Hr].
  Qed.
  Lemma perm_evaluated_in S t vk k x cs ae ie fe : Forall (within S) cs -> gives (c_build_permutation_evaluated F M t vk k x cs ae ie fe) (Forall (sets_in S)).
  Proof.
    intro H. unfold c_build_permutation_evaluated. eapply gives_bind; [apply gives_map; intros a Ha; apply (read_sets_in S); rewrite Forall_forall in H; auto|intros sets Hs].
    eapply gives_bind; [apply gives_any|intros evals _]. apply gives_ret. apply Forall_forall. intros p Hp. apply in_map_iff in Hp. destruct Hp as ([i [s e]] & <- & Hi).
    unfold sets_in. cbn [hpe_sets]. rewrite Forall_forall in Hs. apply Hs. exact (in_combine_l _ _ _ _ (in_combine_r _ _ _ _ Hi)).
  Qed.
  Lemma lookup_evaluated_in S t vk k pm cm : Forall (Forall (pair_in S)) pm -> Forall (within S) cm -> gives (c_build_lookup_evaluated F M t vk k pm cm) (Forall (Forall (look_in S))).
  Proof.
    intros H1 H2. unfold c_build_lookup_evaluated. apply gives_map. intros [i [p c]] Hi. apply in_combine_r in Hi. rewrite Forall_forall in H1, H2. pose proof (H1 _ (in_combine_l _ _ _ _ Hi)) as Hp. pose proof (H2 _ (in_combine_r _ _ _ _ Hi)) as Hc.
    apply gives_map. intros [j [[[pi pt] pr] [ie te]]] Hj. apply in_combine_r, in_combine_l in Hj. rewrite Forall_forall in Hp. specialize (Hp _ (in_combine_l _ _ _ _ Hj)). apply in_combine_r in Hj. unfold within in Hc. rewrite Forall_forall in Hc. specialize (Hc _ Hj). destruct Hp as [Hp1 Hp2]. cbn [fst snd] in *.
    unfold c_read_lookup. do 7 (eapply gives_bind; [apply gives_any|intros ? _]). apply gives_ret. split; [|split]; assumption.
  Qed.
  Lemma xrd_bind_in ks {A B} (m : Q A) (k : A -> Q B) P R : mute m -> gives m P -> (forall a ks', ext ks ks' -> P a -> xrd ks' (k a) R) -> xrd ks (qbind m k) R.
  Proof. intros Hm HP H. eapply xrd_bind; [apply xrd_mute; [exact Hm|exact HP]|]. intros. now apply H. Qed.
  Lemma q_squeeze_instance t i : mute (c_squeeze_instance_commitment F M t i).
  Proof. unfold c_squeeze_instance_commitment. on. Qed.
  Hint Resolve q_points2 q_scalars2 q_pow q_rotate q_convert q_squeeze_instance : mute.
  Ltac step := apply xrd_bind_mute; [solve [on]|]; let X := fresh "X" in intros ? ? X; lift_all X.
  Ltac got lem := eapply xrd_bind; [apply lem|]; let X := fresh "X" in let H := fresh "H" in intros ? ? X H; cbn beta in H; lift_all X.
  Lemma x_build ks t vk nw k i : Forall (within (exact ks)) i -> xrd ks (c_build_params F M t vk nw k i) (fun p ks' => params_in (exact ks') p).
  Proof.
    intros Hi. unfold c_build_params. destruct (Nat.leb _ 2); [apply xrd_fail|]. cbv zeta. do 3 step.
    got x_read_advice. match goal with |- xrd _ (let '(_, _) := ?x in _) _ => destruct x as [adv ch] end. cbn [fst] in *. step. got x_lookups. do 2 step. got x_points2. got x_committed.
    eapply xrd_bind; [now apply xrd_exact|]. intros rc ks0 X0 Hrc. cbn beta in Hrc. lift_all X0. step. got x_points. do 6 step.
    eapply xrd_bind_in; [on|eapply perm_evaluated_in; eassumption|]. intros pe ks1 X1 Hpe. lift_all X1.
    eapply xrd_bind_in; [on|eapply lookup_evaluated_in; eassumption|]. intros le ks2 X2 Hle. lift_all X2.
    got x_consts. step. got x_points. do 6 step. got x_consts. do 5 step. apply xrd_ret. constructor; cbn; assumption.
  Qed.
  Lemma x_vsp ks t vk nw k i : Forall (within (exact ks)) i -> xrd ks (c_verify_single_proof_no_eval F M t vk nw k i) (fun r ks' => mo_in (exact ks') (fst r)).
  Proof.
    intros Hi. unfold c_verify_single_proof_no_eval. eapply xrd_bind; [apply x_build; assumption|]. intros p ks1 X1 E1. cbn beta in *.
    eapply xrd_bind_in; [on|apply (open_in (exact ks1)); exact E1|]. intros pr ks2 X2 H2. apply (up_mo _ _ _ X2) in H2. step. now apply xrd_ret.
  Qed.
  Lemma x_proof ks c p : xrd ks (c_aggregate_proof F M c p) (fun r ks' => mo_in (exact ks') (snd (fst r))).
  Proof.
    unfold c_aggregate_proof. eapply xrd_bind; [apply x_assign|]. intros ic ks1 X1 E1. cbn beta in *.
    eapply xrd_bind; [apply x_vsp; assumption|]. intros pc ks2 X2 E2. apply xrd_ret. exact E2.
  Qed.
  Lemma x_circuit ks m c : xrd ks (c_aggregate_circuit F M m c) (fun rs ks' => Forall (fun r => mo_in (exact ks') (snd (fst r))) rs).
  Proof.
    unfold c_aggregate_circuit. eapply xrd_bind.
    - apply (xrd_map ks _ (fun r ks' => mo_in (exact ks') (snd (fst r)))); [intros r k1 k2; apply up_mo|]. intros p ks1 _ _. apply x_proof.
    - intros rs ks1 X1 E1. apply xrd_bind_mute; [on|]. intros u ks2 X2. apply xrd_ret. eapply Forall_impl; [|exact E1]. intros r. exact (up_mo ks1 ks2 _ X2).
  Qed.
  Lemma x_eval ks one t : ins (exact ks) t -> xrd ks (c_eval F M one t) (fun _ _ => True).
  Proof.
    intro H. unfold c_eval. eapply xrd_bind_in; [on|apply (prepare_in (exact ks)); exact H|]. intros pts ks1 X1 H1. apply (up1 _ _ _ X1) in H1.
    apply xrd_bind_mute; [on|]. intros s ks2 X2. lift_all X2. cbv zeta. eapply xrd_bind with (P := fun _ _ => True).
    - intros a cs n' E. injection E as <- <- <-. unfold CallOrder.added. cbn [map concat sums_exact kind_of]. apply summed_in in H1. split.
      + rewrite !andb_true_r. apply forallb_forall. intros i Hi. unfold within in H1. rewrite Forall_forall in H1. exact (H1 i Hi).
      + cbn [app]. split; [rewrite app_length; cbn; lia|]. split; [now eexists|exact I].
    - intros acc ks3 X3 _. apply xrd_bind_mute; [on|]. intros. now apply xrd_ret.
  Qed.
  Lemma x_evaluate ks p : mo_in (exact ks) p -> xrd ks (c_evaluate_multiopen_proof F M p) (fun _ _ => True).
  Proof.
    intros H. unfold c_evaluate_multiopen_proof. step. eapply xrd_bind; [apply x_eval, H|]. intros [l le] ks1 X1 _. lift_all X1.
    eapply xrd_bind; [apply x_eval, H|]. intros [r re] ks2 X2 _. lift_all X2. do 3 step. now apply xrd_ret.
  Qed.
  Lemma x_top m cs : xrd [] (c_verify_aggregation_proofs_in_chip F M m cs) (fun _ _ => True).
  Proof.
    unfold c_verify_aggregation_proofs_in_chip. eapply xrd_bind.
    - apply (xrd_map [] _ (fun rs ks' => Forall (fun r => mo_in (exact ks') (snd (fst r))) rs)); [|intros c ks1 _ _; apply x_circuit].
      intros rs k1 k2 X. apply Forall_impl. intros r. exact (up_mo k1 k2 _ X).
    - intros rs ks1 X1 E1. clear X1. cbn beta in *. cbv zeta.
      assert (E2 : Forall (mo_in (exact ks1)) (map (fun r : list nat * hmultiopen * list nat => snd (fst r)) (concat rs))).
      { apply Forall_forall. intros q Hq. apply in_map_iff in Hq. destruct Hq as (r & <- & Hr). apply in_concat in Hr. destruct Hr as (rr & H1 & H2). rewrite Forall_forall in E1. specialize (E1 _ H1). rewrite Forall_forall in E1. exact (E1 _ H2). }
      apply xrd_bind_mute; [on|]. intros ch ks2 X2. assert (E3 : Forall (mo_in (exact ks2)) (map (fun r : list nat * hmultiopen * list nat => snd (fst r)) (concat rs))) by (eapply Forall_impl; [|exact E2]; intros r; exact (up_mo ks1 ks2 _ X2)).
      eapply xrd_bind_in; [on|apply gives_lift; intros a E; exact (aggregate_in _ _ _ _ E3 E)|]. intros agg ks3 X3 H3. lift_all X3. step. eapply xrd_bind; [apply x_evaluate, H3|]. intros. now apply xrd_ret.
  Qed.
  Lemma generated_sums_exact m cs r calls n : c_verify_aggregation_proofs_in_chip F M m cs 0 = Some (r, calls, n) -> sums [] calls = true.
  Proof. intro E. apply (x_top m cs) in E. apply E. Qed.
End Exact.
