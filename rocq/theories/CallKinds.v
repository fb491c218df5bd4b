(** Which kinds of calls the verifier makes where: instance values are assigned only at the
    start of a proof, one call for each, and points are subtracted only at the very end. *)
From Coq Require Import String ZArith NArith Arith Lia List Bool.
From Verif Require Import Util Algebra Schema Plonk BuildParams Calls VerifierCalls VerifierCallsTop.
Import ListNotations.

Section Kinds.
  Variable F : Fld.
  Variable M : Mod F.
  Notation call := (call F M).
  Notation Q := (Q F M).

  Definition plain (c : call) : Prop := match c with Calls.CInstance | CPSub _ _ => False | _ => True end.
  Definition only (P : call -> Prop) {A} (m : Q A) : Prop := forall n a cs n', m n = Some (a, cs, n') -> Forall P cs.

  Lemma only_ret P {A} (a : A) : only P (qret a).
  Proof. intros n b cs n' E. injection E as <- <- <-. constructor. Qed.
  Lemma only_fail P {A} : only P (@qfail F M A).
  Proof. discriminate. Qed.
  Lemma only_lift P {A} (o : option A) : only P (qlift o).
  Proof. destruct o; [apply only_ret|apply only_fail]. Qed.
  Lemma only_emit (P : call -> Prop) c : P c -> only P (emit c).
  Proof. intros H n b cs n' E. injection E as <- <- <-. auto. Qed.
  Lemma only_emit_ (P : call -> Prop) c : P c -> only P (emit_ c).
  Proof. intros H n b cs n' E. injection E as <- <- <-. auto. Qed.
  Lemma only_bind P {A B} (m : Q A) (k : A -> Q B) : only P m -> (forall a, only P (k a)) -> only P (qbind m k).
  Proof.
    intros Hm Hk n b cs n' E. unfold qbind in E. destruct (m n) as [[[a c1] n1]|] eqn:E1; [|discriminate].
    destruct (k a n1) as [[[b' c2] n2]|] eqn:E2; [|discriminate]. injection E as <- <- <-. apply Forall_app. split; [exact (Hm _ _ _ _ E1)|exact (Hk _ _ _ _ _ E2)].
  Qed.
  Lemma only_map P {A B} (f : A -> Q B) l : (forall a, only P (f a)) -> only P (qmap f l).
  Proof. intro H. induction l as [|a l IH]; cbn; [apply only_ret|]. apply only_bind; [apply H|]. intro. apply only_bind; [exact IH|]. intro. apply only_ret. Qed.
  Lemma only_fold P {A B} (f : B -> A -> Q B) l : (forall b a, only P (f b a)) -> forall b, only P (qfold f l b).
  Proof. intro H. induction l as [|a l IH]; intro b; cbn; [apply only_ret|]. apply only_bind; [apply H|exact IH]. Qed.
  Lemma only_times P {A} n (m : Q A) : only P m -> only P (qtimes n m).
  Proof. intro H. apply only_map. auto. Qed.

  Create HintDb kinds.
  Ltac on := repeat first
    [ progress intros
    | apply only_ret | apply only_fail | apply only_lift | (apply only_emit; exact I) | (apply only_emit_; exact I)
    | apply only_bind | apply only_map | apply only_fold | apply only_times
    | solve [auto with kinds]
    | match goal with |- only _ (match ?x with _ => _ end) => destruct x end
    | match goal with |- only _ (let '(_, _) := ?x in _) => destruct x end ].
  Notation plainly m := (only plain m).

  Lemma k_ast t : plainly (c_ast F M t).
  Proof. induction t; cbn; on. Qed.
  Hint Resolve k_ast : kinds.
  Lemma k_mul_add a b c : plainly (c_mul_add F M a b c).
  Proof. unfold c_mul_add. on. Qed.
  Hint Resolve k_mul_add : kinds.
  Lemma k_acc a b : plainly (c_mul_add_accumulate F M a b).
  Proof. unfold c_mul_add_accumulate. on. Qed.
  Lemma k_pow_loop fuel : forall b e s acc, plainly (c_pow_loop F M fuel b e s acc).
  Proof. induction fuel as [|fuel IH]; intros; cbn; on. Qed.
  Hint Resolve k_acc k_pow_loop : kinds.
  Lemma k_pow fuel b e : plainly (c_pow_constant F M fuel b e).
  Proof. unfold c_pow_constant. on. Qed.
  Lemma k_ws l : forall w o, plainly (c_lagrange_ws F M l w o).
  Proof. induction l; intros; cbn; on. Qed.
  Hint Resolve k_pow k_ws : kinds.
  Lemma k_lagrange l n x xn one o : plainly (c_get_lagrange_commits F M l n x xn one o).
  Proof. unfold c_get_lagrange_commits. on. Qed.
  Lemma k_chip a b c d z e : plainly (c_chip_evaluate F M a b c d z e).
  Proof. induction e; cbn; on. Qed.
  Hint Resolve k_lagrange k_chip : kinds.
  Lemma k_scale f s v : (forall x, plain (f x)) -> plainly (c_scale F M f s v).
  Proof. intro H. destruct s; cbn; [apply only_emit, H|apply only_ret]. Qed.
  Lemma k_merge1 one ev : forall res, plainly (c_merge1 F M one res ev).
  Proof. induction res; cbn; on. Qed.
  Hint Resolve k_merge1 : kinds.
  Lemma k_merge one a b : plainly (c_merge F M one a b).
  Proof. unfold c_merge. on. Qed.
  Hint Resolve k_merge : kinds.
  Lemma k_prepare one t : forall s, plainly (c_eval_prepare F M one t s).
  Proof. induction t; intros; cbn; on; try (apply k_scale; intro; exact I). Qed.
  Hint Resolve k_prepare : kinds.
  Lemma k_eval one t : plainly (c_eval F M one t).
  Proof. unfold c_eval. on. Qed.
  Lemma k_perm_step b g d st ep : plainly (c_perm_step F M b g d st ep).
  Proof. destruct st as [[l r] d0], ep as [e p]. unfold c_perm_step. on. Qed.
  Hint Resolve k_eval k_perm_step : kinds.
  Lemma k_perm_chunk cl d b g one t0 t1 c : plainly (c_perm_chunk F M cl d b g one t0 t1 c).
  Proof. destruct c as [i [[s e] p]]. unfold c_perm_chunk. on. Qed.
  Hint Resolve k_perm_chunk : kinds.
  Lemma k_perm pe ev a b c d e f g h : plainly (c_perm_expressions F M pe ev a b c d e f g h).
  Proof. unfold c_perm_expressions. on. Qed.
  Lemma k_lookup le a b c d e f g h i j k l : plainly (c_lookup_expressions F M le a b c d e f g h i j k l).
  Proof. unfold c_lookup_expressions. cbv zeta. on. Qed.
  Lemma k_vanish a b c d e f g h i : plainly (c_vanish_queries F M a b c d e f g h i).
  Proof. unfold c_vanish_queries. on. Qed.
  Lemma k_rotate x o a : plainly (c_rotate_omega F M x o a).
  Proof. unfold c_rotate_omega. on. Qed.
  Hint Resolve k_perm k_lookup k_vanish k_rotate : kinds.
  Lemma k_column p s qs c e : plainly (c_column_queries F M p s qs c e).
  Proof. unfold c_column_queries. on. Qed.
  Lemma k_proof_exprs p a b c k : plainly (c_proof_expressions F M p a b c k).
  Proof. unfold c_proof_expressions. on. Qed.
  Hint Resolve k_column k_proof_exprs : kinds.
  Lemma k_proof_queries p i : plainly (c_proof_queries F M p i).
  Proof. unfold c_proof_queries. on. Qed.
  Hint Resolve k_proof_queries : kinds.
  Lemma k_queries p : plainly (c_queries F M p).
  Proof. unfold c_queries. cbv zeta. on. Qed.
  Hint Resolve k_queries : kinds.
  Lemma k_batch p : plainly (c_batch_multi_open_proofs F M p).
  Proof. unfold c_batch_multi_open_proofs. on. Qed.
  Lemma k_convert e : plainly (c_convert F M e).
  Proof. induction e; cbn; on. Qed.
  Lemma k_read_phase t c ph : forall cells, plainly (c_read_phase F M t c ph cells).
  Proof. induction ph; intros [|x cells]; cbn; on. Qed.
  Lemma k_squeeze_phase t c ph : forall cells, plainly (c_squeeze_phase F M t c ph cells).
  Proof. induction ph; intros [|x cells]; cbn; on. Qed.
  Hint Resolve k_batch k_convert k_read_phase k_squeeze_phase : kinds.
  Lemma k_read_phases t vk ph : forall a c, plainly (c_read_phases F M t vk ph a c).
  Proof. induction ph; intros; cbn; on. Qed.
  Hint Resolve k_read_phases : kinds.
  Lemma k_read_advice t vk n : plainly (c_read_advice F M t vk n).
  Proof. unfold c_read_advice. on. Qed.
  Lemma k_read_lookups t vk n : plainly (c_read_lookups_permuted F M t vk n).
  Proof. unfold c_read_lookups_permuted. on. Qed.
  Lemma k_read_sets t c : plainly (c_read_sets F M t c).
  Proof. induction c; cbn; on. Qed.
  Hint Resolve k_read_advice k_read_lookups k_read_sets : kinds.
  Lemma k_perm_evaluated t vk k x a b c d : plainly (c_build_permutation_evaluated F M t vk k x a b c d).
  Proof. unfold c_build_permutation_evaluated. on. Qed.
  Lemma k_read_lookup t k i a : plainly (c_read_lookup F M t k i a).
  Proof. destruct a as [j [[[pi pt] pr] [ie te]]]. unfold c_read_lookup. on. Qed.
  Hint Resolve k_perm_evaluated k_read_lookup : kinds.
  Lemma k_lookup_evaluated t vk k a b : plainly (c_build_lookup_evaluated F M t vk k a b).
  Proof. unfold c_build_lookup_evaluated. on. Qed.
  Lemma k_points t n : plainly (c_load_n_points F M t n).
  Proof. unfold c_load_n_points. on. Qed.
  Lemma k_scalars t n : plainly (c_load_n_scalars F M t n).
  Proof. unfold c_load_n_scalars. on. Qed.
  Hint Resolve k_lookup_evaluated k_points k_scalars : kinds.
  Lemma k_points2 t n m : plainly (c_load_n_m_points F M t n m).
  Proof. unfold c_load_n_m_points. on. Qed.
  Lemma k_scalars2 t n m : plainly (c_load_n_m_scalars F M t n m).
  Proof. unfold c_load_n_m_scalars. on. Qed.
  Lemma k_squeeze_instance t i : plainly (c_squeeze_instance_commitment F M t i).
  Proof. unfold c_squeeze_instance_commitment. on. Qed.
  Hint Resolve k_points2 k_scalars2 k_squeeze_instance : kinds.
  Lemma k_build t vk nw k i : plainly (c_build_params F M t vk nw k i).
  Proof. unfold c_build_params. cbv zeta. on. Qed.
  Hint Resolve k_build : kinds.
  Lemma k_vsp t vk nw k i : plainly (c_verify_single_proof_no_eval F M t vk nw k i).
  Proof. unfold c_verify_single_proof_no_eval. on. Qed.
  Lemma k_commit g i : plainly (c_instance_commitment F M g i).
  Proof. unfold c_instance_commitment. on. Qed.

  (** *** counting the instance values *)
  Definition is_instance (c : call) : bool := match c with Calls.CInstance => true | _ => false end.
  Definition instances_in (cs : list call) : nat := List.length (filter is_instance cs).
  Definition takes {A} (m : Q A) (k : nat) : Prop := forall n a cs n', m n = Some (a, cs, n') -> instances_in cs = k.
  Lemma plain_takes {A} (m : Q A) : plainly m -> takes m 0.
  Proof.
    intros H n a cs n' E. specialize (H _ _ _ _ E). unfold instances_in. clear E. induction H as [|c cs Hc H IH]; [reflexivity|]. cbn. destruct c; cbn; try exact IH. destruct Hc.
  Qed.
  Lemma takes_bind {A B} (m : Q A) (k : A -> Q B) i j : takes m i -> (forall a, takes (k a) j) -> takes (qbind m k) (i + j).
  Proof.
    intros Hm Hk n b cs n' E. unfold qbind in E. destruct (m n) as [[[a c1] n1]|] eqn:E1; [|discriminate].
    destruct (k a n1) as [[[b' c2] n2]|] eqn:E2; [|discriminate]. injection E as <- <- <-. unfold instances_in. rewrite filter_app, app_length.
    rewrite <- (Hm _ _ _ _ E1), <- (Hk _ _ _ _ _ E2). reflexivity.
  Qed.
  Lemma takes_map {A B} (f : A -> Q B) (g : A -> nat) l : (forall a, takes (f a) (g a)) -> takes (qmap f l) (list_sum (map g l)).
  Proof.
    intro H. induction l as [|a l IH]; cbn [qmap map]; [apply plain_takes, only_ret|]. change (list_sum (g a :: map g l)) with (g a + list_sum (map g l)). apply takes_bind; [apply H|]. intro b.
    replace (list_sum (map g l)) with (list_sum (map g l) + 0) by lia. apply takes_bind; [exact IH|]. intro. apply plain_takes, only_ret.
  Qed.
  Lemma takes_0 {A B} (m : Q A) (k : A -> Q B) i : takes m i -> (forall a, plainly (k a)) -> takes (qbind m k) i.
  Proof. intros H H'. replace i with (i + 0) by lia. apply takes_bind; [exact H|]. intro a. apply plain_takes, H'. Qed.
  Lemma takes_none {A} k : takes (@qfail F M A) k.
  Proof. discriminate. Qed.
  Lemma t_times k : takes (qtimes k (emit Calls.CInstance)) k.
  Proof.
    assert (E : list_sum (map (fun _ : unit => 1) (repeat tt k)) = k) by (induction k as [|k IH]; [reflexivity|]; cbn [repeat map]; unfold list_sum in *; cbn [fold_right]; rewrite IH; reflexivity).
    pose proof (takes_map (fun _ : unit => emit Calls.CInstance) (fun _ => 1) (repeat tt k)) as H. rewrite E in H. apply H.
    intros _ n a cs n' E'. injection E' as <- <- <-. reflexivity.
  Qed.
  Definition shape_size (shape : list (list nat)) : nat := list_sum (map list_sum shape).
  Lemma t_assign c n b g shape : takes (c_assign_instance_commitment F M c n b g shape) (shape_size shape).
  Proof.
    unfold c_assign_instance_commitment. destruct (forallb _ _); [|apply takes_none]. destruct (forallb _ _); [|apply takes_none].
    apply takes_0.
    - apply (takes_map _ list_sum). intro l. replace (list_sum l) with (list_sum (map (fun x => x) l)) by (now rewrite map_id). apply (takes_map _ (fun x => x)). apply t_times.
    - intro i. apply only_bind; [|on]. apply only_map. intro. apply only_map. intro. apply k_commit.
  Qed.
  Lemma t_proof c p : takes (c_aggregate_proof F M c p) (shape_size (hpr_shape p)).
  Proof. unfold c_aggregate_proof. apply takes_0; [apply t_assign|]. intro. apply only_bind; [apply k_vsp|]. on. Qed.
  Lemma t_circuit m c : takes (c_aggregate_circuit F M m c) (list_sum (map (fun p => shape_size (hpr_shape p)) (hc_proofs F M c))).
  Proof. unfold c_aggregate_circuit. apply takes_0; [apply takes_map, t_proof|]. on. Qed.
  Lemma t_evaluate p : takes (c_evaluate_multiopen_proof F M p) 0.
  Proof.
    unfold c_evaluate_multiopen_proof. apply (takes_bind _ _ 0 0); [apply plain_takes; on|]. intro one.
    apply (takes_bind _ _ 0 0); [apply plain_takes, k_eval|]. intros [ls le]. apply (takes_bind _ _ 0 0); [apply plain_takes, k_eval|]. intros [rs re].
    apply (takes_bind _ _ 0 0); [apply plain_takes; on|]. intro g. apply (takes_bind _ _ 0 0); [apply plain_takes; on|]. intro l.
    apply (takes_bind _ _ 0 0); [|intro; apply plain_takes; on]. destruct re as [e|]; [|apply plain_takes; on].
    apply (takes_bind _ _ 0 0); [apply plain_takes; on|]. intros s n a cs n' E. injection E as <- <- <-. reflexivity.
  Qed.
  Definition total_shape (cs : list (hcircuit F M)) : nat := list_sum (map (fun c => list_sum (map (fun p => shape_size (hpr_shape p)) (hc_proofs F M c))) cs).
  Lemma t_top m cs : takes (c_verify_aggregation_proofs_in_chip F M m cs) (total_shape cs).
  Proof.
    unfold c_verify_aggregation_proofs_in_chip. replace (total_shape cs) with (total_shape cs + 0) by lia. apply takes_bind; [apply takes_map, t_circuit|]. intro rs. cbv zeta.
    apply (takes_bind _ _ 0 0); [apply plain_takes; on|]. intro ch. apply (takes_bind _ _ 0 0); [apply plain_takes; on|]. intro agg.
    apply (takes_bind _ _ 0 0); [apply plain_takes; on|]. intro. apply (takes_bind _ _ 0 0); [apply t_evaluate|]. intro. apply plain_takes. on.
  Qed.

  (** a run takes as many instance values as there are calls for them *)
  Section Run.
  Variables (PT SC : nat).
  Variable pt_decode : list Z -> option M.
  Variable sc_decode : list Z -> option F.
  Variable St : Type.
  Variable upd_pt : St -> M -> St.
  Variable upd_sc : St -> F -> St.
  Variable sqz : St -> option (F * St).
  Variable generator : M.
  Notation run_call := (run_call F M PT SC pt_decode sc_decode St upd_pt upd_sc sqz generator).
  Notation run := (run_calls F M PT SC pt_decode sc_decode St upd_pt upd_sc sqz generator).
  Lemma on_tr_inst {A} t (m : R St A) (s : cst F M St) a s' : on_tr t m s = Some (a, s') -> c_inst s' = c_inst s.
  Proof. unfold on_tr. destruct (nth_error _ t); [|discriminate]. destruct (m t0) as [[b x]|]; [|discriminate]. intro E. injection E as <- <-. reflexivity. Qed.
  Lemma run_call_inst c s s' : run_call c s = Some s' -> List.length (c_inst s) = (if is_instance c then 1 else 0) + List.length (c_inst s').
  Proof.
    destruct c; cbn [Calls.run_call is_instance]; unfold push; intro E;
      repeat match goal with
      | E : match ?x with _ => _ end = Some _ |- _ => destruct x eqn:?; try discriminate E
      end; try (injection E as <-; reflexivity);
      injection E as <-; cbn [c_inst]; match goal with H : on_tr _ _ _ = Some _ |- _ => rewrite (on_tr_inst _ _ _ _ _ H) end; reflexivity.
  Qed.
  Lemma run_inst cs : forall s s', run cs s = Some s' -> List.length (c_inst s) = instances_in cs + List.length (c_inst s').
  Proof.
    induction cs as [|c cs IH]; intros s s' E; cbn [run_calls] in E; [injection E as <-; reflexivity|].
    destruct (run_call c s) as [s1|] eqn:E1; [|discriminate]. rewrite (run_call_inst _ _ _ E1), (IH _ _ E). unfold instances_in. cbn [filter]. destruct (is_instance c); reflexivity.
  Qed.
  End Run.
End Kinds.
