(** In which order the verifier makes its calls: what the chips need to know of the overflow
    counts of the points they are given. *)
From Coq Require Import String ZArith NArith Arith Lia List Bool.
From Verif Require Import Util Algebra IntegerHistorySound ListFacts Schema Plonk BuildParams Calls VerifierCalls VerifierCallsTop.
Import ListNotations.

(** What is known of the overflow counts of an assigned point: none, even, nothing.  The
    chips compute with points of the first two kinds; [common_point] needs the first. *)
Inductive kind := KScalar | KExact | KEven | KAny.
Section Orderly.
  Variable F : Fld.
  Variable M : Mod F.
  Notation call := (call F M).
  Definition kind_of (c : call) : list kind :=
    match c with
    | CPConst _ | CPOne | CNormalize _ | CReadPoint _ => [KExact]
    | CPAdd _ _ | CPMul _ _ | CPMulConst _ _ | CMultiExp _ _ => [KEven]
    | CPSub _ _ => [KAny]
    | CCommonPoint _ _ | CCommonScalar _ _ => []
    | _ => [KScalar]
    end.
  Definition evenb (ks : list kind) (i : nat) : bool := match nth_error ks i with Some KExact | Some KEven => true | _ => false end.
  Definition exactb (ks : list kind) (i : nat) : bool := match nth_error ks i with Some KExact => true | _ => false end.
  Definition usable (ks : list kind) (c : call) : bool :=
    match c with
    | CPAdd i j | CPSub i j => evenb ks i && evenb ks j
    | CPMul _ j => evenb ks j
    | CMultiExp ps ss => forallb (evenb ks) ps && Nat.eqb (List.length ps) (List.length ss)
    | CCommonPoint _ i => exactb ks i
    | _ => true
    end.
  Fixpoint orderly (ks : list kind) (cs : list call) : bool :=
    match cs with [] => true | c :: cs => usable ks c && orderly (ks ++ kind_of c) cs end.
  Definition kinds_after (ks : list kind) (cs : list call) : list kind := ks ++ concat (map kind_of cs).
End Orderly.
Arguments kind_of {F M} _. Arguments usable {F M} _ _. Arguments orderly {F M} _ _. Arguments kinds_after {F M} _ _.


Section Order.
  Variable F : Fld.
  Variable M : Mod F.
  Notation call := (call F M).
  Notation Q := (Q F M).

  (** *** what has to be seen in the list itself *)
  Definition noany (ks : list kind) : bool := forallb (fun k => match k with KAny => false | _ => true end) ks.
  Definition fit (ks : list kind) (c : call) : bool :=
    match c with
    | CMultiExp ps ss => Nat.eqb (List.length ps) (List.length ss)
    | CCommonPoint _ i => exactb ks i
    | _ => true
    end.
  Fixpoint fits (ks : list kind) (cs : list call) : bool :=
    match cs with [] => true | c :: cs => noany ks && fit ks c && fits (ks ++ kind_of c) cs end.

  (** *** the calls that need no care *)
  Definition calm (c : call) : Prop := match c with CPSub _ _ | CCommonPoint _ _ => False | CMultiExp ps ss => List.length ps = List.length ss | _ => True end.
  Definition added (cs : list call) : list kind := concat (map kind_of cs).
  Definition tidy {A} (m : Q A) : Prop := forall n a cs n', m n = Some (a, cs, n') -> Forall calm cs /\ n' = n + List.length (added cs).
  Lemma added_app a b : added (a ++ b) = added a ++ added b.
  Proof. unfold added. now rewrite map_app, concat_app. Qed.
  Lemma tidy_ret {A} (a : A) : tidy (qret a).
  Proof. intros n b cs n' E. injection E as <- <- <-. split; [constructor|cbn; lia]. Qed.
  Lemma tidy_fail {A} : tidy (@qfail F M A).
  Proof. discriminate. Qed.
  Lemma tidy_lift {A} (o : option A) : tidy (qlift o).
  Proof. destruct o; [apply tidy_ret|apply tidy_fail]. Qed.
  Lemma tidy_emit c : calm c /\ List.length (kind_of c) = 1 -> tidy (emit c).
  Proof. intros [H L] n b cs n' E. injection E as <- <- <-. split; [auto|]. unfold added. cbn [map concat]. rewrite app_nil_r, L. lia. Qed.
  Lemma tidy_emit_ c : calm c /\ List.length (kind_of c) = 0 -> tidy (emit_ c).
  Proof. intros [H L] n b cs n' E. injection E as <- <- <-. split; [auto|]. unfold added. cbn [map concat]. rewrite app_nil_r, L. lia. Qed.
  Lemma tidy_bind {A B} (m : Q A) (k : A -> Q B) : tidy m -> (forall a, tidy (k a)) -> tidy (qbind m k).
  Proof.
    intros Hm Hk n b cs n' E. unfold qbind in E. destruct (m n) as [[[a c1] n1]|] eqn:E1; [|discriminate].
    destruct (k a n1) as [[[b' c2] n2]|] eqn:E2; [|discriminate]. injection E as <- <- <-. destruct (Hm _ _ _ _ E1) as [A1 A2]. destruct (Hk _ _ _ _ _ E2) as [B1 B2].
    split; [apply Forall_app; auto|]. rewrite added_app, app_length. lia.
  Qed.
  Lemma tidy_map {A B} (f : A -> Q B) l : (forall a, tidy (f a)) -> tidy (qmap f l).
  Proof. intro H. induction l as [|a l IH]; cbn; [apply tidy_ret|]. apply tidy_bind; [apply H|]. intro. apply tidy_bind; [exact IH|]. intro. apply tidy_ret. Qed.
  Lemma tidy_fold {A B} (f : B -> A -> Q B) l : (forall b a, tidy (f b a)) -> forall b, tidy (qfold f l b).
  Proof. intro H. induction l as [|a l IH]; intro b; cbn; [apply tidy_ret|]. apply tidy_bind; [apply H|exact IH]. Qed.
  Lemma tidy_times {A} n (m : Q A) : tidy m -> tidy (qtimes n m).
  Proof. intro H. apply tidy_map. auto. Qed.

  Create HintDb order.
  Ltac on := repeat first
    [ progress intros
    | apply tidy_ret | apply tidy_fail | apply tidy_lift | (apply tidy_emit; split; [exact I|reflexivity]) | (apply tidy_emit_; split; [exact I|reflexivity])
    | (apply tidy_emit; split; [cbn; now rewrite !map_length|reflexivity])
    | apply tidy_bind | apply tidy_map | apply tidy_fold | apply tidy_times
    | solve [auto with order]
    | match goal with |- tidy (match ?x with _ => _ end) => destruct x end
    | match goal with |- tidy (let '(_, _) := ?x in _) => destruct x end ].

  Lemma k_ast t : tidy (c_ast F M t).
  Proof. induction t; cbn; on. Qed.
  Hint Resolve k_ast : order.
  Lemma k_mul_add a b c : tidy (c_mul_add F M a b c).
  Proof. unfold c_mul_add. on. Qed.
  Hint Resolve k_mul_add : order.
  Lemma k_acc a b : tidy (c_mul_add_accumulate F M a b).
  Proof. unfold c_mul_add_accumulate. on. Qed.
  Lemma k_pow_loop fuel : forall b e s acc, tidy (c_pow_loop F M fuel b e s acc).
  Proof. induction fuel as [|fuel IH]; intros; cbn; on. Qed.
  Hint Resolve k_acc k_pow_loop : order.
  Lemma k_pow fuel b e : tidy (c_pow_constant F M fuel b e).
  Proof. unfold c_pow_constant. on. Qed.
  Lemma k_ws l : forall w o, tidy (c_lagrange_ws F M l w o).
  Proof. induction l; intros; cbn; on. Qed.
  Hint Resolve k_pow k_ws : order.
  Lemma k_lagrange l n x xn one o : tidy (c_get_lagrange_commits F M l n x xn one o).
  Proof. unfold c_get_lagrange_commits. on. Qed.
  Lemma k_chip a b c d z e : tidy (c_chip_evaluate F M a b c d z e).
  Proof. induction e; cbn; on. Qed.
  Hint Resolve k_lagrange k_chip : order.
  Lemma k_scale f s v : (forall x, calm (f x) /\ List.length (kind_of (f x)) = 1) -> tidy (c_scale F M f s v).
  Proof. intro H. destruct s; cbn; [apply tidy_emit; apply H|apply tidy_ret]. Qed.
  Lemma k_merge1 one ev : forall res, tidy (c_merge1 F M one res ev).
  Proof. induction res; cbn; on. Qed.
  Hint Resolve k_merge1 : order.
  Lemma k_merge one a b : tidy (c_merge F M one a b).
  Proof. unfold c_merge. on. Qed.
  Hint Resolve k_merge : order.
  Lemma k_prepare one t : forall s, tidy (c_eval_prepare F M one t s).
  Proof. induction t; intros; cbn; on; try (apply k_scale; intro; split; [exact I|reflexivity]). Qed.
  Hint Resolve k_prepare : order.
  Lemma k_eval one t : tidy (c_eval F M one t).
  Proof. unfold c_eval. on. Qed.
  Lemma k_perm_step b g d st ep : tidy (c_perm_step F M b g d st ep).
  Proof. destruct st as [[l r] d0], ep as [e p]. unfold c_perm_step. on. Qed.
  Hint Resolve k_eval k_perm_step : order.
  Lemma k_perm_chunk cl d b g one t0 t1 c : tidy (c_perm_chunk F M cl d b g one t0 t1 c).
  Proof. destruct c as [i [[s e] p]]. unfold c_perm_chunk. on. Qed.
  Hint Resolve k_perm_chunk : order.
  Lemma k_perm pe ev a b c d e f g h : tidy (c_perm_expressions F M pe ev a b c d e f g h).
  Proof. unfold c_perm_expressions. on. Qed.
  Lemma k_lookup le a b c d e f g h i j k l : tidy (c_lookup_expressions F M le a b c d e f g h i j k l).
  Proof. unfold c_lookup_expressions. cbv zeta. on. Qed.
  Lemma k_vanish a b c d e f g h i : tidy (c_vanish_queries F M a b c d e f g h i).
  Proof. unfold c_vanish_queries. on. Qed.
  Lemma k_rotate x o a : tidy (c_rotate_omega F M x o a).
  Proof. unfold c_rotate_omega. on. Qed.
  Hint Resolve k_perm k_lookup k_vanish k_rotate : order.
  Lemma k_column p s qs c e : tidy (c_column_queries F M p s qs c e).
  Proof. unfold c_column_queries. on. Qed.
  Lemma k_proof_exprs p a b c k : tidy (c_proof_expressions F M p a b c k).
  Proof. unfold c_proof_expressions. on. Qed.
  Hint Resolve k_column k_proof_exprs : order.
  Lemma k_proof_queries p i : tidy (c_proof_queries F M p i).
  Proof. unfold c_proof_queries. on. Qed.
  Hint Resolve k_proof_queries : order.
  Lemma k_queries p : tidy (c_queries F M p).
  Proof. unfold c_queries. cbv zeta. on. Qed.
  Hint Resolve k_queries : order.
  Lemma k_batch p : tidy (c_batch_multi_open_proofs F M p).
  Proof. unfold c_batch_multi_open_proofs. on. Qed.
  Lemma k_convert e : tidy (c_convert F M e).
  Proof. induction e; cbn; on. Qed.
  Lemma k_read_phase t c ph : forall cells, tidy (c_read_phase F M t c ph cells).
  Proof. induction ph; intros [|x cells]; cbn; on. Qed.
  Lemma k_squeeze_phase t c ph : forall cells, tidy (c_squeeze_phase F M t c ph cells).
  Proof. induction ph; intros [|x cells]; cbn; on. Qed.
  Hint Resolve k_batch k_convert k_read_phase k_squeeze_phase : order.
  Lemma k_read_phases t vk ph : forall a c, tidy (c_read_phases F M t vk ph a c).
  Proof. induction ph; intros; cbn; on. Qed.
  Hint Resolve k_read_phases : order.
  Lemma k_read_advice t vk n : tidy (c_read_advice F M t vk n).
  Proof. unfold c_read_advice. on. Qed.
  Lemma k_read_lookups t vk n : tidy (c_read_lookups_permuted F M t vk n).
  Proof. unfold c_read_lookups_permuted. on. Qed.
  Lemma k_read_sets t c : tidy (c_read_sets F M t c).
  Proof. induction c; cbn; on. Qed.
  Hint Resolve k_read_advice k_read_lookups k_read_sets : order.
  Lemma k_perm_evaluated t vk k x a b c d : tidy (c_build_permutation_evaluated F M t vk k x a b c d).
  Proof. unfold c_build_permutation_evaluated. on. Qed.
  Lemma k_read_lookup t k i a : tidy (c_read_lookup F M t k i a).
  Proof. destruct a as [j [[[pi pt] pr] [ie te]]]. unfold c_read_lookup. on. Qed.
  Hint Resolve k_perm_evaluated k_read_lookup : order.
  Lemma k_lookup_evaluated t vk k a b : tidy (c_build_lookup_evaluated F M t vk k a b).
  Proof. unfold c_build_lookup_evaluated. on. Qed.
  Lemma k_points t n : tidy (c_load_n_points F M t n).
  Proof. unfold c_load_n_points. on. Qed.
  Lemma k_scalars t n : tidy (c_load_n_scalars F M t n).
  Proof. unfold c_load_n_scalars. on. Qed.
  Hint Resolve k_lookup_evaluated k_points k_scalars : order.
  Lemma k_points2 t n m : tidy (c_load_n_m_points F M t n m).
  Proof. unfold c_load_n_m_points. on. Qed.
  Lemma k_scalars2 t n m : tidy (c_load_n_m_scalars F M t n m).
  Proof. unfold c_load_n_m_scalars. on. Qed.

  (** *** the rest *)
  Definition ext (ks ks' : list kind) : Prop := exists l, ks' = ks ++ l.
  Lemma ext_refl ks : ext ks ks.
  Proof. exists []. now rewrite app_nil_r. Qed.
  Lemma ext_trans a b c : ext a b -> ext b c -> ext a c.
  Proof. intros (l & ->) (l' & ->). exists (l ++ l'). now rewrite app_assoc. Qed.
  Lemma exact_ext ks ks' i : ext ks ks' -> exactb ks i = true -> exactb ks' i = true.
  Proof. intros (l & ->). unfold exactb. destruct (nth_error ks i) eqn:E; [|discriminate]. rewrite nth_error_app1; [now rewrite E|]. apply nth_error_Some. congruence. Qed.
  (** from the kinds [ks]: the calls fit, positions are counted right, and [P] of the result *)
  Definition ord (ks : list kind) {A} (m : Q A) (P : A -> list kind -> Prop) : Prop := forall a cs n', m (List.length ks) = Some (a, cs, n') ->
    fits ks cs = true /\ n' = List.length (ks ++ added cs) /\ ext ks (ks ++ added cs) /\ P a (ks ++ added cs).
  Lemma fits_app cs : forall ks cs', fits ks (cs ++ cs') = fits ks cs && fits (ks ++ added cs) cs'.
  Proof.
    induction cs as [|c cs IH]; intros ks cs'; cbn [fits app]; [unfold added; cbn; now rewrite app_nil_r|].
    rewrite IH, <- !andb_assoc. unfold added. cbn [map concat]. now rewrite app_assoc.
  Qed.
  Lemma ord_bind ks {A B} (m : Q A) (k : A -> Q B) P R : ord ks m P -> (forall a ks', ext ks ks' -> P a ks' -> ord ks' (k a) R) -> ord ks (qbind m k) R.
  Proof.
    intros Hm Hk b cs n' E. unfold qbind in E. destruct (m _) as [[[a c1] n1]|] eqn:E1; [|discriminate]. destruct (Hm _ _ _ E1) as (F1 & -> & X1 & P1).
    destruct (k a _) as [[[b' c2] n2]|] eqn:E2; [|discriminate]. injection E as <- <- <-. destruct (Hk a _ X1 P1 _ _ _ E2) as (F2 & -> & X2 & P2).
    rewrite fits_app, F1, F2, added_app, app_assoc. split; [reflexivity|]. split; [reflexivity|]. split; [exact (ext_trans _ _ _ X1 X2)|exact P2].
  Qed.
  Lemma ord_ret ks {A} (a : A) (P : A -> list kind -> Prop) : P a ks -> ord ks (qret a) P.
  Proof. intros H b cs n' E. injection E as <- <- <-. unfold added. cbn [map concat]. rewrite app_nil_r. split; [reflexivity|]. split; [reflexivity|]. split; [apply ext_refl|exact H]. Qed.
  Lemma ord_fail ks {A} P : ord ks (@qfail F M A) P.
  Proof. discriminate. Qed.
  Lemma ord_conseq ks {A} (m : Q A) (P R : A -> list kind -> Prop) : ord ks m P -> (forall a ks', ext ks ks' -> P a ks' -> R a ks') -> ord ks m R.
  Proof. intros H HR a cs n' E. destruct (H a cs n' E) as (A1 & A2 & A3 & A4). auto. Qed.
  Lemma calm_fits cs : Forall calm cs -> forall ks, noany ks = true -> fits ks cs = true /\ noany (ks ++ added cs) = true.
  Proof.
    unfold added, noany. induction 1 as [|c cs Hc H IH]; intros ks Hk; cbn [map concat fits]; [now rewrite app_nil_r|].
    assert (K : forallb (fun k => match k with KAny => false | _ => true end) (ks ++ kind_of c) = true). { rewrite forallb_app, Hk. destruct c; try reflexivity. destruct Hc. }
    destruct (IH _ K) as [I1 I2]. rewrite app_assoc, I1, I2. unfold noany. rewrite Hk. split; [|reflexivity]. rewrite andb_true_r. cbn [andb].
    destruct c; try reflexivity; [apply Nat.eqb_eq, Hc|destruct Hc].
  Qed.
  Lemma ord_tidy ks {A} (m : Q A) : noany ks = true -> tidy m -> ord ks m (fun _ ks' => noany ks' = true).
  Proof.
    intros Hk H a cs n' E. destruct (H _ _ _ _ E) as [H1 ->]. destruct (calm_fits cs H1 ks Hk) as [H2 H3]. split; [exact H2|]. split; [now rewrite app_length|]. split; [now exists (added cs)|exact H3].
  Qed.
  Lemma ord_bind_tidy ks {A B} (m : Q A) (k : A -> Q B) R : noany ks = true -> tidy m -> (forall a ks', ext ks ks' -> noany ks' = true -> ord ks' (k a) R) -> ord ks (qbind m k) R.
  Proof. intros Hk Hm H. eapply ord_bind; [apply ord_tidy; assumption|exact H]. Qed.
  Lemma ord_map ks {A B} (f : A -> Q B) (R : B -> list kind -> Prop) l : (forall b ks1 ks2, ext ks1 ks2 -> R b ks1 -> R b ks2) -> noany ks = true ->
    (forall a ks', In a l -> ext ks ks' -> noany ks' = true -> ord ks' (f a) (fun b ks'' => noany ks'' = true /\ R b ks'')) ->
    ord ks (qmap f l) (fun bs ks' => noany ks' = true /\ Forall (fun b => R b ks') bs).
  Proof.
    intros Hmono. revert ks. induction l as [|a l IH]; intros ks Hk Hf; cbn [qmap].
    - apply ord_ret. split; [exact Hk|constructor].
    - eapply ord_bind; [apply (Hf a ks); [left; reflexivity|apply ext_refl|exact Hk]|]. intros b ks1 X1 [K1 R1]. cbn beta in *.
      eapply ord_bind; [apply (IH ks1 K1); intros a' ks' I' X' K'; apply Hf; [right; exact I'|exact (ext_trans _ _ _ X1 X')|exact K']|]. intros bs ks2 X2 [K2 R2]. cbn beta in *. apply ord_ret.
      split; [exact K2|]. constructor; [exact (Hmono _ _ _ X2 R1)|exact R2].
  Qed.
  Lemma ord_exact ks c : noany ks = true -> fit ks c = true -> kind_of c = [KExact] -> ord ks (emit c) (fun i ks' => noany ks' = true /\ exactb ks' i = true).
  Proof.
    intros Hk Hf E a cs n' E'. injection E' as <- <- <-. unfold added. cbn [map concat fits]. rewrite Hk, Hf, app_nil_r, E. split; [reflexivity|]. split; [rewrite app_length; cbn; lia|].
    split; [now eexists|]. split; [unfold noany in *; rewrite forallb_app, Hk; reflexivity|]. unfold exactb. rewrite nth_error_app2 by lia. rewrite Nat.sub_diag. reflexivity.
  Qed.
  (** the points of a list of lists of positions are exact *)
  Definition exacts (l : list nat) (ks : list kind) : Prop := Forall (fun i => exactb ks i = true) l.
  Lemma exacts_ext l ks ks' : ext ks ks' -> exacts l ks -> exacts l ks'.
  Proof. intros X H. eapply Forall_impl; [|exact H]. intros i. exact (exact_ext ks ks' i X). Qed.

  Lemma o_commit ks g l : noany ks = true -> ord ks (c_instance_commitment F M g l) (fun i ks' => noany ks' = true /\ exactb ks' i = true).
  Proof.
    intro Hk. unfold c_instance_commitment. apply ord_bind_tidy; [exact Hk|on|]. intros [a|] ks' X' K'; now apply ord_exact.
  Qed.
  Lemma o_assign ks c n b g shape : noany ks = true -> ord ks (c_assign_instance_commitment F M c n b g shape) (fun r ks' => noany ks' = true /\ Forall (fun l => exacts l ks') (snd r)).
  Proof.
    intro Hk. unfold c_assign_instance_commitment. destruct (forallb _ _); [|apply ord_fail]. destruct (forallb _ _); [|apply ord_fail].
    apply ord_bind_tidy; [exact Hk|on|]. intros insts ks1 X1 K1. eapply ord_bind.
    - apply (ord_map ks1 _ (fun l ks' => exacts l ks')); [intros l k1 k2; apply exacts_ext|exact K1|]. intros l ks2 _ X2 K2.
      apply (ord_map ks2 _ (fun i ks' => exactb ks' i = true)); [intros i k1 k2; apply exact_ext|exact K2|]. intros i ks3 _ X3 K3. now apply o_commit.
    - intros cs ks2 X2 [K2 H2]. apply ord_ret. split; [exact K2|exact H2].
  Qed.
  Lemma o_squeeze_instance ks t i : noany ks = true -> Forall (fun l => exacts l ks) i -> ord ks (c_squeeze_instance_commitment F M t i) (fun _ ks' => noany ks' = true).
  Proof.
    intros Hk Hi. unfold c_squeeze_instance_commitment. eapply ord_bind.
    - apply (ord_map ks _ (fun _ _ => True)); [auto|exact Hk|]. intros l ks1 Il X1 K1. eapply ord_conseq.
      + apply (ord_map ks1 _ (fun _ _ => True)); [auto|exact K1|]. intros p ks2 Ip X2 K2 a cs n' E. injection E as <- <- <-. unfold added. cbn [map concat fits kind_of fit]. rewrite app_nil_r, K2.
        assert (Ex : exactb ks2 p = true). { apply (exact_ext ks); [exact (ext_trans _ _ _ X1 X2)|]. rewrite Forall_forall in Hi. specialize (Hi l Il). unfold exacts in Hi. rewrite Forall_forall in Hi. auto. }
        rewrite Ex. repeat split; auto. apply ext_refl.
      + intros a ks' _ [H _]. auto.
    - intros a ks' _ [H _]. now apply ord_ret.
  Qed.
  (** the commitments of the advice columns are read *)
  Definition oexacts (l : list (option nat)) (ks : list kind) : Prop := Forall (fun o => match o with Some i => exactb ks i = true | None => True end) l.
  Lemma oexacts_ext l ks ks' : ext ks ks' -> oexacts l ks -> oexacts l ks'.
  Proof. intros X H. eapply Forall_impl; [|exact H]. intros [i|]; [|auto]. exact (exact_ext ks ks' i X). Qed.
  Lemma o_read_phase t c ph : forall ks cells, noany ks = true -> oexacts cells ks -> ord ks (c_read_phase F M t c ph cells) (fun r ks' => noany ks' = true /\ oexacts r ks').
  Proof.
    induction ph as [|p ph IH]; intros ks [|x cells] Hk Hc; cbn [c_read_phase]; try (apply ord_ret; auto).
    eapply ord_bind with (P := fun o ks' => noany ks' = true /\ match o with Some i => exactb ks' i = true | None => True end).
    - destruct (Nat.eqb c p); [|apply ord_ret; split; [exact Hk|exact (Forall_inv Hc)]]. eapply ord_bind; [now apply ord_exact|]. intros i ks1 _ [K1 E1]. apply ord_ret. auto.
    - intros o ks1 X1 [K1 E1]. eapply ord_bind; [apply IH; [exact K1|exact (oexacts_ext _ _ _ X1 (Forall_inv_tail Hc))]|]. intros r ks2 X2 [K2 E2]. apply ord_ret. split; [exact K2|].
      constructor; [|exact E2]. destruct o; [exact (exact_ext _ _ _ X2 E1)|exact I].
  Qed.
  Lemma ord_map_in ks {A B} (f : A -> Q B) (R : B -> list kind -> Prop) (S : A -> list kind -> Prop) l : (forall b ks1 ks2, ext ks1 ks2 -> R b ks1 -> R b ks2) -> (forall b ks1 ks2, ext ks1 ks2 -> S b ks1 -> S b ks2) -> noany ks = true ->
    Forall (fun a => S a ks) l -> (forall a ks', noany ks' = true -> S a ks' -> ord ks' (f a) (fun b ks'' => noany ks'' = true /\ R b ks'')) ->
    ord ks (qmap f l) (fun bs ks' => noany ks' = true /\ Forall (fun b => R b ks') bs).
  Proof.
    intros HR HS Hk HA Hf. apply ord_map; [exact HR|exact Hk|]. intros a ks' I' X' K'. apply Hf; [exact K'|]. rewrite Forall_forall in HA. exact (HS _ _ _ X' (HA a I')).
  Qed.
  Lemma o_read_phases t vk ph : forall ks a c, noany ks = true -> Forall (fun l => oexacts l ks) a ->
    ord ks (c_read_phases F M t vk ph a c) (fun r ks' => noany ks' = true /\ Forall (fun l => oexacts l ks') (fst r)).
  Proof.
    induction ph as [|p ph IH]; intros ks a c Hk Ha; cbn [c_read_phases]; [now apply ord_ret|].
    eapply ord_bind; [apply (ord_map_in ks _ oexacts oexacts); [exact oexacts_ext|exact oexacts_ext|exact Hk|exact Ha|]; intros; now apply o_read_phase|].
    intros a' ks1 X1 [K1 E1]. eapply ord_bind; [apply ord_tidy; [exact K1|auto with order]|]. intros c' ks2 X2 K2. apply IH; [exact K2|].
    eapply Forall_impl; [|exact E1]. intros l. exact (oexacts_ext l ks1 ks2 X2).
  Qed.
  Lemma o_read_advice ks t vk n : noany ks = true -> ord ks (c_read_advice F M t vk n) (fun r ks' => noany ks' = true /\ Forall (fun l => exacts l ks') (fst r)).
  Proof.
    intro Hk. unfold c_read_advice. apply ord_bind_tidy; [exact Hk|on|]. intros z ks1 X1 K1. eapply ord_bind; [apply o_read_phases; [exact K1|]|].
    { apply Forall_forall. intros l Hl. apply repeat_spec in Hl. subst l. apply Forall_forall. intros o Ho. apply repeat_spec in Ho. now subst o. }
    intros [a c] ks2 X2 [K2 E2]. cbn [fst snd] in *. destruct (mapM (mapM (fun x => x)) a) as [a'|] eqn:Em; [|cbn [qlift]; intros b cs n' E; discriminate E].
    eapply ord_bind with (P := fun x ks' => x = a' /\ noany ks' = true); [apply ord_ret; auto|]. intros x ks3 X3 [-> K3]. apply ord_ret. split; [exact K3|]. cbn [fst].
    assert (E3 : Forall (fun l => oexacts l ks3) a) by (eapply Forall_impl; [|exact E2]; intros l; exact (oexacts_ext l ks2 ks3 X3)).
    clear - Em E3. revert a' Em. induction E3 as [|l a Hl H IH]; intros a' Em; cbn [mapM] in Em; [injection Em as <-; constructor|].
    destruct (mapM (fun x => x) l) as [l'|] eqn:El; [|discriminate]. destruct (mapM _ a) as [a2|]; [|discriminate]. injection Em as <-. constructor; [|now apply IH].
    clear - Hl El. revert l' El. induction Hl as [|o l Ho H IH]; intros l' El; cbn [mapM] in El; [injection El as <-; constructor|].
    destruct o as [i|]; [|discriminate]. destruct (mapM _ l) as [l2|]; [|discriminate]. injection El as <-. constructor; [exact Ho|now apply IH].
  Qed.
  Hint Resolve k_points2 k_scalars2 k_pow k_rotate k_convert : order.
  Ltac steps := repeat first
    [ match goal with |- ord _ (qbind _ _) _ => apply ord_bind_tidy; [assumption|solve [on]|]; let X := fresh "X" in let K := fresh "K" in intros ? ? X K end
    | match goal with |- ord _ (let '(_, _) := ?x in _) _ => destruct x end ].
  Lemma o_build ks t vk nw k i : noany ks = true -> Forall (fun l => exacts l ks) i ->
    ord ks (c_build_params F M t vk nw k i) (fun p ks' => noany ks' = true /\ Forall (fun l => exacts l ks') (hp_advice_commitments F p)).
  Proof.
    intros Hk Hi. unfold c_build_params. destruct (Nat.leb _ 2); [apply ord_fail|]. cbv zeta.
    apply ord_bind_tidy; [exact Hk|on|]. intros hash ks1 X1 K1. apply ord_bind_tidy; [exact K1|on|]. intros u ks2 X2 K2.
    eapply ord_bind; [apply o_squeeze_instance; [exact K2|]|].
    { eapply Forall_impl; [|exact Hi]. intros l. exact (exacts_ext l _ _ (ext_trans _ _ _ X1 X2)). }
    intros u' ks3 X3 K3. cbn beta in K3. eapply ord_bind; [apply o_read_advice, K3|]. intros [adv ch] ks4 X4 [K4 E4]. cbn [fst] in E4.
    assert (G : forall ks', ext ks4 ks' -> Forall (fun l => exacts l ks') adv) by (intros ks' X; eapply Forall_impl; [|exact E4]; intros l; exact (exacts_ext l _ _ X)).
    clear X1 X2 X3 X4. steps. apply ord_ret. cbn [hp_advice_commitments]. split; [assumption|]. apply G.
    repeat match goal with X : ext ?a ?b |- ext _ ?b => apply (ext_trans _ a); [|exact X]; clear X end. apply ext_refl.
  Qed.
  Lemma o_vsp ks t vk nw k i : noany ks = true -> Forall (fun l => exacts l ks) i ->
    ord ks (c_verify_single_proof_no_eval F M t vk nw k i) (fun r ks' => noany ks' = true /\ exacts (snd r) ks').
  Proof.
    intros Hk Hi. unfold c_verify_single_proof_no_eval. eapply ord_bind; [apply o_build; assumption|]. intros p ks1 X1 [K1 E1]. cbn beta in *.
    apply ord_bind_tidy; [exact K1|on|]. intros pr ks2 X2 K2. destruct (nth_error (hp_advice_commitments F p) 0) as [l|] eqn:En; [|intros b cs n' E; discriminate E].
    eapply ord_bind with (P := fun x ks' => x = l /\ noany ks' = true); [apply ord_ret; auto|]. intros x ks3 X3 [-> K3]. apply ord_ret. split; [exact K3|]. cbn [snd].
    apply (exacts_ext l ks1); [exact (ext_trans _ _ _ X2 X3)|]. rewrite Forall_forall in E1. apply E1. exact (nth_error_In _ _ En).
  Qed.
  Lemma o_proof ks c p : noany ks = true -> ord ks (c_aggregate_proof F M c p) (fun r ks' => noany ks' = true /\ exacts (snd r) ks').
  Proof.
    intro Hk. unfold c_aggregate_proof. eapply ord_bind; [apply o_assign, Hk|]. intros ic ks1 X1 [K1 E1]. cbn beta in *.
    eapply ord_bind; [apply o_vsp; assumption|]. intros pc ks2 X2 [K2 E2]. apply ord_ret. split; [exact K2|exact E2].
  Qed.
  Lemma o_circuit ks m c : noany ks = true -> ord ks (c_aggregate_circuit F M m c) (fun rs ks' => noany ks' = true /\ Forall (fun r => exacts (snd r) ks') rs).
  Proof.
    intro Hk. unfold c_aggregate_circuit. eapply ord_bind.
    - apply (ord_map ks _ (fun r ks' => exacts (snd r) ks')); [intros r k1 k2; apply exacts_ext|exact Hk|]. intros p ks1 _ _ K1. now apply o_proof.
    - intros rs ks1 X1 [K1 E1]. apply ord_bind_tidy; [exact K1|on|]. intros u ks2 X2 K2. apply ord_ret. split; [exact K2|].
      eapply Forall_impl; [|exact E1]. intros r. exact (exacts_ext (snd r) ks1 ks2 X2).
  Qed.
  Lemma o_evaluate ks p : noany ks = true -> ord ks (c_evaluate_multiopen_proof F M p) (fun _ _ => True).
  Proof.
    intro Hk. unfold c_evaluate_multiopen_proof. steps.
    match goal with |- ord _ (qbind (match ?x with _ => _ end) _) _ => destruct x as [e|] end.
    - eapply ord_bind with (P := fun _ _ => True); [|intros; now apply ord_ret].
      steps. match goal with K : noany ?k = true |- ord ?k _ _ => rename K into Kl end. intros x cs n' E. injection E as <- <- <-. unfold added. cbn [fits map concat kind_of fit]. rewrite Kl. cbn [andb].
      rewrite app_nil_r, app_length. split; [reflexivity|]. split; [cbn; lia|]. split; [now eexists|exact I].
    - eapply ord_bind with (P := fun _ _ => True); [now apply ord_ret|]. intros. now apply ord_ret.
  Qed.
  Lemma o_top m cs : ord [] (c_verify_aggregation_proofs_in_chip F M m cs) (fun r ks' => Forall (fun l => exacts l ks') (snd r)).
  Proof.
    unfold c_verify_aggregation_proofs_in_chip. eapply ord_bind.
    - apply (ord_map [] _ (fun rs ks' => Forall (fun r => exacts (snd r) ks') rs)); [|reflexivity|intros c ks1 _ _ K1; now apply o_circuit].
      intros rs k1 k2 X H. eapply Forall_impl; [|exact H]. intros r. exact (exacts_ext (snd r) k1 k2 X).
    - intros rs ks1 X1 [K1 E1]. clear X1. cbv zeta. steps. eapply ord_bind; [apply o_evaluate; assumption|]. intros wp ks3 X3 _. apply ord_ret. cbn [snd].
      apply Forall_forall. intros l Hl. apply in_map_iff in Hl. destruct Hl as (r & <- & Hr). apply in_concat in Hr. destruct Hr as (rr & H1 & H2).
      rewrite Forall_forall in E1. specialize (E1 _ H1). rewrite Forall_forall in E1. eapply exacts_ext; [|exact (E1 _ H2)].
      repeat match goal with X : ext ?a ?b |- ext _ ?b => apply (ext_trans _ a); [|exact X]; clear X end. apply ext_refl.
  Qed.

  (** *** a list that fits and runs is in order *)
  Section Run.
  Variables (PT SC : nat).
  Variable pt_decode : list Z -> option M.
  Variable sc_decode : list Z -> option F.
  Variable St : Type.
  Variable upd_pt : St -> M -> St.
  Variable upd_sc : St -> F -> St.
  Variable sqz : St -> option (F * St).
  Variable generator : M.
  Notation run_call := (run_call F M PT SC pt_decode sc_decode St upd_pt upd_sc sqz generator).
  Notation run := (run_calls F M PT SC pt_decode sc_decode St upd_pt upd_sc sqz generator).
  Definition typed1 (k : kind) (v : cval F M) : Prop := match v, k with VS _, KScalar => True | VP _, KScalar => False | VP _, _ => True | _, _ => False end.
  Definition typed (ks : list kind) (s : cst F M St) : Prop := Forall2 typed1 ks (c_vals s).
  Lemma typed_even ks s i P : noany ks = true -> typed ks s -> val_p s i = Some P -> evenb ks i = true.
  Proof.
    intros Hk H E. unfold val_p in E. destruct (nth_error (c_vals s) i) as [[x|Q0]|] eqn:En; try discriminate. destruct (Forall2_nth_r _ _ _ _ _ H En) as (k & Ek & T).
    unfold evenb. rewrite Ek. unfold noany in Hk. rewrite forallb_forall in Hk. specialize (Hk k (nth_error_In _ _ Ek)). now destruct k.
  Qed.
  Lemma typed_evens ks s l Ps : noany ks = true -> typed ks s -> mapM (val_p s) l = Some Ps -> forallb (evenb ks) l = true.
  Proof.
    intros Hk H. revert Ps. induction l as [|i l IH]; intros Ps E; [reflexivity|]. cbn [mapM] in E. destruct (val_p s i) eqn:Ei; [|discriminate]. destruct (mapM (val_p s) l) as [r|]; [|discriminate].
    cbn [forallb]. rewrite (typed_even ks s i _ Hk H Ei), (IH r eq_refl). reflexivity.
  Qed.
  Lemma on_tr_vals {A} t (m : R St A) (s : cst F M St) a s' : on_tr t m s = Some (a, s') -> c_vals s' = c_vals s.
  Proof. unfold on_tr. destruct (nth_error _ t); [|discriminate]. destruct (m t0) as [[b x]|]; [|discriminate]. intro E. injection E as <- <-. reflexivity. Qed.
  Lemma run_typed ks c s s' : typed ks s -> run_call c s = Some s' -> typed (ks ++ kind_of c) s'.
  Proof.
    unfold typed. intro H. destruct c; cbn [Calls.run_call kind_of]; unfold push; intro E;
      repeat match goal with
      | E : match ?x with _ => _ end = Some _ |- _ => destruct x eqn:?; try discriminate E
      end; injection E as <-; cbn [c_vals]; try match goal with H : on_tr _ _ _ = Some _ |- _ => rewrite (on_tr_vals _ _ _ _ _ H) end;
      rewrite ?app_nil_r; try exact H; apply Forall2_app; try exact H; (constructor; [exact I|constructor]).
  Qed.
  Lemma fits_orderly cs : forall ks s s', typed ks s -> fits ks cs = true -> run cs s = Some s' -> orderly ks cs = true /\ typed (ks ++ added cs) s'.
  Proof.
    unfold added. induction cs as [|c cs IH]; intros ks s s' H Hf E; cbn [map concat orderly]; [cbn in E; injection E as <-; rewrite app_nil_r; auto|].
    cbn [run_calls] in E. destruct (run_call c s) as [s1|] eqn:E1; [|discriminate]. cbn [fits] in Hf. apply andb_true_iff in Hf. destruct Hf as [Hf Hf2]. apply andb_true_iff in Hf. destruct Hf as [Hk Hf].
    destruct (IH _ _ _ (run_typed ks c s s1 H E1) Hf2 E) as [I1 I2]. rewrite I1, app_assoc, andb_true_r. split; [|exact I2].
    destruct c; try reflexivity; cbn [usable fit] in *; cbn [Calls.run_call] in E1.
    - destruct (val_p s i) eqn:Ei; [|discriminate]. destruct (val_p s j) eqn:Ej; [|discriminate]. rewrite (typed_even ks s i _ Hk H Ei), (typed_even ks s j _ Hk H Ej). reflexivity.
    - destruct (val_p s i) eqn:Ei; [|discriminate]. destruct (val_p s j) eqn:Ej; [|discriminate]. rewrite (typed_even ks s i _ Hk H Ei), (typed_even ks s j _ Hk H Ej). reflexivity.
    - destruct (val_s s i); [|discriminate]. destruct (val_p s j) eqn:Ej; [|discriminate]. exact (typed_even ks s j _ Hk H Ej).
    - destruct (mapM (val_p s) ps) eqn:Ep; [|discriminate]. rewrite (typed_evens ks s ps _ Hk H Ep), Hf. reflexivity.
    - exact Hf.
  Qed.
  End Run.
End Order.
