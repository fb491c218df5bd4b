(** Straight-line programs of the code generator: definition before use, live
    intervals, and evaluation under a change of the leaves. *)
From Coq Require Import ZArith NArith List Bool Lia.
From Verif Require Import Util Algebra PField Curve Evm SolIr SolScan ListFacts.
Import ListNotations.

(** * Programs with one assignment per cell *)
(** Leaves an emitted expression may have: [known] lists the cells assigned before. *)
Definition leaf_ok (known : list (N * ty)) (e : expr) : Prop :=
  match e with
  | EMemory o t => In (o, t) known
  | ETranscript _ _ | EInstance _ _ | ETmpBuf _ _ | EPoint _ _ | EScalar _ | EHash _ => True
  | _ => False
  end.
Definition reads_ok (known : list (N * ty)) (e : expr) : Prop := Forall (leaf_ok known) (leaves e).
(** [ssa n known p]: every target lies at or above [n] and above all earlier targets;
    every cell is assigned a value of its type and read with that type. *)
Fixpoint ssa (n : N) (known : list (N * ty)) (p : list stmt) : Prop :=
  match p with
  | [] => True
  | Assign (EMemory o t) r :: p => (n <= o)%N /\ (get_type r = t /\ reads_ok known r) /\ ssa (o + to_length t) ((o, t) :: known) p
  | UpdateHash e _ :: p => reads_ok known e /\ ssa n known p
  | _ :: _ => False
  end.
(** the cells assigned by [p] *)
Fixpoint targets (p : list stmt) : list (N * ty) :=
  match p with
  | [] => []
  | Assign (EMemory o t) _ :: p => (o, t) :: targets p
  | _ :: p => targets p
  end.
(** the words needed *)
Fixpoint top (n : N) (p : list stmt) : N :=
  match p with
  | [] => n
  | Assign (EMemory o t) _ :: p => top (o + to_length t) p
  | _ :: p => top n p
  end.

(** * Evaluation depends on the leaves only *)
Section Sem.
  Variable W : PF.
  Variable b : W.
  Variable checked : bool.
  Variable sha256 : list Z -> list Z.

  Lemma eval_emap E E' s s' f e : 
    (forall l, In l (leaves e) -> eval b checked E' s' (f l) = eval b checked E s l) ->
    eval b checked E' s' (emap f e) = eval b checked E s e.
  Proof.
    induction e; cbn [leaves emap]; intro H; try (apply H; now left).
    - assert (H1 := IHe1 (fun l Hl => H l (in_or_app _ _ _ (or_introl Hl)))). assert (H2 := IHe2 (fun l Hl => H l (in_or_app _ _ _ (or_intror Hl)))).
      destruct t; cbn [eval]; now rewrite H1, H2.
    - assert (H1 := IHe1 (fun l Hl => H l (in_or_app _ _ _ (or_introl Hl)))). assert (H2 := IHe2 (fun l Hl => H l (in_or_app _ _ _ (or_intror Hl)))).
      destruct t; cbn [eval]; now rewrite H1, H2.
    - assert (H1 := IHe1 (fun l Hl => H l (in_or_app _ _ _ (or_introl Hl)))). assert (H2 := IHe2 (fun l Hl => H l (in_or_app _ _ _ (or_intror Hl)))).
      destruct t; cbn [eval]; now rewrite H1, H2.
    - assert (H1 := IHe1 (fun l Hl => H l (in_or_app _ _ _ (or_introl Hl)))). assert (H2 := IHe2 (fun l Hl => H l (in_or_app _ _ _ (or_intror Hl)))).
      destruct t; cbn [eval]; [now rewrite H1, H2|reflexivity].
    - assert (H1 := IHe1 (fun l Hl => H l (in_or_app _ _ _ (or_introl Hl)))).
      assert (H2 := IHe2 (fun l Hl => H l (in_or_app _ _ _ (or_intror (in_or_app _ _ _ (or_introl Hl)))))).
      assert (H3 := IHe3 (fun l Hl => H l (in_or_app _ _ _ (or_intror (in_or_app _ _ _ (or_intror Hl)))))).
      destruct t; cbn [eval]; now rewrite H1, H2, H3.
    - destruct t; cbn [eval]; [|reflexivity]. now rewrite (IHe H).
  Qed.
  Lemma emap_id e : emap (fun x => x) e = e.
  Proof. induction e; cbn [emap]; congruence. Qed.
  Lemma eval_ext E s s' e : (forall l, In l (leaves e) -> eval b checked E s' l = eval b checked E s l) ->
    eval b checked E s' e = eval b checked E s e.
  Proof. intro H. rewrite <- (emap_id e) at 1. now apply eval_emap. Qed.
  Lemma emap_type f e : (forall l, In l (leaves e) -> get_type (f l) = get_type l) -> get_type (emap f e) = get_type e.
  Proof. destruct e; cbn [leaves emap get_type]; intro H; try reflexivity; apply H; now left. Qed.
  Definition is_leaf (e : expr) : bool :=
    match e with EAdd _ _ _ | ESub _ _ _ | EMul _ _ _ | EDiv _ _ _ | EMulAdd _ _ _ _ | EPow _ _ _ => false | _ => true end.
  Lemma leaf_leaves e : is_leaf e = true -> leaves e = [e].
  Proof. now destruct e. Qed.
  Lemma leaf_emap f e : is_leaf e = true -> emap f e = f e.
  Proof. now destruct e. Qed.
  Lemma leaves_leaf e l : In l (leaves e) -> is_leaf l = true.
  Proof.
    revert l. induction e; intro l; cbn [leaves]; rewrite ?in_app_iff; try (intros [<-|[]]; reflexivity); firstorder.
  Qed.
  Ltac sub H := intros l Hl; apply H; rewrite ?in_app_iff; tauto.
  Lemma emap_leaves f e : (forall l, In l (leaves e) -> is_leaf (f l) = true) -> leaves (emap f e) = map f (leaves e).
  Proof.
    induction e; cbn [leaves emap]; intro H; rewrite ?map_app; try (now rewrite leaf_leaves by (apply H; now left)); try (now rewrite (IHe H)).
    1-4: rewrite IHe1, IHe2; [reflexivity|sub H|sub H].
    rewrite IHe1, IHe2, IHe3; [reflexivity|sub H|sub H|sub H].
  Qed.
  Lemma emap_ext f g e : (forall l, In l (leaves e) -> f l = g l) -> emap f e = emap g e.
  Proof.
    induction e; cbn [leaves emap]; intro H; try (apply H; now left); try (now rewrite (IHe H)).
    1-4: rewrite IHe1, IHe2; [reflexivity|sub H|sub H].
    rewrite IHe1, IHe2, IHe3; [reflexivity|sub H|sub H|sub H].
  Qed.
  Lemma emap_emap f g e : (forall l, In l (leaves e) -> is_leaf (f l) = true) -> emap g (emap f e) = emap (fun l => g (f l)) e.
  Proof.
    induction e; cbn [leaves emap]; intro H; try (now rewrite leaf_emap by (apply H; now left)); try (now rewrite (IHe H)).
    1-4: rewrite IHe1, IHe2; [reflexivity|sub H|sub H].
    rewrite IHe1, IHe2, IHe3; [reflexivity|sub H|sub H|sub H].
  Qed.
End Sem.
