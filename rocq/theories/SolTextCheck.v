(** The conditions of C57 on a program, decided by computation. *)
From Coq Require Import ZArith NArith List Bool Lia.
From Verif Require Import SolIr SolTextSpec.
Import ListNotations.

Definition offset_b (o : N) : bool := (o + 1 <? 2 ^ 64)%N.
Fixpoint in_range_b (e : expr) : bool :=
  match e with
  | EMemory o _ | ETranscript o _ | EInstance o _ | ETmpBuf o _ => offset_b o
  | EPoint x y => (0 <=? x)%Z && (0 <=? y)%Z
  | EScalar z => (0 <=? z)%Z
  | EAdd l r _ | ESub l r _ | EMul l r _ | EDiv l r _ => in_range_b l && in_range_b r
  | EMulAdd l r c _ => in_range_b l && in_range_b r && in_range_b c
  | EMulAddPM e opcode _ => in_range_b e && (0 <=? opcode)%Z
  | EMulAddMT m opcode => offset_b m && (0 <=? opcode)%Z
  | EPow e n _ => in_range_b e && (n <? 2 ^ 64)%N
  | EHash o => (o <? 2 ^ 32)%N
  | ETemp _ => true
  end.
Definition stmt_in_range_b (s : stmt) : bool :=
  match s with
  | Assign l r => in_range_b l && in_range_b r
  | UpdateHash e o => in_range_b e && offset_b o
  | For ms me mst as_ ast _ => offset_b ms && offset_b me && offset_b mst && offset_b as_ && offset_b ast
  | ForMMMMul (l, a, c) (dl, da, dc) n _ => offset_b l && offset_b a && offset_b c && offset_b dl && offset_b da && offset_b dc && (n <? 2 ^ 64)%N
  end.
Definition prints_b (s : stmt) : bool :=
  match s with
  | Assign _ (EPow _ _ TPoint) => false
  | For ms me mst _ _ _ => (ms <=? me)%N && negb (mst =? 0)%N
  | ForMMMMul _ _ _ TPoint => false
  | _ => true
  end.
Definition printable (q : list stmt) : bool := forallb stmt_in_range_b q && forallb prints_b q.

Lemma offset_ok o : offset_b o = true <-> offset o.
Proof. apply N.ltb_lt. Qed.
Lemma in_range_ok e : in_range_b e = true <-> in_range e.
Proof.
  induction e; cbn [in_range_b in_range]; rewrite ?andb_true_iff, ?Z.leb_le, ?offset_ok, ?N.ltb_lt; tauto.
Qed.
Lemma stmt_in_range_ok s : stmt_in_range_b s = true <-> stmt_in_range s.
Proof.
  destruct s as [l r|e o|? ? ? ? ? ?|[[? ?] ?] [[? ?] ?] ? ?]; cbn [stmt_in_range_b stmt_in_range]; rewrite ?andb_true_iff, ?in_range_ok, ?offset_ok, ?N.ltb_lt; tauto.
Qed.
Lemma prints_ok s : prints_b s = true <-> prints s.
Proof.
  destruct s as [l r|e o|? ? ? ? ? ?|a b n t]; cbn [prints_b prints]; try tauto.
  - destruct r; try tauto. destruct t; split; intro H; try reflexivity; discriminate H.
  - rewrite andb_true_iff, N.leb_le, negb_true_iff, N.eqb_neq. tauto.
  - destruct t; split; intro H; try reflexivity; discriminate H.
Qed.
(** The check decides the conditions. *)
Lemma printable_ok q : printable q = true <-> Forall stmt_in_range q /\ Forall prints q.
Proof.
  unfold printable. rewrite andb_true_iff, !forallb_forall, !Forall_forall. split; intros [H1 H2]; split; intros s Hs; [apply stmt_in_range_ok|apply prints_ok|apply stmt_in_range_ok|apply prints_ok]; auto.
Qed.
