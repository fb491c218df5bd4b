(** Small helpers shared by the models: the option monad used for panics and
    errors, [mapM], [chunks], decimal formatting. *)
From Coq Require Import String Ascii NArith Arith Lia Bool List Decimal DecimalString DecimalNat DecimalFacts.
Import ListNotations.

Notation "'do' x <- e ; f" := (match e with Some x => f | None => None end)
  (at level 200, x pattern, e at level 100, f at level 200, right associativity).

Fixpoint mapM {A B} (f : A -> option B) (l : list A) : option (list B) :=
  match l with
  | [] => Some []
  | a :: l' => do b <- f a; do r <- mapM f l'; Some (b :: r)
  end.

(** left fold in the option monad *)
Fixpoint foldM {A B} (f : B -> A -> option B) (l : list A) (b : B) : option B :=
  match l with
  | [] => Some b
  | a :: l' => do b' <- f b a; foldM f l' b'
  end.

(** [Iterator::reduce]: [None] on the empty list. *)
Definition reduce {A} (f : A -> A -> A) (l : list A) : option A :=
  match l with [] => None | a :: l' => Some (fold_left f l' a) end.

(** [slice::chunks(k)]; [k = 0] panics in Rust, callers guard it. *)
Fixpoint chunks_aux {A} (fuel k : nat) (l : list A) : list (list A) :=
  match fuel with
  | O => []
  | S fuel => match l with [] => [] | _ => firstn k l :: chunks_aux fuel k (skipn k l) end
  end.
Definition chunks {A} (k : nat) (l : list A) : list (list A) := chunks_aux (length l) k l.

(** [iter().enumerate()] *)
Definition enumerate {A} (l : list A) : list (nat * A) := combine (seq 0 (length l)) l.

(** [format!("{}", n)] for an unsigned integer. *)
Definition fmt_nat (n : nat) : string := NilZero.string_of_uint (Nat.to_uint n).

Lemma mapM_length {A B} (f : A -> option B) l r : mapM f l = Some r -> length r = length l.
Proof.
  revert r; induction l as [|a l IH]; cbn; intros r H.
  - inversion H; reflexivity.
  - destruct (f a); [|discriminate]. destruct (mapM f l) as [r'|]; [|discriminate].
    inversion H; subst; cbn. f_equal. now apply IH.
Qed.

Lemma mapM_Some {A B} (f : A -> option B) (g : A -> B) l :
  (forall a, In a l -> f a = Some (g a)) -> mapM f l = Some (map g l).
Proof.
  induction l as [|a l IH]; cbn; intro H; [reflexivity|].
  rewrite H by now left. rewrite IH by (intros; apply H; now right). reflexivity.
Qed.

Lemma mapM_Forall2 {A B} (f : A -> option B) l r :
  mapM f l = Some r <-> Forall2 (fun a b => f a = Some b) l r.
Proof.
  revert r; induction l as [|a l IH]; cbn; intros r.
  - split; intro H; [inversion H; constructor|inversion H; reflexivity].
  - split; intro H.
    + destruct (f a) eqn:E; [|discriminate]. destruct (mapM f l) as [r'|]; [|discriminate].
      inversion H; subst. constructor; [assumption|]. now apply IH.
    + inversion H; subst. rewrite H2. apply IH in H4. now rewrite H4.
Qed.

Lemma mapM_app {A B} (f : A -> option B) l1 l2 :
  mapM f (l1 ++ l2) = do r1 <- mapM f l1; do r2 <- mapM f l2; Some (r1 ++ r2).
Proof.
  induction l1 as [|a l1 IH]; cbn.
  - destruct (mapM f l2); reflexivity.
  - destruct (f a); [|reflexivity]. rewrite IH.
    destruct (mapM f l1); [|reflexivity]. destruct (mapM f l2); reflexivity.
Qed.

Lemma fmt_nat_inj a b : fmt_nat a = fmt_nat b -> a = b.
Proof.
  unfold fmt_nat. intro H.
  apply (f_equal NilZero.uint_of_string) in H.
  rewrite !NilZero.usu in H.
  - inversion H as [E]. apply DecimalNat.Unsigned.to_uint_inj. exact E.
  - intro E. destruct b; cbn in E; [discriminate|].
    apply (f_equal Nat.of_uint) in E. change (Nat.of_uint (Nat.to_uint (S b)) = 0%nat) in E.
    rewrite DecimalNat.Unsigned.of_to in E. discriminate.
  - intro E. destruct a; cbn in E; [discriminate|].
    apply (f_equal Nat.of_uint) in E. change (Nat.of_uint (Nat.to_uint (S a)) = 0%nat) in E.
    rewrite DecimalNat.Unsigned.of_to in E. discriminate.
Qed.

Lemma combine_length_eq {A B} (l : list A) (r : list B) :
  length l = length r -> length (combine l r) = length l.
Proof. intro H. rewrite combine_length, H. apply Nat.min_id. Qed.

Lemma enumerate_length {A} (l : list A) : length (enumerate l) = length l.
Proof. unfold enumerate. rewrite combine_length, seq_length. apply Nat.min_id. Qed.

Lemma enumerate_snd {A} (l : list A) : map snd (enumerate l) = l.
Proof.
  unfold enumerate. generalize 0. induction l as [|a l IH]; intro n; cbn; [reflexivity|].
  f_equal. apply IH.
Qed.

Lemma enumerate_In {A} (l : list A) i a : In (i, a) (enumerate l) <-> nth_error l i = Some a.
Proof.
  unfold enumerate.
  assert (G : forall n, In (i, a) (combine (seq n (length l)) l) <-> (n <= i /\ nth_error l (i - n) = Some a)).
  { induction l as [|b l IH]; intro n; cbn.
    - split; [tauto|]. intros [_ H]. destruct (i - n); discriminate.
    - rewrite IH. split.
      + intros [H|[H1 H2]].
        * inversion H; subst. rewrite Nat.sub_diag. cbn. auto.
        * split; [lia|]. replace (i - n) with (S (i - S n)) by lia. exact H2.
      + intros [H1 H2]. destruct (Nat.eq_dec i n) as [->|E].
        * rewrite Nat.sub_diag in H2. cbn in H2. inversion H2. now left.
        * right. split; [lia|]. replace (i - n) with (S (i - S n)) in H2 by lia. exact H2. }
  rewrite G, Nat.sub_0_r. split; [tauto|]. intro H; split; [lia|exact H].
Qed.
