(** Facts about lists used by several files. *)
From Coq Require Import Arith Lia List.
From Verif Require Import Util.
Import ListNotations.

Lemma Forall_True {X} (l : list X) : Forall (fun _ => True) l.
Proof. induction l; constructor; auto. Qed.
Lemma Forall2_compose {X Y Z} (P : X -> Y -> Prop) (Q : Y -> Z -> Prop) (R0 : X -> Z -> Prop) a b c :
  (forall x y z, P x y -> Q y z -> R0 x z) -> Forall2 P a b -> Forall2 Q b c -> Forall2 R0 a c.
Proof. intros H F1. revert c. induction F1; intros c F2; inversion F2; subst; constructor; eauto. Qed.
Lemma Forall2_length {X Y} (P : X -> Y -> Prop) a b : Forall2 P a b -> length a = length b.
Proof. induction 1; cbn; congruence. Qed.
Lemma Forall2_weaken {X Y} (P Q : X -> Y -> Prop) a b : (forall x y, P x y -> Q x y) -> Forall2 P a b -> Forall2 Q a b.
Proof. intros H F1. induction F1; constructor; auto. Qed.
Lemma flat_map_F2 {X Y Z} (g : X -> list Z) (h : Y -> list Z) (P : X -> Y -> Prop) a b :
  (forall x y, P x y -> g x = h y) -> Forall2 P a b -> flat_map g a = flat_map h b.
Proof. intros H F1. induction F1; cbn [flat_map]; [reflexivity|]. now rewrite (H _ _ H0), IHF1. Qed.
Lemma flat_map_map_single {X Y} (g : X -> Y) l : flat_map (fun x => [g x]) l = map g l.
Proof. induction l as [|x l IH]; cbn; [reflexivity|now rewrite IH]. Qed.
Lemma flat_map_concat {X Y} (g : X -> Y) ll : flat_map (fun l => map g l) ll = map g (concat ll).
Proof. induction ll as [|l ll IH]; cbn [flat_map concat]; [reflexivity|now rewrite IH, map_app]. Qed.
Lemma combine_nth_error {X Y} (l : list X) (r : list Y) i x y : nth_error (combine l r) i = Some (x, y) <-> nth_error l i = Some x /\ nth_error r i = Some y.
Proof.
  revert r i. induction l as [|a l IH]; intros r [|i]; [split; [discriminate|intros []; discriminate]|split; [discriminate|intros []; discriminate]| |]; destruct r as [|b r].
  - split; [discriminate|intros []; discriminate].
  - cbn. split; [intro E; inversion E; auto|intros [E1 E2]; inversion E1; inversion E2; reflexivity].
  - split; [discriminate|intros []; discriminate].
  - cbn. apply IH.
Qed.
Lemma enumerate_nth_error {X} (l : list X) i j x : nth_error (enumerate l) i = Some (j, x) <-> j = i /\ nth_error l i = Some x.
Proof.
  unfold enumerate. rewrite combine_nth_error. split; intros [E1 E2]; (split; [|exact E2]).
  - assert (L : (i < length l)%nat) by (apply nth_error_Some; congruence). rewrite (nth_error_nth' _ O) in E1 by (now rewrite seq_length). rewrite seq_nth in E1 by exact L. now inversion E1.
  - subst. assert (L : (i < length l)%nat) by (apply nth_error_Some; congruence). rewrite (nth_error_nth' _ O) by (now rewrite seq_length). now rewrite seq_nth by exact L.
Qed.
Lemma Forall2_nth {X Y} (P : X -> Y -> Prop) l r : Forall2 P l r <-> length r = length l /\ forall i x y, nth_error l i = Some x -> nth_error r i = Some y -> P x y.
Proof.
  split.
  - induction 1 as [|x y l r H _ [L IH]]; [split; [reflexivity|intros [|i] x y E; discriminate]|]. split; [cbn; now f_equal|].
    intros [|i] x' y' E1 E2; cbn in E1, E2; [inversion E1; inversion E2; now subst|eauto].
  - revert r. induction l as [|x l IH]; intros [|y r] [L H]; try discriminate; constructor; [now apply (H O)|]. apply IH. split; [now inversion L|]. intros i; apply (H (S i)).
Qed.
Lemma nth_ext_err {X} (l r : list X) : length l = length r -> (forall i x y, nth_error l i = Some x -> nth_error r i = Some y -> x = y) -> l = r.
Proof.
  revert r. induction l as [|x l IH]; intros [|y r] L H; try discriminate; [reflexivity|]. f_equal; [now apply (H O)|]. apply IH; [now inversion L|]. intros i; apply (H (S i)).
Qed.
Lemma nth_error_ex {X} (l : list X) i : (i < length l)%nat -> exists x, nth_error l i = Some x.
Proof. intro H. destruct (nth_error l i) eqn:E; [eauto|]. apply nth_error_None in E. lia. Qed.
