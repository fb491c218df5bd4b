(** Reading back printed text: the tokens. *)
From Coq Require Import ZArith NArith List Bool String Ascii Decimal DecimalString DecimalN Lia.
From Verif Require Import Util SolIr SolText SolRead.
Import ListNotations.
Local Open Scope string_scope.

Lemma app_nil_r_s s : s ++ "" = s.
Proof. induction s as [|c s IH]; [reflexivity|]. cbn [append]. rewrite IH. reflexivity. Qed.
Lemma app_assoc_s a : forall b c, (a ++ b) ++ c = a ++ (b ++ c).
Proof. induction a as [|x a IH]; intros b c; [reflexivity|]. cbn [append]. rewrite IH. reflexivity. Qed.

(** the text before [x] does not run into it *)
Definition stops (x : string) : bool := match x with "" => true | String c _ => negb (wordy c) end.
Fixpoint ends (u : string) : bool := match u with "" => false | String c "" => negb (wordy c) | String _ u => ends u end.

Lemma flush_stops w x : stops x = true -> lex w x = flush w (lex "" x).
Proof. destruct x as [|c x]; [intros _; reflexivity|]. cbn [stops lex]. intro H. apply negb_true_iff in H. rewrite H. reflexivity. Qed.
Lemma flush_bind w k x : flush w (do a <- k; do l <- lex "" x; Some (a ++ l)%list) = do a <- flush w k; do l <- lex "" x; Some (a ++ l)%list.
Proof.
  destruct w as [|c w]; [reflexivity|]. cbn [flush]. destruct (word_tok (String c w)); [|reflexivity]. destruct k; [|reflexivity]. destruct (lex "" x); reflexivity.
Qed.
Lemma lex_app u : forall w x, stops x = true \/ ends u = true -> lex w (u ++ x) = do a <- lex w u; do l <- lex "" x; Some (a ++ l)%list.
Proof.
  induction u as [|c u IH]; intros w x H.
  - destruct H as [H|H]; [|discriminate]. cbn [append]. rewrite (flush_stops w x H). cbn [lex]. rewrite <- flush_bind. cbn [app]. destruct (lex "" x); reflexivity.
  - cbn [append lex]. destruct (wordy c) eqn:Ec.
    + apply IH. destruct H as [H|H]; [left; exact H|]. cbn [ends] in H. destruct u; [rewrite Ec in H; discriminate|right; exact H].
    + assert (G : lex "" (u ++ x) = do a <- lex "" u; do l <- lex "" x; Some (a ++ l)%list).
      { destruct u as [|d u]; [cbn; destruct (lex "" x); reflexivity|]. apply IH. destruct H as [H|H]; [left; exact H|right; exact H]. }
      rewrite <- flush_bind. f_equal. rewrite G. destruct (blank c); [reflexivity|]. destruct (lex "" u); [|reflexivity]. destruct (lex "" x); reflexivity.
Qed.

(** The tokens of a text in pieces *)
Fixpoint bounds (l : list string) : Prop :=
  match l with [] => True | u :: l => (stops (fmt l) = true \/ ends u = true) /\ bounds l end.
Lemma lex_fmt l : forall ts, Forall2 (fun u t => lex "" u = Some t) l ts -> bounds l -> lex "" (fmt l) = Some (List.concat ts).
Proof.
  induction l as [|u l IH]; intros ts F B; inversion F; subst; [reflexivity|]. destruct B as [B1 B2].
  change (fmt (u :: l)) with (u ++ fmt l). rewrite lex_app by exact B1. match goal with H : lex "" u = _ |- _ => rewrite H end. rewrite (IH _ H3 B2). reflexivity.
Qed.

(** Numbers *)
Fixpoint wordyall (s : string) : bool := match s with "" => true | String c s => wordy c && wordyall s end.
Lemma lex_word s : forall w, wordyall s = true -> lex w s = flush (w ++ s) (Some []).
Proof.
  induction s as [|c s IH]; intros w H; [rewrite app_nil_r_s; reflexivity|]. cbn [wordyall] in H. apply andb_prop in H as [H1 H2]. cbn [lex]. rewrite H1.
  rewrite IH by exact H2. rewrite app_assoc_s. reflexivity.
Qed.
Lemma digits_wordy d : wordyall (NilEmpty.string_of_uint d) = true.
Proof. induction d; [reflexivity|..]; cbn [NilEmpty.string_of_uint wordyall]; rewrite IHd; reflexivity. Qed.
Lemma to_uint_nonnil n : N.to_uint n <> Nil.
Proof. intro H. pose proof (DecimalN.Unsigned.of_to n) as E. destruct n; [discriminate|]. rewrite H in E. discriminate E. Qed.
Lemma lex_dec n : lex "" (dec n) = Some [TNum n].
Proof.
  unfold dec. rewrite lex_word by apply digits_wordy. cbn [append]. pose proof (NilEmpty.usu (N.to_uint n)) as U. pose proof (to_uint_nonnil n) as H.
  assert (exists c s, NilEmpty.string_of_uint (N.to_uint n) = String c s /\ digit c = true) as (c & s & E & D).
  { destruct (N.to_uint n); [contradiction H; reflexivity|..]; cbn [NilEmpty.string_of_uint]; eexists; eexists; (split; [reflexivity|reflexivity]). }
  rewrite E in *. cbn [flush word_tok]. rewrite D, U. cbv beta iota. rewrite DecimalN.Unsigned.of_to. reflexivity.
Qed.
Lemma lex_decz z : lex "" (decz z) = Some [TNum (Z.to_N z)].
Proof. apply lex_dec. Qed.
