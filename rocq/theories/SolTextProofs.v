(** Reading back printed text: expressions, statements and what they do. *)
From Coq Require Import ZArith NArith List Bool String Ascii Lia.
From Verif Require Import Util Algebra PField Curve Evm SolIr SolSem SolMulAdd SolAggDriver SolText SolRead SolTextLex.
Import ListNotations.
Local Open Scope string_scope.

(** * Parsing *)
Definition closer (c : ascii) : bool := is c "," || is c ")" || is c ";" || is c "=" || is c "]".
Lemma closer_cases c : closer c = true -> c = ","%char \/ c = ")"%char \/ c = ";"%char \/ c = "="%char \/ c = "]"%char.
Proof.
  unfold closer, is. intro H. rewrite !orb_true_iff, !Ascii.eqb_eq in H. intuition.
Qed.
Definition good (k : nat) (x : sx) (tk : list tok) : Prop :=
  forall n c ts, (k <= n)%nat -> closer c = true -> p_sum n (tk ++ TSym c :: ts) = Some (x, TSym c :: ts).
Lemma good_mono k k' x tk : (k <= k')%nat -> good k x tk -> good k' x tk.
Proof. intros L G n c ts H. apply G. lia. Qed.
Ltac fuel n := match goal with H : (_ <= n)%nat |- _ => do 12 (destruct n as [|n]; [exfalso; lia|]) end.
Lemma good_num k : good 12 (XNum k) [TNum k].
Proof. intros n c ts L H. fuel n. destruct (closer_cases c H) as [->|[->|[->|[->| ->]]]]; reflexivity. Qed.
Lemma good_id v : good 12 (XId v) [TId v].
Proof. intros n c ts L H. fuel n. destruct (closer_cases c H) as [->|[->|[->|[->| ->]]]]; reflexivity. Qed.
Lemma good_index a x tk k : good k x tk -> good (k + 4) (XIndex a x) (TId a :: TSym "[" :: tk ++ [TSym "]"]).
Proof.
  intros G n c ts L H. do 4 (destruct n as [|n]; [exfalso; lia|]). cbn [app]. rewrite <- app_assoc. cbn [app].
  assert (E : p_prim (S (S n)) (TId a :: TSym "[" :: tk ++ TSym "]" :: TSym c :: ts) = Some (XIndex a x, TSym c :: ts)).
  { cbn [p_prim is]. change (is "[" "(") with false. change (is "[" "[") with true. cbv iota. rewrite G by (reflexivity || lia). reflexivity. }
  cbn [p_sum p_mul]. rewrite E. cbn [p_mul_rest p_sum_rest]. destruct (closer_cases c H) as [->|[->|[->|[->| ->]]]]; reflexivity.
Qed.
(** a + v * d *)
Definition linear (a : N) (d : N) : sx := XBin "+" (XNum a) (XBin "*" (XId "t0") (XNum d)).
Definition linear_t (a d : N) : list tok := [TNum a; TSym "+"; TId "t0"; TSym "*"; TNum d].
Lemma good_linear a d : good 12 (linear a d) (linear_t a d).
Proof. intros n c ts L H. fuel n. destruct (closer_cases c H) as [->|[->|[->|[->| ->]]]]; reflexivity. Qed.

Fixpoint join (l : list (list tok)) : list tok :=
  match l with [] => [] | t :: l => match l with [] => t | _ => (t ++ TSym "," :: join l)%list end end.
Lemma p_args_join k xs : forall tks n ts, Forall2 (good k) xs tks -> xs <> [] -> (k + List.length xs <= n)%nat ->
  p_args n (join tks ++ TSym ")" :: ts) = Some (xs, ts).
Proof.
  induction xs as [|x xs IH]; intros tks n ts F Ne L; [contradiction Ne; reflexivity|]. inversion F as [|? t ? tks' G F']; subst.
  cbn [List.length] in L. destruct n as [|n]; [lia|]. cbn [p_args]. destruct xs as [|y xs].
  - inversion F'; subst. cbn [join]. rewrite G by (reflexivity || (cbn [List.length] in L; lia)). reflexivity.
  - destruct tks' as [|t' tks']; [inversion F'|]. cbn [join]. change (match tks' with [] => t' | _ => (t' ++ TSym "," :: join tks')%list end) with (join (t' :: tks')).
    rewrite <- app_assoc. cbn [app]. rewrite G by (reflexivity || lia). change (is "," ",") with true. cbv iota.
    rewrite (IH (t' :: tks') n ts F' ltac:(discriminate) ltac:(lia)). reflexivity.
Qed.
Lemma good_call k f xs tks : Forall2 (good k) xs tks -> xs <> [] -> good (k + List.length xs + 4) (XCall f xs) (TId f :: TSym "(" :: join tks ++ [TSym ")"]).
Proof.
  intros F Ne n c ts L H. do 4 (destruct n as [|n]; [exfalso; lia|]). cbn [app]. rewrite <- app_assoc. cbn [app].
  assert (E : p_prim (S (S n)) (TId f :: TSym "(" :: join tks ++ TSym ")" :: TSym c :: ts) = Some (XCall f xs, TSym c :: ts)).
  { cbn [p_prim]. change (is "(" "(") with true. cbv iota. rewrite (p_args_join k xs tks) by (assumption || lia). reflexivity. }
  cbn [p_sum p_mul]. rewrite E. cbn [p_mul_rest p_sum_rest]. destruct (closer_cases c H) as [->|[->|[->|[->| ->]]]]; reflexivity.
Qed.
Lemma good_tuple k xs tks : Forall2 (good k) xs tks -> xs <> [] -> good (k + List.length xs + 4) (XTuple xs) (TSym "(" :: join tks ++ [TSym ")"]).
Proof.
  intros F Ne n c ts L H. do 4 (destruct n as [|n]; [exfalso; lia|]). cbn [app]. rewrite <- app_assoc. cbn [app].
  assert (E : p_prim (S (S n)) (TSym "(" :: join tks ++ TSym ")" :: TSym c :: ts) = Some (XTuple xs, TSym c :: ts)).
  { cbn [p_prim]. change (is "(" "(") with true. cbv iota. rewrite (p_args_join k xs tks) by (assumption || lia). reflexivity. }
  cbn [p_sum p_mul]. rewrite E. cbn [p_mul_rest p_sum_rest]. destruct (closer_cases c H) as [->|[->|[->|[->| ->]]]]; reflexivity.
Qed.
(** q_mod - x *)
Lemma good_minus k x tk : (forall n ts, (k <= n)%nat -> forall c, closer c = true -> p_mul n (tk ++ TSym c :: ts) = Some (x, TSym c :: ts)) ->
  good (k + 6) (XBin "-" (XId "q_mod") x) (TId "q_mod" :: TSym "-" :: tk).
Proof.
  intros G n c ts L H. do 6 (destruct n as [|n]; [exfalso; lia|]). cbn [app].
  cbn [p_sum]. change (p_mul (S (S (S (S (S n))))) (TId "q_mod" :: TSym "-" :: tk ++ TSym c :: ts)) with (Some (XId "q_mod", TSym "-" :: (tk ++ TSym c :: ts)%list)).
  cbv beta iota. cbn [p_sum_rest]. change (is "-" "+" || is "-" "-") with true. cbv iota. rewrite G by (assumption || lia). destruct (closer_cases c H) as [->|[->|[->|[->| ->]]]]; reflexivity.
Qed.
Lemma p_sum_mul k x tk : good k x tk -> forall n ts, (k <= n)%nat -> forall c, closer c = true -> p_mul n (tk ++ TSym c :: ts) = Some (x, TSym c :: ts) \/ exists l op r, x = XBin op l r.
Proof.
  intros G n ts L c H. specialize (G (S n) c ts ltac:(lia) H). cbn [p_sum] in G. destruct (p_mul n _) as [[l ts']|]; [|discriminate].
  destruct n as [|n]; [discriminate|]. cbn [p_sum_rest] in G. destruct ts' as [|[| |d] ts'].
  - left; congruence.
  - left; congruence.
  - left; congruence.
  - destruct (is d "+" || is d "-") eqn:Ed; [|left; congruence].
    right. destruct (p_mul n ts') as [[r ts'']|]; [|discriminate]. assert (X : forall m l ts, (exists a op e, l = XBin op a e) -> forall z ts', p_sum_rest m l ts = Some (z, ts') -> exists a op e, z = XBin op a e).
    { clear. induction m as [|m IH]; intros l ts Hl z ts' E; [discriminate|]. cbn [p_sum_rest] in E. destruct ts as [|[| |d] ts]; try (injection E as <- _; exact Hl).
      destruct (is d "+" || is d "-"); [|injection E as <- _; exact Hl]. destruct (p_mul m ts) as [[r t]|]; [|discriminate]. eapply IH; [|exact E]. eauto. }
    eapply X; [|exact G]. eauto.
Qed.

(** * Operands *)
(** The numbers of a program have their Rust types: [usize] with room for one more, [BigUint];
    the length given to [squeeze_challenge] is a uint32. *)
Definition us (o : N) : Prop := (o + 1 < 2 ^ 64)%N.
Fixpoint sized (e : expr) : Prop :=
  match e with
  | EMemory o _ | ETranscript o _ | EInstance o _ | ETmpBuf o _ => us o
  | EPoint x y => (0 <= x)%Z /\ (0 <= y)%Z
  | EScalar z => (0 <= z)%Z
  | EAdd l r _ | ESub l r _ | EMul l r _ | EDiv l r _ => sized l /\ sized r
  | EMulAdd l r c _ => sized l /\ sized r /\ sized c
  | EMulAddPM e opcode _ => sized e /\ (0 <= opcode)%Z
  | EMulAddMT m opcode => us m /\ (0 <= opcode)%Z
  | EPow e n _ => sized e /\ (n < 2 ^ 64)%N
  | EHash o => (o < 2 ^ 32)%N
  | ETemp _ => True
  end.
Definition sized_stmt (s : stmt) : Prop :=
  match s with
  | Assign l r => sized l /\ sized r
  | UpdateHash e o => sized e /\ us o
  | For ms me mst as_ ast _ => us ms /\ us me /\ us mst /\ us as_ /\ us ast
  | ForMMMMul (l, a, c) (dl, da, dc) n _ => us l /\ us a /\ us c /\ us dl /\ us da /\ us dc /\ (n < 2 ^ 64)%N
  end.
Definition at_ (a : string) (o : N) : sx := XIndex a (XNum o).
Definition atoms (e : expr) : list sx :=
  match e with
  | EMemory o TScalar => [at_ "m" o] | EMemory o TPoint => [at_ "m" o; at_ "m" (o + 1)]
  | ETranscript o TScalar => [at_ "proof" o] | ETranscript o TPoint => [at_ "proof" o; at_ "proof" (o + 1)]
  | EInstance o TScalar => [at_ "instances" o] | EInstance o TPoint => [at_ "instances" o; at_ "instances" (o + 1)]
  | EPoint x y => [XNum (Z.to_N x); XNum (Z.to_N y)]
  | EScalar z => [XNum (Z.to_N z)]
  | ETemp TScalar => [XId "t0"] | ETemp TPoint => [XId "t0"; XId "t1"]
  | _ => []
  end.
Definition atok (x : sx) : list tok :=
  match x with
  | XNum n => [TNum n] | XId v => [TId v]
  | XIndex a (XNum o) => [TId a; TSym "["; TNum o; TSym "]"]
  | _ => []
  end.
Definition otoks (e : expr) : list (list tok) := map atok (atoms e).

Ltac lexing := erewrite lex_fmt;
  [| repeat (apply Forall2_cons; [first [apply lex_dec | apply lex_decz | eassumption | vm_compute; reflexivity]|]); apply Forall2_nil
   | cbn [bounds]; repeat split; first [left; reflexivity | right; reflexivity] ].
Lemma atoms_text e : simple e -> exists u, to_typed_string e = Some u /\ lex "" u = Some (join (otoks e)).
Proof.
  destruct e as [o t|o t|o t|o t|x y|z| | | | | | | | | |t]; cbn [simple]; intro H; try contradiction H; try destruct t; cbn [to_typed_string]; eexists; (split; [reflexivity|]);
    first [lexing; reflexivity | apply lex_decz | reflexivity].
Qed.
Lemma atom_good e : simple e -> Forall2 (good 16) (atoms e) (otoks e).
Proof.
  intro H. assert (I : forall a o, good 16 (at_ a o) (atok (at_ a o))) by (intros a o; exact (good_index a (XNum o) [TNum o] 12 (good_num o))).
  assert (K : forall o, good 16 (XNum o) (atok (XNum o))) by (intros o; exact (good_mono 12 16 _ _ ltac:(lia) (good_num o))).
  assert (V : forall v, good 16 (XId v) (atok (XId v))) by (intros v; exact (good_mono 12 16 _ _ ltac:(lia) (good_id v))).
  unfold otoks. destruct e as [o t|o t|o t|o t|x y|z| | | | | | | | | |t]; cbn [simple] in H; try contradiction H; try destruct t; cbn [atoms map]; repeat constructor; first [apply I | apply K | apply V].
Qed.
Lemma atoms_ne e : simple e -> atoms e <> [].
Proof. destruct e as [o t|o t|o t|o t|x y|z| | | | | | | | | |t]; cbn [simple]; intro H; try contradiction H; try destruct t; discriminate. Qed.
Lemma join_app a b : a <> [] -> b <> [] -> join (a ++ b) = (join a ++ TSym "," :: join b)%list.
Proof.
  intros Ha Hb. induction a as [|t a IH]; [contradiction Ha; reflexivity|]. destruct a as [|t' a].
  - cbn [app join]. destruct b; [contradiction Hb; reflexivity|]. reflexivity.
  - specialize (IH ltac:(discriminate)). cbn [app] in *. change (join (t :: t' :: a ++ b)) with (t ++ TSym "," :: join (t' :: a ++ b))%list. rewrite IH.
    change (join (t :: t' :: a)) with (t ++ TSym "," :: join (t' :: a))%list. rewrite <- app_assoc. reflexivity.
Qed.

(** * What the text does *)
Definition words_of (v : value) : list Z := match v with VS z => [z] | VP x y => [x; y] end.
Lemma mapo_app {A B} (f : A -> option B) a : forall b, mapo f (a ++ b) = do x <- mapo f a; do y <- mapo f b; Some (x ++ y)%list.
Proof.
  induction a as [|x a IH]; intro b; [cbn; destruct (mapo f b); reflexivity|]. cbn [app]. change (mapo f (x :: a ++ b)) with (do y <- f x; do ys <- mapo f (a ++ b); Some (y :: ys)).
  change (mapo f (x :: a)) with (do y <- f x; do ys <- mapo f a; Some (y :: ys)). rewrite IH. destruct (f x); [|reflexivity]. destruct (mapo f a); [|reflexivity]. destruct (mapo f b); reflexivity.
Qed.
Lemma us_256 k : (k < 2 ^ 64)%N -> (k <? 2 ^ 256)%N = true.
Proof. intro H. apply N.ltb_lt. assert (2 ^ 64 < 2 ^ 256)%N by reflexivity. lia. Qed.
Lemma us_word o : us o -> (o <? 2 ^ 256)%N = true /\ (o + 1 <? 2 ^ 256)%N = true.
Proof. unfold us. intro H. assert (2 ^ 64 < 2 ^ 256)%N by reflexivity. split; apply N.ltb_lt; lia. Qed.
Lemma literal_word z : (0 <= z)%Z -> literal z = if (Z.to_N z <? 2 ^ 256)%N then Some (Z.of_N (Z.to_N z)) else None.
Proof.
  intro H. unfold literal. rewrite Z2N.id by exact H. rewrite (proj2 (Z.leb_le 0 z) H). cbn [andb].
  destruct (Z.ltb_spec z (2 ^ 256)) as [L|L]; destruct (N.ltb_spec (Z.to_N z) (2 ^ 256)) as [L'|L']; try reflexivity; exfalso.
  - apply N2Z.inj_le in L'. rewrite Z2N.id in L' by exact H. change (Z.of_N (2 ^ 256)) with (2 ^ 256)%Z in L'. lia.
  - apply N2Z.inj_lt in L'. rewrite Z2N.id in L' by exact H. change (Z.of_N (2 ^ 256)) with (2 ^ 256)%Z in L'. lia.
Qed.

Section Sem.
  Variable W : PF.
  Variable b : W.
  Variable checked : bool.
  Variable sha256 : list Z -> list Z.
  Variable E : env.
  Notation eval := (eval b checked E). Notation exec := (exec b checked sha256 E). Notation ev := (ev b checked E).
  Notation argument := (argument b checked E). Notation rhs := (rhs b checked sha256 E). Notation call := (call b checked E).
  Notation do_stmt := (do_stmt b checked sha256 E). Notation do_simple := (do_simple b checked sha256 E).

  Definition word1 (s : st) (x : sx) : option Z := do v <- ev s x; one v.
  Lemma at_ok s a o : us o -> word1 s (at_ a o) = index E s a o /\ word1 s (at_ a (o + 1)) = index E s a (o + 1).
  Proof.
    intro H. destruct (us_word o H) as [H1 H2]. unfold word1, at_. cbn [SolRead.ev]. rewrite H1, H2. cbn [one]. rewrite !N2Z.id. split; [destruct (index E s a o)|destruct (index E s a (o + 1))]; reflexivity.
  Qed.
  Lemma num_ok s z : (0 <= z)%Z -> word1 s (XNum (Z.to_N z)) = literal z.
  Proof. intro H. rewrite literal_word by exact H. unfold word1. cbn [SolRead.ev]. destruct (_ <? _)%N; reflexivity. Qed.
  (** the words of an operand *)
  Lemma atoms_words s e : simple e -> sized e -> mapo (word1 s) (atoms e) = do v <- eval s e; Some (words_of v).
  Proof.
    destruct e as [o t|o t|o t|o t|x y|z| | | | | | | | | |t]; cbn [simple sized]; intros H Hs; try contradiction H; try destruct t; cbn [atoms mapo SolIr.eval];
      rewrite ?(proj1 (at_ok s _ _ Hs)), ?(proj2 (at_ok s _ _ Hs)); try (match type of Hs with _ /\ _ => destruct Hs as [Hs Hs'] end; rewrite (num_ok s _ Hs')); rewrite ?(num_ok s _ Hs); try reflexivity; unfold index; cbn [String.eqb Ascii.eqb Bool.eqb].
    - destruct (rd _ _ _); reflexivity.
    - destruct (rd _ _ o); [|reflexivity]. destruct (rd _ _ _); reflexivity.
    - destruct (calldata _ _); reflexivity.
    - destruct (calldata _ o); [|reflexivity]. destruct (calldata _ _); reflexivity.
    - destruct (calldata _ _); reflexivity.
    - destruct (calldata _ o); [|reflexivity]. destruct (calldata _ _); reflexivity.
    - destruct (literal x); [|reflexivity]. destruct (literal y); reflexivity.
    - unfold vs. destruct (literal z); reflexivity.
  Qed.
  Lemma atoms_plain e x : In x (atoms e) -> array_name x = None.
  Proof.
    destruct e as [o t|o t|o t|o t|? ?|z| | | | | | | | | |t]; try destruct t; cbn [atoms In]; intro H; repeat (destruct H as [H|H]); try contradiction H; subst x; reflexivity.
  Qed.
  Lemma atoms_arg s e : simple e -> sized e -> mapo (argument s) (atoms e) = do v <- eval s e; Some (map AWord (words_of v)).
  Proof.
    intros H Hs. assert (G : forall l, (forall x, In x l -> array_name x = None) -> mapo (argument s) l = do v <- mapo (word1 s) l; Some (map AWord v)).
    { clear. induction l as [|x l IH]; intro P; [reflexivity|]. change (mapo (argument s) (x :: l)) with (do y <- argument s x; do ys <- mapo (argument s) l; Some (y :: ys)).
      change (mapo (word1 s) (x :: l)) with (do y <- word1 s x; do ys <- mapo (word1 s) l; Some (y :: ys)). rewrite IH by (intros y Hy; apply P; right; exact Hy).
      unfold SolRead.argument. rewrite (P x (or_introl eq_refl)). change (word1 s x) with (do v <- ev s x; one v). destruct (ev s x) as [v|]; [|reflexivity]. cbv beta iota. destruct (one v); [|reflexivity]. destruct (mapo (word1 s) l); reflexivity. }
    rewrite G by apply atoms_plain. rewrite atoms_words by assumption. destruct (eval s e); reflexivity.
  Qed.
  Lemma typed e t s v : operand e t -> eval s e = Some v -> match t with TScalar => exists z, v = VS z | TPoint => exists x y, v = VP x y end.
  Proof.
    intros [H <-]. destruct e as [o t|o t|o t|o t|x y|z| | | | | | | | | |t]; cbn [simple] in H; try contradiction H; try destruct t; cbn [get_type SolIr.eval]; unfold vs; intro X;
      repeat match type of X with (match ?o with _ => _ end) = _ => destruct o; try discriminate X end; injection X as <-; eauto.
  Qed.
  Lemma scalar_one e : operand e TScalar -> exists x, atoms e = [x] /\ array_name x = None /\ (forall op l r, x <> XBin op l r) /\ (forall f l, x <> XCall f l).
  Proof.
    intros [H T]. destruct e as [o t|o t|o t|o t|x y|z| | | | | | | | | |t]; cbn [simple] in H; try contradiction H; cbn [get_type] in T; try subst t; try discriminate T; cbn [atoms];
      eexists; repeat split; discriminate.
  Qed.
  Lemma ev_call s f xs : ev s (XCall f xs) = do args <- mapo (argument s) xs; call s f args.
  Proof. reflexivity. Qed.
  Lemma rhs_call s f xs : f <> "squeeze_challenge" -> rhs s (XTuple [XCall f xs]) = do v <- ev s (XCall f xs); Some (v, s).
  Proof.
    intro H. unfold SolRead.rhs. change (ev s (XTuple [XCall f xs])) with (ev s (XCall f xs)).
    destruct xs as [|[] [|[] [|]]]; try reflexivity. rewrite (proj2 (String.eqb_neq f _) H). reflexivity.
  Qed.

  (** ** Right hand sides *)
  Definition plain (r : expr) : Prop := match r with EHash _ => False | _ => True end.
  (** a text in parentheses is read as the right hand side [r] *)
  Definition text_ok (u : string) (r : expr) : Prop :=
    exists xs tks, lex "" u = Some (join tks) /\ Forall2 (good 40) xs tks /\ xs <> [] /\ (List.length xs <= 2)%nat /\
      forall s, rhs s (XTuple xs) =
        match r with
        | EHash n => do (v, a) <- squeeze_challenge sha256 (e_asize E) (absorbing s) n; Some ([v], set_abs s a)
        | _ => do v <- eval s r; Some (words_of v, s)
        end.
  Lemma call_text u f xs tks r : lex "" u = Some (TId f :: TSym "(" :: join tks ++ [TSym ")"])%list -> Forall2 (good 24) xs tks -> xs <> [] -> (List.length xs <= 6)%nat ->
    f <> "squeeze_challenge" -> plain r -> (forall s, ev s (XCall f xs) = do v <- eval s r; Some (words_of v)) -> text_ok u r.
  Proof.
    intros Hu F Ne L Hf Hr He. exists [XCall f xs], [(TId f :: TSym "(" :: join tks ++ [TSym ")"])%list]. split; [exact Hu|]. split; [|split; [discriminate|split; [cbn; lia|]]].
    - constructor; [|constructor]. apply (good_mono (24 + List.length xs + 4)); [lia|]. apply good_call; assumption.
    - intro s. rewrite rhs_call by exact Hf. rewrite He. destruct r; try contradiction Hr; destruct (eval s _); reflexivity.
  Qed.
  Lemma simple_text u r : simple r -> sized r -> to_typed_string r = Some u -> text_ok u r.
  Proof.
    intros H Hs Hu. destruct (atoms_text r H) as (u' & Hu' & L). rewrite Hu in Hu'. injection Hu' as <-. exists (atoms r), (otoks r). split; [exact L|]. split.
    { clear - H. pose proof (atom_good r H) as F. induction F; constructor; [eapply good_mono; [|eassumption]; lia|assumption]. }
    split; [apply atoms_ne; exact H|]. split; [destruct r as [? t|? t|? t|? t| | | | | | | | | | | |t]; try destruct t; cbn; lia|]. intro s. unfold SolRead.rhs.
    assert (G : ev s (XTuple (atoms r)) = do v <- eval s r; Some (words_of v)).
    { rewrite <- (atoms_words s r H Hs). destruct r as [? t|? t|? t|? t|? ?|z| | | | | | | | | |t]; cbn [simple] in H; try contradiction H; try destruct t; cbn [atoms]; try reflexivity.
      - cbn [sized] in Hs. unfold at_, word1. cbn [SolRead.ev mapo]. rewrite (proj1 (us_word _ Hs)). cbn [one]. destruct (index _ _ _ _); reflexivity.
      - cbn [sized] in Hs. unfold at_, word1. cbn [SolRead.ev mapo]. rewrite (proj1 (us_word _ Hs)). cbn [one]. destruct (index _ _ _ _); reflexivity.
      - cbn [sized] in Hs. unfold at_, word1. cbn [SolRead.ev mapo]. rewrite (proj1 (us_word _ Hs)). cbn [one]. destruct (index _ _ _ _); reflexivity.
      - unfold word1. cbn [SolRead.ev mapo]. destruct (_ <? _)%N; reflexivity. }
    rewrite G. destruct r as [? t|? t|? t|? t|? ?|z| | | | | | | | | |t]; cbn [simple] in H; try contradiction H; try destruct t; cbn [atoms at_]; destruct (eval s _); reflexivity.
  Qed.

  Lemma some_inj {A} (x y : A) : Some x = Some y -> x = y.
  Proof. congruence. Qed.
  Lemma otoks_ne e : simple e -> otoks e <> [].
  Proof. intros H X. apply (atoms_ne e H). unfold otoks in X. destruct (atoms e); [reflexivity|discriminate X]. Qed.
  Lemma good24 e : simple e -> Forall2 (good 24) (atoms e) (otoks e).
  Proof. intro H. pose proof (atom_good e H) as F. induction F; constructor; [eapply good_mono; [|eassumption]; lia|assumption]. Qed.
  Lemma good24_num n : good 24 (XNum n) [TNum n].
  Proof. apply (good_mono 12); [lia|apply good_num]. Qed.
  Lemma good24_id v : good 24 (XId v) [TId v].
  Proof. apply (good_mono 12); [lia|apply good_id]. Qed.
  Lemma len2 e : (List.length (atoms e) <= 2)%nat.
  Proof. destruct e as [? t|? t|? t|? t| | | | | | | | | | | |t]; try destruct t; cbn; lia. Qed.
  Lemma len1 e : operand e TScalar -> (List.length (atoms e) = 1)%nat.
  Proof. intro H. destruct (scalar_one e H) as (x & -> & _). reflexivity. Qed.
  Lemma app_ne {A} (a c : list A) : a <> [] -> (a ++ c)%list <> [].
  Proof. destruct a; [intro H; contradiction H; reflexivity|discriminate]. Qed.
  Lemma opnd e t : operand e t -> sized e -> exists u, to_typed_string e = Some u /\ lex "" u = Some (join (otoks e)) /\ simple e /\
    otoks e <> [] /\ atoms e <> [] /\ Forall2 (good 24) (atoms e) (otoks e) /\ (List.length (atoms e) <= 2)%nat /\
    forall s, mapo (argument s) (atoms e) = do v <- eval s e; Some (map AWord (words_of v)).
  Proof.
    intros [H _] Hs. destruct (atoms_text e H) as (u & Hu & L). exists u. repeat (split; [solve [assumption|apply otoks_ne, H|apply atoms_ne, H|apply good24, H|apply len2]|]).
    intro s. apply atoms_arg; assumption.
  Qed.
  Ltac shape := cbn [List.concat app]; rewrite ?join_app by (assumption || discriminate || (apply app_ne; assumption)); cbn [join]; rewrite <- ?app_assoc; cbn [app]; rewrite ?app_nil_r; rewrite <- ?app_assoc; reflexivity.
  Ltac two l r := let Hl := fresh in let Hr := fresh in
    match goal with A : operand l _, B : operand r _, Sl : sized l, Sr : sized r |- _ =>
      destruct (opnd l _ A Sl) as (ul & Ul & Ll & Pl & Nl & Al & Gl & Kl & Ml); destruct (opnd r _ B Sr) as (ur & Ur & Lr & Pr & Nr & Ar & Gr & Kr & Mr) end.
  Ltac vals := repeat match goal with
    | A : operand ?e ?t |- context [eval ?s ?e] => let v := fresh "v" in let X := fresh "X" in destruct (eval s e) as [v|] eqn:X; [|try reflexivity];
        [apply (typed e t s v A) in X; cbv beta iota in X; try destruct X as [? ->]; try destruct X as (? & ? & ->)|..] end.

  Lemma add_text u l r t : operand l t -> operand r t -> sized l -> sized r -> to_typed_string (EAdd l r t) = Some u -> text_ok u (EAdd l r t).
  Proof.
    intros A B Sl Sr. two l r. destruct t; cbn [to_typed_string]; rewrite Ul, Ur; intro X; apply some_inj in X; subst u.
    - apply (call_text _ "addmod" (atoms l ++ atoms r ++ [XId "q_mod"])%list (otoks l ++ otoks r ++ [[TId "q_mod"]])%list).
      + lexing. shape.
      + repeat (apply Forall2_app; [assumption|]). repeat constructor. apply good24_id.
      + apply app_ne. assumption.
      + rewrite !app_length. cbn. lia.
      + discriminate.
      + exact I.
      + intro s. rewrite ev_call, !mapo_app, Ml, Mr. cbn [SolIr.eval]. vals; reflexivity.
    - apply (call_text _ "ecc_add" (atoms l ++ atoms r)%list (otoks l ++ otoks r)%list).
      + lexing. shape.
      + apply Forall2_app; assumption.
      + apply app_ne. assumption.
      + rewrite !app_length. lia.
      + discriminate.
      + exact I.
      + intro s. rewrite ev_call, !mapo_app, Ml, Mr. cbn [SolIr.eval]. vals; try reflexivity. cbn. unfold pair_, vp. destruct (ecc_add _ _ _ _ _) as [[]|]; reflexivity.
  Qed.

  Ltac pairs := try reflexivity; cbn; unfold pair_, vp, vs; repeat match goal with |- context [match ?o with Some _ => _ | None => _ end] => destruct o as [[]|] || destruct o end; reflexivity.
  Ltac goods := repeat (apply Forall2_app; [assumption|]); try assumption; repeat constructor; first [apply good24_id | apply good24_num].
  Ltac side := first [apply app_ne; assumption | discriminate | exact I | rewrite ?app_length; cbn [List.length]; lia].
  Lemma minus_good x tk : good 16 x tk -> (forall op l r, x <> XBin op l r) -> good 24 (XBin "-" (XId "q_mod") x) (TId "q_mod" :: TSym "-" :: tk).
  Proof.
    intros G Hx. apply (good_mono (16 + 6)); [lia|]. apply good_minus. intros n ts L c Hc. destruct (p_sum_mul 16 x tk G n ts L c Hc) as [H|(l & op & r & X)]; [exact H|]. exfalso. exact (Hx _ _ _ X).
  Qed.
  Lemma scalar_ev s e x : operand e TScalar -> sized e -> atoms e = [x] -> (do v <- ev s x; one v) = (do v <- eval s e; sc v).
  Proof.
    intros H Hs Ex. pose proof (atoms_words s e (proj1 H) Hs) as M. rewrite Ex in M. cbn [mapo] in M. unfold word1 in M. destruct (eval s e) as [v|] eqn:V.
    - destruct (typed e TScalar s v H V) as [z ->]. destruct (ev s x) as [w|]; [|discriminate M]. cbv beta iota in M |- *. destruct (one w); [|discriminate M]. cbn in M. injection M as ->. reflexivity.
    - destruct (ev s x) as [w|]; [|reflexivity]. cbv beta iota in M |- *. destruct (one w); [discriminate M|reflexivity].
  Qed.
  Lemma sub_text u l r t : operand l t -> operand r t -> sized l -> sized r -> to_typed_string (ESub l r t) = Some u -> text_ok u (ESub l r t).
  Proof.
    intros A B Sl Sr. two l r. destruct t; cbn [to_typed_string]; rewrite Ul, Ur; intro X; apply some_inj in X; subst u.
    - destruct (scalar_one r B) as (x & Ex & Px & Bx & _). assert (Ot : otoks r = [atok x]) by (unfold otoks; rewrite Ex; reflexivity).
      assert (Gx : good 16 x (atok x)) by (pose proof (atom_good r Pr) as F; rewrite Ex, Ot in F; inversion F; assumption).
      apply (call_text _ "addmod" (atoms l ++ [XBin "-" (XId "q_mod") x; XId "q_mod"])%list (otoks l ++ [TId "q_mod" :: TSym "-" :: atok x; [TId "q_mod"]])%list); try side.
      + lexing. rewrite Ot. shape.
      + apply Forall2_app; [assumption|]. constructor; [apply minus_good; assumption|]. constructor; [apply good24_id|constructor].
      + intro s. rewrite ev_call, !mapo_app, Ml. cbn [SolIr.eval].
        assert (G : argument s (XBin "-" (XId "q_mod") x) = do y <- (do v <- eval s r; sc v); do z <- Evm.sub checked q_mod y; Some (AWord z)).
        { rewrite <- (scalar_ev s r x B Sr Ex). unfold SolRead.argument. cbn [array_name]. change (ev s (XBin "-" (XId "q_mod") x)) with (do y <- ev s x; do l <- one [q_mod]; do r <- one y; do z <- Evm.sub checked l r; Some [z]).
          destruct (ev s x) as [w|]; [|reflexivity]. cbn [one]. cbv beta iota. destruct (one w) as [y|]; [|reflexivity]. destruct (Evm.sub checked q_mod y); reflexivity. }
        change (mapo (argument s) [XBin "-" (XId "q_mod") x; XId "q_mod"]) with (do y <- argument s (XBin "-" (XId "q_mod") x); do ys <- (do q <- argument s (XId "q_mod"); Some [q]); Some (y :: ys)).
        rewrite G. vals; try reflexivity. cbn [sc]. cbv beta iota. unfold fr_sub, vs. destruct (Evm.sub checked q_mod _); reflexivity.
    - apply (call_text _ "ecc_sub" (atoms l ++ atoms r)%list (otoks l ++ otoks r)%list); try side.
      + lexing. shape.
      + goods.
      + intro s. rewrite ev_call, !mapo_app, Ml, Mr. cbn [SolIr.eval]. vals; try reflexivity. cbn. unfold pair_, vp. destruct (ecc_sub _ _ _ _ _ _) as [[]|]; reflexivity.
  Qed.
  Lemma mul_text u l r t : operand l TScalar -> operand r t -> sized l -> sized r -> to_typed_string (EMul l r t) = Some u -> text_ok u (EMul l r t).
  Proof.
    intros A B Sl Sr. two l r. destruct t; cbn [to_typed_string]; rewrite Ul, Ur; intro X; apply some_inj in X; subst u.
    - apply (call_text _ "mulmod" (atoms l ++ atoms r ++ [XId "q_mod"])%list (otoks l ++ otoks r ++ [[TId "q_mod"]])%list); try side.
      + lexing. shape.
      + goods.
      + intro s. rewrite ev_call, !mapo_app, Ml, Mr. cbn [SolIr.eval]. vals; reflexivity.
    - apply (call_text _ "ecc_mul" (atoms r ++ atoms l)%list (otoks r ++ otoks l)%list); try side.
      + lexing. shape.
      + goods.
      + intro s. rewrite ev_call, !mapo_app, Ml, Mr. cbn [SolIr.eval]. vals; try reflexivity. cbn. unfold pair_, vp. destruct (ecc_mul _ _ _ _) as [[]|]; reflexivity.
  Qed.
  Lemma div_text u l r t : operand l t -> operand r t -> sized l -> sized r -> to_typed_string (EDiv l r t) = Some u -> text_ok u (EDiv l r t).
  Proof.
    intros A B Sl Sr. two l r. cbn [to_typed_string]. rewrite Ul, Ur; intro X; apply some_inj in X; subst u. destruct t; cbn [to_libstring].
    - change (fmt ["fr"; "_div("; ul; ", "; ur; ")"]) with (fmt ["fr_div("; ul; ", "; ur; ")"]).
      apply (call_text _ "fr_div" (atoms l ++ atoms r)%list (otoks l ++ otoks r)%list); try side.
      + lexing. shape.
      + goods.
      + intro s. rewrite ev_call, !mapo_app, Ml, Mr. cbn [SolIr.eval]. vals; try reflexivity. cbn. unfold vs. destruct (fr_div _ _); reflexivity.
    - change (fmt ["ecc"; "_div("; ul; ", "; ur; ")"]) with (fmt ["ecc_div("; ul; ", "; ur; ")"]).
      apply (call_text _ "ecc_div" (atoms l ++ atoms r)%list (otoks l ++ otoks r)%list); try side.
      + lexing. shape.
      + goods.
      + intro s. rewrite ev_call, !mapo_app, Ml, Mr. cbn [SolIr.eval]. vals; reflexivity.
  Qed.
  Lemma mul_add_text u l r c t : wt (EMulAdd l r c t) -> sized l -> sized r -> sized c -> to_typed_string (EMulAdd l r c t) = Some u -> text_ok u (EMulAdd l r c t).
  Proof.
    intros A Sl Sr Sc. cbn [to_typed_string]. destruct t; cbn [wt] in A; destruct A as (Al' & Ar' & Ac').
    - two l r. destruct (opnd c _ Ac' Sc) as (uc & Uc & Lc & Pc & Nc & Ac & Gc & Kc & Mc). rewrite Ul, Ur, Uc; intro X; apply some_inj in X; subst u. cbn [to_libstring].
      change (fmt ["fr"; "_mul_add("; ul; ", "; ur; ", "; uc; ")"]) with (fmt ["fr_mul_add("; ul; ", "; ur; ", "; uc; ")"]).
      apply (call_text _ "fr_mul_add" (atoms l ++ atoms r ++ atoms c)%list (otoks l ++ otoks r ++ otoks c)%list); try side.
      + lexing. shape.
      + goods.
      + intro s. rewrite ev_call, !mapo_app, Ml, Mr, Mc. cbn [SolIr.eval]. vals; reflexivity.
    - two l r. destruct (opnd c _ Ac' Sc) as (uc & Uc & Lc & Pc & Nc & Ac & Gc & Kc & Mc). rewrite Ul, Ur, Uc; intro X; apply some_inj in X; subst u. cbn [to_libstring].
      change (fmt ["ecc"; "_mul_add("; ul; ", "; ur; ", "; uc; ")"]) with (fmt ["ecc_mul_add("; ul; ", "; ur; ", "; uc; ")"]).
      apply (call_text _ "ecc_mul_add" (atoms l ++ atoms r ++ atoms c)%list (otoks l ++ otoks r ++ otoks c)%list); try side.
      + lexing. shape.
      + goods.
      + intro s. rewrite ev_call, !mapo_app, Ml, Mr, Mc. cbn [SolIr.eval]. vals; try reflexivity. cbn. unfold pair_, vp. destruct (ecc_mul_add _ _ _ _ _ _) as [[]|]; reflexivity.
  Qed.
  Lemma num_arg s z : (0 <= z)%Z -> argument s (XNum (Z.to_N z)) = do z <- literal z; Some (AWord z).
  Proof. intro H. rewrite <- (num_ok s z H). unfold SolRead.argument, word1. cbn [array_name]. destruct (ev s _); reflexivity. Qed.
  Lemma pow_text u a n t : operand a t -> sized a -> (n < 2 ^ 64)%N -> to_typed_string (EPow a n t) = Some u -> text_ok u (EPow a n t).
  Proof.
    intros A Sa Hn. destruct (opnd a _ A Sa) as (ul & Ul & Ll & Pl & Nl & Al & Gl & Kl & Ml). destruct t; cbn [to_typed_string]; [|discriminate]. rewrite Ul; intro X; apply some_inj in X; subst u.
    apply (call_text _ "fr_pow" (atoms a ++ [XNum n])%list (otoks a ++ [[TNum n]])%list); try side.
    - lexing. shape.
    - goods.
    - intro s. rewrite ev_call, !mapo_app, Ml. cbn [SolIr.eval]. vals; try reflexivity. cbn [mapo]. unfold SolRead.argument. cbn [array_name SolRead.ev]. rewrite (us_256 n Hn). reflexivity.
  Qed.
  Local Arguments fr_mul_add_pm : simpl never. Local Arguments ecc_mul_add_pm : simpl never. Local Arguments fr_mul_add_mt : simpl never.
  Lemma pm_text u t op : (0 <= op)%Z -> to_typed_string (EMulAddPM (ETemp t) op t) = Some u -> text_ok u (EMulAddPM (ETemp t) op t).
  Proof.
    intros Ho. destruct t; cbn [to_typed_string to_libstring]; intro X; apply some_inj in X; subst u.
    - change (fmt ["fr"; "_mul_add_pm(m, proof, "; decz op; ", "; "t0"; ")"]) with (fmt ["fr_mul_add_pm(m, proof, "; decz op; ", t0)"]).
      apply (call_text _ "fr_mul_add_pm" [XId "m"; XId "proof"; XNum (Z.to_N op); XId "t0"] [[TId "m"]; [TId "proof"]; [TNum (Z.to_N op)]; [TId "t0"]]); try side.
      + lexing. shape.
      + goods.
      + intro s. rewrite ev_call. cbn [mapo]. rewrite num_arg by exact Ho. cbn [SolIr.eval sc]. destruct (literal op); [|reflexivity]. cbn. unfold vs. destruct (fr_mul_add_pm _ _ _ _ _); reflexivity.
    - change (fmt ["ecc"; "_mul_add_pm(m, proof, "; decz op; ", "; "t0, t1"; ")"]) with (fmt ["ecc_mul_add_pm(m, proof, "; decz op; ", t0, t1)"]).
      apply (call_text _ "ecc_mul_add_pm" [XId "m"; XId "proof"; XNum (Z.to_N op); XId "t0"; XId "t1"] [[TId "m"]; [TId "proof"]; [TNum (Z.to_N op)]; [TId "t0"]; [TId "t1"]]); try side.
      + lexing. shape.
      + goods.
      + intro s. rewrite ev_call. cbn [mapo]. rewrite num_arg by exact Ho. cbn [SolIr.eval sc pt]. destruct (literal op); [|reflexivity]. cbn. unfold pair_, vp. destruct (ecc_mul_add_pm _ _ _ _ _ _ _) as [[]|]; reflexivity.
  Qed.
  Lemma at_arg s o : us o -> argument s (at_ "m" o) = do z <- rd (e_msize E) (mem s) o; Some (AWord z).
  Proof.
    intro H. pose proof (proj1 (at_ok s "m" o H)) as G. unfold index in G. cbn [String.eqb Ascii.eqb Bool.eqb] in G. rewrite <- G. unfold SolRead.argument, word1. cbn [array_name at_]. destruct (ev s _); reflexivity.
  Qed.
  Lemma mt_text u m op : us m -> (0 <= op)%Z -> to_typed_string (EMulAddMT m op) = Some u -> text_ok u (EMulAddMT m op).
  Proof.
    intros Hm Ho. cbn [to_typed_string]; intro X; apply some_inj in X; subst u.
    apply (call_text _ "fr_mul_add_mt" [XId "m"; at_ "m" m; XNum (Z.to_N op); XId "t0"] [[TId "m"]; atok (at_ "m" m); [TNum (Z.to_N op)]; [TId "t0"]]); try side.
    - lexing. shape.
    - constructor; [apply good24_id|]. constructor; [apply (good_mono 16); [lia|]; exact (good_index "m" (XNum m) [TNum m] 12 (good_num m))|]. goods.
    - intro s. rewrite ev_call. cbn [mapo]. rewrite num_arg by exact Ho. rewrite at_arg by exact Hm. cbn [SolIr.eval]. destruct (rd _ _ _); [|reflexivity]. destruct (literal op); [|reflexivity]. cbn. unfold vs. destruct (fr_mul_add_mt _ _ _ _ _); reflexivity.
  Qed.
  Lemma hash_text u n : (n < 2 ^ 32)%N -> to_typed_string (EHash n) = Some u -> text_ok u (EHash n).
  Proof.
    intros Hn. cbn [to_typed_string]; intro X; apply some_inj in X; subst u.
    exists [XCall "squeeze_challenge" [XId "absorbing"; XNum n]], [(TId "squeeze_challenge" :: TSym "(" :: join [[TId "absorbing"]; [TNum n]] ++ [TSym ")"])%list].
    split; [lexing; shape|]. split.
    { apply Forall2_cons; [|apply Forall2_nil]. apply (good_mono (24 + 2 + 4)); [lia|]. apply (good_call 24 _ [XId "absorbing"; XNum n]); [|discriminate]. apply Forall2_cons; [apply good24_id|]. apply Forall2_cons; [apply good24_num|apply Forall2_nil]. }
    split; [discriminate|]. split; [cbn; lia|].
    intro s. unfold SolRead.rhs. change ("squeeze_challenge" =? "squeeze_challenge")%string with true. change ("absorbing" =? "absorbing")%string with true. cbn [andb]. rewrite (proj2 (N.ltb_lt n _) Hn). reflexivity.
  Qed.
  Theorem typed_text u r : wt r -> sized r -> to_typed_string r = Some u -> text_ok u r.
  Proof.
    intros Hw Hs Hu. destruct r as [? t|? t|? t|? t| | |l r t|l r t|l r t|l r t|l r c t|a op t|m op|a n t|n|t]; try (apply simple_text; [exact I|exact Hs|exact Hu]).
    - contradiction Hw.
    - destruct Hw, Hs. apply add_text; assumption.
    - destruct Hw, Hs. apply sub_text; assumption.
    - destruct Hw, Hs. apply mul_text; assumption.
    - destruct Hw, Hs. apply div_text; assumption.
    - destruct Hs as (? & ? & ?). apply mul_add_text; assumption.
    - cbn [wt] in Hw. subst a. destruct Hs. apply pm_text; assumption.
    - destruct Hs. apply mt_text; assumption.
    - destruct Hs. apply pow_text; assumption.
    - apply hash_text; assumption.
  Qed.

  (** ** Statements *)
  Lemma ends_app u x : x <> "" -> ends (u ++ x) = ends x.
  Proof.
    intro H. induction u as [|c u IH]; [reflexivity|]. cbn [append ends]. rewrite IH. destruct (u ++ x) eqn:X; [|reflexivity]. exfalso. destruct u; cbn in X; [exact (H X)|discriminate X].
  Qed.
  Lemma ends_fmt l x : x <> "" -> ends (fmt (l ++ [x])) = ends x.
  Proof.
    intro H. assert (G : forall l, fmt (l ++ [x]) <> "").
    { clear - H. induction l as [|u l IH]; [cbn; rewrite app_nil_r_s; exact H|]. cbn. destruct u; [exact IH|discriminate]. }
    induction l as [|u l IH]; [cbn; rewrite app_nil_r_s; reflexivity|]. change (fmt ((u :: l) ++ [x])) with (u ++ fmt (l ++ [x])). rewrite ends_app by apply G. exact IH.
  Qed.
  Definition stmt_ok (lines : list string) (c : stmt) : Prop :=
    exists tks ast, Forall2 (fun u t => lex "" u = Some t) lines tks /\ Forall (fun u => ends u = true) lines /\
      (exists t rest, List.concat tks = t :: rest /\ t <> TId "return") /\
      (forall n ts, (60 <= n)%nat -> p_stmt n (List.concat tks ++ ts) = Some (ast, ts)) /\
      forall s, do_stmt s ast = exec s c.
  Lemma p_simple_assign k x tk y tk' n ts : good k x tk -> good k y tk' -> (k <= n)%nat -> p_simple n (tk ++ TSym "=" :: tk' ++ TSym ";" :: ts) = Some (SAssign x y, ts).
  Proof. intros G G' L. unfold p_simple. rewrite G by (assumption || reflexivity). change (is "=" ";") with false. change (is "=" "=") with true. cbv iota. rewrite G' by (assumption || reflexivity). reflexivity. Qed.
  Lemma p_simple_call k x tk n ts : good k x tk -> (k <= n)%nat -> p_simple n (tk ++ TSym ";" :: ts) = Some (SCall x, ts).
  Proof. intros G L. unfold p_simple. rewrite G by (assumption || reflexivity). reflexivity. Qed.
  Lemma p_stmt_simple n t ts r : t <> TId "for" -> p_simple n (t :: ts) = Some r -> p_stmt n (t :: ts) = Some (SSimple (fst r), snd r).
  Proof.
    intros Ht H. unfold p_stmt. destruct r as [c ts']. destruct t as [f| |]; try (rewrite H; reflexivity).
    destruct (String.eqb_spec f "for") as [->|Hf]; [contradiction Ht; reflexivity|]. rewrite H. reflexivity.
  Qed.

  Lemma lval l lu : is_memory l || is_temp l = true -> sized l -> to_untyped_string l = Some lu ->
    exists x t tk, lex "" lu = Some (t :: tk) /\ t <> TId "for" /\ t <> TId "return" /\ good 40 x (t :: tk) /\ forall s v, assign b checked E s x (words_of v) = store E s l v.
  Proof.
    intros Hl Hs Hu. destruct l as [o t|o t|o t|o t|x y|z| | | | | | | | | |t]; try discriminate Hl; destruct t; cbn [to_untyped_string] in Hu; apply some_inj in Hu; subst lu.
    - exists (at_ "m" o), (TId "m"), [TSym "["; TNum o; TSym "]"]. split; [lexing; reflexivity|]. split; [discriminate|]. split; [discriminate|]. split; [apply (good_mono 16); [lia|]; exact (good_index "m" (XNum o) [TNum o] 12 (good_num o))|].
      intros s [z|x y]; [|reflexivity]. cbn [sized] in Hs. unfold assign, words_of, at_, assign1. change ("m" =? "m")%string with true. cbv iota. cbn [SolRead.ev]. rewrite (proj1 (us_word o Hs)). cbn [one]. rewrite N2Z.id. reflexivity.
    - exists (XTuple [at_ "m" o; at_ "m" (o + 1)]), (TSym "("), (join [atok (at_ "m" o); atok (at_ "m" (o + 1))] ++ [TSym ")"])%list. split; [lexing; reflexivity|]. split; [discriminate|]. split; [discriminate|].
      split.
      { apply (good_mono (16 + 2 + 4)); [lia|]. apply (good_tuple 16 [at_ "m" o; at_ "m" (o + 1)]); [|discriminate]. apply Forall2_cons; [exact (good_index "m" (XNum o) [TNum o] 12 (good_num o))|]. apply Forall2_cons; [exact (good_index "m" (XNum (o + 1)) [TNum (o + 1)] 12 (good_num (o + 1)))|apply Forall2_nil]. }
      intros s [z|x y]; [reflexivity|]. cbn [sized] in Hs. unfold assign, words_of, at_, assign1. change ("m" =? "m")%string with true. cbv iota. cbn [SolRead.ev]. rewrite (proj1 (us_word o Hs)), (proj2 (us_word o Hs)). cbn [one]. rewrite !N2Z.id. cbn [store].
      destruct (wr _ _ o x); reflexivity.
    - exists (XId "t0"), (TId "t0"), []. split; [reflexivity|]. split; [discriminate|]. split; [discriminate|]. split; [apply (good_mono 12); [lia|]; apply good_id|]. intros s [z|x y]; reflexivity.
    - exists (XTuple [XId "t0"; XId "t1"]), (TSym "("), (join [[TId "t0"]; [TId "t1"]] ++ [TSym ")"])%list. split; [reflexivity|]. split; [discriminate|]. split; [discriminate|].
      split; [|intros s [z|x y]; reflexivity]. apply (good_mono (12 + 2 + 4)); [lia|]. apply (good_tuple 12 [XId "t0"; XId "t1"]); [|discriminate]. apply Forall2_cons; [apply good_id|]. apply Forall2_cons; [apply good_id|apply Forall2_nil].
  Qed.
  Lemma assign_ok l r lines : wt_stmt (Assign l r) -> sized_stmt (Assign l r) -> to_solidity_string (Assign l r) = Some lines -> stmt_ok lines (Assign l r).
  Proof.
    intros (Hl & Ht & Hw) [Sl Sr] H. cbn [to_solidity_string] in H. destruct (to_untyped_string l) as [lu|] eqn:Ul; [|discriminate]. destruct (to_typed_string r) as [ru|] eqn:Ur; [|discriminate].
    apply some_inj in H. subst lines. destruct (lval l lu Hl Sl Ul) as (x & t & tk & Lx & Nf & Nr & Gx & Ax). destruct (typed_text ru r Hw Sr Ur) as (xs & tks & Lr & Gr & Ne & Le & Rr).
    exists [((t :: tk) ++ TSym "=" :: (TSym "(" :: join tks ++ [TSym ")"]) ++ [TSym ";"])%list], (SSimple (SAssign x (XTuple xs))). split; [|split; [|split; [|split]]].
    - apply Forall2_cons; [|apply Forall2_nil]. lexing. cbn [List.concat app]. rewrite <- ?app_assoc. reflexivity.
    - apply Forall_cons; [|apply Forall_nil]. exact (ends_fmt [lu; " = ("; ru] ");" ltac:(discriminate)).
    - exists t. eexists. split; [reflexivity|exact Nr].
    - intros n ts L. cbn [List.concat]. rewrite app_nil_r. cbn [app].
      assert (E1 : p_simple n ((t :: tk) ++ TSym "=" :: (TSym "(" :: join tks ++ [TSym ")"]) ++ TSym ";" :: ts)%list = Some (SAssign x (XTuple xs), ts)).
      { apply (p_simple_assign 46); [apply (good_mono 40); [lia|exact Gx]| |lia]. apply (good_mono (40 + List.length xs + 4)); [lia|]. apply good_tuple; assumption. }
      cbn [app] in E1. rewrite <- ?app_assoc in *. cbn [app] in *. rewrite <- ?app_assoc in *. cbn [app] in *. rewrite (p_stmt_simple n t _ _ Nf E1). reflexivity.
    - intro s. rewrite exec_assign. cbn [SolRead.do_stmt SolRead.do_simple]. rewrite Rr. destruct r; try (destruct (eval s _); [|reflexivity]; cbv beta iota; apply Ax).
      destruct (squeeze_challenge _ _ _ _) as [[v a]|]; [|reflexivity]. apply (Ax _ (VS v)).
  Qed.
  Lemma num_argN s o : us o -> argument s (XNum o) = Some (AWord (Z.of_N o)).
  Proof. intro H. unfold SolRead.argument. cbn [array_name SolRead.ev]. rewrite (proj1 (us_word o H)). reflexivity. Qed.
  Lemma update_ok e o lines : wt_stmt (UpdateHash e o) -> sized_stmt (UpdateHash e o) -> to_solidity_string (UpdateHash e o) = Some lines -> stmt_ok lines (UpdateHash e o).
  Proof.
    intros Hw [Se So] H. cbn [wt_stmt] in Hw. destruct (opnd e (get_type e) (conj Hw eq_refl) Se) as (u & Uu & Lu & Pu & Nu & Au & Gu & Ku & Mu). cbn [to_solidity_string] in H. rewrite Uu in H.
    set (f := match get_type e with TPoint => "update_hash_point" | TScalar => "update_hash_scalar" end).
    assert (Hl : exists line, lines = [line] /\ ends line = true /\ lex "" line = Some ((TId f :: TSym "(" :: join (otoks e ++ [[TId "absorbing"]; [TNum o]]) ++ [TSym ")"]) ++ [TSym ";"])%list).
    { unfold f. destruct (get_type e); apply some_inj in H; subst lines; eexists; (split; [reflexivity|]).
      - split; [exact (ends_fmt ["update_hash_scalar("; u; ", absorbing, "; dec o] ");" ltac:(discriminate))|]. lexing. shape.
      - split; [exact (ends_fmt ["update_hash_point("; u; ", absorbing, "; dec o] ");" ltac:(discriminate))|]. lexing. shape. }
    destruct Hl as (line & -> & He & Hx). set (xs := (atoms e ++ [XId "absorbing"; XNum o])%list).
    exists [((TId f :: TSym "(" :: join (otoks e ++ [[TId "absorbing"]; [TNum o]]) ++ [TSym ")"]) ++ [TSym ";"])%list], (SSimple (SCall (XCall f xs))). split; [|split; [|split; [|split]]].
    - apply Forall2_cons; [exact Hx|apply Forall2_nil].
    - apply Forall_cons; [exact He|apply Forall_nil].
    - exists (TId f). eexists. split; [reflexivity|]. unfold f. destruct (get_type e); discriminate.
    - intros n ts L. cbn [List.concat]. rewrite app_nil_r. rewrite <- app_assoc.
      assert (E1 : p_simple n ((TId f :: TSym "(" :: join (otoks e ++ [[TId "absorbing"]; [TNum o]]) ++ [TSym ")"]) ++ TSym ";" :: ts)%list = Some (SCall (XCall f xs), ts)).
      { apply (p_simple_call (24 + List.length xs + 4)).
        - apply good_call; [|unfold xs; apply app_ne; exact Au]. apply Forall2_app; [exact Gu|]. apply Forall2_cons; [apply good24_id|]. apply Forall2_cons; [apply good24_num|apply Forall2_nil].
        - unfold xs. rewrite app_length. cbn [List.length]. lia. }
      cbn [app] in *. rewrite (p_stmt_simple n (TId f) _ _ ltac:(unfold f; destruct (get_type e); discriminate) E1). reflexivity.
    - intro s. cbn [SolRead.do_stmt SolRead.do_simple SolIr.exec]. unfold xs. rewrite mapo_app, Mu. cbn [mapo]. rewrite num_argN by exact So.
      destruct (eval s e) as [v|] eqn:V; [|reflexivity]. pose proof (typed e (get_type e) s v (conj Hw eq_refl) V) as T. unfold f. destruct (get_type e).
      + destruct T as [z ->]. cbn. rewrite N2Z.id. unfold set_abs. destruct (update_hash_scalar _ _ _ _); reflexivity.
      + destruct T as (x & y & ->). cbn. rewrite N2Z.id. unfold set_abs. destruct (update_hash_point _ _ _ _ _); reflexivity.
  Qed.

  (** ** Loops *)
  Lemma us_Z o : us o -> (0 <= Z.of_N o < 2 ^ 64)%Z.
  Proof. unfold us. intro H. split; [lia|]. change (2 ^ 64)%Z with (Z.of_N (2 ^ 64)). lia. Qed.
  Lemma linear_ev s a d i : us a \/ (exists a', us a' /\ a = (a' + 1)%N) -> us d -> t0 s = Z.of_N i -> (i <= 2 ^ 64)%N -> ev s (linear a d) = Some [Z.of_N (a + i * d)].
  Proof.
    intros Ha Hd T Hi. assert (Ba : (0 <= Z.of_N a <= 2 ^ 64)%Z) by (destruct Ha as [H|(a' & H & ->)]; pose proof (us_Z _ H); lia). pose proof (us_Z d Hd) as Bd.
    assert (Bi : (0 <= Z.of_N i <= 2 ^ 64)%Z) by (change (2 ^ 64)%Z with (Z.of_N (2 ^ 64)); lia).
    assert (Wa : (a <? 2 ^ 256)%N = true) by (destruct Ha as [H|(a' & H & ->)]; apply us_word; exact H). unfold linear. cbn [SolRead.ev]. rewrite Wa, (proj1 (us_word d Hd)). change (variable s "t0") with (Some (t0 s)). rewrite T. cbn [one].
    assert (P : (0 <= Z.of_N i * Z.of_N d <= 2 ^ 64 * 2 ^ 64)%Z) by nia. assert (Q : (2 ^ 64 + 2 ^ 64 * 2 ^ 64 < 2 ^ 256)%Z) by reflexivity.
    unfold binary. change (is "*" "*") with true. change (is "+" "*") with false. change (is "+" "+") with true. cbv iota. unfold wrap. rewrite (proj2 (Z.ltb_lt (Z.of_N i * Z.of_N d) _)) by lia. cbn [one].
    rewrite (proj2 (Z.ltb_lt (Z.of_N a + Z.of_N i * Z.of_N d) _)) by lia. do 2 f_equal. lia.
  Qed.
  Lemma wrap_succ i : (i <= 2 ^ 64)%N -> wrap checked (Z.of_N i + 1) = Some (Z.of_N (i + 1)).
  Proof. intro H. unfold wrap. assert (Z.of_N i <= 2 ^ 64)%Z by (change (2 ^ 64)%Z with (Z.of_N (2 ^ 64)); lia). assert (2 ^ 64 + 1 < 2 ^ 256)%Z by reflexivity. rewrite (proj2 (Z.ltb_lt _ _)) by lia. f_equal. lia. Qed.
  Notation loop := (loop b checked sha256 E).
  Lemma loop_step fuel oe k c s : (k <? 2 ^ 256)%N = true -> loop (S fuel) oe (XNum k) c s =
    if (if oe then t0 s <=? Z.of_N k else t0 s <? Z.of_N k)%Z then do s <- do_simple s c; do t <- wrap checked (t0 s + 1); loop fuel oe (XNum k) c (mkSt (mem s) t (t1 s) (absorbing s)) else Some s.
  Proof. intro H. cbn [SolRead.loop SolRead.ev]. rewrite H. reflexivity. Qed.

  Lemma loop_hash c k ms mst as_ ast t m z : (k < 2 ^ 64)%N ->
    (forall i a, (i <= k)%N -> do_simple (mkSt m (Z.of_N i) z a) c = do a <- match t with
                | TScalar => do v <- calldata (e_proof E) (ms + i * mst); update_hash_scalar (e_asize E) v a (as_ + i * ast)
                | TPoint =>
                    do x <- calldata (e_proof E) (ms + i * mst); do y <- calldata (e_proof E) (ms + 1 + i * mst);
                    update_hash_point (e_asize E) x y a (as_ + i * ast)
                end; Some (mkSt m (Z.of_N i) z a)) ->
    forall n i a fuel, (i + N.of_nat n = k + 1)%N -> (n < fuel)%nat ->
    loop fuel true (XNum k) c (mkSt m (Z.of_N i) z a) = do a <- for_hash E n i ms mst as_ ast t a; Some (mkSt m (Z.of_N (k + 1)) z a).
  Proof.
    intros Hk Hc. assert (Hw : (k <? 2 ^ 256)%N = true) by (apply N.ltb_lt; assert (2 ^ 64 < 2 ^ 256)%N by reflexivity; lia). induction n as [|n IH]; intros i a fuel Hi Hf; (destruct fuel as [|fuel]; [lia|]); rewrite loop_step by exact Hw; cbn [t0].
    - destruct (Z.leb_spec (Z.of_N i) (Z.of_N k)) as [L|L]; [lia|]. cbn [for_hash]. rewrite <- Hi. do 3 f_equal. lia.
    - destruct (Z.leb_spec (Z.of_N i) (Z.of_N k)) as [L|L]; [|lia]. rewrite Hc by lia. cbn [for_hash].
      match goal with |- context [do a <- ?step; Some (mkSt m (Z.of_N i) z a)] => destruct step as [a'|]; [|reflexivity] end. cbv beta iota. cbn [t0 mem t1 absorbing]. rewrite wrap_succ by lia.
      apply IH; lia.
  Qed.
  Lemma loop_mul c k st_ sp z a : (k < 2 ^ 64)%N ->
    (forall i m, (i < k)%N -> do_simple (mkSt m (Z.of_N i) z a) c =
       let '(l0, a0, c0) := st_ in let '(dl, da, dc) := sp in
       do m <- (do x <- rd (e_msize E) m (a0 + i * da); do y <- rd (e_msize E) m (c0 + i * dc); wr (e_msize E) m (l0 + i * dl) (mulmod x y q_mod));
       Some (mkSt m (Z.of_N i) z a)) ->
    forall n i m fuel, (i + N.of_nat n = k)%N -> (n < fuel)%nat ->
    loop fuel false (XNum k) c (mkSt m (Z.of_N i) z a) = do m <- for_mul E n i st_ sp m; Some (mkSt m (Z.of_N k) z a).
  Proof.
    intros Hk Hc. destruct st_ as [[l0 a0] c0], sp as [[dl da] dc]. assert (Hw : (k <? 2 ^ 256)%N = true) by (apply N.ltb_lt; assert (2 ^ 64 < 2 ^ 256)%N by reflexivity; lia).
    induction n as [|n IH]; intros i m fuel Hi Hf; (destruct fuel as [|fuel]; [lia|]); rewrite loop_step by exact Hw; cbn [t0].
    - destruct (Z.ltb_spec (Z.of_N i) (Z.of_N k)) as [L|L]; [lia|]. cbn [for_mul]. do 3 f_equal. lia.
    - destruct (Z.ltb_spec (Z.of_N i) (Z.of_N k)) as [L|L]; [|lia]. rewrite Hc by lia. cbn [for_mul]. destruct (rd _ _ (a0 + i * da)); [|reflexivity]. destruct (rd _ _ (c0 + i * dc)); [|reflexivity]. destruct (wr _ _ _ _); [|reflexivity].
      cbv beta iota. cbn [t0 mem t1 absorbing]. rewrite wrap_succ by lia. apply IH; lia.
  Qed.
  Definition lin_i (a : string) (o d : N) : sx := XIndex a (linear o d).
  Definition lin_it (a : string) (o d : N) : list tok := (TId a :: TSym "[" :: linear_t o d ++ [TSym "]"])%list.
  Lemma good_lin_i a o d : good 24 (lin_i a o d) (lin_it a o d).
  Proof. apply (good_mono (12 + 4)); [lia|]. apply good_index, good_linear. Qed.
  Lemma good24_linear o d : good 24 (linear o d) (linear_t o d).
  Proof. apply (good_mono 12); [lia|apply good_linear]. Qed.
  Lemma linear_arg s a d i : us a \/ (exists a', us a' /\ a = (a' + 1)%N) -> us d -> t0 s = Z.of_N i -> (i <= 2 ^ 64)%N -> argument s (linear a d) = Some (AWord (Z.of_N (a + i * d))).
  Proof. intros. unfold SolRead.argument. rewrite (linear_ev s a d i) by assumption. reflexivity. Qed.
  Lemma lin_i_ev s ar a d i : us a \/ (exists a', us a' /\ a = (a' + 1)%N) -> us d -> t0 s = Z.of_N i -> (i <= 2 ^ 64)%N -> ev s (lin_i ar a d) = do z <- index E s ar (a + i * d); Some [z].
  Proof. intros H1 H2 H3 H4. unfold lin_i. change (ev s (XIndex ar (linear a d))) with (do i <- ev s (linear a d); do i <- one i; do z <- index E s ar (Z.to_N i); Some [z]). rewrite (linear_ev s a d i H1 H2 H3 H4). cbn [one]. rewrite N2Z.id. reflexivity. Qed.
  Lemma lin_i_arg s ar a d i : us a \/ (exists a', us a' /\ a = (a' + 1)%N) -> us d -> t0 s = Z.of_N i -> (i <= 2 ^ 64)%N -> argument s (lin_i ar a d) = do z <- index E s ar (a + i * d); Some (AWord z).
  Proof. intros. unfold SolRead.argument. change (array_name (lin_i ar a d)) with (@None string). cbv iota. rewrite (lin_i_ev s ar a d i) by assumption. destruct (index _ _ _ _); reflexivity. Qed.

  Definition for_t (oe : bool) (k : N) (body : list tok) : list tok :=
    ([TId "for"; TSym "("; TId "t0"; TSym "="; TNum 0; TSym ";"; TId "t0"; TSym "<"] ++ (if oe then [TSym "="] else []) ++ [TNum k; TSym ";"; TId "t0"; TSym "+"; TSym "+"; TSym ")"; TSym "{"] ++ body ++ [TSym "}"])%list.
  Lemma p_for n oe k body c ts : (12 <= n)%nat -> (forall ts, p_simple n (body ++ ts) = Some (c, ts)) -> p_stmt n (for_t oe k body ++ ts) = Some (SFor "t0" 0 oe (XNum k) c, ts).
  Proof.
    intros L H. unfold for_t.
    assert (E1 : p_sum n (TNum k :: TSym ";" :: TId "t0" :: TSym "+" :: TSym "+" :: TSym ")" :: TSym "{" :: body ++ TSym "}" :: ts) = Some (XNum k, TSym ";" :: TId "t0" :: TSym "+" :: TSym "+" :: TSym ")" :: TSym "{" :: (body ++ TSym "}" :: ts)%list)) by (apply (good_num k n ";"%char); [exact L|reflexivity]).
    destruct oe; cbn [app]; rewrite <- app_assoc; cbn [app]; unfold p_stmt; change ("for" =? "for")%string with true; cbn [eat is Ascii.eqb Bool.eqb andb String.eqb]; rewrite E1; cbn [eat is Ascii.eqb Bool.eqb andb String.eqb]; rewrite H; reflexivity.
  Qed.

  Lemma for_stmt l1 l2 l3 (oe : bool) k body c : lex "" l1 = Some ([TId "for"; TSym "("; TId "t0"; TSym "="; TNum 0; TSym ";"; TId "t0"; TSym "<"] ++ (if oe then [TSym "="] else []) ++ [TNum k; TSym ";"; TId "t0"; TSym "+"; TSym "+"; TSym ")"; TSym "{"])%list ->
    lex "" l2 = Some body -> lex "" l3 = Some [TSym "}"] -> Forall (fun u => ends u = true) [l1; l2; l3] ->
    (forall n ts, (60 <= n)%nat -> p_simple n (body ++ ts)%list = Some (c, ts)) -> forall e, (forall s, do_stmt s (SFor "t0" 0 oe (XNum k) c) = exec s e) -> stmt_ok [l1; l2; l3] e.
  Proof.
    intros H1 H2 H3 He Hp e Hd. eexists. exists (SFor "t0" 0 oe (XNum k) c). split; [apply Forall2_cons; [exact H1|]; apply Forall2_cons; [exact H2|]; apply Forall2_cons; [exact H3|apply Forall2_nil]|]. split; [exact He|]. split.
    - destruct oe; cbn [List.concat app]; eexists; eexists; (split; [reflexivity|discriminate]).
    - split; [|exact Hd]. intros n ts L.
      transitivity (p_stmt n (for_t oe k body ++ ts)%list); [|apply p_for; [lia|intro; apply Hp; exact L]]. f_equal. unfold for_t. cbn [List.concat]. rewrite app_nil_r. rewrite <- ?app_assoc. reflexivity.
  Qed.
  Lemma do_for oe k c s : (k <? 2 ^ 256)%N = true -> do_stmt s (SFor "t0" 0 oe (XNum k) c) = loop (N.to_nat k + 2) oe (XNum k) c (mkSt (mem s) 0 (t1 s) (absorbing s)).
  Proof. intro H. cbn [SolRead.do_stmt SolRead.ev]. change ("t0" =? "t0")%string with true. cbv iota. rewrite H. cbn [one]. f_equal. rewrite <- (N2Z.id k) at 2. rewrite Z_N_nat. reflexivity. Qed.

  Lemma for_ok ms me mst as_ ast t lines : sized_stmt (For ms me mst as_ ast t) -> to_solidity_string (For ms me mst as_ ast t) = Some lines -> stmt_ok lines (For ms me mst as_ ast t).
  Proof.
    intros (H1 & H2 & H3 & H4 & H5) H. cbn [to_solidity_string] in H. destruct (me <? ms)%N eqn:X1; [discriminate|]. destruct (mst =? 0)%N eqn:X2; [discriminate|]. cbn [orb] in H. apply N.eqb_neq in X2.
    set (k := ((me - ms) / mst)%N) in *. assert (Hk : (k < 2 ^ 64)%N) by (unfold us in H2; apply (N.le_lt_trans _ (me - ms)); [apply N.div_le_upper_bound; [exact X2|nia]|lia]).
    set (f := match t with TScalar => "update_hash_scalar" | TPoint => "update_hash_point" end).
    set (xs := match t with TScalar => [lin_i "proof" ms mst; XId "absorbing"; linear as_ ast] | TPoint => [lin_i "proof" ms mst; lin_i "proof" (ms + 1) mst; XId "absorbing"; linear as_ ast] end).
    set (tks := match t with TScalar => [lin_it "proof" ms mst; [TId "absorbing"]; linear_t as_ ast] | TPoint => [lin_it "proof" ms mst; lin_it "proof" (ms + 1) mst; [TId "absorbing"]; linear_t as_ ast] end).
    apply some_inj in H. subst lines. apply (for_stmt _ _ _ true k ((TId f :: TSym "(" :: join tks ++ [TSym ")"]) ++ [TSym ";"])%list (SCall (XCall f xs))).
    - lexing. reflexivity.
    - unfold f, tks. destruct t; lexing; reflexivity.
    - reflexivity.
    - apply Forall_cons; [exact (ends_fmt ["for (t0 = 0; t0 <= "; dec k] "; t0++) {" ltac:(discriminate))|]. apply Forall_cons; [|apply Forall_cons; [reflexivity|apply Forall_nil]].
      destruct t.
      + exact (ends_fmt ["    update_hash_scalar(proof["; dec ms; " + t0 * "; dec mst; "], absorbing, "; dec as_; " + t0 * "; dec ast] ");" ltac:(discriminate)).
      + exact (ends_fmt ["    update_hash_point(proof["; dec ms; " + t0 * "; dec mst; "], proof["; dec (ms + 1); " + t0 * "; dec mst; "], absorbing, "; dec as_; " + t0 * "; dec ast] ");" ltac:(discriminate)).
    - intros n ts L. rewrite <- app_assoc. apply (p_simple_call (24 + List.length xs + 4) (XCall f xs) (TId f :: TSym "(" :: join tks ++ [TSym ")"])%list n ts); [|unfold xs; destruct t; cbn [List.length]; lia].
      apply good_call; [|unfold xs; destruct t; discriminate]. unfold xs, tks. destruct t; repeat (apply Forall2_cons; [first [apply good_lin_i|apply good24_id|apply good24_linear]|]); apply Forall2_nil.
    - intro s. rewrite do_for by (apply us_256; exact Hk). cbn [SolIr.exec]. fold k.
      change 0%Z with (Z.of_N 0). rewrite (loop_hash _ k ms mst as_ ast t (mem s) (t1 s) Hk) with (n := N.to_nat (k + 1)); [reflexivity| |lia|lia].
      intros i a Hi. assert (Bi : (i <= 2 ^ 64)%N) by lia. cbn [SolRead.do_simple]. unfold xs, f. destruct t; cbn [mapo].
      + rewrite (lin_i_arg _ "proof" ms mst i) by (try (left; exact H1); (assumption || reflexivity)). rewrite (linear_arg _ as_ ast i) by (try (left; exact H4); (assumption || reflexivity)).
        change (index E ?s "proof" ?o) with (calldata (e_proof E) o). destruct (calldata _ _); [|reflexivity]. cbn. rewrite N2Z.id. destruct (update_hash_scalar _ _ _ _); reflexivity.
      + rewrite (lin_i_arg _ "proof" ms mst i) by (try (left; exact H1); (assumption || reflexivity)). rewrite (lin_i_arg _ "proof" (ms + 1) mst i) by (try (right; exists ms; split; [exact H1|reflexivity]); (assumption || reflexivity)).
        rewrite (linear_arg _ as_ ast i) by (try (left; exact H4); (assumption || reflexivity)).
        change (index E ?s "proof" ?o) with (calldata (e_proof E) o). destruct (calldata _ (ms + i * mst)); [|reflexivity]. destruct (calldata _ (ms + 1 + i * mst)); [|reflexivity]. cbn. rewrite N2Z.id. destruct (update_hash_point _ _ _ _ _); reflexivity.
  Qed.
  Lemma for_mul_ok st_ sp n t lines : sized_stmt (ForMMMMul st_ sp n t) -> to_solidity_string (ForMMMMul st_ sp n t) = Some lines -> stmt_ok lines (ForMMMMul st_ sp n t).
  Proof.
    destruct st_ as [[l a] c], sp as [[dl da] dc]. intros (H1 & H2 & H3 & H4 & H5 & H6 & H7) H. destruct t; [|discriminate]. cbn [to_solidity_string] in H. apply some_inj in H. subst lines.
    set (xs := [lin_i "m" a da; lin_i "m" c dc; XId "q_mod"]). set (tks := [lin_it "m" a da; lin_it "m" c dc; [TId "q_mod"]]).
    apply (for_stmt _ _ _ false n (lin_it "m" l dl ++ TSym "=" :: (TSym "(" :: join [TId "mulmod" :: TSym "(" :: join tks ++ [TSym ")"]] ++ [TSym ")"]) ++ [TSym ";"])%list (SAssign (lin_i "m" l dl) (XTuple [XCall "mulmod" xs]))).
    - lexing. reflexivity.
    - lexing. reflexivity.
    - reflexivity.
    - apply Forall_cons; [exact (ends_fmt ["for (t0 = 0; t0 < "; dec n] "; t0++) {" ltac:(discriminate))|]. apply Forall_cons; [|apply Forall_cons; [reflexivity|apply Forall_nil]].
      exact (ends_fmt ["    m["; dec l; " + t0 * "; dec dl; "] = (mulmod(m["; dec a; " + t0 * "; dec da; "], m["; dec c; " + t0 * "; dec dc] "], q_mod));" ltac:(discriminate)).
    - intros k ts L.
      assert (G : good (24 + 3 + 4) (XCall "mulmod" xs) (TId "mulmod" :: TSym "(" :: join tks ++ [TSym ")"])).
      { apply (good_call 24 "mulmod" xs tks); [|discriminate]. unfold xs, tks. repeat (apply Forall2_cons; [first [apply good_lin_i|apply good24_id]|]). apply Forall2_nil. }
      replace ((lin_it "m" l dl ++ TSym "=" :: (TSym "(" :: join [TId "mulmod" :: TSym "(" :: join tks ++ [TSym ")"]] ++ [TSym ")"]) ++ [TSym ";"]) ++ ts)%list with (lin_it "m" l dl ++ TSym "=" :: (TSym "(" :: join [TId "mulmod" :: TSym "(" :: join tks ++ [TSym ")"]] ++ [TSym ")"]) ++ TSym ";" :: ts)%list by (rewrite <- app_assoc; cbn [app]; rewrite <- !app_assoc; reflexivity).
      apply (p_simple_assign 40 (lin_i "m" l dl) (lin_it "m" l dl) (XTuple [XCall "mulmod" xs]) (TSym "(" :: join [TId "mulmod" :: TSym "(" :: join tks ++ [TSym ")"]] ++ [TSym ")"])%list); [apply (good_mono 24); [lia|apply good_lin_i]| |lia].
      apply (good_mono (31 + 1 + 4)); [lia|]. apply (good_tuple 31 [XCall "mulmod" xs]); [|discriminate]. apply Forall2_cons; [exact G|apply Forall2_nil].
    - intro s. rewrite do_for by (apply us_256; exact H7). cbn [SolIr.exec].
      change 0%Z with (Z.of_N 0). rewrite (loop_mul _ n (l, a, c) (dl, da, dc) (t1 s) (absorbing s) H7) with (n := N.to_nat n); [reflexivity| |lia|lia].
      intros i m Hi. assert (Bi : (i <= 2 ^ 64)%N) by lia. cbn [SolRead.do_simple].
      set (s' := mkSt m (Z.of_N i) (t1 s) (absorbing s)). assert (T : t0 s' = Z.of_N i) by reflexivity.
      assert (R : rhs s' (XTuple [XCall "mulmod" xs]) = do x <- rd (e_msize E) m (a + i * da); do y <- rd (e_msize E) m (c + i * dc); Some ([mulmod x y q_mod], s')).
      { rewrite rhs_call by discriminate. rewrite ev_call. unfold xs. cbn [mapo]. rewrite (lin_i_arg s' "m" a da i) by (try (left; exact H2); assumption). rewrite (lin_i_arg s' "m" c dc i) by (try (left; exact H3); assumption).
        change (index E s' "m" (a + i * da)) with (rd (e_msize E) m (a + i * da)). change (index E s' "m" (c + i * dc)) with (rd (e_msize E) m (c + i * dc)). destruct (rd _ _ (a + i * da)); [|reflexivity]. destruct (rd _ _ (c + i * dc)); reflexivity. }
      rewrite R. destruct (rd _ _ (a + i * da)) as [x|]; [|reflexivity]. destruct (rd _ _ (c + i * dc)) as [y|]; [|reflexivity]. cbv beta iota.
      change (assign b checked E s' (lin_i "m" l dl) [mulmod x y q_mod]) with (do j <- ev s' (linear l dl); do j <- one j; do m <- wr (e_msize E) m (Z.to_N j) (mulmod x y q_mod); Some (mkSt m (Z.of_N i) (t1 s) (absorbing s))).
      rewrite (linear_ev s' l dl i) by (try (left; exact H1); assumption). cbn [one]. rewrite N2Z.id. reflexivity.
  Qed.

  (** ** The whole body *)
  Notation do_stmts := (do_stmts b checked sha256 E).
  Notation run := (run b checked sha256 E).
  Lemma stmt_text c lines : wt_stmt c -> sized_stmt c -> to_solidity_string c = Some lines -> stmt_ok lines c.
  Proof. destruct c; intros Hw Hs H; [apply assign_ok|apply update_ok|apply for_ok|apply for_mul_ok]; assumption. Qed.
  Lemma lex_lines lines tks X r : Forall2 (fun u t => lex "" u = Some t) lines tks -> Forall (fun u => ends u = true) lines -> lex "" (fmt X) = Some r ->
    lex "" (fmt (flat_map (fun l => [newline; l]) lines ++ X)) = Some (List.concat tks ++ r)%list.
  Proof.
    intros F He HX. induction F as [|u t lines tks Hu F IH]; [exact HX|]. inversion He; subst. cbn [flat_map List.concat app]. change (fmt (newline :: u :: ?x)) with (newline ++ (u ++ fmt x)).
    rewrite lex_app by (right; reflexivity). change (lex "" newline) with (Some (@nil tok)). cbv beta iota. rewrite lex_app by (right; assumption). rewrite Hu, (IH ltac:(assumption)). cbn [app]. rewrite app_assoc. reflexivity.
  Qed.
  Definition rtoks (wx wg : expr) : list tok := (TId "return" :: (TSym "(" :: join (otoks wx ++ otoks wg) ++ [TSym ")"]) ++ [TSym ";"])%list.
  Lemma body_ok wx wg X : operand wx TPoint -> operand wg TPoint -> sized wx -> sized wg -> lex "" (fmt X) = Some (rtoks wx wg) ->
    forall p l, Forall wt_stmt p -> Forall sized_stmt p -> equations p = Some l ->
    exists tks prog, lex "" (fmt (flat_map (fun l => [newline; l]) l ++ X)) = Some (tks ++ rtoks wx wg)%list /\
      (forall n, (List.length tks + 61 <= n)%nat -> p_body n (tks ++ rtoks wx wg)%list = Some (prog, XTuple (atoms wx ++ atoms wg))) /\
      forall s, do_stmts prog s = run p s.
  Proof.
    intros Ox Og Sx Sg HX. induction p as [|c p IH]; intros l Hw Hs He; cbn [equations] in He.
    - apply some_inj in He. subst l. exists [], []. split; [exact HX|]. split; [|reflexivity]. intros n L. destruct n as [|n]; [lia|]. cbn [List.length] in L.
      destruct (opnd wx TPoint Ox Sx) as (ux & _ & _ & _ & Nx & Ax & Gx & Lx & _). destruct (opnd wg TPoint Og Sg) as (ug & _ & _ & _ & Ng & Ag & Gg & Lg & _).
      cbn [app p_body]. unfold rtoks. change ("return" =? "return")%string with true. cbv iota.
      rewrite (good_tuple 24 (atoms wx ++ atoms wg) (otoks wx ++ otoks wg) (Forall2_app Gx Gg) (app_ne _ _ Ax) n ";"%char []); [reflexivity| |reflexivity]. rewrite app_length. lia.
    - destruct (to_solidity_string c) as [lc|] eqn:Ec; [|discriminate]. destruct (equations p) as [lp|] eqn:Ep; [|discriminate]. apply some_inj in He. subst l.
      inversion Hw; subst. inversion Hs; subst. destruct (IH lp) as (tks & prog & L1 & P1 & D1); [assumption..|reflexivity|].
      destruct (stmt_text c lc) as (tc & ast & Fc & Ndc & (t & rest & Hc & Hr) & Pc & Dc); [assumption..|].
      exists (List.concat tc ++ tks)%list, (ast :: prog). split; [|split].
      + rewrite flat_map_app, <- !app_assoc. apply lex_lines; assumption.
      + intros n L. rewrite app_length, Hc in L. cbn [List.length] in L. destruct n as [|n]; [lia|]. rewrite <- app_assoc.
        assert (St : (do (s, ts) <- p_stmt n (List.concat tc ++ tks ++ rtoks wx wg)%list; do (l, e) <- p_body n ts; Some (s :: l, e)) = Some (ast :: prog, XTuple (atoms wx ++ atoms wg))).
        { rewrite Pc by lia. cbv beta iota. rewrite P1 by lia. reflexivity. }
        cbn [p_body]. rewrite Hc in St |- *. cbn [app] in St |- *. destruct t as [r| |]; try exact St. destruct (String.eqb_spec r "return") as [->|]; [contradiction Hr; reflexivity|exact St].
      + intro s. cbn [SolRead.do_stmts SolIr.run]. rewrite Dc. destruct (exec s c); [|reflexivity]. apply D1.
  Qed.
  Lemma ev_tuple4 s l : List.length l = 4%nat -> ev s (XTuple l) = mapo (word1 s) l.
  Proof. destruct l as [|a [|c [|d [|e [|f l]]]]]; try discriminate. reflexivity. Qed.
  Lemma text_body p wx wg text : Forall wt_stmt p -> Forall sized_stmt p -> operand wx TPoint -> operand wg TPoint -> sized wx -> sized wg ->
    get_wx_wg_text p wx wg = Some text ->
    exists prog, read text = Some prog /\ do_body b checked sha256 E prog = get_wx_wg b checked sha256 E p wx wg.
  Proof.
    intros Hw Hs Ox Og Sx Sg Ht. unfold get_wx_wg_text in Ht. destruct (equations p) as [l|] eqn:El; [|discriminate].
    destruct (opnd wx TPoint Ox Sx) as (ux & Ux & Lx & _ & Nx & Ax & _ & _ & _). destruct (opnd wg TPoint Og Sg) as (ug & Ug & Lg & _ & Ng & Ag & _ & _ & _). rewrite Ux, Ug in Ht. apply some_inj in Ht. subst text.
    destruct (body_ok wx wg [newline; "return ("; ux; ", "; ug; ");"] Ox Og Sx Sg) with (p := p) (l := l) as (tks & prog & L & P & D); [|assumption..|].
    - lexing. cbn [List.concat app]. unfold rtoks. cbn [app]. rewrite join_app by assumption. rewrite ?app_nil_r. repeat (rewrite <- ?app_assoc; cbn [app]). reflexivity.
    - exists (prog, XTuple (atoms wx ++ atoms wg)). split.
      + unfold read. rewrite L. apply P. rewrite app_length. lia.
      + unfold do_body, get_wx_wg. cbn [fst snd]. rewrite D. destruct (run p st0) as [s|]; [|reflexivity]. cbv beta iota.
        assert (A4 : List.length (atoms wx ++ atoms wg) = 4%nat).
        { destruct Ox as [Ox Tx], Og as [Og Tg]. rewrite app_length. assert (G : forall e, simple e -> get_type e = TPoint -> List.length (atoms e) = 2%nat).
          { intros e H1 H2. destruct e as [o t|o t|o t|o t|x y|z| | | | | | | | | |t]; cbn [simple get_type] in *; try contradiction H1; try discriminate H2; try (rewrite H2); reflexivity. }
          rewrite !G by assumption. reflexivity. }
        rewrite ev_tuple4 by exact A4. rewrite mapo_app. rewrite !atoms_words by (assumption || apply Ox || apply Og).
        destruct (eval s wx) as [vx|] eqn:Vx; [|reflexivity]. destruct (eval s wg) as [vg|] eqn:Vg; [|reflexivity].
        destruct (typed wx TPoint s vx Ox Vx) as (x0 & y0 & ->). destruct (typed wg TPoint s vg Og Vg) as (x1 & y1 & ->). reflexivity.
  Qed.
End Sem.
